(** * Mechanics of a system of bodies (C11-C15, C39, C40, C43, C44, C53, C54) *)
From Coq Require Import Reals List Bool Permutation.
From Verif Require Import Base.Num Base.Vec Model.Particle Model.Universe Spec.EffectsSpec.
Import ListNotations.
Open Scope R_scope.

(** all bodies but the [i]-th *)
Definition except {A} (i : nat) (l : list A) : list A := firstn i l ++ skipn (S i) l.

(** ** Gravity *)
(** acceleration of [a] by [b] *)
Definition attraction (g : R) (a b : particle R) : vec R :=
  vscale (g * p_mass b / separation a b ^ 3) (vsub (p_ipos b) (p_ipos a)).
Definition newton (g : R) (i : nat) (a : particle R) (bodies : list (particle R)) : vec R :=
  Vsum (map (attraction g a) (except i bodies)).
Definition gravitational_acc (b : particle R) : vec R := p_iacc b.
Definition no_torque (b : particle R) : vec R := vzero.
(** the same system after an isometry of space followed by a translation *)
Definition displaced (q : isometry) (v : vec R) (p : particle R) : particle R :=
  set_p_ipos (vadd (iso q (p_ipos p)) v) p.

(** ** Totals *)
Definition total_mass (l : list (particle R)) : R := Rsum (map p_mass l).
Definition weighted (f : particle R -> vec R) (l : list (particle R)) : vec R :=
  Vsum (map (fun p => vscale (p_mass p) (f p)) l).
Definition momentum (l : list (particle R)) : vec R := weighted p_ivel l.
Definition orbital_momentum (l : list (particle R)) : vec R :=
  Vsum (map (fun p => vscale (p_mass p) (vcross (p_ipos p) (p_ivel p))) l).
(** mass-weighted mean *)
Definition mean (f : particle R -> vec R) (l : list (particle R)) : vec R :=
  vscale (/ total_mass l) (weighted f l).
(** sum over unordered pairs *)
Fixpoint Rsum_pairs {A} (f : A -> A -> R) (l : list A) : R :=
  match l with [] => 0 | a :: l => Rsum (map (f a) l) + Rsum_pairs f l end.
(** kinetic plus pairwise potential energy of bodies with positions [x] and velocities [v] *)
Definition energy (g : R) (x v : particle R -> vec R) (l : list (particle R)) : R :=
  Rsum (map (fun p => 1 / 2 * p_mass p * norm2 (v p)) l)
  - Rsum_pairs (fun a b => g * p_mass a * p_mass b / sqrt (norm2 (vsub (x b) (x a)))) l.
Definition reversed (p : particle R) : particle R := set_p_ivel (vneg (p_ivel p)) p.

(** ** Spin *)
Definition inertia_ok (p : particle R) : Prop := p_inertia p = p_mass p * p_rg2 p * (p_radius p * p_radius p).
Definition spin_ok (p : particle R) : Prop :=
  vscale (p_inertia p) (p_spin p) = p_L p /\ p_spin2 p = norm2 (p_spin p).

(** ** Hosts *)
(** [i] is the position of the heaviest body, the first one on ties *)
Definition heaviest (l : list (particle R)) (i : nat) : Prop :=
  exists p, nth_error l i = Some p
  /\ (forall j q, nth_error l j = Some q -> p_mass q <= p_mass p)
  /\ (forall j q, nth_error l j = Some q -> (j < i)%nat -> p_mass q < p_mass p).
(** [i] is the position of the only body satisfying [c] *)
Definition the_only {A} (c : A -> bool) (l : list A) (i : nat) : Prop :=
  exists p, nth_error l i = Some p /\ c p = true
  /\ forall j q, nth_error l j = Some q -> c q = true -> j = i.
Definition two_of {A} (c : A -> bool) (l : list A) : Prop :=
  exists i j p q, i <> j /\ nth_error l i = Some p /\ nth_error l j = Some q /\ c p = true /\ c q = true.

(** Roche limit of two bodies: the lighter one is disrupted *)
Definition roche_limit (cube_root : R -> R) (heavy light : particle R) : R :=
  p_radius light / (462 / 1000) * cube_root (p_mass heavy / p_mass light).

(** ** State relative to a host *)
Definition relative_to (h p : particle R) (pos vel : vec R) (distance radial_velocity speed : R) : Prop :=
  pos = vsub (p_ipos p) (p_ipos h) /\ vel = vsub (p_ivel p) (p_ivel h)
  /\ distance = sqrt (norm2 pos) /\ radial_velocity = vdot pos vel / distance /\ speed = sqrt (norm2 vel).

(** ** Sums over the enabled effects *)
Definition only_if (b : bool) (v : vec R) : vec R := if b then v else vzero.
Definition enabled_acceleration (e : effects) (p : particle R) : vec R :=
  Vsum [only_if (e_tides e) (t_acc (p_tides p)); only_if (e_disk e) (dk_acc (p_disk p));
        only_if (e_rf e) (rf_acc (p_rf p)); only_if (e_gr e) (gr_acc (p_gr p))].
Definition enabled_torque (e : effects) (p : particle R) : vec R :=
  Vsum [only_if (e_tides e) (t_dL (p_tides p)); only_if (e_rf e) (rf_dL (p_rf p));
        only_if (e_gr e) (gr_dL (p_gr p)); only_if (e_wind e) (w_dL (p_wind p))].

(** no additional effect is enabled *)
Definition plain (u : universe R) : Prop := u_effects u = Effects false false false false false false.
