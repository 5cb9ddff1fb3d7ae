(** * The WHFast step as a Wisdom-Holman splitting (C62, C63)

    The Hamiltonian of gravitating bodies is split into Kepler motions of the
    coordinates, a jump and a kick.  The three relations below are written so that the
    sum of the three rates is visibly Newton's equations: a Kepler motion moves a
    position [q] with its velocity [v] and accelerates it with [- central mu 0 q]; the
    jump moves [q] with the rest of its true rate, and the kick accelerates [v] with the
    rest of its true rate. *)
From Coq Require Import Reals List Bool.
From Verif Require Import Base.Num Base.Result Base.Trans Base.Vec Model.Constants Model.Particle Model.Creep Model.Universe Model.WHFast
  Spec.EffectsSpec Spec.UniverseSpec Spec.WHFastSpec.
Import ListNotations.
Open Scope R_scope.

(** a host and the other bodies *)
Definition system : Type := particle R * list (particle R).
Definition all (s : system) : list (particle R) := fst s :: snd s.
Definition same_masses (s s' : system) : Prop := map p_mass (all s') = map p_mass (all s).

(** a vector attached to every body (position, velocity, acceleration), transformed
    like the positions and like the velocities *)
Definition pos_frame (c : coordinates) (f : particle R -> vec R) (s : system) : list (vec R) :=
  match c with
  | Jacobi => jacobi_frame f [fst s] (snd s)
  | _ => map (fun p => vsub (f p) (f (fst s))) (snd s)
  end.
Definition vel_frame (c : coordinates) (f : particle R -> vec R) (s : system) : list (vec R) :=
  match c with
  | Jacobi => jacobi_frame f [fst s] (snd s)
  | DemocraticHeliocentric => map (fun p => vsub (f p) (mean f (all s))) (snd s)
  | WHDS => map (fun p => vscale ((p_mass (fst s) + p_mass p) / p_mass (fst s)) (vsub (f p) (mean f (all s)))) (snd s)
  end.
Definition positions (c : coordinates) (s : system) : list (vec R) := pos_frame c p_ipos s.
Definition velocities (c : coordinates) (s : system) : list (vec R) := vel_frame c p_ivel s.

(** Newton's acceleration of a body by a list of bodies (which may contain the body
    itself: that term is zero) *)
Definition pulled (l : list (particle R)) (p : particle R) : vec R := Vsum (map (attraction G p) l).

(** the mass around which each position turns *)
Fixpoint inner_masses (m : R) (l : list (particle R)) : list R :=
  match l with [] => [] | p :: l => (m + p_mass p) :: inner_masses (m + p_mass p) l end.
Definition kepler_masses (c : coordinates) (s : system) : list R :=
  match c with
  | Jacobi => inner_masses (p_mass (fst s)) (snd s)
  | DemocraticHeliocentric => map (fun _ => p_mass (fst s)) (snd s)
  | WHDS => map (fun p => p_mass (fst s) + p_mass p) (snd s)
  end.
(** softened attraction of a central mass, with the sign changed *)
Definition central (mu eps : R) (q : vec R) : vec R := vscale (G * mu / sqrt (norm2 q + eps) ^ 3) q.
(** in Jacobi coordinates the code softens the attraction of all bodies but the first *)
Definition softenings (c : coordinates) (s : system) : list R :=
  match c, snd s with
  | Jacobi, p :: l => 0 :: map (fun _ => 1 / 10 ^ 12) l
  | _, l => map (fun _ => 0) l
  end.

Definition zip_with3 {A B C D} (f : A -> B -> C -> D) (a : list A) (b : list B) (c : list C) : list D :=
  map (fun t => f (fst (fst t)) (snd (fst t)) (snd t)) (combine (combine a b) c).

Section Parts.
  Context `{Trans R} `{Floor R} `{Fuel}.

  (** [x], [v] are moved to [x'], [v'] by the Kepler solver (see C18) *)
  Definition drift (h mu : R) (x v x' v' : vec R) : Prop :=
    exists a a', a_pos a = x /\ a_vel a = v /\ a_pos a' = x' /\ a_vel a' = v' /\ kepler_step (G * mu) h a = Ok a'.
  Inductive drifts (h : R) : list R -> list (vec R) -> list (vec R) -> list (vec R) -> list (vec R) -> Prop :=
  | drifts_nil : drifts h [] [] [] [] []
  | drifts_cons mu x v x' v' mus xs vs xs' vs' : drift h mu x v x' v' -> drifts h mus xs vs xs' vs' ->
      drifts h (mu :: mus) (x :: xs) (v :: vs) (x' :: xs') (v' :: vs').

  Definition kepler_part (c : coordinates) (h : R) (s s' : system) : Prop :=
    same_masses s s'
    /\ mean p_ivel (all s') = mean p_ivel (all s)
    /\ mean p_ipos (all s') = vadd (mean p_ipos (all s)) (vscale h (mean p_ivel (all s)))
    /\ drifts h (kepler_masses c s) (positions c s) (velocities c s) (positions c s') (velocities c s').
End Parts.

Definition jump_part (c : coordinates) (h : R) (s s' : system) : Prop :=
  same_masses s s'
  /\ mean p_ivel (all s') = mean p_ivel (all s) /\ mean p_ipos (all s') = mean p_ipos (all s)
  /\ velocities c s' = velocities c s
  /\ positions c s' = zip_with3 (fun q v rate => vadd q (vscale h (vsub rate v)))
                        (positions c s) (velocities c s) (pos_frame c p_ivel s).

Definition kick_part (c : coordinates) (h : R) (s s' : system) : Prop :=
  same_masses s s'
  /\ mean p_ivel (all s') = mean p_ivel (all s) /\ mean p_ipos (all s') = mean p_ipos (all s)
  /\ positions c s' = positions c s
  /\ velocities c s' = zip_with3 (fun v rate k => vadd v (vscale h (vadd rate k)))
                         (velocities c s) (vel_frame c (pulled (all s)) s)
                         (zip_with3 central (kepler_masses c s) (softenings c s) (positions c s)).

(** the bodies of an integrator around its host *)
Definition splits (u : universe R) (s : system) : Prop :=
  nth_error (u_particles u) (h_most_massive (u_hosts u)) = Some (fst s)
  /\ snd s = except (h_most_massive (u_hosts u)) (u_particles u).
(** the gravitational parameters stored with the bodies *)
Definition masses_g (u : universe R) : Prop := Forall (fun p => p_mass_g p = G * p_mass p) (u_particles u).

(** angular momentum of the coordinates, without that of the centre of mass *)
Definition internal_momentum (c : coordinates) (s : system) : vec R :=
  cross_sum (coordinate_masses c (fst s) (snd s)) (positions c s) (velocities c s).

(** ** Outcomes of a step *)
(** the value of a computation once the iteration bound is large enough *)
Definition settles {A} (f : Fuel -> res A) (r : res A) : Prop := exists N, forall n, (N <= n)%nat -> f {| fuel := n |} = r.
Definition returns {A} (f : Fuel -> res A) : Prop := exists a, settles f (Ok a).
(** all masses are positive, no body is a point *)
Definition positive (u : universe R) : Prop := Forall (fun p => 0 < p_mass p) (u_particles u).
Definition inertias (u : universe R) : Prop := Forall (fun p => p_inertia p <> 0) (u_particles u).
(** what the program reports when bodies meet or one is lost *)
Definition encounter (p : panic) : Prop :=
  match p with PRocheLimit _ _ | PCollision _ _ | PEjected _ => True | _ => False end.
