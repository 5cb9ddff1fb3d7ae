(** * Coordinates of the WHFast integrator and two-body motion (C16-C19, C52, C54, C61, C62) *)
From Coq Require Import Reals List Bool.
From Verif Require Import Base.Num Base.Result Base.Trans Base.Vec Model.Particle Model.Creep Model.Relativity Model.Universe Model.WHFast Spec.EffectsSpec Spec.UniverseSpec.
Import ListNotations.
Open Scope R_scope.

(** ** Coordinates *)
(** the masses do not cancel *)
Definition usable (c : coordinates) (star : particle R) (o : list (particle R)) : Prop :=
  match c with
  | Jacobi => forall k, total_mass (star :: firstn k o) <> 0
  | DemocraticHeliocentric => p_mass star <> 0 /\ total_mass (star :: o) <> 0
  | WHDS => p_mass star <> 0 /\ total_mass (star :: o) <> 0 /\ Forall (fun p => p_mass star + p_mass p <> 0) o
  end.

(** Jacobi coordinates: every body relative to the centre of mass of the bodies
    before it ([inside]); [f] is the position, velocity or acceleration *)
Fixpoint jacobi_frame (f : particle R -> vec R) (inside l : list (particle R)) : list (vec R) :=
  match l with
  | [] => []
  | p :: l => vsub (f p) (mean f inside) :: jacobi_frame f (inside ++ [p]) l
  end.
(** their reduced masses *)
Fixpoint jacobi_masses (inside l : list (particle R)) : list R :=
  match l with
  | [] => []
  | p :: l => p_mass p * total_mass inside / total_mass (inside ++ [p]) :: jacobi_masses (inside ++ [p]) l
  end.

Definition coordinate_pos (c : coordinates) (star : particle R) (o : list (particle R)) : list (vec R) :=
  match c with
  | Jacobi => jacobi_frame p_ipos [star] o
  | _ => map (fun p => vsub (p_ipos p) (p_ipos star)) o
  end.
Definition coordinate_vel (c : coordinates) (star : particle R) (o : list (particle R)) : list (vec R) :=
  match c with
  | Jacobi => jacobi_frame p_ivel [star] o
  | DemocraticHeliocentric => map (fun p => vsub (p_ivel p) (mean p_ivel (star :: o))) o
  | WHDS => map (fun p => vscale ((p_mass star + p_mass p) / p_mass star) (vsub (p_ivel p) (mean p_ivel (star :: o)))) o
  end.
(** the mass of every coordinate in momenta *)
Definition coordinate_masses (c : coordinates) (star : particle R) (o : list (particle R)) : list R :=
  match c with
  | Jacobi => jacobi_masses [star] o
  | DemocraticHeliocentric => map p_mass o
  | WHDS => map (fun p => p_mass p * p_mass star / (p_mass star + p_mass p)) o
  end.
(** sum of [m x × y] *)
Definition cross_sum (m : list R) (x y : list (vec R)) : vec R :=
  Vsum (map (fun t => vscale (fst (fst t)) (vcross (snd (fst t)) (snd t))) (combine (combine m x) y)).

(** the bodies of the model *)
Definition of_bodies (r : body R * list (body R)) : list (particle R) := map fst (fst r :: snd r).

(** ** Two-body motion *)
(** the Stiefel functions of [beta] at universal anomaly [s] satisfy the identities of
    G_n(s) = s^n c_n(beta s^2) *)
Definition stiefel_identities (beta s : R) (g : stumpff R) : Prop :=
  cs0 g = 1 - beta * cs2 g /\ cs1 g = s - beta * cs3 g /\ cs1 g ^ 2 = cs2 g * (1 + cs0 g).
(** the functions themselves: derivatives and initial values *)
Definition stiefel_functions (beta : R) (g : R -> stumpff R) : Prop :=
  g 0 = Cs 1 0 0 0
  /\ forall s, derivable_pt_lim (fun s => cs0 (g s)) s (- beta * cs1 (g s))
     /\ derivable_pt_lim (fun s => cs1 (g s)) s (cs0 (g s))
     /\ derivable_pt_lim (fun s => cs2 (g s)) s (cs1 (g s))
     /\ derivable_pt_lim (fun s => cs3 (g s)) s (cs2 (g s)).
(** Kepler's equation in universal variables: time since the start, and distance *)
Definition universal_time (mu : R) (x v : vec R) (s : R) (g : stumpff R) : R :=
  let r0 := sqrt (norm2 x) in
  let beta := 2 * mu / r0 - norm2 v in
  r0 * s + vdot x v * cs2 g + (mu - beta * r0) * cs3 g.
Definition universal_radius (mu : R) (x v : vec R) (g : stumpff R) : R :=
  let r0 := sqrt (norm2 x) in
  let beta := 2 * mu / r0 - norm2 v in
  r0 + vdot x v * cs1 g + (mu - beta * r0) * cs2 g.
Definition two_body_energy (mu : R) (x v : vec R) : R := norm2 v / 2 - mu / sqrt (norm2 x).
(** twice the energy, with the sign changed *)
Definition orbit_beta (mu : R) (x v : vec R) : R := 2 * mu / sqrt (norm2 x) - norm2 v.
(** derivative of a vector-valued function *)
Definition vderive (f : R -> vec R) (s : R) (d : vec R) : Prop :=
  derivable_pt_lim (fun s => vx (f s)) s (vx d) /\ derivable_pt_lim (fun s => vy (f s)) s (vy d)
  /\ derivable_pt_lim (fun s => vz (f s)) s (vz d).
(** [pos] and [vel] as functions of a parameter with time [t] solve x'' = - mu x / |x|^3;
    the time grows with the parameter *)
Definition two_body_motion (mu : R) (t : R -> R) (pos vel : R -> vec R) : Prop :=
  forall s, exists dt, 0 < dt /\ derivable_pt_lim t s dt /\ vderive pos s (vscale dt (vel s))
    /\ vderive vel s (vscale (dt * (- mu / sqrt (norm2 (pos s)) ^ 3)) (pos s)).

(** ** The implicit midpoint rule *)
(** velocity and spin of a body after an update with the rates of the evaluated body [p] *)
Definition updated (dt : R) (spin : bool) (start p : particle R) : vec R * vec R :=
  (vadd (p_ivel start) (vscale dt (p_iadd p)), if spin then vadd (p_L start) (vscale dt (p_dL p)) else p_L start).
(** the body [p] with given velocity and spin *)
Definition with_vl (spin : bool) (p : particle R) (x : vec R * vec R) : particle R :=
  let p := set_p_ivel (fst x) p in if spin then set_p_L (snd x) p else p.
Definition halfway (x y : vec R * vec R) : vec R * vec R :=
  (vscale (1/2) (vadd (fst x) (fst y)), vscale (1/2) (vadd (snd x) (snd y))).
Definition zip {A B C} (f : A -> B -> C) (a : list A) (b : list B) : list C := map (fun x => f (fst x) (snd x)) (combine a b).
Section Iterates.
  Context `{Trans R} `{Floor R} `{Fuel}.
  Variables (t dt : R) (spin evolution : bool) (c : coordinates) (start : universe R).
  Definition rates (ev : bool) (u : universe R) : res (universe R) :=
    rbind (inertial_to_heliocentric u) (additional_effects t ev spin true (ignored c)).
  Definition midpoint_of (u : universe R) : universe R :=
    set_particles (zip (fun s p => with_vl spin p (halfway (p_ivel s, p_L s) (updated dt spin s p))) (u_particles start) (u_particles u)) u.
  (** [k] evaluations end in [u]: the first one at the start, the others halfway
      between the start and the previous update *)
  Inductive evaluations : nat -> universe R -> Prop :=
  | first_evaluation u : rates evolution start = Ok u -> evaluations 1 u
  | next_evaluation k u u' : evaluations k u -> rates false (midpoint_of u) = Ok u' -> evaluations (S k) u'.
  (** the relative change between two updates is below [tol] *)
  Definition settled (tol : R) (u u' : universe R) : Prop :=
    let old := zip (updated dt spin) (u_particles start) (u_particles u) in
    let new := zip (updated dt spin) (u_particles start) (u_particles u') in
    let change f := Rsum (zip (fun a b : vec R * vec R => norm2 (vsub (f a) (f b))) new old) in
    let size f := Rsum (map (fun a : vec R * vec R => norm2 (f a)) new) in
    change fst / size fst < tol /\ (spin = true -> change snd / size snd < tol).
End Iterates.

(** ** States of the integrator *)
(** one coordinate slot and one compensation per body *)
Definition sized {F} (w : whfast F) : Prop :=
  length (w_alt w) = length (u_particles (w_u w)) /\ length (w_verr w) = length (u_particles (w_u w))
  /\ length (w_Lerr w) = length (u_particles (w_u w)).
(** no compensation of rounding errors is pending *)
Definition compensated (spin : bool) (w : whfast R) : Prop :=
  Forall (fun v => v = vzero) (w_verr w) /\ (spin = true -> Forall (fun v => v = vzero) (w_Lerr w)).
(** only gravity acts; there is a host, and the masses do not cancel *)
Definition ready (w : whfast R) : Prop :=
  plain (w_u w) /\ sized w /\ length (u_roche (w_u w)) = length (u_particles (w_u w)) /\ Forall (fun v => v = vzero) (w_verr w)
  /\ exists star, nth_error (u_particles (w_u w)) (h_most_massive (u_hosts (w_u w))) = Some star
     /\ usable (w_type w) star (except (h_most_massive (u_hosts (w_u w))) (u_particles (w_u w))).
