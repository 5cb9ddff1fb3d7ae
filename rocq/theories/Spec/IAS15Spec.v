(** * The fitted polynomial of the IAS15 integrator (C20-C24) *)
From Coq Require Import Reals List Bool.
From Verif Require Import Base.Num Base.Result Base.Trans Base.Vec Model.Particle Model.Creep Model.Universe Model.WHFast Model.IAS15
  Spec.EffectsSpec Spec.UniverseSpec.
Import ListNotations.
Open Scope R_scope.

(** the acceleration at the fraction [h] of the step *)
Definition accel (a0 : R) (b : coeffs (F := R)) (h : R) : R :=
  a0 + q0 b * h + q1 b * h ^ 2 + q2 b * h ^ 3 + q3 b * h ^ 4 + q4 b * h ^ 5 + q5 b * h ^ 6 + q6 b * h ^ 7.
(** motion under the acceleration [a] during a step of length [dt], in units of the step *)
Record motion (dt x0 v0 : R) (a X V : R -> R) : Prop := {
  m_x0 : X 0 = x0; m_v0 : V 0 = v0;
  m_dx : forall h, derivable_pt_lim X h (dt * V h);
  m_dv : forall h, derivable_pt_lim V h (dt * a h) }.
Definition magnitude (b : coeffs (F := R)) : R :=
  Rabs (q0 b) + Rabs (q1 b) + Rabs (q2 b) + Rabs (q3 b) + Rabs (q4 b) + Rabs (q5 b) + Rabs (q6 b).

(** one of the three axes *)
Definition axis (x : forall A : Type, vec A -> A) : Prop := x = @vx \/ x = @vy \/ x = @vz.
(** position and velocity at the fraction [h] of the step, when the acceleration is the
    polynomial with coefficients [b] *)
Definition travels (dt x0 v0 a0 : R) (b : coeffs (F := R)) (h x v : R) : Prop :=
  exists X V, motion dt x0 v0 (accel a0 b) X V /\ x = X h /\ v = V h.
(** the same for the angular momentum and the torque *)
Definition turns (dt L0 t0 : R) (b : coeffs (F := R)) (h L : R) : Prop :=
  exists Y, Y 0 = L0 /\ (forall h, derivable_pt_lim Y h (dt * accel t0 b h)) /\ L = Y h.
(** the accuracy of the tables, which have 25 digits *)
Definition table_error : R := 1 / 10 ^ 19.
(** no compensation is pending *)
Definition rested (s : ias (F := R)) : Prop :=
  Forall (fun k => k_csx k = vzero /\ k_csv k = vzero /\ k_css k = vzero) (ia_tracks s).

Section Any.
  Context {F : Type} `{Num F} `{Trans F} `{Floor F} `{Creep.Fuel}.
  (** one record of coefficients and one row of the Roche table for each particle *)
  Definition shaped (s : ias (F := F)) : Prop :=
    length (ia_tracks s) = length (u_particles (ia_u s)) /\ length (u_roche (ia_u s)) = length (u_particles (ia_u s)).
  (** the part of a particle that the integrators move *)
  Definition moves (p : particle F) : vec F * vec F * vec F := (p_ipos p, p_ivel p, p_L p).
  (** [k] rejected attempts *)
  Inductive retries : nat -> ias (F := F) -> ias (F := F) -> Prop :=
  | retry_0 s : retries 0 s s
  | retry_S k s s1 s2 : attempt s = Ok (inl s1) -> retries k s1 s2 -> retries (S k) s s2.
End Any.
