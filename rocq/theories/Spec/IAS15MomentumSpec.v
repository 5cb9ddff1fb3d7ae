(** * Momentum in the IAS15 integrator (C70) *)
From Coq Require Import Reals List Bool.
From Verif Require Import Base.Num Base.Vec Model.Particle Model.Universe Model.IAS15 Spec.EffectsSpec Spec.UniverseSpec Spec.IAS15Spec.
Import ListNotations.
Open Scope R_scope.

(** no effect that pushes a body is enabled (a wind and the evolution of a body may be) *)
Definition unpushed (e : effects) : Prop := e_tides e = false /\ e_disk e = false /\ e_rf e = false /\ e_gr e = false.
(** sums of what belongs to the bodies, weighted with their masses *)
Definition total (m x : list R) : R := Rsum (map (fun mx => fst mx * snd mx) (combine m x)).
(** the stored coefficients of the bodies, weighted with the masses, cancel: so they do when they
    are all zero *)
Definition balanced (s : ias (F := R)) : Prop :=
  forall (x : forall A, vec A -> A) (f : memory (F := R) -> coeffs (F := R)) (q : coeffs (F := R) -> R),
    axis x -> In f [m_b; m_br; m_e; m_er] -> In q [q0; q1; q2; q3; q4; q5; q6] ->
    total (map p_mass (u_particles (ia_u s))) (map (fun k => q (f (x _ (k_a k)))) (ia_tracks s)) = 0.
