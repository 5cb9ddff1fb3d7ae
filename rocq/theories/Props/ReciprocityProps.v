(** * Theorems on effects that act between bodies (property C71) *)
From Coq Require Import Reals List Bool.
From Verif Require Import Base.Num Base.Result Base.Trans Base.Vec Model.Particle Model.Creep Model.Relativity Model.Universe Model.LeapFrog Model.IAS15 Model.WHFast
  Spec.EffectsSpec Spec.UniverseSpec Spec.IAS15Spec Spec.IAS15MomentumSpec Spec.ReciprocitySpec Spec.WHFastSpec
  Proofs.GravityProofs Proofs.FrameProofs Proofs.ReciprocityRuns Proofs.ReciprocityExamples Proofs.UniverseExamples Proofs.ReciprocityWHFast Proofs.ReciprocityWHFastExamples.
Import ListNotations.
Open Scope R_scope.

(** ** C71 *)
(** One evaluation of the effects: whatever is enabled, what is added to the accelerations of
    the bodies carries no net force, and the premise is kept. *)
Theorem C71_forces `{Trans R} `{Floor R} `{Fuel} t ev dL ig (u u' : universe R) : reciprocal u ->
  additional_effects t ev dL true ig u = Ok u' ->
  net_force p_iadd (u_particles u') = vzero /\ reciprocal u'.
Proof. exact (fun Hr E => conj (proj2 (proj2 (effects_no_force t ev dL ig u u' Hr E))) (proj1 (effects_no_force t ev dL ig u u' Hr E))). Qed.
(** any number of LeapFrog steps *)
Theorem C71_leapfrog `{Trans R} `{Floor R} `{Fuel} n t dt half (u u' : universe R) :
  reciprocal u -> roche_square u -> half = dt / 2 -> lf_steps n t dt half u = Ok u' ->
  momentum (u_particles u') = momentum (u_particles u) /\
  weighted p_ipos (u_particles u') = vadd (weighted p_ipos (u_particles u)) (vscale (INR n * dt) (momentum (u_particles u))) /\
  reciprocal u' /\ roche_square u'.
Proof. exact (lf_mutual n t dt half u u'). Qed.
(** any number of IAS15 steps of any length *)
Theorem C71_ias15 `{Trans R} `{Floor R} `{Fuel} n (s s' : ias (F := R)) :
  reciprocal (ia_u s) -> roche_square (ia_u s) -> shaped s -> rested s -> balanced s ->
  ias_steps n s = Ok s' ->
  momentum (u_particles (ia_u s')) = momentum (u_particles (ia_u s)) /\
  weighted p_ipos (u_particles (ia_u s')) =
    vadd (weighted p_ipos (u_particles (ia_u s))) (vscale (ia_t s' - ia_t s) (momentum (u_particles (ia_u s)))) /\
  (reciprocal (ia_u s') /\ roche_square (ia_u s') /\ shaped s' /\ rested s' /\ balanced s').
Proof. exact (ias_mutual n s s'). Qed.
(** a star and a planet with tides, flattening, relativity and a disk, all enabled *)
Example C71_example `{Trans R} `{Floor R} `{Fuel} : reciprocal full_u /\ roche_square full_u /\
  u_effects full_u = Effects true true true true false false /\ exists u', lf_steps 1 0 1 (1 / 2) full_u = Ok u'.
Proof. exact (conj full_reciprocal (conj full_square (conj eq_refl full_run))). Qed.

(** any number of WHFast steps, in each of the three coordinates *)
Theorem C71_whfast `{Trans R} `{Floor R} `{Fuel} n t dt half (w w' : whfast R) :
  engaged w -> wh_steps n t dt half w = Ok w' ->
  momentum (u_particles (w_u w')) = momentum (u_particles (w_u w)) /\
  weighted p_ipos (u_particles (w_u w')) =
    vadd (weighted p_ipos (u_particles (w_u w))) (vscale (INR n * (half + half)) (momentum (u_particles (w_u w)))) /\
  engaged w'.
Proof. exact (wh_mutual dt half n t w w'). Qed.
(** the same two bodies; the part of a step that applies the effects returns *)
Example C71_whfast_example `{Trans R} `{Floor R} `{Fuel} c t dt : engaged (new_whfast full_u c) /\
  integrate_spin full_u = true /\ exists w', velocity_dependent t dt true true (new_whfast full_u c) = Ok w'.
Proof. exact (conj (full_engaged c) (conj eq_refl (full_vd t dt c))). Qed.

Print Assumptions C71_forces.
Print Assumptions C71_leapfrog.
Print Assumptions C71_ias15.
Print Assumptions C71_whfast.
