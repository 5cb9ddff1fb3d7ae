(** * Theorems on the total angular momentum with tides and flattening (property C72) *)
From Coq Require Import Reals List Bool.
From Verif Require Import Base.Num Base.Result Base.Trans Base.Vec Model.Particle Model.Creep Model.Relativity Model.Universe Model.LeapFrog
  Spec.EffectsSpec Spec.UniverseSpec Spec.AngularSpec
  Proofs.GravityProofs Proofs.AngularRuns Proofs.AngularExamples.
Import ListNotations.
Open Scope R_scope.

(** ** C72 *)
(** One evaluation with constant-time-lag tides, and flattening or not: the torque of the forces on
    the orbits and the torques on the rotations add up to what the rotations stored before the
    evaluation differ by, along the lines to the host, from the rotations of the bodies. *)
Theorem C72_evaluation `{Trans R} `{Floor R} `{Fuel} t ev ig (u0 u u' : universe R) : tidal_system u0 -> clear_of_host u0 ->
  inertial_to_heliocentric u0 = Ok u -> additional_effects t ev true true ig u = Ok u' ->
  net_torque p_iadd p_dL (u_particles u') = stale_torques (h_most_massive (u_hosts u)) (u_particles u) (u_particles u').
Proof. exact (evaluation_torque t ev ig u0 u u'). Qed.
(** They cancel when the stored rotations are those of the bodies. *)
Theorem C72_balance `{Trans R} `{Floor R} `{Fuel} t ev ig (u0 u u' : universe R) : tidal_system u0 -> clear_of_host u0 -> Forall fresh (u_particles u0) ->
  inertial_to_heliocentric u0 = Ok u -> additional_effects t ev true true ig u = Ok u' ->
  net_torque p_iadd p_dL (u_particles u') = vzero.
Proof. exact (fresh_balance t ev ig u0 u u'). Qed.
(** Any number of LeapFrog steps: the total of orbits and rotations changes by exactly the
    errors of the steps. *)
Theorem C72_leapfrog `{Trans R} `{Floor R} `{Fuel} n t dt half (u u' : universe R) : tidal_system u -> roche_square u -> half = dt / 2 ->
  lf_steps n t dt half u = Ok u' ->
  exists es, errors_of n t dt half u es /\
    whole_momentum (u_particles u') = vadd (whole_momentum (u_particles u)) (Vsum es) /\ tidal_system u' /\ roche_square u'.
Proof. exact (run_error_of n t dt half u u'). Qed.
(** The errors are not zero: a step does not keep the total. *)
Theorem C72_conservation_refuted `{Trans R} `{Floor R} `{Fuel} : exists (u u' : universe R), tidal_system u /\ roche_square u /\
  lf_step 0 2 1 u = Ok u' /\ whole_momentum (u_particles u') <> whole_momentum (u_particles u).
Proof. exact step_not_conserving. Qed.
(** its star and planet *)
Example C72_example `{Trans R} `{Floor R} `{Fuel} : tidal_system slow_u /\ roche_square slow_u /\ clear_of_host slow_u /\ Forall fresh (u_particles slow_u) /\
  (exists u', lf_step 0 2 1 slow_u = Ok u') /\
  forall u', lf_step 0 2 1 slow_u = Ok u' -> whole_momentum (u_particles u') = vadd (whole_momentum (u_particles slow_u)) (Vec 0 0 (- drag ^ 2)).
Proof. exact (conj slow_tidal (conj slow_square (conj slow_clear (conj slow_fresh (conj slow_step slow_change))))). Qed.

Print Assumptions C72_evaluation.
Print Assumptions C72_balance.
Print Assumptions C72_leapfrog.
Print Assumptions C72_conservation_refuted.
