(** * Evolving bodies in a simulation (property C80) *)
From Coq Require Import Reals List.
From Verif Require Import Base.Num Base.Result Base.Trans Base.Vec Model.Particle Model.Interp Model.Creep Model.Universe Model.LeapFrog Model.WHFast
  Spec.UniverseSpec Spec.TablesSpec Spec.EvolvingRunSpec Proofs.EvolvingRun Proofs.EvolvingRunWH Proofs.EvolvingExamples Proofs.EvolvingExamplesWH.
Import ListNotations.
Open Scope R_scope.

Section C80.
  Context `{Trans R} `{Floor R} `{Fuel}.
  (** After the initialization and any number of steps and outputs, every output gives every body the size of its table at the
      time of the output; what the table does not give is as it was at the start. *)
  Theorem C80_sizes dt half t u T u1 u2 i e p :
    evolving u -> 0 <= half -> simulated dt half t u T u1 -> refresh_for_output T u1 = Ok u2 ->
    nth_error (u_evolvers u) i = Some e -> nth_error (u_particles u2) i = Some p ->
    has_size_of e T p /\ exists p0, nth_error (u_particles u) i = Some p0 /\ keeps_size_of e p0 p.
  Proof. exact (output_sizes dt half t u T u1 u2 i e p). Qed.

  (** The rotation written is the angular momentum over the moment of inertia of the size written,
      whatever effects are enabled. *)
  Theorem C80_rotation dt half t u T u1 u2 :
    Forall inertia_ok (u_particles u) -> simulated dt half t u T u1 -> refresh_for_output T u1 = Ok u2 ->
    Forall (fun p => vscale (moment p) (p_spin p) = p_L p) (u_particles u2).
  Proof. exact (output_rotation dt half t u T u1 u2). Qed.

  (** Without torques the angular momentum of every body is that of the start, and so a body that
      contracts spins up. *)
  Theorem C80_angular_momentum dt half t u T u1 u2 i p :
    no_torques u -> Forall (fun p => p_dL p = vzero) (u_particles u) ->
    simulated dt half t u T u1 -> refresh_for_output T u1 = Ok u2 -> nth_error (u_particles u2) i = Some p ->
    exists p0, nth_error (u_particles u) i = Some p0 /\ p_L p = p_L p0 /\ p_mass p = p_mass p0.
  Proof. exact (output_momentum dt half t u T u1 u2 i p). Qed.
  Theorem C80_spin_up dt half t u T u1 u2 i p :
    no_torques u -> Forall (fun p => p_dL p = vzero) (u_particles u) ->
    Forall (fun p => inertia_ok p /\ spin_ok p /\ p_mass p <> 0) (u_particles u) ->
    simulated dt half t u T u1 -> refresh_for_output T u1 = Ok u2 -> nth_error (u_particles u2) i = Some p ->
    exists p0, nth_error (u_particles u) i = Some p0 /\
      vscale (p_rg2 p * (p_radius p * p_radius p)) (p_spin p) = vscale (p_rg2 p0 * (p_radius p0 * p_radius p0)) (p_spin p0).
  Proof. exact (output_spin_up dt half t u T u1 u2 i p). Qed.

  (** The same with WHFast, in all its coordinates. *)
  Theorem C80_sizes_whfast c dt half t u T w1 u2 i e p :
    evolving u -> length (u_roche u) = length (u_particles u) -> 0 <= dt ->
    simulated_wh dt half t (new_whfast u c) T w1 -> refresh_for_output T (w_u w1) = Ok u2 ->
    nth_error (u_evolvers u) i = Some e -> nth_error (u_particles u2) i = Some p ->
    has_size_of e T p /\ exists p0, nth_error (u_particles u) i = Some p0 /\ keeps_size_of e p0 p.
  Proof. exact (wh_output_sizes c dt half t u T w1 u2 i e p). Qed.
  Theorem C80_rotation_whfast c dt half t u T w1 u2 :
    evolving u -> length (u_roche u) = length (u_particles u) -> 0 <= dt ->
    Forall inertia_ok (u_particles u) -> simulated_wh dt half t (new_whfast u c) T w1 -> refresh_for_output T (w_u w1) = Ok u2 ->
    Forall (fun p => vscale (moment p) (p_spin p) = p_L p) (u_particles u2).
  Proof. exact (wh_output_rotation c dt half t u T w1 u2). Qed.
  Theorem C80_angular_momentum_whfast c dt half t u T w1 u2 i p :
    no_torques u -> length (u_roche u) = length (u_particles u) -> Forall (fun p => p_dL p = vzero) (u_particles u) ->
    simulated_wh dt half t (new_whfast u c) T w1 -> refresh_for_output T (w_u w1) = Ok u2 -> nth_error (u_particles u2) i = Some p ->
    exists p0, nth_error (u_particles u) i = Some p0 /\ p_L p = p_L p0 /\ p_mass p = p_mass p0.
  Proof. exact (wh_output_momentum c dt half t u T w1 u2 i p). Qed.
  Theorem C80_spin_up_whfast c dt half t u T w1 u2 i p :
    evolving u -> no_torques u -> length (u_roche u) = length (u_particles u) -> 0 <= dt -> Forall (fun p => p_dL p = vzero) (u_particles u) ->
    Forall (fun p => inertia_ok p /\ spin_ok p /\ p_mass p <> 0) (u_particles u) ->
    simulated_wh dt half t (new_whfast u c) T w1 -> refresh_for_output T (w_u w1) = Ok u2 -> nth_error (u_particles u2) i = Some p ->
    exists p0, nth_error (u_particles u) i = Some p0 /\
      vscale (p_rg2 p * (p_radius p * p_radius p)) (p_spin p) = vscale (p_rg2 p0 * (p_radius p0 * p_radius p0)) (p_spin p0).
  Proof. exact (wh_output_spin_up c dt half t u T w1 u2 i p). Qed.

  (** a star that contracts to half its radius in one step turns four times as fast *)
  Example C80_example_ready : evolving (lone young shrinking) /\ no_torques (lone young shrinking) /\
    Forall (fun p => p_dL p = vzero) (u_particles (lone young shrinking)) /\
    Forall (fun p => inertia_ok p /\ spin_ok p /\ p_mass p <> 0) (u_particles (lone young shrinking)).
  Proof. exact lone_ready. Qed.
  Example C80_example : exists u1 u2 p, simulated 1 (1 / 2) 0 (lone young shrinking) 1 u1 /\ refresh_for_output 1 u1 = Ok u2 /\
    nth_error (u_particles u2) 0 = Some p /\ p_radius p = 1 / 2 /\ p_spin p = Vec 0 0 4.
  Proof. exact spun_up. Qed.
  Example C80_example_whfast_ready : length (u_roche (lone young shrinking)) = length (u_particles (lone young shrinking)).
  Proof. reflexivity. Qed.
  Example C80_example_whfast c : exists w1 u2 p, simulated_wh 1 (1 / 2) 0 (new_whfast (lone young shrinking) c) 1 w1 /\ refresh_for_output 1 (w_u w1) = Ok u2 /\
    nth_error (u_particles u2) 0 = Some p /\ p_radius p = 1 / 2 /\ p_spin p = Vec 0 0 4.
  Proof. exact (wh_spun_up c). Qed.
End C80.
Print Assumptions C80_sizes.
Print Assumptions C80_rotation.
Print Assumptions C80_angular_momentum.
Print Assumptions C80_spin_up.
Print Assumptions C80_sizes_whfast.
Print Assumptions C80_rotation_whfast.
Print Assumptions C80_angular_momentum_whfast.
Print Assumptions C80_spin_up_whfast.
