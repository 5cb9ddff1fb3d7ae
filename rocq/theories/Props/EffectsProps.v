(** * Theorems on tides and rotational flattening (properties C25 to C30, C55, C60) *)
From Coq Require Import Reals List Bool.
From Verif Require Import Base.Num Base.Result Base.Vec Base.Trans Model.Constants Model.Particle Model.Tools
  Model.Creep Model.Tides Model.Flattening Spec.EffectsSpec
  Proofs.TidesProofs Proofs.PairProofs Proofs.CreepProofs Proofs.FlatteningProofs Proofs.QuadrupoleProofs
  Proofs.DisabledProofs Proofs.CayleyProofs Proofs.CreepShapeProofs Proofs.TablesExamples Proofs.TidesExamples Proofs.KaulaIdle.
Import ListNotations.
Open Scope R_scope.

(** ** C25 *)
(** Whatever the tidal models of the bodies, the forces sum to zero. *)
Theorem C25_forces_sum_to_zero `{Trans R} `{Floor R} `{Fuel} host l host' l' :
  p_mass host <> 0 -> Forall (fun p => p_mass p <> 0) l -> Forall idle_acc l ->
  tides_acceleration host l = Ok (host', l') ->
  net_force tidal_acc (host' :: l') = vzero.
Proof. exact (tides_momentum host l host' l'). Qed.
Print Assumptions C25_forces_sum_to_zero.

(** Constant time lag: any host, any number of bodies (with or without tides), any
    table of pair-dependent dissipation factors; the change of orbital angular
    momentum and of the spins cancel. *)
Theorem C25_constant_time_lag `{Trans R} `{Floor R} `{Fuel} m host l host' l' :
  ctl_host host -> Forall ctl_or_none l -> Forall (fun p => ctl_body p -> apart host p) l ->
  p_mass host <> 0 -> Forall (fun p => p_mass p <> 0) l ->
  tides_pass m host l = Ok (host', l') ->
  net_force tidal_acc (host' :: l') = vzero /\ net_torque tidal_acc tidal_torque (host' :: l') = vzero.
Proof. exact (ctl_momentum_and_torque m host l host' l'). Qed.
Print Assumptions C25_constant_time_lag.

Example C25_example : ctl_host sunR /\ Forall ctl_or_none [jupiter 2; idleR] /\
  Forall (fun p => ctl_body p -> apart sunR p) [jupiter 2; idleR] /\
  p_mass sunR <> 0 /\ Forall (fun p => p_mass p <> 0) [jupiter 2; idleR].
Proof. exact sun_system. Qed.

(** ** C26 *)
(** The work done by the tidal forces and torques is the work of the conservative
    bulges minus the heat released in host and bodies ... *)
Theorem C26_energy_balance `{Trans R} `{Floor R} `{Fuel} m host l host' l' :
  ctl_host host -> Forall ctl_or_none l -> Forall (fun p => ctl_body p -> apart host p) l ->
  p_mass host <> 0 -> Forall (fun p => p_mass p <> 0) l ->
  tides_pass m host l = Ok (host', l') ->
  let m' := used_pairs m host l in
  power tidal_acc tidal_torque (host' :: l') =
  Rsum (map (conservative_power K2 host) l)
  - Rsum (map (fun p => heat_in_host (host_sigma m' host p) host p + heat_in_body (planet_sigma m' host p) host p) l).
Proof. exact (ctl_energy m host l host' l'). Qed.
Print Assumptions C26_energy_balance.

(** ... where the heat is never negative, ... *)
Theorem C26_heat_not_negative sigma radius mass spin r v :
  0 <= sigma -> r <> vzero -> 0 <= tidal_heat sigma radius mass spin r v.
Proof. exact (tidal_heat_nonneg sigma radius mass spin r v). Qed.
Print Assumptions C26_heat_not_negative.

(** ... and is zero exactly in synchronous circular motion. *)
Theorem C26_heat_zero_iff_synchronous sigma radius mass spin r v :
  0 < sigma -> radius <> 0 -> mass <> 0 -> r <> vzero ->
  (tidal_heat sigma radius mass spin r v = 0 <-> v = vcross spin r).
Proof.
  exact (fun Hs Hr Hm Hr0 => conj (tidal_heat_zero sigma radius mass spin r v Hs Hr Hm Hr0)
    (fun E => eq_trans (f_equal (tidal_heat sigma radius mass spin r) E) (tidal_heat_synchronous sigma radius mass spin r Hr0))).
Qed.
Print Assumptions C26_heat_zero_iff_synchronous.

(** The rate of energy loss written to the history file for each body is the heat
    released in it. *)
Theorem C26_reported_heat `{Trans R} `{Floor R} `{Fuel} m host l host' l' :
  ctl_host host -> Forall ctl_or_none l -> Forall (fun p => ctl_body p -> apart host p) l ->
  tides_pass m host l = Ok (host', l') ->
  let m' := used_pairs m host l in
  Forall2 (fun p q => ctl_body p ->
    t_denergy_dt (p_tides (tides_denergy q)) = heat_in_body (planet_sigma m' host p) host p) l l'.
Proof. exact (reported_heat m host l host' l'). Qed.
Print Assumptions C26_reported_heat.

Example C26_example : 0 < tidal_heat 1 1 1 (Vec 0 0 2) unit_pos unit_vel.
Proof. exact sun_heat. Qed.

(** ** C27 *)
(** In exact arithmetic, dropping every body without tides (flattening) leaves host
    and other bodies exactly as they were.  The full property asks the same of the
    program, i.e. of binary64, and of all effects: see the refutation below. *)
Theorem C27_bodies_without_tides_partial `{Trans R} `{Floor R} `{Fuel} m host l :
  ctl_host host -> Forall ctl_or_none l ->
  exists host' l', tides_pass m host l = Ok (host', l') /\
    tides_pass m host (filter has_tides l) = Ok (host', filter has_tides l').
Proof. exact (tides_disabled m host l). Qed.
Print Assumptions C27_bodies_without_tides_partial.
Theorem C27_bodies_without_flattening_partial `{Trans R} `{Floor R} `{Fuel} host l :
  oblate_host host -> Forall oblate_or_none l ->
  exists host' l', rf_pass host l = Ok (host', l') /\
    rf_pass host (filter has_flattening l) = Ok (host', filter has_flattening l').
Proof. exact (flattening_disabled host l). Qed.
Print Assumptions C27_bodies_without_flattening_partial.

(** In binary64, whatever the platform's mathematical functions, one body with
    disabled tides turns the torque on the host into NaN; without it all is finite. *)
Theorem C27_disabled_body_refuted :
  exists host planet idle, t_effect (p_tides idle) = TidesDisabled /\
    forall (T : Trans f64) (U : Fuel),
      tides_nan (tides_pass [] host [planet; idle]) = Some true /\
      tides_nan (tides_pass [] host [planet]) = Some false.
Proof.
  exact (ex_intro _ star64 (ex_intro _ (planet64 (q64 1 3)) (ex_intro _ passive64
    (conj eq_refl (fun T U => conj with_passive_nan without_passive_finite))))).
Qed.
Print Assumptions C27_disabled_body_refuted.
(** Around a host with Kaula tides it is the acceleration: the tide raised on the
    host is computed for every body, from the tidal coordinates of that body.  A body
    without tides never gets any, so 0/0 enters: whatever the other bodies, the host
    and some body end with an acceleration that is not a number. *)
Theorem C27_kaula_host `{T : Trans f64} `{U : Fuel} m host l r idle params :
  t_effect (p_tides host) = TidesCentral (Kaula params) ->
  In idle l -> t_effect (p_tides idle) = TidesDisabled ->
  t_pos (p_tides idle) = vzero -> t_distance (p_tides idle) = n0 ->
  tides_pass m host l = Ok r ->
  nan_vec (t_acc (p_tides (fst r))) = true /\ Exists (fun p => nan_vec (t_acc (p_tides p)) = true) (snd r).
Proof. exact (kaula_host_nan m host l r idle params). Qed.
Print Assumptions C27_kaula_host.
Theorem C27_kaula_host_refuted :
  exists host idle, t_effect (p_tides idle) = TidesDisabled /\
    forall (T : Trans f64) (U : Fuel),
      tides_nan (tides_pass [] host [idle]) = Some true /\
      tides_nan (tides_pass [] host []) = Some false.
Proof.
  exact (ex_intro _ kaula_star64 (ex_intro _ passive64
    (conj eq_refl (fun T U => conj kaula_star_nan kaula_star_alone)))).
Qed.
Print Assumptions C27_kaula_host_refuted.

(** ** C28 *)
(** For every table left by earlier evaluations (hence every sequence of regime
    changes) the factor used for the host with respect to a planet is the dynamical
    one exactly in the regime — provided the planet, if it has a dynamical tide of
    its own, is in its regime — and the factor used for a planet in its regime is the
    dynamical one.  The full property is the same without the proviso and for planets
    out of their regime. *)
Theorem C28_host_factor_partial {F} `{Num F} `{Trans F} `{Floor F} (host : particle F) l m p :
  ids_ok host l -> In p l -> dynamical_tide (p_evo host) = true ->
  orbiting_ctl (t_effect (p_tides p)) <> None ->
  (dynamical_tide (p_evo p) = true -> planet_regime host p = true) ->
  host_sigma (pair_dependent_factors host l m) host p =
  if host_regime host p then host_value host p else t_sigma (p_tides host).
Proof. exact (host_sigma_used host l m p). Qed.
Print Assumptions C28_host_factor_partial.
Theorem C28_planet_factor_partial {F} `{Num F} `{Trans F} `{Floor F} (host : particle F) l m p :
  ids_ok host l -> In p l -> dynamical_tide (p_evo p) = true ->
  orbiting_ctl (t_effect (p_tides p)) <> None ->
  planet_regime host p = true ->
  planet_sigma (pair_dependent_factors host l m) host p = planet_value host p.
Proof. exact (planet_sigma_used host l m p). Qed.
Print Assumptions C28_planet_factor_partial.
Theorem C28_static_factors {F} `{Num F} `{Trans F} `{Floor F} (host : particle F) l m p :
  (dynamical_tide (p_evo host) = false -> host_sigma (pair_dependent_factors host l m) host p = t_sigma (p_tides host)) /\
  (dynamical_tide (p_evo p) = false -> planet_sigma (pair_dependent_factors host l m) host p = t_sigma (p_tides p)).
Proof. exact (static_sigma_used host l m p). Qed.
Print Assumptions C28_static_factors.

(** Out of its regime a planet keeps whatever was in the table before, and the host's
    factor for that planet is dropped instead (the entry removed is the wrong one). *)
Theorem C28_wrong_entry {F} `{Num F} `{Trans F} `{Floor F} (host : particle F) l m p :
  ids_ok host l -> In p l -> dynamical_tide (p_evo p) = true ->
  orbiting_ctl (t_effect (p_tides p)) <> None ->
  planet_regime host p = false ->
  planet_sigma (pair_dependent_factors host l m) host p = planet_sigma m host p /\
  map_get (pair_key (p_id host) (p_id p)) (pair_dependent_factors host l m) = None.
Proof. exact (planet_sigma_stale host l m p). Qed.
Print Assumptions C28_wrong_entry.

(** A planet whose spin drops from 2 to 1/4 (mean motion 1) leaves the regime and
    keeps the dynamical factor computed for its old spin. *)
Theorem C28_leaving_the_regime_refuted :
  let m1 := pair_dependent_factors sunR [jupiter 2] [] in
  let m2 := pair_dependent_factors sunR [jupiter (1/4)] m1 in
  planet_regime sunR (jupiter 2) = true /\ planet_regime sunR (jupiter (1/4)) = false /\
  planet_sigma m1 sunR (jupiter 2) = planet_value sunR (jupiter 2) /\
  planet_sigma m2 sunR (jupiter (1/4)) = planet_value sunR (jupiter 2) /\
  planet_value sunR (jupiter 2) <> t_sigma (p_tides (jupiter (1/4))).
Proof. exact jupiter_stale. Qed.
Print Assumptions C28_leaving_the_regime_refuted.

Example C28_example : ids_ok sunR [jupiter 2] /\ planet_regime sunR (jupiter 2) = true.
Proof. exact (conj (jupiter_ids 2) (proj1 jupiter_stale)). Qed.

(** ** C29 *)
Theorem C29_forces_sum_to_zero `{Trans R} `{Floor R} `{Fuel} host l host' l' :
  p_mass host <> 0 -> Forall (fun p => p_mass p <> 0) l -> Forall idle_rf l ->
  rf_acceleration host l = (host', l') ->
  net_force flattening_acc (host' :: l') = vzero.
Proof. exact (rf_momentum host l host' l'). Qed.
Print Assumptions C29_forces_sum_to_zero.
Theorem C29_torques_balance `{Trans R} `{Floor R} `{Fuel} host l host' l' :
  oblate_host host -> Forall oblate_or_none l ->
  p_mass host <> 0 -> Forall (fun p => p_mass p <> 0) l ->
  rf_pass host l = Ok (host', l') ->
  net_force flattening_acc (host' :: l') = vzero /\ net_torque flattening_acc flattening_torque (host' :: l') = vzero.
Proof. exact (oblate_momentum_and_torque host l host' l'). Qed.
Print Assumptions C29_torques_balance.
(** the force on each body is the gradient of the quadrupole potentials of the pair *)
Theorem C29_force_is_gradient `{Trans R} `{Floor R} `{Fuel} host l host' l' :
  oblate_host host -> Forall oblate_or_none l ->
  p_spin2 host = norm2 (p_spin host) -> p_spin host <> vzero ->
  rf_pass host l = Ok (host', l') ->
  Forall2 (fun p p' => forall k, rf_effect (p_rf p) = RfOrbiting (OblateSpheroid k) -> apart host p ->
    p_mass p <> 0 -> p_spin2 p = norm2 (p_spin p) -> p_spin p <> vzero ->
    gradient_at (fun r => quadrupole (kh_of host) (p_radius host) (p_mass p) (p_spin host) r
                          + quadrupole k (p_radius p) (p_mass host) (p_spin p) r)
      (vsub (p_ipos p) (p_ipos host)) (vscale (p_mass p') (flattening_acc p'))) l l'.
Proof. exact (oblate_gradient host l host' l'). Qed.
Print Assumptions C29_force_is_gradient.
Theorem C29_rotation q `{Trans R} `{Floor R} `{Fuel} host l host' l' :
  oblate_host host -> Forall oblate_or_none l ->
  p_mass host <> 0 -> Forall (fun p => p_mass p <> 0) l ->
  rf_pass host l = Ok (host', l') ->
  exists host2 l2, rf_pass (turned q host) (map (turned q) l) = Ok (host2, l2) /\
    map flattening_acc (host2 :: l2) = map (fun b => iso q (flattening_acc b)) (host' :: l').
Proof. exact (oblate_turned q host l host' l'). Qed.
Print Assumptions C29_rotation.
Example C29_example : oblate_host oblate_star /\ Forall oblate_or_none [oblate_planet; idleR] /\
  p_mass oblate_star <> 0 /\ Forall (fun p => p_mass p <> 0) [oblate_planet; idleR] /\
  p_spin2 oblate_star = norm2 (p_spin oblate_star) /\ p_spin oblate_star <> vzero /\
  apart oblate_star oblate_planet /\ p_spin2 oblate_planet = norm2 (p_spin oblate_planet) /\ p_spin oblate_planet <> vzero.
Proof. exact oblate_system. Qed.

(** A body that does not rotate should neither feel nor cause such a force: the
    program divides zero by zero. *)
Theorem C29_body_at_rest_refuted :
  exists host planet, p_spin planet = Vec n0 n0 (q64 0 1) /\
    forall (T : Trans f64) (U : Fuel), rf_nan (rf_pass host [planet]) = Some true.
Proof.
  exact (ex_intro _ star64 (ex_intro _ (planet64 (q64 0 1)) (conj eq_refl (fun T U => still_planet_nan)))).
Qed.
Print Assumptions C29_body_at_rest_refuted.
Example C29_spinning_body_finite (T : Trans f64) (U : Fuel) :
  rf_nan (rf_pass star64 [planet64 (q64 1 3); passive64]) = Some false.
Proof. exact spinning_planet_finite. Qed.

(** ** C30 *)
(** Planets with creep tides around a constant-time-lag host: balanced. *)
Theorem C30_creeping_planets_partial `{Trans R} `{Floor R} `{Fuel} m host l host' l' :
  ctl_host host -> Forall creep_body l ->
  Forall (fun p => apart host p /\ vz (p_ipos p) = vz (p_ipos host)) l ->
  p_mass host <> 0 -> Forall (fun p => p_mass p <> 0) l ->
  tides_pass m host l = Ok (host', l') ->
  net_force tidal_acc (host' :: l') = vzero /\ net_torque tidal_acc tidal_torque (host' :: l') = vzero.
Proof. exact (creep_momentum_and_torque m host l host' l'). Qed.
Print Assumptions C30_creeping_planets_partial.
Example C30_example : ctl_host sunR /\ Forall creep_body [creep_planet] /\
  Forall (fun p => apart sunR p /\ vz (p_ipos p) = vz (p_ipos sunR)) [creep_planet].
Proof. exact creep_system. Qed.

(** The tide raised in a creeping host turns the host and leaves the orbit alone. *)
Theorem C30_creeping_host_refuted (U : Fuel) : (1 <= fuel)%nat -> forall m,
  exists host planet host' l',
    t_effect (p_tides host) = TidesCentral (CreepCoplanar 1) /\ vz (p_ipos planet) = vz (p_ipos host) /\
    tides_pass m host [planet] = Ok (host', l') /\
    net_torque tidal_acc tidal_torque (host' :: l') <> vzero.
Proof. exact creep_host_refuted. Qed.
Print Assumptions C30_creeping_host_refuted.

(** ** C55 *)
Theorem C55_equatorial_series : agree_to 8 (fun e => Rsum (snd (cayley_coefficients e))) pericentre_3.
Proof. exact equatorial_pericentre. Qed.
Print Assumptions C55_equatorial_series.
(** two signs are wrong in the series of the polar flattening: it is off at order 5 *)
Theorem C55_polar_series_refuted :
  agree_to 5 (fun e => Rsum (fst (cayley_coefficients e))) pericentre_3 /\
  ~ agree_to 6 (fun e => Rsum (fst (cayley_coefficients e))) pericentre_3.
Proof. exact polar_pericentre_fails. Qed.
Print Assumptions C55_polar_series_refuted.

(** ** C60 *)
Theorem C60_hydrostatic_figure (U : Fuel) host p (central rot : bool) visc :
  let els := keplerian_elements (p_mass_g host + p_mass_g p) (t_pos (p_tides p)) (t_vel (p_tides p)) in
  let body := if central then host else p in
  let companion := if central then p else host in
  (1 <= fuel)%nat ->
  t_effect (p_tides body) = (if central then TidesCentral (CreepCoplanar visc) else TidesOrbiting (CreepCoplanar visc)) ->
  p_mass body <> 0 -> p_radius body <> 0 -> visc <> 0 -> el_a els <> 0 ->
  el_e els = 0 -> cos (el_l els / 2) <> 0 -> vz (p_spin body) = 2 * PI / el_period els ->
  creep_shape host p true rot central
  = Ok (hydrostatic_figure K2 (p_mass body) (p_mass companion) (p_radius body) (el_a els)
          (if rot then vz (p_spin body) else 0)).
Proof. exact (synchronous_figure host p central rot visc). Qed.
Print Assumptions C60_hydrostatic_figure.
Example C60_example :
  let p := ready_one sunR creep_planet in
  let els := keplerian_elements (p_mass_g sunR + p_mass_g p) (t_pos (p_tides p)) (t_vel (p_tides p)) in
  t_effect (p_tides p) = TidesOrbiting (CreepCoplanar 1) /\ el_a els = 1 /\ el_e els = 0 /\
  cos (el_l els / 2) <> 0 /\ vz (p_spin p) = 2 * PI / el_period els.
Proof. exact synchronous_planet. Qed.
