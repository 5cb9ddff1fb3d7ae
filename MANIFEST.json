{
 "claims": [
  {
   "property": "C01",
   "status": "proved",
   "theorems": [
    "C01_resume_equals_uninterrupted",
    "C01_history_always_a_prefix",
    "C01_fixed_step"
   ],
   "note": "Any crash points and any resumes; JSON paths only if JSON reads back exactly (hypothesis). Whole-process exit and torn snapshot files modelled; fsync loss is not."
  },
  {
   "property": "C02",
   "status": "proved",
   "theorems": [
    "C02_size_law",
    "C02_snapshots_covered",
    "C02_history_reads_back",
    "C02_snapshots_covered_any_resume_refuted"
   ],
   "note": "After resuming from an older snapshot, a newer snapshot is not covered any more (refuted)."
  },
  {
   "property": "C03",
   "status": "proved",
   "theorems": [
    "C03_start_never_destroys",
    "C03_resume_keeps_prefix",
    "C03_resume_refuses_short_history"
   ],
   "note": ""
  },
  {
   "property": "C04",
   "status": "partial",
   "theorems": [
    "C04_snapshot_survives_partial",
    "C04_always_at_given_path_refuted",
    "C04_json_paths_refuted"
   ],
   "note": "Proved for binary paths: some restorable snapshot always exists. False: not always at the given path; false for JSON paths (backup renamed to .bin)."
  },
  {
   "property": "C06",
   "status": "partial",
   "theorems": [
    "C06_bounded_loss",
    "C06_limit_saves_last_step",
    "C06_limit_disables_periodic_snapshots",
    "C06_period_with_limit_refuted"
   ],
   "note": "Without limit proved; with a limit the periodic snapshots are never written (refuted)."
  },
  {
   "property": "C07",
   "status": "partial",
   "theorems": [
    "C07_other_options_usable",
    "C07_time_limit_refuted"
   ],
   "note": "--time-limit panics."
  },
  {
   "property": "C08",
   "status": "proved",
   "theorems": [
    "C08_time_limit",
    "C08_snapshot_periods"
   ],
   "note": ""
  },
  {
   "property": "C09",
   "status": "proved",
   "theorems": [
    "C09_history_sampling",
    "C09_sampling_error",
    "C09_step_larger_than_period_refuted"
   ],
   "note": "Exact arithmetic, fixed step."
  },
  {
   "property": "C10",
   "status": "proved",
   "theorems": [
    "C10_new_integrator",
    "C10_stops_at_limit",
    "C10_clock",
    "C10_binary64_clock_refuted"
   ],
   "note": "Exact arithmetic; in binary64 the clock is not steps x dt (refuted witness)."
  },
  {
   "property": "C41",
   "status": "partial",
   "theorems": [
    "C41_lag_angle",
    "C41_evolving_quantities_partial",
    "C41_going_back_in_time",
    "C41_evolving_quantities_refuted"
   ],
   "note": "Proved for non-decreasing request times; false after going back in time (window of ten rows is consumed by repeated requests)."
  },
  {
   "property": "C42",
   "status": "partial",
   "theorems": [
    "C42_love_number_never_changes",
    "C42_love_number_refuted"
   ],
   "note": "False: the interpolated Love number is written to a copy."
  },
  {
   "property": "C45",
   "status": "proved",
   "theorems": [
    "C45_linear_interpolation",
    "C45_exact_at_nodes",
    "C45_between_neighbours",
    "C45_unique"
   ],
   "note": "Exact arithmetic."
  },
  {
   "property": "C46",
   "status": "proved",
   "theorems": [
    "C46_modulus",
    "C46_binary64_refuted"
   ],
   "note": "Exact arithmetic; in binary64 the result can equal b."
  },
  {
   "property": "C51",
   "status": "proved",
   "theorems": [
    "C51_spin_vector"
   ],
   "note": "Exact arithmetic."
  },
  {
   "property": "C25",
   "status": "proved",
   "theorems": [
    "C25_forces_sum_to_zero",
    "C25_constant_time_lag"
   ],
   "note": "Exact arithmetic. Forces: every tidal model; torques: constant time lag (creep is C30)."
  },
  {
   "property": "C26",
   "status": "proved",
   "theorems": [
    "C26_energy_balance",
    "C26_heat_not_negative",
    "C26_heat_zero_iff_synchronous",
    "C26_reported_heat"
   ],
   "note": "Exact arithmetic, constant time lag."
  },
  {
   "property": "C27",
   "status": "partial",
   "theorems": [
    "C27_bodies_without_tides_partial",
    "C27_bodies_without_flattening_partial",
    "C27_bodies_without_kidder_partial",
    "C27_disabled_body_refuted",
    "C27_kaula_host",
    "C27_kaula_host_refuted",
    "C27_two_without_newhall_refuted"
   ],
   "note": "True in exact arithmetic for tides and flattening; false for the program: a body with disabled tides makes the torque on the host NaN in binary64; around a host with Kaula tides its acceleration and that of the host become NaN as well, for every system."
  },
  {
   "property": "C28",
   "status": "partial",
   "theorems": [
    "C28_host_factor_partial",
    "C28_planet_factor_partial",
    "C28_static_factors",
    "C28_wrong_entry",
    "C28_leaving_the_regime_refuted"
   ],
   "note": "False for planets leaving the regime: the wrong table entry is removed, so the old factor stays in use."
  },
  {
   "property": "C29",
   "status": "partial",
   "theorems": [
    "C29_forces_sum_to_zero",
    "C29_torques_balance",
    "C29_force_is_gradient",
    "C29_rotation",
    "C29_body_at_rest_refuted"
   ],
   "note": "Forces, torques, gradient and rotation covariance proved; false for bodies at rest (0/0)."
  },
  {
   "property": "C30",
   "status": "partial",
   "theorems": [
    "C30_creeping_planets_partial",
    "C30_creeping_host_refuted"
   ],
   "note": "Proved for creeping planets around a constant-time-lag host; false for a creeping host."
  },
  {
   "property": "C55",
   "status": "partial",
   "theorems": [
    "C55_equatorial_series",
    "C55_polar_series_refuted"
   ],
   "note": "Equatorial series right to order 8; polar series has two wrong signs and is off at order 5."
  },
  {
   "property": "C34",
   "status": "partial",
   "theorems": [
    "C34_momentum",
    "C34_rotation_partial",
    "C34_spin_orbit_refuted"
   ],
   "note": "Momentum: all terms. Rotations: first and second order; false for the spin-orbit term, which multiplies two vectors component by component."
  },
  {
   "property": "C35",
   "status": "proved",
   "theorems": [
    "C35_spin_size_kept"
   ],
   "note": "Exact arithmetic, Kidder torques of host and bodies."
  },
  {
   "property": "C36",
   "status": "partial",
   "theorems": [
    "C36_origin_partial",
    "C36_origin_refuted",
    "C36_whfast_at_origin",
    "C36_whfast_jacobi_at_origin",
    "C36_one_sweep",
    "C36_not_converged_refuted"
   ],
   "note": "Independence of the origin proved when no gravity term is skipped (LeapFrog, IAS15); false under WHFast, where the corrections are shown to be right with the host at the origin; and the iteration always stops after one sweep."
  },
  {
   "property": "C37",
   "status": "proved",
   "theorems": [
    "C37_momentum",
    "C37_damping",
    "C37_physical_disk",
    "C37_inside_the_edge"
   ],
   "note": "Momentum and damping in exact arithmetic, zero force inside the edge in binary64."
  },
  {
   "property": "C38",
   "status": "proved",
   "theorems": [
    "C38_antiparallel",
    "C38_never_accelerates",
    "C38_continuous"
   ],
   "note": "Exact arithmetic."
  },
  {
   "property": "C59",
   "status": "partial",
   "theorems": [
    "C59_first_order",
    "C59_second_order_factor",
    "C59_second_order_refuted",
    "C59_spin_orbit_refuted"
   ],
   "note": "First order right; second order divided by c^2 instead of c^4; spin-orbit lacks 1/r^3."
  },
  {
   "property": "C11",
   "status": "proved",
   "theorems": [
    "C11_barycentric"
   ],
   "note": ""
  },
  {
   "property": "C12",
   "status": "proved",
   "theorems": [
    "C12_newton",
    "C12_square",
    "C12_no_force",
    "C12_displaced",
    "C12_host_free"
   ],
   "note": ""
  },
  {
   "property": "C13",
   "status": "proved",
   "theorems": [
    "C13_leapfrog_conserves"
   ],
   "note": "Over exact real arithmetic."
  },
  {
   "property": "C14",
   "status": "proved",
   "theorems": [
    "C14_leapfrog_reversible"
   ],
   "note": "Over exact real arithmetic, inert bodies."
  },
  {
   "property": "C15",
   "status": "proved",
   "theorems": [
    "C15_energy",
    "C15_angular_momentum",
    "C15_center_of_mass",
    "C15_order",
    "C15_host_frame"
   ],
   "note": "The reported energy is that of the heliocentric coordinates, as C15_host_frame makes explicit."
  },
  {
   "property": "C39",
   "status": "proved",
   "theorems": [
    "C39_sums",
    "C39_quiet_kept",
    "C39_new_body"
   ],
   "note": "The theorem covers evaluations that include accelerations; an angular-momentum-only evaluation does not recompute the Kidder spin torque (recorded in DESIGN.md)."
  },
  {
   "property": "C40",
   "status": "proved",
   "theorems": [
    "C40_refreshed",
    "C40_effects",
    "C40_new",
    "C40_new_universe",
    "C40_new_universe_spin",
    "C40_start",
    "C40_steps"
   ],
   "note": ""
  },
  {
   "property": "C43",
   "status": "proved",
   "theorems": [
    "C43_hosts",
    "C43_conflicts",
    "C43_mismatch",
    "C43_massless"
   ],
   "note": ""
  },
  {
   "property": "C44",
   "status": "partial",
   "theorems": [
    "C44_roche",
    "C44_ejection_partial",
    "C44_ejection_refuted"
   ],
   "note": "The ejection half is false for bodies listed before the most massive one (C44_ejection_refuted)."
  },
  {
   "property": "C53",
   "status": "partial",
   "theorems": [
    "C53_relative",
    "C53_speed_partial",
    "C53_host",
    "C53_speed_refuted"
   ],
   "note": "The cached speed is wrong when the host's stored heliocentric velocity is not zero (C53_speed_refuted)."
  },
  {
   "property": "C54",
   "status": "partial",
   "theorems": [
    "C54_leapfrog_partial",
    "C54_whfast_keeps",
    "C54_whfast_refuted",
    "C54_ias15_keeps",
    "C54_ias15_refuted"
   ],
   "note": "Holds for LeapFrog. False for WHFast and IAS15: with the wind alone they never integrate the spin."
  },
  {
   "property": "C60",
   "status": "proved",
   "theorems": [
    "C60_hydrostatic_figure",
    "C60_tidal_figure"
   ],
   "note": "Real arithmetic; the mean anomaly pi exactly is excluded (tangent)."
  },
  {
   "property": "C16",
   "status": "proved",
   "theorems": [
    "C16_round_trip"
   ],
   "note": "Over the reals, all three coordinate systems, every host index."
  },
  {
   "property": "C17",
   "status": "proved",
   "theorems": [
    "C17_coordinates",
    "C17_momentum",
    "C17_angular_momentum"
   ],
   "note": "Over the reals."
  },
  {
   "property": "C18",
   "status": "partial",
   "theorems": [
    "C18_exact_drift",
    "C18_equation_of_motion",
    "C18_step_partial",
    "C18_newton",
    "C18_newton_fixed"
   ],
   "note": "Exact for exact Stiefel functions and a solved Kepler equation, where the drift solves the equation of motion. For the code's truncated series and stopping rules the deviations are given explicitly with bounds on the series; the residual of Kepler's equation is not bounded (Newton's method may stop in a cycle of two values)."
  },
  {
   "property": "C19",
   "status": "proved",
   "theorems": [
    "C19_jump",
    "C19_kick"
   ],
   "note": "Over the reals; also the centre of mass stays."
  },
  {
   "property": "C61",
   "status": "proved",
   "theorems": [
    "C61_whfast_conserves"
   ],
   "note": "Over the reals; n whole steps without additional effects."
  },
  {
   "property": "C52",
   "status": "proved",
   "theorems": [
    "C52_iterations",
    "C52_spin_magnitude",
    "C52_new"
   ],
   "note": "Over the reals; three to ten evaluations."
  },
  {
   "property": "C20",
   "status": "proved",
   "theorems": [
    "C20_prediction"
   ],
   "note": "Over the reals, every coefficient vector and ratio; C21_accepted shows that accepted steps use it."
  },
  {
   "property": "C21",
   "status": "proved",
   "theorems": [
    "C21_integrals",
    "C21_motion",
    "C21_accepted",
    "C21_nodes",
    "C21_new"
   ],
   "note": "Over the reals. At the nodes the polynomial takes the computed values up to 1e-19 of the coefficients, because the tables of the program have 25 digits."
  },
  {
   "property": "C22",
   "status": "proved",
   "theorems": [
    "C22_decision",
    "C22_step",
    "C22_any_number",
    "C22_rejected",
    "C22_not_normal",
    "C22_iterations",
    "C22_failures"
   ],
   "note": "Growth bound over the reals; the structure of the decision and the restoration for every arithmetic, in particular binary64. An infinite or NaN estimate makes the step grow fourfold."
  },
  {
   "property": "C23",
   "status": "partial",
   "theorems": [
    "C23_above",
    "C23_limit",
    "C23_converges_refuted",
    "C23_small_refuted",
    "C23_step_refuted"
   ],
   "note": "Never below, positive, and the iteration converges. But the routine stops after twenty iterations, which is far from the root for roots below 0.04 or above 2.5: the convergence claim is false for the routine."
  },
  {
   "property": "C24",
   "status": "proved",
   "theorems": [
    "C24_exact_total",
    "C24_binary64",
    "C24_binary64_exact",
    "C24_binary64_exact_refuted"
   ],
   "note": "Exact over the reals. In binary64 the total and its compensation keep the sum of the increments within three units in the 53rd place of the increments, and lose nothing of an increment not larger than the total; of a larger one they can lose something (C24_binary64_exact_refuted), which the bound covers."
  },
  {
   "property": "C31",
   "status": "partial",
   "theorems": [
    "C31_degree_2_partial",
    "C31_degree_3_definition",
    "C31_degree_3_right_only",
    "C31_degree_3_refuted"
   ],
   "note": "Degree 2 proved for every inclination and argument of latitude. Degree 3 is false: each of the four tables is proved to satisfy the definition only at the listed inclinations, against the unique right solution."
  },
  {
   "property": "C32",
   "status": "partial",
   "theorems": [
    "C32_rows_partial",
    "C32_coplanar_rows",
    "C32_g20_refuted",
    "C32_g20_error",
    "C32_g31_refuted",
    "C32_g31_error",
    "C32_mirrored"
   ],
   "note": "Proved for G_21q, G_30q, G_33q. False for G_20q and G_22q (one wrong coefficient, error 575/48 e^4) and G_31q, G_32q (error -3/2 e^2)."
  },
  {
   "property": "C33",
   "status": "partial",
   "theorems": [
    "C33_interpolation_partial",
    "C33_padded",
    "C33_padded_refuted"
   ],
   "note": "Proved for tables of any length whose entries all count. False for arrays padded with zeros, which is how cases are written: num_datapoints is ignored."
  },
  {
   "property": "C56",
   "status": "partial",
   "theorems": [
    "C56_orthogonal_partial",
    "C56_radial_limit",
    "C56_radial_exactly_when",
    "C56_radial_refuted"
   ],
   "note": "The orthogonal component has the right limit. The radial one is false: the circular branch has the imaginary part of a Love number where the limit has the real part."
  },
  {
   "property": "C57",
   "status": "partial",
   "theorems": [
    "C57_normal_partial",
    "C57_radial_sums",
    "C57_radial_opposite",
    "C57_radial_stellar",
    "C57_orthogonal_refuted"
   ],
   "note": "Normal component proved. Radial: same sums, opposite sign for planets and another mass for the star. Orthogonal refuted."
  },
  {
   "property": "C58",
   "status": "partial",
   "theorems": [
    "C58_planetary",
    "C58_radial_coplanar_partial",
    "C58_radial_inclined_ignores_mass",
    "C58_others_ignore_both",
    "C58_orthogonal_refuted"
   ],
   "note": "True for the coplanar radial stellar tide and, with roles exchanged, for every component of the planetary tide. False for the other stellar components, which do not depend on the planet's mass."
  },
  {
   "property": "C47",
   "status": "proved",
   "theorems": [
    "C47_ellipse",
    "C47_parabola",
    "C47_hyperbola"
   ],
   "note": "over R; the anomaly is the one the solver returns"
  },
  {
   "property": "C48",
   "status": "partial",
   "theorems": [
    "C48_reduction_partial",
    "C48_circular",
    "C48_step_keeps_solution",
    "C48_parabola",
    "C48_hyperbola_keeps_solution",
    "C48_negative_range",
    "C48_negative_refuted",
    "C48_hyperbola_low",
    "C48_hyperbola_refuted"
   ],
   "note": "false as stated: negative mean anomalies are reduced to (-2pi,0] and the answer can miss Kepler's equation by more than 0.4; hyperbolas with small mean anomaly get the mean anomaly back. Proved: reduction, circular orbits, parabola, solutions are fixed points. Missing: accuracy bound over all ellipses"
  },
  {
   "property": "C49",
   "status": "partial",
   "theorems": [
    "C49_shape",
    "C49_round_trip_partial",
    "C49_inclination_outside",
    "C49_wrong_side",
    "C49_inclination_refuted",
    "C49_circular_phase",
    "C49_circular_refuted",
    "C49_unbound_mean_anomaly"
   ],
   "note": "shape proved for every bound state; the inclination is in [0,pi] and the state is recovered only when the second component of the angular momentum is not positive (otherwise the elements describe the mirrored orbit); circular orbits lose half of their phase"
  },
  {
   "property": "C50",
   "status": "proved",
   "theorems": [
    "C50_terminates",
    "C50_rounds",
    "C50_value"
   ],
   "note": "over R"
  },
  {
   "property": "C05",
   "status": "partial",
   "theorems": [
    "C05_format_round_trip",
    "C05_sizes",
    "C05_universe_size",
    "C05_whfast",
    "C05_leapfrog_never_whfast",
    "C05_leapfrog_partial",
    "C05_leapfrog_short_partial",
    "C05_ias15_partial",
    "C05_ias15_idle_partial",
    "C05_ias15_read_as_whfast",
    "C05_refuted"
   ],
   "note": "True for WHFast. The integrator is guessed by trial decoding, so an IAS15 state whose first body refers to a numbered body (six bodies or fewer) is restored as WHFast, and a LeapFrog state with a long table and zero moment of inertia as IAS15; sufficient conditions for the right guess are proved."
  },
  {
   "property": "C62",
   "status": "proved",
   "theorems": [
    "C62_step"
   ],
   "note": "over R; in Jacobi coordinates the program softens the Kepler attraction of all bodies but the first with 1e-12 in the kick, which the statement shows"
  },
  {
   "property": "C63",
   "status": "partial",
   "theorems": [
    "C63_jump",
    "C63_kick",
    "C63_kepler_partial",
    "C63_step_partial"
   ],
   "note": "jump and kick conserve it exactly; each Kepler motion multiplies its own share with a number that is 1 for the exact solution (C18), the step theorem says the change is exactly these defects. Missing: a bound of the solver's defect"
  },
  {
   "property": "C64",
   "status": "proved",
   "theorems": [
    "C64_kepler_returns",
    "C64_bounds",
    "C64_bisection",
    "C64_step"
   ],
   "note": "over R with real pi, floor and sqrt, no additional effects; iteration bounds are eventually large enough"
  },
  {
   "property": "C65",
   "status": "proved",
   "theorems": [
    "C65_torque",
    "C65_towards_synchronism",
    "C65_opposite",
    "C65_components"
   ],
   "note": "over R"
  },
  {
   "property": "C66",
   "status": "partial",
   "theorems": [
    "C66_synchronous_value",
    "C66_synchronous_refuted"
   ],
   "note": "false: at exact synchronism the first table entry is read, so the torque is 3/2 G M^2 R^5/a^6 times that entry (C66_synchronous_value); witness with unit masses and distance"
  },
  {
   "property": "C67",
   "status": "partial",
   "theorems": [
    "C67_host_torque",
    "C67_runs",
    "C67_opposite",
    "C67_additive_refuted"
   ],
   "note": "false: the host remembers the force of one planet only, so every lever arm is combined with the force of the last planet (C67_host_torque); two planets on opposite sides give exactly zero (C67_opposite)"
  },
  {
   "property": "C68",
   "status": "proved",
   "theorems": [
    "C68_remainder",
    "C68_kept"
   ],
   "note": "over R"
  },
  {
   "property": "C69",
   "status": "partial",
   "theorems": [
    "C69_radial",
    "C69_orthogonal_coplanar",
    "C69_normal_mean",
    "C69_orthogonal_mean",
    "C69_normal_refuted",
    "C69_orthogonal_refuted",
    "C69_mean_unique"
   ],
   "note": "true of the radial component and of the orthogonal one on coplanar orbits; refuted for the normal and orthogonal components on inclined orbits, whose means are computed; over R"
  },
  {
   "property": "C70",
   "status": "proved",
   "theorems": [
    "C70_conserves",
    "C70_new"
   ],
   "note": "over R; the effects that push bodies are disabled"
  },
  {
   "property": "C71",
   "status": "proved",
   "theorems": [
    "C71_forces",
    "C71_leapfrog",
    "C71_ias15",
    "C71_whfast"
   ],
   "note": "over R; Kidder is the only relativistic model considered"
  },
  {
   "property": "C72",
   "status": "proved",
   "theorems": [
    "C72_evaluation",
    "C72_balance",
    "C72_leapfrog",
    "C72_conservation_refuted"
   ],
   "note": "over R; constant-time-lag tides and oblate flattening; the stronger claim that a LeapFrog step keeps the total is false, see the findings in DESIGN.md"
  },
  {
   "property": "C73",
   "status": "proved",
   "theorems": [
    "C73_figure",
    "C73_evaluation",
    "C73_continuity_refuted"
   ],
   "note": "over R; the figure is that of a successful computation (a body faster than the capture rate needs the true anomaly, whose loop is not bounded)"
  },
  {
   "property": "C74",
   "status": "proved",
   "theorems": [
    "C74_tides",
    "C74_flattening",
    "C74_reachable",
    "C74_same_law",
    "C74_flattening_alone_refuted",
    "C74_flattening_alone_nan",
    "C74_binary64_refuted"
   ],
   "note": "over R; the refutations (flattening alone gives NaN, a NaN viscosity is accepted) are in binary64; particles loaded from a file do not pass through the setters"
  },
  {
   "property": "C75",
   "status": "proved",
   "theorems": [
    "C75_law",
    "C75_continuous",
    "C75_ages",
    "C75_orbit",
    "C75_circular",
    "C75_angular_momentum",
    "C75_computed_rate_refuted"
   ],
   "note": "over R; bodies outside the inner edge and not on a parabolic orbit; the claim that the orbit shrinks at the computed rate is false, see the findings in DESIGN.md"
  },
  {
   "property": "C76",
   "status": "proved",
   "theorems": [
    "C76_law",
    "C76_spins",
    "C76_orbit",
    "C76_corotation"
   ],
   "note": "over R; the dissipation factors are those of the evaluation (C28)"
  },
  {
   "property": "C77",
   "status": "proved",
   "theorems": [
    "C77_newhall_law",
    "C77_newhall_pair",
    "C77_newhall_conserves",
    "C77_kidder_conserves",
    "C77_anderson",
    "C77_anderson_whfast",
    "C77_anderson_momentum"
   ],
   "note": "over R; no computed correction below the limit of the iteration (1e-30), at which the program rounds differences to zero; the Anderson bound needs a smallness parameter of at most 1/20"
  },
  {
   "property": "C78",
   "status": "proved",
   "theorems": [
    "C78_spin_down",
    "C78_skumanich"
   ],
   "note": "over R; non-evolving star, positive wind constant, saturation, radius and moment of inertia"
  },
  {
   "property": "C79",
   "status": "proved",
   "theorems": [
    "C79_one_file",
    "C79_unsupported_mass",
    "C79_rows",
    "C79_brown_dwarfs",
    "C79_covers",
    "C79_accepted",
    "C79_usable",
    "C79_range",
    "C79_accepted_usable_refuted",
    "C79_readable_ages_refuted"
   ],
   "note": "over R; contents of the files are arguments; files without data or with unreadable ages are not refused, see the findings in DESIGN.md"
  },
  {
   "property": "C80",
   "status": "proved",
   "theorems": [
    "C80_sizes",
    "C80_rotation",
    "C80_angular_momentum",
    "C80_spin_up",
    "C80_sizes_whfast",
    "C80_rotation_whfast",
    "C80_angular_momentum_whfast",
    "C80_spin_up_whfast"
   ],
   "note": "over R; LeapFrog and WHFast; tables usable (C79_usable) and not consulted before the initialization, which is part of the simulation; the steps are those that do not end in a panic"
  }
 ]
}