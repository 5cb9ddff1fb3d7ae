# Formal model of posidonius

Posidonius is an N-body integrator (Rust) with tidal, rotational-flattening,
relativistic, disk, wind and stellar-evolution effects.  This directory holds a
Rocq (Coq 8.16.1) model of its source and proofs of the properties listed in
`properties.jsonl`.

## Layout

* `rocq/theories/Base/*` – arithmetic interface (`Num`): the f64 operations the
  code uses, as a class without laws.  Every numerical function of the model is
  written once against this interface and used at two instances: the real
  numbers `R` (algebraic laws) and IEEE binary64 (`SpecFloat`, an axiom-free
  executable definition in the standard library) for statements about NaN,
  infinities and rounding.
* `rocq/theories/Model/*` – the model, function by function, each definition
  citing file and lines.  No proofs.
* `rocq/theories/Spec/*` – small specifications written without the model's
  helper functions.
* `rocq/theories/Proofs/*` – lemmas and concrete examples.
* `rocq/theories/Props/*` – property theorems only, each `exact lemma`, followed
  by `Print Assumptions`, with a non-vacuity `Example` beside it.
* `MANIFEST.json` – property → status and theorems.  `seeded/LOG.jsonl` – wrong
  programs the theorems were tried on.

Names: `C07_…` belongs to property C07.  A suffix `_partial` means that the
theorem covers only a part of the property, what is missing is said in the
manifest note and below.  A suffix `_refuted` means that the property is false of
the code: the theorem is its negation, with a concrete witness.

## Trusted base

1. Coq's kernel (and `coqchk`, which re-checks the compiled files).
2. The axioms listed under *Assumptions per theorem*: the three axioms of the
   standard library's real numbers (`ClassicalDedekindReals.sig_forall_dec`,
   `ClassicalDedekindReals.sig_not_dec`,
   `FunctionalExtensionality.functional_extensionality_dep`) and
   `Classical_Prop.classic` (used by the standard library's and Coquelicot's
   analysis).  No axiom of this development, none of another library.
3. The faithfulness of `Model/*` to the Rust sources, which is by reading.  The
   general simplifications are:
   * `&mut` functions return the new value; panics (index out of range, slice
     splitting, explicit `panic!`) are explicit error values; loops without a
     bound take fuel, and running out of fuel is an error value distinct from a
     result.
   * `f64::powi(n)` is repeated multiplication; `f64::max/min` are the comparison
     definitions (equal on non-NaN values).
   * libm functions (`sin`, `powf`, …) are operations of a class (`Trans`): the
     mathematical functions over `R`, arbitrary functions over binary64.
   * over `R` division by zero and square roots of negative numbers have the
     values Coq's library gives them.  Theorems in which that could matter carry
     the guard as a hypothesis, and the cases in which the code produces NaN are
     separate binary64 theorems (`…_refuted`).
   * integers are unbounded (`nat`, `N`, `Z`), except in the byte formats, where
     their widths are explicit.
4. External components, modelled by what the code relies on:
   * bincode 1.3's format (`Model/Bincode.v`, `Model/History.v`), `serde_json` as
     an encoder/decoder pair about which only the stated hypotheses are used;
   * the file system (`Model/Machine.v`): a map from paths to contents with
     atomic create, append, truncate, rename; a crash between any two operations
     loses the process and the bytes still in the `BufWriter`.  Loss of data the
     operating system had accepted is not modelled;
   * clap 4's typed option access (`Model/Cli.v`).

### What is modelled

| source | model | left out |
|--------|-------|----------|
| `constants.rs` | `Constants.v`, constants of the integrators next to their use | |
| `main.rs` | `Cli.v`, `Machine.v` (start, resume, main loop, timers) | help texts, console output |
| `integrator/output.rs` | `History.v` (record layout and Python reader), `Bincode.v` (snapshots), `Machine.v` (files) | JSON syntax |
| `integrator/leapfrog.rs` | `LeapFrog.v`, clock and triggers in `Run.v` | console output |
| `integrator/whfast.rs` | `WHFast.v`, `Run.v` | counters of printed warnings |
| `integrator/ias15.rs` | `IAS15.v`, `Run.v` | console output |
| `particles/*` | `Particle.v`, `Universe.v` | `check_effects_vs_central_and_orbiting` (prints only) |
| `effects/tides/*` | `Tides.v`, `Creep.v`, `Kaula.v` | the `Polynomials` cache (recomputed before every use) |
| `effects/rotational_flattening/*` | `Flattening.v`, `Creep.v` | |
| `effects/general_relativity.rs` | `Relativity.v` | |
| `effects/disk.rs`, `effects/wind.rs` | `Disk.v`, `Wind.v` | |
| `effects/evolution.rs` | `Interp.v`, `StarTables.v`, `Universe.v` | file names and the splitting of the stellar model files into fields (the contents of the files are arguments), `math::round::half_up` (an argument) |
| `tools.rs` | `Tools.v`, `Interp.v` | |
| `posidonius/` (Python) | the history reader (`History.v`) | case construction |

Arrays of `MAX_PARTICLES` entries are lists of the bodies in use (plus the list of
unused slots where they matter).  `HashMap<usize, f64>` is an association list.
IAS15's arrays which are written before they are read within each step are local
values.

Two assumptions of the model that can be seen from the theorems: `Run.v` and
`Machine.v` are parametric in the physics (an arbitrary function on an arbitrary
state), so the theorems about files, clocks and crashes hold for every physics;
and theorems "over the reals" say nothing about rounding errors.

## Statements in exact arithmetic and in binary64

Conservation laws, identities of mechanics and convergence are statements about
the formulas in the program and are proved over `R`; rounding is not considered.
Structural properties (which branch is taken, what is restored after a rejected
step, which body is written to) are proved for every arithmetic, hence also for
binary64, whenever the proof does not need algebra.  Properties about NaN,
infinities and the clock are decided in binary64.

## Per property

| id | title | status | modelled as, how proved | theorems | note |
|---|---|---|---|---|---|
| C01 | Resuming after a crash reproduces the uninterrupted run | proved | run state machine (physics step = Section variable), history file as list of bytes/records with buffered tail, snapshot = state value; invariant "file is a prefix of the ideal history and at least as long as the snapshot's count" by induction over arbitrary crash/resume schedules | `C01_resume_equals_uninterrupted`, `C01_history_always_a_prefix`, `C01_fixed_step` | Any crash points and any resumes; JSON paths only if JSON reads back exactly (hypothesis). Whole-process exit and torn snapshot files modelled; fsync loss is not. |
| C02 | History size law and lossless record layout | proved | byte-level little-endian codec of the 20 fields; decode/encode round trip by induction on records | `C02_size_law`, `C02_snapshots_covered`, `C02_history_reads_back`, `C02_snapshots_covered_any_resume_refuted` | After resuming from an older snapshot, a newer snapshot is not covered any more (refuted). |
| C03 | Starting never destroys existing output; resuming never silently continues an incomplete history | proved | `start`/`resume` over a file-system map with explicit panic values; case analysis | `C03_start_never_destroys`, `C03_resume_keeps_prefix`, `C03_resume_refuses_short_history` |  |
| C04 | A complete recovery snapshot survives a crash at any point of snapshot writing | partial | snapshot writing as a list of atomic file-system steps; invariant over all prefixes of all write sequences; refutation for "always at the user's path" | `C04_snapshot_survives_partial`, `C04_always_at_given_path_refuted`, `C04_json_paths_refuted` | Proved for binary paths: some restorable snapshot always exists. False: not always at the given path; false for JSON paths (backup renamed to .bin). |
| C05 | Binary snapshots restore exactly what was saved, with the right integrator | partial | bincode as schema-directed codec, schemas of the three integrators; round trip by induction on schema; LeapFrog/WHFast discrimination by length; sizes by induction over the types whose values all have one size | `C05_format_round_trip`, `C05_sizes`, `C05_universe_size`, `C05_whfast`, `C05_leapfrog_never_whfast`, `C05_leapfrog_partial`, `C05_leapfrog_short_partial`, `C05_ias15_partial`, `C05_ias15_idle_partial`, `C05_ias15_read_as_whfast`, `C05_refuted` | True for WHFast. The integrator is guessed by trial decoding, so an IAS15 state whose first body refers to a numbered body (six bodies or fewer) is restored as WHFast, and a LeapFrog state with a long table and zero moment of inertia as IAS15; sufficient conditions for the right guess are proved. |
| C06 | Periodic recovery snapshots are written with and without an execution time limit | partial | main loop with clock oracle; refuted with witness + what holds proved | `C06_bounded_loss`, `C06_limit_saves_last_step`, `C06_limit_disables_periodic_snapshots`, `C06_period_with_limit_refuted` | Without limit proved; with a limit the periodic snapshots are never written (refuted). |
| C07 | Every documented command line option is usable | partial | clap option table with declared/read types; refuted with witness | `C07_other_options_usable`, `C07_time_limit_refuted` | --time-limit panics. |
| C08 | Changing limits and periods on resume does exactly what was asked | proved | direct functions; case analysis | `C08_time_limit`, `C08_snapshot_periods` |  |
| C09 | History sampling follows the requested period | proved | fixed-step clock and trigger state machine over R; induction over steps; refutations for step > period and for IAS15 drift | `C09_history_sampling`, `C09_sampling_error`, `C09_step_larger_than_period_refuted` | Exact arithmetic, fixed step. |
| C10 | A run stops at the time limit | proved | fixed-step clock and trigger state machine over R; induction over steps; refutations for step > period and for IAS15 drift | `C10_new_integrator`, `C10_stops_at_limit`, `C10_clock`, `C10_binary64_clock_refuted` | Exact arithmetic; in binary64 the clock is not steps x dt (refuted witness). |
| C11 | A new universe is expressed in its barycentric frame without changing the system | proved | R instance of the particle model; `ring`/`field`, list induction | `C11_barycentric` |  |
| C12 | Gravity is Newton's law, pairwise and symmetric | proved | R instance of the particle model; `ring`/`field`, list induction | `C12_newton`, `C12_square`, `C12_no_force`, `C12_displaced`, `C12_host_free` |  |
| C13 | LeapFrog conserves linear and angular momentum of a gravitating system | proved | R instance of the particle model; `ring`/`field`, list induction | `C13_leapfrog_conserves` | Over exact real arithmetic. |
| C14 | LeapFrog is time reversible | proved | R instance of the particle model; `ring`/`field`, list induction | `C14_leapfrog_reversible` | Over exact real arithmetic, inert bodies. |
| C15 | Reported energy, angular momentum and centre of mass are the textbook quantities | proved | R instance of the particle model; `ring`/`field`, list induction | `C15_energy`, `C15_angular_momentum`, `C15_center_of_mass`, `C15_order`, `C15_host_frame` | The reported energy is that of the heliocentric coordinates, as C15_host_frame makes explicit. |
| C16 | Changing to WHFast coordinates and back is the identity | proved | R instance of the particle model; `ring`/`field`, list induction | `C16_round_trip` | Over the reals, all three coordinate systems, every host index. |
| C17 | WHFast coordinates isolate the centre of mass | proved | R instance of the particle model; `ring`/`field`, list induction | `C17_coordinates`, `C17_momentum`, `C17_angular_momentum` | Over the reals. |
| C18 | The WHFast Kepler drift is exact two-body motion | partial | universal-variable Kepler step, parametrised by the solved Stumpff functions; algebra | `C18_exact_drift`, `C18_equation_of_motion`, `C18_step_partial`, `C18_newton`, `C18_newton_fixed` | Exact for exact Stiefel functions and a solved Kepler equation, where the drift solves the equation of motion. For the code's truncated series and stopping rules the deviations are given explicitly with bounds on the series; the residual of Kepler's equation is not bounded (Newton's method may stop in a cycle of two values). |
| C19 | WHFast kicks and jumps respect momentum conservation | proved | interaction/jump steps; list induction | `C19_jump`, `C19_kick` | Over the reals; also the centre of mass stays. |
| C20 | IAS15 predicts the next step by exact re-expansion of the fitted polynomial | proved | scalar IAS15 routines (one component of the arrays); `ring`, bounds by `nra` | `C20_prediction` | Over the reals, every coefficient vector and ratio; C21_accepted shows that accepted steps use it. |
| C21 | IAS15 final and intermediate updates integrate the fitted polynomial exactly | proved | scalar IAS15 routines (one component of the arrays); `ring`, bounds by `nra` | `C21_integrals`, `C21_motion`, `C21_accepted`, `C21_nodes`, `C21_new` | Over the reals. At the nodes the polynomial takes the computed values up to 1e-19 of the coefficients, because the tables of the program have 25 digits. |
| C22 | IAS15 step size control is safe | proved | decision routine by cases; a call by induction over rejected attempts; the iterations by induction with the list of errors so far | `C22_decision`, `C22_step`, `C22_any_number`, `C22_rejected`, `C22_not_normal`, `C22_iterations`, `C22_failures` | Growth bound over the reals; the structure of the decision and the restoration for every arithmetic, in particular binary64. An infinite or NaN estimate makes the step grow fourfold. |
| C23 | IAS15 seventh root | partial | scalar IAS15 routines (one component of the arrays); `ring`, bounds by `nra` | `C23_above`, `C23_limit`, `C23_converges_refuted`, `C23_small_refuted`, `C23_step_refuted` | Never below, positive, and the iteration converges. But the routine stops after twenty iterations, which is far from the root for roots below 0.04 or above 2.5: the convergence claim is false for the routine. |
| C24 | Compensated summation keeps the exact total | proved | real case by `ring`; binary64 by relating the doubles of the standard library to Flocq and Dekker's exact sum, then induction over the increments | `C24_exact_total`, `C24_binary64`, `C24_binary64_exact`, `C24_binary64_exact_refuted` | Exact over the reals. In binary64 the total and its compensation keep the sum of the increments within three units in the 53rd place of the increments, and lose nothing of an increment not larger than the total; of a larger one they can lose something (C24_binary64_exact_refuted), which the bound covers. |
| C25 | Constant-time-lag tides exchange momentum only between the bodies and their spins | proved | effect functions over R, refutations over binary64; algebra / `vm_compute` | `C25_forces_sum_to_zero`, `C25_constant_time_lag` | Exact arithmetic. Forces: every tidal model; torques: constant time lag (creep is C30). |
| C26 | Constant-time-lag tides dissipate energy | proved | effect functions over R, refutations over binary64; algebra / `vm_compute` | `C26_energy_balance`, `C26_heat_not_negative`, `C26_heat_zero_iff_synchronous`, `C26_reported_heat` | Exact arithmetic, constant time lag. |
| C27 | Bodies without an effect do not influence the effect's host | partial | effect functions over R, refutations over binary64; algebra / `vm_compute` | `C27_bodies_without_tides_partial`, `C27_bodies_without_flattening_partial`, `C27_bodies_without_kidder_partial`, `C27_disabled_body_refuted`, `C27_kaula_host`, `C27_kaula_host_refuted`, `C27_two_without_newhall_refuted` | True in exact arithmetic for tides and flattening; false for the program: a body with disabled tides makes the torque on the host NaN in binary64; around a host with Kaula tides its acceleration and that of the host become NaN as well, for every system. |
| C28 | Pair-dependent dissipation factors are those of the current state | partial | effect functions over R, refutations over binary64; algebra / `vm_compute` | `C28_host_factor_partial`, `C28_planet_factor_partial`, `C28_static_factors`, `C28_wrong_entry`, `C28_leaving_the_regime_refuted` | False for planets leaving the regime: the wrong table entry is removed, so the old factor stays in use. |
| C29 | Rotational flattening conserves momentum and total angular momentum and is well defined for non-rotating bodies | partial | effect functions over R, refutations over binary64; algebra / `vm_compute` | `C29_forces_sum_to_zero`, `C29_torques_balance`, `C29_force_is_gradient`, `C29_rotation`, `C29_body_at_rest_refuted` | Forces, torques, gradient and rotation covariance proved; false for bodies at rest (0/0). |
| C30 | Creep tide torques are balanced by the orbit | partial | effect functions over R, refutations over binary64; algebra / `vm_compute` | `C30_creeping_planets_partial`, `C30_creeping_host_refuted` | Proved for creeping planets around a constant-time-lag host; false for a creeping host. |
| C31 | Kaula inclination functions satisfy their defining expansion | partial | polynomial and trigonometric identities; `ring`, Taylor remainder bounds | `C31_degree_2_partial`, `C31_degree_3_definition`, `C31_degree_3_right_only`, `C31_degree_3_refuted` | Degree 2 proved for every inclination and argument of latitude. Degree 3 is false: each of the four tables is proved to satisfy the definition only at the listed inclinations, against the unique right solution. |
| C32 | Kaula eccentricity functions agree with the orbit to the advertised order | partial | polynomial and trigonometric identities; `ring`, Taylor remainder bounds | `C32_rows_partial`, `C32_coplanar_rows`, `C32_g20_refuted`, `C32_g20_error`, `C32_g31_refuted`, `C32_g31_error`, `C32_mirrored` | Proved for G_21q, G_30q, G_33q. False for G_20q and G_22q (one wrong coefficient, error 575/48 e^4) and G_31q, G_32q (error -3/2 e^2). |
| C33 | Kaula Love numbers interpolate the user's table | partial | list lookup with binary search; induction; refutation for short tables | `C33_interpolation_partial`, `C33_padded`, `C33_padded_refuted` | Proved for tables of any length whose entries all count. False for arrays padded with zeros, which is how cases are written: num_datapoints is ignored. |
| C34 | Relativistic corrections conserve momentum and respect rotations | partial | effect functions over R, refutations over binary64; algebra / `vm_compute` | `C34_momentum`, `C34_rotation_partial`, `C34_spin_orbit_refuted` | Momentum: all terms. Rotations: first and second order; false for the spin-orbit term, which multiplies two vectors component by component. |
| C35 | Relativistic spin precession preserves the spin magnitude | proved | effect functions over R, refutations over binary64; algebra / `vm_compute` | `C35_spin_size_kept` | Exact arithmetic, Kidder torques of host and bodies. |
| C36 | Anderson and Newhall corrections do not depend on the origin of the inertial frame | partial | effect functions over R, refutations over binary64; algebra / `vm_compute`. `Proofs/SkippedProofs.v`: the corrections see the stored accelerations only through the Newtonian ones, and with the host at the origin these are completed by Newton's law. | `C36_origin_partial`, `C36_origin_refuted`, `C36_whfast_at_origin`, `C36_whfast_jacobi_at_origin`, `C36_one_sweep`, `C36_not_converged_refuted` | Independence of the origin proved when no gravity term is skipped (LeapFrog, IAS15); false under WHFast, where the corrections are shown to be right with the host at the origin; and the iteration always stops after one sweep. |
| C37 | Disk interaction conserves momentum and damps | proved | effect functions over R, refutations over binary64; algebra / `vm_compute` | `C37_momentum`, `C37_damping`, `C37_physical_disk`, `C37_inside_the_edge` | Momentum and damping in exact arithmetic, zero force inside the edge in binary64. |
| C38 | Stellar wind only brakes | proved | effect functions over R, refutations over binary64; algebra / `vm_compute` | `C38_antiparallel`, `C38_never_accelerates`, `C38_continuous` | Exact arithmetic. |
| C39 | Total additional acceleration is exactly the sum of the enabled effects | proved | effect functions over R, refutations over binary64; algebra / `vm_compute` | `C39_sums`, `C39_quiet_kept`, `C39_new_body` | The theorem covers evaluations that include accelerations; an angular-momentum-only evaluation does not recompute the Kidder spin torque (recorded in DESIGN.md). |
| C40 | Spin, angular momentum and moment of inertia stay consistent | proved | caches and searches as state machines; invariants | `C40_refreshed`, `C40_effects`, `C40_new`, `C40_new_universe`, `C40_new_universe_spin`, `C40_start`, `C40_steps` |  |
| C41 | Evolving quantities are the linear interpolation of the full table | partial | caches and searches as state machines; invariants | `C41_lag_angle`, `C41_evolving_quantities_partial`, `C41_going_back_in_time`, `C41_evolving_quantities_refuted` | Proved for non-decreasing request times; false after going back in time (window of ten rows is consumed by repeated requests). |
| C42 | Evolving Love numbers take effect | partial | caches and searches as state machines; invariants | `C42_love_number_never_changes`, `C42_love_number_refuted` | False: the interpolated Love number is written to a copy. |
| C43 | Host selection | proved | caches and searches as state machines; invariants | `C43_hosts`, `C43_conflicts`, `C43_mismatch`, `C43_massless` |  |
| C44 | Ejection and collision checks examine every body | partial | loop structure; refutation by witness; what holds proved | `C44_roche`, `C44_ejection_partial`, `C44_ejection_refuted` | The ejection half is false for bodies listed before the most massive one (C44_ejection_refuted). |
| C45 | Linear interpolation is exact at nodes, bounded, and clamped outside the table | proved | `tools.rs` over R; analysis | `C45_linear_interpolation`, `C45_exact_at_nodes`, `C45_between_neighbours`, `C45_unique` | Exact arithmetic. |
| C46 | Angle reduction | proved | `tools.rs` over R; analysis | `C46_modulus`, `C46_binary64_refuted` | Exact arithmetic; in binary64 the result can equal b. |
| C47 | Orbital elements to Cartesian state gives the right orbit | proved | `tools.rs` over R; analysis | `C47_ellipse`, `C47_parabola`, `C47_hyperbola` | over R; the anomaly is the one the solver returns |
| C48 | Kepler equation solvers solve Kepler's equation | partial | `tools.rs` over R; analysis | `C48_reduction_partial`, `C48_circular`, `C48_step_keeps_solution`, `C48_parabola`, `C48_hyperbola_keeps_solution`, `C48_negative_range`, `C48_negative_refuted`, `C48_hyperbola_low`, `C48_hyperbola_refuted` | false as stated: negative mean anomalies are reduced to (-2pi,0] and the answer can miss Kepler's equation by more than 0.4; hyperbolas with small mean anomaly get the mean anomaly back. Proved: reduction, circular orbits, parabola, solutions are fixed points. Missing: accuracy bound over all ellipses |
| C49 | Cartesian state to orbital elements | partial | `tools.rs` over R; analysis | `C49_shape`, `C49_round_trip_partial`, `C49_inclination_outside`, `C49_wrong_side`, `C49_inclination_refuted`, `C49_circular_phase`, `C49_circular_refuted`, `C49_unbound_mean_anomaly` | shape proved for every bound state; the inclination is in [0,pi] and the state is recovered only when the second component of the angular momentum is not positive (otherwise the elements describe the mirrored orbit); circular orbits lose half of their phase |
| C50 | True anomaly iteration terminates | proved | `tools.rs` over R; analysis | `C50_terminates`, `C50_rounds`, `C50_value` | over R |
| C51 | Spin vector from rotation state | proved | `tools.rs` over R; analysis | `C51_spin_vector` | Exact arithmetic. |
| C52 | Implicit midpoint update of the spin preserves the spin magnitude when torques are perpendicular and always terminates | proved | fixed-point loop with fuel 10; induction / algebra | `C52_iterations`, `C52_spin_magnitude`, `C52_new` | Over the reals; three to ten evaluations. |
| C53 | Heliocentric quantities are those relative to the most massive body | partial | direct; algebra, refutations | `C53_relative`, `C53_speed_partial`, `C53_host`, `C53_speed_refuted` | The cached speed is wrong when the host's stored heliocentric velocity is not zero (C53_speed_refuted). |
| C54 | Wind-driven spin evolution is integrated by every integrator | partial | direct; algebra, refutations | `C54_leapfrog_partial`, `C54_whfast_keeps`, `C54_whfast_refuted`, `C54_ias15_keeps`, `C54_ias15_refuted` | Holds for LeapFrog. False for WHFast and IAS15: with the wind alone they never integrate the spin. |
| C55 | Fourier series of the creep tide represent the orbit | partial | Cayley coefficients as functions of e; compared with the expansion of (a/r)^3 cos/sin, Taylor remainders | `C55_equatorial_series`, `C55_polar_series_refuted` | Equatorial series right to order 8; polar series has two wrong signs and is off at order 5. |
| C56 | Kaula tide: circular and eccentric formulas agree | partial | Kaula branches over R; limits as e -> 0 | `C56_orthogonal_partial`, `C56_radial_limit`, `C56_radial_exactly_when`, `C56_radial_refuted` | The orthogonal component has the right limit. The radial one is false: the circular branch has the imaginary part of a Love number where the limit has the real part. |
| C57 | Kaula tide: planar and inclined formulas agree | partial | Kaula branches over R; sums at zero inclination | `C57_normal_partial`, `C57_radial_sums`, `C57_radial_opposite`, `C57_radial_stellar`, `C57_orthogonal_refuted` | Normal component proved. Radial: same sums, opposite sign for planets and another mass for the star. Orthogonal refuted. |
| C58 | Kaula stellar tide scales with the perturber | partial | Kaula branches over R; dependence on mass and radius | `C58_planetary`, `C58_radial_coplanar_partial`, `C58_radial_inclined_ignores_mass`, `C58_others_ignore_both`, `C58_orthogonal_refuted` | True for the coplanar radial stellar tide and, with roles exchanged, for every component of the planetary tide. False for the other stellar components, which do not depend on the planet's mass. |
| C59 | Kidder corrections are the published ones | partial | terms of general_relativity.rs over R against the literature formula | `C59_first_order`, `C59_second_order_factor`, `C59_second_order_refuted`, `C59_spin_orbit_refuted` | First order right; second order divided by c^2 instead of c^4; spin-orbit lacks 1/r^3. |
| C60 | Hydrostatic shape of a synchronous creeping body | proved | creep shape over R; limit figure On eccentric orbits `Spec/CreepTideSpec.v` states the relaxation equations of prolateness and lag; `Proofs/CreepTideFigure.v` proves that the figure of a slow rotator solves them. | `C60_hydrostatic_figure`, `C60_tidal_figure` | Real arithmetic; the mean anomaly pi exactly is excluded (tangent). |
| C61 | WHFast conserves momentum and moves the centre of mass uniformly | proved | whole WHFast steps over R; composition of C16-C19 | `C61_whfast_conserves` | Over the reals; n whole steps without additional effects. |
| C62 | A WHFast step is a Wisdom-Holman splitting of Newton's equations | proved | whole WHFast step over R; coordinates and their inverses (C16, C17), the interaction step and gravity terms matched with the rates of Newton's equations in each kind of coordinates | `C62_step` | over R; in Jacobi coordinates the program softens the Kepler attraction of all bodies but the first with 1e-12 in the kick, which the statement shows |
| C63 | WHFast conserves the total angular momentum | partial | splitting theorem C62 and the identity of orbital angular momentum in the coordinates; bilinearity of the cross sums | `C63_jump`, `C63_kick`, `C63_kepler_partial`, `C63_step_partial` | jump and kick conserve it exactly; each Kepler motion multiplies its own share with a number that is 1 for the exact solution (C18), the step theorem says the change is exactly these defects. Missing: a bound of the solver's defect |
| C64 | WHFast always returns | proved | termination of each loop with an eventually large enough bound; intermediate value theorem on the time equation, monotone because the radius is positive; then composition over the step | `C64_kepler_returns`, `C64_bounds`, `C64_bisection`, `C64_step` | over R with real pi, floor and sqrt, no additional effects; iteration bounds are eventually large enough |
| C65 | The Kaula torque drives a planet towards synchronous rotation | proved | elements of a circular orbit (C49's shape theorem), Kepler's third law for the frequency, one term of the planar branch survives; sign from the interpolation theorem of C33; components by the orthonormal frame | `C65_torque`, `C65_towards_synchronism`, `C65_opposite`, `C65_components` | over R |
| C66 | A synchronous planet on a circular orbit feels no Kaula torque | partial | formula of C65 at w = n; refuted by a unit system | `C66_synchronous_value`, `C66_synchronous_refuted` | false: at exact synchronism the first table entry is read, so the torque is 3/2 G M^2 R^5/a^6 times that entry (C66_synchronous_value); witness with unit masses and distance |
| C67 | The Kaula torque on a host adds up over its planets | partial | invariant of the two loops over the planets: only the remembered force of the host changes; refuted by opposite planets | `C67_host_torque`, `C67_runs`, `C67_opposite`, `C67_additive_refuted` | false: the host remembers the force of one planet only, so every lever arm is combined with the force of the last planet (C67_host_torque); two planets on opposite sides give exactly zero (C67_opposite) |
| C68 | The terms left out of the eccentricity series are small | proved | order by cases; each omitted polynomial bounded by its value at the end of the interval | `C68_remainder`, `C68_kept` | over R |
| C69 | The force remembered for the Kaula torque is the mean of the instantaneous force | partial | mean = growth of a primitive over a turn / 2π; every component as a fourfold trigonometric sum with integer frequencies; only zero frequencies survive, selected by index arithmetic; counterexamples: circle, obliquity 60°, one-point table | `C69_radial`, `C69_orthogonal_coplanar`, `C69_normal_mean`, `C69_orthogonal_mean`, `C69_normal_refuted`, `C69_orthogonal_refuted`, `C69_mean_unique` | true of the radial component and of the orthogonal one on coplanar orbits; refuted for the normal and orthogonal components on inclined orbits, whose means are computed; over R |
| C70 | IAS15 conserves the total momentum | proved | Model: `IAS15.v`, `Universe.v`. The update of the coefficients is linear in the accelerations, and the mutual gravity carries no net force, so every stored coefficient summed over the bodies with their masses stays zero through each pass of the corrector, rejection, restart and prediction (`balanced` is the invariant). Proof: `Proofs/IAS15Momentum.v`, with an invariant of the universe as a section parameter. Over R. | `C70_conserves`, `C70_new` | over R; the effects that push bodies are disabled |
| C71 | The effects act between bodies and keep the total momentum | proved | Model: `Universe.v`, `Tides.v`, `Flattening.v`, `Disk.v`, `Relativity.v`, `LeapFrog.v`, `IAS15.v`. Spec: `Spec/ReciprocitySpec.v` (`reciprocal`: which bodies take part around which host). The force sums of C25, C29, C35 and C36 hold around one host with prepared bodies; here the preparation, the evolution of the bodies and the split of the bodies around each host are followed through one evaluation (`Proofs/Reciprocity.v`), so that the premise is shown to be an invariant, and the sums enter the steps of LeapFrog and IAS15 (`Proofs/ReciprocityRuns.v`, which reuses the section of C70). and of WHFast (`Proofs/ReciprocityWHFast.v`: the implicit midpoint rule applies the rates of one evaluation). `Proofs/ReciprocityExamples.v` runs a star and a planet with all four effects enabled. Over R. | `C71_forces`, `C71_leapfrog`, `C71_ias15`, `C71_whfast` | over R; Kidder is the only relativistic model considered |
| C72 | Tides and flattening exchange angular momentum between orbits and rotations | proved | Model: `Universe.v`, `Tides.v`, `Flattening.v`, `LeapFrog.v`. Spec: `Spec/AngularSpec.v` (total of orbits and rotations, the torque left by stored rotations, the error of a step). `Proofs/TorqueBalance.v` redoes the torque sums of C25 and C29 without assuming that the products of position and rotation are current and for tides and flattening together; `AngularBalance.v` follows the preparation and the refresh of the rotations through one evaluation; `AngularStep.v` shows that the premise is an invariant and computes one LeapFrog step; `AngularRuns.v` sums over a run. `AngularExamples.v` computes a step of a star and a planet at rest, whose total changes by a known amount: exact conservation is refuted. Over R. | `C72_evaluation`, `C72_balance`, `C72_leapfrog`, `C72_conservation_refuted` | over R; constant-time-lag tides and oblate flattening; the stronger claim that a LeapFrog step keeps the total is false, see the findings in DESIGN.md |
| C73 | Creep flattening gives the equilibrium figure of rotation and never a torque | proved | Model: `Creep.v`, `Flattening.v`. Spec: `Spec/CreepFlatteningSpec.v` (relaxation rate, capture rate, figure, pull). `Proofs/CreepFlatteningPass.v` follows one body through an evaluation in any arithmetic; `CreepFlatteningProofs.v` reduces both regimes of the shape with the tidal part switched off to the closed form; `CreepFlatteningJump.v` proves the jump and computes the example of a planet turning backwards. Over R. | `C73_figure`, `C73_evaluation`, `C73_continuity_refuted` | over R; the figure is that of a successful computation (a body faster than the capture rate needs the true anomaly, whose loop is not bounded) |
| C74 | Tides and flattening of one body obey the same law | proved | Model: `Setters.v` (the two setters and their check; a program is a list of calls). Spec: `Spec/SettersSpec.v`. `Proofs/SettersProofs.v`: the check by cases, reachable particles and unchanged law by induction over the calls (over R). `Proofs/CreepNaN.v`: NaN propagates from the eccentricity of an orbit of no extent to the acceleration (binary64, every libm with `powf(0, 2) = 0`). | `C74_tides`, `C74_flattening`, `C74_reachable`, `C74_same_law`, `C74_flattening_alone_refuted`, `C74_flattening_alone_nan`, `C74_binary64_refuted` | over R; the refutations (flattening alone gives NaN, a NaN viscosity is accepted) are in binary64; particles loaded from a file do not pass through the setters |
| C75 | The disk migrates bodies by the viscous law, twice as fast as computed | proved | Model: `Disk.v`. Spec: `Spec/DiskSpec.v` (density, viscosity, rate, drag and vis-viva written from the paper; derivatives of a motion at an instant). `Proofs/DiskLaw.v`: the code's formulas rewritten to the law. `Proofs/DiskOrbit.v`: derivative of the semi-major axis and of the angular momentum (Coquelicot), continuity of the density, comparison of two ages, two equal bodies as the counterexample. | `C75_law`, `C75_continuous`, `C75_ages`, `C75_orbit`, `C75_circular`, `C75_angular_momentum`, `C75_computed_rate_refuted` | over R; bodies outside the inner edge and not on a parabolic orbit; the claim that the orbit shrinks at the computed rate is false, see the findings in DESIGN.md |
| C76 | Constant-time-lag tides follow Mignard's law and move orbits according to corotation | proved | Model: `Tides.v`. Spec: `Spec/TidalOrbitSpec.v` (friction, torque, orbital rate), motion and vis-viva of `Spec/DiskSpec.v`. `Proofs/TidalOrbit.v`: the computed components rewritten to the law; work of each part on a circular orbit and the derivative of the semi-major axis of `Proofs/DiskOrbit.v`. | `C76_law`, `C76_spins`, `C76_orbit`, `C76_corotation` | over R; the dissipation factors are those of the evaluation (C28) |
| C77 | The relativistic corrections are the published equations and agree at the first order | proved | Model: `Relativity.v`. Spec: `Spec/EIHSpec.v` (the equations of motion of n point masses), `Spec/PostNewtonSpec.v` (energy and angular momentum of the first order, what they leave). `Proofs/EIHProofs.v`: a sweep of the fixed point is the law with the previous corrections, two bodies reduce to Kidder's first order. `Proofs/PostNewton.v`: derivatives along the motion (Coquelicot). `Proofs/AndersonProofs.v`: the iteration keeps a multiple of the velocity; bound of the deviation. `Proofs/RelativisticPair.v`: one evaluation for two bodies. `Proofs/PostNewtonExamples.v`: concrete systems. `Proofs/AndersonMomentum.v`: the way back from the Jacobi coordinates hands out exactly the force it takes from the host (induction from the last body). `Proofs/AndersonWHFast.v`: the first-order bound under WHFast, from C36_whfast_at_origin. | `C77_newhall_law`, `C77_newhall_pair`, `C77_newhall_conserves`, `C77_kidder_conserves`, `C77_anderson`, `C77_anderson_whfast`, `C77_anderson_momentum` | over R; no computed correction below the limit of the iteration (1e-30), at which the program rounds differences to zero; the Anderson bound needs a smallness parameter of at most 1/20 |
| C78 | A star with a wind spins down along the known closed form | proved | Model: `Wind.v`. Spec: `Spec/WindSpec.v` (closed forms of the rotation). `Proofs/SpinDown.v`: the wind's torque as a differential equation (Coquelicot), uniqueness of its solution by mean-value arguments on the squared rotation, the two regimes joined at the desaturation time. | `C78_spin_down`, `C78_skumanich` | over R; non-evolving star, positive wind constant, saturation, radius and moment of inertia |
| C79 | The table of an evolving body is the file for its mass, in the units of the simulation, and covers the run | proved | Model: `StarTables.v` (`Evolver::new`, the contents of the files are arguments). Spec: `Spec/StarTablesSpec.v` (nominal masses and tolerances, columns and units, data rows), `Spec/TablesSpec.v`. `Proofs/StarTablesProofs.v`: nominal masses are further apart than twice the tolerance; induction over the rows; cutting an increasing list at two bounds is filtering it; with increasing ages the columns are tables, so C41 applies. What the program does not check is stated as `_refuted`. | `C79_one_file`, `C79_unsupported_mass`, `C79_rows`, `C79_brown_dwarfs`, `C79_covers`, `C79_accepted`, `C79_usable`, `C79_range`, `C79_accepted_usable_refuted`, `C79_readable_ages_refuted` | over R; contents of the files are arguments; files without data or with unreadable ages are not refused, see the findings in DESIGN.md |
| C80 | An evolving body follows its table along the simulation and spins up as it contracts | proved | Model: `LeapFrog.v` (`lf_step`, `refresh_for_output`), `Universe.v` (`spin_and_evolving`), `Interp.v`. Spec: `Spec/EvolvingRunSpec.v` (a simulation as an inductive relation: steps and refreshes before outputs; sizes of the table; torques), `Spec/TablesSpec.v`. `Proofs/EvolvingRun.v`: invariant along the simulation that every table is the one of the start up to the remembered row, which no later request has passed; every request is then answered as in C41; the other parts of a step do not touch sizes, tables or, without torques, angular momenta (frame lemmas of C20). `Proofs/EvolvingRunWH.v`: the same for WHFast; induction over the iterations of the midpoint, which without torques leave angular momenta and compensations alone. | `C80_sizes`, `C80_rotation`, `C80_angular_momentum`, `C80_spin_up`, `C80_sizes_whfast`, `C80_rotation_whfast`, `C80_angular_momentum_whfast`, `C80_spin_up_whfast` | over R; LeapFrog and WHFast; tables usable (C79_usable) and not consulted before the initialization, which is part of the simulation; the steps are those that do not end in a panic |

## Findings

Deviations of the code from the properties, or from the literature it follows,
met while modelling.  Those with a theorem name are proved; the others are
readings of the source.

**Snapshots, files, command line**

* The integrator of a binary snapshot is guessed by trial decoding (WHFast, then
  IAS15, then LeapFrog).  An IAS15 state whose first body refers to a numbered
  body, with at most six bodies, is restored as WHFast
  (`C05_ias15_read_as_whfast`); a LeapFrog state whose first body has zero moment
  of inertia and a long evolution table can be restored as IAS15 (`C05_refuted`).
* `--time-limit` panics in `resume` (`C07_time_limit_refuted`): declared as u64,
  read as f64.
* With `--limit` the periodic snapshots are never written
  (`C06_limit_disables_periodic_snapshots`), and no snapshot is written on
  completion.
* The previous snapshot is renamed to `<name>.<stamp>.bin` before the new one is
  complete, so there is not always a snapshot at the given path, and for JSON
  paths the backup has the wrong extension (`C04_…_refuted`).
* Resuming at time 0 truncates the history.  Paths without an extension panic.
  NaN is written to JSON as `null`, which does not read back.  The hash of a case
  is stored but never verified.
* Resuming from an older snapshot makes a newer snapshot and the history
  inconsistent (`C02_snapshots_covered_any_resume_refuted`).

**Clock**

* With a step larger than the history period the output lags further and further
  behind (`C09_step_larger_than_period_refuted`); with IAS15 the time of the last
  output drifts.
* In binary64 the clock is not (number of steps) × (step) (`C10_binary64_clock_refuted`).

**Tables and evolution**

* The window of ten table rows of the evolver is consumed by repeated requests,
  so going back in time (LeapFrog evaluates at t and t + dt/2, IAS15 at the nodes
  and again after a rejection) gives wrong values (`C41_evolving_quantities_refuted`).
* The evolving Love number is written to a copy (`C42_love_number_never_changes`).
* A stellar model file without data rows is accepted and the first request stops the
  program (`C79_accepted_usable_refuted`); a later row with an unreadable age is
  taken for one of age −1 year (`C79_readable_ages_refuted`).
* `modulus(a, b)` can return `b` in binary64 (`C46_binary64_refuted`).

**Tides, flattening**

* Bodies with disabled tides make the host's torque NaN (`C27_disabled_body_refuted`);
  around a host with Kaula tides the accelerations of the host and of that body as
  well, for every system (`C27_kaula_host`, `C27_kaula_host_refuted`).
* A planet leaving the dynamical tide regime removes the wrong entry of the table
  of dissipation factors, the old factor stays in use (`C28_leaving_the_regime_refuted`).
* Oblate bodies at rest: 0/0 (`C29_body_at_rest_refuted`).
* Creep tide: the torque of a creeping host is not felt by the orbit
  (`C30_creeping_host_refuted`); the polar Cayley coefficients have two wrong
  signs (`C55_polar_series_refuted`) and their sum uses `(k-7)² n² sin` where
  `γ (k-7) n sin` is expected.
* `initialize` uses spins from before the refresh for `r·Ω`, which leaves a net
  torque on the system, computed in `C72_evaluation`; in a LeapFrog step the rotations
  receive the mean of the torques at the start and in the middle of the step, the
  orbits the one in the middle, so that the total angular momentum is not kept
  (`C72_leapfrog`, `C72_conservation_refuted`).
* The host's stored secular force is overwritten by each planet; LeapFrog's first half kick uses the
  force of the previous step.
* Kaula: `num_datapoints` is ignored, so zero padding makes the Love number 0 for
  frequencies above the table (`C33_padded_refuted`).  F_3mp: F_301 has 5/16 for
  15/16, F_31p factor (1+3cos) for (1+cos), F_32p sin² for sin, F_331 and F_332
  48/8 for 45/8 (`C31_degree_3_refuted`).  G_20q: 115/16 for 115/6
  (`C32_g20_refuted`).  G_310: e²/2 for 2e², sign of 3323/576, rows 10–14 copied
  from G_30q (`C32_g31_refuted`).  The circular radial branch uses the imaginary
  part of the Love number (`C56_radial_refuted`); the inclined radial force has
  the opposite sign for planets and the star's own mass for stellar tides
  (`C57_radial_opposite`, `C57_radial_stellar`); the inclined orthogonal component
  has 15/(4√6) for 3/2 (`C57_orthogonal_refuted`); the stellar normal and
  orthogonal components use the star's mass squared and the planet's radius
  (`C58_others_ignore_both`).  The host loop adds to disabled bodies too.
* Creep flattening uses the position, the velocity and the viscosity kept by the tides.
  A body with creep flattening and disabled tides is accepted by the setters and gets
  an acceleration that is not a number (`C74_flattening_alone_refuted`,
  `C74_flattening_alone_nan`).  A viscosity that is not a number passes the comparison
  of viscosities (`C74_binary64_refuted`).
* The disk's time scale is computed as a / |da/dt|, but applied as the time scale of the
  velocity, so a circular orbit shrinks 2 (1 + m/M) times faster than computed
  (`C75_circular`, `C75_computed_rate_refuted`); it is the angular momentum that decays
  with that time scale (`C75_angular_momentum`).
* Creep flattening never exerts a torque (`C73_evaluation`), and its figure jumps when
  the spin crosses the capture rate (`C73_continuity_refuted`).
* Kaula: on an inclined orbit the normal and orthogonal force kept for the torque are
  not means of the instantaneous ones: the sums keep every term with its phase set to
  zero instead of the terms of zero frequency (`C69_normal_refuted`,
  `C69_orthogonal_refuted`; the means are in `C69_normal_mean`, `C69_orthogonal_mean`).
* Kaula: a planet in exact synchronous rotation on a circular orbit is torqued by the
  first entry of its Love number table (`C66_synchronous_refuted`); the torque on a
  host with several planets combines every lever arm with the force of the last
  planet, two planets on opposite sides give zero (`C67_additive_refuted`).

**Relativity**

* Second post-Newtonian terms are divided by c² instead of c⁴
  (`C59_second_order_refuted`); the spin-orbit term multiplies vectors component
  by component (`C34_spin_orbit_refuted`) and lacks 1/r³ (`C59_spin_orbit_refuted`).
* Newhall: the convergence test is inverted, the iteration stops after one sweep
  (`C36_one_sweep`); terms ignored under WHFast mix frames (`C36_origin_refuted`);
  two disabled bodies give 0/0 (`C27_two_without_newhall_refuted`).
* An evaluation for the spins only zeroes the Kidder torque without recomputing it.

**Universe**

* Ejection is not noticed for bodies before the host (`C44_ejection_refuted`); the
  Roche radius of two bodies of equal mass uses the radius of the first; the table
  is computed once.
* Cached relative speeds use the host's stale heliocentric velocity (`C53_speed_refuted`).
* The reported energy is that of heliocentric coordinates (`C15_host_frame`).
* With the stellar wind alone WHFast and IAS15 never change the spin
  (`C54_whfast_refuted`, `C54_ias15_refuted`).

**WHFast**

* Newton's iteration accepts a cycle of two values as convergence; Stumpff series
  are truncated (bounds in `C18_step_partial`); the Jacobi kick is softened by 1e-12.

**IAS15**

* An infinite or NaN error estimate makes the step be accepted and grow fourfold
  (`C22_not_normal`).
* The seventh root stops after 20 iterations, far from the root for roots below
  0.04 or above 2.5 (`C23_converges_refuted`).
* The maximum over the torques compares the wrong variable (ias15.rs:1126).

**Orbital elements**

* Inclination: `if hy > 0 { i = 2π − i }` describes the mirrored orbit
  (`C49_inclination_refuted`); circular orbits get the mean anomaly of one half of
  the orbit only (`C49_circular_refuted`); unbound orbits always 0
  (`C49_unbound_mean_anomaly`).
* Kepler's equation: negative mean anomalies are reduced to (−2π, 0] and miss the
  equation by more than 0.4 (`C48_negative_refuted`); hyperbolas with small mean
  anomaly return the mean anomaly (`C48_hyperbola_refuted`).

## Mutation testing

`seeded/LOG.jsonl` has one line per wrong program: the definition edited in a copy
of the model, the edit, the claim it breaks, the proofs that failed (`file:lemma`),
theorems tightened after a survivor.  Lines with `survived` and nothing tightened
are explained by their edit (equivalent programs, or aspects no property mentions).

## Assumptions per theorem

Output of `Print Assumptions`, grouped.  `sig_forall_dec` and `sig_not_dec` are in
`ClassicalDedekindReals`, `functional_extensionality_dep` in
`FunctionalExtensionality`, `classic` in `Classical_Prop`.

**Closed under the global context** (52): `C01_history_always_a_prefix`, `C01_resume_equals_uninterrupted`, `C02_history_reads_back`, `C02_size_law`, `C02_snapshots_covered`, `C02_snapshots_covered_any_resume_refuted`, `C03_resume_keeps_prefix`, `C03_resume_refuses_short_history`, `C03_start_never_destroys`, `C04_always_at_given_path_refuted`, `C04_json_paths_refuted`, `C04_snapshot_survives_partial`, `C05_format_round_trip`, `C05_ias15_idle_partial`, `C05_ias15_partial`, `C05_ias15_read_as_whfast`, `C05_leapfrog_never_whfast`, `C05_leapfrog_partial`, `C05_leapfrog_short_partial`, `C05_refuted`, `C05_sizes`, `C05_universe_size`, `C05_whfast`, `C06_limit_disables_periodic_snapshots`, `C06_limit_saves_last_step`, `C06_period_with_limit_refuted`, `C07_other_options_usable`, `C07_time_limit_refuted`, `C10_binary64_clock_refuted`, `C22_any_number`, `C22_failures`, `C22_iterations`, `C22_not_normal`, `C22_rejected`, `C27_bodies_without_kidder_partial`, `C27_disabled_body_refuted`, `C27_kaula_host`, `C27_kaula_host_refuted`, `C27_two_without_newhall_refuted`, `C28_host_factor_partial`, `C28_planet_factor_partial`, `C28_static_factors`, `C28_wrong_entry`, `C29_body_at_rest_refuted`, `C37_inside_the_edge`, `C42_love_number_never_changes`, `C42_love_number_refuted`, `C46_binary64_refuted`, `C54_ias15_keeps`, `C74_binary64_refuted`, `C74_flattening_alone_nan`, `C74_flattening_alone_refuted`

**`sig_forall_dec`, `functional_extensionality_dep`** (5): `C09_sampling_error`, `C24_binary64_exact_refuted`, `C45_between_neighbours`, `C45_exact_at_nodes`, `C79_one_file`

**`sig_forall_dec`, `sig_not_dec`, `functional_extensionality_dep`** (153): `C01_fixed_step`, `C06_bounded_loss`, `C08_snapshot_periods`, `C08_time_limit`, `C09_history_sampling`, `C09_step_larger_than_period_refuted`, `C10_clock`, `C10_new_integrator`, `C10_stops_at_limit`, `C11_barycentric`, `C12_displaced`, `C12_host_free`, `C12_newton`, `C12_no_force`, `C12_square`, `C13_leapfrog_conserves`, `C14_leapfrog_reversible`, `C15_angular_momentum`, `C15_center_of_mass`, `C15_energy`, `C15_host_frame`, `C15_order`, `C16_round_trip`, `C17_angular_momentum`, `C17_coordinates`, `C17_momentum`, `C18_exact_drift`, `C18_newton`, `C18_newton_fixed`, `C18_step_partial`, `C19_jump`, `C19_kick`, `C20_prediction`, `C21_new`, `C22_decision`, `C22_step`, `C23_above`, `C23_converges_refuted`, `C23_limit`, `C23_small_refuted`, `C23_step_refuted`, `C24_exact_total`, `C25_constant_time_lag`, `C25_forces_sum_to_zero`, `C26_energy_balance`, `C26_heat_not_negative`, `C26_heat_zero_iff_synchronous`, `C26_reported_heat`, `C27_bodies_without_flattening_partial`, `C27_bodies_without_tides_partial`, `C29_forces_sum_to_zero`, `C29_rotation`, `C29_torques_balance`, `C30_creeping_planets_partial`, `C31_degree_3_definition`, `C33_interpolation_partial`, `C33_padded`, `C33_padded_refuted`, `C34_momentum`, `C34_rotation_partial`, `C34_spin_orbit_refuted`, `C35_spin_size_kept`, `C36_not_converged_refuted`, `C36_one_sweep`, `C36_origin_partial`, `C36_origin_refuted`, `C36_whfast_at_origin`, `C36_whfast_jacobi_at_origin`, `C37_damping`, `C37_momentum`, `C38_antiparallel`, `C38_continuous`, `C38_never_accelerates`, `C39_new_body`, `C39_quiet_kept`, `C39_sums`, `C40_effects`, `C40_new`, `C40_new_universe`, `C40_new_universe_spin`, `C40_refreshed`, `C40_start`, `C40_steps`, `C41_evolving_quantities_partial`, `C41_evolving_quantities_refuted`, `C41_going_back_in_time`, `C41_lag_angle`, `C43_conflicts`, `C43_hosts`, `C43_massless`, `C43_mismatch`, `C44_ejection_partial`, `C44_ejection_refuted`, `C44_roche`, `C45_linear_interpolation`, `C45_unique`, `C46_modulus`, `C48_step_keeps_solution`, `C52_iterations`, `C52_new`, `C52_spin_magnitude`, `C53_host`, `C53_relative`, `C53_speed_partial`, `C53_speed_refuted`, `C54_ias15_refuted`, `C54_leapfrog_partial`, `C54_whfast_keeps`, `C54_whfast_refuted`, `C55_equatorial_series`, `C55_polar_series_refuted`, `C59_first_order`, `C59_second_order_factor`, `C59_second_order_refuted`, `C59_spin_orbit_refuted`, `C61_whfast_conserves`, `C62_step`, `C63_jump`, `C63_kepler_partial`, `C63_kick`, `C63_step_partial`, `C64_bisection`, `C65_opposite`, `C70_conserves`, `C70_new`, `C71_forces`, `C71_ias15`, `C71_leapfrog`, `C71_whfast`, `C72_balance`, `C72_conservation_refuted`, `C72_evaluation`, `C72_leapfrog`, `C73_continuity_refuted`, `C74_flattening`, `C74_reachable`, `C74_same_law`, `C74_tides`, `C76_law`, `C76_spins`, `C77_anderson`, `C77_anderson_momentum`, `C77_anderson_whfast`, `C77_newhall_law`, `C77_newhall_pair`, `C80_angular_momentum`, `C80_angular_momentum_whfast`, `C80_rotation`, `C80_rotation_whfast`, `C80_sizes`, `C80_sizes_whfast`, `C80_spin_up`, `C80_spin_up_whfast`

**`sig_forall_dec`, `sig_not_dec`, `classic`, `functional_extensionality_dep`** (105): `C18_equation_of_motion`, `C21_accepted`, `C21_integrals`, `C21_motion`, `C21_nodes`, `C24_binary64`, `C24_binary64_exact`, `C28_leaving_the_regime_refuted`, `C29_force_is_gradient`, `C30_creeping_host_refuted`, `C31_degree_2_partial`, `C31_degree_3_refuted`, `C31_degree_3_right_only`, `C32_coplanar_rows`, `C32_g20_error`, `C32_g20_refuted`, `C32_g31_error`, `C32_g31_refuted`, `C32_mirrored`, `C32_rows_partial`, `C37_physical_disk`, `C47_ellipse`, `C47_hyperbola`, `C47_parabola`, `C48_circular`, `C48_hyperbola_keeps_solution`, `C48_hyperbola_low`, `C48_hyperbola_refuted`, `C48_negative_range`, `C48_negative_refuted`, `C48_parabola`, `C48_reduction_partial`, `C49_circular_phase`, `C49_circular_refuted`, `C49_inclination_outside`, `C49_inclination_refuted`, `C49_round_trip_partial`, `C49_shape`, `C49_unbound_mean_anomaly`, `C49_wrong_side`, `C50_rounds`, `C50_terminates`, `C50_value`, `C51_spin_vector`, `C56_orthogonal_partial`, `C56_radial_exactly_when`, `C56_radial_limit`, `C56_radial_refuted`, `C57_normal_partial`, `C57_orthogonal_refuted`, `C57_radial_opposite`, `C57_radial_stellar`, `C57_radial_sums`, `C58_orthogonal_refuted`, `C58_others_ignore_both`, `C58_planetary`, `C58_radial_coplanar_partial`, `C58_radial_inclined_ignores_mass`, `C60_hydrostatic_figure`, `C60_tidal_figure`, `C64_bounds`, `C64_kepler_returns`, `C64_step`, `C65_components`, `C65_torque`, `C65_towards_synchronism`, `C66_synchronous_refuted`, `C66_synchronous_value`, `C67_additive_refuted`, `C67_host_torque`, `C67_opposite`, `C67_runs`, `C68_kept`, `C68_remainder`, `C69_mean_unique`, `C69_normal_mean`, `C69_normal_refuted`, `C69_orthogonal_coplanar`, `C69_orthogonal_mean`, `C69_orthogonal_refuted`, `C69_radial`, `C73_evaluation`, `C73_figure`, `C75_ages`, `C75_angular_momentum`, `C75_circular`, `C75_computed_rate_refuted`, `C75_continuous`, `C75_law`, `C75_orbit`, `C76_corotation`, `C76_orbit`, `C77_kidder_conserves`, `C77_newhall_conserves`, `C78_skumanich`, `C78_spin_down`, `C79_accepted`, `C79_accepted_usable_refuted`, `C79_brown_dwarfs`, `C79_covers`, `C79_range`, `C79_readable_ages_refuted`, `C79_rows`, `C79_unsupported_mass`, `C79_usable`
