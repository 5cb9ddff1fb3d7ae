{"id": "C01", "title": "Resuming after a crash reproduces the uninterrupted run", "statement": "If a simulation is killed at any instant after a recovery snapshot has been completely written, resuming from that snapshot with the surviving history file and running to completion leaves a history file identical, record for record, to the one an uninterrupted run would have produced; this remains true for any number of successive crashes and resumes.", "quantifier": "every case, integrator step function, number of bodies, snapshot periods, every crash instant (including between buffered writes of a record) and every finite sequence of crash/resume cycles", "why_tests_cant": "crash instants and crash sequences are unbounded; a test samples a handful of them on a handful of systems", "anchors": ["src/main.rs: main", "src/integrator/output.rs: get_universe_history_writer, write_historic_snapshot, restore_snapshot", "src/integrator/leapfrog.rs: iterate, write_recovery_snapshot", "src/integrator/whfast.rs: iterate, write_recovery_snapshot", "src/integrator/ias15.rs: iterate, write_recovery_snapshot"]}
{"id": "C02", "title": "History size law and lossless record layout", "statement": "Whenever a recovery snapshot is on disk, the history file holds at least (snapshot's record count) x (number of bodies) x 156 bytes, and every history file written by a run decodes back, without loss and in order, into exactly the sequence of per-body records emitted.", "quantifier": "every number of records, bodies and every bit pattern of every field (including NaN and infinities)", "why_tests_cant": "needs all record contents and all file lengths", "anchors": ["src/integrator/output.rs: n_bytes_per_particle_in_historic_snapshot, write_historic_snapshot", "src/main.rs: expected_n_bytes", "posidonius/analysis/history.py: read"]}
{"id": "C03", "title": "Starting never destroys existing output; resuming never silently continues an incomplete history", "statement": "`start` refuses to run (leaving both files untouched) if the snapshot or the history path already exists; `resume` refuses to run if the history is shorter than the snapshot claims, and otherwise keeps exactly the claimed prefix and appends after it.", "quantifier": "every file-system content and every snapshot", "why_tests_cant": "quantifies over every pre-existing file content", "anchors": ["src/main.rs: main", "src/integrator/output.rs: get_universe_history_writer"]}
{"id": "C04", "title": "A complete recovery snapshot survives a crash at any point of snapshot writing", "statement": "Once one recovery snapshot has been completely written, at every later instant (in particular in the middle of replacing it) at least one complete, restorable snapshot produced by this run exists on disk; ideally it is always found at the path given by the user.", "quantifier": "every interleaving point of rename/create/write steps, every number of snapshots, every clock reading (half-day collisions of backup names)", "why_tests_cant": "the vulnerable window is a few milliseconds and must be considered at every snapshot", "anchors": ["src/integrator/output.rs: write_recovery_snapshot"]}
{"id": "C05", "title": "Binary snapshots restore exactly what was saved, with the right integrator", "statement": "Restoring a binary recovery snapshot yields the same integrator kind and exactly the same state that was saved, for any number of bodies and any length of evolution tables.", "quantifier": "every well-typed state of each integrator, every table length", "why_tests_cant": "state space of the snapshot is unbounded; kinds are guessed by trial decoding", "anchors": ["src/integrator/output.rs: deserialize_bin_snapshot", "src/integrator/whfast.rs: WHFast", "src/integrator/leapfrog.rs: LeapFrog", "src/integrator/ias15.rs: Ias15", "src/particles/universe.rs: Universe"]}
{"id": "C06", "title": "Periodic recovery snapshots are written with and without an execution time limit", "statement": "A recovery snapshot is written each time the recovery period elapses, whether or not a wall-clock limit was requested, and a wall-clock limit always leaves a snapshot of the last completed step.", "quantifier": "every run length, recovery period, limit and clock behaviour", "why_tests_cant": "wall-clock dependent control flow over unbounded runs", "anchors": ["src/main.rs: main loop"]}
{"id": "C07", "title": "Every documented command line option is usable", "statement": "Passing any documented option of `resume` with a syntactically valid value changes the corresponding setting and never aborts the program by itself; in particular `--time-limit` sets the simulation time limit.", "quantifier": "every subcommand and every valid option value", "why_tests_cant": "covers the whole option space; option storage types are checked only at run time", "anchors": ["src/main.rs: Command definition and get_one calls"]}
{"id": "C08", "title": "Changing limits and periods on resume does exactly what was asked", "statement": "A positive new time limit replaces the old one unless it lies before the current time or beyond the range of an evolution table (then the program refuses); non-positive values leave every setting unchanged; new snapshot periods replace only the corresponding period; nothing else in the state changes.", "quantifier": "every state and every requested value", "why_tests_cant": "all combinations of old/new limits, tables and times", "anchors": ["src/integrator/leapfrog.rs: set_time_limit, set_snapshot_periods", "src/integrator/whfast.rs: set_time_limit", "src/integrator/ias15.rs: set_time_limit"]}
{"id": "C09", "title": "History sampling follows the requested period", "statement": "With a fixed time step not larger than the history period, the history contains a record at time zero and then, for each k>=1, exactly one record taken at the first step whose time reaches k periods; the sampling error never exceeds one time step.", "quantifier": "every time step, period with step <= period, every run length", "why_tests_cant": "an invariant over unboundedly many steps", "anchors": ["src/integrator/leapfrog.rs: iterate", "src/integrator/whfast.rs: iterate", "src/integrator/ias15.rs: iterate"]}
{"id": "C10", "title": "A run stops at the time limit", "statement": "A fixed-step run terminates, executes at least one step, stops at the last multiple of the time step that does not exceed the limit (when the limit allows one step), and its clock always equals (number of steps) x (time step).", "quantifier": "every time step > 0 and every time limit", "why_tests_cant": "unbounded number of iterations", "anchors": ["src/integrator/leapfrog.rs: iterate", "src/integrator/whfast.rs: iterate", "src/integrator/ias15.rs: iterate", "src/main.rs: main loop"]}
{"id": "C11", "title": "A new universe is expressed in its barycentric frame without changing the system", "statement": "Building a universe places the centre of mass at the origin at rest, and leaves every pairwise relative position and velocity as given by the user.", "quantifier": "every list of bodies with non-negative masses, not all zero", "why_tests_cant": "all masses, positions and numbers of bodies", "anchors": ["src/particles/universe.rs: Universe::new, calculate_center_of_mass"]}
{"id": "C12", "title": "Gravity is Newton's law, pairwise and symmetric", "statement": "Each body's gravitational acceleration equals the sum over the other bodies of G m (x_j-x_i)/|x_j-x_i|^3; total force and total torque vanish; the result is unchanged by translating and equivariant under rotating the system, and independent of how bodies are split around the host.", "quantifier": "every number of bodies, all masses and distinct positions, every choice of host", "why_tests_cant": "all configurations; conservation is an identity, not a sample", "anchors": ["src/particles/universe.rs: gravity_calculate_acceleration"]}
{"id": "C13", "title": "LeapFrog conserves linear and angular momentum of a gravitating system", "statement": "Over any number of LeapFrog steps of a purely gravitating system, total momentum and total orbital angular momentum are constant and the centre of mass moves uniformly.", "quantifier": "every initial state, time step and number of steps without coincident bodies", "why_tests_cant": "induction over unboundedly many steps", "anchors": ["src/integrator/leapfrog.rs: iterate, integrator_part1, integrator_part2"]}
{"id": "C14", "title": "LeapFrog is time reversible", "statement": "Reversing all velocities after any number of LeapFrog steps and integrating for the same number of steps returns to the initial positions with reversed velocities.", "quantifier": "every initial state, step and number of steps", "why_tests_cant": "unbounded steps, all states", "anchors": ["src/integrator/leapfrog.rs: integrator_part1, integrator_part2"]}
{"id": "C15", "title": "Reported energy, angular momentum and centre of mass are the textbook quantities", "statement": "The universe's total energy, total angular momentum and centre of mass equal kinetic minus pairwise potential energy, the norm of the summed m x*v, and the mass-weighted mean for any number of bodies, and do not depend on the order in which bodies are listed.", "quantifier": "every list of bodies", "why_tests_cant": "all sizes and orders", "anchors": ["src/particles/universe.rs: compute_total_energy, compute_total_angular_momentum, calculate_center_of_mass, get_center_of_mass_of_pair"]}
{"id": "C16", "title": "Changing to WHFast coordinates and back is the identity", "statement": "For Jacobi, democratic heliocentric and WHDS coordinates, converting positions and velocities from the inertial frame and back gives the original values for every body, whatever the position of the host in the list.", "quantifier": "every number of bodies, masses with non-vanishing partial sums, all positions and velocities, every host index", "why_tests_cant": "all sizes and host positions", "anchors": ["src/integrator/whfast.rs: inertial_to_jacobi_posvel, jacobi_to_inertial_posvel, inertial_to_whds_and_democratic_heliocentric_posvel, whds_and_democratic_heliocentric_to_inertial_posvel"]}
{"id": "C17", "title": "WHFast coordinates isolate the centre of mass", "statement": "The coordinate slot of the host holds the total mass and the centre-of-mass position and velocity, and total linear momentum and total angular momentum computed in the new coordinates equal the inertial ones.", "quantifier": "every system", "why_tests_cant": "all sizes", "anchors": ["src/integrator/whfast.rs: inertial_to_jacobi_posvel, inertial_to_whds_and_democratic_heliocentric_posvel"]}
{"id": "C18", "title": "The WHFast Kepler drift is exact two-body motion", "statement": "Whenever the universal Kepler equation is solved, the drift of a body is a linear combination of its position and velocity with unit Wronskian that preserves orbital angular momentum and two-body energy for bound and unbound orbits.", "quantifier": "every position, velocity, gravitational parameter and time step with a solved Kepler equation", "why_tests_cant": "all orbits, including parabolic and hyperbolic", "anchors": ["src/integrator/whfast.rs: kepler_individual_step, stiefel_gs3, stumpff_cs3"]}
{"id": "C19", "title": "WHFast kicks and jumps respect momentum conservation", "statement": "The interaction kick and the jump step of WHFast leave the total linear momentum of the inertial system unchanged for every coordinate choice.", "quantifier": "every system and step", "why_tests_cant": "all sizes", "anchors": ["src/integrator/whfast.rs: interaction_step, jump_step"]}
{"id": "C20", "title": "IAS15 predicts the next step by exact re-expansion of the fitted polynomial", "statement": "The predicted coefficients for a step of relative length q describe exactly the same acceleration polynomial, shifted to the end of the last step and rescaled by q (plus the last correction), and are reset to zero when q exceeds 20.", "quantifier": "every coefficient vector and every q", "why_tests_cant": "polynomial identity over all reals", "anchors": ["src/integrator/ias15.rs: predict_next_step"]}
{"id": "C21", "title": "IAS15 final and intermediate updates integrate the fitted polynomial exactly", "statement": "At every node and at the end of an accepted step, positions and velocities equal the exact double and single integrals of the fitted acceleration polynomial from the start of the step, and the interpolating polynomial takes at each node the acceleration computed there.", "quantifier": "every coefficient vector, node, time step", "why_tests_cant": "polynomial identities over all reals", "anchors": ["src/integrator/ias15.rs: integrator"]}
{"id": "C22", "title": "IAS15 step size control is safe", "statement": "An accepted step never grows by more than a factor four, a step whose proposed ratio is below one quarter is rejected, and after a rejection positions, velocities and spins are exactly those at the start of the step and the clock has not advanced.", "quantifier": "every error estimate (including zero, tiny, infinite and NaN) and state", "why_tests_cant": "floating point special cases and unbounded retries", "anchors": ["src/integrator/ias15.rs: integrator"]}
{"id": "C23", "title": "IAS15 seventh root", "statement": "The step-size formula's seventh root routine never returns a value below the true seventh root, is positive, and converges to it.", "quantifier": "every positive argument", "why_tests_cant": "continuum of arguments", "anchors": ["src/integrator/ias15.rs: sqrt7"]}
{"id": "C24", "title": "Compensated summation keeps the exact total", "statement": "The running value less its compensation carries the sum of all increments: exactly in real arithmetic, where the compensation vanishes, and in binary64 within three units in the 53rd place of the increments, whatever the size of the running value; an increment not larger than the running value loses nothing.", "quantifier": "every sequence of increments", "why_tests_cant": "unbounded sequences", "anchors": ["src/integrator/ias15.rs: add_cs", "src/integrator/whfast.rs: apply_acceleration_corrections"]}
{"id": "C25", "title": "Constant-time-lag tides exchange momentum only between the bodies and their spins", "statement": "Tidal forces sum to zero over the system, and the orbital torque of the tidal force is exactly balanced by the opposite change of the spins: total (orbital plus spin) angular momentum is conserved.", "quantifier": "every host and every number of orbiting bodies with tides enabled", "why_tests_cant": "all configurations", "anchors": ["src/effects/tides/constant_time_lag.rs", "src/effects/tides/common.rs: calculate_tidal_acceleration, calculate_dangular_momentum_dt_due_to_tides"]}
{"id": "C26", "title": "Constant-time-lag tides dissipate energy", "statement": "The mechanical power of the tidal force on the relative motion plus that of the tidal torques on the spins is never positive apart from the conservative part, and vanishes for a synchronous circular orbit.", "quantifier": "every orbit and spin", "why_tests_cant": "all states", "anchors": ["src/effects/tides/constant_time_lag.rs", "src/effects/tides/common.rs: calculate_denergy_dt"]}
{"id": "C27", "title": "Bodies without an effect do not influence the effect's host", "statement": "A body whose tidal (or flattening, disk, relativity) effect is disabled contributes nothing to the accelerations and torques of that effect on any other body; results stay finite.", "quantifier": "every mix of enabled and disabled bodies", "why_tests_cant": "all subsets of bodies", "anchors": ["src/effects/tides/common.rs: calculate_dangular_momentum_dt_due_to_tides", "src/effects/tides/constant_time_lag.rs: calculate_torque_due_to_tides", "src/effects/general_relativity.rs: Newhall"]}
{"id": "C28", "title": "Pair-dependent dissipation factors are those of the current state", "statement": "The dissipation factor used for a host/planet pair is the dynamical-tide value exactly when the planet is inside the dynamical-tide regime at the current step and the equilibrium value otherwise; bookkeeping for different pairs never interferes.", "quantifier": "every sequence of regime changes for every pair of bodies", "why_tests_cant": "depends on the history of regime changes", "anchors": ["src/effects/tides/constant_time_lag.rs: set_pair_dependent_scaled_dissipation_factor, remove_pair_dependent_scaled_dissipation_factor, get_pair_dependent_scaled_dissipation_factor"]}
{"id": "C29", "title": "Rotational flattening conserves momentum and total angular momentum and is well defined for non-rotating bodies", "statement": "Flattening forces sum to zero, their orbital torque is balanced by spin torques, they are equivariant under rotations, and a body that does not rotate feels/causes no flattening force.", "quantifier": "every system, including zero spins", "why_tests_cant": "all configurations and the degenerate zero-spin case", "anchors": ["src/effects/rotational_flattening/oblate_spheroid.rs", "src/effects/rotational_flattening/common.rs"]}
{"id": "C30", "title": "Creep tide torques are balanced by the orbit", "statement": "For coplanar creep tides the torque applied to the planet's and to the host's spin equals the orbital torque of the tidal force.", "quantifier": "every coplanar configuration and viscosity", "why_tests_cant": "all states", "anchors": ["src/effects/tides/creep_coplanar.rs: calculate_torque_due_to_tides, calculate_tidal_force", "src/effects/tides/common.rs"]}
{"id": "C31", "title": "Kaula inclination functions satisfy their defining expansion", "statement": "For every inclination the inclination functions F_lmp used by the Kaula tidal model reproduce the rotation of the spherical harmonics of degree 2 and 3 for every argument of latitude.", "quantifier": "every inclination and argument of latitude, all (l,m)", "why_tests_cant": "identity over two continuous angles", "anchors": ["src/effects/tides/kaula.rs: calculate_inclination_function_f_20p .. f_33p"]}
{"id": "C32", "title": "Kaula eccentricity functions agree with the orbit to the advertised order", "statement": "The eccentricity functions G_lpq used by the Kaula tidal model, summed over q at pericentre, agree with (1-e)^-(l+1) up to terms of order e^8.", "quantifier": "every eccentricity, all rows", "why_tests_cant": "order-of-accuracy statement for all eccentricities", "anchors": ["src/effects/tides/kaula.rs: calculate_eccentricity_function_g_2pq, g_20q, g_21q, g_3pq"]}
{"id": "C33", "title": "Kaula Love numbers interpolate the user's table", "statement": "The complex Love number used for an excitation frequency is the linear interpolation of the user supplied table (clamped at its ends, odd imaginary part for negative planetary frequencies), for tables of any supported length.", "quantifier": "every table with 1 to 1024 points and every frequency", "why_tests_cant": "all table lengths and frequencies", "anchors": ["src/effects/tides/kaula.rs: calculate_kaula_numbers, KaulaParameters.num_datapoints"]}
{"id": "C34", "title": "Relativistic corrections conserve momentum and respect rotations", "statement": "First and second order post-Newtonian (Kidder) accelerations sum to zero in mass-weighted form and are equivariant under rotation of the whole system; the spin-orbit part as well.", "quantifier": "every host and orbiting bodies", "why_tests_cant": "all configurations", "anchors": ["src/effects/general_relativity.rs: calculate_kidder1995_*"]}
{"id": "C35", "title": "Relativistic spin precession preserves the spin magnitude", "statement": "The change of spin angular momentum due to relativistic precession is always perpendicular to the spin angular momentum.", "quantifier": "every state", "why_tests_cant": "all states", "anchors": ["src/effects/general_relativity.rs: calculate_kidder1995_spin_orbit_coupling_acceleration_and_torque"]}
{"id": "C36", "title": "Anderson and Newhall corrections do not depend on the origin of the inertial frame", "statement": "Translating the whole system leaves the relativistic acceleration of every body unchanged, and the Newhall iteration really iterates until convergence or reports failure.", "quantifier": "every system and translation", "why_tests_cant": "all systems", "anchors": ["src/effects/general_relativity.rs: anderson1975, newhall1983, get_newtonian_accelerations"]}
{"id": "C37", "title": "Disk interaction conserves momentum and damps", "statement": "Disk forces on planets are compensated by the opposite force on the host, vanish for planets inside the inner edge, and do non-positive work on the planet when the migration time scale is positive.", "quantifier": "every planet state and disk parameters", "why_tests_cant": "all states", "anchors": ["src/effects/disk.rs"]}
{"id": "C38", "title": "Stellar wind only brakes", "statement": "The wind torque is antiparallel to the spin, is never accelerating for a non-negative wind constant and is continuous across the saturation threshold.", "quantifier": "every star and spin", "why_tests_cant": "all spins", "anchors": ["src/effects/wind.rs: calculate_wind_factor"]}
{"id": "C39", "title": "Total additional acceleration is exactly the sum of the enabled effects", "statement": "The acceleration corrections added to gravity and the total change of angular momentum are, for each body, the sum of the contributions of the effects enabled in the simulation, and of nothing else.", "quantifier": "every combination of enabled effects and every number of bodies", "why_tests_cant": "all combinations", "anchors": ["src/particles/universe.rs: calculate_additional_effects, add_additional_acceleration_corrections, apply_acceleration_corrections, calculate_dangular_momentum_dt"]}
{"id": "C40", "title": "Spin, angular momentum and moment of inertia stay consistent", "statement": "After spins are refreshed, spin x moment of inertia equals the angular momentum, the cached squared norm equals the spin's squared norm, and the moment of inertia equals mass x gyration radius^2 x radius^2 also for evolving bodies.", "quantifier": "every body and every evolution history", "why_tests_cant": "history dependent cache", "anchors": ["src/particles/common.rs: calculate_spin", "src/particles/universe.rs: calculate_spin_and_evolving_quantities", "src/effects/evolution.rs: calculate_particles_non_spin_dependent_evolving_quantities"]}
{"id": "C41", "title": "Evolving quantities are the linear interpolation of the full table", "statement": "At every requested time the radius, gyration radius, Love number and dissipation of an evolving body equal the linear interpolation of the complete evolution table at that time, whatever times were requested before.", "quantifier": "every table and every sequence of requested times (including going back in time after a rejected step)", "why_tests_cant": "the search window depends on the whole history of requests", "anchors": ["src/effects/evolution.rs: Evolver::idx, radius, radius_of_gyration_2, love_number, inverse_tidal_q_factor", "src/tools.rs: linear_interpolation, find_indices_around_target_value"]}
{"id": "C42", "title": "Evolving Love numbers take effect", "statement": "For a body whose evolution model provides a Love number, the tidal computation at time t uses the Love number of the table at t.", "quantifier": "every evolving body and time", "why_tests_cant": "all tables", "anchors": ["src/effects/evolution.rs: calculate_particles_non_spin_dependent_evolving_quantities"]}
{"id": "C43", "title": "Host selection", "statement": "The most massive body (the first one in case of ties) is chosen as reference, each effect's host is the unique body declared as its centre, conflicting declarations are refused, and the indices returned are always valid.", "quantifier": "every list of at most ten bodies of which at least one has positive mass (declared disks having a non-zero inner edge)", "why_tests_cant": "all lists", "anchors": ["src/particles/universe.rs: find_indices"]}
{"id": "C44", "title": "Ejection and collision checks examine every body", "statement": "A body further than the maximum distance from the host, or two bodies closer than their Roche limit, is always detected, wherever they appear in the list.", "quantifier": "every list and host position", "why_tests_cant": "all positions in the list", "anchors": ["src/particles/universe.rs: gravity_calculate_acceleration"]}
{"id": "C45", "title": "Linear interpolation is exact at nodes, bounded, and clamped outside the table", "statement": "Interpolating a sorted table returns the tabulated value at each node, lies between the neighbouring values inside, and the first/last value outside.", "quantifier": "every sorted table and every query", "why_tests_cant": "all tables", "anchors": ["src/tools.rs: linear_interpolation, find_indices_around_target_value, cosine_interpolation"]}
{"id": "C46", "title": "Angle reduction", "statement": "Reducing an angle modulo b>0 returns a value in [0,b) congruent to the argument.", "quantifier": "all reals", "why_tests_cant": "continuum", "anchors": ["src/tools.rs: modulus"]}
{"id": "C47", "title": "Orbital elements to Cartesian state gives the right orbit", "statement": "The Cartesian state computed from orbital elements lies on the orbit they describe: distance a(1-e cos E), energy -GM/2a, angular momentum with the given inclination and node, whenever Kepler's equation is solved.", "quantifier": "all elements with 0<=e<1", "why_tests_cant": "continuum of elements", "anchors": ["src/tools.rs: calculate_cartesian_coordinates"]}
{"id": "C48", "title": "Kepler equation solvers solve Kepler's equation", "statement": "The eccentric (hyperbolic) anomaly returned satisfies Kepler's equation for the given mean anomaly and eccentricity, on every branch of the solver.", "quantifier": "all eccentricities and mean anomalies", "why_tests_cant": "continuum, many branches", "anchors": ["src/tools.rs: kepler_solution_for_eccentrities_smaller_than_one, kepler_solution_for_a_parabola, kepler_solution_for_a_hyperbola, kepler_solution_for_a_hyperbola_hybrid_approach_for_low_n"]}
{"id": "C49", "title": "Cartesian state to orbital elements", "statement": "Elements computed from a state satisfy vis-viva and the angular-momentum relation: eccentricity, perihelion distance, semi-major axis, inclination in [0,pi]; a bound circular orbit keeps its phase on the whole circle.", "quantifier": "all bound states", "why_tests_cant": "continuum", "anchors": ["src/tools.rs: calculate_keplerian_orbital_elements, calculate_perihelion_distance_and_eccentricity"]}
{"id": "C50", "title": "True anomaly iteration terminates", "statement": "The fixed-point iteration computing the true anomaly terminates for every eccentricity in [0,1) and returns an eccentric anomaly within the tolerance.", "quantifier": "all mean anomalies and eccentricities", "why_tests_cant": "termination for a continuum", "anchors": ["src/effects/tides/creep_coplanar.rs: calculate_true_anomaly"]}
{"id": "C51", "title": "Spin vector from rotation state", "statement": "The spin vector computed from angular frequency, obliquity, inclination and node has norm equal to the angular frequency and the prescribed angle to the reference axis.", "quantifier": "all angles and frequencies", "why_tests_cant": "continuum", "anchors": ["src/tools.rs: calculate_spin"]}
{"id": "C52", "title": "Implicit midpoint update of the spin preserves the spin magnitude when torques are perpendicular and always terminates", "statement": "The iterative midpoint scheme performs at most ten iterations, and at a converged fixed point of a torque perpendicular to the midpoint spin the spin magnitude is unchanged.", "quantifier": "every torque function", "why_tests_cant": "all torque functions", "anchors": ["src/integrator/whfast.rs: implicit_midpoint, converged, average"]}
{"id": "C53", "title": "Heliocentric quantities are those relative to the most massive body", "statement": "After refreshing, each body's heliocentric position, velocity, distance, radial and total speed are those of the inertial state relative to the most massive body, whatever the previously cached values.", "quantifier": "every system and cached state", "why_tests_cant": "cached state of all histories", "anchors": ["src/particles/universe.rs: inertial_to_heliocentric"]}
{"id": "C54", "title": "Wind-driven spin evolution is integrated by every integrator", "statement": "If the stellar wind is the only effect enabled, the spin of the star slows down with every integrator.", "quantifier": "every star with non-zero wind constant, every integrator", "why_tests_cant": "all integrators x configurations", "anchors": ["src/integrator/whfast.rs: iterate", "src/integrator/ias15.rs: integrator", "src/integrator/leapfrog.rs: iterate"]}
{"id": "C55", "title": "Fourier series of the creep tide represent the orbit", "statement": "The two series in the eccentricity used to shape a rapidly rotating creeping body add up, at pericentre, to (1-e)^-3 with an error of order e^8.", "quantifier": "every eccentricity up to 1/2", "why_tests_cant": "agreement of functions over an interval of eccentricities; a test sees a rounding-size discrepancy at small e and accepts it", "anchors": ["src/effects/tides/creep_coplanar.rs: calculate_cayley_coefficients"]}
{"id": "C56", "title": "Kaula tide: circular and eccentric formulas agree", "statement": "For a planet without obliquity, the radial tidal force computed by the branch for circular orbits equals the limit of the one computed by the branch for eccentric orbits as the eccentricity goes to zero.", "quantifier": "every planet, host and Love number table", "why_tests_cant": "limit over all states and tables", "anchors": ["src/effects/tides/kaula.rs: calculate_tidal_force"]}
{"id": "C57", "title": "Kaula tide: planar and inclined formulas agree", "statement": "For an obliquity of zero, the tidal force given by the formulas for inclined orbits equals the one given by the formulas for coplanar orbits.", "quantifier": "every planet, host, eccentricity and Love number table", "why_tests_cant": "all states and tables", "anchors": ["src/effects/tides/kaula.rs: calculate_tidal_force"]}
{"id": "C58", "title": "Kaula stellar tide scales with the perturber", "statement": "The force due to the tide raised in the star by a planet scales with the square of the planet's mass and the fifth power of the star's radius, in every branch.", "quantifier": "every planet and star", "why_tests_cant": "all masses and radii", "anchors": ["src/effects/tides/kaula.rs: calculate_tidal_force"]}
{"id": "C59", "title": "Kidder corrections are the published ones", "statement": "The first-order, second-order and spin-orbit accelerations computed for a planet with the Kidder (1995) implementation equal the published post-Newtonian formulae evaluated at its position and velocity relative to the host.", "quantifier": "every pair of distinct bodies with any masses, spins and velocities", "why_tests_cant": "reference values generated by the program itself carry the same transcription errors", "anchors": ["src/effects/general_relativity.rs: calculate_kidder1995_general_relativity_acceleration"]}
{"id": "C60", "title": "Hydrostatic shape of a synchronous creeping body", "statement": "A body with creep tides that rotates synchronously on a circular orbit takes the hydrostatic figure raised by its companion: the equatorial bulge points at the companion, has no lag, its prolateness is 15/4 (M_companion/M_body)(R/a)^3, and the polar flattening is half of it plus the rotational one 5/4 spin^2 R^3/(G M_body), whichever of the two formulas of the program is used. On an eccentric orbit the tidal figure of a body that rotates more slowly than the capture rate is an ellipsoid whose prolateness and lag follow the tide with the delay of the creep.", "quantifier": "every masses, radius, distance, viscosity, phase, eccentricity and whichever of the two bodies is the deformed one", "why_tests_cant": "all masses, radii, distances, phases", "anchors": ["src/effects/tides/creep_coplanar.rs: calculate_creep_coplanar_shape, calculate_particle_shape"]}
{"id": "C61", "title": "WHFast conserves momentum and moves the centre of mass uniformly", "statement": "Without additional effects, any number of WHFast steps leaves the total linear momentum unchanged and displaces the mass-weighted position by the elapsed time times the momentum, for every choice of coordinates.", "quantifier": "every system with non-cancelling masses, every host index, number of steps and step size", "why_tests_cant": "all systems and step counts; tests see a drift only beyond their tolerance", "anchors": ["src/integrator/whfast.rs: iterate, kepler_steps, jump_step, interaction_step, integrate_velocity_dependent_forces"]}
{"id": "C62", "title": "A WHFast step is a Wisdom-Holman splitting of Newton's equations", "statement": "Without additional effects, one WHFast step carries the bodies through: Kepler motion for half a step, jump for half a step, kick for a whole step, jump for half a step, Kepler motion for half a step. The Kepler motions act on the coordinates of the chosen kind around the right central masses, the jump moves every position with the rest of its true rate, the kick accelerates every velocity with the rest of its true Newtonian rate, and the centre of mass moves uniformly; so the rates of the three parts add up to Newton's equations.", "quantifier": "every system with non-cancelling masses, every kind of coordinates, host index, step size and state", "why_tests_cant": "all systems; a wrong weight of one body in one kind of coordinates changes orbits slowly and stays within test tolerances", "anchors": ["src/integrator/whfast.rs: iterate, kepler_steps, jump_step, interaction_step, inertial_to_*, *_to_inertial"]}
{"id": "C63", "title": "WHFast conserves the total angular momentum", "statement": "Without additional effects, a WHFast step leaves the total orbital angular momentum unchanged: the jump and the kick do so exactly in every kind of coordinates, and the Kepler motions change it by no more than the defect of the solution of Kepler's equation.", "quantifier": "every system with non-cancelling masses, every kind of coordinates, host index and step size", "why_tests_cant": "all systems; tests see the drift of a handful of systems only", "anchors": ["src/integrator/whfast.rs: iterate, kepler_steps, jump_step, interaction_step"]}
{"id": "C64", "title": "WHFast always returns", "statement": "The solution of Kepler's equation ends for every orbit and every positive step: the argument reduction, the quartic and Newton iterations and the bisection all end; the interval that is bisected contains the solution, which is unique, and bisection ends at a change of sign within a relative width of 1e-15. A whole step of a system of bodies with positive masses therefore ends with new positions or with the report of a Roche limit, a collision or an ejection.", "quantifier": "every bound or unbound orbit and step; every system with positive masses", "why_tests_cant": "an endless loop shows up only for the rare orbits that reach the last resort of the solver", "anchors": ["src/integrator/whfast.rs: kepler_individual_step, stumpff_cs3, stiefel_gs3, iterate"]}
{"id": "C65", "title": "The Kaula torque drives a planet towards synchronous rotation", "statement": "A planet with a circular orbit in its equatorial plane feels the torque 3/2 G M^2 R^5 / a^6 Im k2(2n - 2w) about the normal and no other; with a dissipative Love number table it is spun up while it turns more slowly than it revolves and braked while it turns faster, by equal amounts at equal distances from synchronism. The tidal force has the computed radial, polar and azimuthal components at every position.", "quantifier": "every host, planet, circular orbit, rotation rate and Love number table", "why_tests_cant": "all orbits, rotation rates and tables; the regression tests cover a few systems", "anchors": ["src/effects/tides/kaula.rs: calculate_tidal_force, calculate_orthogonal_component_of_the_tidal_force, calculate_torque_due_to_tides, calculate_kaula_numbers"]}
{"id": "C66", "title": "A synchronous planet on a circular orbit feels no Kaula torque", "statement": "When a planet with a circular orbit in its equatorial plane turns exactly as fast as it revolves, the Kaula model gives no torque.", "quantifier": "every host, planet, circular orbit and Love number table", "why_tests_cant": "exact synchronism is a single point of the parameter space", "anchors": ["src/effects/tides/kaula.rs: calculate_kaula_numbers, calculate_orthogonal_component_of_the_tidal_force"]}
{"id": "C67", "title": "The Kaula torque on a host adds up over its planets", "statement": "The change of the angular momentum of a host that follows the Kaula model is the sum of the changes each of its planets would cause alone.", "quantifier": "every host and every list of planets", "why_tests_cant": "needs systems with several planets and the comparison with each of them alone", "anchors": ["src/effects/tides/kaula.rs: calculate_tidal_force, calculate_torque_due_to_tides", "src/effects/tides/common.rs: calculate_tidal_acceleration, calculate_dangular_momentum_dt_due_to_tides"]}
{"id": "C68", "title": "The terms left out of the eccentricity series are small", "statement": "For every eccentricity the Kaula model uses the same number of terms on either side of the central one; each coefficient it leaves out is at most 1/25 in degree two and 1/6 in degree three, and above 3/10 nothing is left out.", "quantifier": "every eccentricity", "why_tests_cant": "all eccentricities of six intervals", "anchors": ["src/effects/tides/kaula.rs: calculate_eccentricity_function_g_2pq, calculate_eccentricity_function_g_3pq and the selection of the truncation order"]}
{"id": "C69", "title": "The force remembered for the Kaula torque is the mean of the instantaneous force", "statement": "The radial, normal and orthogonal components that the Kaula model keeps for the torque are the means of the instantaneous components over the mean anomaly and the argument of pericentre, the bodies' distance and all other elements being fixed: oscillating terms are dropped, constant ones kept.", "quantifier": "all bodies, orbits, tables of Love numbers, both roles of the body", "why_tests_cant": "a mean over two angles of a series with up to 135 x 225 terms; tests compare one snapshot with a reference run of the same code", "anchors": ["src/effects/tides/kaula.rs: calculate_radial_component_of_the_tidal_force, calculate_normal_component_of_the_tidal_force, calculate_orthogonal_component_of_the_tidal_force"]}
{"id": "C70", "title": "IAS15 conserves the total momentum", "statement": "When no tides, flattening, disk or general relativity is enabled, any number of IAS15 steps, with any step sizes, rejected attempts and number of corrector iterations, leaves the total momentum exactly as it was, and the centre of mass moves in a straight line with the elapsed time: the sum of the positions weighted with the masses advances by the momentum times the elapsed time.", "quantifier": "any number of bodies and steps, any masses, positions and velocities; any state reached from a new integrator", "why_tests_cant": "an exact statement about a corrector with a variable number of iterations and steps; tests see one run with rounding", "anchors": ["src/integrator/ias15.rs: iterate, integrator, predict_next_step", "src/particles/universe.rs: gravity_calculate_acceleration"]}
{"id": "C71", "title": "The effects act between bodies and keep the total momentum", "statement": "With tides of every model, rotational flattening, a disk and the relativity of Kidder enabled in any combination, what one evaluation adds to the accelerations carries no net force; so any number of LeapFrog, IAS15 or WHFast steps leaves the total momentum exactly as it was and moves the centre of mass in a straight line. Every body that takes no part in an effect must store no acceleration of it, as in a new universe, and around a host with Kaula tides every body must take part.", "quantifier": "any number of massive bodies (at least two) and steps, any combination of the effects and of the models of the bodies; flattening runs around the host of the tides", "why_tests_cant": "the cancellation has to hold for every mix of effects and models at every evaluation of every step; a run shows one mix, with rounding", "anchors": ["src/particles/universe.rs: calculate_additional_effects, initialize", "src/effects/tides/common.rs: calculate_tidal_acceleration", "src/effects/rotational_flattening/common.rs", "src/effects/disk.rs", "src/effects/general_relativity.rs: calculate_kidder1995_general_relativity_acceleration", "src/integrator/leapfrog.rs: iterate", "src/integrator/ias15.rs: iterate", "src/integrator/whfast.rs: iterate, integrate_velocity_dependent_forces"]}
{"id": "C72", "title": "Tides and flattening exchange angular momentum between orbits and rotations", "statement": "With constant-time-lag tides around the most massive body, and rotational flattening enabled or not, one evaluation gives the orbits and the rotations opposite total torques whenever the rotation stored in every body is that of its angular momentum. In general they differ by exactly the torque that the difference between stored and actual rotation, along the line to the host, would cause. Any number of LeapFrog steps changes the total angular momentum of orbits and rotations by exactly the sum of two terms per step: that torque in the middle of the step, and half a step times the change of the torque on the rotations since the start of the step.", "quantifier": "any number of massive bodies with or without tides and flattening, any positions clear of the host, any velocities and rotations, any step and number of steps", "why_tests_cant": "conservation tests compare totals within a tolerance, which hides a second-order error with a definite cause; the identity has to hold for every configuration", "anchors": ["src/effects/tides/common.rs: initialize, calculate_dangular_momentum_dt_due_to_tides", "src/effects/tides/constant_time_lag.rs: calculate_torque_due_to_tides, calculate_tidal_force", "src/effects/rotational_flattening/oblate_spheroid.rs", "src/particles/universe.rs: calculate_additional_effects, calculate_spin_and_evolving_quantities", "src/integrator/leapfrog.rs: iterate"]}
{"id": "C73", "title": "Creep flattening gives the equilibrium figure of rotation and never a torque", "statement": "The figure of a body with creep flattening has only a polar component: the Maclaurin flattening of its rotation, multiplied by 1 + 12 e²/(1 + (n/γ)²) when the body turns more slowly than the capture rate (0.9 n if γ < n, n (1 + 7 e²) otherwise), where γ is the relaxation rate of the viscosity of its tides. One evaluation of the flattening therefore gives every such planet, and a host with creep flattening, no torque at all, and pulls the planet in its orbital plane with 3 G M R² ζ/(5 d⁴) towards the host. At the capture rate the figure jumps, for every eccentricity other than zero.", "quantifier": "any host and planets, masses, radii, viscosities, orbits and spins", "why_tests_cant": "a closed form for all inputs cannot be sampled; the jump sits at a single value of the spin", "anchors": ["src/effects/rotational_flattening/creep_coplanar.rs", "src/effects/tides/creep_coplanar.rs: calculate_creep_coplanar_shape, calculate_particle_shape", "src/effects/rotational_flattening/common.rs"]}
{"id": "C74", "title": "Tides and flattening of one body obey the same law", "statement": "Attaching tides or flattening to a particle succeeds exactly when one of the two effects is disabled, or neither follows the creep law, or both do with viscosities within 1e-16 of each other; otherwise it panics. Every particle that a program can build with the two setters satisfies that condition, and a particle with both effects cannot change between the creep law and another one unless an effect is disabled in between. (That such a particle can be simulated is false: creep flattening without tides is accepted and its acceleration is not a number.)", "quantifier": "any sequence of calls of the two setters with any effects, from any new particle", "why_tests_cant": "covers every order and number of calls; tests only build a few particles in the order of the examples", "anchors": ["src/particles/particle.rs: set_tides, set_rotational_flattening, check_uniform_viscosity_coefficient", "src/effects/rotational_flattening/creep_coplanar.rs: calculate_creep_coplanar_shapes"]}
{"id": "C75", "title": "The disk migrates bodies by the viscous law, twice as fast as computed", "statement": "One evaluation of the disk interaction gives every orbiting body outside the inner edge the accelerations of Alibert et al. (2013) with the rate of migration of a viscous disk: that of the gas if there is enough of it, in proportion to the ratio of gas to body mass otherwise. The density of the gas is continuous, also at the inner edge, and migration never gets faster as the disk ages. The semi-major axis of a body alone with its host shrinks at an exactly known rate, and the angular momentum of an orbit in the plane of the disk decays with the time scale divided by 1 + m/M. (That a circular orbit shrinks at the rate the time scale is computed from is false: it shrinks 2 (1 + m/M) times faster.)", "quantifier": "all disks with positive parameters, hosts, bodies, times, positions and velocities (real numbers)", "why_tests_cant": "holds for every disk and every orbit; tests compare a few trajectories with stored ones, which contain the same rate", "anchors": ["src/effects/disk.rs: calculate_migration_timescale, calculate_disk_surface_density, calculate_disk_viscosity, calculate_disk_interaction_acceleration"]}
{"id": "C76", "title": "Constant-time-lag tides follow Mignard's law and move orbits according to corotation", "statement": "One evaluation of constant-time-lag tides gives every orbiting body the force of Mignard (1979): the two instantaneous bulges and the friction in both bodies, which opposes the motion of each over the other's rotating surface; the host gets the opposite force and each rotation the torque of its own friction. On a circular orbit in the equator of both bodies the rotations are driven towards the orbital rate and the semi-major axis changes at an exactly known rate: around a host that rotates more slowly than a synchronous body revolves the orbit shrinks, around a faster one it grows, and at corotation it stays.", "quantifier": "all hosts, any number of bodies with or without such tides, all positions, velocities, rotations, masses, radii and dissipation factors (real numbers); the orbital statements for one body and its host", "why_tests_cant": "a law for all configurations; tests compare a few trajectories with stored ones", "anchors": ["src/effects/tides/constant_time_lag.rs: calculate_tidal_force, calculate_torque_due_to_tides, calculate_radial_component_of_the_tidal_force, calculate_orthogonal_component_of_the_tidal_force", "src/effects/tides/common.rs: calculate_tidal_acceleration, calculate_dangular_momentum_dt_due_to_tides"]}
{"id": "C77", "title": "The relativistic corrections are the published equations and agree at the first order", "statement": "One evaluation with the corrections of Newhall et al. (1983) gives every body, the host included, the acceleration of Einstein, Infeld and Hoffmann for point masses. For one body and its host, with the centre of mass at rest, the relative acceleration equals the first post-Newtonian order of Kidder (1995), so it keeps the energy and the angular momentum of that order: both change at an exactly known rate proportional to the inverse fourth power of the speed of light. The first order of the Kidder option keeps them too. With the corrections of Anderson et al. (1975) the relative acceleration is that of a body without mass, with an error of at most 64 times the square of the smallness parameter times the Newtonian acceleration; in WHFast the same holds with the host at the origin. For any number of bodies the Anderson corrections of the host and of the orbiting bodies exert no total force.", "quantifier": "all hosts and any number of bodies at different positions, all velocities and masses (real numbers); the statements on energy for one body and its host; no computed correction below 1e-30 AU/day^2; smallness parameter at most 1/20 for Anderson", "why_tests_cant": "an identity and an error bound for all configurations; tests compare a few trajectories with stored ones", "anchors": ["src/effects/general_relativity.rs: calculate_newhall1983_general_relativity_acceleration, calculate_anderson1975_general_relativity_acceleration, calculate_kidder1995_first_order_general_relativity_acceleration"]}
{"id": "C78", "title": "A star with a wind spins down along the known closed form", "statement": "The rotation vector of a star that only its magnetised wind slows down keeps its direction and follows a closed form: while the rotation is faster than saturation it decays exponentially, saturation is reached after an exactly known time, and from then on the inverse square of the rate grows uniformly with time (Skumanich's inverse-square-root law). The rotation is never reversed.", "quantifier": "all initial rotations (saturated or not, zero included), all later times, all positive wind constants, saturation rates, radii, masses and moments of inertia (real numbers), star of constant radius", "why_tests_cant": "a closed form for every star and every time; tests compare a few trajectories with stored ones", "anchors": ["src/effects/wind.rs: calculate_wind_factor"]}
{"id": "C79", "title": "The table of an evolving body is the file for its mass, in the units of the simulation, and covers the run", "statement": "A body with an evolution model gets the table of the one file whose nominal mass is within the model's tolerance of its own; a mass without a file is refused. The table has one line for each data row: the time in days since the start of the simulation (from years, or from their decimal logarithm), the radius in AU (from solar radii or metres) and every other quantity of the model from its column. Brown dwarfs take the radius of gyration from a second file by interpolation and keep exactly the rows within its times. An accepted table starts no later than the simulation and ends no earlier than its time limit, and if the ages in the file increase every request at non-decreasing times is answered by interpolation.", "quantifier": "all evolution models, masses, initial times, time limits and contents of the files, readable or not (real numbers)", "why_tests_cant": "statement for all masses and files; tests read a few of the distributed files", "anchors": ["src/effects/evolution.rs: Evolver::new, Evolver::radius, radius_of_gyration_2, love_number, inverse_tidal_q_factor", "src/tools.rs: linear_interpolation"]}
{"id": "C80", "title": "An evolving body follows its table along the simulation and spins up as it contracts", "statement": "In a simulation with LeapFrog or WHFast, after the initialization and any number of steps and outputs, every output gives each body the radius and radius of gyration that linear interpolation of its table gives at the time of the output; a quantity that the table does not provide is as it was at the start. The rotation written is the angular momentum divided by the moment of inertia of the size written. If no enabled effect exerts a torque on the spins, mass and spin angular momentum of every body are those of the start, so the spin is inversely proportional to the square of the radius and to the squared radius of gyration.", "quantifier": "all simulations with any bodies, evolution models, usable tables, effects and non-negative steps, any number of steps and outputs (real numbers)", "why_tests_cant": "statement for all tables, universes and numbers of steps, where each step depends on the row remembered from the requests before it; tests run a few cases for a few steps", "anchors": ["src/particles/universe.rs: calculate_spin_and_evolving_quantities, calculate_additional_effects", "src/effects/evolution.rs: calculate_particles_non_spin_dependent_evolving_quantities, Evolver::radius, radius_of_gyration_2", "src/particles/common.rs: calculate_spin", "src/integrator/leapfrog.rs: iterate", "src/integrator/whfast.rs: iterate, integrate_velocity_dependent_forces"]}
