(** * Theorems on relativity, disk and wind (properties C27, C34 to C38, C59) *)
From Coq Require Import Reals Lra List Bool SpecFloat.
From Verif Require Import Base.Num Base.Vec Base.Trans Model.Constants Model.Particle
  Model.Relativity Model.Disk Model.Wind Spec.EffectsSpec Spec.SkippedSpec
  Proofs.RelativityProofs Proofs.ShiftProofs Proofs.RelativityExamples Proofs.SkippedProofs Proofs.DiskProofs Proofs.DiskExamples.
Import ListNotations.
Open Scope R_scope.

(** ** C34 *)
Theorem C34_momentum host l host' l' :
  is_kidder host -> p_mass host <> 0 -> Forall gr_idle l ->
  kidder_pass host l = (host', l') -> net_force relativistic_acc (host' :: l') = vzero.
Proof. exact (kidder_momentum host l host' l'). Qed.
Print Assumptions C34_momentum.
Example C34_example : is_kidder gyro /\ p_mass gyro <> 0 /\ Forall gr_idle [moon] /\ gr_orbiting moon = true.
Proof.
  split; [reflexivity|]. split; [change (p_mass gyro) with 1; lra|]. split; [|reflexivity].
  constructor; [intros X; discriminate X|constructor].
Qed.
(** Rotations: the first and second order corrections (the whole pass without the
    spin terms); with the spin terms the statement is false, see below. *)
Theorem C34_rotation_partial q host l host' l' :
  is_kidder host -> Forall gr_idle l -> kidder_orbit_pass host l = (host', l') ->
  exists host2 l2, kidder_orbit_pass (turned q host) (map (turned q) l) = (host2, l2) /\
    map relativistic_acc (host2 :: l2) = map (fun b => iso q (relativistic_acc b)) (host' :: l').
Proof. exact (orbit_turned q host l host' l'). Qed.
Print Assumptions C34_rotation_partial.
(** The spin-orbit term multiplies two vectors component by component. *)
Theorem C34_spin_orbit_refuted :
  exists q host p host' l' host2 l2, proper q /\ is_kidder host /\ gr_orbiting p = true /\
    kidder_pass host [p] = (host', l') /\
    kidder_pass (turned q host) (map (turned q) [p]) = (host2, l2) /\
    map relativistic_acc l2 <> map (fun b => iso q (relativistic_acc b)) l'.
Proof.
  destruct moon_turned as (h1 & l1 & h2 & l2 & E1 & E2 & N).
  exists q345, gyro, moon, h1, l1, h2, l2.
  exact (conj q345_proper (conj eq_refl (conj eq_refl (conj E1 (conj E2 N))))).
Qed.
Print Assumptions C34_spin_orbit_refuted.

(** ** C35 *)
Theorem C35_spin_size_kept host l host' l' :
  is_kidder host -> Forall (fun p => gr_orbiting p = false -> gr_dL (p_gr p) = vzero) l ->
  kidder_pass host l = (host', l') ->
  Forall (fun b => vdot (relativistic_torque b) (rotation_momentum b) = 0) (host' :: l').
Proof. exact (kidder_spin_kept host l host' l'). Qed.
Print Assumptions C35_spin_size_kept.
Example C35_example : is_kidder gyro /\ rotation_momentum gyro <> vzero /\
  Forall (fun p => gr_orbiting p = false -> gr_dL (p_gr p) = vzero) [moon].
Proof.
  split; [reflexivity|]. split.
  - change (rotation_momentum gyro) with (vscale 1 (Vec 1 0 (0 : R))). intros X. injection X. cbn. lra.
  - constructor; [intros X; discriminate X|constructor].
Qed.

(** ** C36 *)
Theorem C36_origin_partial v host l :
  is_anderson host \/ is_newhall host -> 0 < p_mass host -> Forall (fun p => 0 < p_mass p) l ->
  same_accs (relativity_pass IgnoreNone (shifted v host) (map (shifted v) l)) (relativity_pass IgnoreNone host l).
Proof. exact (origin v host l). Qed.
Print Assumptions C36_origin_partial.
Example C36_example : is_newhall (hst 0 0) /\ 0 < p_mass (hst 0 0) /\ Forall (fun p => 0 < p_mass p) [plt 0 0].
Proof.
  split; [reflexivity|]. split; [change (0 < 1); lra|]. constructor; [change (0 < 1); lra|constructor].
Qed.
(** With the terms that the WHFast integrator ignores in gravity the result depends
    on the origin: heliocentric and inertial positions are mixed. *)
Theorem C36_origin_refuted :
  exists v host p, is_newhall host /\ 0 < p_mass host /\ 0 < p_mass p /\
    ~ same_accs (relativity_pass WHFastTwo (shifted v host) [shifted v p]) (relativity_pass WHFastTwo host [p]).
Proof.
  exists (Vec 2 0 0), (hst 0 0), (plt 0 0).
  split; [reflexivity|]. split; [change (0 < 1); lra|]. split; [change (0 < 1); lra|].
  destruct origin_matters as [E1 E2]. cbv beta in E1, E2. intros [X _].
  rewrite E1, E2 in X. injection X. pose proof k12_bounds. lra.
Qed.
Print Assumptions C36_origin_refuted.
(** With the host at the origin the mixture does no harm: the corrections are those of the complete Newtonian accelerations,
    in heliocentric coordinates (all bodies) ... *)
Theorem C36_whfast_at_origin host l :
  is_anderson host \/ is_newhall host -> p_ipos host = vzero -> Forall (fun p => gr_orbiting p = true) l ->
  same_accs (relativity_pass WHFastTwo host l) (relativity_pass IgnoreNone (completed_host host l) (map (completed host) l)).
Proof. exact (skipped_two host l). Qed.
Print Assumptions C36_whfast_at_origin.
(** ... and in Jacobi coordinates (the first body). *)
Theorem C36_whfast_jacobi_at_origin host p l :
  is_anderson host \/ is_newhall host -> p_ipos host = vzero -> Forall (fun q => gr_orbiting q = true) (p :: l) ->
  same_accs (relativity_pass WHFastOne host (p :: l)) (relativity_pass IgnoreNone (completed_host host [p]) (completed host p :: l)).
Proof. exact (skipped_one host p l). Qed.
Print Assumptions C36_whfast_jacobi_at_origin.
Example C36_origin_example : is_newhall (rest (GrCentral Newhall1983) 0 0) /\ p_ipos (rest (GrCentral Newhall1983) 0 0) = vzero /\
  gr_orbiting (rest GrOrbiting 1 0) = true /\
  p_iacc (completed (rest (GrCentral Newhall1983) 0 0) (rest GrOrbiting 1 0)) = Vec (- G) 0 0.
Proof. exact completed_example. Qed.
(** The iteration of the Newhall equations ends after one sweep whatever the state ... *)
Theorem C36_one_sweep n bodies newton const :
  Forall vec_not_tiny (newhall_sweep bodies newton const (map (fun _ => vzero) bodies)) ->
  newhall_loop (S n) bodies newton const (map (fun _ => vzero) bodies)
  = newhall_sweep bodies newton const (map (fun _ => vzero) bodies).
Proof. exact (newhall_once n bodies newton const). Qed.
Print Assumptions C36_one_sweep.
(** ... and its result is not a solution to the tolerance that the code asks for. *)
Theorem C36_not_converged_refuted :
  exists r0 r1,
    map relativistic_acc (let '(h', l') := relativity_pass IgnoreNone (hst 0 G) [plt 0 (- G)] in h' :: l') = [r0; r1] /\
    exists n0 n1,
      newhall_sweep [hst 0 G; plt 0 (- G)] [p_iacc (hst 0 G); p_iacc (plt 0 (- G))]
        (map (fun ib => newhall_const [hst 0 G; plt 0 (- G)] (fst ib) (snd ib)) (enumerate [hst 0 G; plt 0 (- G)]))
        [r0; r1] = [n0; n1] /\
      / 10000000000 * Rabs (vx r0) < Rabs (vx n0 - vx r0).
Proof. exact stops_early. Qed.
Print Assumptions C36_not_converged_refuted.

(** ** C27 *)
(** Kidder: bodies without relativity are skipped, in binary64 as well. *)
Theorem C27_bodies_without_kidder_partial {F} `{Num F} (host : particle F) l :
  exists host' l', pass_F host l = (host', l') /\ pass_F host (filter gr_orbiting l) = (host', filter gr_orbiting l').
Proof. exact (kidder_disabled host l). Qed.
Print Assumptions C27_bodies_without_kidder_partial.
Example C27_kidder_example : filter gr_orbiting [moon; rest GrDisabled 3 0] <> [moon; rest GrDisabled 3 0].
Proof. intros X. apply (f_equal (@length _)) in X. discriminate X. Qed.
(** Newhall: two bodies without relativity are enough to lose the result. *)
Theorem C27_two_without_newhall_refuted :
  newhall_bad nh [n1_; n2_; n3_] = true /\ newhall_bad nh [n1_; n2_] = false.
Proof. exact newhall_two_disabled. Qed.
Print Assumptions C27_two_without_newhall_refuted.

(** ** C59 *)
Theorem C59_first_order host p : apart host p -> p_ivel p <> p_ivel host ->
  kidder_first (prep_host host) (prep host p) =
  kidder_1pn SPEED_OF_LIGHT_2 (p_mass_g host + p_mass_g p) (eta_of host p)
    (vsub (p_ipos p) (p_ipos host)) (vsub (p_ivel p) (p_ivel host)).
Proof. exact (first_formula host p). Qed.
Print Assumptions C59_first_order.
Example C59_example : apart gyro moon /\ p_ivel moon <> p_ivel gyro.
Proof.
  split.
  - unfold apart. change (p_ipos gyro) with (Vec 0 0 (0:R)). change (p_ipos moon) with (Vec 1 0 (0:R)).
    intros X. injection X. lra.
  - change (p_ivel gyro) with (Vec 0 0 (0:R)). change (p_ivel moon) with (Vec 0 0 (1:R)). intros X. injection X. lra.
Qed.
(** The second order terms are too large by the square of the speed of light. *)
Theorem C59_second_order_factor host p : apart host p ->
  kidder_second (prep_host host) (prep host p) =
  vscale SPEED_OF_LIGHT_2 (kidder_2pn SPEED_OF_LIGHT_2 (p_mass_g host + p_mass_g p) (eta_of host p)
    (vsub (p_ipos p) (p_ipos host)) (vsub (p_ivel p) (p_ivel host))).
Proof. exact (second_formula host p). Qed.
Print Assumptions C59_second_order_factor.
Theorem C59_second_order_refuted : exists host p, apart host p /\
  kidder_second (prep_host host) (prep host p) <>
  kidder_2pn SPEED_OF_LIGHT_2 (p_mass_g host + p_mass_g p) (eta_of host p)
    (vsub (p_ipos p) (p_ipos host)) (vsub (p_ivel p) (p_ivel host)).
Proof. exact (ex_intro _ lamp (ex_intro _ moth second_differs)). Qed.
Print Assumptions C59_second_order_refuted.
Theorem C59_spin_orbit_refuted : exists host p,
  kidder_spin_orbit (prep_host host) (prep host p) <>
  kidder_so G SPEED_OF_LIGHT_2 (p_mass host) (p_mass p) (rotation_momentum host)
    (rotation_momentum p) (vsub (p_ipos p) (p_ipos host)) (vsub (p_ivel p) (p_ivel host)).
Proof. exact (ex_intro _ gyro (ex_intro _ far_moon so_differs)). Qed.
Print Assumptions C59_spin_orbit_refuted.

(** ** C37 *)
(** Momentum for any migration time scale and any interpretation of the
    transcendental functions ... *)
Theorem C37_momentum `{Trans R} time host d l host' l' :
  disk_host host d -> p_mass host <> 0 -> Forall (fun p => p_mass p <> 0) l -> Forall disk_idle l ->
  disk_pass time host l = (host', l') -> net_force disk_acc (host' :: l') = vzero.
Proof. exact (disk_momentum time host d l host' l'). Qed.
Print Assumptions C37_momentum.
(** ... the disk takes energy out of the motion when the time scales are positive, ... *)
Theorem C37_damping `{Trans R} time host d l host' l' :
  disk_host host d -> p_mass host <> 0 -> Forall (fun p => 0 < p_mass p) l -> Forall disk_idle l ->
  Forall (fun p => is_disk_orbiting p = true -> 0 < body_timescale d time host p) l ->
  disk_pass time host l = (host', l') -> power disk_acc no_torque (host' :: l') <= 0.
Proof. exact (disk_damps time host d l host' l'). Qed.
Print Assumptions C37_damping.
(** ... which they are for every physical disk outside of the inner edge, bound or not. *)
Theorem C37_physical_disk time host d l host' l' :
  disk_host host d -> disk_ok d -> 0 < p_mass host -> 0 < p_mass_g host ->
  Forall (fun p => if is_disk_orbiting p then migrating d host p else 0 < p_mass p /\ disk_acc p = vzero) l ->
  disk_pass time host l = (host', l') ->
  net_force disk_acc (host' :: l') = vzero /\ power disk_acc no_torque (host' :: l') <= 0.
Proof. exact (disk_brakes time host d l host' l'). Qed.
Print Assumptions C37_physical_disk.
Example C37_example : disk_host disk_star disk_d /\ disk_ok disk_d /\ 0 < p_mass disk_star /\ 0 < p_mass_g disk_star /\
  Forall (fun p => if is_disk_orbiting p then migrating disk_d disk_star p else 0 < p_mass p /\ disk_acc p = vzero)
    [disk_planet].
Proof. exact disk_system. Qed.
(** Inside the inner edge the force is exactly zero in binary64, for every libm, as
    long as no intermediate result overflows. *)
Theorem C37_inside_the_edge `{Trans f64} (d : disk_props f64) time (host p : particle f64) :
  let k := p_disk p in
  let sma := ((p_mass_g p + p_mass_g host) * dk_distance k
             / (#2 * (p_mass_g p + p_mass_g host) - dk_distance k * dk_norm_vel2 k))%num in
  (dk_distance k <=? dp_inner d)%num = true ->
  fin sma -> ~ isz sma -> fin (sma * sma)%num ->
  fin (gas_radial_velocity d (p_mass host) (p_mass_g host) (dk_distance k) sma) ->
  fin (p_mass p) -> ~ isz (p_mass p) -> fin (nopp (p_mass p) * #2)%num ->
  all_of fin (dk_pos k) -> all_of fin (dk_vel k) ->
  fin (n1 / (dk_distance k * dk_distance k) * vdot (dk_pos k) (dk_vel k))%num ->
  all_of isz (disk_force (disk_timescale d time host p) p).
Proof. exact (inside_edge_free d time host p). Qed.
Print Assumptions C37_inside_the_edge.
Example C37_inside_example :
  let k := p_disk edge_planet in
  let sma := ((p_mass_g edge_planet + p_mass_g edge_star) * dk_distance k
             / (#2 * (p_mass_g edge_planet + p_mass_g edge_star) - dk_distance k * dk_norm_vel2 k))%num in
  (dk_distance k <=? dp_inner edge_disk)%num = true /\
  fin sma /\ ~ isz sma /\ fin (sma * sma)%num /\
  fin (gas_radial_velocity (H0 := edge_trans) edge_disk (p_mass edge_star) (p_mass_g edge_star) (dk_distance k) sma) /\
  fin (p_mass edge_planet) /\ ~ isz (p_mass edge_planet) /\ fin (nopp (p_mass edge_planet) * #2)%num /\
  all_of fin (dk_pos k) /\ all_of fin (dk_vel k) /\
  fin (n1 / (dk_distance k * dk_distance k) * vdot (dk_pos k) (dk_vel k))%num.
Proof. exact edge_system. Qed.

(** ** C38 *)
Theorem C38_antiparallel (w : vec R) p : wind_ok p ->
  wind_torque (DiskProofs.spinning w p) = vscale (- wind_strength p (sqrt (norm2 w))) w /\
  (0 <= w_k_factor (p_wind p) -> 0 <= wind_strength p (sqrt (norm2 w))).
Proof. exact (fun H => conj (wind_formula w p H) (wind_strength_nonneg p (sqrt (norm2 w)))). Qed.
Print Assumptions C38_antiparallel.
Theorem C38_never_accelerates l : Forall (fun p => p_spin2 p = norm2 (p_spin p)) l ->
  Forall (fun p => if w_on (p_wind p) then wind_ok p /\ 0 <= w_k_factor (p_wind p) else wind_dL p = vzero) l ->
  power no_torque wind_dL (calculate_wind_factor (wind_initialize l)) <= 0.
Proof. exact (wind_brakes l). Qed.
Print Assumptions C38_never_accelerates.
Theorem C38_continuous p (x y z : R -> R) t : wind_ok p ->
  continuity_pt x t -> continuity_pt y t -> continuity_pt z t ->
  let torque u := wind_torque (DiskProofs.spinning (Vec (x u) (y u) (z u)) p) in
  continuity_pt (fun u => vx (torque u)) t /\ continuity_pt (fun u => vy (torque u)) t /\
  continuity_pt (fun u => vz (torque u)) t.
Proof. exact (wind_continuous p x y z t). Qed.
Print Assumptions C38_continuous.
Example C38_example : wind_ok windy /\ w_on (p_wind windy) = true /\ 0 <= w_k_factor (p_wind windy) /\
  p_spin2 windy = norm2 (p_spin windy) /\ vx (wind_torque windy) = -4 * sqrt (1 / (R_SUN * 1)) * 3.
Proof. exact windy_ok. Qed.
