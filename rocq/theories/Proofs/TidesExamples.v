(** Concrete systems: examples and counterexamples for Props/TidesProps.v *)
From Coq Require Import Reals Lra Lia List Bool ZArith Arith SpecFloat.
From Verif Require Import Base.Num Base.Result Base.Trans Base.Vec Model.Constants Model.Particle
  Model.Tools Model.Kaula Model.Creep Model.Tides Model.Flattening
  Proofs.NumLemmas Proofs.VecLemmas Proofs.TidesProofs Proofs.PairProofs Proofs.FlatteningProofs Proofs.CreepProofs
  Proofs.TablesExamples Spec.EffectsSpec.
Import ListNotations.

(** ** binary64 *)
Section F64.
  Definition ctl64 (n : Z) : ctl_params f64 := CtlParams (q64 n 1) (q64 1 1) (q64 3 10).
  Definition body64 (id : nat) (mass : f64) (x v spin : vec f64) (t : tides_effect f64) (r : rf_effect_t f64) : particle f64 :=
    set_p_id id (set_p_ipos x (set_p_ivel v (set_p_tides (new_tides t) (set_p_rf (new_flattening r)
      (new_particle (q64 1 1) mass (q64 1 10) (q64 1 2) x v spin))))).
  Definition star64 : particle f64 :=
    body64 1 (q64 1 1) vzero vzero (Vec n0 n0 (q64 1 4))
      (TidesCentral (ConstantTimeLag (ctl64 1))) (RfCentral (OblateSpheroid (q64 1 2))).
  Definition planet64 (spin : f64) : particle f64 :=
    body64 2 (q64 1 1000) (Vec (q64 1 1) n0 n0) (Vec n0 (q64 1 1) n0) (Vec n0 n0 spin)
      (TidesOrbiting (ConstantTimeLag (ctl64 2))) (RfOrbiting (OblateSpheroid (q64 1 3))).
  Definition passive64 : particle f64 :=
    body64 3 (q64 1 1000) (Vec (q64 2 1) n0 n0) (Vec n0 (q64 1 1) n0) (Vec n0 n0 (q64 1 2)) TidesDisabled RfDisabled.

  Definition nan_vec (v : vec f64) : bool := f64_is_nan (vx v) || f64_is_nan (vy v) || f64_is_nan (vz v).
  (** is some output of the tides (flattening) not a number? *)
  Definition tides_nan (r : res (particle f64 * list (particle f64))) : option bool :=
    match r with
    | Ok (h, l) => Some (existsb (fun p => nan_vec (t_acc (p_tides p)) || nan_vec (t_dL (p_tides p))) (h :: l))
    | Panic _ => None
    end.
  Definition rf_nan (r : res (particle f64 * list (particle f64))) : option bool :=
    match r with
    | Ok (h, l) => Some (existsb (fun p => nan_vec (rf_acc (p_rf p)) || nan_vec (rf_dL (p_rf p))) (h :: l))
    | Panic _ => None
    end.
  Context `{T : Trans f64} `{FU : Fuel}.
  Lemma with_passive_nan : tides_nan (tides_pass [] star64 [planet64 (q64 1 3); passive64]) = Some true.
  Proof. vm_compute. reflexivity. Qed.
  Lemma without_passive_finite : tides_nan (tides_pass [] star64 [planet64 (q64 1 3)]) = Some false.
  Proof. vm_compute. reflexivity. Qed.
  Lemma still_planet_nan : rf_nan (rf_pass star64 [planet64 (q64 0 1)]) = Some true.
  Proof. vm_compute. reflexivity. Qed.
  Lemma spinning_planet_finite : rf_nan (rf_pass star64 [planet64 (q64 1 3); passive64]) = Some false.
  Proof. vm_compute. reflexivity. Qed.
End F64.

(** ** Reals *)
Open Scope R_scope.

Lemma K2_pos : 0 < @K2 R _.
Proof. unfold K2, G_MERCURY, G_SI, AU, M_SUN, DAY, HOUR. num_simpl. lra. Qed.
Lemma K2_small : @K2 R _ < 1.
Proof. unfold K2, G_MERCURY, G_SI, AU, M_SUN, DAY, HOUR. num_simpl. lra. Qed.
Lemma Rpowf_1 y : Rpowf 1 y = 1.
Proof.
  unfold Rpowf. destruct (Rlt_dec 0 1); [|lra]. unfold Rpower. rewrite ln_1, Rmult_0_r. apply exp_0.
Qed.
Lemma Rpowf_0_2 : Rpowf 0 (2 / 1) = 0.
Proof.
  unfold Rpowf. destruct (Rlt_dec 0 0); [lra|]. destruct (Req_EM_T (2 / 1) 0); [lra|].
  destruct (Req_EM_T 0 0); [reflexivity|lra].
Qed.
Lemma acos_clamp_1 x : x = 1 -> acos (nclamp x (Ropp 1) 1) = 0.
Proof.
  intros ->. unfold nclamp. num_simpl. repeat rcase; try lra. apply acos_1.
Qed.

(** unit circular orbit with unit mean motion *)
Definition unit_pos : vec R := Vec 1 0 0.
Definition unit_vel : vec R := Vec 0 1 0.
Lemma unit_cross : vcross unit_pos unit_vel = Vec 0 0 1.
Proof. unfold unit_pos, unit_vel. vunfold. f_equal; ring. Qed.
Lemma unit_h2 : norm2_powf (Vec 0 0 1) = 1.
Proof. unfold norm2_powf. cbn [vx vy vz tpow TransR]. num_simpl. rewrite Rpowf_0_2, Rpowf_1. ring. Qed.
Lemma unit_r : nsqrt (vdot unit_pos unit_pos) = 1.
Proof. unfold unit_pos. vunfold. replace (1 * 1 + 0 * 0 + 0 * 0) with 1 by ring. apply sqrt_1. Qed.
Lemma unit_v2 : vdot unit_vel unit_vel = 1.
Proof. unfold unit_vel. vunfold. ring. Qed.
Lemma unit_rv : vdot unit_pos unit_vel = 0.
Proof. unfold unit_pos, unit_vel. vunfold. ring. Qed.
Lemma unit_e : raw_eccentricity 1 (1 / 1) 1 1 = 0.
Proof. unfold raw_eccentricity. num_simpl. rcase; [reflexivity|]. exfalso. apply n. lra. Qed.
Lemma unit_elements : keplerian_elements 1 unit_pos unit_vel = Elements 1 1 0 0 0 0 0 (2 * PI).
Proof.
  unfold keplerian_elements. rewrite unit_cross, unit_h2, unit_r, unit_v2, unit_rv.
  unfold inclination_node. cbn [vx vy vz].
  replace (nsqrt 1) with 1 by (symmetry; apply sqrt_1).
  change (ndiv 1 1) with (1 / 1). rewrite unit_e.
  replace (nclamp (1 / 1) (- n1)%num n1) with 1.
  2:{ unfold nclamp. num_simpl. repeat rcase; lra. }
  num_simpl. rewrite Rabs_R1.
  assert (Rltb 1 1 = false) as -> by (apply Rltb_false; lra).
  assert (Rltb 0 1 = true) as -> by (apply Rltb_true; lra).
  assert (Rltb 1 0 = false) as -> by (apply Rltb_false; lra).
  assert (Rltb 0 (3 / 100000000) = true) as -> by (apply Rltb_true; lra).
  assert (Reqb 0 0 = true) as E0 by (apply Reqb_true; reflexivity). rewrite !E0.
  unfold mean_anomaly_raw. num_simpl. rewrite E0.
  unfold unit_pos. cbn [vx vy vz tcos tsin tacos tpow tpi TransR]. rewrite cos_0, sin_0.
  rewrite !(acos_clamp_1 ((1 * 1 + 0 * 0) / 1)) by field.
  assert (Rltb 0 0 = false) as -> by (apply Rltb_false; lra).
  assert (T2 : TWO_PI = 2 * PI) by (unfold TWO_PI; cbn [tpi TransR]; num_simpl; field).
  rewrite T2. pose proof PI_RGT_0.
  assert (Rltb (2 * PI) 0 = false) as -> by (apply Rltb_false; lra).
  replace (1 * 1 / (2 / 1 * 1 - 1 * 1)) with 1 by field. rewrite Rpowf_1.
  f_equal; field.
Qed.
Lemma unit_perihelion : perihelion_eccentricity 1 unit_pos unit_vel = (1, 0).
Proof.
  unfold perihelion_eccentricity. rewrite unit_cross, unit_h2, unit_r, unit_v2.
  change (ndiv 1 1) with (1 / 1). rewrite unit_e. num_simpl. f_equal. field.
Qed.

Definition unit_mass : R := 1 / (2 * K2).
Definition bodyR (id : nat) (x v spin : vec R) (t : tides_effect R) : particle R :=
  set_p_id id (set_p_ipos x (set_p_ivel v (set_p_tides (new_tides t)
    (new_particle K2 unit_mass 1 (1/2) x v spin)))).
Lemma unit_gm : unit_mass * K2 + unit_mass * K2 = 1.
Proof. unfold unit_mass. pose proof K2_pos. field. lra. Qed.
Lemma unit_mass_pos : 0 < unit_mass.
Proof. unfold unit_mass. pose proof K2_pos. apply Rdiv_lt_0_compat; lra. Qed.

(** *** A planet that leaves the regime of inertial waves (C28) *)
Definition jupiter (spin : R) : particle R :=
  set_p_spin2 (spin * spin) (set_p_evo (LeconteChabrier2013 true)
    (set_p_tides (set_t_sigma 3 (set_t_lag_angle 1 (set_t_distance 1 (set_t_vel unit_vel (set_t_pos unit_pos
       (new_tides (TidesOrbiting (ConstantTimeLag (CtlParams 1 1 (3/10))))))))))
      (bodyR 2 unit_pos unit_vel (Vec 0 0 spin) (TidesOrbiting (ConstantTimeLag (CtlParams 1 1 (3/10))))))).
Definition sunR : particle R := bodyR 1 vzero vzero (Vec 0 0 (1/4)) (TidesCentral (ConstantTimeLag (CtlParams 1 1 (3/10)))).

Lemma sunR_mass_g : p_mass_g sunR = unit_mass * K2.
Proof. reflexivity. Qed.
Lemma jupiter_mass_g spin : p_mass_g (jupiter spin) = unit_mass * K2.
Proof. reflexivity. Qed.
Lemma half_unit (h p : particle R) (s : R) : p_mass_g h + p_mass_g p = 1 -> t_pos (p_tides p) = unit_pos ->
  t_vel (p_tides p) = unit_vel -> half_excitation h p s = Rabs (s - 1).
Proof.
  intros Hg Hx Hv. unfold half_excitation. change (nadd (p_mass_g h) (p_mass_g p)) with (p_mass_g h + p_mass_g p).
  rewrite Hg, Hx, Hv, unit_perihelion. cbn [tpow TransR]. num_simpl.
  replace (1 / (1 - 0)) with 1 by field. rewrite Rpowf_1, sqrt_1. f_equal. ring.
Qed.
Lemma jupiter_half spin s : half_excitation sunR (jupiter spin) s = Rabs (s - 1).
Proof. apply half_unit; [rewrite sunR_mass_g, jupiter_mass_g; exact unit_gm|reflexivity|reflexivity]. Qed.
Lemma jupiter_spin spin : 0 <= spin -> nsqrt (p_spin2 (jupiter spin)) = spin.
Proof. exact (sqrt_square spin). Qed.
Lemma jupiter_regime spin : 0 <= spin -> planet_regime sunR (jupiter spin) = Rltb (Rabs (spin - 1)) spin.
Proof. intros Hs. unfold planet_regime. rewrite jupiter_half, jupiter_spin by auto. reflexivity. Qed.
Lemma jupiter_value : planet_value sunR (jupiter 2) = 2 * K2 / 3 + 1.
Proof.
  assert (E : orbiting_ctl (t_effect (p_tides (jupiter 2))) = Some (CtlParams 1 1 (3/10))) by reflexivity.
  assert (Er : p_radius (jupiter 2) = 1) by reflexivity.
  assert (El : t_lag_angle (p_tides (jupiter 2)) = 1) by reflexivity.
  unfold planet_value. rewrite E, jupiter_half, jupiter_spin by lra.
  unfold dynamical_dissipation. rewrite Er, El, npow_pow, pow1. cbn [ctl_scale ctl_dissipation].
  generalize (@K2 R _). intro k. unfold SMOOTHING_FACTOR. num_simpl.
  rewrite (Rabs_pos_eq (2 - 1)) by lra. rcase; [exfalso; revert r; lra|]. field.
Qed.
Lemma jupiter_ids spin : ids_ok sunR [jupiter spin].
Proof.
  split; cbn.
  - constructor; [cbn; intros [E|[]]; discriminate E|]. constructor; [cbn; auto|constructor].
  - repeat constructor; cbn; lia.
Qed.
Lemma planet_sigma_same (m : @pairs R) (h p q : particle R) : p_id p = p_id q -> p_evo p = p_evo q ->
  t_sigma (p_tides p) = t_sigma (p_tides q) -> planet_sigma m h p = planet_sigma m h q.
Proof. unfold planet_sigma. now intros -> -> ->. Qed.
(** two consecutive evaluations, the spin having dropped from 2 to 1/4 in between *)
Lemma jupiter_stale :
  let m1 := pair_dependent_factors sunR [jupiter 2] [] in
  let m2 := pair_dependent_factors sunR [jupiter (1/4)] m1 in
  planet_regime sunR (jupiter 2) = true /\ planet_regime sunR (jupiter (1/4)) = false /\
  planet_sigma m1 sunR (jupiter 2) = planet_value sunR (jupiter 2) /\
  planet_sigma m2 sunR (jupiter (1/4)) = planet_value sunR (jupiter 2) /\
  planet_value sunR (jupiter 2) <> t_sigma (p_tides (jupiter (1/4))).
Proof.
  cbn zeta.
  assert (R2 : planet_regime sunR (jupiter 2) = true).
  { rewrite jupiter_regime by lra. apply Rltb_true. rewrite Rabs_pos_eq; lra. }
  assert (R4 : planet_regime sunR (jupiter (1/4)) = false).
  { rewrite jupiter_regime by lra. apply Rltb_false. rewrite <- Rabs_Ropp, Rabs_pos_eq; lra. }
  assert (U : planet_sigma (pair_dependent_factors sunR [jupiter 2] []) sunR (jupiter 2) = planet_value sunR (jupiter 2)).
  { apply planet_sigma_used; [apply jupiter_ids|left; reflexivity|reflexivity|intro X; discriminate X|exact R2]. }
  split; [exact R2|]. split; [exact R4|]. split; [exact U|]. split.
  - destruct (planet_sigma_stale sunR [jupiter (1/4)] (pair_dependent_factors sunR [jupiter 2] []) (jupiter (1/4))) as [E _];
      [apply jupiter_ids|left; reflexivity|reflexivity|intro X; discriminate X|exact R4|].
    rewrite E, (planet_sigma_same _ sunR (jupiter (1/4)) (jupiter 2) eq_refl eq_refl eq_refl). exact U.
  - rewrite jupiter_value. change (t_sigma (p_tides (jupiter (1/4)))) with 3. pose proof K2_small. lra.
Qed.

(** *** A creeping star turned by a rigid planet (C30) *)
Definition creep_star : particle R := bodyR 1 vzero vzero (Vec 0 0 2) (TidesCentral (CreepCoplanar 1)).
Definition rigid_planet : particle R := bodyR 2 unit_pos unit_vel (Vec 0 0 1) (TidesOrbiting (CreepCoplanar 0)).

Lemma ready_star : p_mass_g (ready_host creep_star) = unit_mass * K2 /\ p_mass (ready_host creep_star) = unit_mass /\
  p_radius (ready_host creep_star) = 1 /\ vz (p_spin (ready_host creep_star)) = 2 /\
  t_effect (p_tides (ready_host creep_star)) = TidesCentral (CreepCoplanar 1).
Proof. repeat (split; [reflexivity|]). reflexivity. Qed.
Lemma ready_planet : p_mass_g (ready_one creep_star rigid_planet) = unit_mass * K2 /\
  p_mass (ready_one creep_star rigid_planet) = unit_mass /\
  t_pos (p_tides (ready_one creep_star rigid_planet)) = unit_pos /\
  t_vel (p_tides (ready_one creep_star rigid_planet)) = unit_vel /\
  t_distance (p_tides (ready_one creep_star rigid_planet)) = 1.
Proof.
  assert (V : forall v : vec R, vsub v vzero = v) by vring.
  assert (A : t_pos (p_tides (ready_one creep_star rigid_planet)) = vsub unit_pos vzero) by reflexivity.
  assert (B : t_vel (p_tides (ready_one creep_star rigid_planet)) = vsub unit_vel vzero) by reflexivity.
  assert (C : t_distance (p_tides (ready_one creep_star rigid_planet)) = sqrt (norm2 (vsub unit_pos vzero))) by reflexivity.
  rewrite V in A, B, C. split; [reflexivity|]. split; [reflexivity|]. split; [exact A|]. split; [exact B|].
  rewrite C. transitivity (sqrt 1); [|apply sqrt_1]. f_equal. unfold unit_pos. vunfold. ring.
Qed.

Definition circular_row : list R := [0; 0; 0; 0; 0; 0; 0; 1; 0; 0; 0; 0; 0; 0; 0].
Lemma cayley_at_0 : cayley_coefficients 0 = (circular_row, circular_row).
Proof.
  unfold cayley_coefficients, circular_row. rewrite npow_pow. num_simpl.
  apply f_equal2; repeat (apply f_equal2; [field|]); reflexivity.
Qed.
Lemma cayley_round_0 gam n spin m v (acc : vec R) dk c0 :
  vy (cayley_round gam n spin m v acc dk c0 0) = vy acc.
Proof. unfold cayley_round. cbn [vy]. num_simpl. unfold Rdiv. ring. Qed.
Lemma cayley_circular (gam n spin : R) : 0 < gam ->
  vy (cayley_sums gam n spin 0 0 0) = gam * (2 * spin - 2 * n) / (gam ^ 2 + (2 * spin - 2 * n) ^ 2).
Proof.
  intros Hg. unfold cayley_sums. rewrite cayley_at_0. unfold circular_row. cbn [fst snd].
  cbn [combine seq fold_left fst snd]. rewrite !cayley_round_0.
  unfold cayley_round at 1. cbn [vy]. rewrite !cayley_round_0. unfold vzero. cbn [vy tcos tsin TransR]. rewrite !npow_pow.
  num_simpl. change (Z.of_nat 7) with 7%Z.
  replace ((9 / 1 - 7 / 1) * 0 - 2 / 1 * 0) with 0 by field. rewrite cos_0, sin_0.
  assert (0 <= (2 * spin - 2 * n) ^ 2) by apply pow2_ge_0. assert (0 < gam ^ 2) by (apply pow_lt; auto).
  replace (2 / 1 * spin - (9 / 1 - 7 / 1) * n) with (2 * spin - 2 * n) by field.
  field. lra.
Qed.

(** splits products without looking inside constants *)
Ltac pos := repeat match goal with
  | |- 0 < ?a * ?b => apply Rmult_lt_0_compat
  | |- 0 < ?a ^ _ => apply pow_lt
  | |- 0 < K2 => exact K2_pos
  | |- 0 < unit_mass => exact unit_mass_pos
  | |- 0 < ?a => first [assumption | lra]
  end.
Section CreepWitness.
  Context `{FU : Fuel}.
  Hypothesis some_fuel : (1 <= fuel)%nat.
  Lemma anomaly_0 : true_anomaly fuel 0 0 = Some 0.
  Proof.
    unfold true_anomaly. destruct fuel; [lia|]. cbn [true_anomaly_loop]. cbn [tsin tatan ttan tpow TransR]. num_simpl.
    rewrite sin_0. replace (0 + 0 * 0 - 0) with 0 by ring. rewrite Rabs_R0.
    assert (Rltb (1 / 10000000000000) 0 = false) as -> by (apply Rltb_false; lra).
    replace ((0 + 0 * 0) / (2 / 1)) with 0 by field. rewrite tan_0, Rmult_0_r, atan_0. f_equal. ring.
  Qed.
  (** the equatorial deformation of a body turning twice as fast as its companion *)
  Lemma fast_shape (mass radius viscosity : R) : 0 < mass -> 0 < radius -> 0 < viscosity ->
    exists s, particle_shape 1 0 0 (2 * PI) mass mass radius viscosity 2 true false = Ok s /\ 0 < vy s.
  Proof.
    intros Hm Hr Hv. unfold particle_shape. pose proof PI_RGT_0 as HPI. cbn [tpi TransR]. rewrite !npow_pow.
    set (gam := (# 3 * K2 * mass * mass / (# 8 * PI * radius ^ 4 * viscosity))%num).
    assert (Hg : 0 < gam).
    { unfold gam. num_simpl. pose proof K2_pos. apply Rdiv_lt_0_compat.
      - pos.
      - pos. }
    clearbody gam. num_simpl. replace (2 / 1 * PI / (2 * PI)) with 1 by (field; lra).
    match goal with |- context [Rltb 2 ?x] => assert (Rltb 2 x = false) as -> end.
    { apply Rltb_false. rcase; lra. }
    rewrite anomaly_0. cbv beta iota zeta. num_simpl.
    assert (Rltb 0 0 = false) as -> by (apply Rltb_false; lra).
    eexists. split; [reflexivity|]. cbn [vy]. rewrite cayley_circular by auto.
    rewrite !pow1. apply Rmult_lt_0_compat.
    - apply Rdiv_lt_0_compat; [lra|]. assert (0 < gam ^ 2) by (apply pow_lt; auto). lra.
    - apply Rdiv_lt_0_compat.
      + pos.
      + pos.
  Qed.
  Lemma creep_star_torque : exists t,
    creep_torque (ready_host creep_star) (ready_one creep_star rigid_planet) true = Ok t /\ 0 < vz t.
  Proof.
    destruct ready_star as (A1 & A2 & A3 & A4 & A5). destruct ready_planet as (B1 & B2 & B3 & B4 & B5).
    set (h := ready_host creep_star) in *. set (q := ready_one creep_star rigid_planet) in *. clearbody h q.
    destruct (fast_shape unit_mass 1 1 unit_mass_pos ltac:(lra) ltac:(lra)) as (s & Es & Hs).
    unfold creep_torque, creep_shape. rewrite A1, A2, A3, A4, A5, B1, B2, B3, B4, B5.
    change (nadd (unit_mass * K2) (unit_mass * K2)) with (unit_mass * K2 + unit_mass * K2).
    rewrite unit_gm, unit_elements. cbn [el_a el_e el_l el_period creep_viscosity]. rewrite Es. cbn [rbind].
    eexists. split; [reflexivity|]. cbn [vz]. rewrite npow_pow, pow1. pose proof unit_mass_pos. pose proof K2_pos.
    num_simpl. unfold Rdiv at 1. apply Rmult_lt_0_compat; [|rewrite Rinv_1; lra].
    pos.
  Qed.
  Lemma creep_star_witness m : exists host' l',
    tides_pass m creep_star [rigid_planet] = Ok (host', l') /\
    net_torque tidal_acc tidal_torque (host' :: l') <> vzero.
  Proof.
    destruct creep_star_torque as (t & Et & Ht).
    destruct (creep_host_alone m creep_star rigid_planet 1 t eq_refl eq_refl eq_refl Et) as (h & l & E & N).
    exists h, l. split; [exact E|]. rewrite N. intros X. apply (f_equal vz) in X. unfold vscale, vzero in X. cbn [vz] in X.
    num_simpl. lra.
  Qed.
End CreepWitness.

(** *** Systems meeting the hypotheses of the theorems *)
Definition idleR : particle R := bodyR 3 (Vec 2 0 0) (Vec 0 (1/2) 0) (Vec 0 0 1) TidesDisabled.
Lemma unit_apart : (vzero : vec R) <> unit_pos.
Proof. intro X. apply (f_equal vx) in X. unfold vzero, unit_pos in X. cbn [vx] in X. num_simpl. lra. Qed.
Lemma sun_system : ctl_host sunR /\ Forall ctl_or_none [jupiter 2; idleR] /\
  Forall (fun p => ctl_body p -> apart sunR p) [jupiter 2; idleR] /\
  p_mass sunR <> 0 /\ Forall (fun p => p_mass p <> 0) [jupiter 2; idleR].
Proof.
  pose proof unit_mass_pos as Hm.
  split; [eexists; reflexivity|].
  split. { constructor; [left; eexists; reflexivity|]. constructor; [|constructor].
           right. split; [reflexivity|]. split; [reflexivity|]. split; reflexivity. }
  split. { constructor; [intros _; exact unit_apart|]. constructor; [|constructor].
           intros [c X]. discriminate X. }
  split; [apply Rgt_not_eq; exact Hm|].
  constructor; [apply Rgt_not_eq; exact Hm|]. constructor; [apply Rgt_not_eq; exact Hm|constructor].
Qed.
Definition creep_planet : particle R := bodyR 2 unit_pos unit_vel (Vec 0 0 1) (TidesOrbiting (CreepCoplanar 1)).
Lemma creep_system : ctl_host sunR /\ Forall creep_body [creep_planet] /\
  Forall (fun p => apart sunR p /\ vz (p_ipos p) = vz (p_ipos sunR)) [creep_planet].
Proof.
  split; [eexists; reflexivity|].
  split. { constructor; [|constructor]. split; [eexists; reflexivity|reflexivity]. }
  constructor; [|constructor]. split; [exact unit_apart|reflexivity].
Qed.
Definition oblate (id : nat) (x v spin : vec R) (e : rf_effect_t R) : particle R :=
  set_p_spin2 (norm2 spin) (set_p_rf (new_flattening e) (bodyR id x v spin TidesDisabled)).
Definition oblate_star : particle R := oblate 1 vzero vzero (Vec 0 0 2) (RfCentral (OblateSpheroid (1/2))).
Definition oblate_planet : particle R := oblate 2 unit_pos unit_vel (Vec 1 1 1) (RfOrbiting (OblateSpheroid (1/3))).
Lemma oblate_system : oblate_host oblate_star /\ Forall oblate_or_none [oblate_planet; idleR] /\
  p_mass oblate_star <> 0 /\ Forall (fun p => p_mass p <> 0) [oblate_planet; idleR] /\
  p_spin2 oblate_star = norm2 (p_spin oblate_star) /\ p_spin oblate_star <> vzero /\
  apart oblate_star oblate_planet /\ p_spin2 oblate_planet = norm2 (p_spin oblate_planet) /\ p_spin oblate_planet <> vzero.
Proof.
  pose proof unit_mass_pos as Hm.
  split; [eexists; reflexivity|].
  split. { constructor; [left; eexists; reflexivity|]. constructor; [|constructor].
           right. split; [reflexivity|]. split; [reflexivity|]. split; reflexivity. }
  split; [apply Rgt_not_eq; exact Hm|].
  split. { constructor; [apply Rgt_not_eq; exact Hm|]. constructor; [apply Rgt_not_eq; exact Hm|constructor]. }
  split; [reflexivity|].
  split. { intro X. apply (f_equal vz) in X. change (2 = 0) in X. lra. }
  split; [exact unit_apart|]. split; [reflexivity|].
  intro X. apply (f_equal vz) in X. change (1 = 0) in X. lra.
Qed.
(** the heat released in the example is positive *)
Lemma sun_heat : 0 < tidal_heat 1 1 1 (Vec 0 0 2) unit_pos unit_vel.
Proof.
  unfold tidal_heat. replace (norm2 unit_pos) with 1 by (unfold unit_pos; vunfold; ring). rewrite sqrt_1, !pow1.
  unfold unit_pos, unit_vel. vunfold. lra.
Qed.

Lemma creep_host_refuted `{FU : Fuel} : (1 <= fuel)%nat -> forall m,
  exists host planet host' l',
    t_effect (p_tides host) = TidesCentral (CreepCoplanar 1) /\ vz (p_ipos planet) = vz (p_ipos host) /\
    tides_pass m host [planet] = Ok (host', l') /\
    net_torque tidal_acc tidal_torque (host' :: l') <> vzero.
Proof.
  intros Hf m. destruct (creep_star_witness Hf m) as (h & l & E & N).
  exists creep_star, rigid_planet, h, l. split; [reflexivity|]. split; [reflexivity|]. split; [exact E|exact N].
Qed.
