(** The figure jumps at the capture rate; planets turning backwards always have a figure *)
From Coq Require Import Reals Lra Lia Psatz List Bool ZArith Arith.
From Verif Require Import Base.Num Base.Result Base.Trans Base.Vec Model.Constants Model.Particle
  Model.Tools Model.Creep Model.Flattening Proofs.NumLemmas Proofs.VecLemmas Proofs.TidesExamples
  Proofs.CreepFlatteningPass Proofs.CreepFlatteningProofs Spec.EffectsSpec Spec.CreepFlatteningSpec.
Import ListNotations.
Open Scope R_scope.

Lemma figure_jump G m r eta e n :
  0 < G -> 0 < m -> 0 < r -> 0 < eta -> 0 < n -> e <> 0 ->
  let w := capture_rate (relaxation_rate G m r eta) n e in
  exists jump, 0 < jump /\ forall delta, 0 < delta ->
    exists spin, w - delta < spin < w /\
      vz (creep_flattening_figure G m r eta spin e n) - vz (creep_flattening_figure G m r eta w e n) >= jump.
Proof.
  intros HG Hm Hr Heta Hn He w.
  assert (Hw : 0 < w).
  { unfold w, capture_rate. destruct (Rlt_dec _ _); [lra|]. apply Rmult_lt_0_compat; [auto|nra]. }
  set (gam := relaxation_rate G m r eta) in *.
  set (k := 12 * e ^ 2 / (1 + (n / gam) ^ 2)).
  assert (Hk : 0 < k) by (unfold k; apply Rdiv_lt_0_compat; nra).
  set (c := 5 / 4 * (r ^ 3 / (G * m))).
  assert (Hc : 0 < c).
  { unfold c. apply Rmult_lt_0_compat; [lra|]. apply Rdiv_lt_0_compat; [apply pow_lt; auto|nra]. }
  assert (M : forall s, maclaurin_flattening G m r s = c * s ^ 2).
  { intro s. unfold maclaurin_flattening, c. field. split; lra. }
  exists (c * w ^ 2 * k / 2). split.
  { apply Rdiv_lt_0_compat; [|lra]. apply Rmult_lt_0_compat; auto. apply Rmult_lt_0_compat; auto. now apply pow_lt. }
  intros delta Hd.
  set (q := k / (4 * (1 + k))).
  assert (Hq : 0 < q /\ 4 * (1 + k) * q = k).
  { split; [unfold q; apply Rdiv_lt_0_compat; lra|unfold q; field; lra]. }
  set (eps := Rmin (delta / (2 * w)) q).
  assert (He1 : 0 < eps).
  { unfold eps. apply Rmin_glb_lt; [apply Rdiv_lt_0_compat; lra|tauto]. }
  assert (He2 : eps * w < delta).
  { apply Rle_lt_trans with (delta / (2 * w) * w); [apply Rmult_le_compat_r; [lra|apply Rmin_l]|].
    replace (delta / (2 * w) * w) with (delta / 2) by (field; lra). lra. }
  assert (He3 : eps <= q) by apply Rmin_r. clearbody eps q.
  exists (w - eps * w). split; [nra|].
  unfold creep_flattening_figure. cbn [vz]. fold gam. fold w. fold k. rewrite !M.
  destruct (Rlt_dec (w - eps * w) w) as [_|N]; [|exfalso; apply N; nra].
  destruct (Rlt_dec w w) as [N|_]; [lra|].
  assert (Q : (1 - eps) ^ 2 * (1 + k) >= 1 + k / 2) by nra.
  replace ((w - eps * w) ^ 2) with (w ^ 2 * (1 - eps) ^ 2) by ring.
  assert (0 < c * w ^ 2) by (apply Rmult_lt_0_compat; [auto|now apply pow_lt]).
  nra.
Qed.

(** ** An example: a planet that turns backwards *)
Section Example_.
  Context `{FU : Fuel}.
  Lemma backwards_ok a e m period primary companion radius viscosity spin :
    spin < 0 -> 0 <= 2 * PI / period ->
    is_ok (particle_shape a e m period primary companion radius viscosity spin false true) = true.
  Proof.
    intros Hs Hn. unfold particle_shape. num_simpl. cbn [tpi TransR].
    replace (IZR 2 / IZR (Zpos 1) * PI / period) with (2 * PI / period) by (unfold Rdiv; rewrite Rinv_1; ring).
    match goal with |- context [Rltb spin ?t] => assert (L : Rltb spin t = true) end.
    { apply Rltb_true. destruct (Rltb _ _); nra. }
    rewrite L. reflexivity.
  Qed.

  Definition flat_star : particle R := set_p_rf (new_flattening (RfCentral (OblateSpheroid 1))) sunR.
  Definition flat_planet : particle R :=
    set_p_rf (new_flattening (RfOrbiting (CreepCoplanarRf 1)))
      (set_p_tides (set_t_vel unit_vel (set_t_pos unit_pos (new_tides (TidesOrbiting (CreepCoplanar 1)))))
        (bodyR 2 unit_pos unit_vel (Vec 0 0 (-1)) (TidesOrbiting (CreepCoplanar 1)))).
  Lemma flat_elements : keplerian_elements (p_mass_g flat_star + p_mass_g flat_planet)
      (t_pos (p_tides flat_planet)) (t_vel (p_tides flat_planet)) = Elements 1 1 0 0 0 0 0 (2 * PI).
  Proof.
    change (p_mass_g flat_star) with (unit_mass * K2). change (p_mass_g flat_planet) with (unit_mass * K2).
    rewrite unit_gm. exact unit_elements.
  Qed.
  Lemma flat_shape : exists s, creep_shape flat_star flat_planet false true false = Ok s.
  Proof.
    unfold creep_shape. change (nadd (p_mass_g flat_star) (p_mass_g flat_planet)) with (p_mass_g flat_star + p_mass_g flat_planet).
    rewrite flat_elements. cbn [el_a el_e el_l el_period].
    match goal with |- exists s, particle_shape ?a ?e ?m ?pe ?pr ?co ?r ?v ?w _ _ = _ =>
      pose proof (backwards_ok a e m pe pr co r v w) as B end.
    destruct (particle_shape _ _ _ _ _ _ _ _ _ _ _) as [s|]; [eauto|]. exfalso.
    assert (false = true) as X; [|discriminate X]. apply B.
    - change (-1 < 0). lra.
    - pose proof PI_RGT_0. replace (2 * PI / (2 * PI)) with 1 by (field; lra). lra.
  Qed.
  Lemma flat_pass : exists host' p', rf_pass flat_star [flat_planet] = Ok (host', [p']).
  Proof.
    destruct flat_shape as [s Es]. eapply (single_pass flat_star flat_planet); [reflexivity|reflexivity| |exact Es].
    change (Reqb 1 0 = false). unfold Reqb. destruct (Req_EM_T 1 0); [lra|reflexivity].
  Qed.
  Lemma flat_creep : is_rf_central (rf_effect (p_rf flat_star)) = true /\ rf_creep (rf_effect (p_rf flat_planet)) /\
    p_mass flat_planet <> 0 /\ norm2 (vsub (p_ipos flat_planet) (p_ipos flat_star)) <> 0 /\
    vz (figure_of flat_star flat_planet) > 0.
  Proof.
    split; [reflexivity|]. split; [exists 1; split; [reflexivity|lra]|].
    pose proof unit_mass_pos. pose proof K2_pos.
    split; [change (unit_mass <> 0); lra|]. split.
    - match goal with |- ?a <> 0 => replace a with 1; [lra|] end.
      change (p_ipos flat_planet) with unit_pos. change (p_ipos flat_star) with (vzero : vec R).
      unfold unit_pos, vzero. vunfold. num_simpl. ring.
    - unfold figure_of. rewrite flat_elements. cbn [el_e el_period].
      unfold creep_flattening_figure. cbn [vz]. 
      change (p_mass flat_planet) with unit_mass. change (p_radius flat_planet) with 1. change (vz (p_spin flat_planet)) with (-1).
      apply Rmult_gt_0_compat.
      + unfold maclaurin_flattening. apply Rmult_gt_0_compat; [lra|]. apply Rdiv_lt_0_compat; [lra|].
        apply Rmult_lt_0_compat; auto.
      + destruct (Rlt_dec _ _); [|lra]. replace (12 * 0 ^ 2) with 0 by ring. unfold Rdiv. rewrite Rmult_0_l. lra.
  Qed.
End Example_.
