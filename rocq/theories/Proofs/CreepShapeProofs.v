(** The figure of a synchronous body on a circular orbit (creep tides) *)
From Coq Require Import Reals Lra Lia List Bool ZArith Arith.
From Verif Require Import Base.Num Base.Result Base.Trans Base.Vec Model.Constants Model.Particle
  Model.Tools Model.Creep Model.Tides Proofs.NumLemmas Proofs.VecLemmas Proofs.TidesProofs Proofs.TidesExamples Spec.EffectsSpec.
Import ListNotations.
Open Scope R_scope.

Lemma Rpowf_1 y : Rpowf 1 y = 1.
Proof.
  unfold Rpowf. destruct (Rlt_dec 0 1); [|lra]. unfold Rpower. rewrite ln_1, Rmult_0_r. apply exp_0.
Qed.

(** the true anomaly of a circular orbit is the mean anomaly, up to whole turns *)
Lemma circular_anomaly n m : (1 <= n)%nat -> cos (m / 2) <> 0 ->
  exists v, true_anomaly n 0 m = Some v /\
    forall w, w = v \/ w = v + 2 * PI -> cos (2 * m - 2 * w) = 1 /\ sin (2 * m - 2 * w) = 0.
Proof.
  intros Hn Hm. destruct n as [|n]; [lia|].
  unfold true_anomaly. cbn [true_anomaly_loop]. num_simpl. cbn [tsin tatan ttan tpow TransR].
  replace (m + 0 * sin m - m) with 0 by ring. rewrite Rabs_R0.
  rewrite (proj2 (Rltb_false _ _)) by (vm_compute; lra).
  eexists. split; [reflexivity|]. intros w Hw.
  replace ((1 + 0) / (1 - 0)) with 1 in Hw by field. rewrite Rpowf_1, Rmult_1_l in Hw.
  replace ((m + 0 * sin m) / (IZR 2 / IZR (Zpos 1))) with (m / 2) in Hw by field.
  set (x := m / 2) in *. set (y := atan (tan x)) in *.
  assert (Cy : 0 < cos y) by (apply cos_gt_0; pose proof (atan_bound (tan x)); unfold y; lra).
  assert (T : sin y * cos x = sin x * cos y).
  { assert (E : tan y = tan x) by (unfold y; apply atan_right_inv).
    unfold tan in E. apply (f_equal (fun z => z * (cos y * cos x))) in E.
    field_simplify in E; auto; lra. }
  assert (S : sin (x - y) = 0) by (rewrite sin_minus; lra).
  assert (Em : 2 * m - 2 * w = 2 * (2 * (x - y)) \/ 2 * m - 2 * w = 2 * (2 * (x - y)) + 2 * INR 1 * PI - 2 * INR 3 * PI).
  { cbn [INR]. unfold x. destruct Hw as [->| ->]; [left|right]; field. }
  assert (G : cos (2 * (2 * (x - y))) = 1 /\ sin (2 * (2 * (x - y))) = 0).
  { rewrite (sin_2a (2 * (x - y))), (sin_2a (x - y)), S. split; [|ring].
    rewrite cos_2a_sin, (sin_2a (x - y)), S. ring. }
  destruct Em as [->| ->]; [exact G|].
  set (u := 2 * (2 * (x - y))) in *.
  assert (P : u + 2 * INR 1 * PI - 2 * INR 3 * PI + 2 * INR 2 * PI = u) by (cbn [INR]; ring).
  split; [rewrite <- (cos_period _ 2), P; apply G|rewrite <- (sin_period _ 2), P; apply G].
Qed.

Lemma slow_circular rho z ratio n gam m :
  shape_slow rho z ratio n gam 0 m = Vec rho 0 (rho / 2 + z).
Proof.
  unfold shape_slow. rewrite !npow_pow. num_simpl. cbn [tsin tcos TransR].
  set (al := 1 - _). set (x := n / gam).
  assert (Dx : 1 + x ^ 2 <> 0) by nra. 
  assert (Da : 1 + al * al * x ^ 2 <> 0) by (pose proof (Rle_0_sqr (al * x)); unfold Rsqr in *; nra).
  match goal with |- context [cos (?a * ?b)] => replace (a * b) with 0 by (field; auto) end.
  rewrite cos_0, sin_0. f_equal; field; auto.
Qed.

Definition only_7 : list R := [0;0;0;0;0;0;0;1;0;0;0;0;0;0;0].
Lemma coefficients_circular : cayley_coefficients 0 = (only_7, only_7).
Proof.
  unfold cayley_coefficients, only_7. rewrite npow_pow. num_simpl.
  apply f_equal2; repeat (apply f_equal2; [field|]); reflexivity.
Qed.
Lemma round_zero gam n w m v acc dk : cayley_round gam n w m v acc dk 0 0 = acc.
Proof.
  destruct acc as [x y z]. unfold cayley_round. cbn [vx vy vz]. num_simpl. unfold Rdiv.
  f_equal; ring.
Qed.
Lemma round_7 gam n m v acc : gam <> 0 ->
  cos (2 * m - 2 * v) = 1 -> sin (2 * m - 2 * v) = 0 ->
  cayley_round gam n n m v acc (nlit 7 1) 1 1 = vadd acc (Vec 1 0 1).
Proof.
  intros Hg Hc Hs. destruct acc as [x y z]. unfold cayley_round, vadd. cbn [vx vy vz].
  rewrite !npow_pow. num_simpl. cbn [tsin tcos TransR].
  replace ((IZR 9 / IZR (Zpos 1) - IZR 7 / IZR (Zpos 1)) * m - IZR 2 / IZR (Zpos 1) * v) with (2 * m - 2 * v) by field.
  replace ((- (IZR 7 / IZR (Zpos 1)) + IZR 7 / IZR (Zpos 1)) * m) with 0 by field.
  replace (IZR 2 / IZR (Zpos 1) * n - (IZR 9 / IZR (Zpos 1) - IZR 7 / IZR (Zpos 1)) * n) with 0 by field.
  replace (IZR 7 / IZR (Zpos 1) - IZR 7 / IZR (Zpos 1)) with 0 by field.
  rewrite Hc, Hs, cos_0, sin_0. unfold vmap2; cbn [vx vy vz]. apply f_equal3; field; auto.
Qed.

Lemma cayley_circular gam n m v : gam <> 0 ->
  cos (2 * m - 2 * v) = 1 -> sin (2 * m - 2 * v) = 0 ->
  cayley_sums gam n n m v 0 = Vec 1 0 1.
Proof.
  intros Hg Hc Hs. unfold cayley_sums. rewrite coefficients_circular. unfold only_7.
  cbn [fst snd combine seq fold_left]. rewrite !round_zero.
  change (Z.of_nat 7) with 7%Z. rewrite round_7 by auto. rewrite ?round_zero. vunfold. f_equal; ring.
Qed.

Section Shape.
  Context `{FU : Fuel}.
  Lemma shape_circular a m period primary companion radius viscosity spin rot :
    (1 <= fuel)%nat -> cos (m / 2) <> 0 ->
    primary <> 0 -> radius <> 0 -> viscosity <> 0 -> a <> 0 ->
    spin = 2 * PI / period ->
    particle_shape a 0 m period primary companion radius viscosity spin true rot
    = Ok (hydrostatic_figure K2 primary companion radius a (if rot then spin else 0)).
  Proof.
    intros Hf Hm Hp Hr Hv Ha Hs. unfold particle_shape. rewrite !npow_pow. num_simpl. cbn [tpi TransR].
    pose proof K2_pos as HK. pose proof PI_RGT_0 as HP.
    replace (IZR 2 / IZR (Zpos 1) * PI / period) with spin by (rewrite Hs; unfold Rdiv; rewrite Rinv_1; ring).
    match goal with |- context [Rltb ?g spin] => set (gam := g) end.
    assert (Hg : gam <> 0).
    { assert (Nz : forall x y, x <> 0 -> y <> 0 -> x / y <> 0).
      { intros x y Hx Hy. unfold Rdiv. apply Rmult_integral_contrapositive_currified; [auto|apply Rinv_neq_0_compat; auto]. }
      unfold gam. apply Nz; repeat match goal with
        | |- _ * _ <> 0 => apply Rmult_integral_contrapositive_currified
        | |- _ ^ _ <> 0 => apply pow_nonzero
        | |- K2 <> 0 => apply Rgt_not_eq, HK
        | |- _ <> 0 => first [assumption | lra]
        end. }
    match goal with |- context [if rot then ?x else 0] => set (zb := if rot then x else 0) end.
    assert (Ez : zb = maclaurin_flattening K2 primary radius (if rot then spin else 0)).
    { unfold zb, maclaurin_flattening. destruct rot; field; split; auto; lra. }
    match goal with |- context [shape_slow ?r _ _ _ _ _ _] => set (rho := r) end.
    assert (Er : rho = jeans_prolateness primary companion radius a).
    { unfold rho, jeans_prolateness. field. auto. }
    unfold hydrostatic_figure. rewrite <- Er, <- Ez. clearbody gam zb rho.
    destruct (Rltb spin _).
    - now rewrite slow_circular.
    - destruct (circular_anomaly fuel m Hf Hm) as (v & Ev & Hc). rewrite Ev.
      match goal with |- context [cayley_sums _ _ _ _ ?w _] => set (v' := w) end.
      destruct (Hc v') as [Hc' Hs'].
      { unfold v'. destruct (Rltb v 0); [right; field|left; reflexivity]. }
      rewrite (cayley_circular gam spin m v' Hg Hc' Hs'). cbn [vx vy vz]. do 2 f_equal; field.
  Qed.

  Definition shape_of_pair (host p : particle R) (central : bool) : particle R * particle R :=
    if central then (host, p) else (p, host).
  Theorem synchronous_figure host p (central rot : bool) visc :
    let els := keplerian_elements (p_mass_g host + p_mass_g p) (t_pos (p_tides p)) (t_vel (p_tides p)) in
    let body := if central then host else p in
    let companion := if central then p else host in
    (1 <= fuel)%nat ->
    t_effect (p_tides body) = (if central then TidesCentral (CreepCoplanar visc) else TidesOrbiting (CreepCoplanar visc)) ->
    p_mass body <> 0 -> p_radius body <> 0 -> visc <> 0 -> el_a els <> 0 ->
    el_e els = 0 -> cos (el_l els / 2) <> 0 -> vz (p_spin body) = 2 * PI / el_period els ->
    creep_shape host p true rot central
    = Ok (hydrostatic_figure K2 (p_mass body) (p_mass companion) (p_radius body) (el_a els)
            (if rot then vz (p_spin body) else 0)).
  Proof.
    intros els body companion Hf Ht Hm Hr Hv Ha He Hl Hs. unfold creep_shape. num_simpl. fold els.
    rewrite He. fold body companion.
    replace (creep_viscosity (t_effect (p_tides body)) central) with visc
      by (rewrite Ht; destruct central; reflexivity).
    apply shape_circular; auto.
  Qed.
End Shape.

Lemma synchronous_planet :
  let p := ready_one sunR creep_planet in
  let els := keplerian_elements (p_mass_g sunR + p_mass_g p) (t_pos (p_tides p)) (t_vel (p_tides p)) in
  t_effect (p_tides p) = TidesOrbiting (CreepCoplanar 1) /\ el_a els = 1 /\ el_e els = 0 /\
  cos (el_l els / 2) <> 0 /\ vz (p_spin p) = 2 * PI / el_period els.
Proof.
  intros p els.
  assert (E : els = Elements 1 1 0 0 0 0 0 (2 * PI)).
  { unfold els. rewrite <- unit_elements.
    assert (Eg : p_mass_g sunR + p_mass_g p = 1) by exact unit_gm. rewrite Eg.
    assert (Ex : t_pos (p_tides p) = unit_pos).
    { change (vsub unit_pos vzero = unit_pos). unfold unit_pos. vunfold. apply f_equal3; ring. }
    assert (Ev : t_vel (p_tides p) = unit_vel).
    { change (vsub unit_vel vzero = unit_vel). unfold unit_vel. vunfold. apply f_equal3; ring. }
    rewrite Ex, Ev. reflexivity. }
  rewrite E. cbn [el_a el_e el_l el_period]. split; [reflexivity|]. split; [reflexivity|]. split; [reflexivity|].
  split. { replace (0 / 2) with 0 by field. rewrite cos_0. lra. }
  change (vz (p_spin p)) with 1. pose proof PI_RGT_0. field. lra.
Qed.
