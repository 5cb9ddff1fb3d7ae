(** * Where the elements do not describe the state *)
From Coq Require Import Reals Lra Lia List Bool ZArith Psatz.
From Verif Require Import Base.Num Base.Trans Base.Vec Model.Constants Model.Tools Spec.OrbitSpec
  Proofs.NumLemmas Proofs.VecLemmas Proofs.OrbitState Proofs.OrbitElements Proofs.KeplerSolvers.
Import ListNotations.
Open Scope R_scope.

(** the inclination leaves [0, pi] as soon as the angular momentum has a positive second component *)
Theorem inclination_outside gm x v : 0 < vy (cross x v) -> PI < el_i (keplerian_elements (F := R) gm x v) < 2 * PI.
Proof.
  intros H. assert (Hh : cross x v <> vzero) by (intros K; rewrite K in H; cbn in H; num_simpl; lra).
  pose proof (inclination_node_spec _ Hh) as S. unfold keplerian_elements. change (vcross x v) with (cross x v).
  rewrite h2_model. change (nsqrt (dot (cross x v) (cross x v))) with (length3 (cross x v)).
  destruct (inclination_node (cross x v) (length3 (cross x v))) as [i n]. cbn [el_i]. apply S, H.
Qed.
(** and the elements then describe the orbit turned by half a turn about the third axis *)
Theorem wrong_side gm x v x' v' : 0 < gm -> x <> vzero -> energy gm x v < 0 -> 0 < vy (cross x v) ->
  3 / 100000000 <= length3 (laplace gm x v) ->
  let el := keplerian_elements (F := R) gm x v in
  cartesian_coordinates (F := R) gm (el_q el) (el_e el) (el_i el) (el_p el) (el_n el) (el_l el) = (x', v') ->
  cross x' v' = mirrored (cross x v).
Proof.
  intros Hg Hx Hb Hy He el Hc.
  assert (Hh : cross x v <> vzero) by (intros K; rewrite K in Hy; cbn in Hy; num_simpl; lra).
  pose proof (elements_shape gm x v Hg Hx Hb) as (_ & A & _ & H2 & Q & Ee & _). fold el in A, H2, Q, Ee.
  set (e := length3 (laplace gm x v)) in *.
  assert (E1 : el_e el = e) by (rewrite Ee; destruct (Rlt_dec e (3 / 100000000)); [lra|reflexivity]).
  pose proof (length_pos _ Hh) as P. pose proof (length_sq (cross x v)) as L2. rewrite H2 in L2.
  assert (Er : 0 < e < 1).
  { split; [lra|]. destruct (Rlt_le_dec e 1) as [|B]; [assumption|exfalso].
    assert (0 < gm * el_a el) by (apply Rmult_lt_0_compat; assumption).
    assert (0 < length3 (cross x v) * length3 (cross x v)) by (apply Rmult_lt_0_compat; assumption). assert (1 <= e * e) by nra.
    assert (0 <= gm * el_a el * (e * e - 1)) by (apply Rmult_le_pos; lra). lra. }
  assert (Q0 : 0 < el_q el) by (rewrite Q; apply Rmult_lt_0_compat; lra).
  rewrite E1 in Hc. destruct (cartesian_ellipse gm (el_q el) e _ _ _ _ x' v' Hg Q0 ltac:(lra) Hc) as (_ & _ & C & _).
  assert (Ha : el_q el / (1 - e) = el_a el) by (rewrite Q; field; lra). rewrite Ha in C.
  assert (Hl : sqrt (gm * el_a el * (1 - e * e)) = length3 (cross x v)).
  { rewrite <- L2. apply sqrt_square. lra. }
  rewrite C, Hl.
  pose proof (inclination_node_spec _ Hh) as S.
  assert (I : inclination_node (F := R) (cross x v) (length3 (cross x v)) = (el_i el, el_n el)).
  { unfold el, keplerian_elements. change (vcross x v) with (cross x v). rewrite h2_model.
    change (nsqrt (dot (cross x v) (cross x v))) with (length3 (cross x v)).
    destruct (inclination_node (cross x v) (length3 (cross x v))). reflexivity. }
  rewrite I in S. destruct S as (_ & _ & _ & S). specialize (S Hy). destruct S as [_ S].
  set (l := length3 (cross x v)) in *. clearbody l. rewrite S.
  destruct (plane_normal (el_i el) (el_n el)) as [a b c]. unfold times, mirrored. cbn [vx vy vz]. f_equal; ring.
Qed.

(** circular orbits: the phase is always in [0, pi] *)
Theorem circular_phase gm x v : el_e (keplerian_elements (F := R) gm x v) = 0 ->
  0 <= el_l (keplerian_elements (F := R) gm x v) <= PI.
Proof.
  intros He. unfold keplerian_elements in *. destruct (inclination_node _ _) as [i n]. cbn [el_e el_l] in *.
  match goal with |- context [mean_anomaly_raw ?z] => set (e := z) in * end.
  change (@n0 R _) with 0 in *. change (e = 0) in He. rewrite He.
  unfold mean_anomaly_raw. num_simpl. rewrite (proj2 (Reqb_true 0 0)) by reflexivity.
  change (@tacos R _) with acos. pose proof PI_RGT_0.
  match goal with |- context [acos ?z] => pose proof (acos_bound z) as B; set (w := acos z) in * end. clearbody w.
  rewrite two_pi. rewrite (proj2 (Rltb_false w 0)) by lra. rewrite (proj2 (Rltb_false (2 * PI) w)) by lra. exact B.
Qed.
(** two opposite states of one circular orbit have the same elements *)
Theorem circular_opposite : keplerian_elements (F := R) 1 (Vec 0 1 0) (Vec (-1) 0 0)
  = keplerian_elements (F := R) 1 (Vec 0 (-1) 0) (Vec 1 0 0).
Proof.
  unfold keplerian_elements.
  assert (I : inclination_node (F := R) (vcross (Vec 0 1 0) (Vec (-1) 0 0)) (nsqrt (norm2_powf (vcross (Vec 0 1 0) (Vec (-1) 0 0)))) = (0, 0)).
  { rewrite h2_model. unfold dot. vunfold. cbn [vx vy vz]. num_simpl.
    unfold inclination_node. cbn [vx vy vz]. num_simpl.
    replace ((1 * 0 - 0 * 0) * (1 * 0 - 0 * 0) + (0 * -1 - 0 * 0) * (0 * -1 - 0 * 0) + (0 * 0 - 1 * -1) * (0 * 0 - 1 * -1)) with 1 by ring.
    rewrite sqrt_1. replace ((0 * 0 - 1 * -1) / 1) with 1 by field. rewrite clamp_id by lra.
    rewrite Rabs_R1. rewrite (proj2 (Rltb_false 1 1)) by lra. rewrite (proj2 (Rltb_false 1 0)) by lra.
    destruct (Rltb 0 1); reflexivity. }
  assert (X : vcross (Vec 0 (-1) 0) (Vec 1 0 0) = vcross (F := R) (Vec 0 1 0) (Vec (-1) 0 0)).
  { vunfold. cbn [vx vy vz]. num_simpl. f_equal; ring. }
  rewrite X, I. 
  assert (D1 : vdot (Vec 0 (-1) 0) (Vec 0 (-1) 0) = vdot (F := R) (Vec 0 1 0) (Vec 0 1 0)) by (vunfold; cbn; ring).
  assert (D2 : vdot (Vec 1 0 0) (Vec 1 0 0) = vdot (F := R) (Vec (-1) 0 0) (Vec (-1) 0 0)) by (vunfold; cbn; ring).
  assert (D3 : vdot (Vec 0 (-1) 0) (Vec 1 0 0) = vdot (F := R) (Vec 0 1 0) (Vec (-1) 0 0)) by (vunfold; cbn; ring).
  rewrite D1, D2, D3. cbv zeta.
  assert (E : raw_eccentricity (F := R) 1 (norm2_powf (vcross (Vec 0 1 0) (Vec (-1) 0 0)) / 1)%num
     (vdot (Vec (-1) 0 0) (Vec (-1) 0 0)) (nsqrt (vdot (Vec 0 1 0) (Vec 0 1 0))) = 0).
  { rewrite h2_model. unfold dot. vunfold. cbn [vx vy vz]. num_simpl. unfold raw_eccentricity. num_simpl.
    replace (0 * 0 + 1 * 1 + 0 * 0) with 1 by ring. rewrite sqrt_1.
    match goal with |- (if Rleb ?t 0 then _ else _) = _ => replace t with 0 by field end.
    rewrite (proj2 (Rleb_true 0 0)) by lra. reflexivity. }
  rewrite E. num_simpl. rewrite (proj2 (Rltb_true 0 (3 / 100000000))) by lra. rewrite (proj2 (Reqb_true 0 0)) by reflexivity.
  change (@tcos R _) with cos. change (@tsin R _) with sin. rewrite sin_0, cos_0. cbn [vx vy vz].
  replace (0 * 1 + -1 * 0) with (0 * 1 + 1 * 0) by ring. reflexivity.
Qed.

(** unbound orbits: the mean anomaly is always zero *)
Theorem unbound_mean_anomaly e r a rv t : 1 <= e -> mean_anomaly_raw (F := R) e r a rv t = 0.
Proof.
  intros He. unfold mean_anomaly_raw. num_simpl.
  rewrite (proj2 (Reqb_false e 0)), (proj2 (Rltb_false e 1)) by lra.
  set (c := nclamp _ _ _).
  assert (B : c <= 1).
  { unfold c, nclamp. num_simpl. set (z := 1 / e * (1 - r / a)). destruct (Rltb_spec z (- (1))); [lra|]. destruct (Rltb_spec 1 z); lra. }
  assert (C : (if Rltb c 1 then 1 else c) = 1) by (destruct (Rltb_spec c 1); lra).
  rewrite C. replace (1 * 1 - 1) with 0 by ring. rewrite sqrt_0. replace (1 + 0) with 1 by ring.
  change (@tln R _) with ln. change (@tsinh R _) with sinh. rewrite ln_1.
  destruct (Rltb rv 0); rewrite ?Ropp_0, sinh_0; ring.
Qed.
