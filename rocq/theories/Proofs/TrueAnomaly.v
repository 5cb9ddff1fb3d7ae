(** * C50: the fixed-point iteration for the true anomaly *)
From Coq Require Import Reals Lra Lia List Psatz Arith.
From Verif Require Import Base.Num Base.Vec Base.Trans Model.Tools Spec.OrbitSpec
  Proofs.NumLemmas Proofs.VecLemmas Proofs.OrbitState Proofs.OrbitElements.
Open Scope R_scope.

Lemma loop_value fuel e m u0 u : true_anomaly_loop (F := R) fuel e m u0 = Some u ->
  exists u', u = m + e * sin u' /\ Rabs (u - u') <= 1 / 10000000000000.
Proof.
  revert u0. induction fuel as [|k IH]; intros u0; [discriminate|]. cbn [true_anomaly_loop]. num_simpl.
  change (@tsin R _) with sin.
  match goal with |- context [Rltb ?a ?b] => destruct (Rltb_spec a b) end; [apply IH|].
  intros K; injection K as <-. exists u0. split; [reflexivity|lra].
Qed.
Lemma loop_enough e m N : 0 <= e < 1 -> forall u0, Rabs (m + e * sin u0 - u0) * e ^ N <= 1 / 10000000000000 ->
  forall fuel, (N < fuel)%nat -> true_anomaly_loop (F := R) fuel e m u0 <> None.
Proof.
  intros He. induction N as [|N IH]; intros u0 H fuel Hf; (destruct fuel as [|fuel]; [lia|]);
    cbn [true_anomaly_loop]; num_simpl; change (@tsin R _) with sin;
    match goal with |- context [Rltb ?a ?b] => destruct (Rltb_spec a b) as [K|K] end; try discriminate.
  - cbn in H. lra.
  - apply IH; [|lia]. cbn [pow] in H.
    pose proof (sin_lipschitz (m + e * sin u0) u0) as L.
    replace (m + e * sin (m + e * sin u0) - (m + e * sin u0)) with (e * (sin (m + e * sin u0) - sin u0)) by ring.
    rewrite Rabs_mult, (Rabs_right e) by lra. pose proof (pow_le e N (proj1 He)) as P.
    eapply Rle_trans; [|exact H]. rewrite (Rmult_comm e), !Rmult_assoc.
    apply Rmult_le_compat_r; [apply Rmult_le_pos; lra|exact L].
Qed.
Lemma small_power e eps : 0 <= e < 1 -> 0 < eps -> exists N, e ^ N <= eps.
Proof.
  intros He Hp. destruct (pow_lt_1_zero e ltac:(rewrite Rabs_right; lra) eps Hp) as (N & HN).
  exists N. specialize (HN N ltac:(lia)). pose proof (Rle_abs (e ^ N)). lra.
Qed.
(** the loop stops after at most [N + 1] rounds when [e^(N+1)] is within the tolerance *)
Theorem true_anomaly_stops e m N fuel : 0 <= e < 1 -> e ^ S N <= 1 / 10000000000000 -> (N < fuel)%nat ->
  true_anomaly (F := R) fuel e m <> None.
Proof.
  intros He HN Hf. unfold true_anomaly.
  destruct (true_anomaly_loop fuel e m m) eqn:K; [discriminate|]. exfalso. revert K.
  apply (loop_enough e m N He); [|exact Hf]. replace (m + e * sin m - m) with (e * sin m) by ring.
  rewrite Rabs_mult, (Rabs_right e) by lra. pose proof (SIN_bound m). assert (Rabs (sin m) <= 1) by (apply Rabs_le; lra).
  pose proof (pow_le e N (proj1 He)). cbn [pow] in HN. pose proof (Rabs_pos (sin m)).
  assert (e * Rabs (sin m) <= e) by nra. nra.
Qed.
(** distance of an approximate solution of Kepler's equation to the exact one *)
Lemma kepler_error e M E u : 0 <= e < 1 -> kepler e M E -> Rabs (u - E) <= Rabs (u - e * sin u - M) / (1 - e).
Proof.
  unfold kepler. intros He K. apply (Rmult_le_reg_r (1 - e)); [lra|]. unfold Rdiv. rewrite Rmult_assoc, Rinv_l, Rmult_1_r by lra.
  pose proof (sin_lipschitz u E) as L.
  replace (u - e * sin u - M) with ((u - E) - e * (sin u - sin E)) by (rewrite <- K; ring).
  pose proof (Rabs_triang_inv (u - E) (e * (sin u - sin E))) as T. rewrite Rabs_mult, (Rabs_right e) in T by lra.
  nra.
Qed.
Lemma half_angle u : cos (u / 2) <> 0 -> let t := tan (u / 2) in
  cos u = (1 - t * t) / (1 + t * t) /\ sin u = 2 * t / (1 + t * t).
Proof.
  intros H t. assert (E : u = 2 * (u / 2)) by field. rewrite E at 1 2. rewrite cos_2a, sin_2a. unfold t, tan. clear E t.
  set (h := u / 2) in *. pose proof (sin2_cos2 h) as P. unfold Rsqr in P. revert H P.
  generalize (sin h) (cos h). intros s c H P. assert (c * c + s * s <> 0) by lra.
  split.
  - transitivity ((c * c - s * s) / (c * c + s * s)); [replace (c * c + s * s) with 1 by lra; field|field; auto].
  - transitivity (2 * s * c / (c * c + s * s)); [replace (c * c + s * s) with 1 by lra; field|field; auto].
Qed.
Lemma powf_half x : 0 < x -> Rpowf x (1 / (2 / 1)) = sqrt x.
Proof.
  intros H. unfold Rpowf. destruct (Rlt_dec 0 x); [|contradiction].
  replace (1 / (2 / 1)) with (/ 2) by field. apply Rpower_sqrt, H.
Qed.
Lemma true_anomaly_angle e u : 0 <= e < 1 -> cos (u / 2) <> 0 ->
  let f := 2 * atan (sqrt ((1 + e) / (1 - e)) * tan (u / 2)) in
  - PI < f < PI /\ cos f = (cos u - e) / (1 - e * cos u) /\ sin f = sqrt (1 - e * e) * sin u / (1 - e * cos u).
Proof.
  intros He Hc f. set (k := sqrt ((1 + e) / (1 - e))) in *. set (t := tan (u / 2)) in *.
  assert (B : - PI < f < PI) by (pose proof (atan_bound (k * t)); unfold f; lra).
  split; [exact B|].
  assert (Q : 0 < (1 + e) / (1 - e)) by (apply Rdiv_lt_0_compat; lra).
  assert (K2 : k * k = (1 + e) / (1 - e)) by (apply sqrt_sqrt; lra).
  assert (K1 : sqrt (1 - e * e) = k * (1 - e)).
  { apply sqrt_lem_1; [nra|apply Rmult_le_pos; [apply sqrt_pos|lra]|].
    transitivity (k * k * ((1 - e) * (1 - e))); [ring|]. rewrite K2. field. lra. }
  assert (C : cos (f / 2) <> 0) by (apply Rgt_not_eq, cos_gt_0; lra).
  destruct (half_angle f C) as [Cf Sf]. destruct (half_angle u Hc) as [Cu Su].
  assert (T : tan (f / 2) = k * t).
  { unfold f. replace (2 * atan (k * t) / 2) with (atan (k * t)) by field. apply tan_atan. }
  rewrite T in Cf, Sf. fold t in Cu, Su. rewrite Cf, Sf, Cu, Su, K1.
  assert (0 < 1 + t * t) by nra.
  assert (P : 0 < (1 - e) + (1 + e) * (t * t)) by nra.
  replace (k * t * (k * t)) with ((1 + e) / (1 - e) * (t * t)) by (rewrite <- K2; ring).
  split.
  - field. repeat split; try lra; nra.
  - field. repeat split; try lra; nra.
Qed.
(** the value returned *)
Theorem true_anomaly_value fuel e m f : 0 <= e < 1 -> true_anomaly (F := R) fuel e m = Some f ->
  exists u, Rabs (u - e * sin u - m) <= e / 10000000000000
    /\ (forall E, kepler e m E -> Rabs (u - E) <= e / (1 - e) / 10000000000000)
    /\ (cos (u / 2) <> 0 -> - PI < f < PI /\ cos f = (cos u - e) / (1 - e * cos u)
          /\ sin f = sqrt (1 - e * e) * sin u / (1 - e * cos u)).
Proof.
  intros He. unfold true_anomaly. destruct (true_anomaly_loop fuel e m m) as [u|] eqn:L; [|discriminate].
  intros K; injection K as <-. destruct (loop_value _ _ _ _ _ L) as (u' & Eu & D). exists u.
  assert (A : Rabs (u - e * sin u - m) <= e / 10000000000000).
  { rewrite Eu at 1. replace (m + e * sin u' - e * sin u - m) with (e * (sin u' - sin u)) by ring.
    rewrite Rabs_mult, (Rabs_right e), Rabs_minus_sym by lra. pose proof (sin_lipschitz u u'). nra. }
  split; [exact A|]. split.
  - intros E KE. eapply Rle_trans; [apply (kepler_error e m E u He KE)|].
    apply (Rmult_le_reg_r (1 - e)); [lra|].
    replace (Rabs (u - e * sin u - m) / (1 - e) * (1 - e)) with (Rabs (u - e * sin u - m)) by (field; lra).
    replace (e / (1 - e) / 10000000000000 * (1 - e)) with (e / 10000000000000) by (field; lra). exact A.
  - intros Hc. num_simpl. change (@tpow R _) with Rpowf. change (@tatan R _) with atan. change (@ttan R _) with tan.
    replace (u / (2 / 1)) with (u / 2) by field. rewrite powf_half by (apply Rdiv_lt_0_compat; lra).
    replace (2 / 1) with 2 by field. apply true_anomaly_angle; assumption.
Qed.
