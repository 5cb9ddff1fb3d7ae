(** * C48: the solvers of Kepler's equation *)
From Coq Require Import Reals Lra Lia List Psatz Bool ZArith.
From Verif Require Import Base.Num Base.Vec Base.Trans Model.Tools Spec.OrbitSpec
  Proofs.NumLemmas Proofs.VecLemmas Proofs.EvolveProofs Proofs.OrbitState Proofs.OrbitElements Proofs.TrueAnomaly.
Import ListNotations.
Open Scope R_scope.

Lemma two_pi : TWO_PI (F := R) = 2 * PI.
Proof. unfold TWO_PI. num_simpl. change (@tpi R _) with PI. field. Qed.
Lemma pi_bounds : 31 / 10 < PI < 32 / 10.
Proof.
  pose proof (PI_ineq 18) as [A B].
  unfold tg_alt, PI_tg in *. cbn -[IZR INR Rinv PI pow] in A, B.
  rewrite !INR_IZR_INZ in A, B. cbn -[IZR Rinv PI] in A, B. lra.
Qed.

(** ** Reduction of the mean anomaly *)
Definition turns (a b : R) : Prop := exists k : Z, a = b + IZR k * (2 * PI).
Lemma reduce_congruent oldl : let '(l, sign) := reduce_anomaly (F := R) oldl in
  (sign = 1 \/ sign = -1) /\ turns oldl (sign * l).
Proof.
  pose proof PI_RGT_0 as P. unfold reduce_anomaly. num_simpl. rewrite two_pi. change (@tpi R _) with PI.
  destruct (modulus_spec oldl (2 * PI) ltac:(lra)) as (B & k & K).
  set (m := modulus oldl (2 * PI)) in *.
  destruct (Rleb_spec 0 oldl).
  - destruct (Rltb_spec PI m).
    + split; [right; lra|]. exists (k + 1)%Z. rewrite plus_IZR. lra.
    + split; [left; lra|]. exists k. lra.
  - destruct (Rltb_spec PI (m + 2 * PI)).
    + split; [right; lra|]. exists k. lra.
    + lra.
Qed.
Lemma reduce_range oldl : 0 <= oldl -> 0 <= fst (reduce_anomaly (F := R) oldl) <= PI.
Proof.
  intros H. pose proof PI_RGT_0 as P. unfold reduce_anomaly. num_simpl. rewrite two_pi. change (@tpi R _) with PI.
  destruct (modulus_spec oldl (2 * PI) ltac:(lra)) as (B & _).
  set (m := modulus oldl (2 * PI)) in *.
  destruct (Rleb_spec 0 oldl); [|lra]. destruct (Rltb_spec PI m); cbn [fst]; lra.
Qed.
(** negative mean anomalies are not reduced to [0, pi] *)
Lemma reduce_negative oldl : oldl < 0 ->
  - (2 * PI) < fst (reduce_anomaly (F := R) oldl) <= 0.
Proof.
  intros H. pose proof PI_RGT_0 as P. unfold reduce_anomaly. num_simpl. rewrite two_pi. change (@tpi R _) with PI.
  destruct (modulus_spec oldl (2 * PI) ltac:(lra)) as (B & _).
  set (m := modulus oldl (2 * PI)) in *.
  destruct (Rleb_spec 0 oldl); [lra|]. destruct (Rltb_spec PI (m + 2 * PI)); cbn [fst]; lra.
Qed.
Lemma sin_turns a k : sin (a + IZR k * (2 * PI)) = sin a.
Proof.
  destruct (Z_le_dec 0 k) as [H|H].
  - replace (a + IZR k * (2 * PI)) with (a + 2 * INR (Z.to_nat k) * PI); [apply sin_period|].
    rewrite INR_IZR_INZ, Z2Nat.id by lia. ring.
  - replace (sin a) with (sin (a + IZR k * (2 * PI) + 2 * INR (Z.to_nat (- k)) * PI)); [symmetry; apply sin_period|].
    rewrite INR_IZR_INZ, Z2Nat.id, opp_IZR by lia. f_equal. ring.
Qed.
(** the residual of the answer, up to whole turns, is the residual on the reduced anomaly *)
Lemma residual_reduced e oldl : let '(l, sign) := reduce_anomaly (F := R) oldl in
  exists k : Z, forall u, Rabs (sign * u - e * sin (sign * u) - (oldl + IZR k * (2 * PI))) = Rabs (u - e * sin u - l).
Proof.
  pose proof (reduce_congruent oldl) as C. destruct (reduce_anomaly oldl) as [l sign]. destruct C as [S (k & K)].
  exists (- k)%Z. intros u. rewrite opp_IZR. destruct S as [-> | ->].
  - f_equal. rewrite K. rewrite Rmult_1_l. ring.
  - rewrite <- Rabs_Ropp. f_equal. replace (-1 * u) with (- u) by ring. rewrite sin_neg, K. ring.
Qed.

(** ** Circular orbits *)
Theorem kepler_circular oldl : exists k : Z, kepler_ellipse (F := R) 0 oldl = oldl + IZR k * (2 * PI).
Proof.
  pose proof (reduce_congruent oldl) as C. unfold kepler_ellipse. destruct (reduce_anomaly oldl) as [l sign].
  destruct C as [_ (k & K)].
  assert (U : kepler_start (F := R) 0 l = l).
  { unfold kepler_start. num_simpl. rewrite (proj2 (Rltb_true 0 (55 / 100))) by lra. rewrite orb_true_r.
    set (u1 := if Rltb l (1 - 0) then _ else _).
    match goal with |- u1 - (u1 - 0 * ?s - l) / (1 - 0 * ?d - _) = _ => set (sn := s); set (dn := d) end.
    clearbody u1 sn dn. field. }
  rewrite U. destruct (sin_cos_defects l) as [z1 z2]. exists (- k)%Z. rewrite opp_IZR.
  transitivity (sign * l); [f_equal|rewrite K; ring]. unfold kepler_refine. num_simpl. cbv zeta.
  replace (l - l * (1 - 0) - 0 * z1) with 0 by ring. unfold Rdiv at 1. ring.
Qed.

(** ** One step of the iteration, in exact arithmetic *)
(** A solution is kept *)
Theorem refine_exact e l u : kepler e l u -> 0 <= e < 1 ->
  kepler_refine (F := R) e l u (u - sin u) (1 - cos u) = u.
Proof.
  unfold kepler, kepler_refine. intros K He. num_simpl. cbv zeta.
  replace (l - u * (1 - e) - e * (u - sin u)) with 0 by (rewrite <- K; ring). unfold Rdiv at 1. ring.
Qed.

(** ** Parabola *)
Lemma cube_root x : 0 < x -> let c := Rpowf x (1 / 3) in 0 < c /\ c * c * c = x.
Proof.
  intros H c. unfold c, Rpowf. destruct (Rlt_dec 0 x); [|contradiction].
  assert (P : 0 < Rpower x (1 / 3)) by (unfold Rpower; apply exp_pos).
  split; [exact P|]. rewrite <- !Rpower_plus. replace (1 / 3 + 1 / 3 + 1 / 3) with 1 by field. apply Rpower_1, H.
Qed.
Theorem kepler_parabola_spec q0 : let '(q, u) := kepler_parabola (F := R) q0 in
  q = q0 /\ (1 / 1000 <= Rabs q0 -> barker q0 u) /\ Rabs (u + u ^ 3 / 3 - q0) <= Rabs q0 ^ 7.
Proof.
  assert (Main : forall q, 0 <= q ->
    let u := if Rltb q (1 / 1000) then q * (1 - q * q / 3 * (1 - q * q))
             else let t := Rpowf (5 / 10 * (3 * q + sqrt (9 * Rpowf q (2 / 1) + 4))) (1 / 3) in t - 1 / t in
    (1 / 1000 <= q -> barker q u) /\ Rabs (u + u ^ 3 / 3 - q) <= q ^ 7).
  { intros q Hq. destruct (Rltb_spec q (1 / 1000)) as [L|L].
    - cbv zeta. split; [intros; lra|]. set (y := q * q).
      assert (Y : 0 <= y <= 1 / 1000000) by (unfold y; split; nra).
      assert (I : q * (1 - y / 3 * (1 - y)) + (q * (1 - y / 3 * (1 - y))) ^ 3 / 3 - q
        = q ^ 7 * (1 / 3 + (1 - y) * (1 - y) / 9 - y * ((1 - y) * (1 - y) * (1 - y)) / 81)) by (unfold y; field).
      rewrite I, Rabs_mult, (Rabs_right (q ^ 7)) by (apply Rle_ge, pow_le, Hq).
      rewrite <- (Rmult_1_r (q ^ 7)) at 2. apply Rmult_le_compat_l; [apply pow_le, Hq|].
      assert (D : 0 <= (1 - y) * (1 - y) <= 1) by nra.
      assert (T : 0 <= (1 - y) * (1 - y) * (1 - y) <= 1) by nra.
      assert (0 <= y * ((1 - y) * (1 - y) * (1 - y)) <= 1) by nra. apply Rabs_le. lra.
    - set (x := 5 / 10 * (3 * q + sqrt (9 * Rpowf q (2 / 1) + 4))). cbv zeta.
      assert (Bk : barker q (Rpowf x (1 / 3) - 1 / Rpowf x (1 / 3))).
      { unfold x. rewrite powf_2.
        set (s := sqrt (9 * (q * q) + 4)).
        assert (S : s * s = 9 * (q * q) + 4) by (apply sqrt_sqrt; nra).
        assert (S0 : 0 < s) by (apply sqrt_lt_R0; nra).
        assert (X : 0 < 5 / 10 * (3 * q + s)) by nra.
        destruct (cube_root _ X) as [C0 C3]. set (c := Rpowf (_ * _) (1 / 3)) in *. unfold barker.
        assert (I : 1 / c * (1 / c) * (1 / c) = 5 / 10 * (s - 3 * q)).
        { transitivity (1 / (c * c * c)); [field; lra|]. rewrite C3.
          apply (Rmult_eq_reg_r (5 / 10 * (3 * q + s))); [|lra].
          transitivity 1; [field; lra|]. lra. }
        transitivity ((c * c * c - 1 / c * (1 / c) * (1 / c)) / 3); [field; lra|]. rewrite C3, I. field. }
      split; [intros _; exact Bk|]. unfold barker in Bk.
      rewrite Bk. unfold Rminus. rewrite Rplus_opp_r, Rabs_R0. apply pow_le, Hq. }
  unfold kepler_parabola. num_simpl. change (@tpow R _) with Rpowf.
  replace (4 / 1) with 4 by field. replace (9 / 1) with 9 by field. replace (3 / 1) with 3 by field.
  destruct (Rltb_spec q0 0) as [N|N].
  - specialize (Main (- q0) ltac:(lra)). cbv zeta in *.
    set (u := if Rltb (- q0) (1 / 1000) then _ else _) in *. clearbody u. destruct Main as [A B].
    rewrite (Rabs_left q0) by assumption. split; [ring|]. split.
    + intros L. specialize (A L). unfold barker in *. transitivity (- (u + u ^ 3 / 3)); [field|]. rewrite A. ring.
    + replace (- u + (- u) ^ 3 / 3 - q0) with (- (u + u ^ 3 / 3 - - q0)) by field. rewrite Rabs_Ropp. exact B.
  - specialize (Main q0 ltac:(lra)). cbv zeta in *. rewrite (Rabs_right q0) by lra. split; [reflexivity|exact Main].
Qed.

(** ** Hyperbola *)
(** for small mean anomalies the solver returns the mean anomaly itself *)
Theorem hyperbola_low e n : Rabs n < 636 / 1000 * e - 6 / 10 -> kepler_hyperbola (F := R) e n = n.
Proof.
  intros H. unfold kepler_hyperbola. num_simpl.
  assert (A : (if Rltb n 0 then - n else n) = Rabs n).
  { destruct (Rltb_spec n 0); [rewrite Rabs_left|rewrite Rabs_right]; lra. }
  rewrite A, (proj2 (Rltb_true _ _)) by exact H.
  unfold hyperbola_low_n. num_simpl. destruct (Rltb n 0); cbn [snd]; ring.
Qed.
Lemma sinh_above x : 0 < x -> x < sinh x.
Proof.
  intros H. destruct (MVT_cor2 sinh cosh 0 x H) as (c & E & B); [intros; apply derivable_pt_lim_sinh|].
  rewrite sinh_0 in E. assert (1 < cosh c); [|nra].
  unfold cosh. pose proof (exp_pos c). assert (exp c * exp (- c) = 1) by (rewrite <- exp_plus, Rplus_opp_r; apply exp_0).
  assert (1 < exp c) by (rewrite <- exp_0; apply exp_increasing; lra). nra.
Qed.
(** which does not solve the equation *)
Theorem hyperbola_low_wrong n : 0 < n < 636 / 1000 * 2 - 6 / 10 -> ~ kepler_hyp 2 n (kepler_hyperbola (F := R) 2 n).
Proof.
  intros H. rewrite hyperbola_low by (rewrite Rabs_right; lra). unfold kepler_hyp. pose proof (sinh_above n ltac:(lra)). lra.
Qed.

(** the other branch solves the equation exactly when its iteration stops
    moving, and keeps a solution *)
Definition fget_correction (e capn x : R) : R :=
  let f := e * sinh x - x - capn in
  let d1 := - f / (e * cosh x - 1) in
  let d2 := - f / (e * cosh x - 1 + d1 * (e * sinh x) / 2) in
  - f / (e * cosh x - 1 + d2 * (e * sinh x) / 2 + d2 * d2 * (e * cosh x) / 6).
Lemma fget_step n e capn x : fget_loop (F := R) (S n) e capn x =
  if Rleb (Rabs (fget_correction e capn x)) (4 / 1000000000000000) then x + fget_correction e capn x
  else fget_loop (F := R) n e capn (x + fget_correction e capn x).
Proof.
  cbn [fget_loop]. num_simpl. change (@tsinh R _) with sinh. change (@tcosh R _) with cosh.
  unfold fget_correction. cbv zeta. replace (2 / 1) with 2 by field. replace (6 / 1) with 6 by field. reflexivity.
Qed.
Theorem fget_keeps n e capn x : kepler_hyp e capn x -> fget_loop (F := R) n e capn x = x.
Proof.
  intros K. destruct n; [reflexivity|]. rewrite fget_step.
  assert (D : fget_correction e capn x = 0).
  { unfold fget_correction, kepler_hyp in *. replace (e * sinh x - x - capn) with 0 by lra. unfold Rdiv at 1. ring. }
  rewrite D, Rabs_R0, Rplus_0_r. rewrite (proj2 (Rleb_true _ _)); [reflexivity|lra].
Qed.

(** ** The whole solver on a negative mean anomaly *)
Definition bad_l : R := - (48162561270691 / 24135366400000).
Definition bad_mean : R := - bad_l - 2 * PI.
Lemma bad_reduced : reduce_anomaly (F := R) bad_mean = (bad_l, - (1)).
Proof.
  pose proof pi_bounds as P. unfold reduce_anomaly. num_simpl. rewrite two_pi. change (@tpi R _) with PI.
  destruct (modulus_spec bad_mean (2 * PI) ltac:(lra)) as (B & k & K).
  assert (Hk : k = (-1)%Z).
  { unfold bad_mean, bad_l in K. set (m := modulus _ _) in *.
    assert (IZR (k + 1) < 1) by (rewrite plus_IZR; apply (Rmult_lt_reg_r (2 * PI)); lra).
    assert (-1 < IZR (k + 1)) by (rewrite plus_IZR; apply (Rmult_lt_reg_r (2 * PI)); lra).
    apply lt_IZR in H. apply lt_IZR in H0. lia. }
  subst k. set (m := modulus _ _) in *. assert (M : m = - bad_l) by (unfold bad_mean in K; lra).
  assert (bad_mean < 0) by (unfold bad_mean, bad_l; lra).
  destruct (Rleb_spec 0 bad_mean); [lra|]. destruct (Rltb_spec PI (m + 2 * PI)); [|unfold bad_l in M; lra].
  f_equal. rewrite M. ring.
Qed.
Lemma bad_start : kepler_start (F := R) (1 / 2) bad_l = -28.
Proof.
  pose proof pi_bounds as P. unfold kepler_start. num_simpl. change (@tpi R _) with PI.
  rewrite (proj2 (Rltb_true (1 / 2) (55 / 100))) by lra. rewrite orb_true_r.
  rewrite (proj2 (Rltb_true bad_l _)) by (unfold bad_l; lra).
  rewrite (proj2 (Rltb_false (5 / 10 * PI) _)) by lra. unfold bad_l. field. 
Qed.
Lemma bad_defects : sin_cos_defects (F := R) (-28) = (1816708476334663072 / 221524875, 2235322362715112552 / 181247625).
Proof.
  pose proof pi_bounds as P. unfold sin_cos_defects. num_simpl. change (@tpi R _) with PI.
  rewrite (proj2 (Rltb_false (5 / 10 * PI) (-28))) by lra.
  rewrite (proj2 (Rltb_false (5 / 10 * (5 / 10 * PI)) (-28))) by lra.
  cbn [nested]. num_simpl. f_equal; field.
Qed.
Lemma bad_answer : exists E, kepler_ellipse (F := R) (1 / 2) bad_mean = E /\ 285 / 10 < E < 287 / 10.
Proof.
  unfold kepler_ellipse. rewrite bad_reduced, bad_start, bad_defects. eexists. split; [reflexivity|].
  unfold kepler_refine, bad_l. num_simpl. cbv zeta.
  match goal with |- _ < - (1) * ?t < _ =>
    replace t with (- (10843218789632061102120751830576607564776799672631987086759690413678217006266495536 / 379221827767419137097919695994900662995272602624684052310292928042606715896720961)) end.
  - lra.
  - field.
Qed.
Theorem kepler_negative k : 4 / 10 < Rabs (kepler_ellipse (F := R) (1 / 2) bad_mean
  - 1 / 2 * sin (kepler_ellipse (F := R) (1 / 2) bad_mean) - (bad_mean + IZR k * (2 * PI))).
Proof.
  destruct bad_answer as (E & -> & B). pose proof (SIN_bound E) as S. pose proof pi_bounds as P.
  unfold bad_mean, bad_l.
  destruct (Z_le_gt_dec k 5) as [H|H].
  - apply IZR_le in H. rewrite Rabs_right; nra.
  - assert (H' : (6 <= k)%Z) by lia. apply IZR_le in H'. rewrite Rabs_left; nra.
Qed.
