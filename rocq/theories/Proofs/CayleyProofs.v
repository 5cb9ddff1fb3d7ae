(** The series of the creep tide (Cayley's expansions) *)
From Coq Require Import Reals Lra Lia List Bool ZArith Arith.
From Verif Require Import Base.Num Base.Result Base.Trans Base.Vec Model.Constants Model.Particle
  Model.Tools Model.Creep Proofs.NumLemmas Proofs.VecLemmas Spec.EffectsSpec.
Import ListNotations.
Open Scope R_scope.

Definition taylor_3 (e : R) : R := 1 + 3 * e + 6 * e^2 + 10 * e^3 + 15 * e^4 + 21 * e^5 + 28 * e^6 + 36 * e^7.
Lemma taylor_close e : 0 <= e <= 1/2 -> Rabs (taylor_3 e - pericentre_3 e) <= 1000 * e ^ 8.
Proof.
  intros He. unfold pericentre_3.
  assert (E : taylor_3 e - / (1 - e) ^ 3 = - (45 - 80 * e + 36 * e^2) * / (1 - e) ^ 3 * e ^ 8)
    by (unfold taylor_3; field; lra).
  rewrite E, Rabs_mult. rewrite (Rabs_pos_eq (e ^ 8)) by (apply pow_le; lra).
  apply Rmult_le_compat_r; [apply pow_le; lra|].
  rewrite Rabs_mult, Rabs_Ropp.
  assert (A : Rabs (45 - 80 * e + 36 * e^2) <= 100) by (apply Rabs_le; nra).
  assert (B : Rabs (/ (1 - e) ^ 3) <= 8).
  { assert (P : (1/2) ^ 3 <= (1 - e) ^ 3) by (apply pow_incr; lra).
    rewrite Rabs_pos_eq.
    - replace 8 with (/ ((1/2) ^ 3)) by field. apply Rinv_le_contravar; lra.
    - apply Rlt_le, Rinv_0_lt_compat. lra. }
  replace 1000 with (100 * 10) by ring. apply Rmult_le_compat; try apply Rabs_pos; lra.
Qed.

Definition polar_sum (e : R) : R := Rsum (fst (cayley_coefficients e)).
Definition equatorial_sum (e : R) : R := Rsum (snd (cayley_coefficients e)).
Lemma equatorial_poly e : equatorial_sum e = taylor_3 e.
Proof.
  unfold equatorial_sum, cayley_coefficients, Rsum, taylor_3. cbn [snd fold_right]. rewrite npow_pow. num_simpl. field.
Qed.
Lemma polar_poly e : polar_sum e = taylor_3 e - 261 / 32 * e ^ 5 - 35 / 8 * e ^ 6.
Proof.
  unfold polar_sum, cayley_coefficients, Rsum, taylor_3. cbn [fst fold_right]. rewrite npow_pow. num_simpl. field.
Qed.
Theorem equatorial_pericentre : agree_to 8 equatorial_sum pericentre_3.
Proof. exists 1000. intros e He. rewrite equatorial_poly. now apply taylor_close. Qed.
Theorem polar_pericentre_fails : agree_to 5 polar_sum pericentre_3 /\ ~ agree_to 6 polar_sum pericentre_3.
Proof.
  split.
  - exists 2000. intros e He. rewrite polar_poly. pose proof (taylor_close e He) as T.
    replace (taylor_3 e - 261 / 32 * e ^ 5 - 35 / 8 * e ^ 6 - pericentre_3 e)
      with ((taylor_3 e - pericentre_3 e) + - (261/32 + 35/8 * e) * e ^ 5) by ring.
    eapply Rle_trans; [apply Rabs_triang|].
    assert (P : 0 <= e ^ 5) by (apply pow_le; lra).
    rewrite Rabs_mult, Rabs_Ropp, (Rabs_pos_eq (e ^ 5)), (Rabs_pos_eq (261/32 + 35/8 * e)) by (auto; lra).
    assert (Q : e ^ 8 <= e ^ 5).
    { replace (e ^ 8) with (e ^ 5 * e ^ 3) by ring. rewrite <- (Rmult_1_r (e ^ 5)) at 2.
      apply Rmult_le_compat_l; auto. replace 1 with (1 ^ 3) by ring. apply pow_incr. lra. }
    nra.
  - intros [C HC]. set (D := Rabs C + 1000).
    assert (HD : 1000 <= D) by (unfold D; pose proof (Rabs_pos C); lra).
    set (e := 1 / D).
    assert (He : 0 < e) by (unfold e; apply Rdiv_lt_0_compat; lra).
    assert (HeD : e * D = 1) by (unfold e; field; lra).
    assert (He2 : e <= 1/1000).
    { apply (Rmult_le_reg_r D); [lra|]. rewrite HeD. lra. }
    specialize (HC e ltac:(lra)). rewrite polar_poly in HC.
    pose proof (taylor_close e ltac:(lra)) as T.
    assert (P5 : 0 < e ^ 5) by (apply pow_lt; auto).
    assert (E6 : e ^ 6 = e ^ 5 * e) by ring.
    assert (E8 : e ^ 8 = e ^ 5 * e ^ 3) by ring.
    assert (E3 : e ^ 3 <= e).
    { replace (e ^ 3) with (e * (e * e)) by ring. rewrite <- (Rmult_1_r e) at 4.
      apply Rmult_le_compat_l; [lra|]. nra. }
    assert (T1 : - (1000 * e ^ 8) <= taylor_3 e - pericentre_3 e <= 1000 * e ^ 8) by (revert T; unfold Rabs; destruct (Rcase_abs _); lra).
    assert (L : - (taylor_3 e - 261 / 32 * e ^ 5 - 35 / 8 * e ^ 6 - pericentre_3 e) <= C * e ^ 6).
    { eapply Rle_trans; [|exact HC]. rewrite <- Rabs_Ropp. apply Rle_abs. }
    assert (C * e ^ 6 <= e ^ 5).
    { rewrite E6. replace (C * (e ^ 5 * e)) with (e ^ 5 * (C * e)) by ring.
      rewrite <- (Rmult_1_r (e ^ 5)) at 2. apply Rmult_le_compat_l; [lra|].
      assert (C <= D) by (unfold D; pose proof (Rle_abs C); lra). nra. }
    assert (e ^ 8 <= e ^ 5 * (1/1000)) by (rewrite E8; apply Rmult_le_compat_l; lra).
    assert (0 <= e ^ 6) by (apply pow_le; lra). lra.
Qed.

