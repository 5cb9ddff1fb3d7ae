(** The Anderson correction is the first order one for a body without mass, up to the second order *)
From Coq Require Import Reals Lra Psatz List Bool ZArith Lia.
From Verif Require Import Base.Num Base.Vec Base.Trans Model.Constants Model.Particle Model.Relativity
  Proofs.NumLemmas Proofs.VecLemmas Proofs.RelativityProofs Proofs.RelativityExamples Spec.EffectsSpec.
Import ListNotations.
Open Scope R_scope.

(** how far from Newton: kinetic energy and potential in units of the square of the speed of light *)
Definition smallness (gm : R) (r v : vec R) : R := (norm2 v / 2 + 3 * gm / sqrt (norm2 r)) / SPEED_OF_LIGHT_2.

Section Anderson.
  Variables (mu : R) (r v : vec R).
  Let d := sqrt (norm2 r).
  Let w := norm2 v.
  Let c2 : R := SPEED_OF_LIGHT_2.
  Let eps := smallness mu r v.
  Hypotheses (Hm : 0 <= mu) (Hd : 0 < d) (He : eps <= 1 / 20).
  Lemma c2_pos : 0 < c2. Proof. pose proof c2_bounds. unfold c2. lra. Qed.
  Definition slowed (k : R) : R := (k ^ 2 * w / 2 + 3 * mu / d) / c2.
  Lemma parts : 0 <= w / c2 <= 2 * eps /\ 0 <= mu / d / c2 <= eps / 3 /\ eps = w / c2 / 2 + 3 * (mu / d / c2).
  Proof.
    pose proof c2_pos as Hc. pose proof (norm2_nonneg v) as Hw. fold w in Hw.
    assert (A : 0 <= w / c2) by (apply Rmult_le_pos; [assumption|left; now apply Rinv_0_lt_compat]).
    assert (B : 0 <= mu / d / c2) by (apply Rmult_le_pos; [apply Rmult_le_pos; [assumption|]|]; left; now apply Rinv_0_lt_compat).
    assert (E : eps = w / c2 / 2 + 3 * (mu / d / c2)) by (unfold eps, smallness; fold d w c2; field; lra).
    repeat split; try assumption; lra.
  Qed.
  Lemma slowed_parts k : slowed k = k ^ 2 * (w / c2) / 2 + 3 * (mu / d / c2).
  Proof. pose proof c2_pos. unfold slowed. field. lra. Qed.
  (** every round keeps the estimate a multiple of the velocity *)
  Definition estimate (st : vec R * R * R) : Prop :=
    exists k, 1 <= k /\ k * (1 - 2 * eps) <= 1 /\ fst (fst st) = vscale k v /\ snd (fst st) = k ^ 2 * w /\ snd st = slowed k /\ 0 <= slowed k <= 2 * eps.
  Lemma slowed_small k : 1 <= k -> k * (1 - 2 * eps) <= 1 -> 0 <= slowed k <= 2 * eps.
  Proof.
    intros K1 K2. rewrite slowed_parts. destruct parts as (A & B & E). revert A B E He K1 K2.
    generalize (w / c2) (mu / d / c2) eps. clear. intros a b e A B E He K1 K2.
    assert (K3 : k <= 10 / 9) by nra. assert (K4 : k ^ 2 <= 100 / 81) by nra. assert (0 <= k ^ 2 * a) by nra.
    split; [lra|]. assert (k ^ 2 * a <= 100 / 81 * a) by nra. lra.
  Qed.
  Lemma slowed_inv k : 1 <= k -> k * (1 - 2 * eps) <= 1 -> 1 <= / (1 - slowed k) /\ / (1 - slowed k) * (1 - 2 * eps) <= 1.
  Proof.
    intros K1 K2. destruct (slowed_small k K1 K2) as [A B]. set (q := slowed k) in *. clearbody q.
    assert (D : 0 < 1 - q) by lra. split.
    - rewrite <- Rinv_1 at 1. apply Rinv_le_contravar; lra.
    - apply (Rmult_le_reg_l (1 - q)); [lra|]. rewrite <- Rmult_assoc, Rinv_r by lra. lra.
  Qed.
  Lemma velocity_estimate n : forall vi vi2 fa, estimate (vi, vi2, fa) -> estimate (anderson_velocity n mu d v vi vi2 fa).
  Proof.
    induction n as [|n IH]; intros vi vi2 fa H; cbn [anderson_velocity]; [exact H|].
    cbv zeta. destruct H as (k & K1 & K2 & E1 & E2 & E3 & B). cbn [fst snd] in *. subst fa.
    destruct (slowed_inv k K1 K2) as [L1 L2].
    assert (D : 1 - slowed k <> 0) by lra.
    assert (V : vdivr v (n1 - slowed k)%num = vscale (/ (1 - slowed k)) v).
    { generalize (slowed k) v. clear. intros q [v1 v2 v3]. vunfold. num_simpl. f_equal; unfold Rdiv; ring. }
    rewrite V.
    assert (N : forall j, vdot (vscale j v) (vscale j v) = j ^ 2 * w) by (intros j; unfold w; generalize v; clear; intros [v1 v2 v3]; vunfold; num_simpl; ring).
    rewrite N.
    set (j := / (1 - slowed k)) in *.
    assert (F : ((5//10 * (j ^ 2 * w)%R + #3 * mu / d) / SPEED_OF_LIGHT_2)%num = slowed j).
    { unfold slowed. fold c2. num_simpl. unfold Rdiv. rewrite ?Rinv_1. change (@SPEED_OF_LIGHT_2 R NumR) with c2. field. pose proof c2_pos. lra. }
    rewrite F.
    assert (Q : estimate (vscale j v, j ^ 2 * w, slowed j)).
    { exists j. cbn [fst snd]. repeat split; auto; now apply slowed_small. }
    match goal with |- context [if ?b then _ else _] => destruct b end; [exact Q|]. now apply IH.
  Qed.
  (** the deviation from the first order *)
  Theorem anderson_deviation :
    exists a b, vsub (anderson_correction mu (r, v, vscale (- mu / d ^ 3) r)) (kidder_1pn c2 mu 0 r v)
      = vadd (vscale (a * (mu / d ^ 3)) r) (vscale (b * (mu / d ^ 3) * (vdot r v / c2)) v) /\ Rabs a <= 20 * eps ^ 2 /\ Rabs b <= 20 * eps.
  Proof.
    pose proof c2_pos as Hc. unfold anderson_correction.
    change (nsqrt (norm2 r)) with d. change (norm2 v) with w.
    assert (F : ((5//10 * w + #3 * mu / d) / SPEED_OF_LIGHT_2)%num = slowed 1).
    { unfold slowed. num_simpl. unfold Rdiv. rewrite ?Rinv_1. change (@SPEED_OF_LIGHT_2 R NumR) with c2. field. lra. }
    rewrite F. clear F. destruct parts as (A & B & E).
    assert (Q : estimate (v, w, slowed 1)).
    { assert (E0 : 0 <= eps) by lra. exists 1. cbn [fst snd]. split; [lra|]. split; [lra|]. split; [|split; [ring|split; [reflexivity|apply slowed_small; lra]]].
      generalize v. clear. intros [v1 v2 v3]. vunfold. num_simpl. f_equal; ring. }
    pose proof (velocity_estimate 10 v w (slowed 1) Q) as V.
    destruct (anderson_velocity 10 mu d v v w (slowed 1)) as [[vi vi2] fa]. destruct V as (k & K1 & K2 & E1 & E2 & E3 & S). cbn [fst snd] in *. subst vi vi2 fa.
    rewrite slowed_parts in *.
    set (p := w / c2) in *. set (q := mu / d / c2) in *.
    set (be := q - 3 / 2 * (k ^ 2 * p)). set (al := k ^ 2 * p / 2 + 3 * q) in *.
    exists ((1 - k ^ 2) * p - be * al), (k ^ 2 - k ^ 2 * be + 3 * k - 4). split; [|].
    - unfold each, kidder_1pn. cbv zeta. fold d w c2. change (@SPEED_OF_LIGHT_2 R NumR) with c2. unfold be, al, p, q.
      assert (D2 : vdot r (vscale (- mu / d ^ 3) r) = - mu / d) by (transitivity (- mu / d ^ 3 * norm2 r); [generalize r (- mu / d ^ 3); clear; intros [] ?; vunfold; num_simpl; ring|rewrite <- (norm_sq r); fold d; field; lra]).
      assert (W1 : forall f j, vdot (vscale j v) (vadd (vscale (- mu / d ^ 3) r) (vscale f r)) = j * (f - mu / d ^ 3) * vdot r v)
        by (intros f j; unfold Rdiv; generalize (/ d ^ 3) r v; clear; intros ? [] []; vunfold; num_simpl; ring).
      rewrite W1. num_simpl. set (s := vdot r v). clearbody s.
      revert Hd Hc. generalize r v w d c2. clear. intros [r1 r2 r3] [v1 v2 v3] w d c2 Hd Hc. vunfold. num_simpl. f_equal; field; lra.
    - revert A B E K1 K2 S. unfold be, al. generalize p q eps He. clear. intros p q e He A B E K1 K2 S.
      assert (E0 : 0 <= e) by lra.
      assert (K3 : k - 1 <= 20 / 9 * e) by nra. assert (K4 : k <= 10 / 9) by lra. assert (K5 : 0 <= k ^ 2 - 1 <= 19 / 9 * (20 / 9 * e)) by nra.
      assert (K6 : 1 <= k ^ 2 <= 100 / 81) by nra. set (kk := k ^ 2) in *. clearbody kk.
      assert (P : 0 <= kk * p <= 200 / 81 * e) by nra. set (g := kk * p) in *.
      assert (BE : - (3 / 2 * (200 / 81) * e) <= q - 3 / 2 * g <= e / 3) by lra.
      set (be := q - 3 / 2 * g) in *. set (al := g / 2 + 3 * q) in *. assert (AL : 0 <= al <= 2 * e) by lra.
      assert (R1 : 0 <= (kk - 1) * p <= 19 / 9 * (20 / 9) * 2 * e ^ 2).
      { split; [nra|]. apply Rle_trans with ((19 / 9 * (20 / 9 * e)) * (2 * e)); [apply Rmult_le_compat; lra|lra]. }
      assert (R2 : - (100 / 27 * 2 * e ^ 2) <= be * al <= 1 / 3 * 2 * e ^ 2).
      { split.
        - apply Rle_trans with (- (100 / 27 * e * (2 * e))); [lra|]. assert (- be * al <= 100 / 27 * e * (2 * e)); [|lra].
          apply Rle_trans with (100 / 27 * e * al); [apply Rmult_le_compat_r; lra|apply Rmult_le_compat_l; lra].
        - apply Rle_trans with (1 / 3 * e * al); [apply Rmult_le_compat_r; lra|]. apply Rle_trans with (1 / 3 * e * (2 * e)); [apply Rmult_le_compat_l; lra|lra]. }
      assert (R3 : - (100 / 81 * (1 / 3) * e) <= - (kk * be) <= 100 / 81 * (100 / 27) * e).
      { split; nra. }
      split; apply Rabs_le; split; try nra; try lra.
  Qed.
  Theorem anderson_close :
    norm2 (vsub (anderson_correction mu (r, v, vscale (- mu / d ^ 3) r)) (kidder_1pn c2 mu 0 r v)) <= (64 * eps ^ 2 * (mu / d ^ 2)) ^ 2.
  Proof.
    destruct anderson_deviation as (a & b & -> & Ha & Hb). destruct parts as (A & _ & _). pose proof c2_pos as Hc.
    assert (CS : (vdot r v) ^ 2 <= d ^ 2 * w).
    { unfold w. replace (d ^ 2) with (norm2 r) by (rewrite <- (norm_sq r); fold d; ring). generalize r v. clear. intros [r1 r2 r3] [v1 v2 v3]. vunfold. num_simpl.
      pose proof (pow2_ge_0 (r1 * v2 - r2 * v1)). pose proof (pow2_ge_0 (r1 * v3 - r3 * v1)). pose proof (pow2_ge_0 (r2 * v3 - r3 * v2)). nra. }
    assert (N : forall x y, norm2 (vadd (vscale x r) (vscale y v)) <= 2 * x ^ 2 * d ^ 2 + 2 * y ^ 2 * w).
    { intros x y. unfold w. replace (d ^ 2) with (norm2 r) by (rewrite <- (norm_sq r); fold d; ring). generalize r v. clear. intros [r1 r2 r3] [v1 v2 v3]. vunfold. num_simpl.
      pose proof (pow2_ge_0 (x * r1 - y * v1)). pose proof (pow2_ge_0 (x * r2 - y * v2)). pose proof (pow2_ge_0 (x * r3 - y * v3)). nra. }
    eapply Rle_trans; [apply N|]. clear N.
    assert (E0 : 0 <= eps) by (destruct parts as (? & ? & ?); lra).
    set (m := mu / d ^ 2). assert (Hm0 : 0 <= m) by (apply Rmult_le_pos; [assumption|left; apply Rinv_0_lt_compat; now apply pow_lt]).
    set (z := (vdot r v / d / c2) ^ 2 * w).
    assert (Z : 0 <= z <= (2 * eps) ^ 2).
    { unfold z. pose proof (norm2_nonneg v) as Hw. fold w in Hw. split; [apply Rmult_le_pos; [apply pow2_ge_0|exact Hw]|].
      assert (X : (vdot r v / d / c2) ^ 2 * w <= (w / c2) ^ 2).
      { apply (Rmult_le_reg_r (d ^ 2 * c2 ^ 2)); [apply Rmult_lt_0_compat; now apply pow_lt|].
        replace ((vdot r v / d / c2) ^ 2 * w * (d ^ 2 * c2 ^ 2)) with ((vdot r v) ^ 2 * w) by (field; lra).
        replace ((w / c2) ^ 2 * (d ^ 2 * c2 ^ 2)) with (d ^ 2 * w * w) by (field; lra). nra. }
      eapply Rle_trans; [exact X|]. apply pow_incr. exact A. }
    replace (2 * (a * (mu / d ^ 3)) ^ 2 * d ^ 2 + 2 * (b * (mu / d ^ 3) * (vdot r v / c2)) ^ 2 * w) with (2 * m ^ 2 * (a ^ 2 + b ^ 2 * z))
      by (unfold m, z; field; lra).
    assert (A2 : a ^ 2 <= (20 * eps ^ 2) ^ 2) by (rewrite <- (pow2_abs a); apply pow_incr; split; [apply Rabs_pos|exact Ha]).
    assert (B2 : b ^ 2 <= (20 * eps) ^ 2) by (rewrite <- (pow2_abs b); apply pow_incr; split; [apply Rabs_pos|exact Hb]).
    assert (B3 : b ^ 2 * z <= (20 * eps) ^ 2 * (2 * eps) ^ 2) by (apply Rmult_le_compat; try apply pow2_ge_0; lra).
    replace ((64 * eps ^ 2 * m) ^ 2) with (m ^ 2 * (4096 * eps ^ 4)) by ring.
    replace (2 * m ^ 2 * (a ^ 2 + b ^ 2 * z)) with (m ^ 2 * (2 * (a ^ 2 + b ^ 2 * z))) by ring.
    apply Rmult_le_compat_l; [apply pow2_ge_0|].
    assert (Q : 0 <= eps ^ 4) by (replace (eps ^ 4) with ((eps ^ 2) ^ 2) by ring; apply pow2_ge_0).
    replace ((20 * eps ^ 2) ^ 2) with (400 * eps ^ 4) in A2 by ring. replace ((20 * eps) ^ 2 * (2 * eps) ^ 2) with (1600 * eps ^ 4) in B3 by ring. lra.
  Qed.
End Anderson.
