(** * A pass over the nodes *)
From Coq Require Import Reals Lra Psatz List Bool ZArith Arith Lia.
From Verif Require Import Base.Num Base.Result Base.Trans Base.Vec Model.Particle Model.Universe Model.WHFast Model.IAS15
  Spec.IAS15Spec Proofs.NumLemmas Proofs.IAS15Poly Proofs.IAS15Fit.
Import ListNotations.
Open Scope R_scope.

Local Notation co := (coeffs (F := R)).
Lemma accel_add a0 (b e : co) h : accel a0 (co_add b e) h = accel a0 b h + accel 0 e h.
Proof. unfold accel, co_add, co_map2. cbn [q0 q1 q2 q3 q4 q5 q6]. ring. Qed.
Lemma accel_small (e : co) h : 0 <= h <= 1 -> Rabs (accel 0 e h) <= magnitude e.
Proof.
  intro Hh. assert (T : forall x k, Rabs (x * h ^ k) <= Rabs x).
  { intros x k. rewrite Rabs_mult. rewrite <- (Rmult_1_r (Rabs x)) at 2. apply Rmult_le_compat_l; [apply Rabs_pos|].
    rewrite Rabs_pos_eq by (apply pow_le; lra). rewrite <- (pow1 k). apply pow_incr. lra. }
  unfold accel, magnitude. rewrite Rplus_0_l. replace (q0 e * h) with (q0 e * h ^ 1) by ring.
  repeat (eapply Rle_trans; [apply Rabs_triang|]; apply Rplus_le_compat; [|apply T]). apply T.
Qed.
Lemma node_range n : (1 <= n <= 7)%nat -> 0 <= (node n : R) <= 1.
Proof.
  intro Hn. destruct n as [|n]; [lia|]. do 7 (destruct n as [|n]; [cbn [node]; nums; lra|]). lia.
Qed.
Lemma consistent_value b l n a0 a : (1 <= n <= 7)%nat -> consistent b l -> nested n a0 (l_g l) = a ->
  Rabs (accel a0 (l_b l) (node n) - a) <= tiny * (magnitude (l_g l) + magnitude b).
Proof.
  intros Hn (_ & ->) <-. rewrite accel_add.
  replace (accel a0 (b_of_g (l_g l)) (node n) + accel 0 (defect b) (node n) - nested n a0 (l_g l))
    with (accel a0 (b_of_g (l_g l)) (node n) - nested n a0 (l_g l) + accel 0 (defect b) (node n)) by ring.
  eapply Rle_trans; [apply Rabs_triang|]. rewrite Rmult_plus_distr_l. apply Rplus_le_compat; [now apply node_value|].
  eapply Rle_trans; [apply accel_small; now apply node_range|apply defect_small].
Qed.

(** one pass over the nodes from [n] to [7], with the accelerations [ats] *)
Definition line_pass (a0 : R) (ns : list nat) (ats : nat -> R) (l : line (F := R)) : line (F := R) :=
  fold_left (fun l n => line_update n a0 (ats n) l) ns l.
Lemma pass_consistent b a0 ats ns : forall l, Forall (fun n => (1 <= n <= 7)%nat) ns -> consistent b l -> consistent b (line_pass a0 ns ats l).
Proof.
  unfold line_pass. induction ns as [|n ns IH]; intros l Hn C; [exact C|]. inversion_clear Hn. cbn [fold_left]. apply IH; [assumption|]. now apply update_consistent.
Qed.
Lemma pass_keeps a0 ats k : forall n l m, (1 <= m < n)%nat -> (n + k <= 8)%nat ->
  nested m a0 (l_g (line_pass a0 (seq n k) ats l)) = nested m a0 (l_g l).
Proof.
  unfold line_pass. induction k as [|k IH]; intros n l m Hm Hk; [reflexivity|]. cbn [seq fold_left]. rewrite IH by lia.
  apply update_keeps; lia.
Qed.
Lemma pass_values a0 ats k : forall n l m, (1 <= n)%nat -> (n + k <= 8)%nat -> (n <= m < n + k)%nat ->
  nested m a0 (l_g (line_pass a0 (seq n k) ats l)) = ats m.
Proof.
  unfold line_pass. induction k as [|k IH]; intros n l m Hn Hk Hm; [lia|]. cbn [seq fold_left].
  destruct (Nat.eq_dec n m) as [->|D].
  - change (fold_left (fun l n => line_update n a0 (ats n) l) (seq (S m) k) ?x) with (line_pass a0 (seq (S m) k) ats x).
    rewrite pass_keeps by lia. apply update_value. lia.
  - apply IH; lia.
Qed.
Lemma seq_range : Forall (fun n => (1 <= n <= 7)%nat) (seq 1 7).
Proof. repeat constructor. Qed.
Theorem interpolation b a0 ats l : consistent b l ->
  let l' := line_pass a0 (seq 1 7) ats l in
  consistent b l' /\
  forall n, (1 <= n <= 7)%nat -> Rabs (accel a0 (l_b l') (node n) - ats n) <= tiny * (magnitude (l_g l') + magnitude b).
Proof.
  intros C l'. assert (C' : consistent b l') by (apply pass_consistent; [apply seq_range|exact C]).
  split; [exact C'|]. intros n Hn. apply consistent_value; [exact Hn|exact C'|]. apply pass_values; lia.
Qed.
