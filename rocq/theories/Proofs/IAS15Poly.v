(** * The fitted polynomial: integrals, re-expansion, seventh root, compensated sums *)
From Coq Require Import Reals Lra Psatz List Bool ZArith Arith Lia.
From Coquelicot Require Import Coquelicot.
From Verif Require Import Base.Num Base.Result Base.Trans Base.Vec Model.Particle Model.Universe Model.WHFast Model.IAS15
  Spec.IAS15Spec Proofs.NumLemmas.
Import ListNotations.
Open Scope R_scope.

(** ** Integrals *)
Definition Vp (dt v0 a0 : R) (b : coeffs (F := R)) (h : R) : R :=
  v0 + dt * (a0 * h + q0 b * h ^ 2 / 2 + q1 b * h ^ 3 / 3 + q2 b * h ^ 4 / 4 + q3 b * h ^ 5 / 5 + q4 b * h ^ 6 / 6
             + q5 b * h ^ 7 / 7 + q6 b * h ^ 8 / 8).
Definition Xp (dt x0 v0 a0 : R) (b : coeffs (F := R)) (h : R) : R :=
  x0 + dt * v0 * h + dt * dt * (a0 * h ^ 2 / 2 + q0 b * h ^ 3 / 6 + q1 b * h ^ 4 / 12 + q2 b * h ^ 5 / 20 + q3 b * h ^ 6 / 30
             + q4 b * h ^ 7 / 42 + q5 b * h ^ 8 / 56 + q6 b * h ^ 9 / 72).
Lemma motion_exists dt x0 v0 a0 b : motion dt x0 v0 (accel a0 b) (Xp dt x0 v0 a0 b) (Vp dt v0 a0 b).
Proof.
  split.
  - unfold Xp. field.
  - unfold Vp. field.
  - intro h. apply is_derive_Reals. unfold Xp, Vp. auto_derive; [exact I|]. field.
  - intro h. apply is_derive_Reals. unfold Vp, accel. auto_derive; [exact I|]. field.
Qed.
Lemma constant (f : R -> R) : (forall h, derivable_pt_lim f h 0) -> forall h, f h = f 0.
Proof.
  intros D h. destruct (Rtotal_order h 0) as [L | [-> | L]]; [|reflexivity|].
  - apply (eq_is_derive f h 0); [|lra]. intros t _. apply is_derive_Reals. apply D.
  - symmetry. apply (eq_is_derive f 0 h); [|lra]. intros t _. apply is_derive_Reals. apply D.
Qed.
Lemma motion_unique dt x0 v0 a X V X' V' : motion dt x0 v0 a X V -> motion dt x0 v0 a X' V' -> forall h, X h = X' h /\ V h = V' h.
Proof.
  intros [A1 A2 A3 A4] [B1 B2 B3 B4].
  assert (EV : forall h, V h = V' h).
  { intro h. assert (E : (V - V')%F h = (V - V')%F 0).
    { apply constant. intro t. replace 0 with (dt * a t - dt * a t) by ring. now apply derivable_pt_lim_minus. }
    unfold minus_fct in E. lra. }
  intro h. split; [|apply EV].
  assert (E : (X - X')%F h = (X - X')%F 0).
  { apply constant. intro t. replace 0 with (dt * V t - dt * V' t) by (rewrite EV; ring). now apply derivable_pt_lim_minus. }
  unfold minus_fct in E. lra.
Qed.
Ltac nums := cbv [nadd nsub nmul ndiv nopp nabs n0 n1 nlit NumR].
Lemma predict_x_eq h dt c x0 v0 a0 (b : coeffs (F := R)) : predict_x h dt c x0 v0 a0 b = Xp dt x0 v0 a0 b h - c.
Proof. unfold predict_x, Xp. nums. field. Qed.
Lemma predict_v_eq h dt c v0 a0 (b : coeffs (F := R)) : predict_v h dt c v0 a0 b = Vp dt v0 a0 b h - c.
Proof. unfold predict_v, Vp. nums. field. Qed.

(** ** Compensated sums *)
Lemma add_cs_eq (p c i : R) : add_cs p c i = (p + i - c, 0).
Proof. unfold add_cs. nums. f_equal; [|]; ring. Qed.
Lemma add_all_eq (l : list R) : forall p c : R, fst (add_all (p, c) l) - snd (add_all (p, c) l) = p - c + Spec.EffectsSpec.Rsum l /\
  (l <> [] \/ c = 0 -> snd (add_all (p, c) l) = 0).
Proof.
  unfold add_all. induction l as [|i l IH]; intros p c; unfold Spec.EffectsSpec.Rsum in *; cbn [fold_left fold_right].
  - cbn [fst snd]. split; [ring|]. intros [X|X]; [congruence|exact X].
  - cbn [fst snd]. rewrite add_cs_eq. destruct (IH (p + i - c) 0) as (E & Z). split; [rewrite E; ring|].
    intros _. apply Z. now right.
Qed.
Lemma final_x_eq dt c x0 v0 a0 (b : coeffs (F := R)) : final_x dt c x0 v0 a0 b = (Xp dt x0 v0 a0 b 1 - c, 0).
Proof.
  unfold final_x, add_all. cbn [fold_left fst snd]. rewrite !add_cs_eq. cbn [fst snd]. f_equal.
  unfold Xp. nums. field.
Qed.
Lemma final_v_eq dt c v0 a0 (b : coeffs (F := R)) : final_v dt c v0 a0 b = (Vp dt v0 a0 b 1 - c, 0).
Proof.
  unfold final_v, add_all. cbn [fold_left fst snd]. rewrite !add_cs_eq. cbn [fst snd]. f_equal.
  unfold Vp. nums. field.
Qed.
Lemma integrals dt x0 v0 a0 (b : coeffs (F := R)) X V : motion dt x0 v0 (accel a0 b) X V ->
  (forall h, predict_x h dt 0 x0 v0 a0 b = X h /\ predict_v h dt 0 v0 a0 b = V h) /\
  final_x dt 0 x0 v0 a0 b = (X 1, 0) /\ final_v dt 0 v0 a0 b = (V 1, 0).
Proof.
  intro M. pose proof (motion_unique _ _ _ _ _ _ _ _ M (motion_exists dt x0 v0 a0 b)) as U. split; [|split].
  - intro h. rewrite predict_x_eq, predict_v_eq. destruct (U h) as (-> & ->). split; ring.
  - rewrite final_x_eq. destruct (U 1) as (-> & _). f_equal. ring.
  - rewrite final_v_eq. destruct (U 1) as (_ & ->). f_equal. ring.
Qed.

(** ** Re-expansion *)
Lemma expand_eq q a0 (b : coeffs (F := R)) h : accel (accel a0 b 1) (expand q b) h = accel a0 b (1 + q * h).
Proof. unfold expand, accel. cbn [q0 q1 q2 q3 q4 q5 q6]. nums. field. Qed.
Lemma prediction q (m : memory (F := R)) : let m' := predict_memory q m in
  m_br m' = m_br m /\ m_er m' = m_er m /\
  (20 < q -> m_b m' = co_zero /\ m_e m' = co_zero) /\
  (q <= 20 -> (forall a0 h, accel (accel a0 (m_br m) 1) (m_e m') h = accel a0 (m_br m) (1 + q * h)) /\
              (forall a h, accel a (m_b m') h = accel a (m_e m') h + (accel 0 (m_br m) h - accel 0 (m_er m) h))).
Proof.
  unfold predict_memory.
  assert (E20 : (nlit 20 1 : R) = 20) by (cbv [nlit NumR]; lra). rewrite E20.
  change (nltb 20 q) with (Rltb 20 q). unfold Rltb.
  destruct (Rlt_dec 20 q) as [L|L]; cbn [m_b m_br m_e m_er].
  - split; [reflexivity|]. split; [reflexivity|]. split; [auto|]. intro; lra.
  - split; [reflexivity|]. split; [reflexivity|]. split; [intro; lra|]. intros _. split.
    + intros. apply expand_eq.
    + intros a h. set (e := expand q (m_br m)). clearbody e. unfold accel, co_map2. cbn [q0 q1 q2 q3 q4 q5 q6]. nums. ring.
Qed.

(** ** The seventh root *)
Lemma next_eq a x : x <> 0 -> sqrt7_next a x = (6 * x + a / x ^ 6) / 7.
Proof. intro. unfold sqrt7_next. nums. field. auto. Qed.
Lemma next_above r x : 0 < r -> 0 < x -> r <= sqrt7_next (r ^ 7) x.
Proof.
  intros Hr Hx. rewrite next_eq by lra.
  assert (P : 0 < x ^ 6) by (apply pow_lt; lra).
  apply Rmult_le_reg_r with (7 * x ^ 6); [lra|].
  replace ((6 * x + r ^ 7 / x ^ 6) / 7 * (7 * x ^ 6)) with (6 * x ^ 7 + r ^ 7) by (field; lra).
  assert (E : 6 * x ^ 7 + r ^ 7 - r * (7 * x ^ 6)
    = (x - r) ^ 2 * (6 * x ^ 5 + 5 * x ^ 4 * r + 4 * x ^ 3 * r ^ 2 + 3 * x ^ 2 * r ^ 3 + 2 * x * r ^ 4 + r ^ 5)) by ring.
  assert (0 <= (x - r) ^ 2) by apply pow2_ge_0.
  assert (0 <= 6 * x ^ 5 + 5 * x ^ 4 * r + 4 * x ^ 3 * r ^ 2 + 3 * x ^ 2 * r ^ 3 + 2 * x * r ^ 4 + r ^ 5).
  { assert (0 < x ^ 2) by (apply pow_lt; lra). assert (0 < x ^ 3) by (apply pow_lt; lra). assert (0 < x ^ 4) by (apply pow_lt; lra).
    assert (0 < x ^ 5) by (apply pow_lt; lra). assert (0 < r ^ 2) by (apply pow_lt; lra). assert (0 < r ^ 3) by (apply pow_lt; lra).
    assert (0 < r ^ 4) by (apply pow_lt; lra). assert (0 < r ^ 5) by (apply pow_lt; lra).
    repeat apply Rplus_le_le_0_compat; repeat apply Rmult_le_pos; lra. }
  assert (0 <= 6 * x ^ 7 + r ^ 7 - r * (7 * x ^ 6)) by (rewrite E; now apply Rmult_le_pos). lra.
Qed.
Lemma next_down r x : 0 < r -> r <= x -> sqrt7_next (r ^ 7) x - r <= 6 / 7 * (x - r).
Proof.
  intros Hr Hx. rewrite next_eq by lra. assert (P : 0 < x ^ 6) by (apply pow_lt; lra).
  assert (Q : r ^ 7 / x ^ 6 <= r).
  { apply Rmult_le_reg_r with (x ^ 6); [lra|]. unfold Rdiv. rewrite Rmult_assoc, Rinv_l, Rmult_1_r by lra.
    replace (r ^ 7) with (r * r ^ 6) by ring. apply Rmult_le_compat_l; [lra|]. apply pow_incr. lra. }
  lra.
Qed.
Lemma repeat_S {A} (f : A -> A) n : forall x, repeat_n (S n) f x = f (repeat_n n f x).
Proof. induction n as [|n IH]; intro x; [reflexivity|]. cbn [repeat_n] in *. now rewrite <- IH. Qed.
Definition newton7 (a : R) (n : nat) : R := repeat_n n (sqrt7_next a) 1.
Lemma newton7_pos r n : 0 < r -> 0 < newton7 (r ^ 7) n /\ (n <> O -> r <= newton7 (r ^ 7) n).
Proof.
  intro Hr. unfold newton7. induction n as [|n (IP & _)].
  - cbn [repeat_n]. split; [lra|congruence].
  - rewrite repeat_S. pose proof (next_above r _ Hr IP). split; intros; lra.
Qed.
Lemma newton7_bound r n : 0 < r -> newton7 (r ^ 7) (S n) - r <= (6 / 7) ^ n * (newton7 (r ^ 7) 1 - r).
Proof.
  intro Hr. induction n as [|n IH]; [cbn [pow]; lra|].
  unfold newton7 in *. rewrite repeat_S.
  destruct (newton7_pos r (S n) Hr) as (_ & Q). specialize (Q ltac:(discriminate)). unfold newton7 in Q.
  pose proof (next_down r _ Hr Q) as D. eapply Rle_trans; [exact D|].
  cbn [pow]. rewrite Rmult_assoc. apply Rmult_le_compat_l; [lra|]. exact IH.
Qed.
Lemma newton7_limit r : 0 < r -> Un_cv (newton7 (r ^ 7)) r.
Proof.
  intro Hr. set (c := newton7 (r ^ 7) 1 - r).
  assert (Hc : 0 <= c) by (unfold c; destruct (newton7_pos r 1 Hr) as (_ & Q); specialize (Q ltac:(discriminate)); lra).
  intros eps He.
  destruct (pow_lt_1_zero (6 / 7)) with (y := eps / (c + 1)) as (N & HN).
  { rewrite Rabs_pos_eq; lra. }
  { apply Rdiv_lt_0_compat; lra. }
  exists (S N). intros n Hn. destruct n as [|n]; [lia|]. specialize (HN n ltac:(lia)).
  unfold R_dist. destruct (newton7_pos r (S n) Hr) as (_ & Q). specialize (Q ltac:(discriminate)).
  rewrite Rabs_pos_eq by lra. pose proof (newton7_bound r n Hr) as B. fold c in B.
  assert (P0 : 0 <= (6 / 7) ^ n) by (apply pow_le; lra). rewrite Rabs_pos_eq in HN by exact P0.
  eapply Rle_lt_trans; [exact B|].
  assert ((6 / 7) ^ n * c <= (6 / 7) ^ n * (c + 1)) by (apply Rmult_le_compat_l; lra).
  apply (Rmult_lt_compat_r (c + 1)) in HN; [|lra]. unfold Rdiv in HN. rewrite (Rmult_assoc eps), Rinv_l, Rmult_1_r in HN by lra. lra.
Qed.
Definition root7 (a : R) : R := Rpower a (1 / 7).
Lemma root7_pow a : 0 < a -> 0 < root7 a /\ root7 a ^ 7 = a.
Proof.
  intro Ha. unfold root7. split; [apply exp_pos|].
  rewrite <- Rpower_pow by apply exp_pos. rewrite Rpower_mult. replace (1 / 7 * INR 7) with 1; [now apply Rpower_1|].
  cbn [INR]. field.
Qed.
Lemma sqrt7_newton (a : R) : sqrt7 a = newton7 a 20.
Proof. unfold sqrt7, newton7. generalize 20%nat. intro n. change (@n1 R NumR) with 1. reflexivity. Qed.
Lemma sqrt7_far (a : R) : 0 < a -> (6 / 7) ^ 20 <= sqrt7 a.
Proof.
  intro Ha. rewrite sqrt7_newton. unfold newton7.
  assert (G : forall n, (6 / 7) ^ n <= repeat_n n (sqrt7_next a) 1).
  { induction n as [|n IH]; [cbn; lra|]. rewrite repeat_S.
    assert (P : 0 < (6 / 7) ^ n) by (apply pow_lt; lra).
    change ((6 / 7) ^ S n) with (6 / 7 * (6 / 7) ^ n).
    revert IH P. generalize (repeat_n n (sqrt7_next a) 1) ((6 / 7) ^ n). intros x y IH P.
    rewrite next_eq by lra.
    assert (0 < x ^ 6) by (apply pow_lt; lra).
    assert (0 < a / x ^ 6) by (apply Rdiv_lt_0_compat; lra). lra. }
  apply G.
Qed.
