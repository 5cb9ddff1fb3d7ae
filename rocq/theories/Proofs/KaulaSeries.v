(** What the truncated eccentricity series of the Kaula model leave out *)
From Coq Require Import Reals List Lra Lia Bool Arith ZArith.
From Verif Require Import Base.Num Base.Trans Base.Vec Model.Kaula Spec.KaulaTorqueSpec Proofs.NumLemmas.
Import ListNotations.
Open Scope R_scope.

Lemma order_cases (e : R) :
  (e <= 1/10 /\ series_order (F := R) e = 2%nat) \/ (1/10 < e <= 15/100 /\ series_order (F := R) e = 3%nat)
  \/ (15/100 < e <= 1/5 /\ series_order (F := R) e = 4%nat) \/ (1/5 < e <= 1/4 /\ series_order (F := R) e = 5%nat)
  \/ (1/4 < e <= 3/10 /\ series_order (F := R) e = 6%nat) \/ (3/10 < e /\ series_order (F := R) e = 7%nat).
Proof.
  unfold series_order. num_simpl.
  destruct (Rltb_spec (3/10) e); [right; right; right; right; right; split; [lra|reflexivity]|].
  destruct (Rltb_spec (1/4) e); [right; right; right; right; left; split; [lra|reflexivity]|].
  destruct (Rltb_spec (1/5) e); [right; right; right; left; split; [lra|reflexivity]|].
  destruct (Rltb_spec (15/100) e); [right; right; left; split; [lra|reflexivity]|].
  destruct (Rltb_spec (1/10) e); [right; left; split; [lra|reflexivity]|].
  left. split; [lra|]. rewrite (proj2 (Rleb_true _ _)) by lra. reflexivity.
Qed.

(** the window holds the middle of the row *)
Lemma window_nth (o : nat) (l : list R) (i : nat) : (o <= 7)%nat -> length l = 15%nat ->
  length (window o l) = (2 * o + 1)%nat /\ ((i < 2 * o + 1)%nat -> nth i (window o l) 0 = nth (7 - o + i) l 0).
Proof.
  intros Ho Hl.
  do 15 (destruct l as [|? l]; [discriminate|]). destruct l; [|discriminate].
  do 8 (destruct o as [|o]; [split; [reflexivity|intros Hi; do 15 (destruct i as [|i]; [first [reflexivity | exfalso; lia]|]); exfalso; lia]|]). lia.
Qed.

Lemma powers (e b : R) : 0 <= e <= b -> 0 <= e * e <= b * b /\ 0 <= e * e * e <= b * b * b
  /\ 0 <= e * e * e * e <= b * b * b * b /\ 0 <= e * e * e * e * e <= b * b * b * b * b
  /\ 0 <= e * e * e * e * e * e <= b * b * b * b * b * b
  /\ 0 <= e * e * e * e * e * e * e <= b * b * b * b * b * b * b.
Proof.
  intros H.
  assert (S : forall x y, 0 <= x <= y -> 0 <= x * e <= y * b).
  { intros x y Hx. split; [apply Rmult_le_pos; lra|]. apply Rmult_le_compat; lra. }
  assert (A2 := S e b H). assert (A3 := S _ _ A2). assert (A4 := S _ _ A3). assert (A5 := S _ _ A4). assert (A6 := S _ _ A5).
  assert (A7 := S _ _ A6). repeat split; (lra || assumption || idtac); tauto.
Qed.

Ltac entry := first [rewrite Rabs_R0; lra | apply Rabs_le; split; lra].
Lemma small_2 e b o p : 0 <= e <= b -> (p < 3)%nat ->
  (b = 1/10 /\ o = 2%nat) \/ (b = 15/100 /\ o = 3%nat) \/ (b = 1/5 /\ o = 4%nat) \/ (b = 1/4 /\ o = 5%nat) \/ (b = 3/10 /\ o = 6%nat) ->
  small_entries (1/25) o (nth p (eccentricity_g_2pq (F := R) e) []).
Proof.
  intros He Hp Ho q Hq Hout.
  pose proof (powers e b He) as (E2 & E3 & E4 & E5 & E6 & E7).
  destruct p as [|[|[|p]]]; [..|lia]; cbn [eccentricity_g_2pq nth]; num_simpl;
  generalize dependent (e * e * e * e * e * e * e); intros e7 E7;
  generalize dependent (e * e * e * e * e * e); intros e6 E6;
  generalize dependent (e * e * e * e * e); intros e5 E5;
  generalize dependent (e * e * e * e); intros e4 E4;
  generalize dependent (e * e * e); intros e3 E3;
  generalize (tpow (1 - e * e) (- (3 / 1) / (2 / 1)));
  generalize dependent (e * e); intros e2 E2 tp;
  destruct Ho as [[-> ->]|[[-> ->]|[[-> ->]|[[-> ->]|[-> ->]]]]];
  (do 15 (destruct q as [|q]; [try (exfalso; lia); cbn [nth]; entry|])); lia.
Qed.
Lemma small_3 e b o p : 0 <= e <= b -> (p < 4)%nat ->
  (b = 1/10 /\ o = 2%nat) \/ (b = 15/100 /\ o = 3%nat) \/ (b = 1/5 /\ o = 4%nat) \/ (b = 1/4 /\ o = 5%nat) \/ (b = 3/10 /\ o = 6%nat) ->
  small_entries (1/6) o (nth p (eccentricity_g_3pq (F := R) e) []).
Proof.
  intros He Hp Ho q Hq Hout.
  pose proof (powers e b He) as (E2 & E3 & E4 & E5 & E6 & E7).
  destruct p as [|[|[|[|p]]]]; [..|lia]; cbn [eccentricity_g_3pq nth npow]; num_simpl;
  generalize dependent (e * e * e * e * e * e * e); intros e7 E7;
  generalize dependent (e * e * e * e * e * e); intros e6 E6;
  generalize dependent (e * e * e * e * e); intros e5 E5;
  generalize dependent (e * e * e * e); intros e4 E4;
  generalize dependent (e * e * e); intros e3 E3;
  generalize (tpow (1 - e * e) (- (5 / 1) / (2 / 1)));
  generalize dependent (e * e); intros e2 E2 tp;
  destruct Ho as [[-> ->]|[[-> ->]|[[-> ->]|[[-> ->]|[-> ->]]]]];
  (do 15 (destruct q as [|q]; [try (exfalso; lia); cbn [nth]; entry|])); lia.
Qed.

Theorem series_remainder (e : R) : 0 <= e ->
  let o := series_order (F := R) e in
  (forall p, (p < 3)%nat -> small_entries (1/25) o (nth p (eccentricity_g_2pq (F := R) e) []))
  /\ (forall p, (p < 4)%nat -> small_entries (1/6) o (nth p (eccentricity_g_3pq (F := R) e) [])).
Proof.
  intros He o. unfold o. clear o.
  destruct (order_cases e) as [[H ->]|[[H ->]|[[H ->]|[[H ->]|[[H ->]|[H ->]]]]]].
  - split; intros p Hp; [apply (small_2 e (1/10))|apply (small_3 e (1/10))]; try assumption; try lra; tauto.
  - split; intros p Hp; [apply (small_2 e (15/100))|apply (small_3 e (15/100))]; try assumption; try lra; tauto.
  - split; intros p Hp; [apply (small_2 e (1/5))|apply (small_3 e (1/5))]; try assumption; try lra; tauto.
  - split; intros p Hp; [apply (small_2 e (1/4))|apply (small_3 e (1/4))]; try assumption; try lra; tauto.
  - split; intros p Hp; [apply (small_2 e (3/10))|apply (small_3 e (3/10))]; try assumption; try lra; tauto.
  - split; intros p Hp q Hq Hout; lia.
Qed.

(** what is kept: the middle of each row, as many entries on either side *)
Theorem series_kept (e : R) : 0 <= e ->
  let o := series_order (F := R) e in
  (2 <= o <= 7)%nat
  /\ (forall p, (p < 3)%nat -> length (window o (nth p (eccentricity_g_2pq (F := R) e) [])) = (2 * o + 1)%nat
      /\ forall i, (i < 2 * o + 1)%nat ->
         nth i (window o (nth p (eccentricity_g_2pq (F := R) e) [])) 0 = nth (7 - o + i) (nth p (eccentricity_g_2pq (F := R) e) []) 0)
  /\ (forall p, (p < 4)%nat -> length (window o (nth p (eccentricity_g_3pq (F := R) e) [])) = (2 * o + 1)%nat
      /\ forall i, (i < 2 * o + 1)%nat ->
         nth i (window o (nth p (eccentricity_g_3pq (F := R) e) [])) 0 = nth (7 - o + i) (nth p (eccentricity_g_3pq (F := R) e) []) 0).
Proof.
  intros He o. assert (O : (2 <= o <= 7)%nat).
  { unfold o. destruct (order_cases e) as [[H ->]|[[H ->]|[[H ->]|[[H ->]|[[H ->]|[H ->]]]]]]; lia. }
  split; [exact O|].
  assert (L2 : forall p, (p < 3)%nat -> length (nth p (eccentricity_g_2pq (F := R) e) []) = 15%nat)
    by (intros p Hp; destruct p as [|[|[|p]]]; [reflexivity..|lia]).
  assert (L3 : forall p, (p < 4)%nat -> length (nth p (eccentricity_g_3pq (F := R) e) []) = 15%nat)
    by (intros p Hp; destruct p as [|[|[|[|p]]]]; [reflexivity..|lia]).
  split; intros p Hp; (split; [apply (window_nth o _ 0); [lia|auto]|intros i Hi; apply window_nth; [lia|auto|exact Hi]]).
Qed.
