From Coq Require Import List ZArith NArith Bool Lia.
From Coq Require Import ZifyBool ZifyNat ZifyN.
From Verif Require Import Model.History Spec.HistorySpec.
Import ListNotations.
Open Scope N_scope.

Lemma le_bytes_length n v : length (le_bytes n v) = n.
Proof. revert v; induction n; intros; simpl; auto. Qed.

Lemma le_val_bytes n v : v < 256 ^ N.of_nat n -> le_val (le_bytes n v) = v.
Proof.
  revert v; induction n as [|n IH]; intros v Hv.
  - simpl in *. lia.
  - cbn [le_bytes le_val]. rewrite IH.
    + pose proof (N.div_mod v 256). lia.
    + apply N.div_lt_upper_bound; [lia|].
      replace (N.of_nat (S n)) with (N.succ (N.of_nat n)) in Hv by lia.
      rewrite N.pow_succ_r' in Hv. exact Hv.
Qed.

Lemma take_field_le n v rest :
  v < 256 ^ N.of_nat n -> take_field n (le_bytes n v ++ rest) = Some (v, rest).
Proof.
  intros Hv. unfold take_field.
  rewrite app_length, le_bytes_length.
  destruct (Nat.ltb_spec (n + length rest) n); [lia|].
  rewrite firstn_app, skipn_app, le_bytes_length, Nat.sub_diag, firstn_O, skipn_O, app_nil_r.
  rewrite firstn_all2, skipn_all2 by (rewrite le_bytes_length; lia).
  now rewrite le_val_bytes.
Qed.

Lemma encode_record_length r : length (encode_record r) = n_bytes_per_particle.
Proof. unfold encode_record; rewrite ?app_length, ?le_bytes_length; reflexivity. Qed.

Lemma decode_encode r rest :
  valid_record r -> decode_record (encode_record r ++ rest) = Some (r, rest).
Proof.
  intros [H64 H32].
  repeat match goal with H : Forall _ (_ :: _) |- _ => inversion_clear H end.
  change (2 ^ 64) with (256 ^ N.of_nat 8) in *.
  change (2 ^ 32) with (256 ^ N.of_nat 4) in *.
  unfold encode_record. rewrite <- !app_assoc.
  unfold decode_record.
  repeat (rewrite take_field_le by assumption; cbn [obind]).
  destruct r; reflexivity.
Qed.

Lemma encode_records_app a b : encode_records (a ++ b) = encode_records a ++ encode_records b.
Proof. unfold encode_records; apply flat_map_app. Qed.

Lemma encode_records_length l :
  length (encode_records l) = (n_bytes_per_particle * length l)%nat.
Proof.
  induction l as [|r l IH]; [simpl; lia|].
  change (encode_records (r :: l)) with (encode_record r ++ encode_records l).
  rewrite app_length, encode_record_length, IH. cbn [length]. lia.
Qed.

Lemma take_field_None_short n bs : (length bs < n)%nat -> take_field n bs = None.
Proof. intros; unfold take_field. destruct (Nat.ltb_spec (length bs) n); auto; lia. Qed.

Lemma take_field_Some n bs v rest : take_field n bs = Some (v, rest) ->
  length bs = (n + length rest)%nat.
Proof.
  unfold take_field. destruct (Nat.ltb_spec (length bs) n); [discriminate|].
  intros [= <- <-]. rewrite skipn_length. lia.
Qed.

Lemma decode_record_Some bs r rest : decode_record bs = Some (r, rest) ->
  length bs = (n_bytes_per_particle + length rest)%nat.
Proof.
  unfold decode_record. intros H.
  repeat match type of H with
  | obind (take_field ?n ?b) _ = _ =>
    let E := fresh "E" in destruct (take_field n b) as [[? ?]|] eqn:E; [|discriminate H];
    apply take_field_Some in E; cbn [obind] in H
  end.
  injection H as <- <-.
  change n_bytes_per_particle with 156%nat. lia.
Qed.

Lemma decode_record_short bs : (length bs < n_bytes_per_particle)%nat -> decode_record bs = None.
Proof.
  intros Hl. destruct (decode_record bs) as [[r rest]|] eqn:E; auto.
  apply decode_record_Some in E. lia.
Qed.

Lemma read_rows_encode l tail fuel :
  Forall valid_record l -> (length tail < n_bytes_per_particle)%nat ->
  (length l < fuel)%nat ->
  read_rows fuel (encode_records l ++ tail) = Some l.
Proof.
  intros Hv Ht. revert fuel.
  induction Hv as [|r l Hr Hv IH]; intros fuel Hf.
  - destruct fuel; [simpl in Hf; lia|]. simpl. now rewrite decode_record_short.
  - destruct fuel; [simpl in Hf; lia|].
    change (encode_records (r :: l)) with (encode_record r ++ encode_records l).
    rewrite <- app_assoc. cbn [read_rows]. rewrite decode_encode by assumption.
    rewrite IH by (simpl in Hf; lia). reflexivity.
Qed.

(** cutting the encoding of records leaves whole records and a short tail *)
Lemma cut_encode (l : list hrecord) a :
  cut_of a (encode_records l) ->
  exists k tail, (k < length l)%nat /\ a = encode_records (firstn k l) ++ tail
    /\ (length tail < n_bytes_per_particle)%nat.
Proof.
  intros (rest & He & Hne).
  revert a He. induction l as [|r l IH]; intros a He.
  - simpl in He. destruct a; destruct rest; try discriminate. congruence.
  - change (encode_records (r :: l)) with (encode_record r ++ encode_records l) in He.
    destruct (Nat.lt_ge_cases (length a) n_bytes_per_particle) as [Hs|Hs].
    + exists 0%nat, a. simpl. split; [lia|auto].
    + assert (Ha : a = encode_record r ++ skipn n_bytes_per_particle a).
      { rewrite <- (firstn_skipn n_bytes_per_particle a) at 1. f_equal.
        apply (f_equal (firstn n_bytes_per_particle)) in He.
        rewrite firstn_app, encode_record_length, Nat.sub_diag, firstn_O, app_nil_r in He.
        rewrite firstn_all2 in He by (rewrite encode_record_length; lia).
        rewrite He. rewrite firstn_app.
        replace (n_bytes_per_particle - length a)%nat with 0%nat by lia.
        now rewrite firstn_O, app_nil_r. }
      rewrite Ha in He. rewrite <- app_assoc in He. apply app_inv_head in He.
      destruct (IH _ He) as (k & tail & Hk & Heq & Ht).
      exists (S k), tail. simpl. split; [lia|]. split; [|assumption].
      rewrite Ha, Heq. change (encode_records (r :: firstn k l)) with (encode_record r ++ encode_records (firstn k l)).
      now rewrite app_assoc.
Qed.

(** *** the reader on whole snapshots followed by a cut one *)

Lemma concat_snapshots_valid n snaps :
  Forall (is_snapshot n) snaps -> Forall valid_record (concat snaps).
Proof.
  induction 1 as [|s l [Hs1 Hs2] Hl IH]; simpl; [constructor|].
  apply Forall_app; auto.
Qed.

Lemma is_snapshot_length n s : is_snapshot n s -> length s = n.
Proof.
  intros [E _]. rewrite <- (map_length h_id), E, map_length, seq_length. reflexivity.
Qed.

Lemma snapshot_id n s i d : is_snapshot n s -> (i < n)%nat -> h_id (nth i s d) = N.of_nat i.
Proof.
  intros Hs Hi. pose proof (is_snapshot_length _ _ Hs) as Hl. destruct Hs as [E _].
  assert (E' : nth i (map h_id s) (h_id d) = nth i (map N.of_nat (seq 0 n)) (N.of_nat 0)).
  { rewrite E. apply nth_indep. rewrite map_length, seq_length. lia. }
  rewrite map_nth, map_nth, seq_nth in E' by assumption. exact E'.
Qed.

Lemma in_snapshot_id n s r : is_snapshot n s -> In r s -> (Z.of_N (h_id r) < Z.of_nat n)%Z.
Proof.
  intros [E _] Hin. assert (Hi : In (h_id r) (map h_id s)) by (now apply in_map).
  rewrite E in Hi. apply in_map_iff in Hi as (j & <- & Hj). apply in_seq in Hj. lia.
Qed.

Lemma signed32_small v : v < 2 ^ 31 -> signed32 v = Z.of_N v.
Proof. intros; unfold signed32. destruct (N.ltb_spec v (2^31)); auto; lia. Qed.

Lemma max_id_ub l b : (-2^31 <= b)%Z -> (forall r, In r l -> (signed32 (h_id r) <= b)%Z) -> (max_id l <= b)%Z.
Proof.
  intros Hb. induction l as [|r l IH]; intros Hl; simpl; [assumption|].
  apply Z.max_lub; [apply Hl; now left|apply IH; intros; apply Hl; now right].
Qed.

Lemma max_id_lb l r : In r l -> (signed32 (h_id r) <= max_id l)%Z.
Proof.
  induction l as [|x l IH]; simpl; [easy|]. intros [->|Hin]; [lia|].
  specialize (IH Hin). lia.
Qed.

Lemma last_app_ne {A} (a b : list A) d : b <> [] -> last (a ++ b) d = last b d.
Proof.
  intros Hb. induction a as [|x a IH]; simpl; auto.
  destruct (a ++ b) eqn:E; auto. apply app_eq_nil in E as [_ ->]. congruence.
Qed.

Lemma last_nth {A} (l : list A) d : last l d = nth (length l - 1) l d.
Proof.
  induction l as [|x l IH]; auto. destruct l as [|y l]; auto.
  change (last (x :: y :: l) d) with (last (y :: l) d). rewrite IH.
  cbn [length]. replace (S (S (length l)) - 1)%nat with (S (S (length l) - 1))%nat by lia.
  reflexivity.
Qed.

Lemma py_read_truncated n snaps (next : list hrecord) bytes :
  (0 < n)%nat -> N.of_nat n <= 2 ^ 31 -> snaps <> [] ->
  Forall (is_snapshot n) snaps -> is_snapshot n next ->
  cut_of bytes (encode_records next) ->
  py_read (encode_records (concat snaps) ++ bytes) = ReadOk (Z.of_nat n) (concat snaps).
Proof.
  intros Hn0 Hn31 Hne Hs Hnext Hcut.
  destruct (cut_encode _ _ Hcut) as (k & tail & Hk & -> & Ht).
  pose proof (is_snapshot_length _ _ Hnext) as Hnl.
  set (rows := concat snaps ++ firstn k next).
  assert (Hrows : Forall valid_record rows).
  { apply Forall_app; split; [now apply concat_snapshots_valid in Hs|].
    destruct Hnext as [_ Hv]. rewrite <- (firstn_skipn k next) in Hv.
    now apply Forall_app in Hv as [Hv _]. }
  assert (Hr : read_rows (S (length (encode_records (concat snaps) ++ encode_records (firstn k next) ++ tail)))
                 (encode_records (concat snaps) ++ encode_records (firstn k next) ++ tail) = Some rows).
  { rewrite (app_assoc (encode_records (concat snaps))), <- encode_records_app.
    apply read_rows_encode; [assumption|assumption|].
    rewrite app_length, encode_records_length. fold rows. change n_bytes_per_particle with 156%nat. lia. }
  unfold py_read. rewrite Hr. clear Hr.
  assert (Hbound : forall r, In r rows -> (Z.of_N (h_id r) < Z.of_nat n)%Z).
  { intros r Hin. unfold rows in Hin. apply in_app_or in Hin as [Hin|Hin].
    - apply in_concat in Hin as (s & Hs1 & Hs2). rewrite Forall_forall in Hs.
      exact (in_snapshot_id _ _ _ (Hs _ Hs1) Hs2).
    - eapply in_snapshot_id; [eassumption|]. rewrite <- (firstn_skipn k next).
      apply in_or_app; now left. }
  assert (Hsg : forall r, In r rows -> signed32 (h_id r) = Z.of_N (h_id r)).
  { intros r Hin. apply signed32_small. specialize (Hbound r Hin). lia. }
  (* last row of the first snapshot carries the maximal id *)
  destruct snaps as [|s0 snaps']; [congruence|].
  pose proof (Forall_inv Hs) as Hs0.
  pose proof (is_snapshot_length _ _ Hs0) as Hl0.
  set (d := Build_hrecord 0 0 0 0 0 0 0 0 0 0 0 0 0 0 0 0 0 0 0 0).
  assert (Hin0 : In (nth (n - 1) s0 d) rows).
  { unfold rows. simpl. rewrite <- app_assoc. apply in_or_app; left. apply nth_In. lia. }
  assert (Hmax : max_id rows = (Z.of_nat n - 1)%Z).
  { apply Z.le_antisymm.
    - apply max_id_ub; [lia|]. intros r Hin. rewrite Hsg by assumption. specialize (Hbound r Hin). lia.
    - pose proof (max_id_lb rows _ Hin0) as Hlb. rewrite Hsg in Hlb by assumption.
      rewrite (snapshot_id n) in Hlb by (auto; lia). lia. }
  assert (Hrne : rows <> []).
  { intros E. rewrite E in Hin0. inversion Hin0. }
  destruct rows as [|r0 rl] eqn:Erows; [congruence|]. rewrite <- Erows in *. clear Erows r0 rl.
  rewrite Hmax.
  (* id of the last row *)
  assert (Hlast : signed32 (h_id (last rows d)) = if (0 <? k)%nat then (Z.of_nat k - 1)%Z else (Z.of_nat n - 1)%Z).
  { destruct k as [|k].
    - change (0 <? 0)%nat with false. cbv iota.
      unfold rows. rewrite firstn_O, app_nil_r.
      assert (Hc : concat (s0 :: snaps') = concat (removelast (s0 :: snaps')) ++ last (s0 :: snaps') []).
      { rewrite (app_removelast_last [] (l := s0 :: snaps')) at 1 by discriminate.
        rewrite concat_app. simpl. now rewrite app_nil_r. }
      assert (Hls : is_snapshot n (last (s0 :: snaps') [])).
      { rewrite Forall_forall in Hs. apply Hs. rewrite (app_removelast_last [] (l := s0 :: snaps')) at 2 by discriminate.
        apply in_or_app; right; now left. }
      pose proof (is_snapshot_length _ _ Hls) as Hll.
      rewrite Hc, last_app_ne by (intros E; rewrite E in Hll; simpl in Hll; lia).
      rewrite last_nth, Hll, signed32_small by (rewrite (snapshot_id n) by (auto; lia); lia).
      rewrite (snapshot_id n) by (auto; lia). change (0 <? 0)%nat with false. cbv iota. lia.
    - change (0 <? S k)%nat with true. cbv iota.
      unfold rows.
      assert (Hfl : length (firstn (S k) next) = S k) by (rewrite firstn_length; lia).
      rewrite last_app_ne by (intros E; rewrite E in Hfl; simpl in Hfl; lia).
      rewrite last_nth, Hfl.
      replace (nth (S k - 1) (firstn (S k) next) d) with (nth k next d).
      2:{ rewrite <- (firstn_skipn (S k) next) at 1. rewrite app_nth1 by lia. f_equal. lia. }
      rewrite signed32_small by (rewrite (snapshot_id n) by (auto; lia); lia).
      rewrite (snapshot_id n) by (auto; lia). lia. }
  replace (Z.of_nat n - 1 + 1)%Z with (Z.of_nat n) by lia.
  fold d. rewrite Hlast.
  assert (Hex : ((Z.of_nat n - (Z.of_nat n - 1 - (if (0 <? k)%nat then Z.of_nat k - 1 else Z.of_nat n - 1)%Z)) mod Z.of_nat n)%Z = Z.of_nat k).
  { destruct k as [|k].
    - change (0 <? 0)%nat with false. cbv iota. replace (Z.of_nat n - (Z.of_nat n - 1 - (Z.of_nat n - 1)))%Z with (1 * Z.of_nat n)%Z by lia.
      rewrite Z.mod_mul by lia. reflexivity.
    - change (0 <? S k)%nat with true. cbv iota. rewrite Z.mod_small; lia. }
  rewrite Hex.
  destruct (Z.ltb_spec 0 (Z.of_nat k)).
  - f_equal. rewrite Nat2Z.id. unfold rows. rewrite app_length, firstn_length.
    replace (length (concat (s0 :: snaps')) + Nat.min k (length next) - k)%nat with (length (concat (s0 :: snaps'))) by lia.
    rewrite firstn_app, Nat.sub_diag, firstn_O, app_nil_r. now apply firstn_all2.
  - f_equal. unfold rows. replace k with 0%nat by lia. now rewrite firstn_O, app_nil_r.
Qed.
