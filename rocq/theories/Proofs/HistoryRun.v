(** The history written by a run, read back by the Python reader *)
From Coq Require Import List ZArith NArith Bool Lia.
From Coq Require Import ZifyBool ZifyNat ZifyN.
From Verif Require Import Base.Num Model.History Model.Run Spec.HistorySpec Spec.RunSpec
  Proofs.HistoryProofs.
Import ListNotations.

Lemma encode_snapshot_length n s : is_snapshot n s ->
  length (encode_records s) = (n_bytes_per_particle * n)%nat.
Proof. intros Hs. now rewrite encode_records_length, (is_snapshot_length _ _ Hs). Qed.

Lemma prefix_snapshots n snaps : (0 < n)%nat -> Forall (is_snapshot n) snaps ->
  forall b rest, b ++ rest = encode_records (concat snaps) ->
  exists k cut, (k <= length snaps)%nat /\ b = encode_records (concat (firstn k snaps)) ++ cut /\
    k = (length b / (n_bytes_per_particle * n))%nat /\
    (cut = [] \/ exists next, nth_error snaps k = Some next /\ cut_of cut (encode_records next)).
Proof.
  intros Hn Hs.
  assert (Hpos : (0 < n_bytes_per_particle * n)%nat) by (change n_bytes_per_particle with 156%nat; lia).
  pose proof (encode_snapshot_length n) as Hlen.
  set (M := (n_bytes_per_particle * n)%nat) in *. clearbody M.
  induction Hs as [|s snaps Hs1 Hs IH]; intros b rest E.
  - simpl in E. apply app_eq_nil in E as [-> ->]. exists 0%nat, []. repeat split; auto.
    symmetry. now apply Nat.div_small.
  - simpl in E. rewrite encode_records_app in E.
    pose proof (Hlen _ Hs1) as Hl.
    destruct (Nat.lt_ge_cases (length b) M) as [Hlt|Hge].
    + exists 0%nat, b. split; [lia|]. split; [reflexivity|]. split; [symmetry; now apply Nat.div_small|].
      right. exists s. split; [reflexivity|].
      exists (skipn (length b) (encode_records s)). split.
      * rewrite <- (firstn_skipn (length b) (encode_records s)) at 1. f_equal.
        apply (f_equal (firstn (length b))) in E.
        rewrite !firstn_app, Nat.sub_diag, firstn_O, app_nil_r, firstn_all in E.
        rewrite Hl in E. replace (length b - M)%nat with 0%nat in E by lia.
        now rewrite firstn_O, app_nil_r in E.
      * intros E0. apply (f_equal (@length _)) in E0. rewrite skipn_length, Hl in E0. simpl in E0. lia.
    + assert (Eb : b = encode_records s ++ skipn M b).
      { rewrite <- (firstn_skipn M b) at 1. f_equal.
        apply (f_equal (firstn M)) in E.
        rewrite !firstn_app, Hl, Nat.sub_diag, firstn_O, app_nil_r in E.
        rewrite (firstn_all2 (encode_records s)) in E by lia.
        replace (M - length b)%nat with 0%nat in E by lia.
        now rewrite firstn_O, app_nil_r in E. }
      set (b' := skipn M b) in *.
      rewrite Eb, <- app_assoc in E. apply app_inv_head in E.
      destruct (IH _ _ E) as (k & cut & Hk & Eb' & Hkd & Hc).
      exists (S k), cut. split; [simpl; lia|]. split.
      * rewrite Eb, Eb'. simpl. rewrite encode_records_app. now rewrite app_assoc.
      * split; [|exact Hc].
        rewrite Hkd, Eb, app_length, Hl.
        replace (M + length b')%nat with (length b' + 1 * M)%nat by lia.
        rewrite Nat.div_add by lia. lia.
Qed.

Lemma firstn_Forall {A} (P : A -> Prop) n l : Forall P l -> Forall P (firstn n l).
Proof.
  intros Hl. revert n. induction Hl; intros [|n]; simpl; constructor; auto.
Qed.

Lemma py_read_prefix n snaps b rest : (0 < n)%nat -> (N.of_nat n <= 2 ^ 31)%N ->
  Forall (is_snapshot n) snaps -> b ++ rest = encode_records (concat snaps) ->
  (n_bytes_per_particle * n <= length b)%nat ->
  py_read b = ReadOk (Z.of_nat n)
    (concat (firstn (length b / (n_bytes_per_particle * n)) snaps)).
Proof.
  intros Hn Hn31 Hs E Hlen.
  assert (Hpos : (0 < n_bytes_per_particle * n)%nat) by (change n_bytes_per_particle with 156%nat; lia).
  destruct (prefix_snapshots n snaps Hn Hs b rest E) as (k & cut & Hk & Eb & Hkd & Hc).
  rewrite <- Hkd. rewrite Eb.
  assert (Hk1 : (1 <= k)%nat).
  { rewrite Hkd. apply Nat.div_le_lower_bound; lia. }
  assert (Hne : firstn k snaps <> []).
  { intros E0. apply (f_equal (@length _)) in E0. rewrite firstn_length in E0. simpl in E0. lia. }
  destruct Hc as [->|(next & Hnx & Hcut)].
  - destruct snaps as [|s0 snaps']; [simpl in Hk; lia|].
    apply py_read_truncated with (next := s0); auto.
    + now apply firstn_Forall.
    + now inversion Hs.
    + exists (encode_records s0). split; [reflexivity|]. intros E0.
      apply (f_equal (@length _)) in E0. rewrite (encode_snapshot_length n) in E0 by (now inversion Hs).
      simpl in E0. lia.
  - apply py_read_truncated with (next := next); auto.
    + now apply firstn_Forall.
    + rewrite Forall_forall in Hs. apply Hs. eapply nth_error_In; eassumption.
Qed.

Section HistoryRun.
  Context {F : Type} `{Num F}.
  Variable phys : Type.
  Variable n_particles : nat.
  Variable record_of : phys -> F -> F -> nat -> hrecord.
  Variable observe : phys -> F -> phys.
  Variable lf_advance : phys -> F -> F -> F -> phys.
  Variable wh_advance : phys -> F -> F -> phys.
  Variable ias_advance : phys -> F -> F -> phys * F * F.
  Notation iterate := (iterate phys n_particles record_of observe lf_advance wh_advance ias_advance).

  (** the records really emitted by an iteration: body [i]'s record is in slot [i] *)
  Hypothesis records_valid : forall p t dt i, (i < n_particles)%nat ->
    valid_record (record_of p t dt i) /\ h_id (record_of p t dt i) = N.of_nat i.

  Lemma snapshot_is_snapshot p t dt :
    is_snapshot n_particles (map (record_of p t dt) (seq 0 n_particles)).
  Proof.
    split.
    - rewrite map_map. apply map_ext_in. intros i Hi. apply in_seq in Hi.
      apply records_valid. lia.
    - rewrite Forall_forall. intros r Hr. apply in_map_iff in Hr as (i & <- & Hi).
      apply in_seq in Hi. apply records_valid. lia.
  Qed.

  Lemma iterate_snaps s s' out r : iterate s = (s', out, r) ->
    exists snaps, Forall (is_snapshot n_particles) snaps /\ out = encode_records (concat snaps) /\
      i_nhist s' = (i_nhist s + N.of_nat (length snaps))%N.
  Proof.
    unfold Run.iterate. set (due := (_ || _)%bool).
    destruct (advance _ _ _ _ _ _) as [[p1 t1] dt1].
    intros [= <- <- _]. destruct due; simpl.
    - eexists [_]. split; [constructor; [apply snapshot_is_snapshot|constructor]|].
      simpl. rewrite app_nil_r. split; reflexivity.
    - exists []. repeat split; auto. simpl. lia.
  Qed.

  Lemma completes_snaps s h : completes iterate s h ->
    exists snaps, Forall (is_snapshot n_particles) snaps /\ h = encode_records (concat snaps).
  Proof.
    induction 1 as [s s' out Hi|s s' out trig h Hi Hc IH].
    - destruct (iterate_snaps _ _ _ _ Hi) as (snaps & Hs & -> & _). eauto.
    - destruct (iterate_snaps _ _ _ _ Hi) as (snaps & Hs & -> & _).
      destruct IH as (snaps2 & Hs2 & ->). exists (snaps ++ snaps2).
      split; [now apply Forall_app|]. rewrite concat_app. now rewrite encode_records_app.
  Qed.

  Lemma runs_snaps n s h s' : runs iterate n s h s' ->
    exists snaps, Forall (is_snapshot n_particles) snaps /\ h = encode_records (concat snaps) /\
      i_nhist s' = (i_nhist s + N.of_nat (length snaps))%N.
  Proof.
    induction 1 as [s|n s h s1 s2 o trig Hr IH Hi].
    - exists []. repeat split; auto. simpl. lia.
    - destruct IH as (snaps & Hs & -> & Hn).
      destruct (iterate_snaps _ _ _ _ Hi) as (snaps2 & Hs2 & -> & Hn2).
      exists (snaps ++ snaps2). split; [now apply Forall_app|].
      rewrite concat_app, encode_records_app, app_length. split; [reflexivity|]. rewrite Hn2, Hn. lia.
  Qed.
End HistoryRun.
