From Coq Require Import Reals List Arith Lra Lia Bool.
From Verif Require Import Base.Num Base.Result Base.Vec Model.Particle Model.Interp
  Spec.TablesSpec Proofs.NumLemmas.
Import ListNotations.
Open Scope R_scope.

Lemma nth_error_in {A} (d : A) l i : (i < length l)%nat -> nth_error l i = Some (nth i l d).
Proof.
  revert i; induction l as [|a l IH]; intros [|i] Hi; simpl in *; try lia; auto. apply IH; lia.
Qed.
Lemma index_ok (l : list R) i : (i < length l)%nat -> index l i = Ok (nth i l 0).
Proof. intros Hi. unfold index. rewrite (nth_error_in 0); auto. Qed.

Lemma position_spec {A} (d : A) p l :
  match position p l with
  | None => forall i, (i < length l)%nat -> p (nth i l d) = false
  | Some k => (k < length l)%nat /\ p (nth k l d) = true /\
              forall i, (i < k)%nat -> p (nth i l d) = false
  end.
Proof.
  induction l as [|a l IH]; simpl.
  - intros i Hi; lia.
  - destruct (p a) eqn:Ea.
    + split; [lia|]. split; [auto|]. intros i Hi; lia.
    + destruct (position p l) as [k|]; simpl.
      * destruct IH as (H1 & H2 & H3). repeat split; auto; try lia.
        intros [|i] Hi; auto. apply H3; lia.
      * intros [|i] Hi; auto. apply IH; lia.
Qed.

(** the row chosen by the search *)
Definition bracket (xs : list R) (t : R) (i : nat) : Prop :=
  (i < length xs)%nat /\
  (t < nth 0 xs 0 -> i = 0%nat) /\
  (nth 0 xs 0 <= t -> nth i xs 0 <= t) /\
  (forall j, (i < j < length xs)%nat -> t < nth j xs 0).

Lemma bracket_unique xs t i j : increasing xs -> bracket xs t i -> bracket xs t j -> i = j.
Proof.
  intros Hs (Hi & Hi0 & Hi1 & Hi2) (Hj & Hj0 & Hj1 & Hj2).
  destruct (Rlt_le_dec t (nth 0 xs 0)) as [Hlt|Hle].
  - rewrite Hi0, Hj0; auto.
  - specialize (Hi1 Hle). specialize (Hj1 Hle).
    destruct (Nat.lt_trichotomy i j) as [H|[H|H]]; auto.
    + specialize (Hi2 j ltac:(lia)). lra.
    + specialize (Hj2 i ltac:(lia)). lra.
Qed.

Lemma find_indices_spec xs t :
  increasing xs -> xs <> [] ->
  exists il ir, find_indices_around xs t = Ok (il, ir) /\ bracket xs t il /\
    (il = ir -> t < nth 0 xs 0 /\ il = 0%nat \/ nth (length xs - 1) xs 0 <= t /\ il = (length xs - 1)%nat) /\
    (il <> ir -> ir = S il /\ (S il < length xs)%nat /\ nth il xs 0 <= t < nth ir xs 0).
Proof.
  intros Hs Hne.
  assert (Hlen : (0 < length xs)%nat) by (destruct xs; simpl; [congruence|lia]).
  unfold find_indices_around.
  pose proof (position_spec 0 (fun r => Rltb t r) xs) as Hp.
  num_simpl.
  destruct (position (fun r : R => Rltb t r) xs) as [k|].
  - destruct Hp as (Hk & Ht & Hb). apply Rltb_true in Ht.
    destruct (Nat.eqb_spec k 0) as [->|Hk0].
    + exists 0%nat, 0%nat. split; [reflexivity|]. split; [|split].
      * split; [auto|]. split; [auto|]. split.
        -- intros; lra.
        -- intros j Hj. specialize (Hs 0%nat j ltac:(lia)). lra.
      * intros _. left; auto.
      * intros C; congruence.
    + destruct (Nat.eqb_spec k (length xs)) as [C|_]; [lia|].
      exists (pred k), k. split; [reflexivity|].
      assert (Hp1 : nth (pred k) xs 0 <= t).
      { apply Rltb_false. apply Hb. lia. }
      split; [|split].
      * split; [lia|]. split; [|split].
        -- intros Hlt. destruct (Nat.eq_dec (pred k) 0) as [|Hn]; [lia|].
           specialize (Hs 0%nat (pred k) ltac:(lia)). lra.
        -- auto.
        -- intros j Hj. destruct (Nat.eq_dec j k) as [->|]; auto.
           specialize (Hs k j ltac:(lia)). lra.
      * intros C; lia.
      * intros _. repeat split; try lia; auto.
  - assert (Hlast : nth (pred (length xs)) xs 0 <= t).
    { apply Rltb_false. apply Hp. lia. }
    rewrite index_ok by lia. cbn [rbind].
    destruct (Rltb_spec t (nth (pred (length xs)) xs 0)) as [C|_]; [lra|].
    exists (pred (length xs)), (pred (length xs)). split; [reflexivity|].
    split; [|split].
    + split; [lia|]. split; [|split]; auto.
      * intros Hlt. specialize (Hp 0%nat Hlen). apply Rltb_false in Hp. lra.
      * intros j Hj; lia.
    + intros _. right. replace (length xs - 1)%nat with (pred (length xs)) by lia. auto.
    + congruence.
Qed.

Theorem linear_interpolation_spec xs ys t :
  table xs ys ->
  exists v i, linear_interpolation t xs ys = Ok (v, i) /\ interpolates xs ys t v /\ bracket xs t i.
Proof.
  intros (Hne & Hl & Hs).
  destruct (find_indices_spec xs t Hs Hne) as (il & ir & Hf & Hb & Heq & Hneq).
  unfold linear_interpolation. rewrite Hf. cbn [rbind].
  destruct Hb as (Hb1 & Hb2 & Hb3 & Hb4).
  destruct (Nat.eqb_spec il ir) as [<-|Hd].
  - rewrite index_ok by lia. cbn [rbind].
    exists (nth il ys 0), il. split; [reflexivity|]. split; [|repeat split; auto].
    unfold interpolates. destruct (Heq eq_refl) as [[H1 H2]|[H1 H2]].
    + subst il. split; [auto|]. split.
      * intros H3. exfalso.
        destruct (Nat.eq_dec (length xs) 1) as [E|E]; [rewrite E in H3; simpl in H3; lra|].
        specialize (Hs 0%nat (length xs - 1)%nat ltac:(lia)). lra.
      * intros i Hi [H3 _]. exfalso. destruct (Nat.eq_dec i 0) as [->|]; [lra|].
        specialize (Hs 0%nat i ltac:(lia)). lra.
    + subst il. split; [|split].
      * intros H3. specialize (Hb2 H3). rewrite Hb2. reflexivity.
      * auto.
      * intros i Hi [_ H3]. exfalso.
        destruct (Nat.eq_dec (S i) (length xs - 1)) as [E|E]; [rewrite E in H3; lra|].
        specialize (Hs (S i) (length xs - 1)%nat ltac:(lia)). lra.
  - destruct (Hneq Hd) as (-> & Hlt & Hin).
    rewrite !index_ok by lia. cbn [rbind].
    eexists _, il. split; [reflexivity|]. split; [|repeat split; auto].
    num_simpl. unfold interpolates. split; [|split].
    + intros H1. specialize (Hb2 H1). subst il. lra.
    + intros H1. exfalso.
      destruct (Nat.eq_dec (S il) (length xs - 1)) as [E|E]; [rewrite <- E in H1; lra|].
      specialize (Hs (S il) (length xs - 1)%nat ltac:(lia)). lra.
    + intros i Hi Hi2.
      assert (i = il) as ->.
      { destruct (Nat.lt_trichotomy i il) as [H|[H|H]]; auto.
        - destruct (Nat.eq_dec (S i) il) as [E|E].
          + rewrite E in Hi2. lra.
          + specialize (Hs (S i) il ltac:(lia)). lra.
        - destruct (Nat.eq_dec (S il) i) as [E|E].
          + rewrite <- E in Hi2. lra.
          + specialize (Hs (S il) i ltac:(lia)). lra. }
      unfold Rdiv. ring.
Qed.

Lemma nth_skipn (xs : list R) k m : nth m (skipn k xs) 0 = nth (k + m) xs 0.
Proof.
  revert k; induction xs as [|a l IH]; intros [|k]; simpl; auto.
  destruct m; auto.
Qed.
Lemma increasing_skipn xs k : increasing xs -> increasing (skipn k xs).
Proof.
  intros Hs i j Hij. rewrite skipn_length in Hij. rewrite !nth_skipn. apply Hs. lia.
Qed.

Lemma interpolates_exists xs ys t : table xs ys -> exists v, interpolates xs ys t v.
Proof. intros Ht. destruct (linear_interpolation_spec xs ys t Ht) as (v & i & _ & H & _); eauto. Qed.

Lemma interpolates_unique xs ys t v w :
  table xs ys -> interpolates xs ys t v -> interpolates xs ys t w -> v = w.
Proof.
  intros Ht (A1 & A2 & A3) (B1 & B2 & B3).
  destruct Ht as (Hne & Hl & Hs).
  destruct (find_indices_spec xs t Hs Hne) as (il & ir & _ & _ & Heq & Hneq).
  destruct (Nat.eq_dec il ir) as [E|E].
  - destruct (Heq E) as [[H1 _]|[H1 _]].
    + rewrite A1, B1; auto.
    + rewrite A2, B2; auto.
  - destruct (Hneq E) as (-> & H1 & H2). rewrite (A3 il), (B3 il); auto.
Qed.

(** the window starting at row [k] gives the same answer when the row sought is
    at or after [k] *)
Lemma window_interpolates xs ys k t v i :
  table xs ys -> bracket xs t i -> (k <= i)%nat ->
  interpolates (skipn k xs) (skipn k ys) t v -> interpolates xs ys t v.
Proof.
  intros (Hne & Hl & Hs) (Hb1 & Hb2 & Hb3 & Hb4) Hk (A1 & A2 & A3).
  rewrite skipn_length in *. rewrite !nth_skipn in *.
  assert (Hlast : (k + (length xs - k - 1) = length xs - 1)%nat) by lia.
  rewrite Hlast in A2.
  destruct (Nat.eq_dec k 0) as [->|Hk0].
  { unfold interpolates. split; [|split]; auto.
    intros j Hj Hj2. specialize (A3 j). rewrite !nth_skipn in A3. apply A3; auto; lia. }
  assert (Hge : nth 0 xs 0 <= t).
  { apply Rnot_lt_le. intros C. specialize (Hb2 C). lia. }
  specialize (Hb3 Hge).
  unfold interpolates. split; [|split]; auto.
  - intros; lra.
  - intros j Hj Hj2.
    assert (Hij : (i <= j)%nat).
    { destruct (le_lt_dec i j); auto. exfalso.
      destruct (Nat.eq_dec (S j) i) as [E|E]; [rewrite E in Hj2; lra|].
      specialize (Hs (S j) i ltac:(lia)). lra. }
    specialize (A3 (j - k)%nat). rewrite !nth_skipn in A3.
    replace (k + (j - k))%nat with j in A3 by lia.
    replace (k + S (j - k))%nat with (S j) in A3 by lia.
    apply A3; auto; lia.
Qed.

Lemma bracket_window xs t i k m :
  increasing xs -> bracket xs t i -> (k <= i)%nat -> bracket (skipn k xs) t m -> (k + m = i)%nat.
Proof.
  intros Hs Hb Hk (B1 & B2 & B3 & B4).
  apply (bracket_unique xs t); auto.
  rewrite skipn_length in *. rewrite !nth_skipn in *.
  destruct Hb as (Hb1 & Hb2 & Hb3 & Hb4).
  split; [lia|]. split; [|split].
  - intros H. specialize (Hb2 H). subst i. assert (k = 0)%nat as -> by lia.
    specialize (B2 H). lia.
  - intros H. apply B3. specialize (Hb3 H). rewrite Nat.add_0_r.
    destruct (Nat.eq_dec k i) as [->|]; auto. specialize (Hs k i ltac:(lia)). lra.
  - intros j Hj. specialize (B4 (j - k)%nat). rewrite nth_skipn in B4.
    replace (k + (j - k))%nat with j in B4 by lia. apply B4. lia.
Qed.

Lemma bracket_exists xs t : increasing xs -> xs <> [] -> exists i, bracket xs t i.
Proof. intros Hs Hne. destruct (find_indices_spec xs t Hs Hne) as (i & _ & _ & H & _). eauto. Qed.
Lemma bracket_mono xs t t' i i' :
  increasing xs -> t <= t' -> bracket xs t i -> bracket xs t' i' -> (i <= i')%nat.
Proof.
  intros Hs Ht (Hi & Hi0 & Hi1 & Hi2) (Hj & Hj0 & Hj1 & Hj2).
  destruct (le_lt_dec i i') as [|C]; auto. exfalso.
  destruct (Rlt_le_dec t (nth 0 xs 0)) as [Hlt|Hle].
  - specialize (Hi0 Hlt). lia.
  - specialize (Hi1 Hle). specialize (Hj2 i ltac:(lia)). lra.
Qed.

(** ** The evolver's moving window *)
(** the window never starts after the row in use *)
Definition in_sync (e : evolver R) (t : R) : Prop :=
  forall i, bracket (ev_time e) t i -> (ev_idx e <= i)%nat.

Lemma in_sync_mono e t t' : increasing (ev_time e) -> ev_time e <> [] -> t <= t' -> in_sync e t -> in_sync e t'.
Proof.
  intros Hs Hne Ht H i Hi.
  destruct (bracket_exists (ev_time e) t Hs Hne) as (j & Hj).
  specialize (H j Hj). pose proof (bracket_mono _ _ _ _ _ Hs Ht Hj Hi). lia.
Qed.

Lemma lookup_spec e col t :
  table (ev_time e) col -> in_sync e t ->
  exists v e', ev_lookup e col t = Ok (v, e') /\ interpolates (ev_time e) col t v /\
    in_sync e' t /\ exists n, e' = set_ev_left n e.
Proof.
  intros Ht Hsync. pose proof Ht as (Hne & Hl & Hs).
  destruct (bracket_exists _ t Hs Hne) as (i & Hi).
  pose proof (Hsync i Hi) as Hk.
  assert (Hil : (i < length (ev_time e))%nat) by apply Hi.
  set (k := ev_idx e) in *.
  unfold ev_lookup, slice_from. fold k.
  rewrite Hl.
  replace (k <=? length (ev_time e))%nat with true by (symmetry; apply Nat.leb_le; lia).
  cbn [rbind].
  assert (Htw : table (skipn k (ev_time e)) (skipn k col)).
  { split; [|split].
    - intros C. apply (f_equal (@length R)) in C. rewrite skipn_length in C. simpl in C. lia.
    - rewrite !skipn_length. lia.
    - apply increasing_skipn; auto. }
  destruct (linear_interpolation_spec _ _ t Htw) as (v & m & -> & Hv & Hm).
  cbn [rbind].
  eexists v, _. split; [reflexivity|]. split; [|split].
  - eapply window_interpolates; eauto.
  - pose proof (bracket_window _ _ _ _ _ Hs Hi Hk Hm) as E.
    intros j Hj. cbn [ev_time set_ev_left] in Hj.
    assert (j = i) as -> by (eapply bracket_unique; eauto).
    unfold ev_idx in *. cbn [ev_left set_ev_left].
    destruct (Nat.ltb_spec 10 (ev_left e)); subst k;
      destruct (Nat.ltb_spec 10 (ev_left e + m)); lia.
  - eauto.
Qed.

(** ** Corollaries for C45 *)
Theorem interpolates_node xs ys i v :
  table xs ys -> (i < length xs)%nat -> interpolates xs ys (nth i xs 0) v -> v = nth i ys 0.
Proof.
  intros (Hne & Hl & Hs) Hi (A1 & A2 & A3).
  destruct (Nat.eq_dec i (length xs - 1)) as [->|Hd].
  - rewrite A2; auto. lra.
  - rewrite (A3 i); [|lia|split; [lra|apply Hs; lia]].
    unfold Rdiv. ring.
Qed.

Theorem interpolates_between xs ys t v :
  table xs ys -> interpolates xs ys t v ->
  exists i j, (i < length xs)%nat /\ (j < length xs)%nat /\ nth i ys 0 <= v <= nth j ys 0.
Proof.
  intros (Hne & Hl & Hs) (A1 & A2 & A3).
  assert (Hlen : (0 < length xs)%nat) by (destruct xs; simpl; [congruence|lia]).
  destruct (find_indices_spec xs t Hs Hne) as (il & ir & _ & Hb & Heq & Hneq).
  destruct (Nat.eq_dec il ir) as [E|E].
  - exists il, il. destruct (Heq E) as [[H1 ->]|[H1 ->]].
    + rewrite A1; auto. repeat split; try lia; lra.
    + rewrite A2; auto. repeat split; try lia; lra.
  - destruct (Hneq E) as (-> & H1 & H2).
    rewrite (A3 il H1 H2).
    set (p := (t - nth il xs 0) / (nth (S il) xs 0 - nth il xs 0)).
    assert (Hd : 0 < nth (S il) xs 0 - nth il xs 0) by lra.
    assert (Hp : 0 <= p <= 1).
    { unfold p. split.
      - apply Rmult_le_pos; [lra|]. left. apply Rinv_0_lt_compat; auto.
      - apply Rmult_le_reg_r with (1 := Hd). unfold Rdiv.
        rewrite Rmult_assoc, Rinv_l by lra. lra. }
    destruct (Rle_dec (nth il ys 0) (nth (S il) ys 0)).
    + exists il, (S il). repeat split; try lia; nra.
    + exists (S il), il. repeat split; try lia; nra.
Qed.

(** sharper: between the neighbouring ordinates *)
Theorem interpolates_neighbours xs ys t v i :
  table xs ys -> interpolates xs ys t v -> (S i < length xs)%nat ->
  nth i xs 0 <= t < nth (S i) xs 0 ->
  Rmin (nth i ys 0) (nth (S i) ys 0) <= v <= Rmax (nth i ys 0) (nth (S i) ys 0).
Proof.
  intros (Hne & Hl & Hs) (A1 & A2 & A3) Hi Hin.
  rewrite (A3 i Hi Hin).
  set (p := (t - nth i xs 0) / (nth (S i) xs 0 - nth i xs 0)).
  assert (Hd : 0 < nth (S i) xs 0 - nth i xs 0) by lra.
  assert (Hp : 0 <= p <= 1).
  { unfold p. split.
    - apply Rmult_le_pos; [lra|]. left. apply Rinv_0_lt_compat; auto.
    - apply Rmult_le_reg_r with (1 := Hd). unfold Rdiv.
      rewrite Rmult_assoc, Rinv_l by lra. lra. }
  unfold Rmin, Rmax. destruct (Rle_dec (nth i ys 0) (nth (S i) ys 0)); nra.
Qed.
