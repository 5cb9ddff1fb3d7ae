(** * Proofs about the binary format and the guess of the integrator *)
From Coq Require Import ZArith List Bool Lia.
From Verif Require Import Model.Bincode Spec.SnapshotSpec.
Import ListNotations.
Local Open Scope Z_scope.

(** ** Induction over types *)
Section TyInd.
  Variable P : ty -> Prop.
  Hypothesis HN : forall n, P (TNum n).
  Hypothesis HB : P TBool.
  Hypothesis HA : forall n t, P t -> P (TArr n t).
  Hypothesis HV : forall t, P t -> P (TVec t).
  Hypothesis HS : forall ts, Forall P ts -> P (TStruct ts).
  Hypothesis HE : forall ts, Forall P ts -> P (TEnum ts).
  Fixpoint ty_rec' (t : ty) : P t :=
    match t with
    | TNum n => HN n
    | TBool => HB
    | TArr n t => HA n t (ty_rec' t)
    | TVec t => HV t (ty_rec' t)
    | TStruct ts => HS ts ((fix go ts : Forall P ts :=
        match ts with [] => Forall_nil _ | t :: ts => Forall_cons _ (ty_rec' t) (go ts) end) ts)
    | TEnum ts => HE ts ((fix go ts : Forall P ts :=
        match ts with [] => Forall_nil _ | t :: ts => Forall_cons _ (ty_rec' t) (go ts) end) ts)
    end.
End TyInd.

(** ** Numbers *)
Lemma le_length : forall n z, length (le n z) = n.
Proof. induction n; intros; cbn [le length]; [reflexivity|now rewrite IHn]. Qed.

Lemma read_le : forall n z r,
  0 <= z < 256 ^ Z.of_nat n -> read n (le n z ++ r) = Some (z, r).
Proof.
  induction n; intros z r Hz.
  - cbn in *. f_equal. f_equal. lia.
  - cbn [le read app]. rewrite IHn.
    + f_equal. f_equal. rewrite (Z.div_mod z 256) at 3 by lia. lia.
    + rewrite Nat2Z.inj_succ, Z.pow_succ_r in Hz by lia.
      split; [apply Z.div_pos; lia|apply Z.div_lt_upper_bound; lia].
Qed.

Lemma read_app : forall n a b, length a = n ->
  exists z, read n (a ++ b) = Some (z, b).
Proof.
  induction n; intros a b Ha.
  - destruct a; [|discriminate]. now exists 0.
  - destruct a as [|x a]; [discriminate|]. injection Ha as Ha.
    destruct (IHn a b Ha) as [z Hz]. exists (x + 256 * z). cbn [read app]. now rewrite Hz.
Qed.

Lemma read_length : forall n bs z r, read n bs = Some (z, r) -> length bs = (n + length r)%nat.
Proof.
  induction n; intros bs z r H; cbn in H.
  - injection H as <- <-. reflexivity.
  - destruct bs as [|b bs]; [discriminate|].
    destruct (read n bs) as [[z' r']|] eqn:E; [|discriminate].
    injection H as <- <-. apply IHn in E. cbn. lia.
Qed.

Lemma le_split : forall m n z, le (m + n) z = le m z ++ le n (z / 256 ^ Z.of_nat m).
Proof.
  induction m; intros n z.
  - cbn [Nat.add le app]. now rewrite Z.pow_0_r, Z.div_1_r.
  - cbn [Nat.add le app]. rewrite IHm. do 3 f_equal.
    rewrite Nat2Z.inj_succ, Z.pow_succ_r by lia.
    rewrite Z.div_div by (try apply Z.pow_pos_nonneg; lia). reflexivity.
Qed.

Lemma le_mod : forall n z, le n z = le n (z mod 256 ^ Z.of_nat n).
Proof.
  induction n; intros z; [reflexivity|]. cbn [le].
  rewrite Nat2Z.inj_succ, Z.pow_succ_r by lia.
  assert (0 < 256 ^ Z.of_nat n) by (apply Z.pow_pos_nonneg; lia).
  rewrite (IHn (z / 256)), (IHn (z mod _ / 256)).
  rewrite Z.rem_mul_r by lia.
  f_equal.
  - rewrite (Z.mul_comm 256), Z_mod_plus_full, Z.mod_mod by lia. reflexivity.
  - f_equal. rewrite (Z.mul_comm 256), Z.div_add by lia.
    rewrite (Z.div_small (z mod 256)) by (apply Z.mod_pos_bound; lia).
    rewrite Z.add_0_l. now rewrite Z.mod_mod by lia.
Qed.

(** an 8-byte number starts with its low 32 bits *)
Lemma read_low : forall z r,
  exists r', le 8 z ++ r = le 4 z ++ r' /\ read 4 (le 8 z ++ r) = Some (z mod 2 ^ 32, r') /\
             length r' = (4 + length r)%nat.
Proof.
  intros z r. exists (le 4 (z / 2 ^ 32) ++ r).
  assert (E : le 8 z ++ r = le 4 z ++ le 4 (z / 2 ^ 32) ++ r).
  { rewrite app_assoc. f_equal. exact (le_split 4 4 z). }
  split; [exact E|]. split.
  - rewrite E, (le_mod 4 z). apply read_le.
    change (256 ^ Z.of_nat 4) with (2 ^ 32). apply Z.mod_pos_bound. lia.
  - now rewrite app_length, le_length.
Qed.

(** ** Smallest size of an encoding *)
Fixpoint sum_of (l : list nat) : nat := match l with [] => 0 | x :: l => (x + sum_of l)%nat end.
Fixpoint min_of (d : nat) (l : list nat) : nat :=
  match l with [] => d | x :: l => Nat.min x (min_of d l) end.
Definition least (l : list nat) : nat := match l with [] => 0%nat | x :: l => min_of x l end.

Fixpoint min_size (t : ty) : nat :=
  match t with
  | TNum n => n
  | TBool => 1
  | TArr n t => n * min_size t
  | TVec _ => 8
  | TStruct ts => sum_of (map min_size ts)
  | TEnum ts => 4 + least (map min_size ts)
  end%nat.

Lemma min_of_le : forall l d x, In x l \/ x = d -> (min_of d l <= x)%nat.
Proof.
  induction l as [|y l IH]; intros d x H; cbn.
  - destruct H as [[]| ->]. lia.
  - destruct H as [[ -> |H]| -> ].
    + lia.
    + specialize (IH d x (or_introl H)). lia.
    + specialize (IH d d (or_intror eq_refl)). lia.
Qed.
Lemma least_le : forall l x, In x l -> (least l <= x)%nat.
Proof.
  intros [|y l] x H; [destruct H|]. cbn [least]. apply min_of_le.
  destruct H as [<-|H]; [now right|now left].
Qed.

(** a successful decoding has read at least the smallest size *)
Lemma dec_rep_length : forall d m, (forall bs v r, d bs = Some (v, r) -> (m + length r <= length bs)%nat) ->
  forall n bs l r, dec_rep d n bs = Some (l, r) -> (n * m + length r <= length bs)%nat /\ length l = n.
Proof.
  intros d m Hd. induction n; intros bs l r H; cbn in H.
  - injection H as <- <-. cbn. lia.
  - destruct (d bs) as [[v r1]|] eqn:E; [|discriminate].
    destruct (dec_rep d n r1) as [[l' r2]|] eqn:E2; [|discriminate].
    injection H as <- <-. apply Hd in E. apply IHn in E2. cbn. lia.
Qed.

Lemma dec_length : forall t bs v r, dec t bs = Some (v, r) -> (min_size t + length r <= length bs)%nat.
Proof.
  induction t using ty_rec'; intros bs v r Hd; cbn [dec min_size] in *.
  - destruct (read n bs) as [[z r']|] eqn:E; [|discriminate]. injection Hd as <- <-.
    apply read_length in E. lia.
  - destruct bs as [|b bs]; [discriminate|].
    destruct ((b =? 0) || (b =? 1)); [|discriminate]. injection Hd as <- <-. cbn. lia.
  - unfold as_list in Hd. destruct (dec_rep (dec t) n bs) as [[l r']|] eqn:E; [|discriminate].
    injection Hd as <- <-. apply (dec_rep_length (dec t) (min_size t) IHt) in E. lia.
  - destruct (read 8 bs) as [[z r']|] eqn:E; [|discriminate].
    destruct (Z.of_nat (length r') <? z); [discriminate|].
    unfold as_list in Hd. destruct (dec_rep (dec t) _ r') as [[l r2]|] eqn:E2; [|discriminate].
    injection Hd as <- <-. apply read_length in E.
    apply (dec_rep_length (dec t) 0) in E2; [|intros b0 v0 r0 H0; apply IHt in H0; lia]. lia.
  - unfold as_list in Hd. destruct (dec_seq (map dec ts) bs) as [[l r']|] eqn:E; [|discriminate].
    injection Hd as <- <-. revert bs l r' E.
    induction H as [|t ts Ht _ IH]; intros bs l r' E; cbn in E |- *.
    + injection E as <- <-. cbn. lia.
    + destruct (dec t bs) as [[v1 r1]|] eqn:E1; [|discriminate].
      destruct (dec_seq (map dec ts) r1) as [[l2 r2]|] eqn:E2; [|discriminate].
      injection E as <- <-. apply Ht in E1. apply IH in E2. lia.
  - destruct (read 4 bs) as [[k r']|] eqn:E; [|discriminate].
    destruct (Z.of_nat (length ts) <=? k) eqn:Ek; [discriminate|].
    apply Z.leb_gt in Ek.
    destruct (nth (Z.to_nat k) (map dec ts) (fun _ => None) r') as [[v' r2]|] eqn:E2; [|discriminate].
    injection Hd as <- <-. apply read_length in E.
    destruct (le_lt_dec (length ts) (Z.to_nat k)) as [Hk|Hk].
    { rewrite nth_overflow in E2 by (rewrite map_length; exact Hk). discriminate. }
    rewrite (nth_indep _ _ (dec TBool)), (map_nth dec) in E2 by (rewrite map_length; exact Hk).
    assert (Hin : In (nth (Z.to_nat k) ts TBool) ts) by (apply nth_In; exact Hk).
    rewrite Forall_forall in H. specialize (H _ Hin _ _ _ E2).
    pose proof (least_le (map min_size ts) _ (in_map min_size _ _ Hin)). lia.
Qed.

Lemma vec_guard : forall t n bs, (1 <= min_size t)%nat ->
  (length bs < n)%nat -> dec_rep (dec t) n bs = None.
Proof.
  intros t n bs Ht Hn. destruct (dec_rep (dec t) n bs) as [[l r]|] eqn:E; [|reflexivity].
  apply (dec_rep_length (dec t) (min_size t) (dec_length t)) in E. nia.
Qed.

(** ** Round trip *)
Lemma enc_length : forall t v, well_typed t v -> (min_size t <= length (enc t v))%nat.
Proof.
  induction t using ty_rec'; intros v Hv; destruct v as [z|l|k v]; cbn [well_typed] in Hv;
    try contradiction; cbn [min_size enc].
  - now rewrite le_length.
  - cbn. lia.
  - destruct Hv as [<- Hl]. induction Hl as [|v l Hv _ IH]; [cbn; lia|].
    cbn [length flat_map]. rewrite app_length. specialize (IHt v Hv). cbn [Nat.mul]. lia.
  - rewrite app_length, le_length. lia.
  - revert l Hv. induction H as [|t ts Ht _ IH]; intros [|v l] Hv; cbn in Hv |- *; try contradiction.
    + lia.
    + destruct Hv as [Hv Hl]. rewrite app_length. specialize (Ht v Hv). specialize (IH l Hl). lia.
  - destruct Hv as [Hk Hv]. rewrite app_length, le_length.
    rewrite (nth_indep _ _ (well_typed TBool)), (map_nth well_typed) in Hv by now rewrite map_length.
    rewrite (nth_indep _ _ (enc TBool)), (map_nth enc) by now rewrite map_length.
    assert (Hin : In (nth k ts TBool) ts) by (apply nth_In; exact Hk).
    rewrite Forall_forall in H. specialize (H _ Hin _ Hv).
    pose proof (least_le (map min_size ts) _ (in_map min_size _ _ Hin)). lia.
Qed.

Definition round_trips (t : ty) : Prop :=
  forall v rest, well_typed t v -> dec t (enc t v ++ rest) = Some (v, rest).

Lemma dec_rep_enc : forall t, round_trips t ->
  forall l rest, Forall (well_typed t) l ->
  dec_rep (dec t) (length l) (flat_map (enc t) l ++ rest) = Some (l, rest).
Proof.
  intros t Ht l rest Hl. induction Hl as [|v l Hv _ IH]; [reflexivity|].
  cbn [length flat_map dec_rep]. rewrite <- app_assoc, (Ht v _ Hv), IH. reflexivity.
Qed.

Lemma dec_seq_enc : forall ts, Forall round_trips ts ->
  forall l rest, all_typed (map well_typed ts) l ->
  dec_seq (map dec ts) (enc_seq (map enc ts) l ++ rest) = Some (l, rest).
Proof.
  intros ts Hts. induction Hts as [|t ts Ht _ IH]; intros [|v l] rest Hl; cbn in Hl; try contradiction.
  - reflexivity.
  - destruct Hl as [Hv Hl]. cbn [map enc_seq dec_seq].
    rewrite <- app_assoc, (Ht v _ Hv), (IH l rest Hl). reflexivity.
Qed.

Lemma flat_map_enc_length : forall t, (1 <= min_size t)%nat -> forall l, Forall (well_typed t) l ->
  (length l <= length (flat_map (enc t) l))%nat.
Proof.
  intros t Ht l Hl. induction Hl as [|v l Hv _ IH]; [cbn; lia|].
  cbn [length flat_map]. rewrite app_length. pose proof (enc_length t v Hv). lia.
Qed.

(** the conditions on the layout: [Vec] elements take space, tags fit *)
Fixpoint regular (t : ty) : bool :=
  match t with
  | TNum _ | TBool => true
  | TArr _ t => regular t
  | TVec t => Nat.leb 1 (min_size t) && regular t
  | TStruct ts => forallb (fun b => b) (map regular ts)
  | TEnum ts => Nat.leb (length ts) 1000 && forallb (fun b => b) (map regular ts)
  end.

Lemma regular_all : forall ts, forallb (fun b => b) (map regular ts) = true ->
  Forall (fun t => regular t = true) ts.
Proof.
  induction ts as [|t ts IH]; intros H; [constructor|]. cbn in H.
  apply andb_prop in H. destruct H as [H1 H2]. constructor; [exact H1|exact (IH H2)].
Qed.

Theorem round_trip : forall t, regular t = true -> round_trips t.
Proof.
  induction t using ty_rec'; intros Hr v rest Hv; destruct v as [z|l|k v]; cbn [well_typed] in Hv;
    try contradiction; cbn [regular] in Hr.
  - cbn [enc dec]. now rewrite read_le.
  - cbn [enc dec app]. destruct Hv as [->| ->]; reflexivity.
  - destruct Hv as [Hn Hl]. cbn [enc dec]. subst n. rewrite (dec_rep_enc t (IHt Hr) l rest Hl). reflexivity.
  - apply andb_prop in Hr. destruct Hr as [Hm Hr]. apply Nat.leb_le in Hm.
    destruct Hv as [Hn Hl]. cbn [enc dec]. rewrite <- app_assoc, read_le by (split; [lia|exact Hn]).
    pose proof (flat_map_enc_length t Hm l Hl).
    rewrite (proj2 (Z.ltb_ge _ _)) by (rewrite app_length; lia).
    rewrite Nat2Z.id, (dec_rep_enc t (IHt Hr) l rest Hl). reflexivity.
  - apply regular_all in Hr. cbn [enc dec]. rewrite (dec_seq_enc ts) by
      (try exact Hv; rewrite Forall_forall in *; intros t Ht; exact (H t Ht (Hr t Ht))).
    reflexivity.
  - apply andb_prop in Hr. destruct Hr as [Hm Hr]. apply Nat.leb_le in Hm. apply regular_all in Hr.
    destruct Hv as [Hk Hv]. cbn [enc dec].
    rewrite <- app_assoc, read_le by (change (256 ^ Z.of_nat 4) with 4294967296; lia).
    rewrite (proj2 (Z.leb_gt _ _)) by lia. rewrite Nat2Z.id.
    rewrite (nth_indep _ _ (well_typed TBool)), (map_nth well_typed) in Hv by now rewrite map_length.
    rewrite (nth_indep (map enc ts) _ (enc TBool)), (map_nth enc) by now rewrite map_length.
    rewrite (nth_indep (map dec ts) _ (dec TBool)), (map_nth dec) by now rewrite map_length.
    assert (Hin : In (nth k ts TBool) ts) by (apply nth_In; exact Hk).
    rewrite Forall_forall in H, Hr. rewrite (H _ Hin (Hr _ Hin) v rest Hv). reflexivity.
Qed.
