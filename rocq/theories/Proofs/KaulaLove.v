(** * Love numbers of the Kaula model: search and interpolation *)
From Coq Require Import Reals List Lra Lia Bool Arith.
From Verif Require Import Base.Num Base.Trans Base.Vec Model.Particle Model.Kaula Spec.TablesSpec Spec.KaulaSpec
  Proofs.NumLemmas.
Import ListNotations.
Open Scope R_scope.

Lemma bsearch_loop_spec l x : increasing l ->
  forall fuel base size,
  (size <= fuel)%nat -> (1 <= size)%nat -> (base + size <= length l)%nat ->
  nth base l 0 <= x -> ((base + size < length l)%nat -> x < nth (base + size) l 0) ->
  let b := bsearch_loop (F := R) fuel base size l x in
  (b < length l)%nat /\ nth b l 0 <= x /\ ((S b < length l)%nat -> x < nth (S b) l 0).
Proof.
  intros Hinc. induction fuel as [|fuel IH]; intros base size Hf Hs Hb Hlo Hhi; [lia|].
  cbn [bsearch_loop].
  destruct (Nat.leb_spec size 1) as [H1|H1].
  - assert (size = 1%nat) by lia. subst size. replace (base + 1)%nat with (S base) in Hhi by lia.
    cbn zeta. repeat split; [lia|assumption|assumption].
  - cbn zeta in *.
    assert (Hh : (1 <= Nat.div2 size < size)%nat).
    { split; [|apply Nat.lt_div2; lia]. destruct size as [|[|s]]; simpl; lia. }
    num_simpl. destruct (Rltb_spec x (nth (base + Nat.div2 size) l 0)) as [Hx|Hx].
    + apply IH; try lia; try assumption.
      intros Hlt. replace (base + (size - Nat.div2 size))%nat with (base + (size - Nat.div2 size))%nat by lia.
      destruct (Nat.eq_dec (size - Nat.div2 size) (Nat.div2 size)) as [E|E].
      * rewrite E. exact Hx.
      * eapply Rlt_trans; [exact Hx|]. apply Hinc.
        assert (Nat.div2 size <= size - Nat.div2 size)%nat.
        { pose proof (Nat.div2_odd size). destruct (Nat.odd size); simpl in *; lia. }
        lia.
    + apply IH; try lia.
      * lra.
      * intros Hlt. replace (base + Nat.div2 size + (size - Nat.div2 size))%nat with (base + size)%nat in * by lia.
        apply Hhi. lia.
Qed.

(** the loop runs past the middle of the window, never past its end *)
Lemma bsearch_spec l x : increasing l -> l <> [] -> nth 0 l 0 <= x ->
  match bsearch (F := R) l x with
  | inl i => (i < length l)%nat /\ nth i l 0 = x
  | inr i => (1 <= i <= length l)%nat /\ nth (i - 1) l 0 < x /\ ((i < length l)%nat -> x < nth i l 0)
  end.
Proof.
  intros Hinc Hne H0.
  assert (Hl : (1 <= length l)%nat) by (destruct l; [congruence|simpl; lia]).
  pose proof (bsearch_loop_spec l x Hinc (length l) 0 (length l) (le_n _) Hl (le_n _) H0
                ltac:(intros; lia)) as (B1 & B2 & B3).
  unfold bsearch. destruct l as [|y l']; [congruence|].
  set (b := bsearch_loop _ _ _ _ _) in *. num_simpl.
  destruct (Reqb_spec (nth b (y :: l') 0) x) as [E|E].
  - split; assumption.
  - destruct (Rltb_spec (nth b (y :: l') 0) x) as [E2|E2]; [|lra].
    replace (S b - 1)%nat with b by lia. repeat split; [lia|lia|assumption|assumption].
Qed.

(** ** A complete table *)
Lemma kaula_numbers_table w p central :
  table (kl_freq p) (kl_re p) -> table (kl_freq p) (kl_im p) ->
  let flip := andb (negb central) (Rltb w 0) in
  let w' := if flip then - w else w in
  exists re im,
    interpolates (kl_freq p) (kl_re p) w' re /\ interpolates (kl_freq p) (kl_im p) w' im /\
    kaula_numbers (F := R) w p central = (- re, if flip then - im else im).
Proof.
  intros (Hne & Hlr & Hinc) (_ & Hli & _). unfold kaula_numbers. num_simpl. cbn zeta.
  set (flip := andb (negb central) (Rltb w 0)).
  replace (if flip then Rabs w else w) with (if flip then - w else w).
  2:{ unfold flip. destruct central; simpl; [reflexivity|].
      destruct (Rltb_spec w 0); [rewrite Rabs_left; lra|reflexivity]. }
  set (x := if flip then - w else w). clearbody x. clearbody flip. clear w.
  assert (Wrap : forall re im v,
    interpolates (kl_freq p) (kl_re p) x re -> interpolates (kl_freq p) (kl_im p) x im ->
    v = (re, im) ->
    exists re im, interpolates (kl_freq p) (kl_re p) x re /\ interpolates (kl_freq p) (kl_im p) x im /\
      (let '(re, im) := v in if flip then (- re, - im) else (- re, im)) = (- re, if flip then - im else im)).
  { intros re im v Hr Hi ->. exists re, im. split; [exact Hr|split; [exact Hi|]]. destruct flip; reflexivity. }
  revert Hne Hlr Hinc Hli Wrap.
  generalize (kl_freq p) (kl_re p) (kl_im p). intros f r i Hne Hlr Hinc Hli Wrap.
  assert (Hl : (1 <= length f)%nat) by (destruct f; [congruence|simpl; lia]).
  destruct (Rleb_spec x (nth 0 f 0)) as [H0|H0].
  { (* at or below the first frequency *)
    assert (P : forall ys, interpolates f ys x (nth 0 ys 0)).
    { intros ys. split; [auto|]. split.
      - intros Hlast. destruct (Nat.eq_dec (length f) 1) as [E|E]; [rewrite E; reflexivity|].
        specialize (Hinc 0%nat (length f - 1)%nat ltac:(lia)). lra.
      - intros k Hk [Ha Hb].
        destruct (Nat.eq_dec k 0) as [->|Ek].
        + assert (x = nth 0 f 0) by lra. subst x. unfold Rdiv. ring.
        + specialize (Hinc 0%nat k ltac:(lia)). lra. }
    exact (Wrap _ _ (_, _) (P r) (P i) eq_refl). }
  apply Rnot_le_lt in H0.
  destruct (Rleb_spec (nth (length f - 1) f 0) x) as [H1|H1].
  { (* at or above the last *)
    assert (P : forall ys, interpolates f ys x (nth (length f - 1) ys 0)).
    { intros ys. split; [intros; lra|]. split; [auto|].
      intros k Hk [Ha Hb]. destruct (Nat.eq_dec (S k) (length f - 1)) as [E|E].
      - rewrite <- E in H1. lra.
      - specialize (Hinc (S k) (length f - 1)%nat ltac:(lia)). lra. }
    exact (Wrap _ _ (_, _) (P r) (P i) eq_refl). }
  apply Rnot_le_lt in H1.
  (* the interval is unique *)
  assert (U : forall a b : nat, (S a < length f)%nat -> (S b < length f)%nat ->
    nth a f 0 <= x < nth (S a) f 0 -> nth b f 0 <= x < nth (S b) f 0 -> a = b).
  { intros a b Ha Hb [A1 A2] [B1 B2]. destruct (lt_eq_lt_dec a b) as [[L|E]|L]; [|exact E|].
    - destruct (Nat.eq_dec (S a) b) as [E|]; [subst b; lra|]. specialize (Hinc (S a) b ltac:(lia)). lra.
    - destruct (Nat.eq_dec (S b) a) as [E|]; [subst a; lra|]. specialize (Hinc (S b) a ltac:(lia)). lra. }
  pose proof (bsearch_spec f x Hinc Hne ltac:(lra)) as Hb.
  destruct (bsearch f x) as [k|k].
  - destruct Hb as [Hk Ek].
    assert (Hk2 : (S k < length f)%nat).
    { destruct (Nat.eq_dec (S k) (length f)) as [E|E]; [|lia].
      replace (length f - 1)%nat with k in H1 by lia. lra. }
    assert (P : forall ys, interpolates f ys x (nth k ys 0)).
    { intros ys. split; [intros; lra|]. split; [intros; lra|].
      intros j Hj Hjx.
      assert (j = k) as ->.
      { apply U; try assumption. rewrite Ek. split; [lra|]. rewrite <- Ek. apply Hinc. lia. }
      rewrite Ek. unfold Rdiv. ring. }
    exact (Wrap _ _ (_, _) (P r) (P i) eq_refl).
  - destruct Hb as [[Hk1 Hk2] [Hlo Hhi]].
    assert (Hk3 : (k < length f)%nat).
    { destruct (Nat.eq_dec k (length f)) as [E|E]; [|lia]. rewrite E in Hlo. lra. }
    specialize (Hhi Hk3).
    destruct k as [|k]; [lia|]. replace (S k - 1)%nat with k in * by lia.
    assert (P : forall ys, interpolates f ys x
       ((1 - (x - nth k f 0) / (nth (S k) f 0 - nth k f 0)) * nth k ys 0
        + (x - nth k f 0) / (nth (S k) f 0 - nth k f 0) * nth (S k) ys 0)).
    { intros ys. split; [intros; lra|]. split; [intros; lra|].
      intros j Hj Hjx.
      assert (j = k) as -> by (apply U; try assumption; lra).
      ring. }
    exact (Wrap _ _ (_, _) (P r) (P i) eq_refl).
Qed.

(** ** A table shorter than the arrays *)
Definition padded (k : nat) (l : list R) : list R := l ++ repeat 0 k.

Lemma kaula_numbers_padded w f r i num force k central :
  (1 <= k)%nat -> f <> [] -> length r = length f -> length i = length f -> nth 0 f 0 < w -> 0 <= w ->
  kaula_numbers (F := R) w (KaulaParams (padded k f) (padded k r) (padded k i) num force) central = (0, 0).
Proof.
  intros Hk Hf Hr Hi H0 Hw. unfold kaula_numbers. num_simpl. cbn [kl_freq kl_re kl_im] in *.
  assert (Hp : (andb (negb central) (Rltb w 0)) = false).
  { destruct central; simpl; [reflexivity|]. apply Rltb_false. lra. }
  rewrite Hp.
  assert (E0 : nth 0 (padded k f) 0 = nth 0 f 0) by (destruct f; [congruence|reflexivity]).
  rewrite E0. destruct (Rleb_spec w (nth 0 f 0)); [lra|].
  assert (L : forall g, length g = length f -> nth (length (padded k f) - 1) (padded k g) 0 = 0).
  { intros g Hg. unfold padded. rewrite app_length, repeat_length, app_nth2 by lia.
    apply nth_repeat. }
  rewrite !L by (assumption || reflexivity).
  destruct (Rleb_spec 0 w); [|lra]. f_equal; lra.
Qed.
