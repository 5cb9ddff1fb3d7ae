(** * Sizes of the snapshots (C05) *)
From Coq Require Import ZArith List Bool Lia.
From Verif Require Import Model.Bincode Spec.SnapshotSpec Proofs.BincodeProofs Proofs.SnapshotProofs Proofs.SnapshotExamples.
Import ListNotations.
Local Open Scope Z_scope.

(** the size of the values of a type, when they all have the same *)
Definition plus_o (a b : option nat) : option nat :=
  match a, b with Some a, Some b => Some (a + b)%nat | _, _ => None end.
Fixpoint sum_o (l : list (option nat)) : option nat :=
  match l with [] => Some O | a :: l => plus_o a (sum_o l) end.
Definition same_o (l : list (option nat)) : option nat :=
  match l with
  | Some a :: l => if forallb (fun x => match x with Some b => Nat.eqb a b | None => false end) l then Some a else None
  | _ => None
  end.
Fixpoint fixed (t : ty) : option nat :=
  match t with
  | TNum n => Some n
  | TBool => Some 1%nat
  | TArr n t => match fixed t with Some k => Some (n * k)%nat | None => None end
  | TVec _ => None
  | TStruct ts => sum_o (map fixed ts)
  | TEnum ts => plus_o (Some 4%nat) (same_o (map fixed ts))
  end.
Lemma same_nth l k a : (k < length l)%nat -> same_o l = Some a -> nth k l None = Some a.
Proof.
  destruct l as [|[b|] l]; cbn [same_o]; try discriminate. intros Hk E.
  destruct (forallb _ l) eqn:Ef; [|discriminate]. injection E as <-.
  destruct k as [|k]; [reflexivity|]. cbn [nth]. cbn [length] in Hk. rewrite forallb_forall in Ef.
  assert (Hk' : (k < length l)%nat) by (apply Nat.succ_lt_mono; exact Hk).
  specialize (Ef (nth k l None) (nth_In l None Hk')). destruct (nth k l None); [|discriminate].
  apply Nat.eqb_eq in Ef. now subst.
Qed.
Lemma fixed_length : forall t n, fixed t = Some n -> forall v, well_typed t v -> length (enc t v) = n.
Proof.
  induction t using ty_rec'; intros m Hm v Hv; cbn [fixed] in Hm; try discriminate;
    destruct v as [z|l|k v]; cbn [well_typed] in Hv; try contradiction; cbn [enc].
  - injection Hm as <-. apply le_length.
  - injection Hm as <-. reflexivity.
  - destruct (fixed t) as [k|] eqn:E; [|discriminate]. injection Hm as <-. destruct Hv as [<- Hl].
    induction Hl as [|v l Hv _ IH]; [reflexivity|].
    cbn [length flat_map Nat.mul]. now rewrite app_length, IH, (IHt k eq_refl v Hv).
  - revert m l Hm Hv. induction H as [|t ts Ht _ IH]; intros m [|v l] Hm Hv; cbn in Hv; try contradiction.
    + cbn in Hm. injection Hm as <-. reflexivity.
    + cbn [map sum_o] in Hm. destruct Hv as [Hv Hl].
      destruct (fixed t) as [a|] eqn:Ea; [|discriminate]. destruct (sum_o (map fixed ts)) as [b|] eqn:Eb; [|discriminate].
      cbn [plus_o] in Hm. injection Hm as <-.
      cbn [map enc_seq]. now rewrite app_length, (Ht a eq_refl v Hv), (IH b l eq_refl Hl).
  - destruct (same_o (map fixed ts)) as [a|] eqn:Ea; [|discriminate]. cbn [plus_o] in Hm. injection Hm as <-.
    destruct Hv as [Hk Hv]. rewrite app_length, le_length. f_equal.
    assert (Hk' : (k < length (map fixed ts))%nat) by now rewrite map_length.
    pose proof (same_nth _ _ _ Hk' Ea) as Hn.
    rewrite (nth_indep _ _ (fixed TBool)) in Hn by exact Hk'. rewrite map_nth in Hn.
    rewrite (nth_indep _ _ (well_typed TBool)) in Hv by now rewrite map_length. rewrite map_nth in Hv.
    rewrite (nth_indep _ _ (enc TBool)) by now rewrite map_length. rewrite map_nth.
    rewrite Forall_forall in H. rewrite (H _ (nth_In _ _ Hk) a Hn v Hv). reflexivity.
Qed.
Lemma fixed_seq ts n l : fixed (TStruct ts) = Some n -> all_typed (map well_typed ts) l -> length (enc_seq (map enc ts) l) = n.
Proof. intros E Hl. exact (fixed_length (TStruct ts) n E (VL l) Hl). Qed.

Lemma whfast_bytes : forall s, well_typed twhfast s ->
  exists t h u c ls,
    s = VL (t :: h :: u :: c :: ls) /\ well_typed tf64 t /\ well_typed tf64 h /\
    well_typed tuniverse u /\ well_typed tf64 c /\
    all_typed (map well_typed twhfast_rest) ls /\
    save WHFAST s = enc tf64 t ++ enc tf64 h ++ enc tuniverse u ++ enc tf64 c
      ++ enc_seq (map enc twhfast_rest) ls.
Proof.
  intros s Hs. destruct s as [z|w|k v]; try contradiction.
  change (all_typed (well_typed tf64 :: well_typed tf64 :: well_typed tuniverse :: well_typed tf64
                     :: map well_typed twhfast_rest) w) in Hs.
  destruct w as [|t [|h [|u [|c ls]]]]; try (cbn [all_typed] in Hs; tauto).
  cbn [all_typed] in Hs. destruct Hs as [Ht [Hh [Hu [Hc Hls]]]].
  exists t, h, u, c, ls. repeat (split; [first [reflexivity|assumption]|]). reflexivity.
Qed.

Lemma sizes : forall k s, well_typed (layout k) s ->
  Z.of_nat (length (save k s)) = Z.of_nat (length (enc tuniverse (universe_of k s)))
    + match k with WHFAST => 1452 | IAS15 => 19360 | LEAPFROG => 76 end.
Proof.
  intros k s Hs.
  assert (F8 : forall v, well_typed tf64 v -> length (enc tf64 v) = 8%nat) by (intros; now apply fixed_length).
  destruct k; cbn [layout] in Hs.
  - destruct (whfast_bytes s Hs) as (t & h & u & c & ls & -> & Ht & Hh & Hu & Hc & Hls & ->).
    cbn [universe_of part nth]. rewrite !app_length, !F8 by assumption.
    assert (E : exists n, fixed (TStruct twhfast_rest) = Some n /\ Z.of_nat n = 1428) by (eexists; split; vm_compute; reflexivity).
    destruct E as (n & E & En). rewrite (fixed_seq _ _ _ E Hls). lia.
  - destruct (ias15_bytes s Hs) as (t & u & c & ls & -> & Ht & Hu & Hc & Hls & ->).
    cbn [universe_of part nth]. rewrite !app_length, !F8 by assumption.
    assert (E : exists n, fixed (TStruct tias15_rest) = Some n /\ Z.of_nat n = 19344) by (eexists; split; vm_compute; reflexivity).
    destruct E as (n & E & En). rewrite (fixed_seq _ _ _ E Hls). lia.
  - destruct (leapfrog_bytes s Hs) as (t & h & u & c & ls & -> & Ht & Hh & Hu & Hc & Hls & ->).
    cbn [universe_of part nth]. rewrite !app_length, !F8 by assumption.
    assert (E : exists n, fixed (TStruct tleapfrog_rest) = Some n /\ Z.of_nat n = 52) by (eexists; split; vm_compute; reflexivity).
    destruct E as (n & E & En). rewrite (fixed_seq _ _ _ E Hls). lia.
Qed.

(** no universe takes less than 11015 bytes: ten bodies of 1012 bytes and 895 more *)
Lemma universe_least : forall u, well_typed tuniverse u -> 11015 <= Z.of_nat (length (enc tuniverse u)).
Proof.
  intros u Hu. assert (E : Z.of_nat (min_size tuniverse) = 11015) by (vm_compute; reflexivity).
  pose proof (enc_length tuniverse u Hu). lia.
Qed.
Lemma example_size : Z.of_nat (length (save WHFAST whfast_state)) = 11015 + 1452.
Proof. vm_compute. reflexivity. Qed.
