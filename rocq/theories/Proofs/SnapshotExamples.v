(** * Concrete snapshots *)
From Coq Require Import ZArith List Bool Lia.
From Verif Require Import Model.Bincode Spec.SnapshotSpec Proofs.BincodeProofs Proofs.SnapshotProofs.
Import ListNotations.
Local Open Scope Z_scope.

(** no enum is empty *)
Fixpoint inhabited (t : ty) : bool :=
  match t with
  | TNum _ | TBool | TVec _ => true
  | TArr _ t => inhabited t
  | TStruct ts => forallb (fun b => b) (map inhabited ts)
  | TEnum ts => Nat.leb 1 (length ts) && forallb (fun b => b) (map inhabited ts)
  end.

Lemma zero_typed : forall last t, inhabited t = true -> well_typed t (zero last t).
Proof.
  intros last. induction t using ty_rec'; intros Hi; cbn [inhabited] in Hi.
  - cbn [zero well_typed]. split; [lia|]. apply Z.pow_pos_nonneg; lia.
  - cbn. now left.
  - cbn [zero well_typed]. split; [apply repeat_length|].
    apply Forall_forall. intros v Hv. apply repeat_spec in Hv. subst. now apply IHt.
  - cbn. split; [lia|constructor].
  - cbn [zero well_typed]. induction H as [|t ts Ht _ IH]; [exact I|].
    cbn in Hi. apply andb_prop in Hi. destruct Hi as [H1 H2]. cbn [map all_typed]. split; [exact (Ht H1)|exact (IH H2)].
  - apply andb_prop in Hi. destruct Hi as [Hn Hi]. apply Nat.leb_le in Hn.
    cbn [zero well_typed]. set (k := if last then (length ts - 1)%nat else 0%nat).
    assert (Hk : (k < length ts)%nat) by (unfold k; destruct last; lia). split; [exact Hk|].
    rewrite (nth_indep _ _ (well_typed TBool)), (map_nth well_typed) by now rewrite map_length.
    rewrite (nth_indep _ _ (zero last TBool)), (map_nth (zero last)) by now rewrite map_length.
    rewrite Forall_forall in H. apply H; [apply nth_In; exact Hk|].
    rewrite forallb_forall in Hi. apply Hi, in_map, nth_In. exact Hk.
Qed.

(** ** Short LeapFrog files *)
Fixpoint max_of (l : list nat) : nat := match l with [] => 0%nat | x :: l => Nat.max x (max_of l) end.
Lemma max_of_ge : forall l x, In x l -> (x <= max_of l)%nat.
Proof.
  induction l as [|y l IH]; intros x H; [destruct H|]. cbn. destruct H as [<-|H]; [lia|].
  specialize (IH x H). lia.
Qed.
Fixpoint max_size (t : ty) : nat :=
  match t with
  | TNum n => n
  | TBool => 1
  | TArr n t => n * max_size t
  | TVec _ => 0
  | TStruct ts => sum_of (map max_size ts)
  | TEnum ts => 4 + max_of (map max_size ts)
  end%nat.
Fixpoint bounded (t : ty) : bool :=
  match t with
  | TNum _ | TBool => true
  | TArr _ t => bounded t
  | TVec _ => false
  | TStruct ts | TEnum ts => forallb (fun b => b) (map bounded ts)
  end.
Lemma enc_bounded : forall t, bounded t = true -> forall v, well_typed t v ->
  (length (enc t v) <= max_size t)%nat.
Proof.
  induction t using ty_rec'; intros Hb v Hv; cbn [bounded] in Hb; try discriminate;
    destruct v as [z|l|k v]; cbn [well_typed] in Hv; try contradiction; cbn [max_size enc].
  - now rewrite le_length.
  - cbn. lia.
  - destruct Hv as [<- Hl]. induction Hl as [|v l Hv _ IH]; [cbn; lia|].
    cbn [length flat_map Nat.mul]. rewrite app_length. specialize (IHt Hb v Hv). lia.
  - revert l Hb Hv. induction H as [|t ts Ht _ IH]; intros [|v l] Hb Hv; cbn in Hv; try contradiction.
    + cbn. lia.
    + cbn in Hb. apply andb_prop in Hb. destruct Hb as [H1 H2]. destruct Hv as [Hv Hl].
      cbn [map enc_seq sum_of]. rewrite app_length. specialize (Ht H1 v Hv). specialize (IH l H2 Hl). lia.
  - destruct Hv as [Hk Hv]. rewrite app_length, le_length.
    rewrite (nth_indep _ _ (well_typed TBool)), (map_nth well_typed) in Hv by now rewrite map_length.
    rewrite (nth_indep _ _ (enc TBool)), (map_nth enc) by now rewrite map_length.
    assert (Hin : In (nth k ts TBool) ts) by (apply nth_In; exact Hk).
    rewrite Forall_forall in H. rewrite forallb_forall in Hb.
    specialize (H _ Hin (Hb _ (in_map bounded _ _ Hin)) _ Hv).
    pose proof (max_of_ge (map max_size ts) _ (in_map max_size _ _ Hin)). lia.
Qed.

Definition plain_size : nat :=
  body_numbers + max_size treference + 32
  + max_size (TStruct [ttides_internal; TStruct [taxes; taxes]]) + max_size tcoordinates
  + max_size (TStruct (tl tparticle_effects)).

Lemma plain_body : forall b, well_typed tparticle b -> no_kaula b ->
  (length (enc tparticle b) <= plain_size)%nat.
Proof.
  intros b Hb Hk. destruct b as [z|w|k v]; try contradiction.
  change (all_typed (map well_typed (tparticle_numbers ++ after_reference)) w) in Hb.
  destruct (all_typed_app _ _ _ Hb) as [ns [es [-> [Hln [H1 H2]]]]].
  change (enc tparticle (VL (ns ++ es))) with
    (enc_seq (map enc (tparticle_numbers ++ after_reference)) (ns ++ es)).
  rewrite enc_seq_app, app_length, (numbers_length ns H1) by exact Hln.
  destruct (effects_cases es H2) as [r [e [pr [co [fl [-> [Hr [He [Hpr Hco]]]]]]]]].
  assert (Hfl : all_typed (map well_typed (tl tparticle_effects)) fl).
  { unfold after_reference in H2. cbn [map tparticle_effects all_typed] in H2. cbn [map tparticle_effects tl]. tauto. }
  change (enc_seq (map enc after_reference) (r :: VL [e; pr; co] :: fl))
    with (enc treference r ++ (enc ttides_effect e ++
          enc (TStruct [ttides_internal; TStruct [taxes; taxes]]) pr ++ enc tcoordinates co ++ []) ++
          enc (TStruct (tl tparticle_effects)) (VL fl)).
  unfold no_kaula, tides_effect in Hk. cbn [part] in Hk.
  rewrite app_nth2 in Hk by (rewrite Hln; cbn; lia). rewrite Hln in Hk. cbn [nth length tparticle_numbers Nat.sub part] in Hk.
  pose proof (enc_bounded treference eq_refl r Hr).
  pose proof (enc_bounded (TStruct [ttides_internal; TStruct [taxes; taxes]]) eq_refl pr Hpr).
  pose proof (enc_bounded tcoordinates eq_refl co Hco).
  pose proof (enc_bounded (TStruct (tl tparticle_effects)) eq_refl (VL fl) Hfl).
  assert (length (enc ttides_effect e) <= 32)%nat.
  { unfold ttides_effect in *. destruct (enum_bytes _ _ He) as [k [m [-> [Hkk [Hm ->]]]]].
    rewrite app_length, le_length.
    assert (Hmod : well_typed ttidal_model m -> match m with VT 2 _ => False | _ => True end ->
                   (length (enc ttidal_model m) <= 28)%nat).
    { intros Hm' Hm2. unfold ttidal_model in *. destruct (enum_bytes _ _ Hm') as [j [x [-> [Hj [Hx ->]]]]].
      rewrite app_length, le_length.
      destruct j as [|[|[|j]]]; [| |contradiction|cbn in Hj; lia]; cbn [nth] in Hx |- *.
      - pose proof (enc_bounded tconstant_time_lag eq_refl x Hx) as Hsz.
        change (max_size tconstant_time_lag) with 24%nat in Hsz. lia.
      - pose proof (enc_bounded tcreep eq_refl x Hx) as Hsz.
        change (max_size tcreep) with 8%nat in Hsz. lia. }
    destruct k as [|[|[|]]]; [| | |cbn in Hkk; lia]; cbn [nth] in Hm |- *.
    - specialize (Hmod Hm). destruct m as [| |[|[|[|]]] ?]; specialize (Hmod Hk); lia.
    - specialize (Hmod Hm). destruct m as [| |[|[|[|]]] ?]; specialize (Hmod Hk); lia.
    - pose proof (enc_bounded tunit eq_refl m Hm) as Hsz.
        change (max_size tunit) with 0%nat in Hsz. lia. }
  unfold plain_size. rewrite !app_length. cbn [length]. lia.
Qed.

Lemma plain_bodies : forall ps, Forall (well_typed tparticle) ps -> Forall no_kaula ps ->
  (length (flat_map (enc tparticle) ps) <= length ps * plain_size)%nat.
Proof.
  intros ps H. induction H as [|p ps Hp _ IH]; intros Hk; [cbn; lia|].
  inversion Hk as [|? ? H1 H2]. subst. cbn [flat_map length Nat.mul]. rewrite app_length.
  pose proof (plain_body p Hp H1). specialize (IH H2). lia.
Qed.

Theorem leapfrog_restored_when_short : forall s, well_typed tleapfrog s ->
  (forall i, (i < 10)%nat -> no_kaula (part i (part 2 (universe_of LEAPFROG s)))) ->
  (table_bytes LEAPFROG s <= 2000 * 8)%nat -> restored LEAPFROG s.
Proof.
  intros s Hs Hk Htab. apply leapfrog_restored_by_size; [exact Hs|].
  destruct (leapfrog_bytes s Hs) as [t [h [u [c [ls [-> [Ht [Hh [Hu [Hc [Hls ->]]]]]]]]]]].
  unfold table_bytes, universe_of in *. cbn [part nth] in Hk, Htab.
  destruct u as [z|w|k v]; try contradiction.
  change (all_typed (well_typed tf64 :: well_typed tf64 :: well_typed (TArr 10 tparticle)
                     :: map well_typed tuniverse_rest) w) in Hu.
  destruct w as [|i [|l [|p us]]]; try (cbn in Hu; tauto).
  cbn [all_typed] in Hu. destruct Hu as [Hi [Hl [Hp Hus]]].
  destruct p as [z|ps|k v]; try contradiction.
  change (length ps = 10%nat /\ Forall (well_typed tparticle) ps) in Hp. destruct Hp as [Hn Hps].
  cbn [part nth] in Hk, Htab.
  assert (Hkk : Forall no_kaula ps).
  { apply Forall_forall. intros b Hb. destruct (In_nth ps b (VZ 0) Hb) as [j [Hj <-]].
    apply Hk. lia. }
  pose proof (plain_bodies ps Hps Hkk) as Hlen. rewrite Hn in Hlen.
  unfold tuniverse_rest in Hus. cbn [map] in Hus.
  destruct us as [|e [|n [|ce [|gr [|ho [|hm [|ro [|]]]]]]]]; try (cbn [all_typed] in Hus; tauto).
  cbn [all_typed] in Hus. destruct Hus as [He [Hnn [Hce [Hgr [Hho [Hhm [Hro _]]]]]]]. cbn [nth] in Htab.
  change (enc tuniverse (VL (i :: l :: VL ps :: [e; n; ce; gr; ho; hm; ro]))) with
    (enc tf64 i ++ enc tf64 l ++ flat_map (enc tparticle) ps ++ enc (TVec tevolver) e ++
     enc tusize n ++ enc tconsider_effects ce ++ enc trelativity_implementation gr ++
     enc thosts ho ++ enc (TVec (TStruct [tusize; tf64])) hm ++ enc (TArr 100 tf64) ro ++ []).
  pose proof (enc_bounded tf64 eq_refl t Ht). pose proof (enc_bounded tf64 eq_refl h Hh).
  pose proof (enc_bounded tf64 eq_refl i Hi). pose proof (enc_bounded tf64 eq_refl l Hl).
  pose proof (enc_bounded tf64 eq_refl c Hc). pose proof (enc_bounded tusize eq_refl n Hnn).
  pose proof (enc_bounded tconsider_effects eq_refl ce Hce).
  pose proof (enc_bounded trelativity_implementation eq_refl gr Hgr).
  pose proof (enc_bounded thosts eq_refl ho Hho). pose proof (enc_bounded (TArr 100 tf64) eq_refl ro Hro).
  pose proof (enc_bounded (TStruct tleapfrog_rest) eq_refl (VL ls) Hls) as Hrest. cbn [enc] in Hrest.
  rewrite !app_length. cbn [length].
  assert (Hsize : (8 + 8 + (8 + (8 + (10 * plain_size + (2000 * 8 + (8 + (max_size tconsider_effects +
     (max_size trelativity_implementation + (max_size thosts + (max_size (TArr 100 tf64)))))))))) +
     8 + max_size (TStruct tleapfrog_rest) < min_size tias15)%nat)
    by (apply Nat.ltb_lt; vm_compute; reflexivity).
  change (max_size tf64) with 8%nat in *. change (max_size tusize) with 8%nat in *. lia.
Qed.

(** ** Bodies without effects *)
Lemma idle_not_whfast : forall b,
  dec_seq (map dec after_reference) (skipn 8 (enc_seq (map enc after_reference) idle_effects) ++ b) = None.
Proof. intros b. vm_compute. reflexivity. Qed.

Lemma idle_length : forall es, all_typed (map well_typed after_reference) es -> length es = 7%nat.
Proof.
  intros es H. unfold after_reference, tparticle_effects in H. cbn [map] in H.
  do 7 (destruct es as [|? es]; [cbn [all_typed] in H; tauto|]).
  destruct es; [reflexivity|cbn [all_typed] in H; tauto].
Qed.

(** An IAS15 file is restored when the first listed body has no effects at all. *)
Theorem ias15_restored_when_idle : forall s, well_typed tias15 s ->
  (forall j, (j < 7)%nat -> part (20 + j) (first_body IAS15 s) = nth j idle_effects (VZ 0)) ->
  restored IAS15 s.
Proof.
  intros s Hs Hidle. apply ias15_restored_if; [exact Hs|].
  destruct (ias15_first_body s Hs) as [a [es [b [-> [Ha [Hes Hpart]]]]]].
  assert (E : es = idle_effects).
  { apply (nth_ext _ _ (VZ 0) (VZ 0)).
    - rewrite (idle_length es Hes). reflexivity.
    - intros j Hj. rewrite (idle_length es Hes) in Hj. rewrite <- Hpart. now apply Hidle. }
  subst es. rewrite <- (firstn_skipn 8 (enc_seq (map enc after_reference) idle_effects)).
  rewrite <- app_assoc, app_assoc. apply whfast_none; [|apply idle_not_whfast].
  rewrite app_length, Ha. set (n := length (firstn _ _)).
  assert (n = 8%nat) by (vm_compute; reflexivity). lia.
Qed.

(** ** Concrete states *)
(** bit patterns of a few doubles *)
Definition one := VZ 4607182418800017408.           (* 1.0 *)
Definition small := VZ 4517329193108106637.         (* 1e-6 *)
Definition third := VZ 4599676419421066581.         (* 1/3 *)
Definition axis (x : val) := VL [x; VZ 0; VZ 0].

(** the numbers of a body of mass [m] at [x] with moment of inertia [i] *)
Definition numbers (id : Z) (m x i : val) : list val :=
  [VZ id; m; m; small; axis x; axis (VZ 0); axis (VZ 0); axis (VZ 0); axis x; axis (VZ 0);
   x; VZ 0; VZ 0; VZ 0; axis (VZ 0); VZ 0; axis (VZ 0); axis (VZ 0); third; i].
(** two bodies, the rest of the array unused *)
Definition bodies (reference : val) (inertia : val) : list val :=
  VL (numbers 0 one (VZ 0) inertia ++ reference :: map (zero true) tparticle_effects)
  :: VL (numbers 1 small one third ++ idle_effects)
  :: repeat (VL (map (zero true) tparticle_numbers ++ idle_effects)) 8.
Definition ias15_state (reference : val) : val :=
  VL (small :: VL (VZ 0 :: one :: VL (bodies reference third) :: VL [] :: VZ 2 :: map (zero true) (tl (tl tuniverse_rest)))
      :: VZ 0 :: map (zero true) tias15_rest).
Definition leapfrog_state (inertia : val) (evolvers : list val) : val :=
  VL (small :: small :: VL (VZ 0 :: one :: VL (bodies (VT 0 (VL [])) inertia) :: VL evolvers
      :: VZ 2 :: map (zero true) (tl (tl tuniverse_rest)))
      :: VZ 0 :: map (zero true) tleapfrog_rest).
Definition whfast_state : val :=
  VL (small :: small :: VL (VZ 0 :: one :: VL (bodies (VT 0 (VL [])) third) :: VL []
      :: VZ 2 :: map (zero true) (tl (tl tuniverse_rest)))
      :: VZ 0 :: map (zero true) twhfast_rest).
(** an evolution table of [n] entries, all zero *)
Definition evolver (n : nat) : val := VL [VT 0 (VZ 0); VL (repeat (VZ 0) n); VL []; VL []; VL []; VL []; VZ 0].

Lemma bodies_typed : forall r i, well_typed treference r -> well_typed tf64 i ->
  well_typed (TArr 10 tparticle) (VL (bodies r i)).
Proof.
  intros r i Hr Hi. split; [reflexivity|].
  assert (Heff : all_typed (map well_typed tparticle_effects) (map (zero true) tparticle_effects)).
  { exact (zero_typed true (TStruct tparticle_effects) eq_refl). }
  assert (Hidle : all_typed (map well_typed after_reference) idle_effects).
  { split; [|exact Heff]. split; [cbn; lia|exact I]. }
  assert (Hjoin : forall a b, all_typed (map well_typed tparticle_numbers) a ->
            all_typed (map well_typed after_reference) b -> well_typed tparticle (VL (a ++ b))).
  { intros a b H1 H2.
    change (all_typed (map well_typed (tparticle_numbers ++ after_reference)) (a ++ b)).
    generalize tparticle_numbers a H1. clear - H2. induction l as [|t l IH]; intros [|v a] H; cbn in H; try tauto.
    cbn [app map all_typed]. split; [tauto|]. apply IH. tauto. }
  unfold bodies. constructor; [|constructor].
  - apply Hjoin; [|split; [exact Hr|exact Heff]].
    cbn [well_typed tf64] in Hi. unfold numbers.
    repeat (split; [cbn; first [lia | repeat split; lia | exact Hi] |]). exact I.
  - apply Hjoin; [|exact Hidle].
    repeat (split; [cbn; first [lia | repeat split; lia] |]). exact I.
  - apply Forall_forall. intros v Hv. apply repeat_spec in Hv. subst v. apply Hjoin; [|exact Hidle].
    exact (zero_typed true (TStruct tparticle_numbers) eq_refl).
Qed.

Lemma rest_typed : forall ts, forallb (fun b => b) (map inhabited ts) = true ->
  all_typed (map well_typed ts) (map (zero true) ts).
Proof. intros ts H. exact (zero_typed true (TStruct ts) H). Qed.

Lemma state_typed : forall r i es, well_typed treference r -> well_typed tf64 i ->
  well_typed (TVec tevolver) (VL es) ->
  well_typed tuniverse (VL (VZ 0 :: one :: VL (bodies r i) :: VL es :: VZ 2 :: map (zero true) (tl (tl tuniverse_rest)))).
Proof.
  intros r i es Hr Hi Hes. split; [cbn; lia|]. split; [cbn; lia|]. split; [now apply bodies_typed|].
  split; [exact Hes|]. split; [cbn; lia|].
  exact (rest_typed (tl (tl tuniverse_rest)) eq_refl).
Qed.

Lemma ias15_state_typed : forall r, well_typed treference r -> well_typed tias15 (ias15_state r).
Proof.
  intros r Hr. split; [cbn; lia|]. split.
  { apply state_typed; [exact Hr|cbn; lia|split; [cbn; lia|constructor]]. }
  split; [cbn; lia|]. exact (rest_typed tias15_rest eq_refl).
Qed.

Lemma evolver_typed : forall n, Z.of_nat n < 2 ^ 64 -> well_typed tevolver (evolver n).
Proof.
  intros n Hn. split; [cbn; lia|]. split.
  { split; [now rewrite repeat_length|]. apply Forall_forall. intros v Hv. apply repeat_spec in Hv. subst. cbn. lia. }
  do 4 (split; [split; [cbn; lia|constructor]|]). split; [cbn; lia|exact I].
Qed.

Lemma leapfrog_state_typed : forall i es, well_typed tf64 i -> well_typed (TVec tevolver) (VL es) ->
  well_typed tleapfrog (leapfrog_state i es).
Proof.
  intros i es Hi Hes. split; [cbn; lia|]. split; [cbn; lia|]. split.
  { apply state_typed; [split; [cbn; lia|exact I]|exact Hi|exact Hes]. }
  split; [cbn; lia|]. exact (rest_typed tleapfrog_rest eq_refl).
Qed.

Lemma whfast_state_typed : well_typed twhfast whfast_state.
Proof.
  split; [cbn; lia|]. split; [cbn; lia|]. split.
  { apply state_typed; [split; [cbn; lia|exact I]|cbn; lia|split; [cbn; lia|constructor]]. }
  split; [cbn; lia|]. exact (rest_typed twhfast_rest eq_refl).
Qed.

(** Two bodies, the first one referred to the second, integrated with IAS15:
    the snapshot comes back as a WHFast simulation. *)
Theorem ias15_not_restored : exists s, well_typed tias15 s /\
  (exists w, restore (save IAS15 s) = Some (WHFAST, w)) /\ ~ restored IAS15 s.
Proof.
  exists (ias15_state (VT 1 (VZ 1))).
  assert (Ht : well_typed tias15 (ias15_state (VT 1 (VZ 1)))) by (apply ias15_state_typed; split; cbn; lia).
  destruct (ias15_read_as_whfast (ias15_state (VT 1 (VZ 1))) 1 Ht eq_refl ltac:(lia)) as [w Hw].
  { vm_compute. reflexivity. }
  split; [exact Ht|]. split; [exists w; exact Hw|].
  unfold restored. rewrite Hw. discriminate.
Qed.
Definition is_kind (k : kind) (r : option (kind * val)) : bool :=
  match r, k with
  | Some (WHFAST, _), WHFAST | Some (IAS15, _), IAS15 | Some (LEAPFROG, _), LEAPFROG => true
  | _, _ => false
  end.

(** Two bodies with a long evolution table, integrated with LeapFrog, the first
    body's moment of inertia still zero: the snapshot comes back as IAS15. *)
Lemma leapfrog_read_as_ias15 :
  is_kind IAS15 (restore (save LEAPFROG (leapfrog_state (VZ 0) [evolver 4000]))) = true.
Proof. vm_compute. reflexivity. Qed.

Theorem leapfrog_not_restored : exists s, well_typed tleapfrog s /\
  (exists w, restore (save LEAPFROG s) = Some (IAS15, w)) /\ ~ restored LEAPFROG s.
Proof.
  exists (leapfrog_state (VZ 0) [evolver 4000]).
  pose proof leapfrog_read_as_ias15 as H.
  assert (Ht : well_typed tleapfrog (leapfrog_state (VZ 0) [evolver 4000])).
  { apply leapfrog_state_typed; [cbn; lia|]. split; [cbn [length]; lia|].
    constructor; [|constructor]. apply evolver_typed. lia. }
  split; [exact Ht|]. unfold restored.
  destruct (restore (save LEAPFROG (leapfrog_state (VZ 0) [evolver 4000]))) as [[k w]|];
    [|discriminate]. destruct k; try discriminate.
  split; [exists w; reflexivity|discriminate].
Qed.
