(** * Which snapshots are restored with the right integrator (C05) *)
From Coq Require Import ZArith List Bool Lia.
From Verif Require Import Model.Bincode Spec.SnapshotSpec Proofs.BincodeProofs.
Import ListNotations.
Local Open Scope Z_scope.

Lemma layouts_regular : forall k, regular (layout k) = true.
Proof. intros []; vm_compute; reflexivity. Qed.

Lemma layout_round_trip : forall k s rest, well_typed (layout k) s ->
  dec (layout k) (save k s ++ rest) = Some (s, rest).
Proof. intros k s rest H. exact (round_trip (layout k) (layouts_regular k) s rest H). Qed.

Lemma saved_decodes : forall k s, well_typed (layout k) s -> dec (layout k) (save k s) = Some (s, []).
Proof.
  intros k s H. rewrite <- (app_nil_r (save k s)). now apply layout_round_trip.
Qed.

Theorem whfast_restored : forall s, well_typed twhfast s -> restored WHFAST s.
Proof.
  intros s H. unfold restored, restore.
  change twhfast with (layout WHFAST). rewrite (saved_decodes WHFAST s H). reflexivity.
Qed.

Lemma ias15_restored_if : forall s, well_typed tias15 s ->
  dec twhfast (save IAS15 s) = None -> restored IAS15 s.
Proof.
  intros s H Hw. unfold restored, restore. rewrite Hw.
  change tias15 with (layout IAS15). rewrite (saved_decodes IAS15 s H). reflexivity.
Qed.

Lemma leapfrog_restored_if : forall s, well_typed tleapfrog s ->
  dec twhfast (save LEAPFROG s) = None -> dec tias15 (save LEAPFROG s) = None ->
  restored LEAPFROG s.
Proof.
  intros s H Hw Hi. unfold restored, restore. rewrite Hw, Hi.
  change tleapfrog with (layout LEAPFROG). rewrite (saved_decodes LEAPFROG s H). reflexivity.
Qed.

(** ** Sequences *)
Lemma dec_seq_app : forall ds1 ds2 bs,
  dec_seq (ds1 ++ ds2) bs =
  match dec_seq ds1 bs with
  | Some (l1, r) => match dec_seq ds2 r with Some (l2, r) => Some (l1 ++ l2, r) | None => None end
  | None => None
  end.
Proof.
  induction ds1 as [|d ds1 IH]; intros ds2 bs; cbn [app dec_seq].
  - destruct (dec_seq ds2 bs) as [[l r]|]; reflexivity.
  - destruct (d bs) as [[v r]|]; [|reflexivity]. rewrite IH.
    destruct (dec_seq ds1 r) as [[l1 r1]|]; [|reflexivity].
    destruct (dec_seq ds2 r1) as [[l2 r2]|]; reflexivity.
Qed.

Lemma all_typed_app : forall ts1 ts2 l, all_typed (map well_typed (ts1 ++ ts2)) l ->
  exists l1 l2, l = l1 ++ l2 /\ length l1 = length ts1 /\
    all_typed (map well_typed ts1) l1 /\ all_typed (map well_typed ts2) l2.
Proof.
  induction ts1 as [|t ts1 IH]; intros ts2 l H.
  - exists [], l. repeat split; assumption.
  - destruct l as [|v l]; [destruct H|]. cbn in H. destruct H as [Hv H].
    destruct (IH ts2 l H) as [l1 [l2 [-> [Hn [H1 H2]]]]].
    exists (v :: l1), l2. repeat split; try assumption. cbn. now rewrite Hn.
Qed.

Lemma enc_seq_app : forall ts1 ts2 l1 l2, length l1 = length ts1 ->
  enc_seq (map enc (ts1 ++ ts2)) (l1 ++ l2) = enc_seq (map enc ts1) l1 ++ enc_seq (map enc ts2) l2.
Proof.
  induction ts1 as [|t ts1 IH]; intros ts2 [|v l1] l2 H; try discriminate; [reflexivity|].
  cbn [app map enc_seq]. rewrite IH by now injection H. now rewrite app_assoc.
Qed.

(** ** Types without lengths or tags: any bytes can be read *)
Fixpoint flat (t : ty) : bool :=
  match t with
  | TNum _ => true
  | TArr _ t => flat t
  | TStruct ts => forallb (fun b => b) (map flat ts)
  | _ => false
  end.

Lemma dec_rep_flat : forall t, (forall a b, length a = min_size t -> exists v, dec t (a ++ b) = Some (v, b)) ->
  forall n a b, length a = (n * min_size t)%nat -> exists l, dec_rep (dec t) n (a ++ b) = Some (l, b).
Proof.
  intros t Ht. induction n; intros a b Ha.
  - destruct a; [|discriminate]. now exists [].
  - cbn [Nat.mul] in Ha. rewrite <- (firstn_skipn (min_size t) a), <- app_assoc.
    destruct (Ht (firstn (min_size t) a) (skipn (min_size t) a ++ b)) as [v Hv].
    { rewrite firstn_length. lia. }
    destruct (IHn (skipn (min_size t) a) b) as [l Hl]. { rewrite skipn_length. lia. }
    exists (v :: l). cbn [dec_rep]. now rewrite Hv, Hl.
Qed.

Lemma dec_flat : forall t, flat t = true -> forall a b, length a = min_size t ->
  exists v, dec t (a ++ b) = Some (v, b).
Proof.
  induction t using ty_rec'; intros Hf a b Ha; cbn [flat] in Hf; try discriminate; cbn [min_size] in Ha.
  - destruct (read_app n a b Ha) as [z Hz]. exists (VZ z). cbn [dec]. now rewrite Hz.
  - destruct (dec_rep_flat t (IHt Hf) n a b Ha) as [l Hl]. exists (VL l). cbn [dec]. now rewrite Hl.
  - assert (exists l, dec_seq (map dec ts) (a ++ b) = Some (l, b)) as [l Hl].
    2: { exists (VL l). cbn [dec]. now rewrite Hl. }
    revert a b Hf Ha. induction H as [|t ts Ht _ IH]; intros a b Hf Ha.
    + destruct a; [|discriminate]. now exists [].
    + cbn in Hf. apply andb_prop in Hf. destruct Hf as [Hf1 Hf2]. cbn [map sum_of] in Ha.
      rewrite <- (firstn_skipn (min_size t) a), <- app_assoc.
      destruct (Ht Hf1 (firstn (min_size t) a) (skipn (min_size t) a ++ b)) as [v Hv].
      { rewrite firstn_length. lia. }
      destruct (IH (skipn (min_size t) a) b Hf2) as [l Hl]. { rewrite skipn_length. lia. }
      exists (v :: l). cbn [map dec_seq]. now rewrite Hv, Hl.
Qed.

Lemma flat_length : forall t, flat t = true -> forall v, well_typed t v -> length (enc t v) = min_size t.
Proof.
  induction t using ty_rec'; intros Hf v Hv; cbn [flat] in Hf; try discriminate;
    destruct v as [z|l|k v]; cbn [well_typed] in Hv; try contradiction; cbn [min_size enc].
  - apply le_length.
  - destruct Hv as [<- Hl]. induction Hl as [|v l Hv _ IH]; [reflexivity|].
    cbn [length flat_map Nat.mul]. now rewrite app_length, IH, (IHt Hf v Hv).
  - revert l Hf Hv. induction H as [|t ts Ht _ IH]; intros [|v l] Hf Hv; cbn in Hv; try contradiction.
    + reflexivity.
    + cbn in Hf. apply andb_prop in Hf. destruct Hf as [Hf1 Hf2]. destruct Hv as [Hv Hl].
      cbn [map enc_seq sum_of]. now rewrite app_length, (Ht Hf1 v Hv), (IH l Hf2 Hl).
Qed.

Lemma dec_seq_flat : forall ts a b, flat (TStruct ts) = true -> length a = min_size (TStruct ts) ->
  exists l, dec_seq (map dec ts) (a ++ b) = Some (l, b).
Proof.
  intros ts a b Hf Ha. destruct (dec_flat (TStruct ts) Hf a b Ha) as [v Hv].
  cbn [dec] in Hv. unfold as_list in Hv.
  destruct (dec_seq (map dec ts) (a ++ b)) as [[l r]|]; [|discriminate].
  injection Hv as _ <-. now exists l.
Qed.

(** an enum whose variant is out of range cannot be read *)
Lemma dec_enum_none : forall ts bs k r, read 4 bs = Some (k, r) -> Z.of_nat (length ts) <= k ->
  dec (TEnum ts) bs = None.
Proof. intros ts bs k r H Hk. cbn [dec]. rewrite H. now rewrite (proj2 (Z.leb_le _ _)) by exact Hk. Qed.

Lemma dec_seq_none : forall d ds bs, d bs = None -> dec_seq (d :: ds) bs = None.
Proof. intros d ds bs H. cbn [dec_seq]. now rewrite H. Qed.

(** ** Reading a file as WHFast or IAS15 up to the first body's reference *)
(** the bytes of the numbers of a body in front of its reference *)
Definition body_numbers : nat := min_size (TStruct tparticle_numbers).

Lemma split_at : forall n m (a : list Z), length a = (n + m)%nat ->
  exists x y, a = x ++ y /\ length x = n /\ length y = m.
Proof.
  intros n m a H. exists (firstn n a), (skipn n a).
  rewrite firstn_skipn, firstn_length, skipn_length. repeat split; lia.
Qed.

Definition after_reference := treference :: tparticle_effects.

(** the universe, read from bytes that start with anything *)
Lemma universe_start : forall a b, length a = (16 + body_numbers)%nat ->
  exists i l ns, dec tuniverse (a ++ b) =
    match dec_seq (map dec after_reference) b with
    | None => None
    | Some (es, r) =>
        match dec_rep (dec tparticle) 9 r with
        | None => None
        | Some (ps, r) =>
            match dec_seq (map dec tuniverse_rest) r with
            | None => None
            | Some (us, r) => Some (VL (i :: l :: VL (VL (ns ++ es) :: ps) :: us), r)
            end
        end
    end.
Proof.
  intros a b Ha.
  destruct (split_at 8 (8 + body_numbers) a Ha) as [a1 [a' [-> [H1 Ha']]]].
  destruct (split_at 8 body_numbers a' Ha') as [a2 [a3 [-> [H2 H3]]]].
  rewrite <- !app_assoc.
  destruct (dec_flat tf64 eq_refl a1 (a2 ++ a3 ++ b) H1) as [i Hi].
  destruct (dec_flat tf64 eq_refl a2 (a3 ++ b) H2) as [l Hl].
  destruct (dec_seq_flat tparticle_numbers a3 b eq_refl H3) as [ns Hn].
  exists i, l, ns.
  change (dec tuniverse ?x) with
    (as_list (dec_seq (dec tf64 :: dec tf64 :: dec (TArr 10 tparticle) :: map dec tuniverse_rest) x)).
  cbn [dec_seq]. rewrite Hi, Hl.
  change (dec (TArr 10 tparticle) ?x) with (as_list (dec_rep (dec tparticle) 10 x)).
  change (dec_rep (dec tparticle) 10 ?x) with
    (match dec tparticle x with
     | Some (v, r) => match dec_rep (dec tparticle) 9 r with
                      | Some (l, r) => Some (v :: l, r) | None => None end
     | None => None end).
  change (dec tparticle (a3 ++ b)) with
    (as_list (dec_seq (map dec (tparticle_numbers ++ after_reference)) (a3 ++ b))).
  rewrite map_app, dec_seq_app, Hn.
  destruct (dec_seq (map dec after_reference) b) as [[es r]|]; [|reflexivity].
  cbn [as_list]. destruct (dec_rep (dec tparticle) 9 r) as [[ps r1]|]; [|reflexivity].
  cbn [as_list]. destruct (dec_seq (map dec tuniverse_rest) r1) as [[us r2]|]; reflexivity.
Qed.

(** the parts of a well-typed universe and its bytes *)
Lemma universe_bytes : forall u, well_typed tuniverse u ->
  exists i l ns es ps us a,
    u = VL (i :: l :: VL (VL (ns ++ es) :: ps) :: us) /\
    length ns = length tparticle_numbers /\
    all_typed (map well_typed tparticle_numbers) ns /\
    all_typed (map well_typed after_reference) es /\
    length ps = 9%nat /\ Forall (well_typed tparticle) ps /\
    all_typed (map well_typed tuniverse_rest) us /\
    length a = 16%nat /\
    enc tuniverse u = a ++ enc_seq (map enc tparticle_numbers) ns
      ++ enc_seq (map enc after_reference) es
      ++ flat_map (enc tparticle) ps ++ enc_seq (map enc tuniverse_rest) us.
Proof.
  intros u Hu. destruct u as [z|w|k v]; try contradiction.
  change (all_typed (well_typed tf64 :: well_typed tf64 :: well_typed (TArr 10 tparticle)
                     :: map well_typed tuniverse_rest) w) in Hu.
  destruct w as [|i [|l [|p us]]]; try (cbn in Hu; tauto).
  cbn [all_typed] in Hu. destruct Hu as [Hi [Hl [Hp Hus]]].
  destruct p as [z|ps|k v]; try contradiction.
  change (length ps = 10%nat /\ Forall (well_typed tparticle) ps) in Hp.
  destruct Hp as [Hn Hps]. destruct ps as [|p ps]; [discriminate|]. injection Hn as Hn.
  inversion Hps as [|? ? Hp Hps']. subst.
  destruct p as [z|w|k v]; try contradiction.
  change (all_typed (map well_typed (tparticle_numbers ++ after_reference)) w) in Hp.
  destruct (all_typed_app _ _ _ Hp) as [ns [es [-> [Hln [H1 H2]]]]].
  exists i, l, ns, es, ps, us, (enc tf64 i ++ enc tf64 l).
  repeat (split; [first [reflexivity|assumption]|]). split.
  - rewrite app_length, (flat_length tf64 eq_refl i Hi), (flat_length tf64 eq_refl l Hl). reflexivity.
  - change (enc tuniverse (VL (i :: l :: VL (VL (ns ++ es) :: ps) :: us))) with
      (enc tf64 i ++ enc tf64 l ++
       (enc_seq (map enc (tparticle_numbers ++ after_reference)) (ns ++ es) ++ flat_map (enc tparticle) ps)
       ++ enc_seq (map enc tuniverse_rest) us).
    rewrite enc_seq_app by exact Hln. now rewrite <- !app_assoc.
Qed.

Lemma numbers_length : forall ns, all_typed (map well_typed tparticle_numbers) ns ->
  length (enc_seq (map enc tparticle_numbers) ns) = body_numbers.
Proof. intros ns H. exact (flat_length (TStruct tparticle_numbers) eq_refl (VL ns) H). Qed.

(** a file read as WHFast: the first fields never fail *)
Lemma whfast_start : forall a b, length a = (32 + body_numbers)%nat ->
  exists t h i l ns, dec twhfast (a ++ b) =
    match dec_seq (map dec after_reference) b with
    | None => None
    | Some (es, r) =>
        match dec_rep (dec tparticle) 9 r with
        | None => None
        | Some (ps, r) =>
            match dec_seq (map dec tuniverse_rest) r with
            | None => None
            | Some (us, r) =>
                match dec_seq (map dec (tf64 :: twhfast_rest)) r with
                | None => None
                | Some (ws, r) => Some (VL (t :: h :: VL (i :: l :: VL (VL (ns ++ es) :: ps) :: us) :: ws), r)
                end
            end
        end
    end.
Proof.
  intros a b Ha.
  destruct (split_at 8 (24 + body_numbers) a Ha) as [a1 [a' [-> [H1 Ha']]]].
  destruct (split_at 8 (16 + body_numbers) a' Ha') as [a2 [a3 [-> [H2 H3]]]].
  rewrite <- !app_assoc.
  destruct (dec_flat tf64 eq_refl a1 (a2 ++ a3 ++ b) H1) as [t Ht].
  destruct (dec_flat tf64 eq_refl a2 (a3 ++ b) H2) as [h Hh].
  destruct (universe_start a3 b H3) as [i [l [ns Hu]]].
  exists t, h, i, l, ns.
  change (dec twhfast ?x) with
    (as_list (dec_seq (dec tf64 :: dec tf64 :: dec tuniverse :: map dec (tf64 :: twhfast_rest)) x)).
  cbn [dec_seq]. rewrite Ht, Hh, Hu.
  destruct (dec_seq (map dec after_reference) b) as [[es r]|]; [|reflexivity].
  destruct (dec_rep (dec tparticle) 9 r) as [[ps r1]|]; [|reflexivity].
  destruct (dec_seq (map dec tuniverse_rest) r1) as [[us r2]|]; [|reflexivity].
  destruct (dec_seq (map dec (tf64 :: twhfast_rest)) r2) as [[ws r3]|]; reflexivity.
Qed.

Lemma whfast_none : forall a b, length a = (32 + body_numbers)%nat ->
  dec_seq (map dec after_reference) b = None -> dec twhfast (a ++ b) = None.
Proof.
  intros a b Ha H. destruct (whfast_start a b Ha) as [t [h [i [l [ns E]]]]]. now rewrite E, H.
Qed.

(** a file read as IAS15 *)
Lemma ias15_none : forall a b, length a = (24 + body_numbers)%nat ->
  dec_seq (map dec after_reference) b = None -> dec tias15 (a ++ b) = None.
Proof.
  intros a b Ha H.
  destruct (split_at 8 (16 + body_numbers) a Ha) as [a1 [a2 [-> [H1 H2]]]].
  rewrite <- app_assoc.
  destruct (dec_flat tf64 eq_refl a1 (a2 ++ b) H1) as [t Ht].
  destruct (universe_start a2 b H2) as [i [l [ns Hu]]].
  change (dec tias15 ?x) with
    (as_list (dec_seq (dec tf64 :: dec tuniverse :: map dec (tf64 :: tias15_rest)) x)).
  cbn [dec_seq]. rewrite Ht, Hu, H. reflexivity.
Qed.

(** ** LeapFrog files *)
(** the bytes of a LeapFrog state *)
Lemma leapfrog_bytes : forall s, well_typed tleapfrog s ->
  exists t h u c ls,
    s = VL (t :: h :: u :: c :: ls) /\ well_typed tf64 t /\ well_typed tf64 h /\
    well_typed tuniverse u /\ well_typed tf64 c /\
    all_typed (map well_typed tleapfrog_rest) ls /\
    save LEAPFROG s = enc tf64 t ++ enc tf64 h ++ enc tuniverse u ++ enc tf64 c
      ++ enc_seq (map enc tleapfrog_rest) ls.
Proof.
  intros s Hs. destruct s as [z|w|k v]; try contradiction.
  change (all_typed (well_typed tf64 :: well_typed tf64 :: well_typed tuniverse :: well_typed tf64
                     :: map well_typed tleapfrog_rest) w) in Hs.
  destruct w as [|t [|h [|u [|c ls]]]]; try (cbn [all_typed] in Hs; tauto).
  cbn [all_typed] in Hs. destruct Hs as [Ht [Hh [Hu [Hc Hls]]]].
  exists t, h, u, c, ls. repeat (split; [first [reflexivity|assumption]|]). reflexivity.
Qed.

Lemma universe_round_trip : round_trips tuniverse.
Proof. apply round_trip. vm_compute. reflexivity. Qed.
Lemma f64_round_trip : round_trips tf64.
Proof. apply round_trip. reflexivity. Qed.

(** LeapFrog's state starts like WHFast's but is too short for the rest. *)
Theorem leapfrog_never_whfast : forall s, well_typed tleapfrog s -> dec twhfast (save LEAPFROG s) = None.
Proof.
  intros s Hs. destruct (leapfrog_bytes s Hs) as [t [h [u [c [ls [-> [Ht [Hh [Hu [Hc [Hls ->]]]]]]]]]]].
  change (dec twhfast ?x) with
    (as_list (dec_seq (dec tf64 :: dec tf64 :: dec tuniverse :: dec tf64 :: map dec twhfast_rest) x)).
  cbn [dec_seq].
  rewrite (f64_round_trip t _ Ht), (f64_round_trip h _ Hh), (universe_round_trip u _ Hu),
    (f64_round_trip c _ Hc).
  destruct (dec_seq (map dec twhfast_rest) (enc_seq (map enc tleapfrog_rest) ls)) as [[l r]|] eqn:E;
    [|reflexivity].
  exfalso.
  assert (E' : dec (TStruct twhfast_rest) (enc_seq (map enc tleapfrog_rest) ls) = Some (VL l, r)).
  { cbn [dec]. unfold as_list. now rewrite E. }
  apply dec_length in E'.
  pose proof (flat_length (TStruct tleapfrog_rest) eq_refl (VL ls) Hls) as Hlen.
  cbn [enc] in Hlen. rewrite Hlen in E'.
  assert (Hsz : (min_size (TStruct tleapfrog_rest) < min_size (TStruct twhfast_rest))%nat)
    by (apply Nat.ltb_lt; vm_compute; reflexivity).
  lia.
Qed.

(** Read as IAS15, every number of a LeapFrog file moves one place: the first
    body's reference is read where its moment of inertia was written. *)
Lemma leapfrog_as_ias15_tag : forall s, well_typed tleapfrog s ->
  exists a b, save LEAPFROG s = a ++ le 8 (match moment_of_inertia (first_body LEAPFROG s) with VZ z => z | _ => 0 end) ++ b /\
    length a = (24 + body_numbers)%nat.
Proof.
  intros s Hs. destruct (leapfrog_bytes s Hs) as [t [h [u [c [ls [-> [Ht [Hh [Hu [Hc [Hls ->]]]]]]]]]]].
  destruct (universe_bytes u Hu) as [i [l [ns [es [ps [us [a [-> [Hln [Hns [Hes [Hps [Hpt [Hus [Ha ->]]]]]]]]]]]]]]].
  change tparticle_numbers with (removelast tparticle_numbers ++ [tf64]) in Hns.
  destruct (all_typed_app _ _ _ Hns) as [ns' [m [-> [Hn' [H1 H2]]]]].
  destruct m as [|m [|]]; try (cbn in H2; tauto).
  destruct H2 as [Hm _]. destruct m as [z| |]; try contradiction.
  change tparticle_numbers with (removelast tparticle_numbers ++ [tf64]).
  rewrite enc_seq_app by exact Hn'.
  assert (Em : moment_of_inertia (first_body LEAPFROG
     (VL (t :: h :: VL (i :: l :: VL (VL ((ns' ++ [VZ z]) ++ es) :: ps) :: us) :: c :: ls))) = VZ z).
  { unfold moment_of_inertia, first_body, universe_of. cbn [part nth].
    rewrite <- app_assoc. rewrite app_nth2; rewrite Hn'; [reflexivity|cbn; lia]. }
  rewrite Em.
  exists (enc tf64 t ++ enc tf64 h ++ a ++ enc_seq (map enc (removelast tparticle_numbers)) ns'), 
    (enc_seq (map enc after_reference) es ++ flat_map (enc tparticle) ps ++
     enc_seq (map enc tuniverse_rest) us ++ enc tf64 c ++ enc_seq (map enc tleapfrog_rest) ls).
  split.
  - cbn [map enc_seq enc]. rewrite app_nil_r, <- !app_assoc. reflexivity.
  - rewrite !app_length, Ha, (flat_length tf64 eq_refl t Ht), (flat_length tf64 eq_refl h Hh).
    pose proof (flat_length (TStruct (removelast tparticle_numbers)) eq_refl (VL ns') H1) as Hl'.
    cbn [enc] in Hl'. rewrite Hl'. reflexivity.
Qed.

Theorem leapfrog_restored_by_inertia : forall s, well_typed tleapfrog s ->
  2 <= low32 (moment_of_inertia (first_body LEAPFROG s)) -> restored LEAPFROG s.
Proof.
  intros s Hs Hm. apply leapfrog_restored_if; [exact Hs|now apply leapfrog_never_whfast|].
  destruct (leapfrog_as_ias15_tag s Hs) as [a [b [E Ha]]]. rewrite E.
  apply ias15_none; [exact Ha|].
  destruct (moment_of_inertia (first_body LEAPFROG s)) as [z| |]; cbn [low32] in Hm; try lia.
  destruct (read_low z b) as [r' [_ [Hr _]]].
  apply dec_seq_none. exact (dec_enum_none [tunit; tusize] _ _ _ Hr Hm).
Qed.

(** A file too short for any IAS15 state is restored too. *)
Theorem leapfrog_restored_by_size : forall s, well_typed tleapfrog s ->
  (length (save LEAPFROG s) < min_size tias15)%nat -> restored LEAPFROG s.
Proof.
  intros s Hs Hm. apply leapfrog_restored_if; [exact Hs|now apply leapfrog_never_whfast|].
  destruct (dec tias15 (save LEAPFROG s)) as [[v r]|] eqn:E; [|reflexivity].
  apply dec_length in E. lia.
Qed.

(** ** IAS15 files *)
Lemma ias15_bytes : forall s, well_typed tias15 s ->
  exists t u c ls,
    s = VL (t :: u :: c :: ls) /\ well_typed tf64 t /\
    well_typed tuniverse u /\ well_typed tf64 c /\
    all_typed (map well_typed tias15_rest) ls /\
    save IAS15 s = enc tf64 t ++ enc tuniverse u ++ enc tf64 c ++ enc_seq (map enc tias15_rest) ls.
Proof.
  intros s Hs. destruct s as [z|w|k v]; try contradiction.
  change (all_typed (well_typed tf64 :: well_typed tuniverse :: well_typed tf64
                     :: map well_typed tias15_rest) w) in Hs.
  destruct w as [|t [|u [|c ls]]]; try (cbn [all_typed] in Hs; tauto).
  cbn [all_typed] in Hs. destruct Hs as [Ht [Hu [Hc Hls]]].
  exists t, u, c, ls. repeat (split; [first [reflexivity|assumption]|]). reflexivity.
Qed.

(** The first body of an IAS15 file, seen from a WHFast reader: its reference is
    read eight bytes late. *)
Lemma ias15_first_body : forall s, well_typed tias15 s ->
  exists a es b,
    save IAS15 s = a ++ enc_seq (map enc after_reference) es ++ b /\
    length a = (24 + body_numbers)%nat /\
    all_typed (map well_typed after_reference) es /\
    (forall j, part (20 + j) (first_body IAS15 s) = nth j es (VZ 0)).
Proof.
  intros s Hs. destruct (ias15_bytes s Hs) as [t [u [c [ls [-> [Ht [Hu [Hc [Hls ->]]]]]]]]].
  destruct (universe_bytes u Hu) as [i [l [ns [es [ps [us [a [-> [Hln [Hns [Hes [Hps [Hpt [Hus [Ha ->]]]]]]]]]]]]]]].
  exists (enc tf64 t ++ a ++ enc_seq (map enc tparticle_numbers) ns), es,
    (flat_map (enc tparticle) ps ++ enc_seq (map enc tuniverse_rest) us ++
     enc tf64 c ++ enc_seq (map enc tias15_rest) ls).
  split; [now rewrite <- !app_assoc|]. split.
  - rewrite !app_length, Ha, (flat_length tf64 eq_refl t Ht), (numbers_length ns Hns). reflexivity.
  - split; [exact Hes|]. intros j. unfold first_body, universe_of. cbn [part nth].
    rewrite app_nth2 by (rewrite Hln; cbn; lia). rewrite Hln. f_equal. cbn. lia.
Qed.

(** the tidal effect of a well-typed body, by cases *)
Lemma effects_cases : forall es, all_typed (map well_typed after_reference) es ->
  exists r e pr co fl, es = r :: VL [e; pr; co] :: fl /\ well_typed treference r /\
    well_typed ttides_effect e /\
    well_typed (TStruct [ttides_internal; TStruct [taxes; taxes]]) pr /\
    well_typed tcoordinates co.
Proof.
  intros es H. unfold after_reference in H. cbn [map tparticle_effects] in H.
  destruct es as [|r [|td fl]]; try (cbn [all_typed] in H; tauto).
  cbn [all_typed] in H. destruct H as [Hr [Htd _]].
  destruct td as [z|w|k v]; try contradiction.
  change (all_typed [well_typed ttides_effect; well_typed (TStruct [ttides_internal; TStruct [taxes; taxes]]);
                     well_typed tcoordinates] w) in Htd.
  destruct w as [|e [|pr [|co [|]]]]; try (cbn [all_typed] in Htd; tauto).
  cbn [all_typed] in Htd. exists r, e, pr, co, fl. tauto.
Qed.

Lemma distance_bytes : forall pr, well_typed (TStruct [ttides_internal; TStruct [taxes; taxes]]) pr ->
  exists z r, part 0 (part 0 pr) = VZ z /\ 0 <= z < 256 ^ Z.of_nat 8 /\
    enc (TStruct [ttides_internal; TStruct [taxes; taxes]]) pr = le 8 z ++ r.
Proof.
  intros pr H. destruct pr as [z|w|k v]; try contradiction.
  change (all_typed [well_typed ttides_internal; well_typed (TStruct [taxes; taxes])] w) in H.
  destruct w as [|n [|o [|]]]; try (cbn [all_typed] in H; tauto).
  cbn [all_typed] in H. destruct H as [Hn [Ho _]].
  destruct n as [z|w|k v]; try contradiction.
  unfold ttides_internal in Hn. cbn [well_typed map] in Hn.
  destruct w as [|d w]; [destruct Hn|]. cbn [all_typed] in Hn. destruct Hn as [Hd _].
  destruct d as [z|w'|k v]; try contradiction.
  exists z. eexists. split; [reflexivity|]. split; [exact Hd|].
  cbn [enc map enc_seq ttides_internal tf64]. rewrite <- !app_assoc. reflexivity.
Qed.

Lemma enum_bytes : forall ts v, well_typed (TEnum ts) v ->
  exists k w, v = VT k w /\ (k < length ts)%nat /\ well_typed (nth k ts TBool) w /\
    enc (TEnum ts) v = le 4 (Z.of_nat k) ++ enc (nth k ts TBool) w.
Proof.
  intros ts v H. destruct v as [z|l|k w]; try contradiction. cbn [well_typed] in H.
  destruct H as [Hk Hw]. exists k, w. split; [reflexivity|]. split; [exact Hk|].
  rewrite (nth_indep _ _ (well_typed TBool)), (map_nth well_typed) in Hw by now rewrite map_length.
  split; [exact Hw|]. cbn [enc].
  rewrite (nth_indep _ _ (enc TBool)), (map_nth enc) by now rewrite map_length. reflexivity.
Qed.

Lemma read_reference : forall k v x, well_typed treference (VT k v) ->
  dec ttides x = None ->
  dec_seq (map dec after_reference) (enc treference (VT k v) ++ x) = None.
Proof.
  intros k v x H Hx. unfold after_reference. cbn [map tparticle_effects dec_seq].
  rewrite (round_trip treference eq_refl (VT k v) x H), Hx. reflexivity.
Qed.

Lemma tides_none : forall x k r, read 4 x = Some (k, r) -> 3 <= k -> dec ttides x = None.
Proof.
  intros x k r H Hk. unfold ttides. cbn [dec map dec_seq].
  change (dec ttides_effect x) with (dec (TEnum [ttidal_model; ttidal_model; tunit]) x).
  rewrite (dec_enum_none [ttidal_model; ttidal_model; tunit] x k r H Hk). reflexivity.
Qed.

Lemma model_none : forall m zd rest, well_typed ttidal_model m -> 0 <= zd < 256 ^ Z.of_nat 8 ->
  match m with
  | VT 0 _ => 3 <= low32 (part 0 (contents m))
  | VT 1 _ => 3 <= zd mod 2 ^ 32
  | _ => True
  end ->
  dec_seq (map dec after_reference) (enc ttidal_model m ++ le 8 zd ++ rest) = None.
Proof.
  intros m zd rest Hm Hzd H. unfold ttidal_model in *.
  destruct (enum_bytes _ _ Hm) as [k [w [-> [Hk [Hw ->]]]]]. clear Hm.
  rewrite <- app_assoc. destruct k as [|[|[|]]]; [| | |cbn in Hk; lia].
  - change (le 4 (Z.of_nat 0)) with (enc treference (VT 0 (VL []))).
    apply read_reference; [split; [cbn; lia|exact I]|].
    cbn [nth] in Hw |- *. destruct w as [|[|d w]|]; try contradiction.
    cbn in Hw. destruct Hw as [Hd _]. destruct d as [z| |]; try contradiction.
    cbn [contents part nth low32] in H.
    change (enc tconstant_time_lag (VL (VZ z :: w))) with (le 8 z ++ enc_seq (map enc [tf64; tf64]) w).
    rewrite <- app_assoc. destruct (read_low z (enc_seq (map enc [tf64; tf64]) w ++ le 8 zd ++ rest))
      as [r' [_ [Hr _]]]. exact (tides_none _ _ _ Hr H).
  - cbn [nth] in Hw |- *. destruct w as [|[|d [|]]|]; try contradiction; [|cbn in Hw; tauto].
    destruct Hw as [Hd _]. destruct d as [z| |]; try contradiction.
    assert (Er : le 4 (Z.of_nat 1) ++ enc tcreep (VL [VZ z]) ++ le 8 zd ++ rest =
                 enc treference (VT 1 (VZ z)) ++ le 8 zd ++ rest).
    { cbn [enc tcreep map enc_seq treference nth tf64 tusize]. now rewrite app_nil_r, <- app_assoc. }
    rewrite Er. apply read_reference; [split; [cbn; lia|exact Hd]|].
    destruct (read_low zd rest) as [r' [_ [Hr _]]]. exact (tides_none _ _ _ Hr H).
  - apply dec_seq_none. apply (dec_enum_none [tunit; tusize] _ 2 (enc (nth 2 [tconstant_time_lag; tcreep; tkaula] TBool) w ++ le 8 zd ++ rest)).
    + apply read_le. cbn. lia.
    + cbn. lia.
Qed.

Theorem ias15_restored_by_first_body : forall s, well_typed tias15 s ->
  ias15_telling (first_body IAS15 s) -> restored IAS15 s.
Proof.
  intros s Hs Htell. apply ias15_restored_if; [exact Hs|].
  destruct (ias15_first_body s Hs) as [a [es [b [-> [Ha [Hes Hpart]]]]]].
  destruct (effects_cases es Hes) as [r [e [pr [co [fl [-> [Hr [He [Hpr Hco]]]]]]]]].
  unfold ias15_telling, reference, tides_effect, tides_distance, dissipation_factor, tidal_model, tides_effect in Htell.
  rewrite (Hpart 0%nat : part 20 _ = _), (Hpart 1%nat : part 21 _ = _) in Htell. clear Hpart.
  cbn [nth part] in Htell. destruct Htell as [Hvar Htell].
  destruct (enum_bytes _ _ Hr) as [kr [wr [-> [_ [Hwr Er]]]]]. cbn [variant] in Hvar. subst kr.
  destruct wr as [|[|]|]; try contradiction.
  destruct (enum_bytes _ _ He) as [ke [we [-> [Hke [Hwe Ee]]]]].
  destruct (distance_bytes pr Hpr) as [zd [rd [Ezd [Hzd Epr]]]]. rewrite Ezd in Htell.
  assert (E : enc_seq (map enc after_reference) (VT 0 (VL []) :: VL [VT ke we; pr; co] :: fl) ++ b =
    (le 4 0 ++ le 4 (Z.of_nat ke)) ++ enc (nth ke [ttidal_model; ttidal_model; tunit] TBool) we ++ le 8 zd ++ 
    (rd ++ enc tcoordinates co ++ enc_seq (map enc (tl tparticle_effects)) fl ++ b)).
  { change (enc_seq (map enc after_reference) (VT 0 (VL []) :: VL [VT ke we; pr; co] :: fl))
      with (enc treference (VT 0 (VL [])) ++ (enc ttides_effect (VT ke we) ++
            enc (TStruct [ttides_internal; TStruct [taxes; taxes]]) pr ++ enc tcoordinates co ++ []) ++
            enc_seq (map enc (tl tparticle_effects)) fl).
    unfold treference. rewrite Er. unfold ttides_effect. rewrite Ee, Epr, app_nil_r, <- !app_assoc. reflexivity. }
  rewrite E. clear E. rewrite app_assoc.
  apply whfast_none; [rewrite !app_length, Ha, !le_length; lia|].
  set (rest := rd ++ _). clearbody rest. clear Er Ee Epr.
  destruct ke as [|[|[|]]]; [| | |cbn in Hke; lia]; cbn [nth] in Hwe |- *.
  - apply model_none; [exact Hwe|exact Hzd|].
    destruct we as [| |[|[|]] w]; try contradiction; exact Htell.
  - apply model_none; [exact Hwe|exact Hzd|].
    destruct we as [| |[|[|]] w]; try contradiction; exact Htell.
  - destruct we as [|[|]|]; try contradiction. cbn [low32] in Htell.
    destruct (read_low zd rest) as [r' [_ [Hr' _]]].
    apply dec_seq_none. exact (dec_enum_none [tunit; tusize] _ _ _ Hr' Htell).
Qed.

(** ** IAS15 files that are read as WHFast *)
(** If the first body's reference is a numbered body, the eight bytes between
    the two layouts are made up for: the WHFast reader is back in step behind
    the reference, and only one later tag can stop it. *)
Definition ias15_before := [tu32; tf64; tf64; tf64; tf64; tusize; tusize; tusize; tu32; tf64]
  ++ repeat (TArr 30 tf64) 3.
Definition ias15_behind := repeat (TArr 30 tf64) 76 ++ [TArr 9 tf64].
Definition whfast_before :=
  [tusize; tf64; tf64; tf64; tf64; tusize; tusize; TArr 10 talternative].
Definition whfast_behind := [tusize; TArr 10 taxes; TArr 10 taxes].

Lemma flat_map_app : forall (f : val -> list Z) a b, flat_map f (a ++ b) = flat_map f a ++ flat_map f b.
Proof. intros f a b. induction a; cbn; [reflexivity|]. now rewrite IHa, app_assoc. Qed.

Lemma f64s_length : forall l, Forall (well_typed tf64) l -> length (flat_map (enc tf64) l) = (8 * length l)%nat.
Proof.
  intros l H. induction H as [|v l Hv _ IH]; [reflexivity|].
  cbn [flat_map length]. rewrite app_length, IH, (flat_length tf64 eq_refl v Hv). cbn [min_size tf64]. lia.
Qed.

Lemma ias15_tail_read : forall ls, all_typed (map well_typed tias15_rest) ls ->
  low32 (part 18 (nth 13 ls (VZ 0))) < 3 ->
  exists ws r, dec_seq (map dec twhfast_rest) (enc_seq (map enc tias15_rest) ls) = Some (ws, r).
Proof.
  intros ls Hls Hlow.
  change tias15_rest with (ias15_before ++ TArr 30 tf64 :: ias15_behind) in Hls |- *.
  destruct (all_typed_app _ _ _ Hls) as [l1 [l2 [-> [Hn1 [H1 H2]]]]].
  destruct l2 as [|b3 l2]; [destruct H2|]. cbn [map all_typed] in H2. destruct H2 as [Hb H2].
  rewrite app_nth2, Hn1 in Hlow by (rewrite Hn1; cbn; lia). cbn [nth length Nat.sub ias15_before repeat app] in Hlow.
  rewrite enc_seq_app by exact Hn1. cbn [map enc_seq].
  destruct b3 as [|b3|]; try contradiction. cbn [well_typed] in Hb. destruct Hb as [Hlen Hb].
  cbn [part] in Hlow.
  destruct (nth_split b3 (VZ 0) (n := 18) ltac:(lia)) as [x [y [Exy Hx]]].
  rewrite Exy in Hlow, Hb |- *. clear Exy.
  rewrite app_nth2 in Hlow by lia. rewrite Hx, Nat.sub_diag in Hlow. cbn [nth] in Hlow.
  set (q := nth 18 b3 (VZ 0)) in *. clearbody q.
  apply Forall_app in Hb. destruct Hb as [Hxt Hqy]. inversion Hqy as [|? ? Hq Hy]. subst.
  destruct q as [z| |]; try contradiction. cbn [low32] in Hlow.
  cbn [enc]. rewrite flat_map_app. cbn [flat_map]. change (enc tf64 (VZ z)) with (le 8 z).
  rewrite <- !app_assoc.
  set (behind := flat_map (enc tf64) y ++ enc_seq (map enc ias15_behind) l2).
  assert (Hbeh : (484 <= length behind)%nat).
  { unfold behind. rewrite app_length.
    pose proof (flat_length (TStruct ias15_behind) eq_refl (VL l2) H2) as E. cbn [enc] in E. rewrite E.
    assert (484 <= min_size (TStruct ias15_behind))%nat by (apply Nat.leb_le; vm_compute; reflexivity). lia. }
  clearbody behind.
  rewrite app_assoc.
  pose proof (flat_length (TStruct ias15_before) eq_refl (VL l1) H1) as E1. cbn [enc] in E1.
  change twhfast_rest with (whfast_before ++ TEnum [tunit; tunit; tunit] :: whfast_behind).
  rewrite map_app, dec_seq_app.
  destruct (dec_seq_flat whfast_before (enc_seq (map enc ias15_before) l1 ++ flat_map (enc tf64) x)
              (le 8 z ++ behind) eq_refl) as [w1 Hw1].
  { rewrite app_length, E1, (f64s_length x Hxt), Hx. reflexivity. }
  rewrite Hw1. cbn [map dec_seq].
  destruct (read_low z behind) as [r' [_ [Hr Hr']]].
  assert (Hz : 0 <= z mod 2 ^ 32) by (apply Z.mod_pos_bound; lia).
  assert (Hen : exists t, dec (TEnum [tunit; tunit; tunit]) (le 8 z ++ behind) = Some (t, r')).
  { cbn [dec length]. rewrite Hr. rewrite (proj2 (Z.leb_gt _ _)) by exact Hlow.
    assert (Hc : z mod 2 ^ 32 = 0 \/ z mod 2 ^ 32 = 1 \/ z mod 2 ^ 32 = 2) by lia.
    destruct Hc as [-> |[-> | ->]]; eexists; reflexivity. }
  destruct Hen as [t Hen]. rewrite Hen.
  destruct (split_at 488 (length r' - 488) r' ltac:(lia)) as [p [q [-> [Hp _]]]].
  destruct (dec_seq_flat whfast_behind p q eq_refl) as [w2 Hw2]. { rewrite Hp. reflexivity. }
  cbn [map dec_seq] in Hw2. rewrite Hw2. eexists _, _. reflexivity.
Qed.

Lemma particle_round_trip : round_trips tparticle.
Proof. apply round_trip. vm_compute. reflexivity. Qed.

Lemma all_round_trip : forall ts, forallb (fun b => b) (map regular ts) = true -> Forall round_trips ts.
Proof.
  intros ts H. apply regular_all in H. rewrite Forall_forall in *. intros t Ht. now apply round_trip, H.
Qed.

Theorem ias15_read_as_whfast : forall s k, well_typed tias15 s ->
  reference (first_body IAS15 s) = VT 1 (VZ k) -> k < 2 ^ 32 ->
  low32 (ias15_buffer 3 18 s) < 3 ->
  exists w, restore (save IAS15 s) = Some (WHFAST, w).
Proof.
  intros s k Hs Href Hk Hlow.
  destruct (ias15_bytes s Hs) as [t [u [c [ls [-> [Ht [Hu [Hc [Hls Es]]]]]]]]].
  destruct (universe_bytes u Hu) as [i [l [ns [es [ps [us [a [-> [Hln [Hns [Hes [Hps [Hpt [Hus [Ha Eu]]]]]]]]]]]]]]].
  unfold reference, first_body, universe_of in Href. cbn [part nth] in Href.
  rewrite app_nth2 in Href by (rewrite Hln; cbn; lia). rewrite Hln in Href. cbn [length tparticle_numbers Nat.sub] in Href.
  unfold ias15_buffer in Hlow. cbn [part nth Nat.add] in Hlow.
  destruct (ias15_tail_read ls Hls Hlow) as [ws [r Hws]].
  unfold after_reference in Hes. cbn [map all_typed] in Hes.
  destruct es as [|rf es]; [destruct Hes|]. destruct Hes as [Hrf Hes]. cbn [nth] in Href. subst rf.
  assert (Hk0 : 0 <= k).
  { destruct Hrf as [_ Hrf]. cbn in Hrf. lia. }
  assert (E : save IAS15 (VL (t :: VL (i :: l :: VL (VL (ns ++ VT 1 (VZ k) :: es) :: ps) :: us) :: c :: ls)) =
    (enc tf64 t ++ a ++ enc_seq (map enc tparticle_numbers) ns ++ le 4 1 ++ le 4 k) ++
    enc treference (VT 0 (VL [])) ++ enc_seq (map enc tparticle_effects) es ++ 
    flat_map (enc tparticle) ps ++ enc_seq (map enc tuniverse_rest) us ++
    enc tf64 c ++ enc_seq (map enc tias15_rest) ls).
  { rewrite Es, Eu. unfold after_reference. cbn [map enc_seq].
    change (enc treference (VT 1 (VZ k))) with (le 4 1 ++ le (4 + 4) k).
    rewrite (le_split 4 4 k). change (256 ^ Z.of_nat 4) with (2 ^ 32). rewrite (Z.div_small k) by lia.
    rewrite <- !app_assoc. reflexivity. }
  unfold restore. rewrite E. clear E.
  match goal with |- context [dec twhfast (?x ++ ?y)] =>
    destruct (whfast_start x y) as [v1 [v2 [v3 [v4 [v5 Hwh]]]]] end.
  { rewrite !app_length, Ha, !le_length, (flat_length tf64 eq_refl t Ht), (numbers_length ns Hns).
    cbn [min_size tf64]. lia. }
  rewrite Hwh. clear Hwh.
  unfold after_reference. cbn [map].
  assert (Eref : forall x, dec_seq (dec treference :: map dec tparticle_effects) (enc treference (VT 0 (VL [])) ++ x)
     = match dec_seq (map dec tparticle_effects) x with Some (l, r) => Some (VT 0 (VL []) :: l, r) | None => None end).
  { intros x. cbn [dec_seq]. rewrite (round_trip treference eq_refl (VT 0 (VL [])) x); [reflexivity|].
    split; [cbn; lia|exact I]. }
  rewrite Eref. rewrite (dec_seq_enc tparticle_effects); [| apply all_round_trip; vm_compute; reflexivity | exact Hes].
  rewrite <- Hps, (dec_rep_enc tparticle particle_round_trip ps _ Hpt).
  rewrite (dec_seq_enc tuniverse_rest); [| apply all_round_trip; vm_compute; reflexivity | exact Hus].
  cbn [dec_seq]. rewrite (f64_round_trip c _ Hc), Hws. eexists. reflexivity.
Qed.
