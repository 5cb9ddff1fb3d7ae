(** Reading the files of stellar models *)
From Coq Require Import Reals List Arith Lra Lia Bool ZArith Sorted.
From Verif Require Import Base.Num Base.Result Base.Trans Model.Constants Model.Particle Model.Interp Model.StarTables
  Proofs.NumLemmas Proofs.TablesProofs Proofs.EvolveProofs Spec.TablesSpec Spec.StarTablesSpec.
Import ListNotations.
Open Scope R_scope.

Lemma Rabs_le_between x g : Rabs x <= g <-> - g <= x <= g.
Proof. unfold Rabs. destruct (Rcase_abs x); lra. Qed.

(** ** The file for a mass *)
Fixpoint gaps (g : R) (l : list R) : Prop :=
  match l with a :: ((b :: _) as l') => a + g < b /\ gaps g l' | _ => True end.
Lemma gaps_head g a l : 0 < g -> gaps g (a :: l) -> forall i M, nth_error l i = Some M -> a + g < M.
Proof.
  intros Hg. revert a. induction l as [|b l IH]; intros a G i M E; [destruct i; discriminate E|].
  destruct G as [G1 G2]. destruct i as [|i]; [injection E as <-; exact G1|].
  pose proof (IH b G2 i M E). lra.
Qed.
Lemma gaps_unique g l : 0 < g -> gaps g l -> forall i j M N, nth_error l i = Some M -> nth_error l j = Some N ->
  Rabs (M - N) <= g -> i = j.
Proof.
  intros Hg. induction l as [|a l IH]; intros G i j M N Ei Ej D; [destruct i; discriminate Ei|].
  assert (G2 : gaps g l) by (destruct l; [exact I|apply G]).
  destruct i as [|i], j as [|j].
  - reflexivity.
  - injection Ei as <-. pose proof (gaps_head g a l Hg G j N Ej). apply Rabs_le_between in D. lra.
  - injection Ej as <-. pose proof (gaps_head g a l Hg G i M Ei). apply Rabs_le_between in D. lra.
  - f_equal. exact (IH G2 i j M N Ei Ej D).
Qed.
Lemma file_unique e i j : file_of e i -> file_of e j -> i = j.
Proof.
  assert (T : forall g m M N, Rabs (m - M) <= g -> Rabs (m - N) <= g -> Rabs (M - N) <= 2 * g).
  { intros g m M N A B. apply Rabs_le_between in A, B. apply Rabs_le. lra. }
  destruct e as [m|m|m|m|m|d|]; cbn [file_of]; try congruence; intros (M & EM & CM) (N & EN & CN);
    cbn [close star_mass] in CM, CN.
  all: match type of CM with
       | _ <= ?g => refine (gaps_unique (2 * g) _ _ _ i j M N EM EN (T g m M N CM CN)); cbn [nominal_masses gaps]; lra
       | _ => idtac end.
  assert (B : forall X, (if Rle_dec X (8/100) then Rabs (m - X) <= 1/10000 else Rabs (m - X) < 1/10000000) -> Rabs (m - X) <= 1/10000).
  { intros X. destruct (Rle_dec X (8/100)); lra. }
  refine (gaps_unique (2 * (1/10000)) _ _ _ i j M N EM EN (T _ m M N (B _ CM) (B _ CN))); cbn [nominal_masses gaps]; lra.
Qed.

Lemma position_some {A} (p : A -> bool) l i : position p l = Some i -> exists a, nth_error l i = Some a /\ p a = true.
Proof.
  revert i. induction l as [|a l IH]; intros i E; [discriminate E|]. cbn [position] in E.
  destruct (p a) eqn:P; [injection E as <-; exists a; auto|].
  destruct (position p l) as [k|]; [|discriminate E]. injection E as <-. exact (IH k eq_refl).
Qed.
Lemma position_none {A} (p : A -> bool) l : position p l = None -> forall i a, nth_error l i = Some a -> p a = false.
Proof.
  induction l as [|a l IH]; intros E i b Eb; [destruct i; discriminate Eb|]. cbn [position] in E.
  destruct (p a) eqn:P; [discriminate E|]. destruct (position p l) as [k|]; [discriminate E|].
  destruct i as [|i]; [injection Eb as <-; exact P|exact (IH eq_refl i b Eb)].
Qed.

Lemma between_abs (m lo hi c t : R) : lo = c - t -> hi = c + t -> (between lo hi m = true <-> Rabs (m - c) <= t).
Proof.
  intros -> ->. unfold between. num_simpl. rewrite andb_true_iff, !Rleb_true. rewrite Rabs_le_between. lra.
Qed.
Lemma thousandth_true m n : thousandth m n = true <-> Rabs (m - IZR n / 10) <= 1/1000.
Proof.
  apply between_abs; cbn [nlit NumR]; [rewrite minus_IZR|rewrite plus_IZR]; rewrite mult_IZR; field.
Qed.
Lemma ten_thousandth_true m n : ten_thousandth m n = true <-> Rabs (m - IZR n / 10000) <= 1/10000.
Proof.
  apply between_abs; cbn [nlit NumR]; [rewrite minus_IZR|rewrite plus_IZR]; field.
Qed.
Lemma hundredths_true m n : hundredths m n = true <-> Rabs (m - IZR n / 100) < 1/10000000.
Proof. unfold hundredths. cbn [nltb nlit nabs nsub NumR]. apply Rltb_true. Qed.

Lemma by_position (p : Z -> bool) (f : Z -> R) (close : R -> Prop) l masses :
  masses = map f l -> (forall n, In n l -> (p n = true <-> close (f n))) ->
  match position p l with
  | Some i => exists M, nth_error masses i = Some M /\ close M
  | None => forall i M, nth_error masses i = Some M -> ~ close M
  end.
Proof.
  intros -> C. destruct (position p l) as [i|] eqn:P.
  - apply position_some in P. destruct P as (n & E & P). exists (f n). split; [exact (map_nth_error f i l E)|].
    apply C; [exact (nth_error_In l i E)|exact P].
  - intros i M E K. rewrite nth_error_map in E. destruct (nth_error l i) as [n|] eqn:En; [|discriminate E].
    injection E as <-. apply C in K; [|exact (nth_error_In l i En)]. rewrite (position_none p l P i n En) in K. discriminate K.
Qed.

Lemma one_list e (p : Z -> bool) (f : Z -> R) l :
  nominal_masses e = map f l -> (forall n, In n l -> (p n = true <-> close e (f n))) ->
  match position p l with
  | Some i => exists M, nth_error (nominal_masses e) i = Some M /\ close e M
  | None => forall i, ~ exists M, nth_error (nominal_masses e) i = Some M /\ close e M
  end.
Proof.
  intros E C. pose proof (by_position p f (close e) l _ E C) as B. destruct (position p l); [exact B|].
  intros i (M & EM & CM). exact (B i M EM CM).
Qed.
Ltac masses := unfold nominal_masses; cbn; repeat (apply f_equal2; [lra|]); reflexivity.
Lemma model_file_spec e : match model_file e with Some i => file_of e i | None => forall i, ~ file_of e i end.
Proof.
  destruct e as [m|m|m|m|m|d|]; cbn [model_file file_of]; try reflexivity.
  - apply (one_list (GalletBolmont2017 m) (thousandth m) (fun n => IZR n / 10)); [masses|]. intros n _. apply thousandth_true.
  - apply (one_list (BolmontMathis2016 m) (thousandth m) (fun n => IZR n / 10)); [masses|]. intros n _. apply thousandth_true.
  - set (e := Baraffe2015 m).
    assert (S : nominal_masses e = map (fun n => IZR n / 10000) baraffe_small ++ map (fun n => IZR n / 100) baraffe_large) by masses.
    assert (A : forall n, In n baraffe_small -> (ten_thousandth m n = true <-> close e (IZR n / 10000))).
    { intros n I. rewrite ten_thousandth_true. cbn [close e star_mass].
      assert (IZR n / 10000 <= 8/100) by (cbn in I; repeat (destruct I as [<-|I]; [lra|]); destruct I).
      destruct (Rle_dec (IZR n / 10000) (8/100)); [reflexivity|contradiction]. }
    assert (B : forall n, In n baraffe_large -> (hundredths m n = true <-> close e (IZR n / 100))).
    { intros n I. rewrite hundredths_true. cbn [close e star_mass].
      assert (8/100 < IZR n / 100) by (cbn in I; repeat (destruct I as [<-|I]; [lra|]); destruct I).
      destruct (Rle_dec (IZR n / 100) (8/100)); [lra|reflexivity]. }
    pose proof (by_position _ _ _ _ _ eq_refl A) as PA. pose proof (by_position _ _ _ _ _ eq_refl B) as PB.
    rewrite S. destruct (position (ten_thousandth m) baraffe_small) as [i|] eqn:E1.
    + destruct PA as (M & EM & CM). exists M. split; [|exact CM]. rewrite nth_error_app1; [exact EM|]. apply nth_error_Some. congruence.
    + destruct (position (hundredths m) baraffe_large) as [j|] eqn:E2; cbn [option_map].
      * destruct PB as (M & EM & CM). exists M. split; [|exact CM].
        rewrite nth_error_app2; rewrite map_length; [|lia]. replace (length baraffe_small + j - length baraffe_small)%nat with j by lia. exact EM.
      * intros i (M & EM & CM). destruct (Nat.lt_ge_cases i (length (map (fun n => IZR n / 10000) baraffe_small))) as [L|L].
        -- rewrite nth_error_app1 in EM by exact L. exact (PA i M EM CM).
        -- rewrite nth_error_app2 in EM by exact L. exact (PB _ M EM CM).
  - apply (one_list (Leconte2011 m) (ten_thousandth m) (fun n => IZR n / 10000)); [masses|]. intros n _. apply ten_thousandth_true.
  - num_simpl. replace (10/100) with (1/10) by lra. rcase; [|rcase].
    + exists (1/10). split; [reflexivity|]. cbn [close star_mass]. lra.
    + exists 1. split; [reflexivity|]. cbn [close star_mass]. lra.
    + intros i (M & EM & CM). cbn [close star_mass] in CM. destruct i as [|[|i]]; cbn in EM; [injection EM as <-..|destruct i; discriminate EM];
        lra.
Qed.

(** ** Fields *)
Lemma cell_number k (r : row R) x : cell k r = Ok x <-> number k r = Some x.
Proof. unfold cell, number. destruct (nth_error r k) as [[y|]|]; split; intros E; inversion E; reflexivity. Qed.
Lemma raw_time_age (r : row R) t : raw_time r = Ok t -> t = raw_age r.
Proof. destruct r as [|[x|] r]; intros E; inversion E; [reflexivity|]. unfold raw_age. cbn [number nth_error]. num_simpl. lra. Qed.
Lemma rbind_ok {A B} (x : res A) (f : A -> res B) b : rbind x f = Ok b -> exists a, x = Ok a /\ f a = Ok b.
Proof. destruct x as [a|k]; cbn [rbind]; intros E; [exists a; auto|discriminate E]. Qed.
Lemma rmap_ok {A B} (f : A -> res B) l bs : rmap f l = Ok bs -> Forall2 (fun a b => f a = Ok b) l bs.
Proof.
  revert bs. induction l as [|a l IH]; intros bs E; cbn [rmap] in E; [injection E as <-; constructor|].
  apply rbind_ok in E. destruct E as (b & Eb & E). apply rbind_ok in E. destruct E as (bs' & Es & E). injection E as <-.
  constructor; [exact Eb|exact (IH bs' Es)].
Qed.

Definition field_of (q : quantity) (s : star_row R) : R :=
  match q with QRadius => sr_radius s | QGyration => sr_rg2 s | QLove => sr_love s | QInvQ => sr_invq s end.
Definition from_file (e : evolution R) (q : quantity) : bool :=
  tabulates e q && match e, q with Leconte2011 _, QGyration => false | _, _ => true end.
Definition brown_dwarf (e : evolution R) : bool := match e with Leconte2011 _ => true | _ => false end.
Lemma ten_pow x : Rpowf 10 x = Rpower 10 x.
Proof. unfold Rpowf. destruct (Rlt_dec 0 10); [reflexivity|lra]. Qed.

Lemma read_row_spec e i initial t r s : file_of e i -> e <> NonEvolving -> read_row e initial t r = Ok s ->
  sr_time s = (if brown_dwarf e then t else days initial (age e t)) /\
  forall q, from_file e q = true -> entry e q r = Some (field_of q s).
Proof.
  intros Hf He E. unfold read_row in E. apply rbind_ok in E. destruct E as (x & Ex & E). apply cell_number in Ex.
  unfold M2AU, year in E. cbn [nlit nmul nsub ndiv n1 NumR tpow TransR] in E.
  assert (AUeq : forall y, y * (1 / AU) = y / AU) by (intros y; unfold Rdiv; ring).
  assert (P : forall y, 1 / Rpower 10 y = Rpower 10 (- y)) by (intros y; rewrite Rpower_Ropp; unfold Rdiv; ring).
  assert (I10 : IZR 10 / 1 = 10) by lra.
  unfold entry.
  destruct e as [m|m|m|m|m|d|]; [..|contradiction]; cbn [rbind] in E; cbn [radius_column brown_dwarf age] in *.
  - apply rbind_ok in E. destruct E as (y & Ey & E). apply rbind_ok in Ey. destruct Ey as (z & Ez & Ey). apply cell_number in Ez.
    injection Ey as <-. injection E as <-. rewrite I10, !ten_pow. split; [reflexivity|]. intros [] Q; try discriminate Q; cbn [field_of sr_radius sr_invq in_metres].
    + rewrite Ex. reflexivity.
    + rewrite Ez. cbn [option_map]. rewrite P. reflexivity.
  - apply rbind_ok in E. destruct E as (y & Ey & E). apply cell_number in Ey.
    injection E as <-. split; [reflexivity|]. intros [] Q; try discriminate Q; cbn [field_of sr_radius sr_invq in_metres].
    + rewrite Ex. reflexivity.
    + exact Ey.
  - apply rbind_ok in E. destruct E as (y & Ey & E). apply cell_number in Ey.
    injection E as <-. split; [reflexivity|]. intros [] Q; try discriminate Q; cbn [field_of sr_radius sr_rg2 in_metres].
    + rewrite Ex. reflexivity.
    + exact Ey.
  - injection E as <-. split; [reflexivity|]. intros [] Q; try discriminate Q; cbn [field_of sr_radius in_metres]. rewrite Ex. reflexivity.
  - destruct Hf as (M & EM & CM). cbn [close star_mass] in CM. cbn [in_metres].
    cbn [nleb nabs nsub NumR] in E. replace (10/100) with (1/10) in E by lra.
    assert (C : Rabs (m - 1/10) <= 1/10000000 \/ Rabs (m - 1) <= 1/10000000).
    { destruct i as [|[|i]]; cbn in EM; [injection EM as <-; auto..|destruct i; discriminate EM]. }
    unfold Rleb in E. destruct (Rle_dec (Rabs (m - 1 / 10)) (1 / 10000000)) as [L|L].
    + destruct (Rle_dec (Rabs (m - 1)) (1 / 10000000)) as [L'|L'].
      { apply Rabs_le_between in L, L'. lra. }
      injection E as <-. split; [reflexivity|]. intros [] Q; try discriminate Q; cbn [field_of sr_radius]. rewrite Ex. reflexivity.
    + destruct (Rle_dec (Rabs (m - 1)) (1 / 10000000)) as [L'|L']; [|tauto].
      injection E as <-. split; [reflexivity|]. intros [] Q; try discriminate Q; cbn [field_of sr_radius]. rewrite Ex, AUeq. reflexivity.
  - apply rbind_ok in E. destruct E as (y & Ey & E). apply cell_number in Ey.
    apply rbind_ok in E. destruct E as (z & Ez & E). apply cell_number in Ez.
    apply rbind_ok in E. destruct E as (w & Ew & E). injection E as <-. split; [reflexivity|].
    intros [] Q; cbn [field_of sr_radius sr_rg2 sr_love sr_invq in_metres].
    + rewrite Ex, AUeq. reflexivity.
    + exact Ey.
    + exact Ez.
    + destruct d; [|discriminate Q]. apply cell_number in Ew. exact Ew.
Qed.

(** ** The rows of a file *)
Lemma read_rows_rest e initial rows l : read_rows false e initial rows = Ok l ->
  Forall2 (fun r s => read_row e initial (raw_age r) r = Ok s) rows l.
Proof.
  revert l. induction rows as [|r rows IH]; intros l E; cbn [read_rows] in E; [injection E as <-; constructor|].
  apply rbind_ok in E. destruct E as (t & Et & E). apply raw_time_age in Et. subst t. cbn [andb] in E.
  apply rbind_ok in E. destruct E as (s & Es & E). apply rbind_ok in E. destruct E as (l' & El & E). injection E as <-.
  constructor; [exact Es|exact (IH l' El)].
Qed.
Lemma read_rows_data e initial rows l : read_rows true e initial rows = Ok l ->
  Forall2 (fun r s => read_row e initial (raw_age r) r = Ok s) (data rows) l.
Proof.
  destruct rows as [|r rows]; intros E; [injection E as <-; constructor|].
  assert (K : read_rows false e initial (r :: rows) = Ok l -> Forall2 (fun r s => read_row e initial (raw_age r) r = Ok s) (r :: rows) l)
    by apply read_rows_rest.
  cbn [read_rows andb] in E, K. apply rbind_ok in E. destruct E as (t & Et & E). rewrite Et in K. cbn [rbind] in K.
  apply raw_time_age in Et. subst t. unfold data. unfold raw_age in E at 1. revert E. num_simpl. destruct (number 0 r) as [x|] eqn:N.
  - unfold Rltb. destruct (Rlt_dec x 0); [apply read_rows_rest|exact K].
  - unfold Rltb. destruct (Rlt_dec (-1) 0); [apply read_rows_rest|lra].
Qed.
Lemma Forall2_map_eq {A B C} (P : A -> B -> Prop) (f : A -> C) (g : B -> C) l l' :
  (forall a b, P a b -> f a = g b) -> Forall2 P l l' -> map f l = map g l'.
Proof. intros K. induction 1 as [|a b l l' Hab _ IH]; [reflexivity|]. cbn [map]. rewrite (K a b Hab), IH. reflexivity. Qed.
Lemma read_rows_spec e i initial rows l : file_of e i -> e <> NonEvolving -> read_rows true e initial rows = Ok l ->
  map sr_time l = map (fun r => if brown_dwarf e then raw_age r else days initial (age e (raw_age r))) (data rows) /\
  forall q, from_file e q = true -> map (entry e q) (data rows) = map Some (map (field_of q) l).
Proof.
  intros Hf He E. apply read_rows_data in E. split.
  - symmetry. apply (Forall2_map_eq _ _ _ _ _ (fun r s K => eq_sym (proj1 (read_row_spec e i initial _ r s Hf He K))) E).
  - intros q Q. rewrite map_map. apply (Forall2_map_eq _ _ _ _ _ (fun r s K => proj2 (read_row_spec e i initial _ r s Hf He K) q Q) E).
Qed.

(** ** Accepted tables *)
Section New.
  Variables (half_up : R -> R) (e : evolution R) (initial limit : R) (files : nat -> list fields) (aux : list fields) (ev : evolver R).
  Hypothesis accepted : new_evolver half_up e initial limit files aux = Ok ev.

  Lemma new_parts : exists i l time radius rg2, file_of e i /\ read_rows true e initial (files i) = Ok l /\
    let kept := match e with NonEvolving => [] | _ => l end in
    match e with
    | Leconte2011 _ => restrict_and_interpolate half_up initial (S i) aux (map sr_time kept) (map sr_radius kept)
    | Baraffe2015 _ | LeconteChabrier2013 _ => Ok (map sr_time kept, map sr_radius kept, map sr_rg2 kept)
    | _ => Ok (map sr_time kept, map sr_radius kept, [])
    end = Ok (time, radius, rg2) /\
    ev = Evolver e time radius rg2 (match e with LeconteChabrier2013 _ => map sr_love kept | _ => [] end)
           (if dynamical_tide e then map sr_invq kept else []) 0 /\
    (time = [] \/ (nth 0 time 0 <= 0 /\ limit <= nth (length time - 1) time 0)).
  Proof.
    unfold new_evolver in accepted. pose proof (model_file_spec e) as F. destruct (model_file e) as [i|]; [|discriminate accepted].
    destruct (read_rows true e initial (files i)) as [l|] eqn:El; cbn [rbind] in accepted; [|discriminate accepted].
    apply rbind_ok in accepted. destruct accepted as ([[time radius] rg2] & E & A). clear accepted.
    exists i, l, time, radius, rg2. split; [exact F|]. split; [exact El|]. cbv zeta. split; [exact E|].
    destruct time as [|t time]; [injection A as <-; split; [reflexivity|left; reflexivity]|].
    cbn [nltb n0 NumR] in A. destruct (Rltb 0 t) eqn:T; [discriminate A|]. destruct (Rltb (last time t) limit) eqn:L; [discriminate A|].
    injection A as <-. split; [reflexivity|]. right. apply Rltb_false in T, L. split; [exact T|].
    cbn [length]. replace (S (length time) - 1)%nat with (length time) by lia.
    replace (nth (length time) (t :: time) 0) with (last time t); [exact L|].
    clear. revert t. induction time as [|u time IH]; intros t; [reflexivity|]. cbn [length nth]. destruct time as [|v time]; [reflexivity|].
    exact (IH t).
  Qed.

  Lemma accepted_type : ev_type ev = e /\ ev_left ev = 0%nat.
  Proof. destruct new_parts as (i & l & time & radius & rg2 & _ & _ & _ & -> & _). split; reflexivity. Qed.
  Lemma accepted_covers : ev_time ev <> [] -> nth 0 (ev_time ev) 0 <= 0 /\ limit <= nth (length (ev_time ev) - 1) (ev_time ev) 0.
  Proof. destruct new_parts as (i & l & time & radius & rg2 & _ & _ & _ & -> & [C|C]); cbn [ev_time]; intros T; [contradiction|exact C]. Qed.

  Lemma accepted_rows : brown_dwarf e = false -> e <> NonEvolving -> exists i, file_of e i /\
    ev_time ev = map (fun r => days initial (age e (raw_age r))) (data (files i)) /\
    forall q, tabulates e q = true -> map Some (column ev q) = map (entry e q) (data (files i)).
  Proof.
    intros B N. destruct new_parts as (i & l & time & radius & rg2 & F & R & E & -> & _). exists i. split; [exact F|].
    destruct (read_rows_spec e i initial (files i) l F N R) as [T C]. rewrite B in T.
    assert (FF : forall q, tabulates e q = true -> from_file e q = true).
    { intros q Q. unfold from_file. rewrite Q. destruct e; try reflexivity; discriminate B. }
    cbn [ev_time]. cbv zeta in E.
    assert (T' : time = map sr_time l) by (destruct e as [m|m|m|m|m|d|]; try discriminate B; try contradiction; injection E as <- <- <-; reflexivity).
    split; [rewrite T'; exact T|]. intros q Q. rewrite (C q (FF q Q)). f_equal.
    destruct e as [m|m|m|m|m|[|]|]; try discriminate B; try contradiction; injection E as _ <- <-; destruct q; try discriminate Q; reflexivity.
  Qed.
End New.

(** ** Increasing ages *)
Lemma increasing_cons a l : increasing (a :: l) -> (forall x, In x l -> a < x) /\ increasing l.
Proof.
  intros I. split.
  - intros x Hx. destruct (In_nth l x 0 Hx) as (n & L & <-). exact (I 0%nat (S n) ltac:(cbn [length]; lia)).
  - intros i j L. exact (I (S i) (S j) ltac:(cbn [length]; lia)).
Qed.
Lemma cons_increasing a l : (forall x, In x l -> a < x) -> increasing l -> increasing (a :: l).
Proof.
  intros A I i j L. cbn [length] in L. destruct j as [|j]; [lia|]. destruct i as [|i]; cbn [nth].
  - apply A, nth_In. lia.
  - apply I. lia.
Qed.
Lemma map_increasing (f : R -> R) l : (forall x y, x < y -> f x < f y) -> increasing l -> increasing (map f l).
Proof.
  intros M. induction l as [|a l IH]; intros I; [exact I|]. apply increasing_cons in I. destruct I as [A I].
  apply cons_increasing; [|exact (IH I)]. intros y Hy. apply in_map_iff in Hy. destruct Hy as (x & <- & Hx). exact (M a x (A x Hx)).
Qed.
Lemma filter_increasing {A} (f : A -> R) (p : A -> bool) l : increasing (map f l) -> increasing (map f (filter p l)).
Proof.
  induction l as [|a l IH]; intros I; [exact I|]. cbn [map] in I. apply increasing_cons in I. destruct I as [Ha I].
  cbn [filter]. destruct (p a); [|exact (IH I)]. cbn [map]. apply cons_increasing; [|exact (IH I)].
  intros y Hy. apply in_map_iff in Hy. destruct Hy as (x & <- & Hx). apply Ha, in_map. apply filter_In in Hx. tauto.
Qed.
Lemma days_increasing initial x y : x < y -> days initial x < days initial y.
Proof. unfold days. lra. Qed.
Lemma age_increasing e x y : x < y -> age e x < age e y.
Proof. destruct e; cbn [age]; try (intros; assumption). intros L. apply Rpower_lt; lra. Qed.

(** ** Cutting the rows of brown dwarfs *)
Lemma position_map {A B} (f : A -> B) (p : B -> bool) l : position p (map f l) = position (fun a => p (f a)) l.
Proof. induction l as [|a l IH]; [reflexivity|]. cbn [map position]. rewrite IH. reflexivity. Qed.
Lemma filter_all {A} (p : A -> bool) l : (forall a, In a l -> p a = true) -> filter p l = l.
Proof. induction l as [|a l IH]; intros K; [reflexivity|]. cbn [filter]. rewrite (K a (or_introl eq_refl)), IH; [reflexivity|]. intros b Hb. apply K. right. exact Hb. Qed.
Lemma filter_none {A} (p : A -> bool) l : (forall a, In a l -> p a = false) -> filter p l = [].
Proof. induction l as [|a l IH]; intros K; [reflexivity|]. cbn [filter]. rewrite (K a (or_introl eq_refl)), IH; [reflexivity|]. intros b Hb. apply K. right. exact Hb. Qed.
Section Cut.
  Context {A : Type} (f : A -> R).
  Lemma cut_below lo l : increasing (map f l) ->
    match position (fun a => Rleb lo (f a)) l with
    | Some k => skipn k l = filter (fun a => Rleb lo (f a)) l
    | None => filter (fun a => Rleb lo (f a)) l = []
    end.
  Proof.
    induction l as [|a l IH]; intros I; [reflexivity|]. cbn [map] in I. apply increasing_cons in I. destruct I as [Ha I].
    specialize (IH I). cbn [position filter]. destruct (Rleb lo (f a)) eqn:L.
    - cbn [skipn]. rewrite filter_all; [reflexivity|]. intros b Hb. apply Rleb_true in L. apply Rleb_true. pose proof (Ha (f b) (in_map f l b Hb)). lra.
    - destruct (position (fun a0 => Rleb lo (f a0)) l); exact IH.
  Qed.
  Lemma cut_above hi l : increasing (map f l) ->
    match position (fun a => Rltb hi (f a)) l with
    | Some k => firstn k l = filter (fun a => negb (Rltb hi (f a))) l
    | None => l = filter (fun a => negb (Rltb hi (f a))) l
    end.
  Proof.
    induction l as [|a l IH]; intros I; [reflexivity|]. cbn [map] in I. apply increasing_cons in I. destruct I as [Ha I].
    specialize (IH I). cbn [position filter]. destruct (Rltb hi (f a)) eqn:L; cbn [negb].
    - cbn [firstn]. rewrite filter_none; [reflexivity|]. intros b Hb. apply Rltb_true in L. apply negb_false_iff, Rltb_true. pose proof (Ha (f b) (in_map f l b Hb)). lra.
    - destruct (position (fun a0 => Rltb hi (f a0)) l); cbn [option_map firstn]; f_equal; exact IH.
  Qed.
End Cut.
Lemma filter_filter {A} (p q : A -> bool) l : filter p (filter q l) = filter (fun a => q a && p a) l.
Proof. induction l as [|a l IH]; [reflexivity|]. cbn [filter]. destruct (q a); cbn [filter andb]; rewrite IH; reflexivity. Qed.
Lemma rmap_total {A B} (f : A -> res B) (g : A -> B -> Prop) l bs : (forall a b, f a = Ok b -> g a b) -> rmap f l = Ok bs -> Forall2 g l bs.
Proof. intros K E. apply rmap_ok in E. exact (Forall2_imp _ _ _ _ K E). Qed.
Lemma cells_numbers k (l : list (row R)) xs : rmap (cell k) l = Ok xs -> map (number k) l = map Some xs.
Proof. intros E. apply rmap_ok in E. apply (Forall2_map_eq _ _ _ _ _ (fun r x K => proj1 (cell_number k r x) K) E). Qed.
Lemma some_inj {A} (l l' : list A) : map Some l = map Some l' -> l = l'.
Proof. revert l'. induction l as [|a l IH]; intros [|b l'] E; try discriminate E; [reflexivity|]. injection E as -> E. f_equal. exact (IH l' E). Qed.

Section Dwarfs.
  Variables (half_up : R -> R) (m initial limit : R) (files : nat -> list fields) (aux : list fields) (ev : evolver R).
  Hypothesis accepted : new_evolver half_up (Leconte2011 m) initial limit files aux = Ok ev.
  Variables (i : nat) (times gyrations : list R).
  Hypothesis file : file_of (Leconte2011 m) i.
  Hypothesis times_read : map (number 0) aux = map Some times.
  Hypothesis gyrations_read : map (number (S i)) aux = map Some gyrations.
  Hypothesis usable : table times gyrations.
  Hypothesis ordered : increasing (map raw_age (data (files i))).
  Hypothesis overlap : exists r, In r (data (files i)) /\ covered times (raw_age r) = true.

  Definition kept_rows := filter (fun r => covered times (raw_age r)) (data (files i)).
  Lemma dwarf_rows :
    ev_time ev = map (fun r => days initial (raw_age r)) kept_rows /\
    map Some (ev_radius ev) = map (entry (Leconte2011 m) QRadius) kept_rows /\
    Forall2 (fun r v => exists w, interpolates times gyrations (raw_age r) w /\ v = half_up w) kept_rows (ev_rg2 ev).
  Proof.
    destruct (new_parts _ _ _ _ _ _ _ accepted) as (i' & l & time & radius & rg2 & F & R & E & -> & _).
    assert (i' = i) by exact (file_unique _ _ _ F file). subst i'.
    destruct (read_rows_spec _ i initial (files i) l F ltac:(discriminate) R) as [T C].
    cbn [brown_dwarf] in T. specialize (C QRadius eq_refl). change (map (field_of QRadius) l) with (map sr_radius l) in C.
    cbn [ev_time ev_radius ev_rg2]. cbv zeta in E. unfold kept_rows. set (D := data (files i)) in *.
    rewrite T in E. clear T R. unfold restrict_and_interpolate in E.
    apply rbind_ok in E. destruct E as (ts & Ets & E). apply cells_numbers in Ets. rewrite times_read in Ets. apply some_inj in Ets. subst ts.
    apply rbind_ok in E. destruct E as (gs & Egs & E). apply cells_numbers in Egs. rewrite gyrations_read in Egs. apply some_inj in Egs. subst gs.
    destruct usable as (NE & LE & INC).
    assert (0 < length times)%nat by (destruct times; [contradiction|cbn [length]; lia]).
    assert (ND : map raw_age D <> []).
    { destruct overlap as (r & Hr & _). destruct D; [destruct Hr|discriminate]. }
    destruct (map raw_age D) as [|t0 tl] eqn:ED; [contradiction|]. rewrite <- ED in *. clear ND.
    rewrite (index_ok times 0) in E by lia. cbn [rbind] in E.
    rewrite (index_ok times (pred (length times))) in E by lia. cbn [rbind] in E.
    cbn [nleb nltb NumR] in E.
    set (lo := nth 0 times 0) in *. set (hi := nth (pred (length times)) times 0) in *.
    (* the radii are a function of the rows *)
    assert (G : exists g, map sr_radius l = map g D).
    { exists (fun r => match entry (Leconte2011 m) QRadius r with Some x => x | None => 0 end).
      apply (f_equal (map (fun o => match o with Some x => x | None => 0 end))) in C. rewrite !map_map in C.
      rewrite C. reflexivity. }
    destruct G as (g & G). rewrite G in E, C.
    assert (C' : forall r, In r D -> entry (Leconte2011 m) QRadius r = Some (g r)).
    { rewrite map_map in C. intros r Hr. clear - C Hr. induction D as [|a D IH]; [destruct Hr|]. cbn [map] in C. injection C as C1 C2.
      destruct Hr as [<-|Hr]; [exact C1|exact (IH C2 Hr)]. }
    clear C G.
    rewrite position_map in E. pose proof (cut_below raw_age lo D ordered) as CB.
    set (D1 := filter (fun a => Rleb lo (raw_age a)) D) in *.
    assert (O1 : increasing (map raw_age D1)) by (apply filter_increasing; exact ordered).
    destruct (position (fun a => Rleb lo (raw_age a)) D) as [k|].
    2:{ exfalso. destruct overlap as (r & Hr & Cr). unfold covered in Cr. fold lo in Cr. destruct (Rle_dec lo (raw_age r)) as [L|]; [|discriminate Cr].
        assert (In r D1) by (apply filter_In; split; [exact Hr|apply Rleb_true, L]). rewrite CB in H0. destruct H0. }
    rewrite !skipn_map, CB, position_map in E. pose proof (cut_above raw_age hi D1 O1) as CA.
    set (D2 := filter (fun a => negb (Rltb hi (raw_age a))) D1) in *.
    assert (K : filter (fun r => covered times (raw_age r)) D = D2).
    { unfold D2, D1. rewrite filter_filter. apply filter_ext. intros r. unfold covered. fold lo.
      replace (nth (length times - 1) times 0) with hi by (unfold hi; f_equal; lia).
      unfold Rleb, Rltb. destruct (Rle_dec lo (raw_age r)); [|reflexivity].
      destruct (Rle_dec (raw_age r) hi), (Rlt_dec hi (raw_age r)); try reflexivity; lra. }
    rewrite K.
    assert (E2 : (do rg2 <- rmap (fun t => do r <- linear_interpolation t times gyrations; Ok (half_up (fst r))) (map raw_age D2);
                  Ok (map (fun t => t * year - initial) (map raw_age D2), map g D2, rg2)) = Ok (time, radius, rg2)).
    { destruct (position (fun a => Rltb hi (raw_age a)) D1) as [k2|]; [rewrite !firstn_map in E|]; rewrite CA in E; exact E. }
    clear E. apply rbind_ok in E2. destruct E2 as (rg & Erg & E). injection E as <- <- <-.
    split; [|split].
    - rewrite map_map. reflexivity.
    - rewrite map_map. apply map_ext_in. intros r Hr. symmetry. apply C'. apply filter_In in Hr. destruct Hr as [Hr _]. apply filter_In in Hr. tauto.
    - apply rmap_ok in Erg. clear - Erg usable. clearbody D2. remember (map raw_age D2) as L eqn:EL. revert D2 EL. induction Erg as [|t v L rg Htv _ IH]; intros [|r D2] EL; try discriminate EL; constructor.
      + injection EL as -> ->. apply rbind_ok in Htv. destruct Htv as ([w j] & Ew & Hv). injection Hv as <-.
        destruct (linear_interpolation_spec times gyrations (raw_age r) usable) as (w' & j' & Ew' & Iw & _).
        rewrite Ew' in Ew. injection Ew as -> ->. exists w. split; [exact Iw|reflexivity].
      + apply IH. injection EL as _ EL. exact EL.
  Qed.
End Dwarfs.

(** ** Accepted tables can be used *)
Definition lookup_ok (ev : evolver R) : Prop :=
  well_tabulated ev /\ forall reqs, nondecreasing (map (fun '(_, t, _) => t) reqs) ->
    exists vs, get_all ev reqs = Ok vs /\ Forall2 (expected ev) reqs vs.
Lemma Forall2_len {A B} (P : A -> B -> Prop) l l' : Forall2 P l l' -> length l = length l'.
Proof. induction 1; cbn [length]; congruence. Qed.
Lemma star_usable half_up e initial limit files aux ev i :
  new_evolver half_up e initial limit files aux = Ok ev -> brown_dwarf e = false -> e <> NonEvolving ->
  file_of e i -> data (files i) <> [] -> increasing (map raw_age (data (files i))) -> lookup_ok ev.
Proof.
  intros A B N F NE I. destruct (accepted_type _ _ _ _ _ _ _ A) as [T L0].
  destruct (accepted_rows _ _ _ _ _ _ _ A B N) as (j & Fj & ET & EC). assert (j = i) by exact (file_unique e j i Fj F). subst j.
  assert (W : well_tabulated ev).
  { intros q Q. rewrite T in Q. pose proof (EC q Q) as E. apply (f_equal (@length _)) in E. rewrite !map_length in E.
    split; [|split].
    - rewrite ET. destruct (data (files i)); [contradiction|discriminate].
    - rewrite E, ET, map_length. reflexivity.
    - rewrite ET. change (fun r => days initial (age e (raw_age r))) with (fun r => (fun x => days initial (age e x)) (raw_age r)).
      rewrite <- (map_map raw_age (fun x => days initial (age e x))). apply map_increasing; [|exact I].
      intros x y L. apply days_increasing, age_increasing, L. }
  split; [exact W|]. intros reqs M. exact (get_all_fresh ev reqs W L0 M).
Qed.
Lemma dwarf_usable half_up m initial limit files aux ev i times gyrations :
  new_evolver half_up (Leconte2011 m) initial limit files aux = Ok ev -> file_of (Leconte2011 m) i ->
  map (number 0) aux = map Some times -> map (number (S i)) aux = map Some gyrations -> table times gyrations ->
  increasing (map raw_age (data (files i))) -> (exists r, In r (data (files i)) /\ covered times (raw_age r) = true) -> lookup_ok ev.
Proof.
  intros A F ET EG TB I O. destruct (accepted_type _ _ _ _ _ _ _ A) as [T L0].
  destruct (dwarf_rows _ _ _ _ _ _ _ A i times gyrations F ET EG TB I O) as (E1 & E2 & E3).
  assert (NE : kept_rows files i times <> []).
  { destruct O as (r & Hr & Cr). assert (In r (kept_rows files i times)) by (apply filter_In; auto). intros K. rewrite K in H. destruct H. }
  assert (INC : increasing (ev_time ev)).
  { rewrite E1. rewrite <- (map_map raw_age (days initial)). apply map_increasing; [exact (days_increasing initial)|].
    apply filter_increasing, I. }
  assert (NT : ev_time ev <> []) by (rewrite E1; destruct (kept_rows files i times); [contradiction|discriminate]).
  assert (W : well_tabulated ev).
  { intros q Q. rewrite T in Q. split; [exact NT|]. split; [|exact INC]. destruct q; try discriminate Q; cbn [column].
    - apply (f_equal (@length _)) in E2. rewrite !map_length in E2. rewrite E2, E1, map_length. reflexivity.
    - apply Forall2_len in E3. rewrite <- E3, E1, map_length. reflexivity. }
  split; [exact W|]. intros reqs M. exact (get_all_fresh ev reqs W L0 M).
Qed.

(** ** Masses without a file are refused *)
Lemma unsupported half_up e initial limit files aux : (forall i, ~ file_of e i) -> exists k, new_evolver half_up e initial limit files aux = Panic k.
Proof.
  intros N. unfold new_evolver. pose proof (model_file_spec e) as F. destruct (model_file e) as [i|]; [destruct (N i F)|].
  exists POther. reflexivity.
Qed.

(** ** Examples *)
Definition jupiter_file : list fields :=
  [[None; None]; [Some 0; Some 70000000; Some (1/2); Some (1/4); None; Some (1/8)]; [Some 10; Some 60000000; Some (1/3); Some (1/5); None; Some (1/9)]].
Ltac decide_all := unfold Rltb, Rleb; repeat match goal with
  | |- context [Rlt_dec ?a ?b] => destruct (Rlt_dec a b); [try (exfalso; lra)|try (exfalso; lra)]
  | |- context [Rle_dec ?a ?b] => destruct (Rle_dec a b); [try (exfalso; lra)|try (exfalso; lra)] end.
Lemma jupiter_accepted : exists ev, new_evolver (fun x => x) (LeconteChabrier2013 true) 365 3000 (fun _ => jupiter_file) [] = Ok ev.
Proof.
  unfold new_evolver, jupiter_file, read_rows, read_row, cell, raw_time, year. cbn [model_file rbind andb nth_error map sr_time sr_radius].
  cbn [nltb n0 n1 nopp nlit nmul nsub NumR rbind andb last]. 
  decide_all; cbn [rbind andb nth_error map sr_time sr_radius last]. all: decide_all. all: eexists; reflexivity.
Qed.
Lemma jupiter_ordered : data jupiter_file <> [] /\ increasing (map raw_age (data jupiter_file)).
Proof.
  split; [discriminate|]. cbn. apply cons_increasing; [intros x [<-|[]]; cbn; lra|]. intros i j L. cbn in L. lia.
Qed.

Lemma dwarf_file : file_of (Leconte2011 (1/100)) 0.
Proof. exists (10/1000). split; [reflexivity|]. cbn [close star_mass]. apply Rabs_le_between. lra. Qed.
Definition dwarf_rows_file : list fields := [[Some 0; Some 9]; [Some 2; Some 8]; [Some 5; Some 7]].
Definition gyration_file : list fields := [[Some 1; Some (1/5)]; [Some 3; Some (1/4)]].
Lemma dwarf_accepted : exists ev, new_evolver (fun x => x) (Leconte2011 (1/100)) 731 (-1) (fun _ => dwarf_rows_file) gyration_file = Ok ev.
Proof.
  unfold new_evolver. pose proof (model_file_spec (Leconte2011 (1/100))) as F.
  destruct (model_file (Leconte2011 (1/100))) as [i|]; [|destruct (F 0%nat dwarf_file)].
  assert (i = 0%nat) by exact (file_unique _ _ _ F dwarf_file). subst i.
  unfold dwarf_rows_file, gyration_file, read_rows, read_row, cell, raw_time. cbn [rbind andb nth_error map sr_time sr_radius].
  cbn [nltb n0 n1 nopp nlit nmul nsub NumR rbind andb].
  unfold Rltb at 1. destruct (Rlt_dec 0 0); [exfalso; lra|]. cbn [rbind map sr_time sr_radius].
  unfold restrict_and_interpolate, cell, index. cbn [rmap rbind nth_error length Nat.pred position nleb nltb NumR option_map].
  decide_all. cbn [option_map skipn position]. decide_all. cbn [option_map firstn rmap].
  unfold linear_interpolation, find_indices_around, index, year. cbn [position nltb NumR option_map].
  decide_all. cbn. decide_all. eexists; reflexivity.
Qed.
Lemma dwarf_conditions : table [1; 3] [1/5; 1/4] /\ increasing (map raw_age (data dwarf_rows_file)) /\
  exists r, In r (data dwarf_rows_file) /\ covered [1; 3] (raw_age r) = true.
Proof.
  assert (D : data dwarf_rows_file = dwarf_rows_file) by (unfold data; cbn [dwarf_rows_file number nth_error]; destruct (Rlt_dec 0 0); [exfalso; lra|reflexivity]).
  rewrite D. split; [|split].
  - split; [discriminate|]. split; [reflexivity|]. apply cons_increasing; [intros x [<-|[]]; lra|]. intros i j L. cbn in L. lia.
  - cbn. apply cons_increasing; [intros x [<-|[<-|[]]]; cbn; lra|]. apply cons_increasing; [intros x [<-|[]]; cbn; lra|]. intros i j L. cbn in L. lia.
  - exists [Some 2; Some 8]. split; [right; left; reflexivity|]. unfold covered. cbn. decide_all. reflexivity.
Qed.

(** A file without data is accepted and no quantity can be asked. *)
Lemma empty_accepted half_up initial limit : exists ev,
  new_evolver half_up (LeconteChabrier2013 true) initial limit (fun _ => [[None; None]]) [] = Ok ev /\
  forall q t current, get ev q t current = Panic PSplit.
Proof.
  eexists. split.
  - unfold new_evolver, read_rows, raw_time. cbn [model_file rbind andb]. cbn [nltb n0 n1 nopp NumR rbind andb].
    decide_all. cbn [rbind map]. reflexivity.
  - intros [] t c; reflexivity.
Qed.
(** A later row with an unreadable age is taken for one of age -1 year. *)
Definition bad_file : list fields := [[Some 0; Some 7; Some 1; Some 1]; [None; Some 6; Some 1; Some 1]; [Some 10; Some 5; Some 1; Some 1]].
Lemma unreadable_accepted : exists ev,
  new_evolver (fun x => x) (LeconteChabrier2013 false) 0 3000 (fun _ => bad_file) [] = Ok ev /\
  ev_time ev = [days 0 0; days 0 (-1); days 0 10].
Proof.
  eexists. split.
  - unfold new_evolver, bad_file, read_rows, read_row, cell, raw_time, year. cbn [model_file rbind andb nth_error map sr_time sr_radius].
    cbn [nltb n0 n1 nopp nlit nmul nsub NumR rbind andb last].
    unfold Rltb at 1. destruct (Rlt_dec 0 0); [exfalso; lra|]. cbn [rbind map sr_time sr_radius last]. decide_all. reflexivity.
  - cbn [ev_time]. unfold days. repeat (apply f_equal2; [lra|]). reflexivity.
Qed.
Lemma unreadable_refuted : exists ev,
  new_evolver (fun x => x) (LeconteChabrier2013 false) 0 3000 (fun _ => bad_file) [] = Ok ev /\
  (exists r, In r (data bad_file) /\ number 0 r = None) /\ ev_time ev = [days 0 0; days 0 (-1); days 0 10].
Proof.
  destruct unreadable_accepted as (ev & E & T). exists ev. split; [exact E|]. split; [|exact T].
  exists [None; Some 6; Some 1; Some 1]. split; [|reflexivity]. unfold data, bad_file. cbn [number nth_error].
  destruct (Rlt_dec 0 0); [exfalso; lra|right; left; reflexivity].
Qed.
Lemma all_usable half_up e initial limit files aux ev i :
  new_evolver half_up e initial limit files aux = Ok ev -> e <> NonEvolving -> file_of e i ->
  data (files i) <> [] -> increasing (map raw_age (data (files i))) ->
  (forall m, e = Leconte2011 m -> exists times gyrations,
     map (number 0) aux = map Some times /\ map (number (S i)) aux = map Some gyrations /\ table times gyrations /\
     exists r, In r (data (files i)) /\ covered times (raw_age r) = true) ->
  lookup_ok ev.
Proof.
  intros A N F D I K. destruct (brown_dwarf e) eqn:B.
  - destruct e as [m|m|m|m|m|d|]; try discriminate B. destruct (K m eq_refl) as (times & gyrations & T & G & U & O).
    exact (dwarf_usable _ _ _ _ _ _ _ i times gyrations A F T G U I O).
  - exact (star_usable _ _ _ _ _ _ _ i A B N F D I).
Qed.
(** ** Answers stay within the values of the file *)
Lemma star_range half_up e initial limit files aux ev i q lo hi reqs :
  new_evolver half_up e initial limit files aux = Ok ev -> brown_dwarf e = false -> e <> NonEvolving ->
  file_of e i -> data (files i) <> [] -> increasing (map raw_age (data (files i))) ->
  tabulates e q = true -> (forall r x, In r (data (files i)) -> entry e q r = Some x -> lo <= x <= hi) ->
  nondecreasing (map (fun '(_, t, _) => t) reqs) ->
  exists vs, get_all ev reqs = Ok vs /\ Forall2 (fun '(q', _, _) v => q' = q -> lo <= v <= hi) reqs vs.
Proof.
  intros A B N F D I Q K M. destruct (star_usable _ _ _ _ _ _ _ i A B N F D I) as [W G].
  destruct (G reqs M) as (vs & E & X). exists vs. split; [exact E|].
  destruct (accepted_type _ _ _ _ _ _ _ A) as [T _].
  destruct (accepted_rows _ _ _ _ _ _ _ A B N) as (j & Fj & ET & EC). assert (j = i) by exact (file_unique e j i Fj F). subst j.
  refine (Forall2_imp _ _ _ _ _ X). intros [[q' t] c] v Hv ->. unfold expected in Hv. rewrite T, Q in Hv.
  assert (TB : table (ev_time ev) (column ev q)) by (apply W; rewrite T; exact Q).
  assert (S : forall n, (n < length (ev_time ev))%nat -> lo <= nth n (column ev q) 0 <= hi).
  { intros n L. destruct TB as (_ & LC & _). rewrite <- LC in L.
    pose proof (nth_error_in 0 (column ev q) n L) as En. apply (map_nth_error Some) in En. rewrite (EC q Q), nth_error_map in En.
    destruct (nth_error (data (files i)) n) as [r|] eqn:Er; [|discriminate En]. injection En as En.
    exact (K r _ (nth_error_In _ _ Er) En). }
  destruct (interpolates_between _ _ t v TB Hv) as (a & b & La & Lb & V). pose proof (S a La). pose proof (S b Lb). lra.
Qed.
Lemma not_dwarf e : (forall m, e <> Leconte2011 m) -> brown_dwarf e = false.
Proof. destruct e as [m|m|m|m|m|d|]; intros K; try reflexivity. destruct (K m eq_refl). Qed.
(** ** Files that cover the simulation are accepted *)
Lemma number_cell k (r : row R) : number k r <> None -> exists x, cell k r = Ok x.
Proof. intros K. destruct (number k r) as [x|] eqn:E; [|contradiction]. exists x. apply cell_number, E. Qed.
Lemma mapped_cell {A} k (f : R -> A) (r : row R) : option_map f (number k r) <> None -> exists x, cell k r = Ok x.
Proof. intros K. apply number_cell. destruct (number k r); [discriminate|destruct (K eq_refl)]. Qed.
Lemma read_row_total e initial t r : brown_dwarf e = false -> e <> NonEvolving -> readable e r -> exists s, read_row e initial t r = Ok s.
Proof.
  intros B N K. unfold read_row.
  destruct (mapped_cell (radius_column e) (fun x => if in_metres e then x / AU else x * R_SUN) r) as (x & Ex).
  { destruct e as [m|m|m|m|m|[|]|]; try contradiction; exact (K QRadius eq_refl). }
  fold (radius_column e). rewrite Ex. cbn [rbind].
  destruct e as [m|m|m|m|m|d|]; try contradiction; try discriminate B; cbn [rbind].
  - destruct (mapped_cell _ _ _ (K QInvQ eq_refl)) as (y & ->). eexists; reflexivity.
  - destruct (number_cell _ _ (K QInvQ eq_refl)) as (y & ->). eexists; reflexivity.
  - destruct (number_cell _ _ (K QGyration eq_refl)) as (y & ->). eexists; reflexivity.
  - destruct (nabs (m - 10 // 100) <=? 1 // 10000000)%num; [eexists; reflexivity|].
    destruct (nabs (m - n1) <=? 1 // 10000000)%num; eexists; reflexivity.
  - destruct d; destruct (number_cell _ _ (K QGyration eq_refl)) as (y & ->); destruct (number_cell _ _ (K QLove eq_refl)) as (z & ->); cbn [rbind];
      [destruct (number_cell _ _ (K QInvQ eq_refl)) as (w & ->)|]; eexists; reflexivity.
Qed.
Lemma raw_time_total (r : row R) : r <> [] -> raw_time r = Ok (raw_age r).
Proof. destruct r as [|[x|] r]; intros K; [contradiction|reflexivity|]. cbn [raw_time]. unfold raw_age. cbn [number nth_error]. f_equal. Qed.
Lemma read_rest_total e initial rows : brown_dwarf e = false -> e <> NonEvolving ->
  (forall r, In r rows -> r <> [] /\ readable e r) -> exists l, read_rows false e initial rows = Ok l.
Proof.
  intros B N. induction rows as [|r rows IH]; intros K; [exists []; reflexivity|]. cbn [read_rows].
  destruct (K r (or_introl eq_refl)) as [K1 K2]. rewrite (raw_time_total r K1). cbn [rbind andb].
  destruct (read_row_total e initial (raw_age r) r B N K2) as (s & ->). cbn [rbind].
  destruct IH as (l & ->); [intros r' Hr; apply K; right; exact Hr|]. exists (s :: l). reflexivity.
Qed.
Lemma read_total e initial rows : brown_dwarf e = false -> e <> NonEvolving -> (forall r, In r rows -> r <> []) ->
  (forall r, In r (data rows) -> readable e r) -> exists l, read_rows true e initial rows = Ok l.
Proof.
  intros B N K D. destruct rows as [|r rows]; [exists []; reflexivity|].
  assert (Rest : (forall r', In r' rows -> readable e r') -> exists l, read_rows false e initial rows = Ok l).
  { intros X. apply read_rest_total; auto. intros r' Hr. split; [apply K; right; exact Hr|exact (X r' Hr)]. }
  assert (All : (forall r', In r' (r :: rows) -> readable e r') -> exists l, read_rows false e initial (r :: rows) = Ok l).
  { intros X. apply read_rest_total; auto. }
  cbn [read_rows andb] in All |- *. rewrite (raw_time_total r (K r (or_introl eq_refl))) in All |- *. cbn [rbind] in All |- *.
  unfold data in D. unfold raw_age at 1. num_simpl. destruct (number 0 r) as [x|].
  - unfold Rltb. destruct (Rlt_dec x 0); [exact (Rest D)|exact (All D)].
  - unfold Rltb. destruct (Rlt_dec (-1) 0); [exact (Rest D)|lra].
Qed.
Lemma star_accepted half_up e initial limit files aux i : (forall m, e <> Leconte2011 m) -> e <> NonEvolving -> file_of e i ->
  (forall r, In r (files i) -> r <> []) -> (forall r, In r (data (files i)) -> readable e r) ->
  let time := map (fun r => days initial (age e (raw_age r))) (data (files i)) in
  (exists ev, new_evolver half_up e initial limit files aux = Ok ev) <->
  (time <> [] -> nth 0 time 0 <= 0 /\ limit <= nth (length time - 1) time 0).
Proof.
  intros B N F K D time. apply not_dwarf in B. split.
  - intros (ev & A) T. destruct (accepted_rows _ _ _ _ _ _ _ A B N) as (j & Fj & ET & _).
    assert (j = i) by exact (file_unique e j i Fj F). subst j. unfold time in *. rewrite <- ET in *. exact (accepted_covers _ _ _ _ _ _ _ A T).
  - intros C. unfold new_evolver. pose proof (model_file_spec e) as M. destruct (model_file e) as [j|]; [|destruct (M i F)].
    assert (j = i) by exact (file_unique e j i M F). subst j.
    destruct (read_total e initial (files i) B N K D) as (l & El). rewrite El. cbn [rbind].
    destruct (read_rows_spec e i initial (files i) l F N El) as [T _]. rewrite B in T. fold time in T.
    assert (X : forall tail radius rg2 love invq, tail = time -> exists ev,
      (if match tail with [] => false | t :: _ => (t >? n0)%num end then Panic POther
       else if match tail with [] => false | t :: l => (last l t <? limit)%num end then Panic POther
       else Ok (Evolver e tail radius rg2 love invq 0)) = Ok ev).
    { intros tl radius rg2 love invq ->. destruct time as [|t tm]; [eexists; reflexivity|]. destruct (C ltac:(discriminate)) as [C1 C2].
      cbn [nltb n0 NumR]. assert (E1 : Rltb 0 t = false) by (apply Rltb_false; exact C1). rewrite E1.
      assert (E2 : Rltb (last tm t) limit = false).
      { apply Rltb_false. cbn [length] in C2. replace (S (length tm) - 1)%nat with (length tm) in C2 by lia.
        replace (last tm t) with (nth (length tm) (t :: tm) 0); [exact C2|].
        clear. revert t. induction tm as [|u tm IH]; intros t; [reflexivity|]. cbn [length nth]. destruct tm as [|v tm]; [reflexivity|]. exact (IH t). }
      rewrite E2. eexists; reflexivity. }
    destruct e as [m|m|m|m|m|d|]; try contradiction; try discriminate B; cbn [rbind]; apply X; exact T.
Qed.
