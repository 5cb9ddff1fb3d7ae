(** Gravity: Newton's law, conservation, invariance, detection of encounters *)
From Coq Require Import Reals Lra Psatz List Bool ZArith Arith Lia Permutation.
From Verif Require Import Base.Num Base.Result Base.Trans Base.Vec Model.Constants Model.Particle Model.Host
  Model.Creep Model.Relativity Model.Universe Spec.EffectsSpec Spec.UniverseSpec Proofs.NumLemmas Proofs.VecLemmas.
Import ListNotations.
Open Scope R_scope.

(** ** Lists *)
Lemma rmap_length {A B} (f : A -> res B) l l' : rmap f l = Ok l' -> length l' = length l.
Proof.
  revert l'; induction l as [|a l IH]; cbn; intros l' E.
  - injection E as <-. reflexivity.
  - destruct (f a); cbn in E; [|discriminate]. destruct (rmap f l); cbn in E; [|discriminate].
    injection E as <-. cbn. f_equal. now apply IH.
Qed.
Lemma rmap_nth {A B} (f : A -> res B) l l' i a :
  rmap f l = Ok l' -> nth_error l i = Some a -> exists b, f a = Ok b /\ nth_error l' i = Some b.
Proof.
  revert l' i; induction l as [|x l IH]; cbn; intros l' i E Hi.
  - destruct i; discriminate.
  - destruct (f x) as [b|] eqn:Ef; cbn in E; [|discriminate].
    destruct (rmap f l) as [bs|] eqn:Er; cbn in E; [|discriminate]. injection E as <-.
    destruct i as [|i]; cbn in *.
    + injection Hi as <-. eauto.
    + eapply IH; eauto.
Qed.
Lemma rmap_map {A B C} (f : B -> res C) (g : A -> B) l : rmap f (map g l) = rmap (fun x => f (g x)) l.
Proof. induction l as [|a l IH]; cbn; auto. now rewrite IH. Qed.
Lemma rmap_ext {A B} (f g : A -> res B) l : (forall x, In x l -> f x = g x) -> rmap f l = rmap g l.
Proof.
  induction l as [|a l IH]; cbn; intro E; auto. rewrite E by auto. rewrite IH; auto.
Qed.
Lemma rmap_ok {A B} (f : A -> B) l : rmap (fun x => Ok (f x)) l = Ok (map f l).
Proof. induction l as [|a l IH]; cbn; auto. now rewrite IH. Qed.
Lemma rfold_map {A B C} (f : C -> B -> res C) (g : A -> B) l c : rfold f (map g l) c = rfold (fun c x => f c (g x)) l c.
Proof. revert c; induction l as [|a l IH]; cbn; intro c; auto. destruct (f c (g a)); cbn; auto. Qed.
Lemma rfold_ext {A B} (f g : B -> A -> res B) l b : (forall b x, f b x = g b x) -> rfold f l b = rfold g l b.
Proof. intro E; revert b; induction l as [|a l IH]; cbn; intro b; auto. rewrite E. destruct (g b a); cbn; auto. Qed.

Lemma enumerate_length {A} (l : list A) : length (enumerate l) = length l.
Proof. unfold enumerate. rewrite combine_length, seq_length. apply Nat.min_id. Qed.
Lemma nth_combine {A B} (l : list A) (r : list B) i a b :
  nth_error l i = Some a -> nth_error r i = Some b -> nth_error (combine l r) i = Some (a, b).
Proof.
  revert r i; induction l as [|x l IH]; intros [|y r] [|i]; cbn; try discriminate.
  - intros [= <-] [= <-]. reflexivity.
  - apply IH.
Qed.
Lemma nth_combine_inv {A B} (l : list A) (r : list B) i a b :
  nth_error (combine l r) i = Some (a, b) -> nth_error l i = Some a /\ nth_error r i = Some b.
Proof.
  revert r i; induction l as [|x l IH]; intros [|y r] [|i]; cbn; try discriminate.
  - intros [= <- <-]. auto.
  - apply IH.
Qed.
Lemma nth_seq s n i : (i < n)%nat -> nth_error (seq s n) i = Some (s + i)%nat.
Proof.
  revert s i; induction n as [|n IH]; intros s [|i] Hi; cbn; try lia.
  - f_equal; lia.
  - rewrite IH by lia. f_equal; lia.
Qed.
Lemma nth_enumerate {A} (l : list A) i a : nth_error l i = Some a -> nth_error (enumerate l) i = Some (i, a).
Proof.
  intro Hi. unfold enumerate. apply nth_combine; auto.
  rewrite nth_seq; auto. apply nth_error_Some. congruence.
Qed.
Lemma combine_map {A B C D} (f : A -> C) (g : B -> D) l r :
  combine (map f l) (map g r) = map (fun x => (f (fst x), g (snd x))) (combine l r).
Proof. revert r; induction l as [|a l IH]; intros [|b r]; cbn; auto. now rewrite IH. Qed.
Lemma combine_map_l {A B C} (f : A -> C) l (r : list B) :
  combine (map f l) r = map (fun x => (f (fst x), snd x)) (combine l r).
Proof. revert r; induction l as [|a l IH]; intros [|b r]; cbn; auto. now rewrite IH. Qed.
Lemma enumerate_map {A B} (f : A -> B) (l : list A) :
  enumerate (map f l) = map (fun ix => (fst ix, f (snd ix))) (enumerate l).
Proof.
  unfold enumerate. rewrite map_length.
  generalize (seq 0 (length l)); intro s. revert s; induction l as [|a l IH]; intros [|k s]; cbn; auto.
  now rewrite IH.
Qed.
Lemma map_snd_enumerate {A} (l : list A) : map snd (enumerate l) = l.
Proof.
  unfold enumerate. generalize 0%nat. induction l as [|a l IH]; cbn; intro k; auto. now rewrite IH.
Qed.
Lemma map_fst_combine {A B} (l : list A) (r : list B) : length r = length l -> map fst (combine l r) = l.
Proof. revert r; induction l as [|a l IH]; intros [|b r]; cbn; intro E; auto; try discriminate. now rewrite IH by lia. Qed.
Lemma map_snd_combine {A B} (l : list A) (r : list B) : length r = length l -> map snd (combine l r) = r.
Proof. revert r; induction l as [|a l IH]; intros [|b r]; cbn; intro E; auto; try discriminate. now rewrite IH by lia. Qed.

(** ** One pair *)
(** gravity only reads positions, radii and masses *)
Definition gview (p : particle R) : vec R * R * R := (p_ipos p, p_radius p, p_mass p).
Definition pull (g : R) (a b : vec R * R * R) : vec R :=
  let '(xa, _, _) := a in let '(xb, _, mb) := b in
  let d := vsub xb xa in vscale (g * mb / sqrt (norm2 d) ^ 3) d.
Lemma pull_attraction g a b : pull g (gview a) (gview b) = attraction g a b.
Proof. reflexivity. Qed.

Definition pair_clear (mm i : nat) (a : vec R * R * R) (jbr : nat * (vec R * R * R * R)) : Prop :=
  let '(j, (xb, rb, mb, roche)) := jbr in
  let '(xa, ra, ma) := a in
  (i < j)%nat ->
  let d2 := norm2 (vsub xb xa) in
  roche ^ 2 < d2 /\ (ra + rb) ^ 2 < d2 /\ (i = mm -> d2 <= MAX_DISTANCE_2).

Definition gp (ig : ignore_terms) (mm i : nat) (a : vec R * R * R) (acc : vec R) (jbr : nat * (vec R * R * R * R)) : res (vec R) :=
  let '(j, (xb, rb, mb, roche)) := jbr in
  let '(xa, ra, ma) := a in
  gravity_pair ig mm i (set_p_ipos xa (set_p_radius ra (set_p_mass ma dummy_particle))) acc
     (j, (set_p_ipos xb (set_p_radius rb (set_p_mass mb dummy_particle)), roche)).
Lemma gp_view ig mm i a acc j b r : gravity_pair ig mm i a acc (j, (b, r)) = gp ig mm i (gview a) acc (j, (gview b, r)).
Proof. reflexivity. Qed.

Definition gon (ig : ignore_terms) (mm : nat) (vl : list (vec R * R * R)) (iar : nat * (vec R * R * R * list R)) : res (vec R) :=
  let '(i, (a, row)) := iar in rfold (gp ig mm i a) (enumerate (combine vl row)) vzero.
Lemma gon_view ig mm l i a row : gravity_on ig mm l (i, (a, row)) = gon ig mm (map gview l) (i, (gview a, row)).
Proof.
  unfold gravity_on, gon. rewrite combine_map_l, enumerate_map, rfold_map.
  apply rfold_ext. intros acc [j [b r]]. apply gp_view.
Qed.
(** the accelerations, as a function of the views *)
Definition gravities (ig : ignore_terms) (mm : nat) (vl : list (vec R * R * R)) (roche : list (list R)) : res (list (vec R)) :=
  rmap (gon ig mm vl) (enumerate (combine vl roche)).
Lemma gravities_view ig mm l roche :
  rmap (gravity_on ig mm l) (enumerate (combine l roche)) = gravities ig mm (map gview l) roche.
Proof.
  unfold gravities. rewrite combine_map_l, enumerate_map, rmap_map.
  apply rmap_ext. intros [i [a row]] _. apply gon_view.
Qed.

Lemma sq_sum (d : vec R) : vx d * vx d + vy d * vy d + vz d * vz d = norm2 d.
Proof. vdestruct; vunfold; ring. Qed.
Lemma norm2_vsub_sym (a b : vec R) : norm2 (vsub a b) = norm2 (vsub b a).
Proof. vring. Qed.
Lemma max_distance_pos : 0 < (MAX_DISTANCE_2 : R).
Proof. unfold MAX_DISTANCE_2, MAX_DISTANCE. num_simpl. lra. Qed.

Lemma gforce (acc xa xb : vec R) (g s mb : R) :
  vadd acc (vscale (- g / (s * s * s) * mb) (vsub xa xb)) = vadd acc (vscale (g * mb / s ^ 3) (vsub xb xa)).
Proof.
  f_equal. replace (s ^ 3) with (s * s * s) by ring. unfold Rdiv. generalize (/ (s * s * s)); intro k. vring.
Qed.
Lemma gp_ok mm i a j b roche acc :
  i <> j -> pair_clear mm i a (j, (b, roche)) ->
  gp IgnoreNone mm i a acc (j, (b, roche)) = Ok (vadd acc (pull G a b)).
Proof.
  intros Hij Hc. destruct a as [[xa ra] ma], b as [[xb rb] mb]. unfold gp, gravity_pair, pull.
  cbn [p_ipos p_radius p_mass set_p_ipos set_p_radius set_p_mass gravity_ignored].
  destruct (Nat.eqb_spec i j) as [|_]; [contradiction|].
  num_simpl. rewrite sq_sum, (norm2_vsub_sym xa xb), gforce.
  destruct (Nat.ltb_spec i j) as [Hlt|_]; [|reflexivity].
  destruct (Hc Hlt) as (H1 & H2 & H3). cbv zeta in *.
  rewrite !npow_pow. repeat rcase; try lra; cbn [andb]; try reflexivity.
  all: destruct (Nat.eqb_spec i mm) as [E|]; cbn [andb]; try specialize (H3 E); try lra; reflexivity.
Qed.
Lemma gp_panic mm ig i a j b roche acc s :
  i <> j -> gp ig mm i a acc (j, (b, roche)) = Ok s -> pair_clear mm i a (j, (b, roche)).
Proof.
  intros Hij. destruct a as [[xa ra] ma], b as [[xb rb] mb]. unfold gp, pair_clear, gravity_pair.
  cbn [p_ipos p_radius p_mass set_p_ipos set_p_radius set_p_mass].
  destruct (Nat.eqb_spec i j) as [|_]; [contradiction|].
  intros E Hlt. apply Nat.ltb_lt in Hlt. rewrite Hlt in E. num_simpl.
  rewrite sq_sum, (norm2_vsub_sym xa xb), !npow_pow in E. revert E.
  repeat rcase; try (intro X; discriminate X); cbn [andb].
  all: destruct (Nat.eqb_spec i mm) as [->|]; cbn [andb]; try (intro X; discriminate X); intros _; repeat split; intros; try lra; try lia.
  all: exfalso; apply (Rlt_irrefl 0); pose proof max_distance_pos; lra.
Qed.
Lemma gp_self mm ig i a b roche acc : gp ig mm i a acc (i, (b, roche)) = Ok acc.
Proof. destruct a as [[xa ra] ma], b as [[xb rb] mb]. unfold gp, gravity_pair. now rewrite Nat.eqb_refl. Qed.

(** ** All pairs *)
Lemma gp_loop mm i a vl row k acc s :
  length row = length vl ->
  rfold (gp IgnoreNone mm i a) (combine (seq k (length (combine vl row))) (combine vl row)) acc = Ok s ->
  s = vadd acc (Vsum (map (fun jb => if Nat.eqb i (fst jb) then vzero else pull G a (snd jb)) (combine (seq k (length vl)) vl)))
  /\ forall j b r, nth_error vl j = Some b -> nth_error row j = Some r -> i <> (k + j)%nat -> pair_clear mm i a ((k + j)%nat, (b, r)).
Proof.
  revert row k acc; induction vl as [|b vl IH]; intros [|r row] k acc Hl; try discriminate Hl.
  - cbn. intros [= <-]. split.
    + now rewrite vadd_0_r.
    + intros [|j] ? ? X; discriminate X.
  - cbn [combine length seq rfold rbind map fst snd]. intro E.
    destruct (gp IgnoreNone mm i a acc (k, (b, r))) as [acc'|] eqn:Eg; cbn [rbind] in E; [|discriminate E].
    apply IH in E; [|cbn in Hl; lia]. destruct E as (-> & Hc). split.
    + unfold Vsum. cbn [fold_right]. fold (Vsum (map (fun jb => if Nat.eqb i (fst jb) then vzero else pull G a (snd jb)) (combine (seq (S k) (length vl)) vl))).
      destruct (Nat.eqb_spec i k) as [->|Hik].
      * rewrite gp_self in Eg. injection Eg as <-. now rewrite vadd_0_l.
      * pose proof (gp_panic _ _ _ _ _ _ _ _ _ Hik Eg) as Hp.
        rewrite gp_ok in Eg by auto. injection Eg as <-. now rewrite vadd_assoc.
    + intros [|j] b' r'; cbn [nth_error].
      * intros [= <-] [= <-] Hij. rewrite Nat.add_0_r in *. eapply gp_panic; eauto.
      * intros Hb Hr Hij. rewrite <- Nat.add_succ_comm in *. now apply Hc.
Qed.
Lemma sum_skip {A} (f : A -> vec R) l i k :
  Vsum (map (fun jb => if Nat.eqb (k + i) (fst jb) then vzero else f (snd jb)) (combine (seq k (length l)) l))
  = Vsum (map f (except i l)).
Proof.
  assert (Hlt : forall (l : list A) i k, (i < k)%nat ->
    Vsum (map (fun jb => if Nat.eqb i (fst jb) then vzero else f (snd jb)) (combine (seq k (length l)) l)) = Vsum (map f l)).
  { clear. induction l as [|x l IH]; intros i k Hk; cbn; auto. destruct (Nat.eqb_spec i k); [lia|].
    f_equal. unfold Vsum in IH. apply IH. lia. }
  revert i k; induction l as [|x l IH]; intros i k.
  - destruct i; reflexivity.
  - destruct i as [|i]; cbn [combine length seq map fst snd].
    + rewrite Nat.add_0_r, Nat.eqb_refl. unfold except. cbn [firstn skipn app].
      unfold Vsum at 1. cbn [fold_right]. rewrite vadd_0_l. now apply (Hlt l k (S k)); lia.
    + destruct (Nat.eqb_spec (k + S i) k); [lia|]. unfold except in *. cbn [firstn skipn app map].
      unfold Vsum. cbn [fold_right]. f_equal. rewrite <- Nat.add_succ_comm. apply IH.
Qed.
Lemma gon_sum mm i a vl row s :
  length row = length vl -> gon IgnoreNone mm vl (i, (a, row)) = Ok s ->
  s = Vsum (map (pull G a) (except i vl))
  /\ forall j b r, nth_error vl j = Some b -> nth_error row j = Some r -> i <> j -> pair_clear mm i a (j, (b, r)).
Proof.
  intros Hl E. unfold gon, enumerate in E. apply gp_loop in E; auto. destruct E as (-> & Hc). split; auto.
  rewrite vadd_0_l. apply (sum_skip (pull G a) vl i 0).
Qed.

(** square table of Roche radiuses *)
Definition roche_square (u : universe R) : Prop :=
  length (u_roche u) = length (u_particles u) /\
  Forall (fun row => length row = length (u_particles u)) (u_roche u).

Lemma except_map {A B} (f : A -> B) i l : except i (map f l) = map f (except i l).
Proof. unfold except. now rewrite map_app, firstn_map, skipn_map. Qed.

Lemma except_sum {A} (f : A -> vec R) l i a :
  nth_error l i = Some a -> Vsum (map f l) = vadd (f a) (Vsum (map f (except i l))).
Proof.
  revert i; induction l as [|x l IH]; intros [|i]; cbn [nth_error]; try discriminate.
  - intros [= ->]. reflexivity.
  - intro E. unfold except. cbn [firstn skipn app map Vsum fold_right].
    specialize (IH _ E). unfold Vsum, except in *. rewrite IH.
    rewrite !vadd_assoc. f_equal. apply vadd_comm.
Qed.
Lemma Vsum_swap {A B} (f : A -> B -> vec R) l r :
  Vsum (map (fun a => Vsum (map (f a) r)) l) = Vsum (map (fun b => Vsum (map (fun a => f a b) l)) r).
Proof.
  induction l as [|a l IH]; cbn [map].
  - induction r as [|b r IHr]; [reflexivity|]. cbn [map]. unfold Vsum at 2. cbn [fold_right].
    unfold Vsum in *. cbn [fold_right map] in *. now rewrite <- IHr, vadd_0_l.
  - unfold Vsum at 1; cbn [fold_right]; fold (Vsum (map (fun a => Vsum (map (f a) r)) l)). rewrite IH.
    rewrite <- Vsum_map_add. reflexivity.
Qed.
Lemma vneg_sum {A} (f : A -> vec R) l : Vsum (map (fun x => vneg (f x)) l) = vneg (Vsum (map f l)).
Proof.
  induction l as [|a l IH]; cbn [map Vsum fold_right].
  - vring.
  - unfold Vsum in *. rewrite IH. vring.
Qed.
Lemma own_neg (v : vec R) : v = vneg v -> v = vzero.
Proof. destruct v; vunfold. intros [= ? ? ?]. f_equal; lra. Qed.
Lemma pairs_cancel {A} (f : A -> A -> vec R) l :
  (forall a b, f a b = vneg (f b a)) -> Vsum (map (fun a => Vsum (map (f a) l)) l) = vzero.
Proof.
  intro Hf. apply own_neg. rewrite Vsum_swap at 1. rewrite <- vneg_sum.
  apply Vsum_map_ext, Forall_forall. intros b _. rewrite <- vneg_sum.
  apply Vsum_map_ext, Forall_forall. auto.
Qed.
Lemma separation_sym a b : separation a b = separation b a.
Proof. unfold separation. now rewrite norm2_vsub_sym. Qed.
Lemma attraction_self g a : attraction g a a = vzero.
Proof. unfold attraction. generalize (g * p_mass a / separation a a ^ 3). generalize (p_ipos a). vring. Qed.
Lemma attraction_newton3 g a b :
  vscale (p_mass a) (attraction g a b) = vneg (vscale (p_mass b) (attraction g b a)).
Proof.
  unfold attraction. rewrite (separation_sym b a). unfold Rdiv. generalize (/ separation a b ^ 3), (p_ipos a), (p_ipos b), (p_mass a), (p_mass b).
  clear. vring.
Qed.
Lemma attraction_torque g a b :
  vcross (p_ipos a) (vscale (p_mass a) (attraction g a b)) = vneg (vcross (p_ipos b) (vscale (p_mass b) (attraction g b a))).
Proof.
  unfold attraction. rewrite (separation_sym b a). unfold Rdiv. generalize (/ separation a b ^ 3), (p_ipos a), (p_ipos b), (p_mass a), (p_mass b).
  clear. vring.
Qed.
Lemma newton_all g i a l : nth_error l i = Some a -> newton g i a l = Vsum (map (attraction g a) l).
Proof. intro E. unfold newton. rewrite (except_sum _ _ _ _ E), attraction_self, vadd_0_l. reflexivity. Qed.

Lemma nth_error_ext {A} (l l' : list A) : (forall i, nth_error l i = nth_error l' i) -> l = l'.
Proof.
  revert l'; induction l as [|a l IH]; intros [|b l'] E; auto; try (specialize (E 0%nat); discriminate E).
  pose proof (E 0%nat) as E0. injection E0 as ->. f_equal. apply IH. intro i. exact (E (S i)).
Qed.
Lemma list_of_nth {A B} (l : list A) (l' : list B) (f : nat -> A -> B) :
  length l' = length l -> (forall i a, nth_error l i = Some a -> nth_error l' i = Some (f i a)) ->
  l' = map (fun ia => f (fst ia) (snd ia)) (enumerate l).
Proof.
  intros Hl Hn. apply nth_error_ext. intro i. rewrite nth_error_map.
  destruct (nth_error l i) as [a|] eqn:E.
  - rewrite (Hn _ _ E), (nth_enumerate _ _ _ E). reflexivity.
  - assert (Hlen : (length l <= i)%nat) by now apply nth_error_None.
    assert (E1 : nth_error l' i = None) by (apply nth_error_None; lia).
    assert (E2 : nth_error (enumerate l) i = None) by (apply nth_error_None; rewrite enumerate_length; lia).
    now rewrite E1, E2.
Qed.
Lemma map_enumerate_snd {A B} (f : nat -> A -> B) (g : A -> B) l :
  (forall i a, nth_error l i = Some a -> f i a = g a) ->
  map (fun ia => f (fst ia) (snd ia)) (enumerate l) = map g l.
Proof.
  intro E. apply nth_error_ext. intro i. rewrite !nth_error_map.
  destruct (nth_error l i) as [a|] eqn:Ei.
  - rewrite (nth_enumerate _ _ _ Ei). cbn. now rewrite (E _ _ Ei).
  - assert (Hlen : (length l <= i)%nat) by now apply nth_error_None.
    assert (E2 : nth_error (enumerate l) i = None) by (apply nth_error_None; rewrite enumerate_length; lia).
    now rewrite E2.
Qed.

Section Gravity.
  Context `{Trans R} `{Floor R} `{Fuel}.

  Lemma gravity_inv (ig : ignore_terms) (u u' : universe R) : gravity ig u = Ok u' ->
    exists accs, gravities ig (h_most_massive (u_hosts u)) (map gview (u_particles u)) (u_roche u) = Ok accs
    /\ u' = set_particles (map (fun pa => set_p_iacc (snd pa) (fst pa)) (combine (u_particles u) accs)) u.
  Proof.
    unfold gravity. destruct (Nat.eqb _ _); [intro X; discriminate X|].
    rewrite gravities_view. destruct (gravities _ _ _ _) as [accs|]; cbn [rbind]; [|intro X; discriminate X].
    intros [= <-]. eauto.
  Qed.

  (** the Newtonian acceleration of every body, and what the checks have excluded *)
  Lemma gravities_newton mm vl roche accs :
    length roche = length vl -> Forall (fun row => length row = length vl) roche ->
    gravities IgnoreNone mm vl roche = Ok accs ->
    length accs = length vl /\
    forall i a, nth_error vl i = Some a ->
      nth_error accs i = Some (Vsum (map (pull G a) (except i vl))) /\
      forall j b row r, nth_error vl j = Some b -> nth_error roche i = Some row -> nth_error row j = Some r ->
        i <> j -> pair_clear mm i a (j, (b, r)).
  Proof.
    intros Hr Hrow E. pose proof (rmap_length _ _ _ E) as Hlen.
    rewrite enumerate_length, combine_length, Hr, Nat.min_id in Hlen. split; auto.
    intros i a Ha.
    destruct (nth_error roche i) as [row|] eqn:Erow.
    2:{ apply nth_error_None in Erow. assert (i < length vl)%nat by (apply nth_error_Some; congruence). lia. }
    pose proof (nth_enumerate _ _ _ (nth_combine _ _ _ _ _ Ha Erow)) as Hn.
    destruct (rmap_nth _ _ _ _ _ E Hn) as (s & Es & Hs).
    apply gon_sum in Es.
    2:{ apply nth_error_In in Erow. rewrite Forall_forall in Hrow. auto. }
    destruct Es as (-> & Hc). split; auto.
    intros j b row' r Hb [= <-] Hrj Hij. eauto.
  Qed.

  Lemma gravity_newton (u u' : universe R) : roche_square u -> gravity IgnoreNone u = Ok u' ->
    length (u_particles u') = length (u_particles u) /\
    forall i a, nth_error (u_particles u) i = Some a ->
      nth_error (u_particles u') i = Some (set_p_iacc (newton G i a (u_particles u)) a).
  Proof.
    intros (Hr1 & Hr2) E. apply gravity_inv in E. destruct E as (accs & E & ->).
    apply gravities_newton in E; [|rewrite ?map_length; auto ..]. destruct E as (Hl & E). rewrite map_length in Hl.
    cbn [u_particles set_particles]. split.
    - rewrite map_length, combine_length, Hl. apply Nat.min_id.
    - intros i a Ha. destruct (E i (gview a)) as (E1 & _).
      { rewrite nth_error_map, Ha. reflexivity. }
      rewrite nth_error_map. rewrite (nth_combine _ _ _ _ _ Ha E1). cbn [option_map snd fst]. do 2 f_equal.
      unfold newton. rewrite except_map, map_map. f_equal.
  Qed.

  (** the bodies after [gravity] *)
  Lemma gravity_bodies (u u' : universe R) : roche_square u -> gravity IgnoreNone u = Ok u' ->
    u_particles u' = map (fun a => set_p_iacc (Vsum (map (attraction G a) (u_particles u))) a) (u_particles u).
  Proof.
    intros Hr E. apply gravity_newton in E; auto. destruct E as (Hl & E).
    rewrite (list_of_nth _ _ _ Hl E). apply map_enumerate_snd with (f := fun i a => set_p_iacc (newton G i a (u_particles u)) a).
    intros i a Ea. now rewrite newton_all.
  Qed.

  Lemma gravity_no_force (u u' : universe R) : roche_square u -> gravity IgnoreNone u = Ok u' ->
    net_force gravitational_acc (u_particles u') = vzero.
  Proof.
    intros Hr E. rewrite (gravity_bodies _ _ Hr E). unfold net_force, gravitational_acc. rewrite map_map.
    cbn [p_mass p_iacc set_p_iacc].
    transitivity (Vsum (map (fun a => Vsum (map (fun b => vscale (p_mass a) (attraction G a b)) (u_particles u))) (u_particles u))).
    - apply Vsum_map_ext, Forall_forall. intros a _. now rewrite Vsum_map_scale.
    - apply pairs_cancel. intros a b. apply attraction_newton3.
  Qed.
  Lemma gravity_no_torque (u u' : universe R) : roche_square u -> gravity IgnoreNone u = Ok u' ->
    net_torque gravitational_acc no_torque (u_particles u') = vzero.
  Proof.
    intros Hr E. rewrite (gravity_bodies _ _ Hr E). unfold net_torque, gravitational_acc, no_torque. rewrite map_map.
    cbn [p_mass p_iacc p_ipos set_p_iacc].
    transitivity (Vsum (map (fun a => Vsum (map (fun b => vcross (p_ipos a) (vscale (p_mass a) (attraction G a b))) (u_particles u))) (u_particles u))).
    - apply Vsum_map_ext, Forall_forall. intros a _. now rewrite Vsum_map_cross, Vsum_map_scale, vadd_0_r.
    - apply pairs_cancel. intros a b. apply attraction_torque.
  Qed.

  (** two universes that differ by the place of the host give the same accelerations *)
  Lemma gravity_host_free (u1 u2 u1' u2' : universe R) : roche_square u1 -> roche_square u2 ->
    u_particles u1 = u_particles u2 -> gravity IgnoreNone u1 = Ok u1' -> gravity IgnoreNone u2 = Ok u2' ->
    u_particles u1' = u_particles u2'.
  Proof. intros Ha Hb E E1 E2. rewrite (gravity_bodies _ _ Ha E1), (gravity_bodies _ _ Hb E2). now rewrite E. Qed.

  (** what a successful evaluation has excluded *)
  Lemma gravity_checked (u u' : universe R) i j a b row r : roche_square u -> gravity IgnoreNone u = Ok u' ->
    nth_error (u_particles u) i = Some a -> nth_error (u_particles u) j = Some b -> (i < j)%nat ->
    nth_error (u_roche u) i = Some row -> nth_error row j = Some r ->
    r ^ 2 < norm2 (vsub (p_ipos b) (p_ipos a)) /\ (p_radius a + p_radius b) ^ 2 < norm2 (vsub (p_ipos b) (p_ipos a))
    /\ (i = h_most_massive (u_hosts u) -> norm2 (vsub (p_ipos b) (p_ipos a)) <= MAX_DISTANCE_2).
  Proof.
    intros (Hr1 & Hr2) E Ha Hb Hij Hrow Hr. apply gravity_inv in E. destruct E as (accs & E & _).
    apply gravities_newton in E; [|rewrite ?map_length; auto ..]. destruct E as (_ & E).
    destruct (E i (gview a)) as (_ & Hc).
    { rewrite nth_error_map, Ha. reflexivity. }
    refine (Hc j (gview b) row r _ Hrow Hr _ Hij).
    - rewrite nth_error_map, Hb. reflexivity.
    - lia.
  Qed.
  Lemma gravity_apart (u u' : universe R) i j a b : roche_square u -> gravity IgnoreNone u = Ok u' ->
    nth_error (u_particles u) i = Some a -> nth_error (u_particles u) j = Some b -> i <> j -> apart a b.
  Proof.
    intros Hr E Ha Hb Hij.
    assert (W : forall i j a b, (i < j)%nat -> nth_error (u_particles u) i = Some a -> nth_error (u_particles u) j = Some b -> apart a b).
    { clear i j a b Ha Hb Hij. intros i j a b Hij Ha Hb Eq. destruct Hr as (Hr1 & Hr2).
      assert (i < length (u_roche u))%nat by (rewrite Hr1; apply nth_error_Some; congruence).
      destruct (nth_error (u_roche u) i) as [row|] eqn:Erow; [|apply nth_error_None in Erow; lia].
      assert (Hl : length row = length (u_particles u)) by (apply nth_error_In in Erow; rewrite Forall_forall in Hr2; auto).
      assert (j < length row)%nat by (rewrite Hl; apply nth_error_Some; congruence).
      destruct (nth_error row j) as [r|] eqn:Er; [|apply nth_error_None in Er; lia].
      destruct (gravity_checked _ _ _ _ _ _ _ _ (conj Hr1 Hr2) E Ha Hb Hij Erow Er) as (Hc & _).
      rewrite Eq in Hc. replace (norm2 (vsub (p_ipos b) (p_ipos b))) with 0 in Hc by (generalize (p_ipos b); vring).
      pose proof (pow2_ge_0 r). lra. }
    destruct (Nat.lt_total i j) as [Hlt|[->|Hlt]]; [eauto|contradiction|].
    intro Eq. symmetry in Eq. revert Eq. apply (W j i b a); auto.
  Qed.
End Gravity.

(** ** Isometries and translations *)
Definition rlift {A B} (f : A -> B) (r : res A) : res B := match r with Ok a => Ok (f a) | Panic k => Panic k end.
Definition dview (q : isometry) (v : vec R) (a : vec R * R * R) : vec R * R * R :=
  let '(x, r, m) := a in (vadd (iso q x) v, r, m).
Lemma iso_0 q : iso q vzero = vzero.
Proof.
  transitivity (iso q (vscale 0 vzero)); [now rewrite vscale_0_l|]. rewrite iso_scale. apply vscale_0_l.
Qed.
Lemma iso_sub q a b : iso q (vsub a b) = vsub (iso q a) (iso q b).
Proof.
  replace (vsub a b) with (vadd a (vscale (-1) b)) by vring. rewrite iso_add, iso_scale.
  generalize (iso q a), (iso q b). vring.
Qed.
Lemma vsub_shift (a b v : vec R) : vsub (vadd a v) (vadd b v) = vsub a b.
Proof. vring. Qed.
Lemma iso_norm2 q a : norm2 (iso q a) = norm2 a.
Proof. now rewrite !norm2_dot, iso_dot. Qed.
Lemma gp_displaced q v ig mm i a acc j b r :
  gp ig mm i (dview q v a) (iso q acc) (j, (dview q v b, r)) = rlift (iso q) (gp ig mm i a acc (j, (b, r))).
Proof.
  destruct a as [[xa ra] ma], b as [[xb rb] mb]. unfold gp, dview, gravity_pair.
  cbn [p_ipos p_radius p_mass set_p_ipos set_p_radius set_p_mass].
  destruct (Nat.eqb i j); [reflexivity|].
  num_simpl. rewrite !sq_sum, vsub_shift, <- iso_sub, iso_norm2.
  destruct (gravity_ignored ig mm i j).
  - repeat match goal with |- context [if ?c then _ else _] => destruct c end; reflexivity.
  - repeat match goal with |- context [if ?c then _ else _] => destruct c end; cbn [rlift]; try reflexivity;
      now rewrite iso_add, iso_scale.
Qed.
Lemma gp_fold_displaced q v ig mm i a l acc :
  rfold (gp ig mm i (dview q v a)) (map (fun x : nat * (vec R * R * R * R) => (fst x, (dview q v (fst (snd x)), snd (snd x)))) l) (iso q acc)
  = rlift (iso q) (rfold (gp ig mm i a) l acc).
Proof.
  revert acc; induction l as [|[j [b r]] l IH]; intro acc; [reflexivity|].
  cbn [map rfold fst snd]. rewrite gp_displaced. destruct (gp ig mm i a acc (j, (b, r))); cbn [rlift rbind]; auto.
Qed.
Lemma gon_displaced q v ig mm vl i a row :
  gon ig mm (map (dview q v) vl) (i, (dview q v a, row)) = rlift (iso q) (gon ig mm vl (i, (a, row))).
Proof.
  unfold gon. rewrite combine_map_l, enumerate_map. rewrite <- (iso_0 q) at 1. apply gp_fold_displaced.
Qed.
Lemma rmap_lift {A B C} (f : A -> res B) (g : B -> C) l : rmap (fun x => rlift g (f x)) l = rlift (map g) (rmap f l).
Proof.
  induction l as [|a l IH]; [reflexivity|]. cbn [rmap]. rewrite IH.
  destruct (f a); cbn [rlift rbind]; auto. destruct (rmap f l); reflexivity.
Qed.
Lemma gravities_displaced q v ig mm vl roche :
  gravities ig mm (map (dview q v) vl) roche = rlift (map (iso q)) (gravities ig mm vl roche).
Proof.
  unfold gravities. rewrite combine_map_l, enumerate_map, rmap_map, <- rmap_lift.
  apply rmap_ext. intros [i [a row]] _. apply gon_displaced.
Qed.

Section Displaced.
  Context `{Trans R} `{Floor R} `{Fuel}.
  Lemma gravity_displaced q v ig (u : universe R) :
    gravity ig (set_particles (map (displaced q v) (u_particles u)) u)
    = rlift (fun u' => set_particles (map (fun p => set_p_iacc (iso q (p_iacc p)) (displaced q v p)) (u_particles u')) u')
        (gravity ig u).
  Proof.
    unfold gravity. cbn [u_particles u_hosts u_roche set_particles]. rewrite map_length.
    destruct (Nat.eqb _ _); [reflexivity|]. rewrite !gravities_view, map_map.
    replace (map (fun x => gview (displaced q v x)) (u_particles u)) with (map (dview q v) (map gview (u_particles u)))
      by (rewrite map_map; apply map_ext; reflexivity).
    rewrite gravities_displaced. destruct (gravities ig _ _ _) as [accs|]; cbn [rlift rbind]; [|reflexivity].
    f_equal. unfold set_particles. cbn [u_initial u_limit u_dummies u_evolvers u_effects u_gr u_hosts u_pairs u_roche u_particles].
    f_equal. rewrite map_map, combine_map, map_map. apply map_ext. reflexivity.
  Qed.
End Displaced.
