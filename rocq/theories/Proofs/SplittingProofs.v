(** * A WHFast step is a Wisdom-Holman splitting (C62) *)
From Coq Require Import Reals List Bool Lra Lia Arith Permutation.
From Verif Require Import Base.Num Base.Result Base.Trans Base.Vec Model.Constants Model.Particle Model.Host
  Model.Creep Model.Relativity Model.Universe Model.WHFast
  Spec.EffectsSpec Spec.UniverseSpec Spec.WHFastSpec Spec.SplittingSpec Proofs.NumLemmas Proofs.VecLemmas Proofs.GravityProofs Proofs.LeapFrogProofs
  Proofs.FrameProofs Proofs.EffectSums Proofs.WHFastCoords Proofs.WHFastRun Proofs.WHFastStep Proofs.SplittingCoords.
Import ListNotations.
Open Scope R_scope.

(** ** Gravity without the ignored pairs *)
Definition skips (ig : ignore_terms) (mm i j : nat) : bool := Nat.eqb i j || gravity_ignored ig mm i j.
Lemma gp_any ig mm i a acc j b r s : gp ig mm i a acc (j, (b, r)) = Ok s ->
  s = vadd acc (if skips ig mm i j then vzero else pull G a b).
Proof.
  unfold skips. destruct (Nat.eqb_spec i j) as [->|Hij].
  - rewrite gp_self. intro X. injection X as <-. cbn [orb]. now rewrite vadd_0_r.
  - cbn [orb]. intro E. revert E. destruct a as [[xa ra] ma], b as [[xb rb] mb]. unfold gp, gravity_pair, pull.
    cbn [p_ipos p_radius p_mass set_p_ipos set_p_radius set_p_mass].
    destruct (Nat.eqb_spec i j) as [|_]; [contradiction|]. num_simpl. rewrite sq_sum, (norm2_vsub_sym xa xb), gforce.
    destruct (gravity_ignored ig mm i j);
      repeat match goal with |- context [if ?c then _ else _] => destruct c end; intro X; try discriminate X; injection X as <-; now rewrite ?vadd_0_r.
Qed.
Lemma gp_loop_any ig mm i a vl row k acc s : length row = length vl ->
  rfold (gp ig mm i a) (combine (seq k (length (combine vl row))) (combine vl row)) acc = Ok s ->
  s = vadd acc (Vsum (map (fun jb => if skips ig mm i (fst jb) then vzero else pull G a (snd jb)) (combine (seq k (length vl)) vl))).
Proof.
  revert row k acc; induction vl as [|b vl IH]; intros [|r row] k acc Hl; try discriminate Hl.
  - cbn. intros [= <-]. now rewrite vadd_0_r.
  - cbn [combine length seq rfold rbind map fst snd]. intro E.
    destruct (gp ig mm i a acc (k, (b, r))) as [acc'|] eqn:Eg; cbn [rbind] in E; [|discriminate E].
    apply IH in E; [|cbn in Hl; lia]. rewrite E, (gp_any _ _ _ _ _ _ _ _ _ Eg). unfold Vsum. cbn [fold_right]. now rewrite vadd_assoc.
Qed.

(** the acceleration of [a], body [i] of [l], in the step *)
Definition partial_pull (ig : ignore_terms) (mm : nat) (l : list (particle R)) (i : nat) (a : particle R) : vec R :=
  Vsum (map (fun jb => if skips ig mm i (fst jb) then vzero else attraction G a (snd jb)) (enumerate l)).

Section Gravity.
  Context `{Trans R} `{Floor R} `{Fuel}.
  Lemma gravity_any (u u' : universe R) ig : roche_square u -> gravity ig u = Ok u' ->
    u_particles u' = map (fun ia => set_p_iacc (partial_pull ig (h_most_massive (u_hosts u)) (u_particles u) (fst ia) (snd ia)) (snd ia)) (enumerate (u_particles u)).
  Proof.
    intros (Hr1 & Hr2) E. apply gravity_inv in E. destruct E as (accs & E & ->). cbn [u_particles set_particles].
    set (l := u_particles u) in *. set (mm := h_most_massive (u_hosts u)) in *.
    pose proof (rmap_length _ _ _ E) as Hlen. rewrite enumerate_length, combine_length, map_length, Hr1, Nat.min_id in Hlen. fold l in Hlen.
    apply (list_of_nth l _ (fun i a => set_p_iacc (partial_pull ig mm l i a) a)).
    { rewrite map_length, combine_length, Hlen. apply Nat.min_id. }
    intros i a Ha. destruct (nth_error (u_roche u) i) as [row|] eqn:Erow.
    2:{ apply nth_error_None in Erow. assert (i < length l)%nat by (apply nth_error_Some; congruence). unfold l in *. lia. }
    assert (Hg : nth_error (map gview l) i = Some (gview a)) by (rewrite nth_error_map, Ha; reflexivity).
    pose proof (nth_enumerate _ _ _ (nth_combine _ _ _ _ _ Hg Erow)) as Hn.
    destruct (rmap_nth _ _ _ _ _ E Hn) as (s & Es & Hs).
    unfold gon, enumerate in Es. apply gp_loop_any in Es.
    2:{ apply nth_error_In in Erow. rewrite Forall_forall in Hr2. rewrite map_length. auto. }
    rewrite nth_error_map, (nth_combine _ _ _ _ _ Ha Hs). cbn [option_map fst snd]. do 2 f_equal.
    rewrite Es, vadd_0_l. unfold partial_pull. fold (enumerate (map gview l)). rewrite enumerate_map, map_map. reflexivity.
  Qed.
End Gravity.

(** ** What is felt *)
Lemma in_enumerate {A} (l : list A) i a : In (i, a) (enumerate l) -> nth_error l i = Some a.
Proof.
  intro Hin. apply In_nth_error in Hin. destruct Hin as (n & Hn). pose proof Hn as Hn'.
  unfold enumerate in Hn. apply nth_combine_inv in Hn as [H1 H2].
  assert (n < length l)%nat by (apply nth_error_Some; congruence). rewrite nth_seq in H1 by assumption. injection H1 as <-. exact H2.
Qed.
Lemma skip_one {A} (f : A -> vec R) l k : 
  Vsum (map (fun jb => if Nat.eqb k (fst jb) then vzero else f (snd jb)) (enumerate l)) = Vsum (map f (except k l)).
Proof. apply (sum_skip f l k 0). Qed.
Lemma skip_none {A} (f : A -> vec R) (l : list A) : Vsum (map (fun jb => f (snd jb)) (enumerate l)) = Vsum (map f l).
Proof. rewrite <- (map_map snd f), map_snd_enumerate. reflexivity. Qed.
Lemma partial_ext ig mm l i a k : nth_error l i = Some a ->
  (forall j, j <> i -> gravity_ignored ig mm i j = Nat.eqb k j) -> partial_pull ig mm l i a = pulled (except k l) a.
Proof.
  intros Ha Hk. unfold partial_pull, pulled. rewrite <- skip_one. f_equal. apply map_ext_in. intros [j b] Hin. cbn [fst snd].
  apply in_enumerate in Hin. unfold skips. destruct (Nat.eqb_spec i j) as [->|Hij]; cbn [orb].
  - rewrite Ha in Hin. injection Hin as <-. rewrite attraction_self. now destruct (Nat.eqb k j).
  - rewrite Hk by auto. reflexivity.
Qed.
Lemma partial_all ig mm l i a : nth_error l i = Some a ->
  (forall j, j <> i -> gravity_ignored ig mm i j = false) -> partial_pull ig mm l i a = pulled l a.
Proof.
  intros Ha Hk. unfold partial_pull, pulled. rewrite <- (skip_none (attraction G a) l). f_equal. apply map_ext_in. intros [j b] Hin. cbn [fst snd].
  apply in_enumerate in Hin. unfold skips. destruct (Nat.eqb_spec i j) as [->|Hij]; cbn [orb].
  - rewrite Ha in Hin. injection Hin as <-. now rewrite attraction_self.
  - now rewrite Hk by auto.
Qed.
Lemma except_in {A} k (l : list A) x : In x (except k l) -> In x l.
Proof. unfold except. rewrite in_app_iff. intros [E|E]; [rewrite <- (firstn_skipn k l)|rewrite <- (firstn_skipn (S k) l)]; rewrite in_app_iff; auto. Qed.
Lemma except_nodup {A} k (l : list A) : NoDup l -> NoDup (except k l).
Proof.
  revert k; induction l as [|a l IH]; intros k N; [destruct k; constructor|]. inversion N; subst.
  destruct k as [|k]; [exact H2|]. change (except (S k) (a :: l)) with (a :: except k l). constructor; [|auto].
  intro X. apply H1. apply (except_in k). exact X.
Qed.
Lemma except_not {A} k (l : list A) a : NoDup l -> nth_error l k = Some a -> ~ In a (except k l).
Proof.
  revert k; induction l as [|x l IH]; intros k N E; [destruct k; discriminate E|]. inversion N; subst.
  destruct k as [|k]; cbn [nth_error] in E.
  - injection E as ->. exact H1.
  - change (except (S k) (x :: l)) with (x :: except k l). intros [->|X]; [|now apply (IH k)]. apply nth_error_In in E. contradiction.
Qed.
Lemma enumerate_fst {A} (l : list A) : map fst (enumerate l) = seq 0 (length l).
Proof. unfold enumerate. apply map_fst_combine. now rewrite seq_length. Qed.

Definition with_acc (ig : ignore_terms) (mm : nat) (l : list (particle R)) (ia : nat * particle R) : particle R :=
  set_p_iacc (partial_pull ig mm l (fst ia) (snd ia)) (snd ia).
Lemma pulled_acc ig mm l (k : list (nat * particle R)) x a : pulled (map (with_acc ig mm l) k) (set_p_iacc x a) = pulled (map snd k) a.
Proof. unfold pulled. rewrite !map_map. reflexivity. Qed.
Lemma felt_after c (l : list (particle R)) mm star : nth_error l mm = Some star ->
  felt c (with_acc (ignored c) mm l (mm, star)) (except mm (map (with_acc (ignored c) mm l) (enumerate l))).
Proof.
  intro Hs. rewrite except_map.
  assert (Ho : forall i a, In (i, a) (except mm (enumerate l)) -> nth_error l i = Some a /\ i <> mm).
  { intros i a Hin. split; [apply in_enumerate, (except_in mm); exact Hin|]. intros ->.
    pose proof (except_not mm (map fst (enumerate l)) mm) as N. rewrite except_map in N. apply N.
    - rewrite enumerate_fst. apply seq_NoDup.
    - rewrite enumerate_fst. apply nth_seq. apply nth_error_Some. congruence.
    - apply (in_map fst) in Hin. exact Hin. }
  assert (Es : map snd (except mm (enumerate l)) = except mm l) by (rewrite <- except_map, map_snd_enumerate; reflexivity).
  assert (H2 : felt DemocraticHeliocentric (with_acc WHFastTwo mm l (mm, star)) (map (with_acc WHFastTwo mm l) (except mm (enumerate l)))).
  { cbn [felt]. rewrite Forall_forall. intros q Hq. apply in_map_iff in Hq. destruct Hq as ([i a] & <- & Hin).
    destruct (Ho _ _ Hin) as [Ha Hne]. unfold with_acc at 1. cbn [fst snd p_iacc set_p_iacc]. unfold with_acc at 2. cbn [fst snd].
    rewrite pulled_acc, Es. apply partial_ext; [exact Ha|]. intros j Hj. cbn [gravity_ignored].
    destruct (Nat.eqb_spec i mm); [contradiction|]. apply Nat.eqb_sym. }
  destruct c; [|exact H2|exact H2]. clear H2. cbn [ignored felt].
  destruct (except mm (enumerate l)) as [|[f p] T] eqn:ET; [exact I|]. cbn [map].
  assert (Hf : f = match mm with O => 1%nat | _ => 0%nat end /\ except f l = match mm with O => star :: map snd T | _ => except f l end
     /\ pulled (except f l) star = pulled (map snd T) star).
  { cbn [map snd] in Es. destruct mm as [|mm].
    - destruct l as [|s l]; [discriminate Hs|]. injection Hs as ->. unfold except, enumerate in ET. cbn [firstn skipn app length seq combine] in ET.
      destruct l as [|p' l]; [discriminate ET|]. cbn [length seq combine] in ET. injection ET as E1 E2 E3. subst f p'.
      unfold except in Es. cbn [firstn skipn app] in Es. injection Es as Es.
      assert (Ex : except 1 (star :: p :: l) = star :: map snd T) by (unfold except; cbn [firstn skipn app]; now rewrite <- Es).
      split; [reflexivity|]. split; [exact Ex|]. rewrite Ex, pulled_cons, attraction_self. apply vadd_0_l.
    - destruct l as [|p' l]; [discriminate Hs|]. cbn [nth_error] in Hs. unfold except in ET. unfold enumerate in ET. cbn [length seq combine firstn skipn app] in ET.
      injection ET as E1 E2 _. subst f p'. split; [reflexivity|]. split; [reflexivity|].
      unfold except in Es. cbn [firstn skipn app] in Es. injection Es as Es.
      change (except 0 (p :: l)) with l. unfold pulled. rewrite (except_sum _ _ _ _ Hs), attraction_self, vadd_0_l. unfold except. cbn [skipn]. rewrite Es. reflexivity. }
  destruct Hf as (Hf & _ & Hp).
  assert (Hfp : nth_error l f = Some p /\ f <> mm) by (apply Ho; now left).
  assert (IG : forall i j, i <> j -> gravity_ignored WHFastOne mm i j = (Nat.eqb i mm && Nat.eqb j f) || (Nat.eqb j mm && Nat.eqb i f)).
  { intros i j Hij. cbn [gravity_ignored]. rewrite Hf. destruct mm as [|mm].
    - cbn [Nat.eqb Nat.ltb Nat.leb]. destruct (Nat.eqb i 0), (Nat.eqb j 0), (Nat.eqb i 1), (Nat.eqb j 1); reflexivity.
    - change (Nat.eqb (S mm) 0) with false. change (Nat.ltb 0 (S mm)) with true. rewrite !andb_true_r, !andb_false_r.
      destruct (Nat.eqb i (S mm)), (Nat.eqb j (S mm)), (Nat.eqb i 0), (Nat.eqb j 0); reflexivity. }
  split; [|split].
  - unfold with_acc at 1 3. cbn [fst snd p_iacc set_p_iacc]. rewrite pulled_acc, <- Hp.
    apply partial_ext; [exact Hs|]. intros j Hj. rewrite IG by auto. rewrite Nat.eqb_refl. cbn [andb].
    destruct (Nat.eqb_spec j mm); [contradiction|]. cbn [andb]. rewrite orb_false_r. apply Nat.eqb_sym.
  - change (with_acc WHFastOne mm l (f, p) :: map (with_acc WHFastOne mm l) T) with (map (with_acc WHFastOne mm l) ((f, p) :: T)).
    unfold with_acc at 1 3. cbn [fst snd p_iacc set_p_iacc]. rewrite pulled_acc, Es.
    apply partial_ext; [apply Hfp|]. intros j Hj. rewrite IG by auto. rewrite Nat.eqb_refl, andb_true_r.
    destruct (Nat.eqb_spec f mm); [now exfalso; apply Hfp|]. cbn [andb orb]. apply Nat.eqb_sym.
  - rewrite Forall_forall. intros q Hq. apply in_map_iff in Hq. destruct Hq as ([i a] & <- & Hin).
    destruct (Ho i a (or_intror Hin)) as [Ha Hne].
    assert (Hif : i <> f).
    { intros ->. assert (N : NoDup (map fst (except mm (enumerate l)))) by (rewrite <- except_map, enumerate_fst; apply except_nodup, seq_NoDup).
      rewrite ET in N. cbn [map fst] in N. inversion N; subst. match goal with Hx : ~ In _ _ |- _ => apply Hx end. apply (in_map fst) in Hin. exact Hin. }
    change (with_acc WHFastOne mm l (mm, star) :: with_acc WHFastOne mm l (f, p) :: map (with_acc WHFastOne mm l) T) with (map (with_acc WHFastOne mm l) ((mm, star) :: (f, p) :: T)).
    unfold with_acc at 1 3. cbn [fst snd p_iacc set_p_iacc]. rewrite pulled_acc. cbn [map snd]. cbn [map snd] in Es. rewrite Es.
    transitivity (pulled l a).
    + apply partial_all; [exact Ha|]. intros j Hj. rewrite IG by auto.
      destruct (Nat.eqb_spec i mm); [contradiction|]. destruct (Nat.eqb_spec i f); [contradiction|]. rewrite andb_false_r. reflexivity.
    + unfold pulled. apply Vsum_perm. apply Permutation_map. symmetry. apply others_perm. exact Hs.
Qed.

(** ** The step *)
Lemma jbodies_slots (o : list (body R)) : forall xs vs, Forall (fun b : body R => p_mass_g (fst b) = G * p_mass (fst b)) o ->
  Forall (fun b : body R => a_mass (snd b) = p_mass (fst b) /\ a_mass_g (snd b) = G * p_mass (fst b)) (jbodies o xs vs).
Proof.
  induction o as [|b o IH]; intros [|x xs] [|v vs] Hm; cbn [jbodies]; try constructor; inversion Hm; subst; auto.
Qed.
Lemma good_alternative c (star : body R) o : usable c (fst star) (map fst o) -> p_mass_g (fst star) = G * p_mass (fst star) ->
  Forall (fun b : body R => p_mass_g (fst b) = G * p_mass (fst b)) o ->
  let r := to_alternative c star o in good c (fst r) (snd r) /\ inertial c (fst r) (snd r) = (fst star, map fst o).
Proof.
  intros U Hh Hm r. pose proof (alternative_coords c star o U) as (A1 & A2 & _). fold r in A1, A2.
  pose proof (round_trip c star o U) as RT. cbv zeta in RT. fold r in RT.
  unfold of_bodies in A1. cbn [map] in A1, A2. apply cons_eq in A1 as [B1 B2].
  split.
  - split.
    + now rewrite B1, B2.
    + cbn [map]. now rewrite B1, B2.
    + now rewrite B1.
    + unfold r. destruct c; cbn [to_alternative].
      * rewrite (to_jacobi _ _ U). cbn [snd]. now apply jbodies_slots.
      * rewrite to_helio. cbn [snd]. apply (proj2 (Forall_map _ _ _)). rewrite Forall_forall in *. intros b Hb. cbn [fst snd a_mass a_mass_g]. auto.
      * rewrite to_helio. cbn [snd]. apply (proj2 (Forall_map _ _ _)). rewrite Forall_forall in *. intros b Hb. cbn [fst snd a_mass a_mass_g]. auto.
  - unfold inertial. rewrite RT, B1, B2. reflexivity.
Qed.

Section Step.
  Context `{Trans R} `{Floor R} `{Fuel}.
  Notation hid w := (h_most_massive (u_hosts (w_u w))).
  Notation parts w := (u_particles (w_u w)).

  Lemma inertial_alts c star o : good c star o ->
    snd (fst (to_inertial c star o)) = snd star /\ map snd (snd (to_inertial c star o)) = map snd o.
  Proof. intro g. destruct (to_inertial_sums c star o (g_usable _ _ _ g) (g_total _ _ _ g)) as (S1 & S2 & _). auto. Qed.

  Lemma part1_splits half (w w' : whfast R) star : slots w -> nth_error (parts w) (hid w) = Some star ->
    usable (w_type w) star (except (hid w) (parts w)) -> masses_g (w_u w) -> part1 half w = Ok w' ->
    exists a s o, good (w_type w) s o /\ kepler_part (w_type w) half (star, except (hid w) (parts w)) a
    /\ jump_part (w_type w) half a (inertial (w_type w) s o)
    /\ parts w' = reassemble (hid w) (fst (inertial (w_type w) s o)) (snd (inertial (w_type w) s o))
    /\ w_alt w' = reassemble (hid w) (snd s) (map snd o) /\ (hid w <= length o)%nat.
  Proof.
    intros L N U Mg E. rewrite except_others in *. unfold part1 in E. destruct (with_bodies_inv _ _ _ _ L N E) as (a & r & Na & Er & Ew).
    set (o := combine _ _) in Er.
    assert (Eo : map fst o = others (hid w) (parts w)) by (apply fst_combine_others; exact L).
    unfold masses_g in Mg. rewrite Forall_forall in Mg.
    destruct (good_alternative (w_type w) (star, a) o) as (g1 & I1).
    { cbn [fst]. now rewrite Eo. }
    { cbn [fst]. apply Mg. eapply nth_error_In; exact N. }
    { rewrite Forall_forall. intros b Hb. apply Mg. apply (in_map fst) in Hb. rewrite Eo in Hb. apply (except_in (hid w)). exact Hb. }
    destruct (to_alternative (w_type w) (star, a) o) as [s1 o1]. cbn [fst snd] in g1, I1. rewrite Eo in I1.
    destruct (kepler_steps (w_type w) half s1 o1) as [[s2 o2]|] eqn:Ek; [|discriminate Er]. cbn [rbind fst snd] in Er.
    destruct (kepler_is _ _ _ _ _ g1 Ek) as (g2 & K2). cbn [fst snd] in g2, K2. rewrite I1 in K2.
    destruct (jump_is (w_type w) half s2 o2 g2) as (g3 & K3). pose proof (jump_slots (w_type w) half s2 o2) as J.
    destruct (kepler_steps_inv _ _ _ _ _ Ek) as (Z1 & Z2). cbn [fst snd] in Z1, Z2.
    destruct (jump (w_type w) half s2 o2) as [s3 o3]. cbn [fst snd] in *. injection Er as Er.
    destruct (inertial_alts _ _ _ g3) as (A1 & A2).
    exists (inertial (w_type w) s2 o2), s3, o3. split; [exact g3|]. split; [exact K2|]. split; [exact K3|].
    rewrite Ew. cbn [w_u w_alt u_particles set_particles]. rewrite <- Er, A1, A2. split; [reflexivity|]. split; [reflexivity|].
    destruct J as (_ & J2 & _). cbn [fst snd] in J2.
    assert (Lo : length o3 = length (others (hid w) (parts w))).
    { transitivity (length (map fst o3)); [symmetry; apply map_length|]. rewrite J2, Z2. pose proof (f_equal (fun s : system => length (snd s)) I1) as X. unfold inertial in X. cbn [snd] in X.
      rewrite map_length in X |- *. destruct (inertial_alts _ _ _ g1) as (_ & B). apply (f_equal (@length _)) in B. rewrite !map_length in B. congruence. }
    assert (Lh : (hid w < length (parts w))%nat) by (apply nth_error_Some; congruence).
    rewrite Lo. pose proof (others_length (hid w) (parts w) Lh). lia.
  Qed.

  Lemma part2_splits dt half (w w' : whfast R) s o star :
    good (w_type w) s o -> (hid w <= length o)%nat -> w_alt w = reassemble (hid w) (snd s) (map snd o) ->
    let b := inertial (w_type w) s o in
    length (parts w) = S (length o) ->
    nth_error (parts w) (hid w) = Some star -> felt (w_type w) star (except (hid w) (parts w)) ->
    map p_mass (star :: except (hid w) (parts w)) = map p_mass (all b) -> map p_ipos (star :: except (hid w) (parts w)) = map p_ipos (all b) ->
    p_mass_g star = G * p_mass star ->
    part2 dt half w = Ok w' ->
    exists d e s', kick_part (w_type w) dt b d /\ jump_part (w_type w) half d e /\ kepler_part (w_type w) half e s'
    /\ parts w' = reassemble (hid w) (fst s') (snd s') /\ (hid w <= length (snd s'))%nat.
  Proof.
    intros g Lo Ea b Lp N Hf Em Ex Hg E.
    assert (L : slots w).
    { unfold slots. rewrite Ea, Lp, <- (Permutation_length (reassemble_perm (hid w) (snd s) (map snd o))). cbn [length]. now rewrite map_length. }
    unfold part2 in E. destruct (with_bodies_inv _ _ _ _ L N E) as (a & r & Na & Er & Ew).
    rewrite Ea in Na. rewrite reassemble_nth in Na by (rewrite map_length; exact Lo). injection Na as <-.
    rewrite Ea, others_reassemble in Er by (rewrite map_length; exact Lo). rewrite except_others in *.
    assert (Lh : (hid w < length (parts w))%nat) by (apply nth_error_Some; congruence).
    pose proof (others_length (hid w) (parts w) Lh) as Loth.
    set (l := others (hid w) (parts w)) in *.
    assert (Ll : length l = length o) by lia.
    set (o4 := combine l (map snd o)) in Er. set (s4 := (star, snd s)) in Er.
    assert (Ef : map fst o4 = l) by (apply map_fst_combine; rewrite map_length; symmetry; exact Ll).
    assert (Es : map snd o4 = map snd o) by (apply map_snd_combine; rewrite map_length; symmetry; exact Ll).
    assert (Fv : forall (A : Type) (v : alternative R -> A), map (fun b : body R => v (snd b)) o4 = map (fun b : body R => v (snd b)) o).
    { intros A v. transitivity (map v (map snd o4)); [now rewrite map_map|]. rewrite Es. now rewrite map_map. }
    pose proof (inertial_masses _ _ _ g) as Im. fold b in Im. cbn [map] in Im. cbn [map] in Em, Ex. rewrite Im in Em. 
    assert (g4 : good (w_type w) s4 o4).
    { apply cons_eq in Em as [Em1 Em2]. destruct g as [U M Hh Hs]. split.
      - cbn [fst s4]. rewrite Ef. eapply usable_masses; [symmetry; exact Em1|symmetry; exact Em2|exact U].
      - cbn [s4 fst snd map]. rewrite Ef, M. cbn [map]. rewrite !total_cons, Em1, (total_masses _ _ Em2). reflexivity.
      - exact Hg.
      - assert (X : map (fun b : body R => (a_mass (snd b), a_mass_g (snd b), p_mass (fst b))) o4 = map (fun b : body R => (a_mass (snd b), a_mass_g (snd b), p_mass (fst b))) o).
        { clear - Em2 Ef Es. rewrite <- Ef in Em2. revert Em2 Es. generalize o4. clear. revert o. unfold body.
          induction o as [|x o IH]; intros [|y k] E1 E2; try discriminate; cbn [map] in *; [reflexivity|].
          apply cons_eq in E1 as [A1 A2]. apply cons_eq in E2 as [B1 B2]. rewrite (IH k A2 B2), A1, B1. reflexivity. }
        apply (to_map (fun b : body R => (a_mass (snd b), a_mass_g (snd b), p_mass (fst b))) (fun t => fst (fst t) = snd t /\ snd (fst t) = G * snd t)) in Hs.
        rewrite <- X in Hs. apply (of_map (fun b : body R => (a_mass (snd b), a_mass_g (snd b), p_mass (fst b)))  (fun t => fst (fst t) = snd t /\ snd (fst t) = G * snd t)) in Hs. exact Hs. }
    destruct (inertial_means _ _ _ g) as (M1 & M2). destruct (inertial_frames _ _ _ g) as (F1 & F2). fold b in M1, M2, F1, F2.
    destruct (kick_is (w_type w) dt s4 o4 b) as (g5 & K5); auto.
    { cbn [fst s4]. rewrite Ef. exact Hf. }
    { cbn [map]. rewrite Im, Ef. symmetry. exact Em. }
    { cbn [map]. rewrite Ef. symmetry. exact Ex. }
    { now rewrite F1, (Fv _ a_pos). }
    { now rewrite F2, (Fv _ a_vel). }
    destruct (interaction (w_type w) dt s4 o4) as [s5 o5]. cbn [fst snd] in g5, K5.
    destruct (jump_is (w_type w) half s5 o5 g5) as (g6 & K6). destruct (jump (w_type w) half s5 o5) as [s6 o6]. cbn [fst snd] in g6, K6.
    destruct (kepler_steps (w_type w) half s6 o6) as [[s7 o7]|] eqn:Ek; [|discriminate Er]. cbn [rbind fst snd] in Er.
    destruct (kepler_is _ _ _ _ _ g6 Ek) as (g7 & K7). cbn [fst snd] in g7, K7. injection Er as Er.
    exists (inertial (w_type w) s5 o5), (inertial (w_type w) s6 o6), (inertial (w_type w) s7 o7).
    split; [exact K5|]. split; [exact K6|]. split; [exact K7|]. split.
    - rewrite Ew. cbn [w_u u_particles set_particles]. rewrite <- Er. reflexivity.
    - assert (Q : length (all (inertial (w_type w) s7 o7)) = length (all b)).
      { assert (X : forall s s' : system, same_masses s s' -> length (all s') = length (all s)).
        { intros x y S. unfold same_masses in S. apply (f_equal (@length _)) in S. now rewrite !map_length in S. }
        destruct K5 as (P5 & _), K6 as (P6 & _), K7 as (P7 & _). rewrite (X _ _ P7), (X _ _ P6), (X _ _ P5). reflexivity. }
      assert (Lb : length (snd b) = length o).
      { transitivity (length (map p_mass (snd b))); [symmetry; apply map_length|]. unfold all in Im. cbn [map] in Im. apply cons_eq in Im as [_ ->].
        rewrite map_length. apply map_length. }
      unfold all in Q. cbn [length] in Q. lia.
  Qed.

  (** the parts only see masses, positions and velocities *)
  Lemma seen (s s' : system) : map mxv (all s') = map mxv (all s) ->
    map p_mass (all s') = map p_mass (all s) /\ map p_ipos (all s') = map p_ipos (all s) /\ map p_ivel (all s') = map p_ivel (all s).
  Proof.
    intro E. split; [|split].
    - apply (f_equal (map (fun t => fst (fst t)))) in E. rewrite !map_map in E. exact E.
    - apply (f_equal (map (fun t => snd (fst t)))) in E. rewrite !map_map in E. exact E.
    - apply (f_equal (map snd)) in E. rewrite !map_map in E. exact E.
  Qed.
  Lemma kepler_part_seen c h s s' x x' : map mxv (all x) = map mxv (all s) -> map mxv (all x') = map mxv (all s') ->
    kepler_part c h s s' -> kepler_part c h x x'.
  Proof.
    intros E E'. apply seen in E as (A1 & A2 & A3). apply seen in E' as (B1 & B2 & B3). unfold kepler_part, same_masses, positions, velocities.
    rewrite B1, A1, (mean_view p_ivel p_ivel _ _ A1 A3), (mean_view p_ivel p_ivel _ _ B1 B3), (mean_view p_ipos p_ipos _ _ A1 A2), (mean_view p_ipos p_ipos _ _ B1 B2).
    rewrite (kepler_masses_view c _ _ A1), (pos_frame_view c _ _ _ _ A1 A2), (pos_frame_view c _ _ _ _ B1 B2), (vel_frame_view c _ _ _ _ A1 A3), (vel_frame_view c _ _ _ _ B1 B3).
    auto.
  Qed.

  Theorem step_splits t dt half (w w' : whfast R) : ready w -> roche_square (w_u w) -> masses_g (w_u w) -> wh_step t dt half w = Ok w' ->
    exists s s', splits (w_u w) s /\ splits (w_u w') s' /\
    exists a b d e, kepler_part (w_type w) half s a /\ jump_part (w_type w) half a b /\ kick_part (w_type w) dt b d
      /\ jump_part (w_type w) half d e /\ kepler_part (w_type w) half e s'.
  Proof.
    intros (Hp & Sz & Lr & Hz & star & N & U) Rq Mg E. unfold wh_step in E. set (spin := integrate_spin (w_u w)) in E.
    set (mgv := fun p : particle R => (p_mass_g p, p_mass p)).
    assert (Bg : forall u, plain u -> blind_step (u_effects u) mgv) by (intros u Hu; apply plain_blind; auto; red; reflexivity).
    destruct (velocity_dependent _ _ _ true w) as [w1|] eqn:E1; [|discriminate E]. cbn [rbind] in E.
    pose proof (velocity_dependent_view mgv _ _ _ _ _ _ Sz (Bg _ Hp) (fun _ _ => eq_refl) (fun _ _ _ => eq_refl) E1) as (G1 & T1 & Z1 & Y1 & _).
    pose proof (velocity_dependent_plain _ _ _ _ _ _ Hp Sz Hz E1) as (V1 & Hz1).
    pose proof (f_equal (@length _) V1) as L1. rewrite !map_length in L1.
    pose proof (f_equal (@length _) G1) as _.
    pose proof T1 as (T1e & T1h & T1g & T1r).
    assert (Mg1 : masses_g (w_u w1)).
    { unfold masses_g in *. apply (to_map mgv (fun t => fst t = G * snd t)) in Mg. rewrite <- G1 in Mg. apply (of_map mgv (fun t => fst t = G * snd t)) in Mg. exact Mg. }
    (* the host of w1 *)
    assert (N1 : exists star1, nth_error (parts w1) (hid w) = Some star1 /\ mxv star1 = mxv star).
    { pose proof (f_equal (fun l => nth_error l (hid w)) V1) as X. cbv beta in X. rewrite !nth_error_map, N in X.
      destruct (nth_error (parts w1) (hid w)) as [star1|]; [|discriminate X]. cbn [option_map] in X. injection X as X1 X2 X3. exists star1. split; [reflexivity|]. unfold mxv. congruence. }
    destruct N1 as (star1 & N1 & Ns1).
    assert (V1o : map mxv (except (hid w) (parts w1)) = map mxv (except (hid w) (parts w))) by (rewrite <- !except_map, V1; reflexivity).
    assert (As1 : map mxv (all (star, except (hid w) (parts w))) = map mxv (all (star1, except (hid w) (parts w1)))).
    { unfold all. cbn [fst snd map]. now rewrite Ns1, V1o. }
    assert (U1 : usable (w_type w1) star1 (except (hid w1) (parts w1))).
    { rewrite Y1, T1h. destruct (seen _ _ As1) as (Q & _). unfold all in Q. cbn [fst snd map] in Q. apply cons_eq in Q as [Q1 Q2].
      eapply usable_masses; [exact Q1|exact Q2|exact U]. }
    rewrite <- T1h in N1.
    destruct (part1 half w1) as [w2|] eqn:E2; [|discriminate E]. cbn [rbind] in E.
    destruct Z1 as (Z1a & Z1b & Z1c).
    destruct (part1_splits _ _ _ _ Z1a N1 U1 Mg1 E2) as (a & s3 & o3 & g3 & K1 & K2 & P2 & A2 & Lo).
    assert (BO : forall p v, mgv (set_p_ivel v p) = mgv p) by reflexivity.
    pose proof (part1_view mgv _ _ _ (conj BO (conj (fun _ _ => eq_refl) (fun _ _ => eq_refl))) Z1a E2) as (G2 & T2 & Y2 & VV2 & LL2 & Z2).
    pose proof T2 as (T2e & T2h & T2g & T2r).
    set (b := inertial (w_type w1) s3 o3) in *.
    pose proof (f_equal (@length _) G2) as L2. rewrite !map_length in L2.
    assert (Rq2 : roche_square (w_u w2)).
    { destruct Rq as (R1 & R2). unfold roche_square. rewrite T2r, T1r, L2, L1. auto. }
    destruct (gravity _ (w_u w2)) as [u3|] eqn:E3; [|discriminate E]. cbn [rbind] in E.
    pose proof (gravity_any _ _ _ Rq2 E3) as P3.
    pose proof (gravity_view mgv _ _ _ (fun _ _ => eq_refl) (proj1 Rq2) E3) as (G3 & T3). pose proof T3 as (T3e & T3h & T3g & T3r).
    pose proof (gravity_view mxv _ _ _ (fun _ _ => eq_refl) (proj1 Rq2) E3) as (V3 & _).
    set (w3 := WH u3 _ _ _ _) in E.
    destruct (part2 dt half w3) as [w4|] eqn:E4; [|discriminate E]. cbn [rbind] in E.
    assert (Hh : hid w3 = hid w1) by (cbn [w3 w_u]; congruence).
    assert (Lb : length o3 = length (snd b)).
    { pose proof (inertial_masses _ _ _ g3) as X. fold b in X. unfold all in X. cbn [map] in X. apply cons_eq in X as [_ X].
      transitivity (length (map p_mass (map fst o3))); [rewrite map_length; symmetry; apply map_length|]. rewrite <- X. apply map_length. }
    assert (Nb : nth_error (parts w2) (hid w1) = Some (fst b)) by (rewrite P2; apply reassemble_nth; lia).
    assert (Ob : except (hid w1) (parts w2) = snd b) by (rewrite P2, except_others; apply others_reassemble; lia).
    set (star3 := with_acc (ignored (w_type w2)) (hid w1) (parts w2) (hid w1, fst b)).
    assert (P3' : u_particles u3 = map (with_acc (ignored (w_type w2)) (hid w1) (parts w2)) (enumerate (parts w2))).
    { rewrite P3, T2h. reflexivity. }
    assert (N3 : nth_error (parts w3) (hid w3) = Some star3).
    { rewrite Hh. cbn [w3 w_u]. rewrite P3', nth_error_map, (nth_enumerate _ _ _ Nb). reflexivity. }
    assert (C3 : w_type w3 = w_type w1) by (cbn [w3 w_type]; congruence).
    assert (S3 : map mxv (star3 :: except (hid w3) (parts w3)) = map mxv (all b)).
    { unfold all. cbn [map]. f_equal. rewrite Hh. cbn [w3 w_u]. rewrite <- Ob, <- !except_map, V3. reflexivity. }
    pose proof (seen (fst b, snd b) (star3, except (hid w3) (parts w3)) S3) as (Q1 & Q2 & Q3). unfold all in Q1, Q2, Q3. cbn [fst snd] in Q1, Q2, Q3.
    destruct (part2_splits dt half w3 w4 s3 o3 star3) as (d & e & s' & K3 & K4 & K5 & P4 & Lh4); auto.
    { now rewrite C3. }
    { now rewrite Hh. }
    { rewrite Hh. cbn [w3 w_alt]. exact A2. }
    { pose proof (f_equal (@length _) V3) as X. rewrite !map_length in X. cbn [w3 w_u]. rewrite X, P2, <- (Permutation_length (reassemble_perm (hid w1) (fst b) (snd b))). cbn [length]. lia. }
    { rewrite Hh, C3, <- Y2. cbn [w3 w_u]. rewrite P3'. apply felt_after. exact Nb. }
    { rewrite C3. fold b. exact Q1. }
    { rewrite C3. fold b. exact Q2. }
    { unfold star3, with_acc. cbn [fst snd p_mass_g p_mass set_p_iacc]. unfold masses_g in Mg1.
      apply (to_map mgv (fun t => fst t = G * snd t)) in Mg1. rewrite <- G2 in Mg1. apply (of_map mgv (fun t => fst t = G * snd t)) in Mg1.
      rewrite Forall_forall in Mg1. apply Mg1. eapply nth_error_In; exact Nb. }
    rewrite C3 in K3, K4, K5. fold b in K3.
    (* the last half step of the other forces *)
    assert (Z3 : length (w_alt w3) = length (parts w3)).
    { pose proof (f_equal (@length _) V3) as X. rewrite !map_length in X. cbn [w3 w_alt w_u]. congruence. }
    pose proof (part2_view (fun _ => tt) _ _ _ _ (conj (fun _ _ => eq_refl) (conj (fun _ _ => eq_refl) (fun _ _ => eq_refl))) Z3 E4) as (G4 & T4 & Y4 & VV4 & LL4 & Z4).
    apply view_len in G4. pose proof T4 as (T4e & T4h & T4g & T4r).
    assert (Hp4 : plain (w_u w4)).
    { unfold plain in *. rewrite T4e. cbn [w3 w_u]. rewrite T3e, T2e, T1e. exact Hp. }
    assert (Sz4 : sized w4).
    { pose proof (f_equal (@length _) V3) as X. rewrite !map_length in X.
      split; [exact Z4|]. rewrite VV4, LL4. cbn [w3 w_verr w_Lerr w_u] in *. rewrite VV2, LL2. split; congruence. }
    assert (Hz4 : Forall (fun v => v = vzero) (w_verr w4)) by (rewrite VV4; cbn [w3 w_verr]; rewrite VV2; exact Hz1).
    pose proof (velocity_dependent_plain _ _ _ _ _ _ Hp4 Sz4 Hz4 E) as (V5 & _).
    pose proof (velocity_dependent_view (fun _ => tt) _ _ _ _ _ _ Sz4 (blind_step_unit _) (fun _ _ => eq_refl) (fun _ _ _ => eq_refl) E) as (_ & T5 & _).
    destruct T5 as (_ & T5h & _).
    assert (Hh' : hid w' = hid w1) by (rewrite T5h, T4h; exact Hh).
    assert (N4 : nth_error (parts w4) (hid w1) = Some (fst s')) by (rewrite P4, Hh; apply reassemble_nth; rewrite <- Hh; exact Lh4).
    assert (O4 : except (hid w1) (parts w4) = snd s') by (rewrite P4, Hh, except_others; apply others_reassemble; rewrite <- Hh; exact Lh4).
    assert (N5 : exists star5, nth_error (parts w') (hid w1) = Some star5 /\ mxv star5 = mxv (fst s')).
    { pose proof (f_equal (fun l => nth_error l (hid w1)) V5) as X. cbv beta in X. rewrite !nth_error_map, N4 in X.
      destruct (nth_error (parts w') (hid w1)) as [star5|]; [|discriminate X]. cbn [option_map] in X. injection X as X1 X2 X3. exists star5. split; [reflexivity|]. unfold mxv. congruence. }
    destruct N5 as (star5 & N5 & Ns5).
    assert (As5 : map mxv (all (star5, except (hid w1) (parts w'))) = map mxv (all s')).
    { unfold all. cbn [fst snd map]. rewrite Ns5, <- O4, <- !except_map, V5. reflexivity. }
    exists (star, except (hid w) (parts w)), (star5, except (hid w1) (parts w')).
    split; [split; [exact N|reflexivity]|]. split; [split; rewrite Hh'; [exact N5|reflexivity]|].
    exists a, b, d, e. rewrite Y1 in *. rewrite T1h in K1.
    split; [apply (kepler_part_seen _ _ (star1, except (hid w) (parts w1)) a); [exact As1|reflexivity|exact K1]|].
    split; [exact K2|]. split; [exact K3|]. split; [exact K4|].
    apply (kepler_part_seen _ _ e s'); [reflexivity|exact As5|exact K5].
  Qed.
End Step.
