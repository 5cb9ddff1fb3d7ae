(** * Whole steps of WHFast (C16, C19, C63) *)
From Coq Require Import Reals List Bool Lra Lia Arith Permutation.
From Verif Require Import Base.Num Base.Result Base.Trans Base.Vec Model.Constants Model.Particle Model.Host
  Model.Creep Model.Relativity Model.Universe Model.WHFast
  Spec.EffectsSpec Spec.UniverseSpec Spec.WHFastSpec Proofs.NumLemmas Proofs.VecLemmas Proofs.GravityProofs Proofs.LeapFrogProofs
  Proofs.FrameProofs Proofs.EffectSums Proofs.WHFastCoords.
Import ListNotations.
Open Scope R_scope.

(** ** Bodies around the host *)
Lemma reassemble_nth {A} h (a : A) o : (h <= length o)%nat -> nth_error (reassemble h a o) h = Some a.
Proof.
  intro L. unfold reassemble. rewrite nth_error_app2 by (rewrite firstn_length; lia).
  rewrite firstn_length, Nat.min_l, Nat.sub_diag by lia. reflexivity.
Qed.
Lemma others_reassemble {A} h (a : A) o : (h <= length o)%nat -> others h (reassemble h a o) = o.
Proof.
  intro L. unfold others, reassemble. rewrite firstn_app, firstn_length, Nat.min_l, Nat.sub_diag by lia. cbn [firstn].
  rewrite app_nil_r, firstn_firstn, Nat.min_id. rewrite skipn_app, firstn_length, Nat.min_l by lia.
  rewrite (skipn_all2 (firstn h o)) by (rewrite firstn_length; lia).
  replace (S h - h)%nat with 1%nat by lia. cbn [skipn app]. apply firstn_skipn.
Qed.
Lemma others_length {A} h (l : list A) : (h < length l)%nat -> S (length (others h l)) = length l.
Proof. intro L. unfold others. rewrite app_length, firstn_length, skipn_length. lia. Qed.
Lemma reassemble_perm {A} h (a : A) o : Permutation (a :: o) (reassemble h a o).
Proof.
  unfold reassemble. transitivity (a :: firstn h o ++ skipn h o); [now rewrite firstn_skipn|]. apply Permutation_middle.
Qed.
Lemma others_perm {A} h (l : list A) a : nth_error l h = Some a -> Permutation (a :: others h l) l.
Proof. intro N. rewrite <- (reassemble_others h l a N) at 2. apply reassemble_perm. Qed.
Lemma Rsum_perm l l' : Permutation l l' -> Rsum l = Rsum l'.
Proof. unfold Rsum. induction 1; cbn [fold_right] in *; lra. Qed.
Lemma Vsum_perm l l' : Permutation l l' -> Vsum l = Vsum l'.
Proof.
  induction 1; unfold Vsum in *; cbn [fold_right] in *; try congruence.
  rewrite !vadd_assoc, (vadd_comm y x). reflexivity.
Qed.
Lemma total_perm l l' : Permutation l l' -> total_mass l = total_mass l'.
Proof. intro P. apply Rsum_perm. now apply Permutation_map. Qed.
Lemma weighted_perm f l l' : Permutation l l' -> weighted f l = weighted f l'.
Proof. intro P. apply Vsum_perm. now apply (Permutation_map (fun p => vscale (p_mass p) (f p))). Qed.
Lemma orbital_perm l l' : Permutation l l' -> orbital_momentum l = orbital_momentum l'.
Proof. intro P. apply Vsum_perm. now apply (Permutation_map (fun p => vscale (p_mass p) (vcross (p_ipos p) (p_ivel p)))). Qed.
Lemma except_others {A} h (l : list A) : except h l = others h l.
Proof. reflexivity. Qed.
Lemma combine_firstn' {A B} n : forall (l : list A) (k : list B), firstn n (combine l k) = combine (firstn n l) (firstn n k).
Proof. induction n as [|n IH]; intros [|a l] [|b k]; cbn [combine firstn]; try reflexivity. now rewrite IH. Qed.
Lemma combine_skipn' {A B} n : forall (l : list A) (k : list B), skipn n (combine l k) = combine (skipn n l) (skipn n k).
Proof. induction n as [|n IH]; intros [|a l] [|b k]; cbn [combine skipn]; try reflexivity. - destruct (skipn n l); reflexivity. - apply IH. Qed.

(** masses only *)
Lemma total_masses l l' : map p_mass l = map p_mass l' -> total_mass l = total_mass l'.
Proof. unfold total_mass. now intros ->. Qed.
Lemma usable_masses c (s s' : particle R) o o' : p_mass s = p_mass s' -> map p_mass o = map p_mass o' -> usable c s o -> usable c s' o'.
Proof.
  intros Es Eo. destruct c; cbn [usable].
  - intros U k. specialize (U k). rewrite total_cons in *. rewrite <- Es.
    rewrite (total_masses (firstn k o') (firstn k o)); [exact U|]. rewrite <- !firstn_map, Eo. reflexivity.
  - intros (A & B). rewrite total_cons in *. rewrite <- Es, <- (total_masses o o' Eo). auto.
  - intros (A & B & D). rewrite total_cons in *. rewrite <- Es, <- (total_masses o o' Eo). split; [exact A|]. split; [exact B|].
    apply (to_map p_mass (fun m => p_mass s + m <> 0)) in D. rewrite Eo in D. apply (of_map p_mass (fun m => p_mass s + m <> 0)) in D. exact D.
Qed.

Section Run.
  Context `{Trans R} `{Floor R} `{Fuel}.

  (** the integrator holds one coordinate slot per body, and the host exists *)
  Definition slots (w : whfast R) : Prop := length (w_alt w) = length (u_particles (w_u w)).
  Notation hid w := (h_most_massive (u_hosts (w_u w))).
  Notation parts w := (u_particles (w_u w)).

  Lemma with_bodies_inv (w w' : whfast R) f star : slots w -> nth_error (parts w) (hid w) = Some star ->
    with_bodies w f = Ok w' ->
    exists a r, nth_error (w_alt w) (hid w) = Some a
    /\ f (star, a) (combine (others (hid w) (parts w)) (others (hid w) (w_alt w))) = Ok r
    /\ w' = WH (set_particles (reassemble (hid w) (fst (fst r)) (map fst (snd r))) (w_u w))
              (reassemble (hid w) (snd (fst r)) (map snd (snd r))) (w_type w) (w_verr w) (w_Lerr w).
  Proof.
    unfold slots, with_bodies, with_host. intros L N.
    assert (Lh : (hid w < length (parts w))%nat) by (apply nth_error_Some; congruence).
    rewrite combine_length, L, Nat.min_id. rewrite (proj2 (Nat.leb_le _ _)) by lia.
    destruct (nth_error (w_alt w) (hid w)) as [a|] eqn:Na.
    2:{ apply nth_error_None in Na. lia. }
    rewrite (nth_combine _ _ _ _ _ N Na).
    assert (Eo : others (hid w) (combine (parts w) (w_alt w)) = combine (others (hid w) (parts w)) (others (hid w) (w_alt w))).
    { unfold others. rewrite combine_firstn', combine_skipn'.
      assert (X : forall A B (l1 l2 : list A) (k1 k2 : list B), length l1 = length k1 -> combine l1 k1 ++ combine l2 k2 = combine (l1 ++ l2) (k1 ++ k2)).
      { intros A B. induction l1 as [|x l1 IH]; intros l2 [|y k1] k2 E; try discriminate; cbn [combine app]; auto. rewrite IH; auto. }
      apply X. rewrite !firstn_length, L. reflexivity. }
    rewrite Eo. destruct (f (star, a) _) as [r|] eqn:Ef; [|intro X; discriminate X]. cbn [rbind]. intro X. injection X as <-.
    exists a, r. rewrite !map_reassemble. auto.
  Qed.
  Lemma with_bodies_ok (w : whfast R) f star a r : slots w -> nth_error (parts w) (hid w) = Some star ->
    nth_error (w_alt w) (hid w) = Some a ->
    f (star, a) (combine (others (hid w) (parts w)) (others (hid w) (w_alt w))) = Ok r ->
    exists w', with_bodies w f = Ok w'.
  Proof.
    unfold slots, with_bodies, with_host. intros L N Na Ef.
    assert (Lh : (hid w < length (parts w))%nat) by (apply nth_error_Some; congruence).
    rewrite combine_length, L, Nat.min_id. rewrite (proj2 (Nat.leb_le _ _)) by lia.
    rewrite (nth_combine _ _ _ _ _ N Na).
    assert (Eo : others (hid w) (combine (parts w) (w_alt w)) = combine (others (hid w) (parts w)) (others (hid w) (w_alt w))).
    { unfold others. rewrite combine_firstn', combine_skipn'.
      assert (X : forall A B (l1 l2 : list A) (k1 k2 : list B), length l1 = length k1 -> combine l1 k1 ++ combine l2 k2 = combine (l1 ++ l2) (k1 ++ k2)).
      { intros A B. induction l1 as [|x l1 IH]; intros l2 [|y k1] k2 E; try discriminate; cbn [combine app]; auto. rewrite IH; auto. }
      apply X. rewrite !firstn_length, L. reflexivity. }
    rewrite Eo, Ef. cbn [rbind]. eauto.
  Qed.
  Lemma fst_combine_others (w : whfast R) : slots w ->
    map fst (combine (others (hid w) (parts w)) (others (hid w) (w_alt w))) = others (hid w) (parts w).
  Proof.
    intro L. apply map_fst_combine. unfold others. rewrite !app_length, !firstn_length, !skipn_length. unfold slots in L. rewrite L. reflexivity.
  Qed.

  (** *** C16 for the integrator *)
  Lemma round_trip_whole (w : whfast R) star : slots w -> nth_error (parts w) (hid w) = Some star ->
    usable (w_type w) star (except (hid w) (parts w)) ->
    exists w', with_bodies w (fun s o => let '(s, o) := to_alternative (w_type w) s o in Ok (to_inertial (w_type w) s o)) = Ok w'
    /\ u_particles (w_u w') = u_particles (w_u w).
  Proof.
    intros L N U. rewrite except_others in U.
    destruct (nth_error (w_alt w) (hid w)) as [a|] eqn:Na.
    2:{ apply nth_error_None in Na. unfold slots in L. assert (hid w < length (parts w))%nat by (apply nth_error_Some; congruence). lia. }
    set (o := combine (others (hid w) (parts w)) (others (hid w) (w_alt w))).
    assert (Eo : map fst o = others (hid w) (parts w)) by (apply fst_combine_others; exact L).
    assert (RT : to_inertial (w_type w) (fst (to_alternative (w_type w) (star, a) o)) (snd (to_alternative (w_type w) (star, a) o))
       = to_alternative (w_type w) (star, a) o).
    { apply round_trip. cbn [fst]. rewrite Eo. exact U. }
    assert (AC : coords_spec (w_type w) (star, a) o (to_alternative (w_type w) (star, a) o)).
    { apply alternative_coords. cbn [fst]. rewrite Eo. exact U. }
    destruct (with_bodies_ok w (fun s o => let '(s, o) := to_alternative (w_type w) s o in Ok (to_inertial (w_type w) s o)) star a
               (to_alternative (w_type w) (star, a) o) L N Na) as (w' & E).
    { fold o. rewrite <- RT at 2. destruct (to_alternative (w_type w) (star, a) o). reflexivity. }
    exists w'. split; [exact E|].
    destruct (with_bodies_inv _ _ _ _ L N E) as (a' & r & Na' & Er & ->). rewrite Na in Na'. injection Na' as <-.
    fold o in Er. cbn [w_u u_particles set_particles].
    assert (Er' : r = to_alternative (w_type w) (star, a) o).
    { rewrite <- RT. destruct (to_alternative (w_type w) (star, a) o). injection Er as <-. reflexivity. }
    destruct AC as (A & _). rewrite <- Er' in A. unfold of_bodies in A. cbn [map fst] in A. apply cons_eq in A as [A1 A2].
    rewrite A1, A2, Eo. apply reassemble_others. exact N.
  Qed.

  (** *** Kepler steps move only the coordinates of the other bodies, and the centre of mass *)
  Lemma kepler_walk_fst mass keep dt l : forall mg l', kepler_walk mass keep mg dt l = Ok l' -> map fst l' = map fst l.
  Proof.
    induction l as [|[p a] l IH]; intros mg l' E; cbn [kepler_walk] in E; [injection E as <-; reflexivity|].
    destruct (kepler_step _ _ _) as [a'|]; [|discriminate E]. cbn [rbind] in E.
    destruct (kepler_walk _ _ _ _ l) as [k|] eqn:Ek; [|discriminate E]. cbn [rbind] in E. injection E as <-.
    cbn [map fst]. now rewrite (IH _ _ Ek).
  Qed.
  Lemma kepler_steps_inv c dt (star : body R) o r : kepler_steps c dt star o = Ok r ->
    fst r = on_alt (fun a => set_a_pos (vadd (a_pos a) (vscale dt (a_vel a))) a) star /\ map fst (snd r) = map fst o.
  Proof.
    unfold kepler_steps. intro E.
    match type of E with rbind ?e _ = _ => destruct e as [o'|] eqn:Eo; [|discriminate E] end. cbn [rbind] in E. injection E as <-.
    split; [reflexivity|]. cbn [snd]. destruct c; eapply kepler_walk_fst; exact Eo.
  Qed.

  (** coordinates in step with the bodies: the host slot holds the totals *)
  Definition in_step (w : whfast R) : Prop :=
    slots w /\ exists star a, nth_error (parts w) (hid w) = Some star /\ nth_error (w_alt w) (hid w) = Some a
    /\ usable (w_type w) star (except (hid w) (parts w))
    /\ a_mass a = total_mass (parts w)
    /\ vscale (total_mass (parts w)) (a_vel a) = momentum (parts w)
    /\ vscale (total_mass (parts w)) (a_pos a) = weighted p_ipos (parts w).

  Lemma finish (w w' : whfast R) star o r : 
    usable (w_type w) (fst star) (map fst o) -> (hid w <= length o)%nat ->
    a_mass (snd star) = total_mass (map fst (star :: o)) ->
    r = to_inertial (w_type w) star o ->
    w' = WH (set_particles (reassemble (hid w) (fst (fst r)) (map fst (snd r))) (w_u w))
              (reassemble (hid w) (snd (fst r)) (map snd (snd r))) (w_type w) (w_verr w) (w_Lerr w) ->
    in_step w' /\ map p_mass (parts w') = reassemble (hid w) (p_mass (fst star)) (map p_mass (map fst o))
    /\ momentum (parts w') = vscale (total_mass (map fst (star :: o))) (a_vel (snd star))
    /\ weighted p_ipos (parts w') = vscale (total_mass (map fst (star :: o))) (a_pos (snd star)).
  Proof.
    intros U Lo M -> ->. destruct (to_inertial_sums _ _ _ U M) as (S1 & S2 & S3 & S4 & S5).
    cbn [w_u w_alt w_type u_particles set_particles u_hosts]. set (r := to_inertial (w_type w) star o) in *.
    pose proof (f_equal (@length _) S2) as Lr. rewrite !map_length in Lr.
    unfold of_bodies in *. cbn [map] in S3, S4, S5. apply cons_eq in S3 as [S3a S3b].
    pose proof (reassemble_perm (hid w) (fst (fst r)) (map fst (snd r))) as Pm.
    assert (Mm : map p_mass (reassemble (hid w) (fst (fst r)) (map fst (snd r))) = reassemble (hid w) (p_mass (fst star)) (map p_mass (map fst o))).
    { rewrite map_reassemble, S3a, S3b. reflexivity. }
    assert (Mt : total_mass (reassemble (hid w) (fst (fst r)) (map fst (snd r))) = total_mass (map fst (star :: o))).
    { rewrite <- (total_perm _ _ Pm). apply total_masses. cbn [map]. now rewrite S3a, S3b. }
    split; [|split; [exact Mm|split]].
    - split.
      { unfold slots. cbn [w_alt w_u u_particles set_particles]. rewrite <- (Permutation_length Pm).
        rewrite <- (Permutation_length (reassemble_perm (hid w) (snd (fst r)) (map snd (snd r)))). cbn [length]. rewrite !map_length. reflexivity. }
      cbn [w_u w_alt w_type u_particles set_particles u_hosts].
      exists (fst (fst r)), (snd (fst r)).
      split; [apply reassemble_nth; rewrite map_length; lia|]. split; [apply reassemble_nth; rewrite map_length; lia|].
      split.
      { rewrite except_others, others_reassemble by (rewrite map_length; lia).
        eapply usable_masses; [symmetry; exact S3a|symmetry; exact S3b|exact U]. }
      rewrite Mt, S1. split; [exact M|]. unfold momentum. rewrite <- !(weighted_perm _ _ _ Pm), S4, S5. split; reflexivity.
    - unfold momentum. rewrite <- (weighted_perm _ _ _ Pm). exact S4.
    - rewrite <- (weighted_perm _ _ _ Pm). exact S5.
  Qed.

  Lemma part1_moves half (w w' : whfast R) star : slots w -> nth_error (parts w) (hid w) = Some star ->
    usable (w_type w) star (except (hid w) (parts w)) -> part1 half w = Ok w' ->
    in_step w' /\ map p_mass (parts w') = map p_mass (parts w) /\ w_type w' = w_type w
    /\ w_verr w' = w_verr w /\ w_Lerr w' = w_Lerr w /\ same_rest (w_u w) (w_u w')
    /\ momentum (parts w') = momentum (parts w)
    /\ weighted p_ipos (parts w') = vadd (weighted p_ipos (parts w)) (vscale half (momentum (parts w))).
  Proof.
    intros L N U E. rewrite except_others in U. unfold part1 in E. destruct (with_bodies_inv _ _ _ _ L N E) as (a & r & Na & Er & Ew).
    set (o := combine _ _) in Er.
    assert (Eo : map fst o = others (hid w) (parts w)) by (apply fst_combine_others; exact L).
    assert (AC : coords_spec (w_type w) (star, a) o (to_alternative (w_type w) (star, a) o)).
    { apply alternative_coords. cbn [fst]. rewrite Eo. exact U. }
    destruct (to_alternative (w_type w) (star, a) o) as [s1 o1]. unfold coords_spec, of_bodies in AC. cbn [fst snd map] in AC.
    destruct AC as (A1 & A2 & A3 & A4 & _). apply cons_eq in A1 as [A1 A1']. rewrite Eo in *.
    destruct (kepler_steps (w_type w) half s1 o1) as [r2|] eqn:Ek; [|discriminate Er]. cbn [rbind] in Er.
    destruct (kepler_steps_inv _ _ _ _ _ Ek) as (K1 & K2).
    pose proof (jump_slots (w_type w) half (fst r2) (snd r2)) as J. destruct (jump (w_type w) half (fst r2) (snd r2)) as [s3 o3].
    destruct J as (J1 & J2 & J3 & _ & J5 & J6). cbn [fst snd] in *.
    injection Er as Er.
    assert (F1 : fst s3 = star) by (rewrite J1, K1; exact A1).
    assert (F2 : map fst o3 = others (hid w) (parts w)) by (rewrite J2, K2; exact A1').
    pose proof (others_perm (hid w) (parts w) star N) as Pm.
    assert (Lh : (hid w < length (parts w))%nat) by (apply nth_error_Some; congruence).
    destruct (finish w w' s3 o3 r) as (X1 & X2 & X3 & X4); auto.
    - now rewrite F1, F2.
    - rewrite <- (map_length fst o3), F2. pose proof (others_length (hid w) (parts w) Lh). lia.
    - cbn [map]. rewrite F1, F2, J3, K1. exact A2.
    - split; [exact X1|]. split; [|split; [|split; [|split; [|split]]]].
      + rewrite X2, F1, F2, <- map_reassemble. now rewrite (reassemble_others _ _ _ N).
      + rewrite Ew. reflexivity.
      + rewrite Ew. reflexivity.
      + rewrite Ew. reflexivity.
      + rewrite Ew. apply rest_set.
      + cbn [map] in X3, X4. rewrite F1, F2 in X3, X4. rewrite X3, X4, J5, J6, K1. cbn [on_alt snd a_pos a_vel set_a_pos].
        assert (E0 : total_mass (star :: others (hid w) (parts w)) <> 0).
        { destruct (w_type w); cbn [usable] in U; [|apply U|apply U]. specialize (U (length (others (hid w) (parts w)))). now rewrite firstn_all in U. }
        rewrite A3, A4. unfold momentum, mean. rewrite <- !(weighted_perm _ _ _ Pm). split.
        * rewrite vscale_scale, Rinv_r, vscale_1 by exact E0. reflexivity.
        * rewrite vscale_add, !vscale_scale. rewrite Rinv_r, vscale_1 by exact E0. f_equal. f_equal. field. exact E0.
  Qed.

  Lemma part2_moves dt half (w w' : whfast R) : in_step w -> part2 dt half w = Ok w' ->
    in_step w' /\ map p_mass (parts w') = map p_mass (parts w) /\ w_type w' = w_type w
    /\ w_verr w' = w_verr w /\ w_Lerr w' = w_Lerr w /\ same_rest (w_u w) (w_u w')
    /\ momentum (parts w') = momentum (parts w)
    /\ weighted p_ipos (parts w') = vadd (weighted p_ipos (parts w)) (vscale half (momentum (parts w))).
  Proof.
    intros (L & star & a & N & Na & U & Ma & Mv & Mx) E. rewrite except_others in U. unfold part2 in E.
    destruct (with_bodies_inv _ _ _ _ L N E) as (a' & r & Na' & Er & Ew). rewrite Na in Na'. injection Na' as <-.
    set (o := combine _ _) in Er.
    assert (Eo : map fst o = others (hid w) (parts w)) by (apply fst_combine_others; exact L).
    pose proof (interaction_slots (w_type w) dt (star, a) o) as I. destruct (interaction (w_type w) dt (star, a) o) as [s1 o1].
    pose proof (jump_slots (w_type w) half s1 o1) as J. destruct (jump (w_type w) half s1 o1) as [s2 o2].
    destruct (kepler_steps (w_type w) half s2 o2) as [[s3 o3]|] eqn:Ek; [|discriminate Er]. cbn [rbind] in Er.
    destruct (kepler_steps_inv _ _ _ _ _ Ek) as (K1 & K2).
    destruct I as (I1 & I2 & I3 & _ & I5 & I6). destruct J as (J1 & J2 & J3 & _ & J5 & J6). cbn [fst snd] in *.
    injection Er as Er. rewrite Eo in I2.
    assert (F1 : fst s3 = star) by (rewrite K1; cbn [on_alt fst]; congruence).
    assert (F2 : map fst o3 = others (hid w) (parts w)) by congruence.
    pose proof (others_perm (hid w) (parts w) star N) as Pm.
    assert (Lh : (hid w < length (parts w))%nat) by (apply nth_error_Some; congruence).
    destruct (finish w w' s3 o3 r) as (X1 & X2 & X3 & X4); auto.
    - now rewrite F1, F2.
    - rewrite <- (map_length fst o3), F2. pose proof (others_length (hid w) (parts w) Lh). lia.
    - cbn [map]. rewrite F1, F2, K1. cbn [on_alt snd a_mass set_a_pos]. rewrite J3, I3, Ma. symmetry. apply total_perm. exact Pm.
    - split; [exact X1|]. split; [|split; [|split; [|split; [|split]]]].
      + rewrite X2, F1, F2, <- map_reassemble. now rewrite (reassemble_others _ _ _ N).
      + rewrite Ew. reflexivity.
      + rewrite Ew. reflexivity.
      + rewrite Ew. reflexivity.
      + rewrite Ew. apply rest_set.
      + cbn [map] in X3, X4. rewrite F1, F2, (total_perm _ _ Pm) in X3, X4. rewrite X3, X4, K1. cbn [on_alt snd a_pos a_vel set_a_pos].
        rewrite J5, J6, I5, I6. split; [exact Mv|]. rewrite vscale_add, Mx. f_equal. rewrite <- Mv, !vscale_scale. f_equal. ring.
  Qed.
End Run.
