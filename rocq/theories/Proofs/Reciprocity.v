(** Effects that act between bodies carry no net force (C71) *)
From Coq Require Import Reals Lra List Bool Arith Lia.
From Verif Require Import Base.Num Base.Result Base.Trans Base.Vec Model.Constants Model.Particle Model.Host Model.Tools Model.Kaula
  Model.Creep Model.Tides Model.Flattening Model.Relativity Model.Disk Model.Wind Model.Universe
  Spec.EffectsSpec Spec.ReciprocitySpec Proofs.NumLemmas Proofs.VecLemmas Proofs.TidesProofs Proofs.FlatteningProofs Proofs.DiskProofs
  Proofs.RelativityProofs Proofs.LeapFrogProofs Proofs.FrameProofs.
Import ListNotations.
Open Scope R_scope.

(** ** Relations between the bodies before and after *)
Section Lists.
  Context {A : Type} (Q : A -> A -> Prop).
  Lemma others_of_reassemble h (a : A) o : (h <= length o)%nat -> others h (reassemble h a o) = o.
  Proof.
    revert o. unfold others, reassemble. induction h as [|h IH]; intros [|b o] L; cbn [length] in L; try lia; try reflexivity.
    cbn [firstn skipn app]. f_equal. apply IH. lia.
  Qed.
  Lemma nth_reassemble h (a : A) o : (h <= length o)%nat -> nth_error (reassemble h a o) h = Some a.
  Proof.
    revert o. unfold reassemble. induction h as [|h IH]; intros [|b o] L; cbn [length] in L; try lia; try reflexivity.
    cbn [firstn skipn app nth_error]. apply IH. lia.
  Qed.
  Lemma others_length h (l : list A) a : nth_error l h = Some a -> S (length (others h l)) = length l.
  Proof.
    intro E. assert (h < length l)%nat by (apply nth_error_Some; congruence). unfold others. rewrite app_length, firstn_length, skipn_length. lia.
  Qed.
  Lemma Forall2_len (l l' : list A) : Forall2 Q l l' -> length l = length l'.
  Proof. induction 1; cbn; congruence. Qed.
  Lemma Forall2_firstn n (l l' : list A) : Forall2 Q l l' -> Forall2 Q (firstn n l) (firstn n l').
  Proof. intro F. revert n. induction F; intros [|n]; cbn; auto. Qed.
  Lemma Forall2_skipn n (l l' : list A) : Forall2 Q l l' -> Forall2 Q (skipn n l) (skipn n l').
  Proof. intro F. revert n. induction F; intros [|n]; cbn; auto. Qed.
  Lemma Forall2_others n (l l' : list A) : Forall2 Q l l' -> Forall2 Q (others n l) (others n l').
  Proof. intro F. unfold others. apply Forall2_app; auto using Forall2_firstn, Forall2_skipn. Qed.
  Lemma Forall2_nth n (l l' : list A) a : Forall2 Q l l' -> nth_error l n = Some a -> exists a', nth_error l' n = Some a' /\ Q a a'.
  Proof. intro F. revert n. induction F; intros [|n] E; cbn in *; try discriminate E; eauto. injection E as <-. eauto. Qed.
  Lemma Forall2_reassemble h (l : list A) a a' o' : nth_error l h = Some a -> Q a a' -> Forall2 Q (others h l) o' -> Forall2 Q l (reassemble h a' o').
  Proof.
    intros E Ha F. rewrite <- (reassemble_others h l a E). unfold reassemble.
    apply Forall2_app; [now apply Forall2_firstn|]. constructor; auto. now apply Forall2_skipn.
  Qed.
  Lemma with_host_rel h (l l' : list A) f : (forall a, Q a a) -> (forall host o r, f host o = Ok r -> Q host (fst r) /\ Forall2 Q o (snd r)) ->
    with_host h l f = Ok l' -> Forall2 Q l l'.
  Proof.
    intros Qr Hf. unfold with_host. destruct (Nat.leb _ _); [|intro X; discriminate X].
    destruct (nth_error l h) as [a|] eqn:E; [|intro X; injection X as <-; clear - Qr; induction l; auto].
    destruct (f a _) as [r|] eqn:Ef; [|intro X; discriminate X]. cbn [rbind]. intro X. injection X as <-.
    destruct (Hf _ _ _ Ef) as (Ha & Ho). eapply Forall2_reassemble; eauto.
  Qed.
End Lists.
Lemma with_host_inv {A} h (l l' : list A) f a : nth_error l h = Some a -> with_host h l f = Ok l' ->
  exists r, f a (others h l) = Ok r /\ l' = reassemble h (fst r) (snd r).
Proof.
  intros E. unfold with_host. rewrite E. destruct (Nat.leb _ _); [|intro X; discriminate X].
  destruct (f a _) as [r|] eqn:Ef; [|intro X; discriminate X]. cbn [rbind]. intro X. injection X as <-. eauto.
Qed.
Lemma map_view_rel {A B} (c : A -> B) (Q : A -> A -> Prop) l l' : (forall a a', c a' = c a -> Q a a') -> map c l' = map c l -> Forall2 Q l l'.
Proof.
  intros HQ. revert l'. induction l as [|a l IH]; intros [|a' l'] E; try discriminate E; auto. cbn [map] in E. injection E as Ea El. auto.
Qed.

(** the net force in a list put together again *)
Lemma net_reassemble acc h a o : net_force acc (reassemble h a o) = net_force acc (a :: o).
Proof.
  unfold reassemble. rewrite net_force_app, !net_force_cons.
  transitivity (vadd (vscale (p_mass a) (acc a)) (vadd (net_force acc (firstn h o)) (net_force acc (skipn h o)))).
  - rewrite !vadd_assoc. f_equal. apply vadd_comm.
  - rewrite <- net_force_app, firstn_skipn. reflexivity.
Qed.
Lemma net_view acc l l' : map (fun p => (p_mass p, acc p)) l' = map (fun p => (p_mass p, acc p)) l -> net_force acc l' = net_force acc l.
Proof.
  intro E. unfold net_force. f_equal. transitivity (map (fun v => vscale (fst v) (snd v)) (map (fun p => (p_mass p, acc p)) l')); [now rewrite map_map|].
  rewrite E, map_map. reflexivity.
Qed.

Section Effects.
  Context `{TR : Trans R} `{FL : Floor R} `{FU : Fuel}.
  Notation P := (particle R).
  Definition torb (p : P) : bool := is_tides_orbiting (t_effect (p_tides p)).
  Definition rorb (p : P) : bool := is_rf_orbiting (rf_effect (p_rf p)).
  Definition tview (p : P) := (p_mass p, torb p, kaula_host p, t_acc (p_tides p)).
  Definition rview (p : P) := (p_mass p, rorb p, rf_acc (p_rf p)).

  (** *** Tides *)
  Ltac same_view := cbn [fst snd]; repeat match goal with |- context [if ?b then _ else _] => destruct b end; reflexivity.
  Lemma v_ctl_orthogonal m host l : map tview (ctl_orthogonal_components m host l) = map tview l.
  Proof.
    unfold ctl_orthogonal_components. rewrite !map_same; auto; intro p; unfold ctl_orthogonal; destruct (orbiting_ctl _); same_view.
  Qed.
  Lemma v_ctl_radial m host l : map tview (ctl_radial_components m host l) = map tview l.
  Proof. unfold ctl_radial_components. apply map_same. intro p. unfold ctl_radial. destruct (orbiting_ctl _); same_view. Qed.
  Lemma v_creep_shapes host l l' : creep_shapes host l = Ok l' -> map tview l' = map tview l.
  Proof.
    apply rmap_same. intros p p'. unfold creep_update. cbn zeta. destruct (neqb _ _); [intro E; injection E as <-; auto|].
    destruct (creep_shape _ _ _ _ _); [|intro E; discriminate E]. cbn [rbind]. intro E. injection E as <-. same_view.
  Qed.
  Lemma v_tides_dL host l r : tides_dangular_momentum_dt host l = Ok r -> keeps tview r host l.
  Proof.
    unfold tides_dangular_momentum_dt. destruct (rmap _ _) as [l'|] eqn:E1; [|intro E; discriminate E]. cbn [rbind].
    destruct (rfold _ _ _) as [s|]; [|intro E; discriminate E]. cbn [rbind]. intro E. injection E as <-. split; cbn [fst snd]; [same_view|].
    revert E1. apply rmap_same. intros p p'. unfold tides_planet_dL. destruct (t_effect _) eqn:Et; try (intro E; injection E as <-; auto; fail).
    destruct (model_torque _ _ _ _); [|intro E; discriminate E]. cbn [rbind]. intro E. injection E as <-. reflexivity.
  Qed.
  Definition tkind (p : P) := (p_mass p, torb p, kaula_host p).
  Lemma kind_kaula_force host p central f h' p' : kaula_force host p central = Ok (f, h', p') -> tkind h' = tkind host /\ tkind p' = tkind p.
  Proof.
    unfold kaula_force. destruct (kaula_of _) as [k|] eqn:Ek; [|intro E; discriminate E].
    destruct (kaula_radial _ _ _ _ _), (kaula_normal _ _ _ _ _), (kaula_orthogonal _ _ _ _ _).
    destruct central; intro E; injection E as <- <- <-; split; try reflexivity; unfold tkind, torb, kaula_host; tproj;
      destruct (t_effect (p_tides p)) as [[]|[]|]; try discriminate Ek; reflexivity.
  Qed.
  Lemma kind_model_force m host p f h' p' : model_force m host p = Ok (f, h', p') -> tkind h' = tkind host /\ tkind p' = tkind p.
  Proof. unfold model_force. destruct m; try (intro E; injection E as <- <- <-; auto). apply kind_kaula_force. Qed.
  (** what the first loop leaves of the bodies that take no part *)
  Definition tidle (p : P) := (tkind p, if torb p then vzero else t_acc (p_tides p)).
  Lemma tidle_on_acc a p : torb p = true -> tidle (on_tides (set_t_acc a) p) = tidle p.
  Proof. unfold tidle. intro E. change (tkind (on_tides (set_t_acc a) p)) with (tkind p). change (torb (on_tides (set_t_acc a) p)) with (torb p). now rewrite E. Qed.
  Lemma idle_acceleration_fold l : forall t h s t' h' s', rfold tides_acceleration_step l (t, h, s) = Ok (t', h', s') ->
    tkind h' = tkind h /\ map tidle s' = map tidle s ++ map tidle l.
  Proof.
    induction l as [|p l IH]; intros t h s t' h' s' E; cbn [rfold] in E.
    - injection E as <- <- <-. now rewrite app_nil_r.
    - unfold tides_acceleration_step at 1 in E. destruct (t_effect (p_tides p)) as [m|m|] eqn:Et; cbn [rbind] in E.
      1,3: apply IH in E; destruct E as (-> & ->); rewrite map_app, <- app_assoc; auto.
      destruct (model_force m h p) as [[[f h1] p1]|] eqn:Em; [|discriminate E]. cbn [rbind] in E.
      apply kind_model_force in Em. destruct Em as (Eh & Ep). apply IH in E. destruct E as (-> & ->).
      rewrite map_app, <- app_assoc. cbn [map app]. split; [exact Eh|]. do 2 f_equal.
      assert (To : torb p = true) by (unfold torb; now rewrite Et). assert (To1 : torb p1 = true) by (unfold tkind in Ep; congruence).
      rewrite tidle_on_acc by exact To1. unfold tidle. now rewrite To, To1, Ep.
  Qed.
  Lemma kind_stellar_fold f2 l : forall h s h' s', rfold (tides_stellar_step f2) l (h, s) = Ok (h', s') ->
    tkind h' = tkind h /\ map tkind s' = map tkind s ++ map tkind l.
  Proof.
    induction l as [|p l IH]; intros h s h' s' E; cbn [rfold] in E.
    - injection E as <- <-. now rewrite app_nil_r.
    - unfold tides_stellar_step at 1 in E. destruct (kaula_force p h true) as [[[f p1] h1]|] eqn:Em; [|discriminate E]. cbn [rbind] in E.
      apply kind_kaula_force in Em. destruct Em as (Ep & Eh). apply IH in E. destruct E as (-> & ->).
      rewrite map_app, <- app_assoc. cbn [map app]. split; [exact Eh|]. do 2 f_equal. exact Ep.
  Qed.
  Lemma kind_of_idle l l' : map tidle l' = map tidle l -> map tkind l' = map tkind l.
  Proof.
    intro E. transitivity (map fst (map tidle l')); [now rewrite map_map|]. rewrite E, map_map. reflexivity.
  Qed.
  Lemma idle_acceleration host l r : tides_acceleration host l = Ok r ->
    keeps tkind r host l /\ (kaula_host host = false -> map tidle (snd r) = map tidle l).
  Proof.
    unfold tides_acceleration. destruct (rfold _ _ _) as [[[t h] s]|] eqn:E1; [|intro E; discriminate E]. cbn [rbind].
    apply idle_acceleration_fold in E1. cbn [map app] in E1. destruct E1 as (E1 & E2).
    set (h1 := on_tides _ h). assert (K : tkind h1 = tkind host) by exact E1.
    assert (Kk : kaula_host h1 = kaula_host host) by (unfold tkind in K; congruence).
    assert (D : Ok (h1, s) = Ok r -> keeps tkind r host l /\ (kaula_host host = false -> map tidle (snd r) = map tidle l)).
    { intro E. injection E as <-. split; [split|]; auto. cbn [snd]. now apply kind_of_idle. }
    unfold kaula_host at 1 in Kk. destruct (t_effect (p_tides h1)) as [m|m|]; [destruct m| |]; auto.
    destruct r as [h' s']. intro E. apply kind_stellar_fold in E. destruct E as (X & Y). split; [split; cbn [fst snd]|].
    - congruence.
    - rewrite Y. cbn [map app]. now apply kind_of_idle.
    - intro F. congruence.
  Qed.

  (** *** Flattening *)
  Lemma v_oblate_orthogonal host l : map rview (oblate_orthogonal_components host l) = map rview l.
  Proof.
    unfold oblate_orthogonal_components. rewrite !map_same; auto; intro p; unfold oblate_orthogonal;
      (destruct (rf_effect (p_rf p)) as [m|m|]; [|destruct m|]); same_view.
  Qed.
  Lemma v_oblate_radial host l : map rview (oblate_radial_components host l) = map rview l.
  Proof. unfold oblate_radial_components. apply map_same. intro p. unfold oblate_radial. same_view. Qed.
  Lemma v_rf_creep_shapes host l l' : rf_creep_shapes host l = Ok l' -> map rview l' = map rview l.
  Proof.
    apply rmap_same. intros p p'. unfold rf_creep_update. cbn zeta. destruct (neqb _ _); [intro E; injection E as <-; auto|].
    destruct (creep_shape _ _ _ _ _); [|intro E; discriminate E]. cbn [rbind]. intro E. injection E as <-. same_view.
  Qed.
  Lemma v_rf_dL host l r : rf_dangular_momentum_dt host l = Ok r -> keeps rview r host l.
  Proof.
    unfold rf_dangular_momentum_dt. destruct (rmap _ _) as [l'|] eqn:E1; [|intro E; discriminate E]. cbn [rbind].
    destruct (rfold _ _ _) as [s|]; [|intro E; discriminate E]. cbn [rbind]. intro E. injection E as <-. split; cbn [fst snd]; [same_view|].
    revert E1. apply rmap_same. intros p p'. unfold rf_planet_dL. destruct (rf_effect _) eqn:Et; try (intro E; injection E as <-; auto; fail).
    destruct (rf_model_torque _ _ _ _); [|intro E; discriminate E]. cbn [rbind]. intro E. injection E as <-. reflexivity.
  Qed.
  Definition ridle (p : P) := (p_mass p, rorb p, if rorb p then vzero else rf_acc (p_rf p)).
  Lemma idle_of_rview l l' : map rview l' = map rview l -> map ridle l' = map ridle l.
  Proof.
    intro E. transitivity (map (fun v : R * bool * vec R => (fst v, if snd (fst v) then vzero (F := R) else snd v)) (map rview l')); [now rewrite map_map|].
    rewrite E, map_map. reflexivity.
  Qed.
  Lemma idle_of_tview l l' : map tview l' = map tview l -> map tidle l' = map tidle l.
  Proof.
    intro E. transitivity (map (fun v : R * bool * bool * vec R => (fst v, if snd (fst (fst v)) then vzero (F := R) else snd v)) (map tview l')); [now rewrite map_map|].
    rewrite E, map_map. reflexivity.
  Qed.
  Lemma idle_rf_acceleration host l : map ridle (snd (rf_acceleration host l)) = map ridle l.
  Proof.
    unfold rf_acceleration. cbn [snd]. apply map_same. intro p. unfold rf_force_of. destruct (rf_effect (p_rf p)) eqn:E; auto.
    unfold ridle, rorb. cbn [on_rf p_rf set_p_rf rf_effect set_rf_acc p_mass rf_acc]. unfold on_rf. cbn [p_rf set_p_rf rf_effect set_rf_acc p_mass rf_acc]. rewrite E. reflexivity.
  Qed.

  (** *** Both, around their common host *)
  Lemma mass_of_tkind l l' : map tkind l' = map tkind l -> map p_mass l' = map p_mass l.
  Proof. intro E. transitivity (map (fun v : R * bool * bool => fst (fst v)) (map tkind l')); [now rewrite map_map|]. rewrite E, map_map. reflexivity. Qed.
  Lemma massive l l' : map p_mass l' = map p_mass l -> Forall (fun p : P => p_mass p <> 0) l -> Forall (fun p : P => p_mass p <> 0) l'.
  Proof.
    revert l'. induction l as [|p l IH]; intros [|p' l'] E F; try discriminate E; constructor; inversion F; subst; cbn [map] in E; injection E as E1 E2; [congruence|auto].
  Qed.
  Definition tides_still (b : bool) (p : P) : Prop := torb p = true \/ (b = false /\ t_acc (p_tides p) = vzero).
  Lemma still_idle l l' : map tidle l' = map tidle l -> Forall (tides_still false) l -> Forall (tides_still false) l'.
  Proof.
    revert l'. induction l as [|p l IH]; intros [|p' l'] E F; try discriminate E; constructor; inversion F; subst; cbn [map] in E; injection E as E1 E2 E3 E4 E5; [|auto].
    unfold tides_still in *. destruct (torb p) eqn:Ep; rewrite E2 in E4 |- *; [auto|]. destruct H1 as [X|(_ & X)]; [discriminate X|]. right. split; [reflexivity|]. congruence.
  Qed.
  Lemma still_kind l l' : map tkind l' = map tkind l -> Forall (tides_still true) l -> Forall (tides_still true) l'.
  Proof.
    revert l'. induction l as [|p l IH]; intros [|p' l'] E F; try discriminate E; constructor; inversion F; subst; cbn [map] in E; injection E as E1 E2 E3 E4; [|auto].
    unfold tides_still in *. destruct H1 as [X|(X & _)]; [|discriminate X]. left. congruence.
  Qed.
  Definition rf_still (p : P) : Prop := rorb p = true \/ rf_acc (p_rf p) = vzero.
  Lemma still_ridle l l' : map ridle l' = map ridle l -> Forall rf_still l -> Forall rf_still l'.
  Proof.
    revert l'. induction l as [|p l IH]; intros [|p' l'] E F; try discriminate E; constructor; inversion F; subst; cbn [map] in E; injection E as E1 E2 E3 E4; [|auto].
    unfold rf_still in *. destruct (rorb p) eqn:Ep; rewrite E2 in E3 |- *; [auto|]. destruct H1 as [X|X]; [discriminate X|]. right. congruence.
  Qed.
  Lemma still_tview b l l' : map tview l' = map tview l -> Forall (tides_still b) l -> Forall (tides_still b) l'.
  Proof.
    intros E F. apply idle_of_tview in E. destruct b; [apply (still_kind l); auto; now apply kind_of_idle|apply (still_idle l); auto].
  Qed.
  Lemma tv_blind_rf : blind_rf tview. Proof. intros r p. reflexivity. Qed.
  Lemma rv_blind_tides : blind_tides rview. Proof. intros r p. reflexivity. Qed.
  Lemma mass_of_tview l l' : map tview l' = map tview l -> map p_mass l' = map p_mass l.
  Proof. intro E. apply mass_of_tkind, kind_of_idle, idle_of_tview, E. Qed.
  Lemma tview_net l l' : map tview l' = map tview l -> net_force tidal_acc l' = net_force tidal_acc l.
  Proof.
    intro E. apply net_view. transitivity (map (fun v : R * bool * bool * vec R => (fst (fst (fst v)), snd v)) (map tview l')); [now rewrite map_map|]. rewrite E, map_map. reflexivity.
  Qed.
  Lemma rview_net l l' : map rview l' = map rview l -> net_force flattening_acc l' = net_force flattening_acc l.
  Proof.
    intro E. apply net_view. transitivity (map (fun v : R * bool * vec R => (fst (fst v), snd v)) (map rview l')); [now rewrite map_map|]. rewrite E, map_map. reflexivity.
  Qed.
  Lemma keeps_cons {B} (c : P -> B) r host l : keeps c r host l -> map c (fst r :: snd r) = map c (host :: l).
  Proof. intros (A & E). cbn [map]. now rewrite A, E. Qed.

  Lemma tidal_net e dL acc m host o r : p_mass host <> 0 -> Forall (fun p : P => p_mass p <> 0) o ->
    (e_tides e = true -> Forall (tides_still (kaula_host host)) o) -> (e_rf e = true -> Forall rf_still o) ->
    tidal_host_effects e dL acc m host o = Ok r ->
    (e_tides e = true -> (acc = true -> net_force tidal_acc (fst r :: snd r) = vzero) /\ kaula_host (fst r) = kaula_host host /\ Forall (tides_still (kaula_host host)) (snd r)) /\
    (e_rf e = true -> (acc = true -> net_force flattening_acc (fst r :: snd r) = vzero) /\ Forall rf_still (snd r)).
  Proof.
    intros Hm Ho Ht Hr. unfold tidal_host_effects.
    destruct (if e_tides e then creep_shapes _ _ else _) as [o1|] eqn:E1; [|intro X; discriminate X]. cbn [rbind].
    assert (T1 : map tview o1 = map tview o).
    { destruct (e_tides e); [|injection E1 as <-; reflexivity]. apply v_creep_shapes in E1. rewrite E1. apply v_ctl_orthogonal. }
    assert (R1 : map rview o1 = map rview o).
    { destruct (e_tides e); [|injection E1 as <-; reflexivity]. apply (k_creep_shapes rview rv_blind_tides) in E1. rewrite E1. apply (k_ctl_orthogonal rview rv_blind_tides). }
    destruct (if e_rf e then rf_creep_shapes _ _ else _) as [o2|] eqn:E2; [|intro X; discriminate X]. cbn [rbind].
    assert (T2 : map tview o2 = map tview o1).
    { destruct (e_rf e); [|injection E2 as <-; reflexivity]. apply (k_rf_creep_shapes tview tv_blind_rf) in E2. rewrite E2. apply (k_oblate_orthogonal tview tv_blind_rf). }
    assert (R2 : map rview o2 = map rview o1).
    { destruct (e_rf e); [|injection E2 as <-; reflexivity]. apply v_rf_creep_shapes in E2. rewrite E2. apply v_oblate_orthogonal. }
    rewrite T1 in T2. rewrite R1 in R2. clear E1 E2 T1 R1 o1.
    assert (M2 : map p_mass o2 = map p_mass o) by (apply mass_of_tview, T2).
    destruct (if acc then _ else Ok (host, o2)) as [s2|] eqn:E3; [|intro X; discriminate X]. cbn [rbind].
    assert (ST : (e_tides e = true -> (acc = true -> net_force tidal_acc (fst s2 :: snd s2) = vzero) /\ kaula_host (fst s2) = kaula_host host /\ Forall (tides_still (kaula_host host)) (snd s2)) /\
      (e_rf e = true -> (acc = true -> net_force flattening_acc (fst s2 :: snd s2) = vzero) /\ Forall rf_still (snd s2))).
    { destruct acc.
      2:{ injection E3 as <-. cbn [fst snd]. split; intro X; split; try (intro Y; discriminate Y).
          - split; [reflexivity|]. eapply still_tview; eauto.
          - eapply still_ridle; [apply idle_of_rview; exact R2|auto]. }
    destruct (if e_tides e then tides_acceleration _ _ else _) as [s1|] eqn:E4; [|discriminate E3]. cbn [rbind] in E3. injection E3 as E3. rename E4 into E5.
    assert (E4 := E3). rename E5 into E3'. clear E3. rename E3' into E3. symmetry in E4.
    revert E4. intro E2. subst s2. set (s2 := if e_rf e then _ else s1).
    assert (TA : e_tides e = true -> net_force tidal_acc (fst s1 :: snd s1) = vzero /\ kaula_host (fst s1) = kaula_host host /\ Forall (tides_still (kaula_host host)) (snd s1)).
    { intro Et. rewrite Et in E3. specialize (Ht Et). set (o3 := ctl_radial_components m host o2) in E3.
      assert (T3 : map tview o3 = map tview o) by (unfold o3; rewrite v_ctl_radial; exact T2).
      assert (H3 : Forall (tides_still (kaula_host host)) o3) by (eapply still_tview; eauto).
      destruct s1 as [h1 l1]. split; [|].
      - apply (tides_momentum host o3 h1 l1); auto.
        + eapply massive; [|exact Ho]. apply mass_of_tview, T3.
        + eapply Forall_impl; [|exact H3]. intros p [X|(_ & X)]; [left|right]; exact X.
      - destruct (idle_acceleration host o3 _ E3) as ((Kh & Kl) & Ki). cbn [fst snd] in *.
        split; [unfold tkind in Kh; congruence|]. destruct (kaula_host host) eqn:Ek.
        + eapply still_kind; eauto.
        + eapply still_idle; [apply Ki; reflexivity|exact H3]. }
    assert (R3 : map rview (fst s1 :: snd s1) = map rview (host :: o)).
    { destruct (e_tides e); [|injection E3 as <-; cbn [fst snd map]; now rewrite R2].
      apply (k_tides_acceleration rview rv_blind_tides) in E3. rewrite (keeps_cons _ _ _ _ E3). cbn [map]. rewrite (k_ctl_radial rview rv_blind_tides). now rewrite R2. }
    cbn [map] in R3. injection R3 as R3m R3o R3a R3l. 
    assert (RA : e_rf e = true -> net_force flattening_acc (fst s2 :: snd s2) = vzero /\ Forall rf_still (snd s2)).
    { intro Er. unfold s2. rewrite Er. specialize (Hr Er). set (o4 := oblate_radial_components (fst s1) (snd s1)).
      assert (R4 : map rview o4 = map rview o) by (unfold o4; rewrite v_oblate_radial; exact R3l).
      assert (H4 : Forall rf_still o4) by (eapply still_ridle; [apply idle_of_rview; exact R4|exact Hr]).
      assert (M4 : map p_mass o4 = map p_mass o).
      { transitivity (map (fun v : R * bool * vec R => fst (fst v)) (map rview o4)); [now rewrite map_map|]. rewrite R4, map_map. reflexivity. }
      destruct (rf_acceleration (fst s1) o4) as [h4 l4] eqn:E4. split.
      - apply (rf_momentum (fst s1) o4 h4 l4); auto; [congruence|eapply massive; eauto].
      - cbn [snd]. eapply still_ridle; [|exact H4]. replace l4 with (snd (rf_acceleration (fst s1) o4)) by now rewrite E4. apply idle_rf_acceleration. }
    assert (TB : map tview (fst s2 :: snd s2) = map tview (fst s1 :: snd s1)).
    { unfold s2. destruct (e_rf e); [|reflexivity]. rewrite (keeps_cons _ _ _ _ (k_rf_acceleration tview tv_blind_rf _ _)). cbn [map]. now rewrite (k_oblate_radial tview tv_blind_rf). }
    split; intro X.
    - destruct (TA X) as (A & B & C). cbn [map] in TB. pose proof TB as TB'. injection TB' as _ _ K _ L. split; [intros _; rewrite (tview_net (fst s1 :: snd s1) (fst s2 :: snd s2)); [exact A|exact TB]|].
      split; [congruence|]. eapply still_tview; eauto.
    - destruct (RA X) as (A & B). auto. }
    clear E3. destruct ST as (TA & RA).
    destruct dL; [|intro X; injection X as <-; auto].
    destruct (if e_tides e then tides_dangular_momentum_dt _ _ else _) as [s3|] eqn:E5; [|intro X; discriminate X]. cbn [rbind].
    assert (T5 : map tview (fst s3 :: snd s3) = map tview (fst s2 :: snd s2)).
    { destruct (e_tides e); [|injection E5 as <-; reflexivity]. apply v_tides_dL in E5. now apply keeps_cons in E5. }
    assert (R5 : map rview (fst s3 :: snd s3) = map rview (fst s2 :: snd s2)).
    { destruct (e_tides e); [|injection E5 as <-; reflexivity]. apply (k_tides_dL rview rv_blind_tides) in E5. now apply keeps_cons in E5. }
    intro E6.
    assert (T6 : map tview (fst r :: snd r) = map tview (fst s3 :: snd s3)).
    { destruct (e_rf e); [|injection E6 as <-; reflexivity]. apply (k_rf_dL tview tv_blind_rf) in E6. now apply keeps_cons in E6. }
    assert (R6 : map rview (fst r :: snd r) = map rview (fst s3 :: snd s3)).
    { destruct (e_rf e); [|injection E6 as <-; reflexivity]. apply v_rf_dL in E6. now apply keeps_cons in E6. }
    assert (T7 : map tview (fst r :: snd r) = map tview (fst s2 :: snd s2)) by congruence.
    assert (R7 : map rview (fst r :: snd r) = map rview (fst s2 :: snd s2)) by congruence.
    clear - TA RA T7 R7. split.
    - intro Et. destruct (TA Et) as (A & B & C). split; [intro X; rewrite (tview_net _ _ T7); auto|].
      cbn [map] in T7. injection T7 as _ _ K _ L. split; [congruence|]. eapply still_tview; eauto.
    - intro Er. destruct (RA Er) as (A & B). split; [intro X; rewrite (rview_net _ _ R7); auto|].
      cbn [map] in R7. injection R7 as _ _ _ L. eapply still_ridle; [apply idle_of_rview; exact L|exact B].
  Qed.

  (** *** Relativity and the disk *)
  Lemma kidder_net (host : P) (l : list P) : p_mass host <> 0 -> Forall gr_idle l -> net_force relativistic_acc (fst (kidder host l) :: snd (kidder host l)) = vzero.
  Proof.
    intros Hm HI. destruct (all_eq host l) as (h' & -> & S & A & _). cbn [fst snd].
    unfold net_force. cbn [map Vsum fold_right]. fold (Vsum (map (fun b => vscale (p_mass b) (relativistic_acc b))
      (map (fun p => if gr_orbiting p then done_all host p else p) l))).
    unfold relativistic_acc at 1. rewrite A. destruct S as (-> & _).
    rewrite map_map. rewrite (split_orb _ (fun p => vscale (p_mass p) (kidder_all host p))).
    - apply (weighted_zero kidder_all host l). exact Hm.
    - apply Forall_forall. intros p Hp. destruct (gr_orbiting p) eqn:Ep.
      + unfold relativistic_acc. rewrite done_all_acc. destruct (done_all_same host p) as (-> & _). reflexivity.
      + rewrite Forall_forall in HI. unfold relativistic_acc. rewrite (HI p Hp Ep). apply vscale_0_r.
  Qed.
  Lemma kidder_host_effect (host : P) (l : list P) : gr_effect (p_gr (fst (kidder host l))) = gr_effect (p_gr host).
  Proof. reflexivity. Qed.
  Lemma kidder_still (host : P) (l : list P) : Forall (fun p => gr_orbiting p = true \/ gr_acc (p_gr p) = vzero) l ->
    Forall (fun p => gr_orbiting p = true \/ gr_acc (p_gr p) = vzero) (snd (kidder host l)).
  Proof.
    intro F. destruct (all_eq host l) as (h' & -> & _). cbn [snd]. apply Forall_map. eapply Forall_impl; [|exact F]. intros p Hp. cbv beta in *.
    destruct (gr_orbiting p) eqn:Ep; [left; rewrite (same_orbiting p); [exact Ep|apply done_all_same]|]. rewrite Ep. exact Hp.
  Qed.
  Lemma disk_effect_fold (d : disk_props R) time (host : P) k l : forall sum hst done,
    is_disk_central (snd (fst (fold_left (fun '(sum, hst, done) p =>
      let '(sum, p) :=
        if is_disk_orbiting p then
          let ts := disk_timescale d time host p in
          let p := set_p_disk (set_dk_timescale ts (p_disk p)) p in
          let f := disk_force ts p in
          (vadd sum f, set_disk_acc (vscale (n1 / p_mass p)%num f) p)
        else (sum, p) in
      (sum, set_disk_acc (vscale k sum) hst, done ++ p :: nil)) l (sum, hst, done)))) = is_disk_central hst.
  Proof.
    induction l as [|p l IH]; intros sum hst done; [reflexivity|]. cbn [fold_left]. destruct (is_disk_orbiting p); rewrite IH; reflexivity.
  Qed.
  Lemma disk_net time (host : P) d l : disk_host host d -> p_mass host <> 0 -> l <> [] -> Forall (fun p : P => p_mass p <> 0) l -> Forall disk_idle l ->
    let r := calculate_disk_acceleration time host l in
    net_force disk_acc (fst r :: snd r) = vzero /\ is_disk_central (fst r) = true /\ Forall disk_idle (snd r).
  Proof.
    intros K Hm Hn Hl HI. cbn zeta. unfold calculate_disk_acceleration. rewrite K.
    set (k := (nopp n1 * (n1 / p_mass host))%num). set (h0 := set_disk_acc (vscale k vzero) host).
    match goal with |- context [fold_left ?f l ?z] => assert (E0 : fold_left f l z = fold_left f l (vzero, h0, [])) end.
    { destruct l as [|p0 l]; [now elim Hn|]. cbn [fold_left]. unfold h0. destruct (is_disk_orbiting p0); reflexivity. }
    rewrite E0. clear E0.
    destruct (disk_fold d time host k l vzero h0 []) as (h' & Ef & M & _ & A).
    pose proof (disk_effect_fold d time host k l vzero h0 []) as C.
    cbv zeta in Ef, C |- *. rewrite Ef in C |- *. cbn [fst snd app] in *. specialize (A eq_refl). rewrite vadd_0_l in A.
    split; [|split].
    - unfold net_force. cbn [map Vsum fold_right]. fold (Vsum (map (fun b => vscale (p_mass b) (disk_acc b)) (map (fun p => if is_disk_orbiting p then step d time host p else p) l))).
      rewrite M, A, map_map. rewrite (split_orbd _ (force_of d time host) l).
      + rewrite vscale_scale. change (p_mass h0) with (p_mass host). unfold k. num_simpl. replace (p_mass host * (- (1) * (1 / p_mass host))) with (-1) by (field; exact Hm).
        generalize (Vsum (map (force_of d time host) (orbd l))). intros v. clear. destruct v. vunfold. f_equal; ring.
      + rewrite Forall_forall in *. intros p Hp. destruct (is_disk_orbiting p) eqn:Ep.
        * change (vscale (p_mass p) (vscale (1 / p_mass p) (force_of d time host p)) = force_of d time host p). rewrite vscale_scale.
          replace (p_mass p * (1 / p_mass p)) with 1 by (field; auto). apply vscale_1.
        * rewrite (HI p Hp Ep). apply vscale_0_r.
    - rewrite C. change (is_disk_central h0) with (is_disk_central host). unfold is_disk_central. now rewrite K.
    - apply Forall_map. eapply Forall_impl; [|exact HI]. intros p Hp. cbv beta. destruct (is_disk_orbiting p) eqn:Ep; [|exact Hp].
      intro X. change (is_disk_orbiting (step d time host p)) with (is_disk_orbiting p) in X. congruence.
  Qed.

  (** *** The preparation of the effects *)
  Definition calm (p p' : P) : Prop :=
    p_mass p' = p_mass p /\ (torb p' = torb p /\ kaula_host p' = kaula_host p /\ (t_acc (p_tides p) = vzero -> t_acc (p_tides p') = vzero)) /\
    (rorb p' = rorb p /\ (rf_acc (p_rf p) = vzero -> rf_acc (p_rf p') = vzero)) /\
    (gr_effect (p_gr p') = gr_effect (p_gr p) /\ (gr_acc (p_gr p) = vzero -> gr_acc (p_gr p') = vzero)) /\
    (dk_effect (p_disk p') = dk_effect (p_disk p) /\ (dk_acc (p_disk p) = vzero -> dk_acc (p_disk p') = vzero)) /\
    (t_effect (p_tides p') = t_effect (p_tides p) /\ rf_effect (p_rf p') = rf_effect (p_rf p)).
  Lemma calm_refl p : calm p p. Proof. unfold calm. auto 12. Qed.
  Lemma calm_trans a b c : calm a b -> calm b c -> calm a c.
  Proof. unfold calm. intros (A1 & (A2 & A3 & A4) & (A5 & A6) & (A7 & A8) & (A9 & A10) & A11 & A12) (B1 & (B2 & B3 & B4) & (B5 & B6) & (B7 & B8) & (B9 & B10) & B11 & B12). repeat split; try congruence; auto. Qed.
  Lemma calms_refl l : Forall2 calm l l. Proof. induction l; auto using calm_refl. Qed.
  Lemma calms_trans a b c : Forall2 calm a b -> Forall2 calm b c -> Forall2 calm a c.
  Proof. intro F. revert c. induction F; intros c G; inversion G; subst; constructor; eauto using calm_trans. Qed.
  Definition calmed (r : P * list P) host l : Prop := calm host (fst r) /\ Forall2 calm l (snd r).
  Lemma calm_map f l : (forall p, calm p (f p)) -> Forall2 calm l (map f l). Proof. intro Hf. induction l; cbn [map]; auto. Qed.
  Ltac one_calm := intros; repeat match goal with |- context [if ?b then _ else _] => destruct b end; try apply calm_refl; unfold calm; repeat split; auto.
  Ltac all_calm := split; cbn [fst snd]; [one_calm|apply calm_map; one_calm].
  Lemma calmed_refl host l : calmed (host, l) host l. Proof. split; [apply calm_refl|apply calms_refl]. Qed.
  Lemma c_tides_initialize host l : calmed (tides_initialize host l) host l.
  Proof. unfold tides_initialize. destruct (is_tides_central _); [all_calm|apply calmed_refl]. Qed.
  Lemma c_tides_i2h host l : calmed (tides_inertial_to_heliocentric host l) host l.
  Proof. unfold tides_inertial_to_heliocentric. destruct (is_tides_central _); [all_calm|apply calmed_refl]. Qed.
  Lemma c_tides_copy host l : calmed (tides_copy_heliocentric host l) host l.
  Proof. unfold tides_copy_heliocentric, tides_copy_one. destruct (is_tides_central _); [all_calm|apply calmed_refl]. Qed.
  Lemma c_rf_initialize host l : calmed (rf_initialize host l) host l.
  Proof. unfold rf_initialize. destruct (is_rf_central _); [all_calm|apply calmed_refl]. Qed.
  Lemma c_rf_i2h host l : calmed (rf_inertial_to_heliocentric host l) host l.
  Proof. unfold rf_inertial_to_heliocentric. destruct (is_rf_central _); [all_calm|apply calmed_refl]. Qed.
  Lemma c_rf_copy host l : calmed (rf_copy_heliocentric host l) host l.
  Proof. unfold rf_copy_heliocentric, rf_copy_one. destruct (is_rf_central _); [all_calm|apply calmed_refl]. Qed.
  Lemma c_gr_initialize host l : calmed (gr_initialize host l) host l.
  Proof. unfold gr_initialize. destruct (gr_effect (p_gr host)) as [[]| |]; try apply calmed_refl; all_calm. Qed.
  Lemma c_gr_i2h host l : calmed (gr_inertial_to_heliocentric host l) host l.
  Proof. unfold gr_inertial_to_heliocentric. destruct (gr_implemented _); [all_calm|apply calmed_refl]. Qed.
  Lemma c_gr_copy host l : calmed (gr_copy_heliocentric host l) host l.
  Proof. unfold gr_copy_heliocentric. destruct (gr_implemented _); [all_calm|apply calmed_refl]. Qed.
  Lemma c_disk_initialize host l : calmed (disk_initialize host l) host l.
  Proof. unfold disk_initialize. destruct (is_disk_central _); [all_calm|apply calmed_refl]. Qed.
  Lemma c_disk_i2h host l : calmed (disk_inertial_to_heliocentric host l) host l.
  Proof. unfold disk_inertial_to_heliocentric. destruct (is_disk_central _); [all_calm|apply calmed_refl]. Qed.
  Lemma c_disk_copy host l : calmed (disk_copy_heliocentric host l) host l.
  Proof. unfold disk_copy_heliocentric. destruct (is_disk_central _); [all_calm|apply calmed_refl]. Qed.
  Lemma calmed_then f host l r : calmed r host l -> (forall host l, calmed (f host l) host l) -> calmed (f (fst r) (snd r)) host l.
  Proof. intros (K1 & K2) Hf. destruct (Hf (fst r) (snd r)) as (L1 & L2). split; [eapply calm_trans|eapply calms_trans]; eauto. Qed.
  Lemma c_opt_step b f g r host l : calmed r host l -> (forall host l, calmed (f host l) host l) -> (forall host l, calmed (g host l) host l) ->
    calmed (opt_step b f g r) host l.
  Proof. intros K Hf Hg. unfold opt_step. destruct b; auto. apply calmed_then; [apply calmed_then|]; auto. Qed.
  Lemma c_init_on b h f g l l' : init_on b h f g l = Ok l' ->
    (forall host l, calmed (f host l) host l) -> (forall host l, calmed (g host l) host l) -> Forall2 calm l l'.
  Proof.
    intros E Hf Hg. unfold init_on in E. destruct b; [|injection E as <-; apply calms_refl].
    eapply with_host_rel; [apply calm_refl| |exact E]. intros host o r X. injection X as <-.
    apply (c_opt_step true f g (host, o) host o); auto. apply calmed_refl.
  Qed.
  Lemma c_init_list dL acc (u : universe R) l : init_list dL acc u = Ok l -> Forall2 calm (u_particles u) l.
  Proof.
    unfold init_list. cbn zeta.
    set (it := (dL && e_tides _) || _). set (ir := (dL && e_rf _) || _). set (iw := dL && e_wind _).
    set (ig := (dL && e_gr _ && _) || _). set (id := acc && e_disk _).
    clearbody it ir iw ig id. destruct (it || ir || iw || ig || id); [|intro E; injection E as <-; apply calms_refl].
    set (l0 := if iw then _ else _).
    assert (E0 : Forall2 calm (u_particles u) l0).
    { unfold l0. destruct iw; [|apply calms_refl]. apply calm_map. intro p. one_calm. }
    clearbody l0. destruct (with_host _ _ _) as [l1|] eqn:E1; [|intro E; discriminate E]. cbn [rbind].
    apply (with_host_rel calm) in E1; [|apply calm_refl|].
    2:{ intros host o r X. injection X as <-.
        repeat apply c_opt_step; try apply calmed_refl; intros;
        auto using c_tides_copy, c_tides_initialize, c_rf_copy, c_rf_initialize, c_gr_copy, c_gr_initialize, c_disk_copy, c_disk_initialize. }
    destruct (negb _); [|intro E; injection E as <-; eapply calms_trans; eauto].
    destruct (init_on (it && _) _ _ _ l1) as [l2|] eqn:E2; [|intro E; discriminate E]. cbn [rbind].
    apply c_init_on in E2; [|intros; auto using c_tides_i2h, c_tides_initialize ..].
    destruct (init_on (ir && _) _ _ _ l2) as [l3|] eqn:E3; [|intro E; discriminate E]. cbn [rbind].
    apply c_init_on in E3; [|intros; auto using c_rf_i2h, c_rf_initialize ..].
    destruct (init_on (ig && _) _ _ _ l3) as [l4|] eqn:E4; [|intro E; discriminate E]. cbn [rbind].
    apply c_init_on in E4; [|intros; auto using c_gr_i2h, c_gr_initialize ..].
    intro E5. apply c_init_on in E5; [|intros; auto using c_disk_i2h, c_disk_initialize ..].
    exact (calms_trans _ _ _ (calms_trans _ _ _ (calms_trans _ _ _ (calms_trans _ _ _ (calms_trans _ _ _ E0 E1) E2) E3) E4) E5).
  Qed.

  (** *** The conditions of the bodies *)
  Lemma fine_calm (F : P -> list P -> Prop) h l l' :
    (forall host host' o o', calm host host' -> Forall2 calm o o' -> F host o -> F host' o') -> Forall2 calm l l' -> around h l F -> around h l' F.
  Proof.
    intros HF C (host & En & Hf). destruct (Forall2_nth calm h l l' host C En) as (host' & En' & Ch).
    exists host'. split; [exact En'|]. eapply HF; [exact Ch| |exact Hf]. now apply Forall2_others.
  Qed.
  Lemma fine_list (G G' : P -> Prop) o o' : (forall p p', calm p p' -> G p -> G' p') -> Forall2 calm o o' -> Forall G o -> Forall G' o'.
  Proof. intros HG C. induction C; intro F; inversion F; subst; constructor; eauto. Qed.
  Lemma tides_calm host host' o o' : calm host host' -> Forall2 calm o o' -> tides_fine host o -> tides_fine host' o'.
  Proof.
    intros Ch C. apply fine_list; [|exact C]. intros p p' Cp. destruct Ch as (_ & (_ & K & _) & _). destruct Cp as (_ & (T & _ & A) & _).
    unfold torb in T. rewrite T, K. intros [X|(X & Y)]; [left|right]; auto.
  Qed.
  Lemma rf_calm host host' o o' : calm host host' -> Forall2 calm o o' -> rf_fine host o -> rf_fine host' o'.
  Proof.
    intros _ C. apply fine_list; [|exact C]. intros p p' Cp. destruct Cp as (_ & _ & (T & A) & _).
    unfold rorb in T. rewrite T. intros [X|X]; [left|right]; auto.
  Qed.
  Lemma gr_calm host host' o o' : calm host host' -> Forall2 calm o o' -> gr_fine host o -> gr_fine host' o'.
  Proof.
    intros Ch C (K & F). split; [destruct Ch as (_ & _ & _ & (G & _) & _); congruence|]. revert F. apply fine_list; [|exact C]. intros p p' Cp. destruct Cp as (_ & _ & _ & (T & A) & _).
    unfold gr_orbiting. rewrite T. intros [X|X]; [left|right]; auto.
  Qed.
  Lemma disk_calm host host' o o' : calm host host' -> Forall2 calm o o' -> disk_fine host o -> disk_fine host' o'.
  Proof.
    intros Ch C (K & F). split; [destruct Ch as (_ & _ & _ & _ & (G & _) & _); unfold is_disk_central in *; now rewrite G|]. revert F. apply fine_list; [|exact C]. intros p p' Cp. destruct Cp as (_ & _ & _ & _ & (T & A) & _).
    unfold is_disk_orbiting. rewrite T. intros [X|X]; [left|right]; auto.
  Qed.
  Lemma reciprocal_calm u u' : Forall2 calm (u_particles u) (u_particles u') -> u_effects u' = u_effects u -> u_hosts u' = u_hosts u -> reciprocal u -> reciprocal u'.
  Proof.
    intros C Ee Eh (M & L & T & Rf & G & D). unfold reciprocal. cbn zeta. rewrite Ee, Eh.
    split; [|split; [|split; [|split; [|split]]]].
    - revert M. apply fine_list; [|exact C]. intros p p' (Em & _). now rewrite Em.
    - rewrite <- (Forall2_len _ _ _ C). exact L.
    - intro X. eapply fine_calm; [|exact C|auto]. intros. eapply tides_calm; eauto.
    - intro X. eapply fine_calm; [|exact C|auto]. intros. eapply rf_calm; eauto.
    - intro X. eapply fine_calm; [|exact C|auto]. intros. eapply gr_calm; eauto.
    - intro X. eapply fine_calm; [|exact C|auto]. intros. eapply disk_calm; eauto.
  Qed.
  Definition whole (p : P) := (p_mass p, t_effect (p_tides p), t_acc (p_tides p), p_rf p, p_gr p, p_disk p).
  Lemma calm_whole p p' : whole p' = whole p -> calm p p'.
  Proof. unfold whole. intro E. injection E as E1 E2 E3 E4 E5 E6. unfold calm, rorb, torb, kaula_host. rewrite E1, E2, E3, E4, E5, E6. auto 15. Qed.

  (** *** One evaluation *)
  Definition unforced (u : universe R) : Prop := let e := u_effects u in let l := u_particles u in
    (e_tides e = true -> net_force tidal_acc l = vzero) /\ (e_rf e = true -> net_force flattening_acc l = vzero) /\
    (e_gr e = true -> net_force relativistic_acc l = vzero) /\ (e_disk e = true -> net_force disk_acc l = vzero).
  Lemma around_set (F : P -> list P -> Prop) h host o : (h <= length o)%nat -> F host o -> around h (reassemble h host o) F.
  Proof. intros L Hf. exists host. rewrite nth_reassemble, others_of_reassemble by exact L. auto. Qed.
  Lemma around_len h (l : list P) F : around h l F -> (h <= length (others h l))%nat.
  Proof. intros (host & E & _). pose proof (others_length _ _ _ E). assert (h < length l)%nat by (apply nth_error_Some; congruence). lia. Qed.
  Lemma others_incl h (l : list P) (G : P -> Prop) : Forall G l -> Forall G (others h l).
  Proof.
    intro F. unfold others. apply Forall_app. split; apply Forall_forall; rewrite Forall_forall in F; intros x Hx; apply F.
    - rewrite <- (firstn_skipn h l). apply in_or_app. now left.
    - rewrite <- (firstn_skipn (S h) l). apply in_or_app. now right.
  Qed.
  Lemma around_view {B} (c : P -> B) (F : P -> list P -> Prop) h l l' : (forall host host' o o', c host' = c host -> map c o' = map c o -> F host o -> F host' o') ->
    map c l' = map c l -> around h l F -> around h l' F.
  Proof.
    intros HF E (host & En & Hf). assert (X : nth_error (map c l') h = Some (c host)) by (rewrite E, nth_error_map, En; reflexivity).
    rewrite nth_error_map in X. destruct (nth_error l' h) as [host'|] eqn:En'; [|discriminate X]. injection X as X.
    exists host'. split; [exact En'|]. eapply HF; [exact X| |exact Hf]. now rewrite !map_others, E.
  Qed.
  Lemma view_forall {B} (c : P -> B) (G : P -> Prop) l l' : (forall p p', c p' = c p -> G p -> G p') -> map c l' = map c l -> Forall G l -> Forall G l'.
  Proof.
    intros HG. revert l'. induction l as [|p l IH]; intros [|p' l'] E F; try discriminate E; constructor; inversion F; subst; cbn [map] in E; injection E as E1 E2; eauto.
  Qed.
  Lemma gr_of_view l l' h : map p_gr l' = map p_gr l -> around h l gr_fine -> around h l' gr_fine.
  Proof.
    apply around_view. intros host host' o o' Eh Eo (K & F). split; [congruence|]. revert F. eapply view_forall; [|exact Eo].
    intros p p' Ep. unfold gr_orbiting. now rewrite Ep.
  Qed.
  Lemma disk_of_view l l' h : map p_disk l' = map p_disk l -> around h l disk_fine -> around h l' disk_fine.
  Proof.
    apply around_view. intros host host' o o' Eh Eo (K & F). split; [unfold is_disk_central in *; rewrite Eh; exact K|]. revert F. eapply view_forall; [|exact Eo].
    intros p p' Ep. unfold is_disk_orbiting. now rewrite Ep.
  Qed.
  Lemma view_part {B C} (c : P -> B) (d : P -> C) (f : B -> C) l l' : (forall p, d p = f (c p)) -> map c l' = map c l -> map d l' = map d l.
  Proof. intros Hd E. rewrite !(map_ext _ _ Hd), <- !(map_map c f). now rewrite E. Qed.
  Lemma tidal_step dL acc u u' : reciprocal u -> tidal_effects dL acc u = Ok u' ->
    reciprocal u' /\ (acc = true -> e_tides (u_effects u) = true -> net_force tidal_acc (u_particles u') = vzero) /\
    (acc = true -> e_rf (u_effects u) = true -> net_force flattening_acc (u_particles u') = vzero) /\ same_rest u u'.
  Proof.
    intros Re E. pose proof (tidal_view (fun p => (p_mass p, p_gr p, p_disk p)) dL acc u u' ltac:(intros _ ? ?; reflexivity) ltac:(intros _ ? ?; reflexivity) E) as (V & Rs).
    unfold tidal_effects in E. set (e := u_effects u) in *. set (h := h_tides (u_hosts u)) in *.
    destruct (e_tides e || e_rf e) eqn:Eo.
    2:{ injection E as <-. apply orb_false_iff in Eo. destruct Eo as (Et & Er). split; [exact Re|]. split; [|split; [|apply same_rest_refl]]; intros _ X; unfold e in *; congruence. }
    cbn zeta in E. set (needed := _ || _) in E.
    destruct (with_host h _ _) as [l'|] eqn:Ew; [|discriminate E]. cbn [rbind] in E. injection E as <-.
    cbn [u_particles u_effects u_hosts set_pairs set_particles] in *.
    destruct Re as (M & L & T & Rf & G & D). fold e h in T, Rf, G, D.
    assert (Hh : exists host, nth_error (u_particles u) h = Some host).
    { destruct (e_tides e) eqn:Et; [destruct (T eq_refl) as (a & Ea & _); eauto|]. destruct (Rf Eo) as (a & Ea & _); eauto. }
    destruct Hh as (host & En). rewrite En in Ew.
    destruct (with_host_inv h _ _ _ host En Ew) as (r & Er & El).
    pose proof (others_length _ _ _ En) as Lo. assert (Lh : (h < length (u_particles u))%nat) by (apply nth_error_Some; congruence).
    assert (Mo : Forall (fun p : P => p_mass p <> 0) (others h (u_particles u))) by now apply others_incl.
    assert (Mh : p_mass host <> 0) by (rewrite Forall_forall in M; apply M; eapply nth_error_In; eauto).
    assert (Ll : length l' = length (u_particles u)) by (apply (f_equal (@length _)) in V; now rewrite !map_length in V).
    assert (Lr : length (snd r) = length (others h (u_particles u))).
    { destruct needed; [|injection Er as <-; reflexivity]. pose proof (tidal_host_frame (fun _ => tt) _ _ _ _ _ _ _ ltac:(intros _ ? ?; reflexivity) ltac:(intros _ ? ?; reflexivity) Er) as (_ & K). apply (f_equal (@length _)) in K. now rewrite !map_length in K. }
    assert (HT : e_tides e = true -> Forall (tides_still (kaula_host host)) (others h (u_particles u))).
    { intro X. destruct (T X) as (a & Ea & Fa). rewrite En in Ea. injection Ea as <-. exact Fa. }
    assert (HR : e_rf e = true -> Forall rf_still (others h (u_particles u))).
    { intro X. destruct (Rf X) as (a & Ea & Fa). exact Fa. }
    assert (N : (e_tides e = true -> (acc = true -> net_force tidal_acc (fst r :: snd r) = vzero) /\
        kaula_host (fst r) = kaula_host host /\ Forall (tides_still (kaula_host host)) (snd r)) /\
      (e_rf e = true -> (acc = true -> net_force flattening_acc (fst r :: snd r) = vzero) /\ Forall rf_still (snd r))).
    { destruct needed eqn:En'.
      - exact (tidal_net _ _ _ _ _ _ _ Mh Mo HT HR Er).
      - injection Er as <-. cbn [fst snd]. unfold needed in En'. apply orb_false_iff in En'. destruct En' as (_ & En').
        split; intro X; (split; [intro Y; rewrite X, Y, ?orb_true_r in En'; discriminate En'|auto]). }
    destruct N as (NT & NR). rewrite El, !net_reassemble.
    split; [|split; [|split]].
    - unfold reciprocal. cbn [u_particles u_effects u_hosts set_pairs set_particles]. cbn zeta. fold e h. rewrite <- El. split; [|split; [|split; [|split; [|split]]]].
      + eapply massive; [|exact M]. exact (view_part (fun p => (p_mass p, p_gr p, p_disk p)) p_mass (fun v => fst (fst v)) _ _ (fun _ => eq_refl) V).
      + now rewrite Ll.
      + intro X. rewrite El. apply around_set; [lia|]. destruct (NT X) as (_ & K & F). unfold tides_fine. rewrite K. exact F.
      + intro X. rewrite El. apply around_set; [lia|]. destruct (NR X) as (_ & F). exact F.
      + intro X. eapply gr_of_view; [|exact (G X)]. exact (view_part (fun p => (p_mass p, p_gr p, p_disk p)) p_gr (fun v => snd (fst v)) _ _ (fun _ => eq_refl) V).
      + intro X. eapply disk_of_view; [|exact (D X)]. exact (view_part (fun p => (p_mass p, p_gr p, p_disk p)) p_disk snd _ _ (fun _ => eq_refl) V).
    - intros A X. now apply (NT X).
    - intros A X. now apply (NR X).
    - exact Rs.
  Qed.

  (** the steps after the tides *)
  Lemma tides_of_view l l' h : map p_tides l' = map p_tides l -> around h l tides_fine -> around h l' tides_fine.
  Proof.
    apply around_view. intros host host' o o' Eh Eo. unfold tides_fine, kaula_host. rewrite Eh. apply view_forall with (2 := Eo). intros p p' Ep. now rewrite Ep.
  Qed.
  Lemma rf_of_view l l' h : map p_rf l' = map p_rf l -> around h l rf_fine -> around h l' rf_fine.
  Proof.
    apply around_view. intros host host' o o' Eh Eo. unfold rf_fine. apply view_forall with (2 := Eo). intros p p' Ep. now rewrite Ep.
  Qed.
  Definition part (p : P) := (p_mass p, p_tides p, p_rf p, p_gr p, p_disk p).
  Lemma gr_step h (l l' : list P) ig : Forall (fun p : P => p_mass p <> 0) l -> around h l gr_fine ->
    with_host h l (fun host o => Ok (gr_effects ig host o)) = Ok l' ->
    net_force relativistic_acc l' = vzero /\ around h l' gr_fine /\
    map (fun p => (p_mass p, p_tides p, p_rf p, p_disk p)) l' = map (fun p => (p_mass p, p_tides p, p_rf p, p_disk p)) l.
  Proof.
    intros M (host & En & K & F) Ew. pose proof Ew as V.
    apply (with_host_frame (fun p : P => (p_mass p, p_tides p, p_rf p, p_disk p))) in V.
    2:{ intros a o r X. injection X as <-. apply (k_gr_effects (fun p : P => (p_mass p, p_tides p, p_rf p, p_disk p))). intros g p. reflexivity. }
    destruct (with_host_inv _ _ _ _ _ En Ew) as (r & Er & El). injection Er as <-. unfold gr_effects in El. rewrite K in El.
    pose proof (others_length _ _ _ En) as Lo. assert (Lh : (h < length l)%nat) by (apply nth_error_Some; congruence).
    split; [|split; [|exact V]]; rewrite El.
    - rewrite net_reassemble. apply kidder_net.
      + rewrite Forall_forall in M; apply M; eapply nth_error_In; eauto.
      + eapply Forall_impl; [|exact F]. intros p [X|X] Y; [congruence|exact X].
    - apply around_set.
      + pose proof (k_kidder (fun _ : P => tt) (fun _ _ => eq_refl) host (others h l)) as (_ & Kl). apply (f_equal (@length _)) in Kl. rewrite !map_length in Kl. lia.
      + split; [exact K|]. now apply kidder_still.
  Qed.
  Lemma disk_step h (l l' : list P) t : Forall (fun p : P => p_mass p <> 0) l -> (2 <= length l)%nat -> around h l disk_fine ->
    with_host h l (fun host o => Ok (calculate_disk_acceleration t host o)) = Ok l' ->
    net_force disk_acc l' = vzero /\ around h l' disk_fine /\
    map (fun p => (p_mass p, p_tides p, p_rf p, p_gr p)) l' = map (fun p => (p_mass p, p_tides p, p_rf p, p_gr p)) l.
  Proof.
    intros M L2 (host & En & K & F) Ew. pose proof Ew as V.
    apply (with_host_frame (fun p : P => (p_mass p, p_tides p, p_rf p, p_gr p))) in V.
    2:{ intros a o r X. injection X as <-. apply (k_disk_acceleration (fun p : P => (p_mass p, p_tides p, p_rf p, p_gr p))). intros g p. reflexivity. }
    destruct (with_host_inv _ _ _ _ _ En Ew) as (r & Er & El). injection Er as <-.
    pose proof (others_length _ _ _ En) as Lo. assert (Lh : (h < length l)%nat) by (apply nth_error_Some; congruence).
    assert (Kd : exists d, disk_host host d) by (unfold is_disk_central in K; unfold disk_host; destruct (dk_effect (p_disk host)); try discriminate K; eauto).
    destruct Kd as (d & Kd). destruct (disk_net t host d (others h l) Kd) as (N & C & I).
    - rewrite Forall_forall in M; apply M; eapply nth_error_In; eauto.
    - intro X. rewrite X in Lo. cbn [length] in Lo. lia.
    - now apply others_incl.
    - eapply Forall_impl; [|exact F]. intros p [X|X] Y; [congruence|exact X].
    - split; [|split; [|exact V]]; rewrite El.
      + rewrite net_reassemble. exact N.
      + apply around_set.
        * pose proof (k_disk_acceleration (fun _ : P => tt) (fun _ _ => eq_refl) t host (others h l)) as (_ & Kl). apply (f_equal (@length _)) in Kl. rewrite !map_length in Kl. lia.
        * split; [exact C|]. eapply Forall_impl; [|exact I]. intros p X. destruct (is_disk_orbiting p) eqn:Ep; [now left|right; exact (X Ep)].
  Qed.

  Theorem effects_reciprocal t ev dL acc ig u u' : reciprocal u -> additional_effects t ev dL acc ig u = Ok u' -> reciprocal u' /\ (acc = true -> unforced u') /\ same_rest u u'.
  Proof.
    intro Re. unfold additional_effects. rewrite initialize_eq. destruct (init_list dL acc u) as [l0|] eqn:E1; [|intro X; discriminate X]. cbn [rbind].
    set (u1 := set_particles _ u). assert (R1 : same_rest u u1) by apply rest_set.
    assert (C1 : Forall2 calm (u_particles u) (u_particles u1)).
    { eapply calms_trans; [exact (c_init_list _ _ _ _ E1)|]. unfold u1. cbn [u_particles set_particles]. apply (map_view_rel whole); [apply calm_whole|]. destruct acc; [|reflexivity]. apply map_same. reflexivity. }
    destruct (spin_and_evolving t ev u1) as [u2|] eqn:E2; [|intro X; discriminate X]. cbn [rbind].
    pose proof (spin_view whole t ev u1 u2 ltac:(intros ? ? ?; reflexivity) ltac:(intros _ ? ? ? ? ?; split; reflexivity) E2) as (V2 & R2').
    assert (R2 : same_rest u u2) by (exact (same_rest_trans _ _ _ R1 R2')).
    set (u3 := if dL && _ then _ else u2).
    assert (R3 : same_rest u u3) by (unfold u3; destruct (dL && _); [|exact R2]; eapply same_rest_trans; [exact R2|]; apply rest_set).
    assert (C3 : Forall2 calm (u_particles u) (u_particles u3)).
    { eapply calms_trans; [exact C1|]. apply (map_view_rel whole); [apply calm_whole|]. rewrite <- V2. unfold u3.
      destruct (dL && _); [|reflexivity]. cbn [u_particles set_particles]. apply k_wind_factor. intros w p. reflexivity. }
    assert (Re3 : reciprocal u3) by (eapply reciprocal_calm; [exact C3|apply R3|apply R3|exact Re]).
    destruct (tidal_effects dL acc u3) as [u4|] eqn:E4; [|intro X; discriminate X]. cbn [rbind].
    destruct (tidal_step _ _ _ _ Re3 E4) as (Re4 & NT & NR & R4').
    assert (R4 : same_rest u u4) by (exact (same_rest_trans _ _ _ R3 R4')).
    set (e := u_effects u) in *. assert (Ee2 : u_effects u2 = e) by apply R2. assert (Eh2 : u_hosts u2 = u_hosts u) by apply R2. rewrite Ee2, Eh2.
    assert (Ee3 : u_effects u3 = e) by apply R3. rewrite Ee3 in NT, NR.
    destruct Re4 as (M4 & L4 & T4 & F4 & G4 & D4). assert (Ee4 : u_effects u4 = e) by apply R4. assert (Eh4 : u_hosts u4 = u_hosts u) by apply R4.
    rewrite Ee4, Eh4 in T4, F4, G4, D4.
    destruct (if acc && e_gr e then _ else _) as [l5|] eqn:E5; [|intro X; discriminate X]. cbn [rbind].
    assert (S5 : (e_gr e = true -> (acc = true -> net_force relativistic_acc l5 = vzero) /\ around (h_gr (u_hosts u)) l5 gr_fine) /\
      map (fun p => (p_mass p, p_tides p, p_rf p, p_disk p)) l5 = map (fun p => (p_mass p, p_tides p, p_rf p, p_disk p)) (u_particles u4)).
    { destruct acc; cbn [andb] in E5; [|injection E5 as <-; split; [intro X; split; [intro Y; discriminate Y|auto]|reflexivity]].
      destruct (e_gr e); [|injection E5 as <-; split; [intro X; discriminate X|reflexivity]]. destruct (gr_step _ _ _ _ M4 (G4 eq_refl) E5) as (A & B & C). auto. }
    destruct S5 as (NG & V5).
    assert (M5 : Forall (fun p : P => p_mass p <> 0) l5) by (eapply massive; [|exact M4]; exact (view_part (fun p => (p_mass p, p_tides p, p_rf p, p_disk p)) p_mass (fun v => fst (fst (fst v))) _ _ (fun _ => eq_refl) V5)).
    assert (L5 : (2 <= length l5)%nat) by (apply (f_equal (@length _)) in V5; rewrite !map_length in V5; now rewrite V5).
    destruct (if acc && e_disk e then _ else _) as [l6|] eqn:E6; [|intro X; discriminate X]. cbn [rbind].
    assert (S6 : (e_disk e = true -> (acc = true -> net_force disk_acc l6 = vzero) /\ around (h_disk (u_hosts u)) l6 disk_fine) /\
      map (fun p => (p_mass p, p_tides p, p_rf p, p_gr p)) l6 = map (fun p => (p_mass p, p_tides p, p_rf p, p_gr p)) l5).
    { assert (D5 : e_disk e = true -> around (h_disk (u_hosts u)) l5 disk_fine) by (intro X; eapply disk_of_view; [|exact (D4 X)]; exact (view_part (fun p => (p_mass p, p_tides p, p_rf p, p_disk p)) p_disk snd _ _ (fun _ => eq_refl) V5)).
      destruct acc; cbn [andb] in E6; [|injection E6 as <-; split; [intro X; split; [intro Y; discriminate Y|auto]|reflexivity]].
      destruct (e_disk e); [|injection E6 as <-; split; [intro X; discriminate X|reflexivity]].
      destruct (disk_step _ _ _ _ M5 L5 (D5 eq_refl) E6) as (A & B & C). auto. }
    destruct S6 as (ND & V6). intro X. injection X as <-.
    set (l7 := if acc then _ else _).
    assert (V7 : map part l7 = map part l6).
    { assert (Vs : map part (if dL && (e_tides e || e_rf e || (e_gr e && gr_impl_eqb (u_gr u4) Kidder1995) || e_wind e) then map sum_dL l6 else l6) = map part l6).
      { match goal with |- map part (if ?b then _ else _) = _ => destruct b end; [apply map_same; reflexivity|reflexivity]. }
      rewrite <- Vs. unfold l7. destruct acc; [|reflexivity]. apply map_same. intro p. unfold add_corrections, add_if. destruct (e_gr e), (e_rf e), (e_disk e), (e_tides e); reflexivity. }
    assert (V6m : map (fun p => (p_mass p, p_tides p, p_rf p)) l6 = map (fun p => (p_mass p, p_tides p, p_rf p)) (u_particles u4)).
    { transitivity (map (fun p : P => (p_mass p, p_tides p, p_rf p)) l5).
      - exact (view_part (fun p => (p_mass p, p_tides p, p_rf p, p_gr p)) _ fst _ _ (fun _ => eq_refl) V6).
      - exact (view_part (fun p => (p_mass p, p_tides p, p_rf p, p_disk p)) _ fst _ _ (fun _ => eq_refl) V5). }
    pose proof (view_part part (fun p => (p_mass p, p_tides p, p_rf p)) (fun v => fst (fst v)) _ _ (fun _ => eq_refl) V7) as V7m. rewrite V6m in V7m.
    pose proof (view_part part (fun p => (p_mass p, p_gr p)) (fun v => (fst (fst (fst (fst v))), snd (fst v))) _ _ (fun _ => eq_refl) V7) as V7g.
    rewrite (view_part (fun p => (p_mass p, p_tides p, p_rf p, p_gr p)) (fun p => (p_mass p, p_gr p)) (fun v => (fst (fst (fst v)), snd v)) _ _ (fun _ => eq_refl) V6) in V7g.
    pose proof (view_part part (fun p => (p_mass p, p_disk p)) (fun v => (fst (fst (fst (fst v))), snd v)) _ _ (fun _ => eq_refl) V7) as V7d.
    cbn [u_particles u_effects u_hosts set_particles]. split; [|split].
    - unfold reciprocal. cbn [u_particles u_effects u_hosts set_particles]. cbn zeta. rewrite Ee4, Eh4. split; [|split; [|split; [|split; [|split]]]].
      + eapply massive; [|exact M4]. exact (view_part (fun p => (p_mass p, p_tides p, p_rf p)) p_mass (fun v => fst (fst v)) _ _ (fun _ => eq_refl) V7m).
      + apply (f_equal (@length _)) in V7m. rewrite !map_length in V7m. now rewrite V7m.
      + intro X. eapply tides_of_view; [|exact (T4 X)]. exact (view_part (fun p => (p_mass p, p_tides p, p_rf p)) p_tides (fun v => snd (fst v)) _ _ (fun _ => eq_refl) V7m).
      + intro X. eapply rf_of_view; [|exact (F4 X)]. exact (view_part (fun p => (p_mass p, p_tides p, p_rf p)) p_rf snd _ _ (fun _ => eq_refl) V7m).
      + intro X. destruct (NG X) as (_ & A). eapply gr_of_view; [|exact A]. exact (view_part (fun p => (p_mass p, p_gr p)) p_gr snd _ _ (fun _ => eq_refl) V7g).
      + intro X. destruct (ND X) as (_ & A). eapply disk_of_view; [|exact A]. exact (view_part (fun p => (p_mass p, p_disk p)) p_disk snd _ _ (fun _ => eq_refl) V7d).
    - intro Ea. unfold unforced. cbn [u_particles u_effects u_hosts set_particles]. cbn zeta. rewrite Ee4. split; [|split; [|split]]; intro X.
      + rewrite <- (NT Ea X). apply net_view. exact (view_part (fun p => (p_mass p, p_tides p, p_rf p)) _ (fun v => (fst (fst v), t_acc (snd (fst v)))) _ _ (fun _ => eq_refl) V7m).
      + rewrite <- (NR Ea X). apply net_view. exact (view_part (fun p => (p_mass p, p_tides p, p_rf p)) _ (fun v => (fst (fst v), rf_acc (snd v))) _ _ (fun _ => eq_refl) V7m).
      + destruct (NG X) as (A & _). rewrite <- (A Ea). apply net_view. exact (view_part (fun p => (p_mass p, p_gr p)) _ (fun v => (fst v, gr_acc (snd v))) _ _ (fun _ => eq_refl) V7g).
      + destruct (ND X) as (A & _). rewrite <- (A Ea). apply net_view. exact (view_part (fun p => (p_mass p, p_disk p)) _ (fun v => (fst v, dk_acc (snd v))) _ _ (fun _ => eq_refl) V7d).
    - eapply same_rest_trans; [exact R4|apply rest_set].
  Qed.
End Effects.
