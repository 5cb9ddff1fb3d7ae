(** * A run with effects that act between bodies (C71) *)
From Coq Require Import Reals Lra Psatz Lia List Bool Arith.
From Verif Require Import Base.Num Base.Result Base.Trans Base.Vec Model.Constants Model.Particle Model.Host Model.Wind Model.Creep
  Model.Tides Model.Flattening Model.Relativity Model.Disk Model.Universe Model.LeapFrog
  Spec.EffectsSpec Spec.UniverseSpec Spec.ReciprocitySpec
  Proofs.NumLemmas Proofs.VecLemmas Proofs.GravityProofs Proofs.LeapFrogProofs Proofs.UniverseProofs Proofs.FrameProofs Proofs.EffectSums Proofs.UniverseExamples Proofs.Reciprocity.
Import ListNotations.
Open Scope R_scope.
Local Notation P := (particle R).

(** ** Evaluations without creep and without Kaula's series never fail *)
Section Total.
  Context `{Trans R} `{Floor R} `{Fuel}.
  Definition ctl (p : P) : bool := match t_effect (p_tides p) with TidesCentral (ConstantTimeLag _) | TidesOrbiting (ConstantTimeLag _) | TidesDisabled => true | _ => false end.
  Definition obl (p : P) : bool := match rf_effect (p_rf p) with RfCentral (OblateSpheroid _) | RfOrbiting (OblateSpheroid _) | RfDisabled => true | _ => false end.
  Definition kind (p : P) := (ctl p, obl p).
  Definition simple (p : P) : Prop := kind p = (true, true).
  Lemma simple_kept l l' : map kind l' = map kind l -> Forall simple l -> Forall simple l'.
  Proof. apply view_forall. intros p p'. unfold simple. congruence. Qed.
  Ltac same_kind := cbn [fst snd]; repeat match goal with |- context [if ?b then _ else _] => destruct b end; reflexivity.
  Lemma x_ctl_orthogonal m host l : map kind (ctl_orthogonal_components m host l) = map kind l.
  Proof. unfold ctl_orthogonal_components. rewrite !map_same; auto; intro p; unfold ctl_orthogonal; destruct (orbiting_ctl _); same_kind. Qed.
  Lemma x_ctl_radial m host l : map kind (ctl_radial_components m host l) = map kind l.
  Proof. unfold ctl_radial_components. apply map_same. intro p. unfold ctl_radial. destruct (orbiting_ctl _); same_kind. Qed.
  Lemma x_oblate_orthogonal host l : map kind (oblate_orthogonal_components host l) = map kind l.
  Proof.
    unfold oblate_orthogonal_components. rewrite !map_same; auto; intro p; unfold oblate_orthogonal;
      (destruct (rf_effect (p_rf p)) as [m|m|]; [|destruct m|]); same_kind.
  Qed.
  Lemma x_oblate_radial host l : map kind (oblate_radial_components host l) = map kind l.
  Proof. unfold oblate_radial_components. apply map_same. intro p. unfold oblate_radial. same_kind. Qed.
  Lemma rmap_id (f : P -> res P) l : Forall (fun p => f p = Ok p) l -> rmap f l = Ok l.
  Proof. intro F. induction F; cbn [rmap]; [reflexivity|]. rewrite H2. cbn [rbind]. rewrite IHF. reflexivity. Qed.
  Lemma x_creep host l : Forall simple l -> creep_shapes host l = Ok l /\ rf_creep_shapes host l = Ok l.
  Proof.
    intro F. split; apply rmap_id; (eapply Forall_impl; [|exact F]); intros p; unfold simple, kind, ctl, obl, creep_update, rf_creep_update; intro X; injection X as X Y; cbn zeta.
    - replace (match t_effect (p_tides p) with TidesCentral (CreepCoplanar v) | TidesOrbiting (CreepCoplanar v) => v | _ => n0 end) with (n0 : R).
      + num_simpl. now rewrite (proj2 (Reqb_true 0 0)).
      + destruct (t_effect (p_tides p)) as [[]|[]|]; try discriminate X; reflexivity.
    - replace (match rf_effect (p_rf p) with RfCentral (CreepCoplanarRf v) | RfOrbiting (CreepCoplanarRf v) => v | _ => n0 end) with (n0 : R).
      + num_simpl. now rewrite (proj2 (Reqb_true 0 0)).
      + destruct (rf_effect (p_rf p)) as [[]|[]|]; try discriminate Y; reflexivity.
  Qed.
  Lemma x_tides_acc host l : simple host -> Forall simple l -> exists r, tides_acceleration host l = Ok r /\ kind (fst r) = kind host /\ map kind (snd r) = map kind l.
  Proof.
    intros Sh F. unfold tides_acceleration.
    assert (A : forall t s, exists t' s', rfold tides_acceleration_step l (t, host, s) = Ok (t', host, s') /\ map kind s' = map kind s ++ map kind l).
    { clear Sh. induction F as [|p l X F IH]; intros t s; cbn [rfold].
      - exists t, s. now rewrite app_nil_r.
      - unfold tides_acceleration_step at 1. unfold simple, kind, ctl in X. injection X as X _.
        destruct (t_effect (p_tides p)) as [m|m|] eqn:Et; cbn [rbind].
        1,3: destruct (IH t (s ++ [p])) as (t' & s' & E & M); exists t', s'; split; [exact E|]; rewrite M, map_app, <- app_assoc; reflexivity.
        destruct m; try discriminate X. cbn [model_force rbind].
        match goal with |- context [rfold _ l (?a, host, s ++ [?b])] => destruct (IH a (s ++ [b])) as (t' & s' & E & M) end.
        exists t', s'. split; [exact E|]. rewrite M, map_app, <- app_assoc. reflexivity. }
    destruct (A vzero []) as (t' & s' & E & M). rewrite E. cbn [rbind]. cbn [map app] in M.
    unfold simple, kind, ctl in Sh. injection Sh as X _.
    set (h1 := on_tides _ host). assert (Eh : t_effect (p_tides h1) = t_effect (p_tides host)) by reflexivity.
    exists (h1, s'). rewrite Eh. split; [destruct (t_effect (p_tides host)) as [[]| |]; try discriminate X; reflexivity|]. split; [reflexivity|exact M].
  Qed.
  Lemma x_rf_acc host l : kind (fst (rf_acceleration host l)) = kind host /\ map kind (snd (rf_acceleration host l)) = map kind l.
  Proof.
    unfold rf_acceleration. cbn [fst snd]. split; [reflexivity|]. apply map_same. intro p. destruct (rf_force_of host p); reflexivity.
  Qed.
  Lemma rmap_total (f : P -> res P) l : (forall p, simple p -> exists p', f p = Ok p' /\ kind p' = kind p) -> Forall simple l -> exists l', rmap f l = Ok l' /\ map kind l' = map kind l.
  Proof.
    intros Hf F. induction F as [|p l X F IH]; cbn [rmap]; [eauto|]. destruct (Hf p X) as (p' & E & K). destruct IH as (l' & E' & K').
    rewrite E. cbn [rbind]. rewrite E'. cbn [rbind]. eexists. split; [reflexivity|]. cbn [map]. now rewrite K, K'.
  Qed.
  Lemma x_tides_dL host l : simple host -> Forall simple l -> exists r, tides_dangular_momentum_dt host l = Ok r /\ kind (fst r) = kind host /\ map kind (snd r) = map kind l.
  Proof.
    intros Sh F. unfold tides_dangular_momentum_dt. destruct (rmap_total (tides_planet_dL host) l) as (l' & E & K); [|exact F|].
    { intros p X. unfold tides_planet_dL. unfold simple, kind, ctl in X. injection X as X _. destruct (t_effect (p_tides p)) as [m|m|] eqn:Et; eauto.
      destruct m; try discriminate X. cbn [model_torque rbind]. eauto. }
    rewrite E. cbn [rbind]. assert (S : forall a, exists s, rfold (tides_host_dL_step host) l' a = Ok s).
    { clear - Sh. induction l' as [|p l IH]; intro a; cbn [rfold]; [eauto|]. unfold tides_host_dL_step at 1. unfold simple, kind, ctl in Sh. injection Sh as X _.
      destruct (t_effect (p_tides host)) as [m|m|]; cbn [rbind]; [|apply IH|apply IH]. destruct m; try discriminate X. cbn [model_torque rbind]. apply IH. }
    destruct (S vzero) as (s & Es). rewrite Es. cbn [rbind]. eexists. split; [reflexivity|]. split; [reflexivity|exact K].
  Qed.
  Lemma x_rf_dL host l : simple host -> Forall simple l -> exists r, rf_dangular_momentum_dt host l = Ok r /\ kind (fst r) = kind host /\ map kind (snd r) = map kind l.
  Proof.
    intros Sh F. unfold rf_dangular_momentum_dt. destruct (rmap_total (rf_planet_dL host) l) as (l' & E & K); [|exact F|].
    { intros p X. unfold rf_planet_dL. unfold simple, kind, obl in X. injection X as _ X. destruct (rf_effect (p_rf p)) as [m|m|] eqn:Et; eauto.
      destruct m; try discriminate X. cbn [rf_model_torque rbind]. eauto. }
    rewrite E. cbn [rbind]. assert (S : forall a, exists s, rfold (rf_host_dL_step host) l' a = Ok s).
    { clear - Sh. induction l' as [|p l IH]; intro a; cbn [rfold]; [eauto|]. unfold rf_host_dL_step at 1. unfold simple, kind, obl in Sh. injection Sh as _ X.
      destruct (rf_effect (p_rf host)) as [m|m|]; cbn [rbind]; [|apply IH|apply IH]. destruct m; try discriminate X. cbn [rf_model_torque rbind]. apply IH. }
    destruct (S vzero) as (s & Es). rewrite Es. cbn [rbind]. eexists. split; [reflexivity|]. split; [reflexivity|exact K].
  Qed.
  Lemma x_host e dL acc m host o : simple host -> Forall simple o ->
    exists r, tidal_host_effects e dL acc m host o = Ok r /\ kind (fst r) = kind host /\ map kind (snd r) = map kind o.
  Proof.
    intros Sh F. unfold tidal_host_effects.
    assert (A1 : exists o1, (if e_tides e then creep_shapes host (ctl_orthogonal_components m host o) else Ok o) = Ok o1 /\ map kind o1 = map kind o).
    { destruct (e_tides e); [|eauto]. exists (ctl_orthogonal_components m host o). split; [|apply x_ctl_orthogonal]. apply x_creep. eapply simple_kept; [apply x_ctl_orthogonal|exact F]. }
    destruct A1 as (o1 & E1 & K1). rewrite E1. cbn [rbind]. pose proof (simple_kept _ _ K1 F) as F1.
    assert (A2 : exists o2, (if e_rf e then rf_creep_shapes host (oblate_orthogonal_components host o1) else Ok o1) = Ok o2 /\ map kind o2 = map kind o1).
    { destruct (e_rf e); [|eauto]. exists (oblate_orthogonal_components host o1). split; [|apply x_oblate_orthogonal]. apply x_creep. eapply simple_kept; [apply x_oblate_orthogonal|exact F1]. }
    destruct A2 as (o2 & E2 & K2). rewrite E2. cbn [rbind]. pose proof (simple_kept _ _ K2 F1) as F2. rewrite K1 in K2.
    match goal with |- context [rbind ?w _] => assert (A3 : exists s, w = Ok s /\ kind (fst s) = kind host /\ map kind (snd s) = map kind o2) end.
    { destruct acc; [|exists (host, o2); auto].
      assert (A4 : exists s, (if e_tides e then tides_acceleration host (ctl_radial_components m host o2) else Ok (host, o2)) = Ok s /\ kind (fst s) = kind host /\ map kind (snd s) = map kind o2).
      { destruct (e_tides e); [|exists (host, o2); auto]. destruct (x_tides_acc host (ctl_radial_components m host o2) Sh) as (r & E & A & B).
        - eapply simple_kept; [apply x_ctl_radial|exact F2].
        - exists r. rewrite x_ctl_radial in B. auto. }
      destruct A4 as (s & E & A & B). rewrite E. cbn [rbind]. eexists. split; [reflexivity|]. destruct (e_rf e); [|auto].
      destruct (x_rf_acc (fst s) (oblate_radial_components (fst s) (snd s))) as (X & Y). rewrite X, Y, x_oblate_radial. auto. }
    destruct A3 as (s & E3 & A & B). rewrite E3. cbn [rbind]. rewrite K2 in B. clear E3.
    destruct dL; [|exists s; auto].
    assert (Ss : simple (fst s)) by (unfold simple in *; congruence). pose proof (simple_kept _ _ B F) as Fs.
    assert (A5 : exists r, (if e_tides e then tides_dangular_momentum_dt (fst s) (snd s) else Ok s) = Ok r /\ kind (fst r) = kind host /\ map kind (snd r) = map kind o).
    { destruct (e_tides e); [|exists s; auto]. destruct (x_tides_dL _ _ Ss Fs) as (r & X & Y & Z). exists r. rewrite Y, Z. auto. }
    destruct A5 as (r & E5 & A5 & B5). rewrite E5. cbn [rbind]. destruct (e_rf e); [|exists r; auto].
    assert (Sr : simple (fst r)) by (unfold simple in *; congruence). pose proof (simple_kept _ _ B5 F) as Fr.
    destruct (x_rf_dL _ _ Sr Fr) as (r' & X & Y & Z). exists r'. rewrite Y, Z. auto.
  Qed.
  Lemma x_with_host h (l : list P) f : (h <= length l)%nat -> Forall simple l ->
    (forall host o, simple host -> Forall simple o -> exists r, f host o = Ok r /\ kind (fst r) = kind host /\ map kind (snd r) = map kind o) ->
    exists l', with_host h l f = Ok l' /\ map kind l' = map kind l.
  Proof.
    intros Hh F Hf. cut (exists l', with_host h l f = Ok l').
    { intros (l' & E). exists l'. split; [exact E|]. unfold with_host in E. rewrite (proj2 (Nat.leb_le _ _) Hh) in E.
      destruct (nth_error l h) as [host|] eqn:En; [|injection E as <-; reflexivity].
      destruct (Hf host (others h l)) as (r & Er & A & B).
      - rewrite Forall_forall in F. apply F. eapply nth_error_In; eauto.
      - now apply others_incl.
      - rewrite Er in E. cbn [rbind] in E. injection E as <-. rewrite map_reassemble, A, B, map_others. apply reassemble_others. now rewrite nth_error_map, En. }
    unfold with_host. rewrite (proj2 (Nat.leb_le _ _) Hh). destruct (nth_error l h) as [host|] eqn:En; [|eauto].
    destruct (Hf host (others h l)) as (r & Er & _).
    - rewrite Forall_forall in F. apply F. eapply nth_error_In; eauto.
    - now apply others_incl.
    - rewrite Er. cbn [rbind]. eauto.
  Qed.
  Lemma x_calm l l' : Forall2 calm l l' -> map kind l' = map kind l.
  Proof.
    intro C. induction C as [|p p' l l' X C IH]; [reflexivity|]. cbn [map]. rewrite IH. f_equal. destruct X as (_ & _ & _ & _ & _ & T & U). unfold kind, ctl, obl. now rewrite T, U.
  Qed.
  Lemma x_init_list dL acc (u : universe R) : (h_most_massive (u_hosts u) <= length (u_particles u))%nat -> m_all (u_hosts u) = true ->
    exists l, init_list dL acc u = Ok l /\ map kind l = map kind (u_particles u).
  Proof.
    intros Hh Ha. cut (exists l, init_list dL acc u = Ok l).
    { intros (l & E). exists l. split; [exact E|]. apply c_init_list in E. now apply x_calm. }
    unfold init_list. cbn zeta. destruct (_ || _); [|eauto]. rewrite Ha. cbn [negb].
    set (l0 := if dL && e_wind (u_effects u) then wind_initialize (u_particles u) else u_particles u).
    match goal with |- context [with_host _ l0 (fun host o => Ok (@?g host o))] => destruct (with_host_ok (h_most_massive (u_hosts u)) l0 g) as (l' & E') end.
    { unfold l0. destruct (dL && _); [|exact Hh]. unfold wind_initialize. rewrite map_length. exact Hh. }
    cbv beta in E'. rewrite E'. cbn [rbind]. eauto.
  Qed.
  (** only a vanishing inertia can stop an evaluation *)
  Lemma simple_eval_ok t ev dL acc ig (u : universe R) : e_evolution (u_effects u) = false -> m_all (u_hosts u) = true ->
    (h_most_massive (u_hosts u) <= length (u_particles u))%nat -> (h_tides (u_hosts u) <= length (u_particles u))%nat ->
    (h_gr (u_hosts u) <= length (u_particles u))%nat -> (h_disk (u_hosts u) <= length (u_particles u))%nat ->
    Forall simple (u_particles u) -> forallb kinert (map core (u_particles u)) = true ->
    exists u', additional_effects t ev dL acc ig u = Ok u' /\ map kind (u_particles u') = map kind (u_particles u).
  Proof.
    intros Hv Ha Hm Ht Hg Hd F Hi. unfold additional_effects. rewrite initialize_eq. destruct (x_init_list dL acc u Hm Ha) as (l0 & E0 & K0). rewrite E0. cbn [rbind].
    assert (C0 : map core l0 = map core (u_particles u)).
    { apply (init_list_frame core) in E0; [exact E0|]. unfold blind_effects, blind_tides, blind_rf, blind_gr, blind_disk, blind_wind; auto 12. }
    set (l1 := if acc then _ else _).
    assert (C1 : map core l1 = map core (u_particles u)) by (rewrite <- C0; unfold l1; destruct acc; [|reflexivity]; apply map_same; reflexivity).
    assert (K1 : map kind l1 = map kind (u_particles u)) by (rewrite <- K0; unfold l1; destruct acc; [|reflexivity]; apply map_same; reflexivity).
    clearbody l1. unfold spin_and_evolving at 1. cbn [u_effects set_particles u_particles u_evolvers]. rewrite Hv, andb_false_r. cbn [rbind fst snd].
    destruct (refresh_ok l1) as (l2 & E2); [now rewrite C1|]. rewrite E2. cbn [rbind fst snd].
    assert (K2 : map kind l2 = map kind (u_particles u)).
    { rewrite <- K1. revert E2. apply rmapi_same. intros i a a'. unfold refresh_spin. destruct (neqb _ _); [intro X; discriminate X|]. intro X. injection X as <-. reflexivity. }
    cbn [u_effects set_particles set_evolvers u_particles u_evolvers u_hosts].
    match goal with |- context [tidal_effects dL acc ?w] => set (u3 := w) end.
    assert (P3 : map kind (u_particles u3) = map kind (u_particles u) /\ u_effects u3 = u_effects u /\ u_hosts u3 = u_hosts u).
    { unfold u3. destruct (dL && _); cbn [u_effects set_particles set_evolvers u_particles u_evolvers u_hosts]; [|auto]. split; [|auto].
      rewrite <- K2. apply k_wind_factor. intros w p. reflexivity. }
    clearbody u3. destruct P3 as (K3 & He3 & Hh3).
    assert (L3 : length (u_particles u3) = length (u_particles u)) by (apply (f_equal (@length _)) in K3; now rewrite !map_length in K3).
    assert (A4 : exists u4, tidal_effects dL acc u3 = Ok u4 /\ map kind (u_particles u4) = map kind (u_particles u3)).
    { unfold tidal_effects. rewrite He3, Hh3. destruct (e_tides _ || e_rf _); [|eauto]. cbn zeta.
      match goal with |- context [with_host ?h ?l ?f] => destruct (x_with_host h l f) as (l' & E & K) end.
      - rewrite L3. exact Ht.
      - eapply simple_kept; [exact K3|exact F].
      - intros host o Sh So. match goal with |- context [if ?b then _ else _] => destruct b end; [now apply x_host|exists (host, o); auto].
      - rewrite E. cbn [rbind]. eexists. split; [reflexivity|exact K]. }
    destruct A4 as (u4 & E4 & K4). rewrite E4. cbn [rbind]. rewrite K3 in K4.
    assert (L4 : length (u_particles u4) = length (u_particles u)) by (apply (f_equal (@length _)) in K4; now rewrite !map_length in K4).
    match goal with |- context [rbind ?w _] => assert (A5 : exists l5, w = Ok l5 /\ map kind l5 = map kind (u_particles u)) end.
    { destruct (acc && e_gr _); [|eauto]. match goal with |- context [with_host ?h ?l (fun host o => Ok (@?g host o))] => destruct (with_host_ok h l g) as (l' & E) end; [rewrite L4; exact Hg|].
      cbv beta in E. rewrite E. exists l'. split; [reflexivity|]. rewrite <- K4. eapply (with_host_frame' kind); [|exact E]. intros host o r X. injection X as <-. apply (k_gr_effects kind). intros g p. reflexivity. }
    destruct A5 as (l5 & E5 & K5). rewrite E5. cbn [rbind]. clear E5.
    assert (L5 : length l5 = length (u_particles u)) by (apply (f_equal (@length _)) in K5; now rewrite !map_length in K5).
    match goal with |- context [rbind ?w _] => assert (A6 : exists l6, w = Ok l6 /\ map kind l6 = map kind (u_particles u)) end.
    { destruct (acc && e_disk _); [|eauto]. match goal with |- context [with_host ?h ?l (fun host o => Ok (@?g host o))] => destruct (with_host_ok h l g) as (l' & E) end; [rewrite L5; exact Hd|].
      cbv beta in E. rewrite E. exists l'. split; [reflexivity|]. rewrite <- K5. eapply (with_host_frame' kind); [|exact E]. intros host o r X. injection X as <-. apply (k_disk_acceleration kind). intros g p. reflexivity. }
    destruct A6 as (l6 & E6 & K6). rewrite E6. cbn [rbind]. clear E6. eexists. split; [reflexivity|]. cbn [u_particles set_particles].
    match goal with |- context [if dL && ?b then map sum_dL l6 else l6] => assert (K7 : map kind (if dL && b then map sum_dL l6 else l6) = map kind l6) by (destruct (dL && b); [apply map_same; reflexivity|reflexivity]) end.
    rewrite <- K6, <- K7. destruct acc; [|reflexivity]. apply map_same. intro p. unfold add_corrections, add_if.
    destruct (e_gr _), (e_rf _), (e_disk _), (e_tides _); reflexivity.
  Qed.
End Total.

(** ** A star and a planet with tides, flattening, a disk and relativity *)
Definition full_effects : effects := Effects true true true true false false.
Definition star : P :=
  set_p_disk (new_disk (DiskCentral (DiskProps (1/10) 10 1000 (1/100) (1/100) (24/10))))
    (set_p_gr (new_relativity (GrCentral Kidder1995)) (set_p_rf (new_flattening (RfCentral (OblateSpheroid (3/10))))
      (set_p_tides (new_tides (TidesCentral (ConstantTimeLag (CtlParams 1 1 (3/10))))) sun))).
Definition planet : P :=
  set_p_disk (new_disk DiskOrbiting) (set_p_gr (new_relativity GrOrbiting) (set_p_rf (new_flattening (RfOrbiting (OblateSpheroid (3/10))))
    (set_p_tides (new_tides (TidesOrbiting (ConstantTimeLag (CtlParams 1 1 (3/10))))) earth))).
Definition full_u : universe R :=
  Universe 0 1 [at_ (Vec (-1) 0 0) (Vec 0 (-1/100) 0) star; at_ (Vec 9 0 0) (Vec 0 (9/100) 0) planet] [] [] full_effects Kidder1995
    (Hosts 0 0 0 0 0 true true true true true) [] [[0; 0]; [0; 0]].
Section Run.
  Context `{Trans R} `{Floor R} `{Fuel}.
  Lemma full_square : roche_square full_u.
  Proof. split; [reflexivity|]. repeat constructor. Qed.
  Lemma full_reciprocal : reciprocal full_u.
  Proof.
    split; [repeat constructor; cbn; lra|]. split; [cbn; lia|].
    split; [|split; [|split]]; intros _; eexists; (split; [reflexivity|]).
    - repeat constructor.
    - repeat constructor.
    - split; [reflexivity|]. repeat constructor.
    - split; [reflexivity|]. repeat constructor.
  Qed.
  Lemma full_core : map core (u_particles full_u) = map core (u_particles (pair_u no_effects)).
  Proof. reflexivity. Qed.
  Lemma full_simple : Forall simple (u_particles full_u).
  Proof. repeat constructor. Qed.
  Definition alike (u : universe R) : Prop :=
    u_effects u = full_effects /\ u_hosts u = u_hosts full_u /\ u_roche u = u_roche full_u /\ length (u_particles u) = 2%nat /\ Forall simple (u_particles u).
  Lemma alike_eval t ev dL acc ig u : alike u -> forallb kinert (map core (u_particles u)) = true ->
    exists u', additional_effects t ev dL acc ig u = Ok u' /\ alike u' /\ map core (u_particles u') = map core (u_particles u).
  Proof.
    intros (He & Hh & Hr & L & F) Hi.
    destruct (simple_eval_ok t ev dL acc ig u) as (u' & E & K); rewrite ?He, ?Hh, ?L; try reflexivity; try (cbn; lia); auto.
    exists u'. split; [exact E|].
    assert (Hb : blind (u_effects u) core) by (unfold blind, blind_effects, blind_tides, blind_rf, blind_gr, blind_disk, blind_wind, blind_spin, blind_evolution; rewrite He; repeat split; intros; try reflexivity; discriminate).
    pose proof (evaluation_frame core t ev dL acc ig u u' Hb ltac:(intros ? ?; reflexivity) ltac:(intros ? ?; reflexivity) E) as (C & B & D & _ & G & _).
    split; [|exact C]. split; [congruence|]. split; [congruence|]. split; [congruence|]. split; [|now apply (simple_kept (u_particles u))].
    apply (f_equal (@length _)) in C. rewrite !map_length in C. congruence.
  Qed.
  Lemma alike_i2h u u' : alike u -> inertial_to_heliocentric u = Ok u' -> alike u'.
  Proof.
    intros (He & Hh & Hr & L & F) E. pose proof (i2h_view kind u u' (fun _ => eq_refl) (fun _ _ => eq_refl) E) as K. destruct (i2h_rest _ _ E) as (A & _ & B & C).
    split; [congruence|]. split; [congruence|]. split; [congruence|]. split; [|now apply (simple_kept (u_particles u))].
    apply (f_equal (@length _)) in K. rewrite !map_length in K. congruence.
  Qed.
  Lemma full_run : exists u', lf_steps 1 0 1 (1 / 2) full_u = Ok u'.
  Proof.
    cbn [lf_steps]. cut (exists u', lf_step 0 1 (1 / 2) full_u = Ok u'); [intros (u' & ->); cbn [rbind]; eauto|].
    unfold lf_step. set (u := full_u).
    assert (W0 : alike u) by (repeat (split; [reflexivity|]); exact full_simple).
    destruct (i2h_ok u) as (u1 & E1); [unfold hosted, u; cbn; lia|]. rewrite E1. cbn [rbind]. pose proof (alike_i2h _ _ W0 E1) as W1.
    destruct (i2h_frame _ _ E1) as (_ & C1 & _).
    destruct (alike_eval 0 true true false IgnoreNone u1 W1) as (u2 & E2 & W2 & C2); [rewrite C1; exact pair_inert|].
    rewrite E2. cbn [rbind].
    unfold gravity. unfold on_bodies at 1 2 3 4 5. cbn [u_particles set_particles u_hosts u_roche]. rewrite !map_length.
    pose proof W2 as (He2 & Fh2 & Fr2 & L2 & S2). rewrite L2. cbn [Nat.eqb].
    rewrite gravities_view.
    assert (V3 : map gview (map (lf_drift (1 / 2)) (u_particles u2)) = map kview (map (kdrift (1 / 2)) (map core (u_particles u)))).
    { rewrite <- C1, <- C2, !map_map. apply map_ext. reflexivity. }
    rewrite V3, Fh2, Fr2. destruct pair_gravity as (accs & G3).
    change (u_roche u) with [[0; 0]; [0; 0 : R]]. change (u_roche full_u) with [[0; 0]; [0; 0 : R]]. change (h_most_massive (u_hosts full_u)) with O. unfold u. rewrite full_core. rewrite G3. cbn [rbind].
    assert (La : length accs = 2%nat) by (pose proof (rmap_length _ _ _ G3) as La; rewrite La; reflexivity).
    set (l3 := map (fun pa => set_p_iacc (snd pa) (fst pa)) _).
    assert (C3 : map core l3 = map core (map (lf_drift (1 / 2)) (u_particles u2))).
    { unfold l3. apply zip_same; [cbn [u_particles set_particles on_bodies]; rewrite map_length; congruence|reflexivity]. }
    assert (K3 : map kind l3 = map kind (map (lf_drift (1 / 2)) (u_particles u2))).
    { unfold l3. apply zip_same; [cbn [u_particles set_particles on_bodies]; rewrite map_length; congruence|reflexivity]. }
    assert (L3 : length l3 = 2%nat) by (apply (f_equal (@length _)) in C3; rewrite !map_length in C3; congruence).
    assert (C3' : map core l3 = map (kdrift (1 / 2)) (map core (u_particles (pair_u no_effects)))).
    { rewrite C3, <- full_core. fold u. rewrite <- C1, <- C2, !map_map. apply map_ext. reflexivity. }
    clearbody l3. set (u3 := set_particles l3 _).
    assert (W3 : alike u3).
    { split; [exact He2|]. split; [exact Fh2|]. split; [exact Fr2|]. split; [exact L3|]. apply (simple_kept (u_particles u2)); [|exact S2].
      cbn [u3 u_particles set_particles]. rewrite K3, map_map. apply map_ext. reflexivity. }
    destruct (i2h_ok u3) as (u4 & E4). { unfold hosted, u3. cbn [u_hosts u_particles u_dummies set_particles on_bodies]. rewrite Fh2. cbn. lia. }
    rewrite E4. cbn [rbind]. pose proof (alike_i2h _ _ W3 E4) as W4. destruct (i2h_frame _ _ E4) as (_ & C4 & _).
    destruct (alike_eval (nadd 0 (1 / 2)) true true true IgnoreNone u4 W4) as (u5 & E5 & _).
    - rewrite C4. change (u_particles u3) with l3. rewrite C3'. rewrite <- pair_inert. reflexivity.
    - rewrite E5. cbn [rbind]. eauto.
  Qed.
End Run.
