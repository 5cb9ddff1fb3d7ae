(** * The total angular momentum over a LeapFrog step with tides and flattening (C72) *)
From Coq Require Import Reals Lra List Bool Arith Lia.
From Verif Require Import Base.Num Base.Result Base.Trans Base.Vec Model.Constants Model.Particle Model.Host Model.Creep
  Model.Tides Model.Flattening Model.Relativity Model.Universe Model.LeapFrog Spec.EffectsSpec Spec.UniverseSpec Spec.AngularSpec
  Proofs.NumLemmas Proofs.VecLemmas Proofs.GravityProofs Proofs.TidesProofs Proofs.FlatteningProofs Proofs.LeapFrogProofs Proofs.UniverseProofs Proofs.FrameProofs Proofs.EffectSums
  Proofs.WHFastStep Proofs.Reciprocity Proofs.ReciprocityRuns Proofs.TorqueBalance Proofs.AngularBalance.
Import ListNotations.
Open Scope R_scope.
Local Notation P := (particle R).

Lemma in_others {A} i (l : list A) p : In p (others i l) -> exists j, j <> i /\ nth_error l j = Some p.
Proof.
  unfold others. rewrite in_app_iff. intros [X|X]; apply In_nth_error in X; destruct X as (j & Hj).
  - assert (j < length (firstn i l))%nat by (apply nth_error_Some; congruence). rewrite firstn_length in *. exists j. split; [lia|]. now rewrite firstn_nth in Hj by lia.
  - exists (S i + j)%nat. split; [lia|]. rewrite <- Hj. clear. revert l. generalize (S i). intro n. induction n as [|n IH]; intros [|a l]; cbn; auto. now destruct j.
Qed.
Section Step.
  Context `{Trans R} `{Floor R} `{Fuel}.

  (** ** What makes a body part of such a system *)
  Definition idle_tides (t : tides R) := match t_effect t with TidesDisabled => (t_acc t, t_dL t, t_orth_star t) | _ => (vzero, vzero, 0) end.
  Definition idle_rf (r : flattening R) := match rf_effect r with RfDisabled => (rf_acc r, rf_dL r, rf_orth_star r) | _ => (vzero, vzero, 0) end.
  Definition part (b : bool) (p : P) :=
    (p_mass p, p_evo p, (t_effect (p_tides p), idle_tides (p_tides p)), (rf_effect (p_rf p), idle_rf (p_rf p)),
     (gr_dL (p_gr p), w_dL (p_wind p), if b then vzero else rf_dL (p_rf p))).
  Lemma part_lag b p p' : part b p' = part b p -> lag_or_none p -> lag_or_none p'.
  Proof.
    intros E. pose proof (f_equal (fun x => snd (fst (fst x))) E) as A. cbn [part fst snd] in A. unfold lag_or_none.
    pose proof (f_equal fst A) as A1. pose proof (f_equal snd A) as A2. cbn [fst snd] in A1, A2. rewrite A1. intros [X|(X & B1 & B2 & B3)]; [auto|right]. split; [exact X|].
    unfold idle_tides in A2. rewrite A1, X in A2. pose proof (f_equal (fun x => fst (fst x)) A2) as C1. pose proof (f_equal (fun x => snd (fst x)) A2) as C2. pose proof (f_equal snd A2) as C3. cbn [fst snd] in C1, C2, C3. now rewrite C1, C2, C3.
  Qed.
  Lemma part_flat b p p' : part b p' = part b p -> flat_or_none p -> flat_or_none p'.
  Proof.
    intros E. pose proof (f_equal (fun x => snd (fst x)) E) as A. cbn [part fst snd] in A. unfold flat_or_none.
    pose proof (f_equal fst A) as A1. pose proof (f_equal snd A) as A2. cbn [fst snd] in A1, A2. rewrite A1. intros [X|(X & B1 & B2 & B3)]; [auto|right]. split; [exact X|].
    unfold idle_rf in A2. rewrite A1, X in A2. pose proof (f_equal (fun x => fst (fst x)) A2) as C1. pose proof (f_equal (fun x => snd (fst x)) A2) as C2. pose proof (f_equal snd A2) as C3. cbn [fst snd] in C1, C2, C3. now rewrite C1, C2, C3.
  Qed.
  Lemma part_effects b p p' : part b p' = part b p -> t_effect (p_tides p') = t_effect (p_tides p) /\ rf_effect (p_rf p') = rf_effect (p_rf p).
  Proof. intro E. exact (conj (f_equal (fun x => fst (snd (fst (fst x)))) E) (f_equal (fun x => fst (snd (fst x))) E)). Qed.
  Lemma forall_parts b (Q : P -> Prop) l l' : (forall p p', part b p' = part b p -> Q p -> Q p') -> map (part b) l' = map (part b) l -> Forall Q l -> Forall Q l'.
  Proof.
    intros HQ. revert l'. induction l as [|p l IH]; intros [|p' l'] E F; try discriminate E; auto. cbn [map] in E. apply cons_eq in E. destruct E as (E1 & E2).
    inversion F; subst. constructor; eauto.
  Qed.
  Lemma tidal_by_parts u u' : u_effects u' = u_effects u -> u_hosts u' = u_hosts u ->
    map (part (e_rf (u_effects u))) (u_particles u') = map (part (e_rf (u_effects u))) (u_particles u) -> tidal_system u -> tidal_system u'.
  Proof.
    intros Ee Eh Ev ((h & En & Lh & Fh) & Ho & Hf & Hu & Ht & Ma & Mt & Mf & Hall). unfold tidal_system. rewrite Ee, Eh.
    set (b := e_rf (u_effects u)) in *. set (i := h_most_massive (u_hosts u)) in *.
    assert (Eo : map (part b) (others i (u_particles u')) = map (part b) (others i (u_particles u))) by (unfold others; now rewrite !map_app, <- !firstn_map, <- !skipn_map, Ev).
    split; [|split; [|split; [|split; [exact Hu|split; [exact Ht|split; [exact Ma|split; [exact Mt|split; [exact Mf|]]]]]]]].
    - pose proof (f_equal (fun l => nth_error l i) Ev) as E. cbv beta in E. rewrite !nth_error_map, En in E. cbn [option_map] in E.
      destruct (nth_error (u_particles u') i) as [h'|]; [|discriminate E]. cbn [option_map] in E. apply some_eq in E. destruct (part_effects _ _ _ E) as (A & B).
      exists h'. split; [reflexivity|]. split; [unfold lag_host; rewrite A; exact Lh|]. unfold flat_host. rewrite B. exact Fh.
    - revert Ho. apply (forall_parts b); [apply part_lag|exact Eo].
    - intro X. specialize (Hf X). revert Hf. apply (forall_parts b); [apply part_flat|exact Eo].
    - revert Hall. apply (forall_parts b); [|exact Ev]. intros p p' E (M & D & N1 & N2 & N3).
      rewrite (f_equal (fun x => fst (fst (fst (fst x)))) E : p_mass p' = p_mass p). rewrite (f_equal (fun x => snd (fst (fst (fst x)))) E : p_evo p' = p_evo p).
      unfold no_other_torque. rewrite (f_equal (fun x => fst (fst (snd x))) E : gr_dL (p_gr p') = gr_dL (p_gr p)). rewrite (f_equal (fun x => snd (fst (snd x))) E : w_dL (p_wind p') = w_dL (p_wind p)).
      split; [exact M|]. split; [exact D|]. split; [exact N1|]. split; [exact N2|]. intro X. rewrite <- (N3 X). pose proof (f_equal (fun x => snd (snd x)) E) as Y. cbn [part fst snd] in Y. rewrite X in Y. exact Y.
  Qed.

  (** ** They are kept by an evaluation *)
  Lemma part_ctl b h p : part b p = part b h -> ctl_or_none h -> ctl_or_none p.
  Proof. intros E Hp. exact (part_lag b h p E Hp). Qed.
  Lemma p_orth b c m h p : part b (ctl_orthogonal c m h p) = part b p.
  Proof. unfold ctl_orthogonal. destruct (t_effect (p_tides p)) as [|[]|] eqn:E; try reflexivity; cbn [orbiting_ctl]; unfold part, idle_tides; destruct c; unfold on_tides; cbn [p_tides set_p_tides t_effect set_t_orth_star set_t_orth_planet]; rewrite E; reflexivity. Qed.
  Lemma p_radial b m h p : part b (ctl_radial m h p) = part b p.
  Proof. unfold ctl_radial. destruct (t_effect (p_tides p)) as [|[]|] eqn:E; try reflexivity; cbn [orbiting_ctl]; unfold part, idle_tides; unfold on_tides; cbn [p_tides set_p_tides t_effect set_t_radial set_t_radial_diss_point]; rewrite E; reflexivity. Qed.
  Lemma p_accel b h p : part b (accel_one h p) = part b p.
  Proof. unfold accel_one. destruct (t_effect (p_tides p)) as [| |] eqn:E; try reflexivity; cbn [is_tides_orbiting]; unfold part, idle_tides, on_tides; cbn [p_tides set_p_tides t_effect set_t_acc]; rewrite E; reflexivity. Qed.
  Lemma p_torque b h p : part b (dL_one h p) = part b p.
  Proof. unfold dL_one. destruct (t_effect (p_tides p)) as [| |] eqn:E; try reflexivity; cbn [is_tides_orbiting]; unfold part, idle_tides, on_tides; cbn [p_tides set_p_tides t_effect set_t_dL]; rewrite E; reflexivity. Qed.
  Lemma p_host b h f : ctl_host h -> (forall t, t_effect (f t) = t_effect t) -> part b (on_tides f h) = part b h.
  Proof. intros (c & E) Hf. unfold part, idle_tides, on_tides; cbn [p_tides set_p_tides]. rewrite !Hf, !E. reflexivity. Qed.
  Lemma q_set m r p : rf_effect (p_rf p) = RfOrbiting m -> rf_effect r = RfOrbiting m -> part true (set_p_rf r p) = part true p.
  Proof. intros E1 E2. unfold part, idle_rf. cbn [p_rf set_p_rf]. rewrite E1, E2. reflexivity. Qed.
  Lemma q_orth c h p : part true (oblate_orthogonal c h p) = part true p.
  Proof. unfold oblate_orthogonal. destruct (rf_effect (p_rf p)) as [|[]|] eqn:E; try reflexivity; destruct c; (eapply q_set; [exact E|exact E]). Qed.
  Lemma q_radial h p : part true (oblate_radial h p) = part true p.
  Proof. unfold oblate_radial. destruct (rf_effect (p_rf p)) as [| |] eqn:E; try reflexivity; (eapply q_set; [exact E|exact E]). Qed.
  Lemma q_accel h p : part true (rf_accel_one h p) = part true p.
  Proof. unfold rf_accel_one. destruct (rf_effect (p_rf p)) as [| |] eqn:E; try reflexivity; (eapply q_set; [exact E|exact E]). Qed.
  Lemma q_torque h p : part true (rf_dL_one h p) = part true p.
  Proof. unfold rf_dL_one. destruct (rf_effect (p_rf p)) as [| |] eqn:E; try reflexivity; (eapply q_set; [exact E|exact E]). Qed.
  Lemma q_host h f : oblate_host h -> (forall r, rf_effect (f r) = rf_effect r) -> part true (on_rf f h) = part true h.
  Proof. intros (c & E) Hf. unfold part, idle_rf, on_rf; cbn [p_rf set_p_rf]. rewrite !Hf, !E. reflexivity. Qed.

  Lemma ctl_kept b l l' : map (part b) l' = map (part b) l -> Forall ctl_or_none l -> Forall ctl_or_none l'.
  Proof. apply forall_parts, part_lag. Qed.
  Lemma oblate_kept b l l' : map (part b) l' = map (part b) l -> Forall oblate_or_none l -> Forall oblate_or_none l'.
  Proof. apply forall_parts, part_flat. Qed.
  Lemma host_kept b h h' : part b h' = part b h -> ctl_host h -> ctl_host h'.
  Proof. intros E (c & Ec). exists c. now rewrite (proj1 (part_effects _ _ _ E)). Qed.
  Lemma oblate_host_kept b h h' : part b h' = part b h -> oblate_host h -> oblate_host h'.
  Proof. intros E (c & Ec). exists c. now rewrite (proj2 (part_effects _ _ _ E)). Qed.
  Lemma effects_kept b acc m h o r : ctl_host h -> Forall ctl_or_none o -> (b = true -> oblate_host h) -> (b = true -> Forall oblate_or_none o) ->
    tidal_host_effects (Effects true b false false false false) true acc m h o = Ok r ->
    part b (fst r) = part b h /\ map (part b) (snd r) = map (part b) o.
  Proof.
    intros Hh Ho Hb Hob E. unfold tidal_host_effects in E. cbn [e_tides e_rf] in E.
    set (o1 := ctl_orthogonal_components m h o) in E.
    assert (K1 : map (part b) o1 = map (part b) o) by (unfold o1, ctl_orthogonal_components; rewrite !map_same by (intro; apply p_orth); reflexivity).
    clearbody o1. rewrite creep_shapes_ctl in E by (eapply ctl_kept; eauto). cbn [rbind] in E.
    set (o2 := if b then oblate_orthogonal_components h o1 else o1).
    assert (K2 : map (part b) o2 = map (part b) o).
    { rewrite <- K1. unfold o2, oblate_orthogonal_components. destruct b; [|reflexivity]. rewrite !map_same by (intro; apply q_orth). reflexivity. }
    assert (E2 : (if b then rf_creep_shapes h (oblate_orthogonal_components h o1) else Ok o1) = Ok o2).
    { unfold o2. destruct b; [|reflexivity]. apply rf_shapes_oblate. eapply oblate_kept; [exact K2|auto]. }
    rewrite E2 in E. cbn [rbind] in E. clear E2 K1. clearbody o2. clear o1.
    set (A := if acc then _ else Ok (h, o2)) in E.
    assert (KA : exists h3 o3, A = Ok (h3, o3) /\ part b h3 = part b h /\ map (part b) o3 = map (part b) o).
    { unfold A. destruct acc; [|eauto]. set (o3 := ctl_radial_components m h o2).
      assert (K3 : map (part b) o3 = map (part b) o) by (unfold o3, ctl_radial_components; rewrite map_same by (intro; apply p_radial); exact K2).
      clearbody o3. rewrite acceleration_ctl by (try exact Hh; eapply ctl_kept; eauto). cbn [rbind fst snd].
      set (h4 := on_tides _ h). assert (K4 : part b h4 = part b h) by (apply p_host; [exact Hh|reflexivity]). clearbody h4.
      assert (K5 : map (part b) (map (accel_one h) o3) = map (part b) o) by (rewrite map_same by (intro; apply p_accel); exact K3).
      set (o5 := map (accel_one h) o3) in *. clearbody o5. clear K2 K3 o3.
      destruct b; [|eexists; eexists; split; [reflexivity|auto]].
      set (o6 := oblate_radial_components h4 o5).
      assert (K6 : map (part true) o6 = map (part true) o) by (unfold o6, oblate_radial_components; rewrite map_same by (intro; apply q_radial); exact K5).
      clearbody o6. rewrite rf_acceleration_oblate by (eapply oblate_kept; eauto). eexists. eexists. split; [reflexivity|]. split.
      - rewrite q_host; [exact K4| |reflexivity]. eapply oblate_host_kept; [exact K4|auto].
      - rewrite map_same by (intro; apply q_accel). exact K6. }
    clearbody A. destruct KA as (h3 & o3 & -> & K3 & K4). cbn [rbind fst snd] in E. clear K2 o2.
    unfold tides_dangular_momentum_dt in E.
    rewrite dL_loop_ctl in E by (eapply ctl_kept; eauto). cbn [rbind] in E.
    assert (H3 : ctl_host h3) by (eapply host_kept; eauto).
    rewrite host_dL_loop_ctl in E by exact H3. cbn [rbind fst snd] in E.
    set (h5 := on_tides _ h3) in E. assert (K5 : part b h5 = part b h) by (rewrite <- K3; apply p_host; [exact H3|reflexivity]). clearbody h5.
    assert (K6 : map (part b) (map (dL_one h3) o3) = map (part b) o) by (rewrite map_same by (intro; apply p_torque); exact K4).
    set (o6 := map (dL_one h3) o3) in *. clearbody o6. clear K3 K4 H3 h3 o3.
    destruct b; [|injection E as <-; auto].
    unfold rf_dangular_momentum_dt in E. rewrite rf_dL_loop in E by (eapply oblate_kept; eauto). cbn [rbind] in E.
    assert (H5 : oblate_host h5) by (eapply oblate_host_kept; eauto).
    rewrite rf_host_loop in E by exact H5. cbn [rbind] in E. injection E as <-. cbn [fst snd]. split.
    - rewrite q_host; [exact K5|exact H5|reflexivity].
    - rewrite map_same by (intro; apply q_torque). exact K6.
  Qed.
  Lemma p_ready h p : lag_or_none p -> part true (tp h p) = part true p /\ part false (tp h p) = part false p.
  Proof.
    intro Hp. unfold tp. destruct Hp as [(c & E)|(E & _)]; rewrite E; cbn [is_tides_orbiting]; [|auto].
    unfold part, idle_tides, on_tides. unfold tides_copy_one, on_tides. cbn [p_tides set_p_tides].
    match goal with |- context [t_effect ?x] => match x with p_tides _ => fail 1 | _ => change (t_effect x) with (t_effect (p_tides p)) end end. rewrite E. split; reflexivity.
  Qed.
  Lemma prep_part acc b h p : lag_or_none p -> (b = true -> flat_or_none p) -> part b (prep acc b h p) = part b p.
  Proof.
    intros Hp Hf. unfold prep.
    assert (X : forall q, part b (respin (clear_iadd acc q)) = part b q) by (intro q; destruct acc; reflexivity). rewrite X. clear X.
    destruct b; [|apply p_ready, Hp]. transitivity (part true (tp h p)); [|apply p_ready, Hp].
    unfold rp. set (q := tp h p). destruct (rf_effect (p_rf q)) as [| |] eqn:E; try reflexivity. cbn [is_rf_orbiting].
    transitivity (part true (rf_copy_one q)); (eapply q_set; [exact E|exact E]).
  Qed.
  Lemma prep_host_part acc b h : lag_host h -> (b = true -> flat_host h) -> part b (prep_host acc b h) = part b h.
  Proof.
    intros Hh Hf. unfold prep_host.
    assert (X : forall q, part b (respin (clear_iadd acc q)) = part b q) by (intro q; destruct acc; reflexivity). rewrite X. clear X.
    assert (T : forall b, part b (th h) = part b h).
    { intro b'. unfold th. rewrite p_host; [|exact Hh|reflexivity]. unfold tides_copy_one. apply p_host; [exact Hh|reflexivity]. }
    destruct b; [|apply T]. rewrite <- (T true). specialize (Hf eq_refl).
    assert (Ho : oblate_host (th h)) by exact Hf. unfold rh. unfold rf_copy_one. rewrite q_host; [apply q_host; [exact Ho|reflexivity]|exact Ho|reflexivity].
  Qed.
  Theorem system_kept t ev acc ig u u' : tidal_system u -> additional_effects t ev true acc ig u = Ok u' -> tidal_system u'.
  Proof.
    intros Hu E. pose proof Hu as ((h & Eh & Lh & Fh) & Ho & Hfo & Ee & Et & Ma & Mt & Mf & Hall).
    set (b := e_rf (u_effects u)) in *. set (i := h_most_massive (u_hosts u)) in *. set (o := others i (u_particles u)) in *.
    destruct (evaluated_tides t ev acc ig u u' h b Hu Eh eq_refl E) as (m & r & Er & Lr & Ep & Rs). fold i in Er, Lr, Ep. fold o in Er, Lr.
    rewrite Ee in Er. apply effects_kept in Er.
    - destruct Er as (Kh & Ko). apply (tidal_by_parts u); [apply Rs|apply Rs| |exact Hu]. fold b.
      assert (X : map (part b) (u_particles u') = map (part b) (reassemble i (fst r) (snd r))).
      { rewrite Ep. cbn zeta. assert (Y : forall l : list P, map (part b) (map sum_dL l) = map (part b) l) by (intro l; apply map_same; reflexivity).
        destruct acc; [|apply Y]. rewrite <- Y. rewrite !map_map. apply map_ext. intro p.
        unfold add_corrections, add_if. destruct (e_gr _), (e_rf _), (e_disk _), (e_tides _); reflexivity. }
      rewrite X, map_reassemble, Kh, Ko. rewrite prep_host_part by assumption.
      rewrite map_map. replace (map (fun p => part b (prep acc b h p)) o) with (map (part b) o).
      + rewrite <- map_reassemble. f_equal. now apply reassemble_others.
      + apply map_ext_in. intros p Hp. symmetry. rewrite Forall_forall in Ho. apply prep_part; auto. intro Y. specialize (Hfo Y). rewrite Forall_forall in Hfo. auto.
    - destruct Lh as (c & Ec); exists c; rewrite (proj1 (proj2 (prep_host_view acc b h))); exact Ec.
    - apply Forall_map; eapply Forall_impl; [|exact Ho]; intros p Hp; now apply prep_ctl.
    - intro X; destruct (Fh X) as (c & Ec); exists c; rewrite (proj1 (proj2 (proj2 (prep_host_view acc b h))) X); exact Ec.
    - intro X; apply Forall_map; eapply Forall_impl; [|exact (Hfo X)]; intros p Hp; now apply prep_oblate.
  Qed.

  (** ** The step *)
  Definition moving (p : P) := (p_mass p, p_ipos p, p_ivel p, p_L p).
  Lemma whole_view l l' : map moving l' = map moving l -> whole_momentum l' = whole_momentum l.
  Proof.
    intro E. unfold whole_momentum. f_equal.
    transitivity (map (fun v => vadd (vscale (fst (fst (fst v))) (vcross (snd (fst (fst v))) (snd (fst v)))) (snd v)) (map moving l')); [now rewrite map_map|].
    rewrite E, map_map. reflexivity.
  Qed.
  Lemma whole_drift half l : whole_momentum (map (lf_drift half) l) = vadd (whole_momentum l) (vscale half (spin_torque l)).
  Proof.
    unfold whole_momentum, spin_torque. rewrite map_map, <- Vsum_map_scale, <- Vsum_map_add. apply Vsum_map_ext, Forall_forall. intros p _.
    unfold lf_drift. cbn [p_mass p_ipos p_ivel p_L set_p_L set_p_ipos]. generalize (p_mass p) (p_ipos p) (p_ivel p) (p_L p) (p_dL p). vring.
  Qed.
  Lemma whole_kick dt half (l : list P) : whole_momentum (map (fun p => lf_drift half (lf_kick dt (set_p_iacc (vadd (p_iacc p) (p_iadd p)) p))) l) =
    vadd (whole_momentum l) (vadd (vscale dt (vadd (net_torque gravitational_acc no_torque l) (net_torque p_iadd p_dL l))) (vscale (half - dt) (spin_torque l))).
  Proof.
    unfold whole_momentum, spin_torque, net_torque. rewrite map_map. rewrite <- (Vsum_map_add _ _ l). rewrite <- !Vsum_map_scale, <- !Vsum_map_add. apply Vsum_map_ext, Forall_forall. intros p _.
    unfold lf_drift, lf_kick, gravitational_acc, no_torque. cbn [p_mass p_ipos p_ivel p_L p_iacc p_iadd p_dL set_p_L set_p_ipos set_p_iacc set_p_ivel].
    generalize (p_mass p) (p_ipos p) (p_ivel p) (p_L p) (p_dL p) (p_iacc p) (p_iadd p). vring.
  Qed.
  Lemma moved_seen u u' : (exists h, nth_error (u_particles u) (h_most_massive (u_hosts u)) = Some h) ->
    (forall i j a b, nth_error (u_particles u) i = Some a -> nth_error (u_particles u) j = Some b -> i <> j -> apart a b) ->
    inertial_to_heliocentric u = Ok u' -> seen u'.
  Proof.
    intros (h & Eh) Ap E h' Eh'. destruct (i2h_rest _ _ E) as (_ & _ & _ & Rh). rewrite Rh in *. set (i := h_most_massive (u_hosts u)) in *.
    pose proof (heliocentric_spec _ _ _ _ _ E Eh Eh') as X. fold i in X. rewrite Nat.eqb_refl in X. subst h'.
    apply Forall_forall. intros p Hp. apply in_others in Hp. destruct Hp as (j & Hj & Ej).
    pose proof (heliocentric_spec _ _ _ _ _ E Eh Ej) as X. fold i in X. destruct (Nat.eqb_spec j i); [contradiction|]. destruct X as (q & Eq & ->).
    split; [reflexivity|]. split; [reflexivity|]. intro X. apply (Ap j i q h); auto.
  Qed.
  Theorem step_angular t dt half u u' : tidal_system u -> roche_square u -> half = dt / 2 -> lf_step t dt half u = Ok u' ->
    exists us um0 um, (do v <- inertial_to_heliocentric u; additional_effects t true true false IgnoreNone v) = Ok us /\
      (do v <- gravity IgnoreNone (on_bodies (lf_drift half) us); inertial_to_heliocentric v) = Ok um0 /\
      additional_effects (t + half) true true true IgnoreNone um0 = Ok um /\
      whole_momentum (u_particles u') = vadd (whole_momentum (u_particles u))
        (vadd (vscale dt (stale_torques (h_most_massive (u_hosts u)) (u_particles um0) (u_particles um)))
              (vscale half (vsub (spin_torque (u_particles us)) (spin_torque (u_particles um))))) /\
      tidal_system u' /\ roche_square u'.
  Proof.
    intros Hu Sq Hh E. unfold lf_step in E.
    destruct (inertial_to_heliocentric u) as [u1|] eqn:E1; [|discriminate E]. cbn [rbind] in E.
    destruct (additional_effects t _ _ _ _ u1) as [us|] eqn:E2; [|discriminate E]. cbn [rbind] in E.
    set (u3 := on_bodies (lf_drift half) us) in E.
    destruct (gravity _ u3) as [u4|] eqn:E4; [|discriminate E]. cbn [rbind] in E.
    destruct (inertial_to_heliocentric u4) as [um0|] eqn:E5; [|discriminate E]. cbn [rbind] in E.
    change (t + half)%num with (t + half) in E.
    destruct (additional_effects (t + half) _ _ _ _ um0) as [um|] eqn:E6; [|discriminate E]. cbn [rbind] in E. injection E as <-.
    exists us, um0, um. cbn [rbind]. split; [exact E2|]. split; [fold u3; rewrite E4; exact E5|]. split; [exact E6|].
    set (b := e_rf (u_effects u)).
    assert (Bl : forall e, blind_step (F := R) e moving).
    { intro e. split; unfold blind, blind_iadd, blind_dL, blind_effects, blind_spin, blind_evolution, blind_tides, blind_rf, blind_gr, blind_disk, blind_wind; auto 12. }
    destruct (evaluation_view _ _ _ _ _ _ _ _ _ (Bl (u_effects u)) E1 E2) as (B2 & St2).
    assert (L2 : length (u_particles us) = length (u_particles u)) by (apply (f_equal (@length _)) in B2; now rewrite !map_length in B2).
    destruct (i2h_rest _ _ E1) as (Re1 & _ & Rr1 & Rh1).
    assert (S1 : tidal_system u1) by (apply (tidal_by_parts u); [exact Re1|exact Rh1|apply (i2h_view (part b)); [reflexivity|reflexivity|exact E1]|exact Hu]).
    pose proof (system_kept _ _ _ _ _ _ S1 E2) as S2.
    assert (S3 : tidal_system u3).
    { apply (tidal_by_parts us); [reflexivity|reflexivity| |exact S2]. unfold u3, on_bodies. cbn [u_particles set_particles]. apply map_same. reflexivity. }
    assert (Sq3 : roche_square u3) by (apply (square_of u); [cbn; now rewrite map_length|cbn [u3 on_bodies u_roche set_particles]; apply St2|exact Sq]).
    destruct (gravity_view (part (e_rf (u_effects u3))) _ _ _ (fun _ _ => eq_refl) (proj1 Sq3) E4) as (V4 & St4).
    assert (S4 : tidal_system u4) by (apply (tidal_by_parts u3); [apply St4|apply St4|exact V4|exact S3]).
    destruct (i2h_rest _ _ E5) as (Re5 & _ & Rr5 & Rh5).
    assert (S5 : tidal_system um0) by (apply (tidal_by_parts u4); [exact Re5|exact Rh5|apply (i2h_view (part _)); [reflexivity|reflexivity|exact E5]|exact S4]).
    pose proof (system_kept _ _ _ _ _ _ S5 E6) as S6.
    assert (Sn : seen um0).
    { apply (moved_seen u4); [destruct S4 as ((h & Eh & _) & _); eauto| |exact E5].
      intros i j a c Ha Hc Hij. destruct (gravity_view (fun p => p_ipos p) _ _ _ (fun _ _ => eq_refl) (proj1 Sq3) E4) as (Vp & _).
      pose proof (f_equal (fun l => nth_error l i) Vp) as Xa. pose proof (f_equal (fun l => nth_error l j) Vp) as Xc. cbv beta in Xa, Xc. rewrite !nth_error_map in Xa, Xc. rewrite Ha in Xa. rewrite Hc in Xc.
      destruct (nth_error (u_particles u3) i) as [a3|] eqn:Ea; [|discriminate Xa]. destruct (nth_error (u_particles u3) j) as [c3|] eqn:Ec; [|discriminate Xc].
      cbn [option_map] in Xa, Xc. apply some_eq in Xa. apply some_eq in Xc. unfold apart. rewrite Xa, Xc. exact (gravity_apart u3 u4 i j a3 c3 Sq3 E4 Ea Ec Hij). }
    pose proof (torque_of_evaluation _ _ _ _ _ S5 Sn E6) as T6.
    assert (Hh6 : h_most_massive (u_hosts um0) = h_most_massive (u_hosts u)).
    { rewrite Rh5. rewrite (proj1 (proj2 St4) : u_hosts u4 = u_hosts u3). cbn [u3 on_bodies u_hosts set_particles]. rewrite (proj1 (proj2 St2) : u_hosts us = u_hosts u). reflexivity. }
    rewrite Hh6 in T6.
    assert (G6 : net_torque gravitational_acc no_torque (u_particles um) = vzero).
    { rewrite <- (gravity_no_torque u3 u4 Sq3 E4).
      assert (Ba : blind_step (F := R) (u_effects u4) (fun p => (p_ipos p, p_mass p, p_iacc p))).
      { split; unfold blind, blind_iadd, blind_dL, blind_effects, blind_spin, blind_evolution, blind_tides, blind_rf, blind_gr, blind_disk, blind_wind; auto 12. }
      destruct (evaluation_view _ _ _ _ _ _ _ _ _ Ba E5 E6) as (A6 & _).
      apply (torque_view (fun p => (p_ipos p, p_mass p, p_iacc p)) (fun x => vadd (vcross (fst (fst x)) (vscale (snd (fst x)) (snd x))) vzero)); [reflexivity|exact A6]. }
    destruct (evaluation_view _ _ _ _ _ _ _ _ _ (Bl (u_effects u4)) E5 E6) as (B6 & St6).
    destruct (gravity_view moving _ _ _ (fun _ _ => eq_refl) (proj1 Sq3) E4) as (B4 & _).
    split; [|split].
    - unfold on_bodies, apply_corrections. cbn [u_particles set_particles]. rewrite map_map. rewrite (whole_kick dt half (u_particles um)), G6, T6.
      rewrite (whole_view (u_particles u3) (u_particles um)) by (rewrite B6; exact B4). unfold u3, on_bodies. cbn [u_particles set_particles]. rewrite whole_drift, (whole_view (u_particles u) (u_particles us) B2).
      generalize (whole_momentum (u_particles u)) (spin_torque (u_particles us)) (spin_torque (u_particles um)) (stale_torques (h_most_massive (u_hosts u)) (u_particles um0) (u_particles um)).
      rewrite Hh. intros [a1 a2 a3] [b1 b2 b3] [c1 c2 c3] [d1 d2 d3]. vunfold. f_equal; field.
    - apply (tidal_by_parts um); [reflexivity|reflexivity| |exact S6]. unfold on_bodies, apply_corrections. cbn [u_particles set_particles]. rewrite !map_map. apply map_ext. reflexivity.
    - apply (square_of u3); [| |exact Sq3].
      + apply (f_equal (@length _)) in B6. apply (f_equal (@length _)) in B4. rewrite !map_length in B6, B4. unfold on_bodies, apply_corrections. cbn [u_particles set_particles]. rewrite !map_length. congruence.
      + unfold on_bodies, apply_corrections. cbn [u_roche set_particles]. destruct St6 as (_ & _ & _ & X6), St4 as (_ & _ & _ & X4). congruence.
  Qed.
End Step.
