(** * Two bodies at rest, with tides (C72) *)
From Coq Require Import Reals Lra Psatz List Bool Arith Lia.
From Verif Require Import Base.Num Base.Result Base.Trans Base.Vec Model.Constants Model.Particle Model.Host Model.Wind Model.Creep
  Model.Tides Model.Flattening Model.Relativity Model.Disk Model.Universe Model.LeapFrog Spec.EffectsSpec Spec.UniverseSpec Spec.AngularSpec Spec.ReciprocitySpec
  Proofs.NumLemmas Proofs.VecLemmas Proofs.GravityProofs Proofs.TidesProofs Proofs.LeapFrogProofs Proofs.UniverseProofs Proofs.FrameProofs Proofs.EffectSums
  Proofs.UniverseExamples Proofs.Reciprocity Proofs.WHFastStep Proofs.ReciprocityExamples Proofs.TorqueBalance Proofs.AngularBalance Proofs.AngularStep.
Import ListNotations.
Open Scope R_scope.
Local Notation P := (particle R).

(** Only the host resists the tide. *)
Definition slow_star : P := set_p_tides (new_tides (TidesCentral (ConstantTimeLag (CtlParams 1 1 (3/10))))) (new_particle G 1 1 1 vzero vzero (Vec 0 0 1)).
Definition slow_planet : P := set_p_tides (new_tides (TidesOrbiting (ConstantTimeLag (CtlParams 0 0 (3/10))))) (at_ (Vec 10 0 0) vzero (new_particle G 1 1 1 (Vec 10 0 0) vzero vzero)).
Definition slow_u : universe R :=
  Universe 0 2 [slow_star; slow_planet] [] [] (Effects true false false false false false) GrImplDisabled
    (Hosts 0 0 0 0 0 true true true true true) [] [[0; 0]; [0; 0]].
(** deceleration of the rotation of the host *)
Definition drag : R := 9 / 2 / 10 ^ 6.

Section Two.
  Context `{Trans R} `{Floor R} `{Fuel}.

  Definition tide_par (p : P) := (t_sigma (p_tides p), t_effect (p_tides p)).
  Lemma pair_torques acc m h p r c c' : t_effect (p_tides h) = TidesCentral (ConstantTimeLag c) -> t_effect (p_tides p) = TidesOrbiting (ConstantTimeLag c') ->
    tidal_host_effects (Effects true false false false false false) true acc m h [p] = Ok r ->
    exists h' p', r = (h', [p']) /\ (tide_par h' = tide_par h /\ tide_par p' = tide_par p) /\
      let q := ctl_orthogonal false m h (ctl_orthogonal true m h p) in
      t_dL (p_tides h') = vscale (-1) (ctl_torque h q true) /\ t_dL (p_tides p') = vscale (-1) (ctl_torque h q false).
  Proof.
    intros Eh Ep E. unfold tidal_host_effects in E. cbn [e_tides e_rf] in E.
    set (q := ctl_orthogonal false m h (ctl_orthogonal true m h p)).
    change (ctl_orthogonal_components m h [p]) with [q] in E.
    assert (Kq : tide_par q = tide_par p).
    { transitivity (tide_par (ctl_orthogonal true m h p)); unfold q; [set (x := ctl_orthogonal true m h p)|]; unfold ctl_orthogonal; destruct (orbiting_ctl _); reflexivity. }
    assert (Eq : t_effect (p_tides q) = TidesOrbiting (ConstantTimeLag c')).
    { unfold q, ctl_orthogonal. rewrite Ep. cbn [orbiting_ctl]. match goal with |- context [orbiting_ctl (t_effect ?x)] => change (t_effect x) with (t_effect (p_tides p)) end. rewrite Ep. cbn [orbiting_ctl]. exact Ep. }
    clearbody q.
    assert (Ec : creep_shapes h [q] = Ok [q]).
    { unfold creep_shapes. cbn [rmap]. unfold creep_update. rewrite Eq. num_simpl. now rewrite (proj2 (Reqb_true 0 0)). }
    rewrite Ec in E. cbn [rbind] in E. destruct acc.
    - unfold ctl_radial_components in E. cbn [map] in E. set (s := ctl_radial m h q) in E.
      assert (Es : t_effect (p_tides s) = TidesOrbiting (ConstantTimeLag c') /\ (forall b, ctl_torque h s b = ctl_torque h q b) /\ tide_par s = tide_par q).
      { unfold s, ctl_radial. rewrite Eq. cbn [orbiting_ctl]. split; [exact Eq|split; reflexivity]. }
      clearbody s. destruct Es as (Es & T & Ks). unfold tides_acceleration in E. cbn [rfold] in E. unfold tides_acceleration_step in E. rewrite Es in E. cbn [model_force rbind app] in E.
      match type of E with context [t_effect (p_tides ?x)] => change (t_effect (p_tides x)) with (t_effect (p_tides h)) in E end. rewrite Eh in E. cbn [rbind fst snd] in E.
      set (h1 := on_tides _ h) in E. set (s1 := on_tides _ s) in E.
      assert (X : t_effect (p_tides h1) = TidesCentral (ConstantTimeLag c) /\ t_effect (p_tides s1) = TidesOrbiting (ConstantTimeLag c') /\ (forall b, ctl_torque h1 s1 b = ctl_torque h s b) /\ tide_par h1 = tide_par h /\ tide_par s1 = tide_par s) by (split; [exact Eh|]; split; [exact Es|split; [reflexivity|split; reflexivity]]).
      clearbody h1 s1. destruct X as (X1 & X2 & X3 & X4 & X5).
      unfold tides_dangular_momentum_dt in E. cbn [rmap] in E. unfold tides_planet_dL in E. rewrite X2 in E. cbn [model_torque rbind] in E.
      cbn [rfold] in E. unfold tides_host_dL_step in E. rewrite X1 in E. cbn [model_torque rbind] in E. apply ok_inj in E. subst r.
      do 2 eexists. split; [reflexivity|]. split; [split; [exact X4|transitivity (tide_par s1); [reflexivity|congruence]]|]. cbn zeta. rewrite <- !T, <- !X3. split; [|reflexivity].
      change (vadd vzero (vscale (-1) (ctl_torque h1 s1 true)) = vscale (-1) (ctl_torque h1 s1 true)). apply vadd_0_l.
    - unfold tides_dangular_momentum_dt in E. cbn [fst snd rmap rbind] in E. unfold tides_planet_dL in E. rewrite Eq in E. cbn [model_torque rbind] in E.
      cbn [rfold] in E. unfold tides_host_dL_step in E. rewrite Eh in E. cbn [model_torque rbind] in E. apply ok_inj in E. subst r.
      do 2 eexists. split; [reflexivity|]. split; [split; [reflexivity|transitivity (tide_par q); [reflexivity|exact Kq]]|]. cbn zeta. split; [|reflexivity].
      change (vadd vzero (vscale (-1) (ctl_torque h q true)) = vscale (-1) (ctl_torque h q true)). apply vadd_0_l.
  Qed.

  (** ** Steps without creep and without Kaula's series stop only in the gravity *)
  Definition simple_system (u : universe R) : Prop :=
    e_evolution (u_effects u) = false /\ m_all (u_hosts u) = true /\
    (h_most_massive (u_hosts u) <= length (u_particles u))%nat /\ (h_tides (u_hosts u) <= length (u_particles u))%nat /\
    (h_gr (u_hosts u) <= length (u_particles u))%nat /\ (h_disk (u_hosts u) <= length (u_particles u))%nat /\ Forall simple (u_particles u).
  Lemma simple_by u u' : u_effects u' = u_effects u -> u_hosts u' = u_hosts u -> map kind (u_particles u') = map kind (u_particles u) -> simple_system u -> simple_system u'.
  Proof.
    intros He Hh K. unfold simple_system. rewrite He, Hh. assert (L : length (u_particles u') = length (u_particles u)) by (apply (f_equal (@length _)) in K; now rewrite !map_length in K).
    rewrite L. intros (A1 & A2 & A3 & A4 & A5 & A6 & A7). repeat (split; [assumption|]). now apply (simple_kept (u_particles u)).
  Qed.
  Lemma simple_evaluation t ev dL acc ig u : simple_system u -> forallb kinert (map core (u_particles u)) = true ->
    exists u', additional_effects t ev dL acc ig u = Ok u' /\ simple_system u' /\ map core (u_particles u') = map core (u_particles u) /\ u_roche u' = u_roche u /\ u_hosts u' = u_hosts u.
  Proof.
    intros Hs Hi. pose proof Hs as (A1 & A2 & A3 & A4 & A5 & A6 & A7). destruct (simple_eval_ok t ev dL acc ig u A1 A2 A3 A4 A5 A6 A7 Hi) as (u' & E & K). exists u'. split; [exact E|].
    assert (Hb : blind (u_effects u) core).
    { unfold blind, blind_effects, blind_tides, blind_rf, blind_gr, blind_disk, blind_wind, blind_spin, blind_evolution. rewrite A1. repeat split; intros; try reflexivity; discriminate. }
    pose proof (evaluation_frame core t ev dL acc ig u u' Hb ltac:(intros ? ?; reflexivity) ltac:(intros ? ?; reflexivity) E) as (C & B & D & _ & G & _).
    split; [now apply (simple_by u)|]. auto.
  Qed.
  Lemma simple_step_ok t dt half u accs : simple_system u -> length (u_roche u) = length (u_particles u) -> u_particles u <> [] -> forallb kinert (map core (u_particles u)) = true ->
    gravities IgnoreNone (h_most_massive (u_hosts u)) (map kview (map (kdrift half) (map core (u_particles u)))) (u_roche u) = Ok accs ->
    exists u', lf_step t dt half u = Ok u'.
  Proof.
    intros W0 Lr Hne Hi Hg. unfold lf_step.
    assert (Ho : forall v, simple_system v -> hosted v) by (intros v (_ & _ & X & _); unfold hosted; lia).
    destruct (i2h_ok u (Ho u W0)) as (u1 & E1). rewrite E1. cbn [rbind]. destruct (i2h_frame _ _ E1) as ((Fr1 & Fh1 & Fe1 & _) & C1 & _).
    assert (W1 : simple_system u1) by (apply (simple_by u); auto; apply (EffectSums.i2h_view kind); [reflexivity|reflexivity|exact E1]).
    destruct (simple_evaluation t true true false IgnoreNone u1 W1) as (u2 & E2 & W2 & C2 & R2 & H2'); [now rewrite C1|]. rewrite E2. cbn [rbind].
    set (u3 := on_bodies (lf_drift half) u2).
    assert (W3 : simple_system u3) by (apply (simple_by u2); auto; cbn [u3 on_bodies u_particles set_particles]; apply map_same; reflexivity).
    assert (L2 : length (u_particles u2) = length (u_particles u)) by (rewrite C1 in C2; apply (f_equal (@length _)) in C2; now rewrite !map_length in C2).
    assert (L3 : length (u_particles u3) = length (u_particles u)) by (cbn [u3 on_bodies u_particles set_particles]; now rewrite map_length).
    assert (C3 : map core (u_particles u3) = map (kdrift half) (map core (u_particles u))).
    { cbn [u3 on_bodies u_particles set_particles]. rewrite <- C1, <- C2, !map_map. apply map_ext. reflexivity. }
    assert (G3 : exists u4, gravity IgnoreNone u3 = Ok u4).
    { unfold gravity. rewrite L3. destruct (Nat.eqb_spec (length (u_particles u)) 0) as [X|_]; [destruct (u_particles u); [contradiction|discriminate X]|].
      rewrite gravities_view. change (map gview (u_particles u3)) with (map gview (u_particles u3)).
      assert (V : map gview (u_particles u3) = map kview (map core (u_particles u3))) by (rewrite map_map; apply map_ext; reflexivity).
      rewrite V, C3. cbn [u3 on_bodies u_hosts u_roche set_particles]. rewrite H2', Fh1, R2, Fr1, Hg. cbn [rbind]. eauto. }
    destruct G3 as (u4 & E4). rewrite E4. cbn [rbind].
    assert (Lr3 : length (u_roche u3) = length (u_particles u3)) by (rewrite L3; cbn [u3 on_bodies u_roche set_particles]; congruence).
    destruct (gravity_view kind _ _ _ (fun _ _ => eq_refl) Lr3 E4) as (K4 & St4). destruct (gravity_view core _ _ _ (fun _ _ => eq_refl) Lr3 E4) as (C4 & _).
    assert (W4 : simple_system u4) by (apply (simple_by u3); auto; apply St4).
    destruct (i2h_ok u4 (Ho u4 W4)) as (u5 & E5). rewrite E5. cbn [rbind]. destruct (i2h_frame _ _ E5) as ((Fr5 & Fh5 & Fe5 & _) & C5 & _).
    assert (W5 : simple_system u5) by (apply (simple_by u4); auto; apply (EffectSums.i2h_view kind); [reflexivity|reflexivity|exact E5]).
    destruct (simple_evaluation (nadd t half) true true true IgnoreNone u5 W5) as (u6 & E6 & _).
    - rewrite C5, C4, C3. rewrite <- Hi. rewrite !map_map. clear. generalize (u_particles u) as l. induction l as [|p l IH]; [reflexivity|]. cbn [map forallb]. now rewrite IH.
    - rewrite E6. cbn [rbind]. eauto.
  Qed.

  (** ** Torques on two bodies at rest *)
  Definition at_rest (a : R) (h p : P) : Prop :=
    (exists c, t_effect (p_tides h) = TidesCentral (ConstantTimeLag c)) /\ (exists c, t_effect (p_tides p) = TidesOrbiting (ConstantTimeLag c)) /\
    (t_sigma (p_tides h) = 1 /\ t_sigma (p_tides p) = 0) /\ (p_mass h = 1 /\ p_mass p = 1) /\ (p_radius h = 1 /\ p_radius p = 1) /\
    (p_inertia h = 1 /\ p_inertia p = 1) /\ (p_L h = Vec 0 0 a /\ p_L p = vzero) /\
    (vx (p_spin h) = 0 /\ vx (p_spin p) = 0) /\ (p_hpos p = Vec 10 0 0 /\ p_hdist p = 10 /\ p_hvel p = vzero).
  Lemma rest_eval t acc u u' h p a : tidal_system u -> e_rf (u_effects u) = false -> h_most_massive (u_hosts u) = O -> u_particles u = [h; p] -> at_rest a h p ->
    additional_effects t true true acc IgnoreNone u = Ok u' ->
    exists h' p', u_particles u' = [h'; p'] /\ p_dL h' = Vec 0 0 (- drag * a) /\ p_dL p' = vzero /\ vx (p_spin h') = 0 /\ vx (p_spin p') = 0
      /\ tide_par h' = tide_par h /\ tide_par p' = tide_par p.
  Proof.
    intros Hu Hrf Hz Ep Hr E. pose proof Hu as ((h0 & Eh & Lh & Fh) & Ho & Hfo & Ee & Et & Ma & Mt & Mf & Hall). rewrite Hz, Ep in Eh. injection Eh as <-.
    assert (Eh : nth_error (u_particles u) (h_most_massive (u_hosts u)) = Some h) by (rewrite Hz, Ep; reflexivity).
    destruct (evaluated_tides t true acc IgnoreNone u u' h false Hu Eh (eq_sym Hrf) E) as (m & r & Er & Lr & Ep' & Rs). rewrite Hz, Ep in *. cbn [others firstn skipn app map] in Er, Lr, Ep'.
    set (k := prep_host acc false h) in *. set (q := prep acc false h p) in *. set (m' := pair_dependent_factors k [q] m) in *.
    destruct Hr as ((c & Hc) & (c' & Hc') & (S1 & S2) & (M1 & M2) & (R1 & R2) & (I1 & I2) & (L1 & L2) & (Z1 & Z2) & (X1 & X2 & X3)).
    destruct (prep_host_view acc false h) as (Vh & Th & _ & Sh). destruct (prep_view acc false h p) as (V & T & _ & Sp). fold k in Vh, Th, Sh. fold q in V, T, Sp.
    rewrite Ee, Hrf in Er.
    assert (Ek : t_effect (p_tides k) = TidesCentral (ConstantTimeLag c)) by (rewrite Th; exact Hc).
    assert (Tq : p_tides q = set_t_dL vzero (set_t_acc vzero (set_t_pos_dot_planet_spin (vdot (p_hpos p) (p_spin p)) (set_t_pos_dot_star_spin (vdot (p_hpos p) (p_spin h)) (p_tides (tides_copy_one p)))))).
    { rewrite T. unfold tp. rewrite Hc'. reflexivity. }
    assert (Eq : t_effect (p_tides q) = TidesOrbiting (ConstantTimeLag c')) by (rewrite Tq; exact Hc').
    pose proof Er as Fr. apply (tidal_host_frame (fun p => p_spin p)) in Fr; [|intros _; repeat intro; reflexivity|intros _; repeat intro; reflexivity].
    destruct (pair_torques acc m' k q r c c' Ek Eq Er) as (h' & p' & -> & (K1 & K2) & D1 & D2). cbn [fst snd] in Fr, Ep'. destruct Fr as (Fr1 & Fr2). cbn [map] in Fr2. apply cons_eq in Fr2. destruct Fr2 as (Fr2 & _).
    cbn [fst snd] in Fr1, Fr2.
    assert (Hq : Forall (quiet (u_effects u)) (u_particles u)).
    { rewrite Ep. eapply Forall_impl; [|exact Hall]. intros x (_ & _ & Q1 & Q2 & Q3). unfold quiet. rewrite Ee. cbn [e_tides e_rf e_gr e_wind].
      split; [intro X; discriminate X|]. auto. }
    destruct (effects_summed _ _ _ _ _ _ _ Hq E) as (_ & Sd & _).
    assert (To : torques_on (u_effects u) (u_gr u) = true) by (unfold torques_on; rewrite Ee; reflexivity). rewrite To in Sd. cbn [andb] in Sd.
    set (fin := fun x : P => if acc then add_corrections (u_effects u) (sum_dL x) else sum_dL x).
    assert (Epp : u_particles u' = [fin h'; fin p']) by (rewrite Ep'; unfold fin; destruct acc; reflexivity).
    rewrite Epp in Sd. inversion Sd as [|? ? Sd1 Sd']; subst. inversion Sd' as [|? ? Sd2 _]; subst. clear Sd Sd'.
    assert (Vf : forall (B : Type) (f : P -> B), (forall a (p : P), f (set_p_iadd a p) = f p) -> (forall a (p : P), f (set_p_dL a p) = f p) -> forall x, f (fin x) = f x).
    { intros B f F1 F2 x. unfold fin. destruct acc; [apply (fin_view f); auto|apply F2]. }
    assert (Te : forall x : P, enabled_torque (u_effects u) x = t_dL (p_tides x)).
    { intro x. unfold enabled_torque, only_if. rewrite Ee, Hrf. cbn [e_tides e_rf e_gr e_wind Vsum fold_right]. generalize (t_dL (p_tides x)). vring. }
    rewrite Te in Sd1, Sd2. rewrite (Vf _ (fun x : P => p_tides x)) in Sd1, Sd2 by reflexivity.
    exists (fin h'), (fin p'). split; [exact Epp|]. rewrite Sd1, Sd2, D1, D2.
    rewrite !(Vf _ (fun x : P => p_spin x)) by reflexivity. rewrite Fr1, Fr2.
    assert (Dk : dynamical_tide (p_evo k) = false) by (rewrite (f_equal snd Vh : p_evo k = p_evo h); inversion Hall; subst; tauto).
    assert (Dq : dynamical_tide (p_evo q) = false) by (rewrite (f_equal snd V : p_evo q = p_evo p); inversion Hall as [|? ? _ Hall']; inversion Hall'; subst; tauto).
    assert (Mk : p_mass k = 1 /\ p_mass q = 1 /\ p_radius k = 1 /\ p_radius q = 1).
    { rewrite (f_equal (fun x => snd (fst (fst (fst x)))) Vh : p_mass k = p_mass h), (f_equal (fun x => snd (fst (fst x))) Vh : p_radius k = p_radius h).
      rewrite (f_equal (fun x => snd (fst (fst (fst x)))) V : p_mass q = p_mass p), (f_equal (fun x => snd (fst (fst x))) V : p_radius q = p_radius p). auto. }
    destruct Mk as (Mk & Mq & Rk & Rq).
    assert (Sk : t_sigma (p_tides k) = 1 /\ t_sigma (p_tides q) = 0) by (rewrite Th, Tq; split; [exact S1|exact S2]). destruct Sk as (Sk & Sq).
    unfold ctl_orthogonal. rewrite Eq. cbn [orbiting_ctl].
    match goal with |- context [orbiting_ctl (t_effect ?x)] => change (t_effect x) with (t_effect (p_tides q)) end. rewrite Eq. cbn [orbiting_ctl].
    set (o1 := ndiv (nmul (nmul (nmul (nlit 9 2) (npow (p_mass q) 2)) (npow (p_radius k) 10)) (host_sigma m' k q)) (npow (t_distance (p_tides q)) 7)).
    set (q1 := on_tides (set_t_orth_star o1) q).
    set (o2 := ndiv _ (npow (t_distance (p_tides q1)) 7)).
    assert (Pos : t_pos (p_tides q) = Vec 10 0 0 /\ t_vel (p_tides q) = vzero /\ t_distance (p_tides q) = 10 /\ t_pos_dot_star_spin (p_tides q) = 0 /\ t_pos_dot_planet_spin (p_tides q) = 0).
    { rewrite Tq. split; [exact X1|]. split; [exact X3|]. split; [exact X2|].
      assert (Y : forall s : vec R, vx s = 0 -> vdot (Vec 10 0 0) s = 0) by (intros [s1 s2 s3]; vunfold; intros ->; ring).
      split; [change (vdot (p_hpos p) (p_spin h) = 0)|change (vdot (p_hpos p) (p_spin p) = 0)]; rewrite X1; auto. }
    destruct Pos as (P1 & P2 & P3 & P4 & P5).
    assert (O1 : o1 = 9 / 2 / 10 ^ 7).
    { unfold o1, host_sigma, get_pair_or_else. rewrite Dk, Mq, Rk, Sk, P3, !npow_pow. num_simpl. field. }
    assert (O2 : o2 = 0).
    { unfold o2. change (planet_sigma m' k q1) with (planet_sigma m' k q). unfold planet_sigma, get_pair_or_else. rewrite Dq, Sq. num_simpl. unfold Rdiv. rewrite Rmult_0_r, !Rmult_0_l. reflexivity. }
    clearbody o1 o2. unfold ctl_torque.
    change (p_spin (on_tides (set_t_orth_planet o2) q1)) with (p_spin q).
    change (p_tides (on_tides (set_t_orth_planet o2) q1)) with (set_t_orth_planet o2 (set_t_orth_star o1 (p_tides q))).
    cbn [t_pos t_vel t_distance t_pos_dot_star_spin t_pos_dot_planet_spin t_orth_star t_orth_planet set_t_orth_planet set_t_orth_star].
    rewrite P1, P2, P3, P4, P5, O1, O2, Sh, Sp, L1, L2, I1, I2. unfold drag. vunfold.
    split; [f_equal; field|]. split; [f_equal; field|]. split; [field|]. split; [field|].
    rewrite !(Vf _ tide_par) by reflexivity. rewrite K1, K2. unfold tide_par. rewrite Ek, Eq, Sk, Sq, Hc, Hc', S1, S2. auto.
  Qed.

  Lemma slow_tidal : tidal_system slow_u.
  Proof.
    unfold tidal_system. cbn zeta. split; [exists slow_star; split; [reflexivity|]; split; [eexists; reflexivity|intro X; discriminate X]|].
    split; [repeat constructor; eexists; reflexivity|]. split; [intro X; discriminate X|]. repeat (split; [reflexivity|]).
    repeat constructor; cbn; lra.
  Qed.
  Lemma slow_square : roche_square slow_u.
  Proof. split; [reflexivity|]. repeat constructor. Qed.
  Lemma slow_step : exists u', lf_step 0 2 1 slow_u = Ok u'.
  Proof.
    destruct (gravities_two (Vec 0 0 0) 1 1 (Vec 10 0 0) 1 1 0) as (accs & G0).
    - vunfold. nra.
    - vunfold. nra.
    - right. unfold MAX_DISTANCE_2, MAX_DISTANCE. vunfold. num_simpl. nra.
    - apply (simple_step_ok 0 2 1 slow_u accs).
      + unfold simple_system. repeat (split; [reflexivity || (cbn; lia)|]). repeat constructor.
      + reflexivity.
      + discriminate.
      + cbn [map u_particles slow_u forallb]. unfold kinert. cbn [core k_inertia at_ slow_star slow_planet p_inertia set_p_ivel set_p_ipos set_p_tides new_particle npow].
        num_simpl. rewrite !(proj2 (Reqb_false _ _)) by lra. reflexivity.
      + rewrite <- G0. f_equal. cbn [map u_particles slow_u]. unfold kview, kdrift, core.
        cbn [k_pos k_radius k_mass k_vel k_inertia at_ slow_star slow_planet p_ipos p_ivel p_mass p_radius set_p_ivel set_p_ipos set_p_tides new_particle].
        repeat f_equal; vunfold; f_equal; ring.
  Qed.
  Definition seen_by_tides (p : P) := ((p_mass p, p_ipos p, p_ivel p, (p_L p, p_inertia p)), p_radius p, tide_par p, p_spin p).
  Definition mechanical (p : P) := (p_mass p, p_ipos p, p_ivel p, (p_L p, p_inertia p), p_radius p).
  Lemma slow_change u' : lf_step 0 2 1 slow_u = Ok u' -> whole_momentum (u_particles u') = vadd (whole_momentum (u_particles slow_u)) (Vec 0 0 (- drag ^ 2)).
  Proof.
    intro E. destruct (step_angular 0 2 1 slow_u u' slow_tidal slow_square ltac:(lra) E) as (us & um0 & um & Es & Em0 & Em & -> & _). f_equal.
    destruct (inertial_to_heliocentric slow_u) as [u1|] eqn:E1; [|discriminate Es]. cbn [rbind] in Es.
    destruct (gravity IgnoreNone (on_bodies (lf_drift 1) us)) as [u4|] eqn:E4; [|discriminate Em0]. cbn [rbind] in Em0.
    change (h_most_massive (u_hosts slow_u)) with O.
    assert (P1 : u_particles u1 = [heliocentric_host slow_star; heliocentric slow_star slow_planet]) by (clear - E1; unfold inertial_to_heliocentric in E1; cbn in E1; apply ok_inj in E1; subst u1; reflexivity).
    destruct (i2h_rest _ _ E1) as (Re1 & _ & Rr1 & Rh1).
    assert (S1 : tidal_system u1) by (apply (tidal_by_parts slow_u); [exact Re1|exact Rh1|apply (EffectSums.i2h_view (part false)); [reflexivity|reflexivity|exact E1]|exact slow_tidal]).
    pose proof (system_kept _ _ _ _ _ _ S1 Es) as S2.
    assert (Q10 : sqrt (10 * 10) = 10) by (apply sqrt_square; lra).
    assert (A1 : at_rest 1 (heliocentric_host slow_star) (heliocentric slow_star slow_planet)).
    { split; [eexists; reflexivity|]. split; [eexists; reflexivity|]. split; [split; cbn; ring|]. split; [split; reflexivity|]. split; [split; reflexivity|].
      split; [split; cbn; ring|]. split; [split; unfold slow_star, slow_planet; cbn; vunfold; f_equal; ring|]. split; [split; reflexivity|].
      split; [cbn; vunfold; f_equal; ring|]. split; [|cbn; vunfold; f_equal; ring].
      rewrite <- Q10. cbn. f_equal. vunfold. ring. }
    destruct (rest_eval 0 false u1 us _ _ 1 S1 ltac:(now rewrite Re1) ltac:(now rewrite Rh1) P1 A1 Es) as (hs & ps & Ps & D1 & D2 & Z1 & Z2 & K1 & K2).
    assert (Bl : blind_step (F := R) (u_effects slow_u) mechanical).
    { split; unfold blind, blind_iadd, blind_dL, blind_effects, blind_spin, blind_evolution, blind_tides, blind_rf, blind_gr, blind_disk, blind_wind; auto 12.
      split; [auto 12|]. split; [auto|]. intro X; discriminate X. }
    destruct (evaluation_view _ _ _ _ _ _ _ _ _ Bl E1 Es) as (B2 & St2). rewrite Ps in B2. cbn [map u_particles slow_u] in B2.
    apply cons_eq in B2. destruct B2 as (Bh & B2). apply cons_eq in B2. destruct B2 as (Bp & _).
    set (u3 := on_bodies (lf_drift 1) us) in E4.
    assert (P3 : u_particles u3 = [lf_drift 1 hs; lf_drift 1 ps]) by (unfold u3, on_bodies; cbn [u_particles set_particles]; rewrite Ps; reflexivity).
    assert (Lr3 : length (u_roche u3) = length (u_particles u3)) by (rewrite P3; unfold u3, on_bodies; cbn [u_roche set_particles]; rewrite (proj2 (proj2 (proj2 St2)) : u_roche us = _); reflexivity).
    destruct (gravity_view seen_by_tides _ _ _ (fun _ _ => eq_refl) Lr3 E4) as (V4 & St4). rewrite P3 in V4. cbn [map] in V4.
    destruct (u_particles u4) as [|h4 [|p4 [|x4 l4]]] eqn:P4; try discriminate V4. cbn [map] in V4.
    apply cons_eq in V4. destruct V4 as (Vh & V4). apply cons_eq in V4. destruct V4 as (Vp & _).
    destruct (i2h_rest _ _ Em0) as (Re5 & _ & Rr5 & Rh5).
    assert (Re4 : u_effects u4 = u_effects slow_u) by (rewrite (proj1 St4); exact (proj1 St2)).
    assert (Rh4 : u_hosts u4 = u_hosts slow_u) by (rewrite (proj1 (proj2 St4)); exact (proj1 (proj2 St2))).
    assert (P5 : u_particles um0 = [heliocentric_host h4; heliocentric h4 p4]).
    { pose proof (heliocentric_spec u4 um0 h4) as X. rewrite Rh4, P4 in X. change (h_most_massive (u_hosts slow_u)) with O in X.
      pose proof (EffectSums.i2h_view (fun _ => tt) _ _ (fun _ => eq_refl) (fun _ _ => eq_refl) Em0) as L5. rewrite P4 in L5. cbn [map] in L5.
      destruct (u_particles um0) as [|h5 [|p5 [|x5 l5]]]; try discriminate L5.
      pose proof (X O h5 Em0 eq_refl eq_refl) as X1. cbn [Nat.eqb] in X1. subst h5. pose proof (X 1%nat p5 Em0 eq_refl eq_refl) as X1. cbn [Nat.eqb nth_error] in X1. destruct X1 as (p & X1 & ->). apply some_eq in X1. now subst p. }
    assert (S3 : tidal_system u3).
    { apply (tidal_by_parts us); [reflexivity|reflexivity| |exact S2]. unfold u3, on_bodies. cbn [u_particles set_particles]. apply map_same. reflexivity. }
    destruct (gravity_view (part (e_rf (u_effects u3))) _ _ _ (fun _ _ => eq_refl) Lr3 E4) as (W4 & _).
    assert (S4 : tidal_system u4) by (apply (tidal_by_parts u3); [apply St4|apply St4|exact W4|exact S3]).
    assert (S5 : tidal_system um0) by (apply (tidal_by_parts u4); [exact Re5|exact Rh5|apply (EffectSums.i2h_view (part _)); [reflexivity|reflexivity|exact Em0]|exact S4]).
    assert (Dh : forall q : P, seen_by_tides (lf_drift 1 q) =
       (p_mass q, vadd (p_ipos q) (vscale 1 (p_ivel q)), p_ivel q, (vadd (p_L q) (vmulr (p_dL q) 1), p_inertia q), p_radius q, tide_par q, p_spin q)) by reflexivity.
    rewrite Dh in Vh, Vp. clear Dh.
    assert (Mh : p_mass hs = 1 /\ p_ipos hs = vzero /\ p_ivel hs = vzero /\ p_L hs = Vec 0 0 1 /\ p_inertia hs = 1 /\ p_radius hs = 1).
    { pose proof Bh as X. change (mechanical slow_star) with (1, @vzero R _, @vzero R _, (vscale (1 * (1 * 1) * (1 * 1)) (Vec 0 0 1), 1 * (1 * 1) * (1 * 1)), 1) in X. unfold mechanical in X.
      rewrite (f_equal (fun x => fst (fst (fst (fst x)))) X : p_mass hs = _), (f_equal (fun x => snd (fst (fst (fst x)))) X : p_ipos hs = _), (f_equal (fun x => snd (fst (fst x))) X : p_ivel hs = _),
        (f_equal (fun x => fst (snd (fst x))) X : p_L hs = _), (f_equal (fun x => snd (snd (fst x))) X : p_inertia hs = _), (f_equal snd X : p_radius hs = _).
      cbn [fst snd]. split; [reflexivity|]. split; [reflexivity|]. split; [reflexivity|]. split; [vunfold; f_equal; ring|]. split; [ring|reflexivity]. }
    assert (Mp : p_mass ps = 1 /\ p_ipos ps = Vec 10 0 0 /\ p_ivel ps = vzero /\ p_L ps = vzero /\ p_inertia ps = 1 /\ p_radius ps = 1).
    { pose proof Bp as X. change (mechanical slow_planet) with (1, Vec 10 0 0, @vzero R _, (vscale (1 * (1 * 1) * (1 * 1)) (@vzero R _), 1 * (1 * 1) * (1 * 1)), 1) in X. unfold mechanical in X.
      rewrite (f_equal (fun x => fst (fst (fst (fst x)))) X : p_mass ps = _), (f_equal (fun x => snd (fst (fst (fst x)))) X : p_ipos ps = _), (f_equal (fun x => snd (fst (fst x))) X : p_ivel ps = _),
        (f_equal (fun x => fst (snd (fst x))) X : p_L ps = _), (f_equal (fun x => snd (snd (fst x))) X : p_inertia ps = _), (f_equal snd X : p_radius ps = _).
      cbn [fst snd]. split; [reflexivity|]. split; [reflexivity|]. split; [reflexivity|]. split; [vunfold; f_equal; ring|]. split; [ring|reflexivity]. }
    destruct Mh as (Mh1 & Mh2 & Mh3 & Mh4 & Mh5 & Mh6), Mp as (Mp1 & Mp2 & Mp3 & Mp4 & Mp5 & Mp6).
    rewrite Mh1, Mh2, Mh3, Mh4, Mh5, Mh6, D1, K1 in Vh. rewrite Mp1, Mp2, Mp3, Mp4, Mp5, Mp6, D2, K2 in Vp.
    assert (N0 : vadd vzero (vscale 1 vzero) = @vzero R _) by (vunfold; f_equal; ring).
    assert (N1 : vadd (Vec 10 0 0) (vscale 1 vzero) = Vec 10 0 0) by (vunfold; f_equal; ring).
    assert (N2 : vadd (Vec 0 0 1) (vmulr (Vec 0 0 (- drag * 1)) 1) = Vec 0 0 (1 - drag)) by (vunfold; f_equal; ring).
    assert (N3 : vadd vzero (vmulr vzero 1) = @vzero R _) by (vunfold; f_equal; ring).
    rewrite N0, N2 in Vh. rewrite N1, N3 in Vp. unfold seen_by_tides in Vh, Vp.
    pose proof (f_equal (fun x => fst (fst (fst (fst (fst (fst x)))))) Vh : p_mass h4 = 1) as Wh1. pose proof (f_equal (fun x => snd (fst (fst (fst (fst (fst x)))))) Vh : p_ipos h4 = vzero) as Wh2.
    pose proof (f_equal (fun x => snd (fst (fst (fst (fst x))))) Vh : p_ivel h4 = vzero) as Wh3. pose proof (f_equal (fun x => fst (snd (fst (fst (fst x))))) Vh : p_L h4 = Vec 0 0 (1 - drag)) as Wh4.
    pose proof (f_equal (fun x => snd (snd (fst (fst (fst x))))) Vh : p_inertia h4 = 1) as Wh5. pose proof (f_equal (fun x => snd (fst (fst x))) Vh : p_radius h4 = 1) as Wh6.
    pose proof (f_equal (fun x => snd (fst x)) Vh : tide_par h4 = tide_par slow_star) as Wh7. pose proof (f_equal snd Vh : p_spin h4 = p_spin hs) as Wh8.
    pose proof (f_equal (fun x => fst (fst (fst (fst (fst (fst x)))))) Vp : p_mass p4 = 1) as Wp1. pose proof (f_equal (fun x => snd (fst (fst (fst (fst (fst x)))))) Vp : p_ipos p4 = Vec 10 0 0) as Wp2.
    pose proof (f_equal (fun x => snd (fst (fst (fst (fst x))))) Vp : p_ivel p4 = vzero) as Wp3. pose proof (f_equal (fun x => fst (snd (fst (fst (fst x))))) Vp : p_L p4 = vzero) as Wp4.
    pose proof (f_equal (fun x => snd (snd (fst (fst (fst x))))) Vp : p_inertia p4 = 1) as Wp5. pose proof (f_equal (fun x => snd (fst (fst x))) Vp : p_radius p4 = 1) as Wp6.
    pose proof (f_equal (fun x => snd (fst x)) Vp : tide_par p4 = tide_par slow_planet) as Wp7. pose proof (f_equal snd Vp : p_spin p4 = p_spin ps) as Wp8.
    clear Vh Vp.
    assert (A5 : at_rest (1 - drag) (heliocentric_host h4) (heliocentric h4 p4)).
    { pose proof (f_equal fst Wh7 : t_sigma (p_tides h4) = 1 * 1) as Y1. pose proof (f_equal snd Wh7 : t_effect (p_tides h4) = _) as Y2.
      pose proof (f_equal fst Wp7 : t_sigma (p_tides p4) = 0 * 0) as Y3. pose proof (f_equal snd Wp7 : t_effect (p_tides p4) = _) as Y4.
      split; [eexists; exact Y2|]. split; [eexists; exact Y4|]. split; [split; [transitivity (1 * 1); [exact Y1|ring]|transitivity (0 * 0); [exact Y3|ring]]|].
      split; [exact (conj Wh1 Wp1)|]. split; [exact (conj Wh6 Wp6)|]. split; [exact (conj Wh5 Wp5)|]. split; [exact (conj Wh4 Wp4)|].
      assert (Hp : p_hpos (heliocentric h4 p4) = Vec 10 0 0).
      { change (vsub (p_ipos p4) (p_ipos h4) = Vec 10 0 0). rewrite Wp2, Wh2. vunfold. f_equal; ring. }
      split; [split; [change (vx (p_spin h4) = 0); now rewrite Wh8|change (vx (p_spin p4) = 0); now rewrite Wp8]|]. split; [exact Hp|]. split.
      - change (sqrt (norm2 (p_hpos (heliocentric h4 p4))) = 10). rewrite Hp. replace (norm2 (Vec 10 0 0)) with (10 * 10) by (vunfold; ring). exact Q10.
      - change (vsub (p_ivel p4) (p_ivel h4) = vzero). rewrite Wp3, Wh3. vunfold. f_equal; ring. }
    destruct (rest_eval (0 + 1) true um0 um _ _ (1 - drag) S5 ltac:(now rewrite Re5, Re4) ltac:(now rewrite Rh5, Rh4) P5 A5 Em) as (hm & pm & Pm & Dm1 & Dm2 & Zm1 & Zm2 & Km1 & Km2).
    rewrite P5, Pm, Ps. unfold spin_torque, stale_torques. cbn [nth_error others firstn skipn app combine map fst snd Vsum fold_right]. rewrite D1, D2, Dm1, Dm2.
    match goal with |- context [stale_torque ?a ?b ?c ?d] => assert (Z : stale_torque a b c d = vzero) end.
    { assert (B6 : blind_step (F := R) (u_effects u4) mechanical) by (rewrite Re4; exact Bl).
      destruct (evaluation_view _ _ _ _ _ _ _ _ _ B6 Em0 Em) as (B5 & _). rewrite Pm, P4 in B5. cbn [map] in B5.
      apply cons_eq in B5. destruct B5 as (Bh5 & B5). apply cons_eq in B5. destruct B5 as (Bp5 & _).
      pose proof (f_equal (fun x => snd (fst (fst (fst x)))) Bh5 : p_ipos hm = p_ipos h4) as I1. pose proof (f_equal (fun x => snd (fst (fst (fst x)))) Bp5 : p_ipos pm = p_ipos p4) as I2.
      rewrite Wh2 in I1. rewrite Wp2 in I2.
      unfold stale_torque, ctl_only. rewrite I1, I2. change (p_spin (heliocentric_host h4)) with (p_spin h4). change (p_spin (heliocentric h4 p4)) with (p_spin p4). rewrite Wh8, Wp8.
      assert (Al : forall s r m (w w' : vec R), vx w = 0 -> vx w' = 0 -> along_torque s r m (vsub w w') (vsub (Vec 10 0 0) vzero) = vzero).
      { intros s r m [w1 w2 w3] [x1 x2 x3]. cbn [vx]. intros -> ->. unfold along_torque. replace (vdot (vsub (Vec 10 0 0) vzero) (vsub (Vec 0 w2 w3) (Vec 0 x2 x3))) with 0 by (vunfold; ring).
        rewrite Rmult_0_r. generalize (vsub (Vec 10 0 0) (@vzero R _)). vring. }
      destruct (t_effect (p_tides pm)) as [|[]|]; try reflexivity. rewrite !Al by assumption. vring. }
    rewrite Z. vunfold. f_equal; ring.
  Qed.
  Lemma slow_clear : clear_of_host slow_u.
  Proof.
    intros h Eh. injection Eh as <-. repeat constructor. intro X. apply (f_equal vx) in X. cbn in X. lra.
  Qed.
  Lemma slow_fresh : Forall fresh (u_particles slow_u).
  Proof. repeat constructor; unfold fresh; cbn; vunfold; f_equal; field. Qed.
  Lemma drag_pos : 0 < drag.
  Proof. unfold drag. lra. Qed.
  Theorem step_not_conserving : exists u u', tidal_system u /\ roche_square u /\ lf_step 0 2 1 u = Ok u' /\ whole_momentum (u_particles u') <> whole_momentum (u_particles u).
  Proof.
    destruct slow_step as (u' & E). exists slow_u, u'. split; [exact slow_tidal|]. split; [exact slow_square|]. split; [exact E|].
    rewrite (slow_change u' E). generalize (whole_momentum (u_particles slow_u)). intros [a b c] X. pose proof drag_pos. apply (f_equal vz) in X. vunfold. nra.
  Qed.
End Two.
