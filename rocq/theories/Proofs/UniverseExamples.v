(** Concrete universes *)
From Coq Require Import Reals Lra Psatz List Bool Arith Lia Permutation.
From Verif Require Import Base.Num Base.Result Base.Trans Base.Vec Model.Constants Model.Particle Model.Host
  Model.Interp Model.Wind Model.Disk Model.Kaula Model.Creep Model.Tides Model.Flattening Model.Relativity Model.Universe Model.LeapFrog
  Spec.EffectsSpec Spec.UniverseSpec
  Proofs.NumLemmas Proofs.VecLemmas Proofs.GravityProofs Proofs.LeapFrogProofs Proofs.UniverseProofs Proofs.DiskProofs Proofs.FrameProofs
  Proofs.EffectSums.
Import ListNotations.
Open Scope R_scope.

Definition no_effects : effects := Effects false false false false false false.
Definition wind_effects : effects := Effects false false false false true false.
Definition all_effects : effects := Effects true true true true true true.

Definition sun : particle R := set_p_wind (new_wind true (1/1000000) 1) (new_particle G 1 (1/100) (1/2) vzero vzero (Vec 0 0 1)).
Definition earth : particle R := new_particle G (1/10) (1/100) (1/2) (Vec 10 0 0) (Vec 0 (1/10) 0) (Vec 0 0 1).

Section Built.
  Context `{Trans R} `{Floor R} `{Fuel}.
  Variable mk : evolution R -> R -> R -> evolver R.
  Lemma built : exists u, new_universe mk 0 1 [sun; earth] all_effects = Ok u /\ u_effects u = wind_effects.
  Proof.
    unfold new_universe.
    assert (E1 : disable_unnecessary all_effects [sun; earth] = Ok wind_effects) by reflexivity.
    rewrite E1. cbn [rbind].
    assert (E2 : exists h, find_indices [sun; earth] wind_effects = Ok h) by (eexists; reflexivity).
    destruct E2 as (h & E2). rewrite E2. cbn [rbind wind_effects e_gr e_evolution].
    match goal with |- context [Nat.ltb ?a ?b] => change (Nat.ltb a b) with false end. cbv iota. cbn [rbind].
    eexists. split; reflexivity.
  Qed.
End Built.
Lemma pair_masses : Forall (fun p => 0 <= p_mass p) [sun; earth] /\ 0 < total_mass [sun; earth].
Proof.
  split; [repeat constructor; cbn; lra|]. unfold total_mass. cbn. lra.
Qed.

(** the same two bodies, already in an inertial frame, host first *)
Definition at_ (x v : vec R) (p : particle R) : particle R := set_p_ivel v (set_p_ipos x p).
Definition pair_u (e : effects) : universe R :=
  Universe 0 1 [at_ (Vec (-1) 0 0) (Vec 0 (-1/100) 0) sun; at_ (Vec 9 0 0) (Vec 0 (9/100) 0) earth] [] [] e GrImplDisabled
    (Hosts 0 NO_HOST NO_HOST NO_HOST NO_HOST true false false false false) [] [[0; 0]; [0; 0]].
Lemma pair_square e : roche_square (pair_u e).
Proof. split; [reflexivity|]. repeat constructor. Qed.
Lemma pair_hosted e : hosted (pair_u e).
Proof. unfold hosted. cbn. lia. Qed.

Lemma gravities_two x1 r1 m1 x2 r2 m2 mm : let d2 := norm2 (vsub x1 x2) in
  0 < d2 -> (r1 + r2) * (r1 + r2) < d2 -> (mm <> O \/ d2 <= MAX_DISTANCE_2) ->
  exists accs, gravities IgnoreNone mm [(x1, r1, m1); (x2, r2, m2)] [[0; 0]; [0; 0]] = Ok accs.
Proof.
  intros d2 Hd Hr Hm. unfold gravities, gon, gp, gravity_pair.
  cbn [enumerate combine length seq rmap rfold Nat.eqb Nat.ltb Nat.leb rbind gravity_ignored p_ipos p_radius p_mass set_p_ipos set_p_radius set_p_mass npow].
  assert (E : vx (vsub x1 x2) * vx (vsub x1 x2) + vy (vsub x1 x2) * vy (vsub x1 x2) + vz (vsub x1 x2) * vz (vsub x1 x2) = d2).
  { unfold d2. destruct x1, x2. vunfold. ring. }
  num_simpl. rewrite E.
  rewrite (proj2 (Rleb_false d2 (0 * 0))) by lra. rewrite (proj2 (Rleb_false d2 ((r1 + r2) * (r1 + r2)))) by exact Hr.
  assert (X : (Rltb 0 MAX_DISTANCE_2 && match mm with O => true | S _ => false end && Rltb MAX_DISTANCE_2 d2)%bool = false).
  { destruct Hm as [Hm|Hm]; [destruct mm; [now elim Hm|]; now rewrite andb_false_r|]. rewrite (proj2 (Rltb_false MAX_DISTANCE_2 d2)) by exact Hm. now rewrite !andb_false_r. }
  rewrite X. cbn [rbind]. eauto.
Qed.

Lemma pair_gravity : exists accs,
  gravities IgnoreNone 0 (map kview (map (kdrift (1 / 2)) (map core (u_particles (pair_u no_effects))))) [[0; 0]; [0; 0]] = Ok accs.
Proof.
  cbn [map u_particles pair_u]. unfold kview, kdrift, core. cbn [k_pos k_radius k_mass k_vel k_inertia at_ sun earth p_ipos p_ivel p_mass p_radius set_p_ivel set_p_ipos set_p_wind new_particle].
  apply gravities_two.
  - vunfold. nra.
  - vunfold. nra.
  - right. unfold MAX_DISTANCE_2, MAX_DISTANCE. vunfold. num_simpl. nra.
Qed.
Section Runs.
  Context `{Trans R} `{Floor R} `{Fuel}.
  Lemma pair_inert : forallb kinert (map core (u_particles (pair_u no_effects))) = true.
  Proof.
    cbn [map u_particles pair_u forallb]. unfold kinert. cbn [core k_inertia at_ sun earth p_inertia set_p_ivel set_p_ipos set_p_wind new_particle npow].
    num_simpl. rewrite !(proj2 (Reqb_false _ _)) by lra. reflexivity.
  Qed.
  Lemma pair_run : exists u', lf_steps 1 0 1 (1 / 2) (pair_u no_effects) = Ok u'.
  Proof.
    destruct pair_gravity as (accs & G1).
    destruct (lf_step_ok 0 1 (1 / 2) (pair_u no_effects)
       (map (fun ka => kdrift (1 / 2) (kkick 1 ka)) (combine (map (kdrift (1 / 2)) (map core (u_particles (pair_u no_effects)))) accs))) as (u' & E).
    - reflexivity.
    - apply pair_square.
    - apply pair_hosted.
    - unfold kstep. rewrite pair_inert. change (u_roche (pair_u no_effects)) with [[0; 0]; [0; 0 : R]].
      change (h_most_massive (u_hosts (pair_u no_effects))) with O. rewrite G1. reflexivity.
    - exists u'. cbn [lf_steps]. rewrite E. reflexivity.
  Qed.

  (** the wind alone *)
  Lemma wind_eval_ok t acc (u : universe R) : wind_only u -> (h_most_massive (u_hosts u) <= length (u_particles u))%nat ->
    forallb kinert (map core (u_particles u)) = true -> exists u', additional_effects t true true acc IgnoreNone u = Ok u'.
  Proof.
    intros Hw Hh Hi. unfold additional_effects. rewrite initialize_eq.
    assert (E0 : init_list true acc u = Ok (wind_initialize (u_particles u))).
    { destruct (init_list true acc u) as [l0|e] eqn:E0; [f_equal; now apply wind_init in E0|].
      exfalso. revert E0. unfold init_list. rewrite Hw. cbn [e_tides e_rf e_gr e_disk e_wind e_evolution andb orb]. rewrite !andb_false_r. cbn [orb andb].
      destruct (with_host_ok (h_most_massive (u_hosts u)) (wind_initialize (u_particles u)) (fun a b => (a, b))) as (l' & E').
      { unfold wind_initialize. rewrite map_length. exact Hh. }
      unfold opt_step. cbn [andb]. rewrite E'. cbn [rbind]. destruct (negb _); intro X; discriminate X. }
    rewrite E0. cbn [rbind]. set (l1 := if acc then _ else _).
    assert (C1 : map core l1 = map core (u_particles u)).
    { unfold l1. transitivity (map core (wind_initialize (u_particles u))).
      - destruct acc; auto. apply map_same. reflexivity.
      - apply map_same. intro p. destruct (w_on _); reflexivity. }
    clearbody l1. unfold spin_and_evolving. cbn [u_effects set_particles u_particles u_evolvers]. rewrite Hw. cbn [e_evolution andb rbind fst snd].
    destruct (refresh_ok l1) as (l2 & E2); [now rewrite C1|]. rewrite E2. cbn [rbind fst snd].
    cbn [u_effects set_particles set_evolvers u_particles u_evolvers u_hosts]. rewrite Hw. cbn [e_tides e_rf e_gr e_disk e_wind e_evolution andb orb].
    rewrite wind_tides by exact Hw. cbn [rbind]. rewrite andb_false_r. cbn [rbind]. eauto.
  Qed.
  Ltac blinds := unfold blind, blind_effects, blind_tides, blind_rf, blind_gr, blind_disk, blind_wind, blind_spin, blind_evolution,
    blind_iadd, blind_dL; repeat split; intros; try reflexivity; try congruence.
  Lemma wind_core t acc (u u' : universe R) : wind_only u -> additional_effects t true true acc IgnoreNone u = Ok u' ->
    map core (u_particles u') = map core (u_particles u) /\ u_hosts u' = u_hosts u /\ u_roche u' = u_roche u /\ wind_only u'.
  Proof.
    intros Hw E. assert (Hb : blind (u_effects u) core) by (rewrite Hw; blinds; discriminate).
    apply (evaluation_frame core) in E; [|exact Hb|blinds|blinds]. destruct E as (A & B & C & _ & D & _). unfold wind_only in *. rewrite B, C. auto.
  Qed.
  Lemma pair_wind_run : exists u', lf_steps 1 0 1 (1 / 2) (pair_u wind_effects) = Ok u'.
  Proof.
    cbn [lf_steps]. cut (exists u', lf_step 0 1 (1 / 2) (pair_u wind_effects) = Ok u'); [intros (u' & ->); cbn [rbind]; eauto|].
    unfold lf_step. set (u := pair_u wind_effects).
    assert (W0 : wind_only u) by reflexivity.
    destruct (i2h_ok u (pair_hosted _)) as (u1 & E1). rewrite E1. cbn [rbind].
    destruct (i2h_frame _ _ E1) as ((Fr1 & Fh1 & Fe1 & Fl1 & Fd1) & C1 & _).
    assert (W1 : wind_only u1) by (unfold wind_only in *; congruence).
    destruct (wind_eval_ok 0 false u1) as (u2 & E2); [exact W1|rewrite Fh1, Fl1; cbn; lia|rewrite C1; exact pair_inert|].
    rewrite E2. cbn [rbind]. destruct (wind_core _ _ _ _ W1 E2) as (C2 & Fh2 & Fr2 & W2).
    unfold gravity. unfold on_bodies at 1 2 3 4 5. cbn [u_particles set_particles u_hosts u_roche]. rewrite !map_length.
    assert (L2 : length (u_particles u2) = 2%nat) by (rewrite <- (map_length core), C2, C1; reflexivity). rewrite L2. cbn [Nat.eqb].
    rewrite gravities_view.
    assert (V3 : map gview (map (lf_drift (1 / 2)) (u_particles u2)) = map kview (map (kdrift (1 / 2)) (map core (u_particles u)))).
    { rewrite <- C1, <- C2, !map_map. apply map_ext. reflexivity. }
    rewrite V3, Fh2, Fh1, Fr2, Fr1. destruct pair_gravity as (accs & G3). 
    change (u_roche u) with [[0; 0]; [0; 0 : R]]. change (h_most_massive (u_hosts u)) with O. change (u_particles u) with (u_particles (pair_u no_effects)).
    rewrite G3. cbn [rbind].
    assert (La : length accs = 2%nat) by (pose proof (rmap_length _ _ _ G3) as La; rewrite La; reflexivity).
    set (l3 := map (fun pa => set_p_iacc (snd pa) (fst pa)) _).
    assert (C3 : map core l3 = map core (map (lf_drift (1 / 2)) (u_particles u2))).
    { unfold l3. apply zip_same; [cbn [u_particles set_particles on_bodies]; rewrite map_length; congruence|reflexivity]. }
    assert (C3' : map core l3 = map (kdrift (1 / 2)) (map core (u_particles u))) by (rewrite C3, <- C1, <- C2, !map_map; apply map_ext; reflexivity).
    clearbody l3. set (u3 := set_particles l3 _).
    assert (H3 : hosted u3). { unfold hosted, u3. cbn [u_hosts u_particles u_dummies set_particles on_bodies]. rewrite Fh2, Fh1. cbn. lia. }
    destruct (i2h_ok u3 H3) as (u4 & E4). rewrite E4. cbn [rbind].
    destruct (i2h_frame _ _ E4) as ((Fr4 & Fh4 & Fe4 & Fl4 & Fd4) & C4 & _).
    assert (W4 : wind_only u4) by (unfold wind_only in *; rewrite Fe4; exact W2).
    destruct (wind_eval_ok (nadd 0 (1 / 2)) true u4) as (u5 & E5).
    - exact W4.
    - rewrite Fh4. change (u_hosts u3) with (u_hosts u2). rewrite Fh2, Fh1. cbn. lia.
    - rewrite C4. change (u_particles u3) with l3. rewrite C3'. rewrite <- pair_inert. reflexivity.
    - rewrite E5. cbn [rbind]. eauto.
  Qed.
  Lemma pair_braked : braked (1 / 2) (rotation (at_ (Vec (-1) 0 0) (Vec 0 (-1/100) 0) sun)).
  Proof.
    pose proof R_SUN_pos as HR. unfold braked, rotation, rot_strength.
    cbn [r_on r_rest r_k r_sat r_sat2 r_radius r_mass r_I r_L at_ sun set_p_ivel set_p_ipos set_p_wind new_particle p_tides p_rf p_gr p_wind p_L p_inertia p_radius p_mass
         new_wind w_on w_k_factor w_saturation w_saturation2 new_tides new_flattening new_relativity t_dL rf_dL gr_dL npow].
    num_simpl. repeat split; try lra.
    - rewrite !vadd_0_l. reflexivity.
    - intro X. unfold vscale, vzero in X. cbn [vx vy vz] in X. num_simpl. injection X as X. lra.
    - replace (norm2 (vscale (1 * (1 / 2 * (1 / 2)) * (1 / 100 * (1 / 100))) (Vec 0 0 1))) with ((1/40000) * (1/40000)) by (vunfold; field).
      rewrite sqrt_square by lra. replace (1 / 40000 / (1 * (1 / 2 * (1 / 2)) * (1 / 100 * (1 / 100)))) with 1 by field.
      rewrite Rmin_left by lra.
      assert (B : sqrt (1 / 100 / (R_SUN * 1)) <= 10).
      { rewrite <- (sqrt_square 10) by lra. apply sqrt_le_1_alt. unfold R_SUN, AU. num_simpl. apply Rmult_le_reg_r with (695700000 / 149597870700); [lra|].
        field_simplify; lra. }
      lra.
  Qed.
End Runs.

(** the speed relative to a host whose cached velocity is not zero *)
Definition stale_u : universe R :=
  Universe 0 1 [set_p_hvel (Vec 1 0 0) sun; at_ (Vec 9 0 0) (Vec 1 0 0) earth] [] [] no_effects GrImplDisabled
    (Hosts 0 NO_HOST NO_HOST NO_HOST NO_HOST true false false false false) [] [[0; 0]; [0; 0]].
Lemma stale_speed : exists u' p' : _, inertial_to_heliocentric stale_u = Ok u' /\ nth_error (u_particles u') 1 = Some p'
  /\ p_hvel p' = Vec 1 0 0 /\ p_hnorm p' = 0.
Proof.
  destruct (i2h_ok stale_u) as (u' & E); [unfold hosted; cbn; lia|].
  destruct (i2h_frame _ _ E) as ((_ & _ & _ & Fl & _) & _).
  destruct (nth_error (u_particles u') 1) as [p'|] eqn:Ep; [|apply nth_error_None in Ep; rewrite Fl in Ep; cbn in Ep; lia].
  destruct (heliocentric_most stale_u u' (set_p_hvel (Vec 1 0 0) sun) 1 p' E) as (p & Hp & (R1 & R2 & _) & Hn); [reflexivity|discriminate|exact Ep|].
  exists u', p'. split; [exact E|]. split; [exact Ep|]. injection Hp as <-.
  assert (V : p_hvel p' = Vec 1 0 0).
  { rewrite R2. cbn [p_ivel at_ sun earth set_p_ivel set_p_ipos set_p_wind set_p_hvel new_particle]. vunfold. f_equal; ring. }
  split; [exact V|]. rewrite Hn, V. cbn [p_hvel set_p_hvel]. replace (norm2 (vsub (Vec 1 0 0) (Vec 1 0 0))) with 0 by (vunfold; ring). apply sqrt_0.
Qed.
(** an ejected body that is listed before the host *)
Definition ejected_u : universe R :=
  Universe 0 1 [at_ (Vec 200 0 0) vzero earth; sun] [] [] no_effects GrImplDisabled
    (Hosts 1 NO_HOST NO_HOST NO_HOST NO_HOST true false false false false) [] [[0; 0]; [0; 0]].
Lemma ejected_unseen : exists u', gravity IgnoreNone ejected_u = Ok u'.
Proof.
  unfold gravity. cbn [u_particles ejected_u length Nat.eqb].
  change (u_roche _) with [[0; 0]; [0; 0 : R]]. change (h_most_massive _) with 1%nat. rewrite gravities_view. cbn [map].
  destruct (gravities_two (Vec 200 0 0) (1 / 100) (1 / 10) vzero (1 / 100) 1 1) as (accs & E).
  - vunfold. lra.
  - vunfold. lra.
  - auto.
  - unfold gview. cbn [p_ipos at_ sun earth set_p_ivel set_p_ipos set_p_wind new_particle p_radius p_mass]. rewrite E. cbn [rbind]. eauto.
Qed.
Lemma ejected_heavy : heaviest (u_particles ejected_u) 1.
Proof.
  exists sun. split; [reflexivity|].
  assert (A : p_mass sun = 1) by reflexivity. assert (B : p_mass (at_ (Vec 200 0 0) vzero earth) = 1 / 10) by reflexivity.
  split; intros [|[|[|j]]] q; cbn [nth_error u_particles ejected_u]; intro E; try discriminate E; injection E as <-; rewrite ?A, ?B; try lra; try lia.
Qed.
Lemma ejected_far : MAX_DISTANCE < separation (at_ (Vec 200 0 0) vzero earth) sun.
Proof.
  unfold separation. replace (norm2 _) with (200 * 200).
  - rewrite sqrt_square by lra. unfold MAX_DISTANCE. num_simpl. lra.
  - cbn [p_ipos at_ sun earth set_p_ivel set_p_ipos set_p_wind new_particle]. vunfold. ring.
Qed.

Lemma ejection_checked (u u' : universe R) j a b : roche_square u -> gravity IgnoreNone u = Ok u' ->
  nth_error (u_particles u) (h_most_massive (u_hosts u)) = Some a -> nth_error (u_particles u) j = Some b ->
  (h_most_massive (u_hosts u) < j)%nat -> separation a b <= MAX_DISTANCE.
Proof.
  intros S E Ha Hb Hj. set (i := h_most_massive (u_hosts u)) in *. pose proof S as (S1 & S2).
  assert (Li : (i < length (u_roche u))%nat) by (rewrite S1; apply nth_error_Some; congruence).
  destruct (nth_error (u_roche u) i) as [row|] eqn:Er; [|apply nth_error_None in Er; lia].
  assert (Lr : length row = length (u_particles u)) by (rewrite Forall_forall in S2; apply S2; eapply nth_error_In; eauto).
  assert (Lj : (j < length row)%nat) by (rewrite Lr; apply nth_error_Some; congruence).
  destruct (nth_error row j) as [r|] eqn:Ej; [|apply nth_error_None in Ej; lia].
  destruct (gravity_checked u u' i j a b row r S E Ha Hb Hj Er Ej) as (_ & _ & M). specialize (M eq_refl).
  unfold separation. rewrite <- (sqrt_square MAX_DISTANCE); [|unfold MAX_DISTANCE; num_simpl; lra]. apply sqrt_le_1_alt. exact M.
Qed.
