(** Proofs about rotational flattening (real arithmetic) *)
From Coq Require Import Reals Lra Psatz List Bool ZArith Arith.
From Verif Require Import Base.Num Base.Result Base.Trans Base.Vec Model.Constants Model.Particle
  Model.Tools Model.Kaula Model.Creep Model.Tides Model.Flattening
  Proofs.NumLemmas Proofs.VecLemmas Proofs.TidesProofs Spec.EffectsSpec.
Import ListNotations.
Open Scope R_scope.

Ltac rfproj := cbn [set_p_L set_p_dL set_p_disk set_p_evo set_p_gr set_p_hdist set_p_hnorm set_p_hnorm2 set_p_hpos set_p_hradvel set_p_hvel set_p_iacc set_p_iadd set_p_id set_p_inertia set_p_ipos set_p_ivel set_p_mass set_p_mass_g set_p_radius set_p_rf set_p_rg2 set_p_spin set_p_spin2 set_p_tides set_p_wind set_rf_acc set_rf_dL set_rf_distance set_rf_effect set_rf_factor_planet set_rf_factor_star set_rf_orth_planet set_rf_orth_star set_rf_pos set_rf_pos_dot_planet_spin set_rf_pos_dot_star_spin set_rf_radial set_rf_shape set_rf_vel p_L p_dL p_disk p_evo p_gr p_hdist p_hnorm p_hnorm2 p_hpos p_hradvel p_hvel p_iacc p_iadd p_id p_inertia p_ipos p_ivel p_mass p_mass_g p_radius p_rf p_rg2 p_spin p_spin2 p_tides p_wind rf_acc rf_dL rf_distance rf_effect rf_factor_planet rf_factor_star rf_orth_planet rf_orth_star rf_pos rf_pos_dot_planet_spin rf_pos_dot_star_spin rf_radial rf_shape rf_vel].

Section FlatR.
  Context `{TR : Trans R} `{FL : Floor R} `{FU : Fuel}.

  (** ** Momentum, every model *)
  Definition idle_rf (p : particle R) : Prop :=
    is_rf_orbiting (rf_effect (p_rf p)) = true \/ flattening_acc p = vzero.

  Lemma fold_forces host l : forall a,
    fold_left (fun acc p => match rf_force_of host p with Some f => vadd acc f | None => acc end) l a =
    vadd a (Vsum (map (fun p => match rf_force_of host p with Some f => f | None => vzero end) l)).
  Proof.
    induction l as [|p l IH]; intro a; cbn [fold_left map Vsum fold_right].
    - now rewrite vadd_0_r.
    - rewrite IH. unfold Vsum. destruct (rf_force_of host p).
      + now rewrite vadd_assoc.
      + now rewrite vadd_0_l.
  Qed.

  Theorem rf_momentum host l host' l' :
    p_mass host <> 0 -> Forall (fun p => p_mass p <> 0) l -> Forall idle_rf l ->
    rf_acceleration host l = (host', l') ->
    net_force flattening_acc (host' :: l') = vzero.
  Proof.
    intros Hh Hm Hi E. unfold rf_acceleration in E. rewrite fold_forces, vadd_0_l in E. injection E as <- <-.
    rewrite net_force_cons. unfold net_force. rewrite map_map.
    match goal with |- vadd _ ?b = _ =>
      replace b with (Vsum (map (fun p => match rf_force_of host p with Some f => f | None => vzero end) l)) end;
      [|symmetry; apply Vsum_map_ext].
    - unfold flattening_acc, on_rf. rfproj. num_simpl.
      generalize (Vsum (map (fun p => match rf_force_of host p with Some f => f | None => vzero end) l)).
      intros. vdestruct. vunfold. f_equal; field; auto.
    - rewrite Forall_forall in *. intros p Hp. unfold rf_force_of.
      destruct (Hi p Hp) as [Ho|Hz]; destruct (rf_effect (p_rf p)) eqn:E; try discriminate; rfproj;
        try (unfold flattening_acc, on_rf; rfproj; rewrite vscale_scale; num_simpl;
             replace (p_mass p * (1 / p_mass p)) with 1 by (field; auto); apply vscale_1).
      + unfold flattening_acc in *. now rewrite Hz, vscale_0_r.
      + unfold flattening_acc in *. now rewrite Hz, vscale_0_r.
  Qed.

  (** ** The whole evaluation, oblate bodies *)
  Definition oblate_host (h : particle R) : Prop := exists k, rf_effect (p_rf h) = RfCentral (OblateSpheroid k).
  Definition oblate_body (p : particle R) : Prop := exists k, rf_effect (p_rf p) = RfOrbiting (OblateSpheroid k).
  Definition no_flattening (p : particle R) : Prop :=
    rf_effect (p_rf p) = RfDisabled /\ rf_acc (p_rf p) = vzero /\ rf_dL (p_rf p) = vzero /\ rf_orth_star (p_rf p) = 0.
  Definition oblate_or_none (p : particle R) : Prop := oblate_body p \/ no_flattening p.

  Definition rf_ready_host (h : particle R) : particle R :=
    on_rf (fun r => set_rf_dL vzero (set_rf_acc vzero (set_rf_pos_dot_planet_spin 0 (set_rf_pos_dot_star_spin 0
      (set_rf_distance 0 (set_rf_vel vzero (set_rf_pos vzero r))))))) h.
  (** the record left by the code for an oblate body, before the outputs *)
  Definition star_factor (h p : particle R) (kh : R) : R := p_mass p * kh * p_spin2 h * p_radius h ^ 5 / 6.
  Definition planet_factor (h p : particle R) (k : R) : R := p_mass h * k * p_spin2 p * p_radius p ^ 5 / 6.

  Definition rf_ready (h p : particle R) : particle R :=
    if is_rf_orbiting (rf_effect (p_rf p)) then
      let pos := vsub (p_ipos p) (p_ipos h) in
      on_rf (fun r => set_rf_dL vzero (set_rf_acc vzero
        (set_rf_pos_dot_planet_spin (vdot pos (p_spin p)) (set_rf_pos_dot_star_spin (vdot pos (p_spin h))
          (set_rf_distance (sqrt (norm2 pos)) (set_rf_vel (vsub (p_ivel p) (p_ivel h)) (set_rf_pos pos r))))))) p
    else p.
  Lemma rf_ready_spec h l : is_rf_central (rf_effect (p_rf h)) = true ->
    (let '(h', l') := rf_inertial_to_heliocentric h l in rf_initialize h' l') =
    (rf_ready_host h, map (rf_ready h) l).
  Proof.
    intro Hc. unfold rf_inertial_to_heliocentric. rewrite Hc. unfold rf_initialize.
    change (rf_effect (p_rf (on_rf _ h))) with (rf_effect (p_rf h)). rewrite Hc.
    f_equal. rewrite map_map. apply map_ext. intro p. unfold rf_ready.
    destruct (is_rf_orbiting (rf_effect (p_rf p))) eqn:E.
    - change (rf_effect (p_rf (on_rf _ p))) with (rf_effect (p_rf p)). rewrite E. reflexivity.
    - now rewrite E.
  Qed.

  Definition rf_filled (h p : particle R) : particle R :=
    oblate_radial h (oblate_orthogonal false h (oblate_orthogonal true h p)).
  Definition kh_of (h : particle R) : R :=
    match rf_effect (p_rf h) with RfCentral (OblateSpheroid k) => k | _ => 0 end.

  Lemma rf_filled_form h p k : rf_effect (p_rf p) = RfOrbiting (OblateSpheroid k) ->
    let d := rf_distance (p_rf p) in
    let fs := star_factor h p (kh_of h) in
    let fp := planet_factor h p k in
    let ss := rf_pos_dot_star_spin (p_rf p) in
    let sp := rf_pos_dot_planet_spin (p_rf p) in
    rf_filled h p =
    set_p_rf (set_rf_radial (- 3 / d ^ 5 * (fp + fs) + 15 / d ^ 7 * (fs * ss * ss / p_spin2 h + fp * sp * sp / p_spin2 p))
      (set_rf_orth_planet (- 6 * fp * sp / (p_spin2 p * d ^ 5)) (set_rf_factor_planet fp
        (set_rf_orth_star (- 6 * fs * ss / (p_spin2 h * d ^ 5)) (set_rf_factor_star fs (p_rf p)))))) p.
  Proof.
    intro E. cbn zeta. unfold rf_filled. unfold oblate_orthogonal at 2. rewrite E.
    set (p1 := on_rf _ p).
    assert (E1 : rf_effect (p_rf p1) = RfOrbiting (OblateSpheroid k)) by exact E.
    unfold oblate_orthogonal. rewrite E1.
    set (p2 := on_rf _ p1).
    assert (E2 : is_rf_orbiting (rf_effect (p_rf p2)) = true)
      by (unfold p2, p1, on_rf; rfproj; rewrite E; reflexivity).
    unfold oblate_radial. rewrite E2. unfold p2, p1, on_rf. rfproj. clear.
    rewrite !npow_pow. unfold star_factor, planet_factor, kh_of. num_simpl.
    replace (3 / 1) with 3 by field. replace (6 / 1) with 6 by field. replace (15 / 1) with 15 by field.
    replace (- (3)) with (-3) by ring. replace (- (6)) with (-6) by ring. reflexivity.
  Qed.
  Lemma oblate_orthogonal_effect b (h p : particle R) : rf_effect (p_rf (oblate_orthogonal b h p)) = rf_effect (p_rf p).
  Proof.
    unfold oblate_orthogonal. destruct (rf_effect (p_rf p)) as [[]|[]|] eqn:E; auto.
    destruct b; unfold on_rf; rfproj; exact E.
  Qed.
  Lemma rf_filled_idle h p : rf_effect (p_rf p) = RfDisabled -> rf_filled h p = p.
  Proof.
    intro E. unfold rf_filled, oblate_orthogonal, oblate_radial. rewrite E. rewrite E. rewrite E. reflexivity.
  Qed.
  Lemma rf_filled_effect h p : oblate_or_none p -> rf_effect (p_rf (rf_filled h p)) = rf_effect (p_rf p).
  Proof.
    intros [[k E]|(E & _)].
    - rewrite (rf_filled_form h p k E). rfproj. reflexivity.
    - now rewrite rf_filled_idle.
  Qed.

  Lemma oblate_or_none_ext (p p' : particle R) :
    rf_effect (p_rf p') = rf_effect (p_rf p) ->
    (rf_effect (p_rf p) = RfDisabled -> p' = p) ->
    oblate_or_none p -> oblate_or_none p'.
  Proof.
    intros E Hd [[c Hc]|Hn].
    - left. exists c. congruence.
    - right. destruct Hn as (A & B). rewrite (Hd A). split; auto.
  Qed.

  Lemma rf_shapes_oblate h l : Forall oblate_or_none l -> rf_creep_shapes h l = Ok l.
  Proof.
    induction 1 as [|p l Hp _ IH]; [reflexivity|].
    unfold rf_creep_shapes in *. cbn [rmap].
    assert (E : rf_creep_update h p = Ok p).
    { unfold rf_creep_update. destruct Hp as [[c E]|[E _]]; rewrite E;
        cbn; unfold Reqb; destruct (Req_EM_T 0 0); auto; contradiction. }
    rewrite E. cbn. now rewrite IH.
  Qed.

  Definition rf_accel_one (h p : particle R) : particle R :=
    if is_rf_orbiting (rf_effect (p_rf p)) then on_rf (set_rf_acc (vscale (1 / p_mass p) (oblate_force h p))) p else p.
  Definition rf_force_one (h p : particle R) : vec R :=
    if is_rf_orbiting (rf_effect (p_rf p)) then oblate_force h p else vzero.
  Lemma rf_acceleration_oblate h l : Forall oblate_or_none l ->
    rf_acceleration h l =
    (on_rf (set_rf_acc (vscale (- 1 * (1 / p_mass h)) (Vsum (map (rf_force_one h) l)))) h, map (rf_accel_one h) l).
  Proof.
    intro Hl. unfold rf_acceleration. rewrite fold_forces, vadd_0_l.
    assert (A : map (fun p => match rf_force_of h p with Some f => f | None => vzero end) l = map (rf_force_one h) l).
    { apply map_ext_in. intros p Hp. rewrite Forall_forall in Hl. unfold rf_force_of, rf_force_one.
      destruct (Hl p Hp) as [[k E]|(E & _)]; rewrite E; reflexivity. }
    rewrite A. f_equal.
    apply map_ext_in. intros p Hp. rewrite Forall_forall in Hl. unfold rf_force_of, rf_accel_one.
    destruct (Hl p Hp) as [[k E]|(E & _)]; rewrite E; reflexivity.
  Qed.
  Definition rf_dL_one (h p : particle R) : particle R :=
    if is_rf_orbiting (rf_effect (p_rf p)) then on_rf (set_rf_dL (vscale (- 1) (oblate_torque h p false))) p else p.
  Lemma rf_dL_loop h l : Forall oblate_or_none l -> rmap (rf_planet_dL h) l = Ok (map (rf_dL_one h) l).
  Proof.
    induction 1 as [|p l Hp _ IH]; [reflexivity|].
    cbn [rmap map]. unfold rf_dL_one at 1.
    destruct Hp as [[c E]|[E _]]; unfold rf_planet_dL at 1; rewrite E; cbn [rbind rf_model_torque is_rf_orbiting];
      rewrite IH; reflexivity.
  Qed.
  Lemma rf_host_loop h l : oblate_host h -> forall s,
    rfold (rf_host_dL_step h) l s = Ok (vadd s (Vsum (map (fun p => vscale (- 1) (oblate_torque h p true)) l))).
  Proof.
    intros [c Hh]. induction l as [|p l IH]; intro s; cbn [rfold map Vsum fold_right].
    - now rewrite vadd_0_r.
    - unfold rf_host_dL_step at 1. rewrite Hh. cbn [rbind rf_model_torque]. rewrite IH.
      unfold Vsum. now rewrite vadd_assoc.
  Qed.

  Definition rf_done (host p : particle R) : particle R := rf_filled (rf_ready_host host) (rf_ready host p).
  Definition rf_pair_force (host p : particle R) : vec R :=
    if is_rf_orbiting (rf_effect (p_rf p)) then oblate_force (rf_ready_host host) (rf_done host p) else vzero.
  Definition rf_own_torque (host p : particle R) : vec R :=
    if is_rf_orbiting (rf_effect (p_rf p)) then oblate_torque (rf_ready_host host) (rf_done host p) false else vzero.
  Definition rf_star_torque (host p : particle R) : vec R := oblate_torque (rf_ready_host host) (rf_done host p) true.
  Definition rf_final (host p : particle R) : particle R :=
    if is_rf_orbiting (rf_effect (p_rf p)) then
      on_rf (fun r => set_rf_dL (vscale (- 1) (rf_own_torque host p))
                        (set_rf_acc (vscale (1 / p_mass p) (rf_pair_force host p)) r)) (rf_done host p)
    else p.
  Definition rf_final_host (host : particle R) (l : list (particle R)) : particle R :=
    on_rf (fun r => set_rf_dL (Vsum (map (fun p => vscale (- 1) (rf_star_torque host p)) l))
      (set_rf_acc (vscale (- 1 * (1 / p_mass host)) (Vsum (map (rf_pair_force host) l))) r)) (rf_ready_host host).

  Lemma on_rf_twice f g (p : particle R) : on_rf f (on_rf g p) = on_rf (fun t => f (g t)) p.
  Proof. reflexivity. Qed.
  Lemma oblate_torque_set_dL x (h p : particle R) b : oblate_torque h (on_rf (set_rf_dL x) p) b = oblate_torque h p b.
  Proof. reflexivity. Qed.
  Lemma oblate_torque_set_acc x (h p : particle R) b : oblate_torque h (on_rf (set_rf_acc x) p) b = oblate_torque h p b.
  Proof. reflexivity. Qed.
  Lemma oblate_torque_host f (h p : particle R) b : oblate_torque (on_rf f h) p b = oblate_torque h p b.
  Proof. reflexivity. Qed.
  Lemma rf_ready_host_mass host : p_mass (rf_ready_host host) = p_mass host.
  Proof. reflexivity. Qed.
  Lemma on_rf_effect_acc x (p : particle R) : rf_effect (p_rf (on_rf (set_rf_acc x) p)) = rf_effect (p_rf p).
  Proof. reflexivity. Qed.
  Lemma rf_ready_effect host p : rf_effect (p_rf (rf_ready host p)) = rf_effect (p_rf p).
  Proof. unfold rf_ready. now destruct (is_rf_orbiting _). Qed.
  Lemma rf_ready_oblate host p : oblate_or_none p -> oblate_or_none (rf_ready host p).
  Proof.
    apply oblate_or_none_ext; [apply rf_ready_effect|]. intro E. unfold rf_ready. now rewrite E.
  Qed.
  Lemma rf_done_effect host p : oblate_or_none p -> rf_effect (p_rf (rf_done host p)) = rf_effect (p_rf p).
  Proof. intro Hp. unfold rf_done. rewrite rf_filled_effect by now apply rf_ready_oblate. apply rf_ready_effect. Qed.
  Lemma rf_done_idle host p : no_flattening p -> rf_done host p = p.
  Proof.
    intros (E & _). unfold rf_done, rf_ready. rewrite E. cbn [is_rf_orbiting]. now apply rf_filled_idle.
  Qed.
  Lemma rf_done_spec host p k : rf_effect (p_rf p) = RfOrbiting (OblateSpheroid k) ->
    let q := rf_done host p in
    let r := vsub (p_ipos p) (p_ipos host) in
    let d := sqrt (norm2 r) in
    let fs := star_factor host p (kh_of host) in
    let fp := planet_factor host p k in
    let ss := vdot r (p_spin host) in
    let sp := vdot r (p_spin p) in
    p_mass q = p_mass p /\ p_ipos q = p_ipos p /\ p_ivel q = p_ivel p /\ p_spin q = p_spin p /\
    rf_pos (p_rf q) = r /\
    rf_radial (p_rf q) = - 3 / d ^ 5 * (fp + fs) + 15 / d ^ 7 * (fs * ss * ss / p_spin2 host + fp * sp * sp / p_spin2 p) /\
    rf_orth_planet (p_rf q) = - 6 * fp * sp / (p_spin2 p * d ^ 5) /\
    rf_orth_star (p_rf q) = - 6 * fs * ss / (p_spin2 host * d ^ 5).
  Proof.
    intro E. cbn zeta. unfold rf_done.
    assert (Er : rf_effect (p_rf (rf_ready host p)) = RfOrbiting (OblateSpheroid k)) by now rewrite rf_ready_effect.
    rewrite (rf_filled_form (rf_ready_host host) (rf_ready host p) k Er). clear Er.
    unfold rf_ready. rewrite E. cbn [is_rf_orbiting].
    unfold star_factor, planet_factor, kh_of, rf_ready_host, on_rf. rfproj. conjs; reflexivity.
  Qed.

  Lemma rf_pass_oblate host l : oblate_host host -> Forall oblate_or_none l ->
    rf_pass host l = Ok (rf_final_host host l, map (rf_final host) l).
  Proof.
    intros Hh Hl. unfold rf_pass.
    assert (Hc : is_rf_central (rf_effect (p_rf host)) = true) by (destruct Hh as [c E]; now rewrite E).
    pose proof (rf_ready_spec host l Hc) as Er.
    destruct (rf_inertial_to_heliocentric host l) as [h0 l0].
    destruct (rf_initialize h0 l0) as [h1 l1]. injection Er as -> ->.
    set (h := rf_ready_host host).
    assert (Hh' : oblate_host h) by (destruct Hh as [c E]; exists c; exact E).
    assert (H0 : Forall oblate_or_none (map (rf_ready host) l)).
    { rewrite Forall_map. eapply Forall_impl; [|exact Hl]. apply rf_ready_oblate. }
    unfold rf_forces.
    assert (H1 : Forall oblate_or_none (oblate_orthogonal_components h (map (rf_ready host) l))).
    { unfold oblate_orthogonal_components. rewrite map_map, Forall_map.
      eapply Forall_impl; [|exact H0]. intros p. apply oblate_or_none_ext.
      - now rewrite !oblate_orthogonal_effect.
      - intro E. unfold oblate_orthogonal. rewrite E. now rewrite E. }
    rewrite rf_shapes_oblate by exact H1. cbn [rbind].
    unfold oblate_radial_components, oblate_orthogonal_components. rewrite !map_map.
    change (map (fun x => oblate_radial h (oblate_orthogonal false h (oblate_orthogonal true h (rf_ready host x)))) l)
      with (map (rf_done host) l).
    assert (H2 : Forall oblate_or_none (map (rf_done host) l)).
    { rewrite Forall_map. rewrite Forall_forall in *. intros p Hp.
      apply (oblate_or_none_ext p); [apply rf_done_effect|..]; auto.
      intro E. apply rf_done_idle. destruct (Hl p Hp) as [[k E']|]; [congruence|auto]. }
    rewrite rf_acceleration_oblate by auto. cbn [fst snd]. unfold rf_dangular_momentum_dt.
    rewrite rf_dL_loop.
    2:{ rewrite Forall_map. eapply Forall_impl; [|exact H2]. intros p. apply oblate_or_none_ext.
        - unfold rf_accel_one. now destruct (is_rf_orbiting _).
        - intro E. unfold rf_accel_one. now rewrite E. }
    cbn [rbind]. rewrite rf_host_loop by (destruct Hh' as [c E]; exists c; exact E).
    cbn [rbind]. rewrite vadd_0_l, !map_map. f_equal. f_equal.
    - unfold rf_final_host. rewrite on_rf_twice. unfold h. rewrite rf_ready_host_mass.
      assert (A : map (fun x => rf_force_one (rf_ready_host host) (rf_done host x)) l = map (rf_pair_force host) l).
      { apply map_ext_in. intros p Hp. rewrite Forall_forall in Hl. unfold rf_force_one, rf_pair_force. now rewrite rf_done_effect by auto. }
      rewrite A. rewrite (map_ext_in _ (fun p => vscale (- 1) (rf_star_torque host p))); [reflexivity|].
      intros p Hp. rewrite oblate_torque_host. unfold rf_star_torque, rf_dL_one, rf_accel_one.
      destruct (is_rf_orbiting (rf_effect (p_rf (rf_done host p)))) eqn:E.
      + rewrite on_rf_effect_acc, E, oblate_torque_set_dL, oblate_torque_set_acc. reflexivity.
      + rewrite E. reflexivity.
    - apply map_ext_in. intros p Hp. rewrite Forall_forall in Hl. specialize (Hl p Hp).
      unfold rf_final, rf_dL_one, rf_accel_one. rewrite (rf_done_effect host p Hl).
      destruct Hl as [[k E]|Hn].
      + rewrite E. cbn [is_rf_orbiting]. rewrite on_rf_effect_acc, rf_done_effect by (left; exists k; auto).
        rewrite E. cbn [is_rf_orbiting]. unfold rf_own_torque, rf_pair_force. rewrite E. cbn [is_rf_orbiting].
        destruct (rf_done_spec host p k E) as (Em & _). cbn zeta in Em. rewrite Em.
        rewrite on_rf_twice, oblate_torque_set_acc, oblate_torque_host. reflexivity.
      + rewrite (rf_done_idle host p Hn). destruct Hn as (E & _). rewrite E. cbn [is_rf_orbiting]. now rewrite E.
  Qed.

  Lemma rf_final_spec host p : oblate_or_none p ->
    let q := rf_final host p in
    p_mass q = p_mass p /\ p_ipos q = p_ipos p /\ p_ivel q = p_ivel p /\ p_spin q = p_spin p /\
    (p_mass p <> 0 -> vscale (p_mass p) (flattening_acc q) = rf_pair_force host p) /\
    flattening_torque q = vscale (- 1) (rf_own_torque host p).
  Proof.
    intros Hp. cbn zeta. unfold rf_final.
    destruct Hp as [[k E]|Hn].
    - destruct (rf_done_spec host p k E) as (Em & Ei & Ev & Es & _). rewrite E.
      cbn [is_rf_orbiting].
      refine (conj Em (conj Ei (conj Ev (conj Es (conj _ eq_refl))))).
      intro Hm. unfold flattening_acc, on_rf. rfproj.
      rewrite vscale_scale. replace (p_mass p * (1 / p_mass p)) with 1 by (field; auto). apply vscale_1.
    - destruct Hn as (E & A & B & _). rewrite E. cbn [is_rf_orbiting].
      unfold flattening_acc, flattening_torque, rf_own_torque, rf_pair_force. rewrite E, A, B. cbn [is_rf_orbiting].
      rewrite !vscale_0_r. auto 10.
  Qed.

  Lemma rf_pair_balance host p : oblate_or_none p ->
    vcross (vsub (p_ipos p) (p_ipos host)) (rf_pair_force host p) = vadd (rf_star_torque host p) (rf_own_torque host p).
  Proof.
    intros [[k E]|Hn].
    - destruct (rf_done_spec host p k E) as (_ & _ & _ & Es & Ep & _). cbn zeta in *.
      unfold rf_pair_force, rf_star_torque, rf_own_torque, oblate_force, oblate_torque.
      rewrite E. cbn [is_rf_orbiting]. rewrite Ep, Es. change (p_spin (rf_ready_host host)) with (p_spin host).
      generalize (rf_radial (p_rf (rf_done host p))) (rf_orth_planet (p_rf (rf_done host p)))
        (rf_orth_star (p_rf (rf_done host p))) (vsub (p_ipos p) (p_ipos host)). vring.
    - pose proof (rf_done_idle host p Hn) as D. destruct Hn as (E & _ & _ & O).
      unfold rf_pair_force, rf_star_torque, rf_own_torque. rewrite D, E. cbn [is_rf_orbiting].
      unfold oblate_torque. rewrite O, vcross_0_r, vscale_0_l. vring.
  Qed.

  Lemma rf_final_host_body host l :
    p_mass (rf_final_host host l) = p_mass host /\ p_ipos (rf_final_host host l) = p_ipos host /\
    p_ivel (rf_final_host host l) = p_ivel host /\ p_spin (rf_final_host host l) = p_spin host.
  Proof. unfold rf_final_host, rf_ready_host, on_rf. rfproj. auto. Qed.

  Theorem oblate_momentum_and_torque host l host' l' :
    oblate_host host -> Forall oblate_or_none l ->
    p_mass host <> 0 -> Forall (fun p => p_mass p <> 0) l ->
    rf_pass host l = Ok (host', l') ->
    net_force flattening_acc (host' :: l') = vzero /\ net_torque flattening_acc flattening_torque (host' :: l') = vzero.
  Proof.
    intros Hh Hl Hm Hml E. rewrite rf_pass_oblate in E by auto. injection E as <- <-.
    assert (Hmom : vscale (p_mass host) (flattening_acc (rf_final_host host l)) =
                   vscale (- 1) (Vsum (map (rf_pair_force host) l))).
    { unfold flattening_acc, rf_final_host, on_rf. rfproj.
      rewrite vscale_scale. f_equal. field; auto. }
    assert (Hone : Forall (fun p => vscale (p_mass p) (flattening_acc (rf_final host p)) = rf_pair_force host p) l).
    { rewrite Forall_forall in *. intros p Hp. apply (rf_final_spec host p (Hl p Hp)); auto. }
    destruct (rf_final_host_body host l) as (HM & HP & HV & HS).
    split.
    - rewrite net_force_cons, HM, Hmom. unfold net_force. rewrite map_map.
      rewrite (Vsum_map_ext (fun x => vscale (p_mass (rf_final host x)) (flattening_acc (rf_final host x))) (rf_pair_force host)).
      + vring.
      + rewrite Forall_forall in *. intros p Hp.
        destruct (rf_final_spec host p (Hl p Hp)) as (A & _). cbn zeta in A. rewrite A. auto.
    - unfold net_torque. cbn [map]. rewrite map_map.
      rewrite HM, HP, Hmom.
      match goal with |- Vsum (?a :: ?b) = _ => change (vadd a (Vsum b) = vzero) end.
      rewrite (Vsum_map_ext (fun x => vadd (vcross (p_ipos (rf_final host x)) (vscale (p_mass (rf_final host x)) (flattening_acc (rf_final host x)))) (flattening_torque (rf_final host x)))
        (fun p => vadd (vcross (p_ipos host) (rf_pair_force host p)) (rf_star_torque host p))).
      + rewrite Vsum_map_add, Vsum_map_cross. unfold flattening_torque at 1, rf_final_host, on_rf.
        rfproj. rewrite Vsum_map_scale.
        generalize (Vsum (map (rf_pair_force host) l)) (Vsum (map (rf_star_torque host) l)) (p_ipos host). vring.
      + rewrite Forall_forall in *. intros p Hp.
        destruct (rf_final_spec host p (Hl p Hp)) as (A & B & _ & _ & _ & D). cbn zeta in *.
        rewrite A, B, D, Hone by auto.
        pose proof (rf_pair_balance host p (Hl p Hp)) as T.
        revert T. generalize (rf_star_torque host p) (rf_own_torque host p) (rf_pair_force host p) (p_ipos host) (p_ipos p).
        intros N1 N2 f x y T. replace N1 with (vsub (vcross (vsub y x) f) N2).
        * vring.
        * rewrite T. vring.
  Qed.
End FlatR.
