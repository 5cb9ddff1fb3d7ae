(** Proofs about the tidal forces (real arithmetic) *)
From Coq Require Import Reals Lra Psatz List Bool ZArith Arith.
From Verif Require Import Base.Num Base.Result Base.Trans Base.Vec Model.Constants Model.Particle
  Model.Tools Model.Kaula Model.Creep Model.Tides Proofs.NumLemmas Proofs.VecLemmas Spec.EffectsSpec.
Import ListNotations.
Open Scope R_scope.

Lemma rbind_ok {A B} (x : res A) (f : A -> res B) b :
  rbind x f = Ok b -> exists a, x = Ok a /\ f a = Ok b.
Proof. destruct x; cbn; intros; [eauto|discriminate]. Qed.
Ltac conjs := match goal with |- _ /\ _ => split; [|conjs] | _ => idtac end.
(** reduce reads of written fields *)
Ltac tproj := cbn [set_p_L set_p_dL set_p_disk set_p_evo set_p_gr set_p_hdist set_p_hnorm set_p_hnorm2 set_p_hpos set_p_hradvel set_p_hvel set_p_iacc set_p_iadd set_p_id set_p_inertia set_p_ipos set_p_ivel set_p_mass set_p_mass_g set_p_radius set_p_rf set_p_rg2 set_p_spin set_p_spin2 set_p_tides set_p_wind set_t_acc set_t_dL set_t_denergy_dt set_t_distance set_t_effect set_t_lag_angle set_t_orth_planet set_t_orth_star set_t_pos set_t_pos_dot_planet_spin set_t_pos_dot_star_spin set_t_radial set_t_radial_diss_point set_t_radial_velocity set_t_shape set_t_sigma set_t_vel p_L p_dL p_disk p_evo p_gr p_hdist p_hnorm p_hnorm2 p_hpos p_hradvel p_hvel p_iacc p_iadd p_id p_inertia p_ipos p_ivel p_mass p_mass_g p_radius p_rf p_rg2 p_spin p_spin2 p_tides p_wind t_acc t_dL t_denergy_dt t_distance t_effect t_lag_angle t_orth_planet t_orth_star t_pos t_pos_dot_planet_spin t_pos_dot_star_spin t_radial t_radial_diss_point t_radial_velocity t_shape t_sigma t_vel].
Ltac rinv H := apply rbind_ok in H; destruct H as (? & ? & H).

Section TidesR.
  Context `{TR : Trans R} `{FL : Floor R} `{FU : Fuel}.

  (** ** Conservation of momentum, every model *)
  Lemma kaula_force_inv (h p h' p' : particle R) c f :
    kaula_force h p c = Ok (f, h', p') ->
    p_mass h' = p_mass h /\ t_acc (p_tides h') = t_acc (p_tides h) /\
    p_mass p' = p_mass p /\ t_acc (p_tides p') = t_acc (p_tides p).
  Proof.
    unfold kaula_force. destruct (kaula_of _); [|discriminate].
    destruct (kaula_radial _ _ _ _ _), (kaula_normal _ _ _ _ _), (kaula_orthogonal _ _ _ _ _).
    destruct c; intro E; injection E as <- <- <-; auto.
  Qed.
  Lemma model_force_inv m (h p h' p' : particle R) f :
    model_force m h p = Ok (f, h', p') ->
    p_mass h' = p_mass h /\ p_mass p' = p_mass p.
  Proof.
    destruct m; cbn; intro E; try (injection E as <- <- <-; auto; fail).
    apply kaula_force_inv in E. tauto.
  Qed.

  Lemma net_force_cons acc a l :
    net_force acc (a :: l) = vadd (vscale (p_mass a) (acc a)) (net_force acc l).
  Proof. reflexivity. Qed.
  Lemma net_force_app acc l1 l2 :
    net_force acc (l1 ++ l2) = vadd (net_force acc l1) (net_force acc l2).
  Proof. unfold net_force. now rewrite map_app, Vsum_app. Qed.

  Definition idle_acc (p : particle R) : Prop :=
    is_tides_orbiting (t_effect (p_tides p)) = true \/ tidal_acc p = vzero.

  Lemma acceleration_loop l : forall total host seen total' host' seen',
    Forall (fun p => p_mass p <> 0) l -> Forall idle_acc l ->
    Forall (fun p => p_mass p <> 0) seen ->
    rfold tides_acceleration_step l (total, host, seen) = Ok (total', host', seen') ->
    net_force tidal_acc seen = total ->
    net_force tidal_acc seen' = total' /\ p_mass host' = p_mass host /\
    Forall (fun p => p_mass p <> 0) seen'.
  Proof.
    induction l as [|p l IH]; intros total host seen total' host' seen' Hm Hi Hs E Hn.
    - cbn in E. injection E as <- <- <-. auto.
    - inversion Hm as [|? ? Hp Hm']; inversion Hi as [|? ? Hip Hi']; subst.
      cbn [rfold] in E. rinv E. destruct x as [[t1 h1] s1].
      unfold tides_acceleration_step in H.
      destruct (t_effect (p_tides p)) as [m|m|] eqn:Ee.
      + injection H as <- <- <-.
        eapply IH in E; eauto.
        * rewrite Forall_app; auto.
        * rewrite net_force_app, net_force_cons. cbn.
          destruct Hip as [Hc|Hz]; [rewrite Ee in Hc; discriminate|].
          unfold tidal_acc in Hz |- *. rewrite Hz, vscale_0_r. cbn. now rewrite !vadd_0_r.
      + rinv H. destruct x as [[f h2] p2]. injection H as <- <- <-.
        destruct (model_force_inv _ _ _ _ _ _ H0) as [Eh Ep].
        assert (Hp2 : p_mass p2 <> 0) by congruence.
        assert (Hs2 : Forall (fun p => p_mass p <> 0) (seen ++ [on_tides (set_t_acc (vscale (ndiv n1 (p_mass p2)) f)) p2])).
        { rewrite Forall_app; split; [auto|constructor; [exact Hp2|constructor]]. }
        destruct (IH _ _ _ _ _ _ Hm' Hi' Hs2 E) as (A & B & C).
        * rewrite net_force_app, net_force_cons. cbn [net_force map Vsum fold_right].
          f_equal. rewrite vadd_0_r. unfold tidal_acc, on_tides. cbn [p_mass p_tides set_p_tides t_acc set_t_acc].
          rewrite vscale_scale. replace (p_mass p2 * _) with 1; [apply vscale_1|]. num_simpl. field; auto.
        * split; [auto|split; [congruence|auto]].
      + injection H as <- <- <-.
        eapply IH in E; eauto.
        * rewrite Forall_app; auto.
        * rewrite net_force_app, net_force_cons. cbn.
          destruct Hip as [Hc|Hz]; [rewrite Ee in Hc; discriminate|].
          unfold tidal_acc in Hz |- *. rewrite Hz, vscale_0_r. cbn. now rewrite !vadd_0_r.
  Qed.

  Lemma stellar_loop m_h l : m_h <> 0 -> forall host seen host' seen',
    p_mass host = m_h -> Forall (fun p => p_mass p <> 0) l ->
    rfold (tides_stellar_step (1 / m_h)) l (host, seen) = Ok (host', seen') ->
    net_force tidal_acc (host' :: seen') = net_force tidal_acc (host :: seen ++ l).
  Proof.
    intro Hmh. induction l as [|p l IH]; intros host seen host' seen' Hh Hm E.
    - cbn in E. injection E as <- <-. now rewrite app_nil_r.
    - inversion Hm as [|? ? Hp Hm']; subst.
      cbn [rfold] in E. rinv E. destruct x as [h1 s1].
      unfold tides_stellar_step in H. rinv H. destruct x as [[f p2] h2]. injection H as <- <-.
      destruct (kaula_force_inv _ _ _ _ _ _ H0) as (A & B & C & D).
      eapply IH in E; auto.
      rewrite E. rewrite !net_force_cons, !net_force_app, !net_force_cons.
      unfold tidal_acc, on_tides. cbn [p_mass p_tides set_p_tides t_acc set_t_acc net_force map Vsum fold_right].
      rewrite A, B, C, D. num_simpl.
      fold (Vsum (map (fun b => vscale (p_mass b) (t_acc (p_tides b))) l)).
      set (X := Vsum (map (fun b => vscale (p_mass b) (t_acc (p_tides b))) l)).
      set (Y := net_force _ seen).
      set (ah := t_acc (p_tides host)). set (ap := t_acc (p_tides p)). clearbody X Y ah ap.
      vdestruct; vunfold; f_equal; field; auto.
  Qed.

  Theorem tides_momentum host l host' l' :
    p_mass host <> 0 -> Forall (fun p => p_mass p <> 0) l -> Forall idle_acc l ->
    tides_acceleration host l = Ok (host', l') ->
    net_force tidal_acc (host' :: l') = vzero.
  Proof.
    intros Hh Hm Hi E. unfold tides_acceleration in E. rinv E. destruct x as [[total h1] l1].
    destruct (acceleration_loop l vzero host [] total h1 l1 Hm Hi ltac:(constructor) H eq_refl) as (A & B & C).
    set (h2 := on_tides _ _) in E.
    assert (Hz : net_force tidal_acc (h2 :: l1) = vzero).
    { rewrite net_force_cons. unfold h2, tidal_acc at 1, on_tides. cbn [p_mass p_tides set_p_tides t_acc set_t_acc].
      rewrite A, B. num_simpl. clear - Hh. vdestruct; vunfold; f_equal; field; auto. }
    assert (Hmh2 : p_mass h2 = p_mass host) by exact B.
    destruct (t_effect (p_tides h2)) as [[| |]| |]; try (injection E as <- <-; exact Hz).
    num_simpl. rewrite (stellar_loop (p_mass host) l1 Hh h2 [] host' l' Hmh2 C E). exact Hz.
  Qed.

  (** ** One pair under the constant time lag model *)
  Definition consistent (h p : particle R) : Prop :=
    let t := p_tides p in
    t_distance t <> 0 /\ t_distance t * t_distance t = norm2 (t_pos t) /\
    t_pos_dot_star_spin t = vdot (t_pos t) (p_spin h) /\
    t_pos_dot_planet_spin t = vdot (t_pos t) (p_spin p) /\
    t_radial_velocity t = vdot (t_pos t) (t_vel t) / t_distance t.

  Lemma ctl_torque_balance h p : consistent h p ->
    vcross (t_pos (p_tides p)) (ctl_force h p) = vadd (ctl_torque h p true) (ctl_torque h p false).
  Proof.
    unfold consistent, ctl_force, ctl_torque. intros (Hd & Hd2 & Hs & Hp & _).
    rewrite Hs, Hp. clear Hs Hp.
    generalize dependent (t_distance (p_tides p)). intros d Hd Hd2.
    generalize (nadd (t_radial (p_tides p)) (ndiv (nmul (nadd (t_orth_star (p_tides p)) (t_orth_planet (p_tides p)))
         (t_radial_velocity (p_tides p))) d)). intro rad.
    generalize (t_orth_star (p_tides p)) (t_orth_planet (p_tides p)) (p_spin h) (p_spin p) (t_vel (p_tides p)).
    generalize dependent (t_pos (p_tides p)). intros.
    assert (E : forall x, d * x = norm2 v * (x / d)) by (intro; rewrite <- Hd2; field; auto).
    vdestruct. cbn [vx vy vz] in *. num_simpl. rewrite !E. clear E Hd2. vunfold. f_equal; field; auto.
  Qed.

  Lemma ctl_power h p conservative : consistent h p ->
    t_radial (p_tides p) = conservative
      - 3 * (t_orth_star (p_tides p) + t_orth_planet (p_tides p)) * t_radial_velocity (p_tides p) / t_distance (p_tides p) ->
    vdot (ctl_force h p) (t_vel (p_tides p)) - vdot (ctl_torque h p true) (p_spin h)
      - vdot (ctl_torque h p false) (p_spin p) =
    conservative * t_radial_velocity (p_tides p)
    - t_orth_star (p_tides p) / t_distance (p_tides p) *
        (2 * (t_radial_velocity (p_tides p)) ^ 2 + norm2 (vsub (t_vel (p_tides p)) (vcross (p_spin h) (t_pos (p_tides p)))))
    - t_orth_planet (p_tides p) / t_distance (p_tides p) *
        (2 * (t_radial_velocity (p_tides p)) ^ 2 + norm2 (vsub (t_vel (p_tides p)) (vcross (p_spin p) (t_pos (p_tides p))))).
  Proof.
    unfold consistent, ctl_force, ctl_torque. intros (Hd & Hd2 & Hs & Hp & Hv) Hr.
    rewrite Hr, Hs, Hp, Hv. clear Hr Hs Hp Hv.
    generalize dependent (t_distance (p_tides p)). intros d Hd Hd2.
    generalize (t_orth_star (p_tides p)) (t_orth_planet (p_tides p)) (p_spin h) (p_spin p) (t_vel (p_tides p)).
    generalize dependent (t_pos (p_tides p)). intros [rx ry rz] Hd2; intros.
    set (pos := Vec rx ry rz) in *.
    assert (E : forall x, d * x = norm2 pos * (x / d)) by (intro; rewrite <- Hd2; field; auto).
    unfold pos in *; clear pos. vdestruct. cbn [vx vy vz] in *. num_simpl. rewrite !E. clear E. vunfold.
    assert (E : rz * rz = d * d - rx * rx - ry * ry) by lra. clear Hd2.
    field_simplify_eq; [|auto].
    replace (rz^4) with ((rz*rz)*(rz*rz)) by ring.
    replace (rz^3) with ((rz*rz)*rz) by ring.
    replace (rz^2) with (rz*rz) by ring.
    rewrite E. ring.
  Qed.

  (** ** The whole evaluation under the constant time lag model *)
  Definition ctl_host (h : particle R) : Prop :=
    exists c, t_effect (p_tides h) = TidesCentral (ConstantTimeLag c).
  Definition ctl_body (p : particle R) : Prop :=
    exists c, t_effect (p_tides p) = TidesOrbiting (ConstantTimeLag c).
  (** a body with tides disabled, its tidal outputs as created *)
  Definition no_tides (p : particle R) : Prop :=
    t_effect (p_tides p) = TidesDisabled /\ t_acc (p_tides p) = vzero /\ t_dL (p_tides p) = vzero /\
    t_orth_star (p_tides p) = 0.
  Definition ctl_or_none (p : particle R) : Prop := ctl_body p \/ no_tides p.

  Definition ready_host (h : particle R) : particle R :=
    on_tides (fun t => set_t_dL vzero (set_t_acc vzero (set_t_pos_dot_planet_spin 0 (set_t_pos_dot_star_spin 0
      (set_t_radial_velocity 0 (set_t_distance 0 (set_t_vel vzero (set_t_pos vzero t)))))))) h.
  Definition ready_one (h p : particle R) : particle R :=
    if is_tides_orbiting (t_effect (p_tides p)) then
      let pos := vsub (p_ipos p) (p_ipos h) in
      let vel := vsub (p_ivel p) (p_ivel h) in
      on_tides (fun t => set_t_dL vzero (set_t_acc vzero
        (set_t_pos_dot_planet_spin (vdot pos (p_spin p)) (set_t_pos_dot_star_spin (vdot pos (p_spin h))
          (set_t_radial_velocity (vdot pos vel / sqrt (norm2 pos)) (set_t_distance (sqrt (norm2 pos))
            (set_t_vel vel (set_t_pos pos t)))))))) p
    else p.
  Lemma ready_spec h l : is_tides_central (t_effect (p_tides h)) = true ->
    (let '(h', l') := tides_inertial_to_heliocentric h l in tides_initialize h' l') =
    (ready_host h, map (ready_one h) l).
  Proof.
    intro Hc. unfold tides_inertial_to_heliocentric. rewrite Hc. unfold tides_initialize.
    change (t_effect (p_tides (on_tides _ h))) with (t_effect (p_tides h)). rewrite Hc.
    f_equal. rewrite map_map. apply map_ext. intro p. unfold ready_one.
    destruct (is_tides_orbiting (t_effect (p_tides p))) eqn:E.
    - change (t_effect (p_tides (on_tides _ p))) with (t_effect (p_tides p)). rewrite E. reflexivity.
    - now rewrite E.
  Qed.

  Lemma creep_shapes_ctl h l : Forall ctl_or_none l -> creep_shapes h l = Ok l.
  Proof.
    induction 1 as [|p l Hp _ IH]; [reflexivity|].
    unfold creep_shapes in *. cbn [rmap].
    assert (E : creep_update h p = Ok p).
    { unfold creep_update. destruct Hp as [[c E]|[E _]]; rewrite E;
        cbn; unfold Reqb; destruct (Req_EM_T 0 0); auto; contradiction. }
    rewrite E. cbn. now rewrite IH.
  Qed.

  Definition accel_one (h p : particle R) : particle R :=
    if is_tides_orbiting (t_effect (p_tides p)) then on_tides (set_t_acc (vscale (1 / p_mass p) (ctl_force h p))) p else p.
  Definition force_one (h p : particle R) : vec R :=
    if is_tides_orbiting (t_effect (p_tides p)) then ctl_force h p else vzero.
  Lemma acceleration_loop_ctl h l : Forall ctl_or_none l -> forall total seen,
    rfold tides_acceleration_step l (total, h, seen) =
    Ok (vadd total (Vsum (map (force_one h) l)), h, seen ++ map (accel_one h) l).
  Proof.
    induction 1 as [|p l Hp _ IH]; intros total seen.
    - cbn. now rewrite vadd_0_r, app_nil_r.
    - cbn [rfold map Vsum fold_right]. unfold force_one at 1, accel_one at 1.
      destruct Hp as [[c E]|[E _]]; rewrite E; unfold tides_acceleration_step at 1; rewrite E; cbn [rbind model_force is_tides_orbiting].
      + rewrite IH. unfold Vsum. now rewrite vadd_assoc, <- app_assoc.
      + rewrite IH. unfold Vsum. now rewrite vadd_0_l, <- app_assoc.
  Qed.

  Lemma acceleration_ctl h l : ctl_host h -> Forall ctl_or_none l ->
    tides_acceleration h l =
    Ok (on_tides (set_t_acc (vscale (- 1 * (1 / p_mass h)) (Vsum (map (force_one h) l)))) h, map (accel_one h) l).
  Proof.
    intros [c Hh] Hl. unfold tides_acceleration. rewrite acceleration_loop_ctl; auto.
    cbn [rbind]. rewrite vadd_0_l. cbn [app].
    change (t_effect (p_tides (on_tides _ h))) with (t_effect (p_tides h)). now rewrite Hh.
  Qed.

  Definition dL_one (h p : particle R) : particle R :=
    if is_tides_orbiting (t_effect (p_tides p)) then on_tides (set_t_dL (vscale (- 1) (ctl_torque h p false))) p else p.
  Lemma dL_loop_ctl h l : Forall ctl_or_none l -> rmap (tides_planet_dL h) l = Ok (map (dL_one h) l).
  Proof.
    induction 1 as [|p l Hp _ IH]; [reflexivity|].
    cbn [rmap map]. unfold dL_one at 1.
    destruct Hp as [[c E]|[E _]]; unfold tides_planet_dL at 1; rewrite E; cbn [rbind model_torque is_tides_orbiting];
      rewrite IH; reflexivity.
  Qed.
  Lemma host_dL_loop_ctl h l : ctl_host h -> forall s,
    rfold (tides_host_dL_step h) l s = Ok (vadd s (Vsum (map (fun p => vscale (- 1) (ctl_torque h p true)) l))).
  Proof.
    intros [c Hh]. induction l as [|p l IH]; intro s; cbn [rfold map Vsum fold_right].
    - now rewrite vadd_0_r.
    - unfold tides_host_dL_step at 1. rewrite Hh. cbn [rbind model_torque]. rewrite IH.
      unfold Vsum. now rewrite vadd_assoc.
  Qed.

  Lemma ctl_or_none_ext (p p' : particle R) :
    t_effect (p_tides p') = t_effect (p_tides p) ->
    (t_effect (p_tides p) = TidesDisabled -> p' = p) ->
    ctl_or_none p -> ctl_or_none p'.
  Proof.
    intros E Hd [[c Hc]|Hn].
    - left. exists c. congruence.
    - right. destruct Hn as (A & B). rewrite (Hd A). split; auto.
  Qed.

  Definition forces_one (m : pairs) (h p : particle R) : particle R :=
    ctl_radial m h (ctl_orthogonal false m h (ctl_orthogonal true m h p)).
  Lemma forces_one_effect m h p : t_effect (p_tides (forces_one m h p)) = t_effect (p_tides p).
  Proof.
    unfold forces_one, ctl_radial, ctl_orthogonal.
    destruct (orbiting_ctl (t_effect (p_tides p))) as [c|] eqn:E;
      repeat first [rewrite E | progress change (t_effect (p_tides (on_tides _ p))) with (t_effect (p_tides p))
        | progress (unfold on_tides; cbn [p_tides set_p_tides t_effect set_t_orth_star set_t_orth_planet])]; reflexivity.
  Qed.
  Lemma forces_one_idle m h p : t_effect (p_tides p) = TidesDisabled -> forces_one m h p = p.
  Proof. intro E. unfold forces_one, ctl_radial, ctl_orthogonal. cbn. rewrite E. cbn. rewrite E. cbn. rewrite E. reflexivity. Qed.
  Lemma accel_one_effect h p : t_effect (p_tides (accel_one h p)) = t_effect (p_tides p).
  Proof. unfold accel_one. now destruct (is_tides_orbiting _). Qed.

  Lemma tides_forces_ctl m h l : ctl_host h -> Forall ctl_or_none l ->
    let m' := pair_dependent_factors h l m in
    let l1 := map (forces_one m' h) l in
    let h1 := on_tides (set_t_acc (vscale (- 1 * (1 / p_mass h)) (Vsum (map (force_one h) l1)))) h in
    let l2 := map (fun p => dL_one h1 (accel_one h p)) l1 in
    tides_forces m h l =
    Ok (on_tides (set_t_dL (Vsum (map (fun p => vscale (- 1) (ctl_torque h1 p true)) l2))) h1, l2).
  Proof.
    intros Hh Hl. cbn zeta. unfold tides_forces.
    set (m' := pair_dependent_factors h l m).
    assert (H1 : Forall ctl_or_none (ctl_orthogonal_components m' h l)).
    { unfold ctl_orthogonal_components. rewrite map_map, Forall_map.
      eapply Forall_impl; [|exact Hl]. intros p. apply ctl_or_none_ext.
      - unfold ctl_orthogonal. destruct (orbiting_ctl (t_effect (p_tides p))) eqn:E; [|now rewrite E].
        unfold on_tides at 1. cbn [p_tides set_p_tides t_effect set_t_orth_star]. rewrite E. reflexivity.
      - intro E. unfold ctl_orthogonal. cbn. rewrite E. cbn. now rewrite E. }
    rewrite creep_shapes_ctl by exact H1. cbn [rbind].
    unfold ctl_radial_components, ctl_orthogonal_components. rewrite !map_map.
    change (map (fun x => ctl_radial m' h (ctl_orthogonal false m' h (ctl_orthogonal true m' h x))) l)
      with (map (forces_one m' h) l).
    assert (H2 : Forall ctl_or_none (map (forces_one m' h) l)).
    { rewrite Forall_map. eapply Forall_impl; [|exact Hl]. intros p.
      apply ctl_or_none_ext; [apply forces_one_effect|apply forces_one_idle]. }
    rewrite acceleration_ctl by auto. cbn [rbind fst snd]. unfold tides_dangular_momentum_dt.
    assert (H3 : Forall ctl_or_none (map (accel_one h) (map (forces_one m' h) l))).
    { rewrite Forall_map. eapply Forall_impl; [|exact H2]. intros p.
      apply ctl_or_none_ext; [apply accel_one_effect|].
      intro E. unfold accel_one. now rewrite E. }
    rewrite dL_loop_ctl by exact H3. cbn [rbind].
    rewrite host_dL_loop_ctl by (destruct Hh as [c E]; exists c; exact E).
    cbn [rbind]. rewrite vadd_0_l. rewrite !map_map. reflexivity.
  Qed.

  Definition orth_star_of m (h p : particle R) : R :=
    (9//2 * npow (p_mass p) 2 * npow (p_radius h) 10 * host_sigma m h p / npow (t_distance (p_tides p)) 7)%num.
  Definition orth_planet_of m (h p : particle R) : R :=
    (9//2 * npow (p_mass h) 2 * npow (p_radius p) 10 * planet_sigma m h p / npow (t_distance (p_tides p)) 7)%num.
  Definition diss_point_of m (h p : particle R) : R :=
    (nopp (27//2) * t_radial_velocity (p_tides p) / npow (t_distance (p_tides p)) 8 *
       (p_mass h * p_mass h * npow (p_radius p) 10 * planet_sigma m h p))%num.
  Definition radial_of m c (h p : particle R) : R :=
    (nopp (#3) * K2 / npow (t_distance (p_tides p)) 7
          * (p_mass p * p_mass p * npow (p_radius h) 5 *
               match central_ctl (t_effect (p_tides h)) with Some c => ctl_love c | None => n0 end
             + p_mass h * p_mass h * npow (p_radius p) 5 * ctl_love c)
     + (diss_point_of m h p
        + nopp (27//2) * t_radial_velocity (p_tides p) / npow (t_distance (p_tides p)) 8 *
          (p_mass p * p_mass p * npow (p_radius h) 10 * host_sigma m h p)))%num.
  Lemma forces_one_form m h p c : orbiting_ctl (t_effect (p_tides p)) = Some c ->
    forces_one m h p =
    set_p_tides (set_t_radial (radial_of m c h p) (set_t_radial_diss_point (diss_point_of m h p)
      (set_t_orth_planet (orth_planet_of m h p) (set_t_orth_star (orth_star_of m h p) (p_tides p))))) p.
  Proof.
    intro E. unfold forces_one. unfold ctl_orthogonal at 2. rewrite E. fold (orth_star_of m h p).
    set (p1 := on_tides _ p).
    assert (E1 : orbiting_ctl (t_effect (p_tides p1)) = Some c) by exact E.
    unfold ctl_orthogonal. rewrite E1.
    set (p2 := on_tides _ p1).
    assert (E2 : orbiting_ctl (t_effect (p_tides p2)) = Some c) by exact E.
    unfold ctl_radial. rewrite E2. reflexivity.
  Qed.

  Definition done_one m (host p : particle R) : particle R := forces_one m (ready_host host) (ready_one host p).

  Lemma ready_one_effect host p : t_effect (p_tides (ready_one host p)) = t_effect (p_tides p).
  Proof. unfold ready_one. now destruct (is_tides_orbiting _). Qed.

  (** everything the forces read, for an orbiting body *)
  Lemma done_one_spec m host p : ctl_body p ->
    let q := done_one m host p in
    let h := ready_host host in
    let r := vsub (p_ipos p) (p_ipos host) in
    let v := vsub (p_ivel p) (p_ivel host) in
    let d := sqrt (norm2 r) in
    is_tides_orbiting (t_effect (p_tides q)) = true /\
    p_mass q = p_mass p /\ p_ipos q = p_ipos p /\ p_ivel q = p_ivel p /\ p_spin q = p_spin p /\
    t_pos (p_tides q) = r /\ t_vel (p_tides q) = v /\ t_distance (p_tides q) = d /\
    t_radial_velocity (p_tides q) = vdot r v / d /\
    t_pos_dot_star_spin (p_tides q) = vdot r (p_spin host) /\
    t_pos_dot_planet_spin (p_tides q) = vdot r (p_spin p) /\
    t_orth_star (p_tides q) = 9 / 2 * p_mass p ^ 2 * p_radius host ^ 10 * host_sigma m host p / d ^ 7 /\
    t_orth_planet (p_tides q) = 9 / 2 * p_mass host ^ 2 * p_radius p ^ 10 * planet_sigma m host p / d ^ 7 /\
    t_radial_diss_point (p_tides q) = - (27 / 2) * (vdot r v / d) / d ^ 8 *
       (p_mass host * p_mass host * p_radius p ^ 10 * planet_sigma m host p) /\
    t_radial (p_tides q) =
      - (3) * K2 / d ^ 7 * (p_mass p * p_mass p * p_radius host ^ 5 *
           match central_ctl (t_effect (p_tides host)) with Some c => ctl_love c | None => 0 end
         + p_mass host * p_mass host * p_radius p ^ 5 *
           match orbiting_ctl (t_effect (p_tides p)) with Some c => ctl_love c | None => 0 end)
      + (- (27 / 2) * (vdot r v / d) / d ^ 8 * (p_mass host * p_mass host * p_radius p ^ 10 * planet_sigma m host p)
         + - (27 / 2) * (vdot r v / d) / d ^ 8 * (p_mass p * p_mass p * p_radius host ^ 10 * host_sigma m host p)).
  Proof.
    intros [c Hc]. cbn zeta.
    assert (Hr : orbiting_ctl (t_effect (p_tides (ready_one host p))) = Some c)
      by (rewrite ready_one_effect, Hc; reflexivity).
    unfold done_one. rewrite (forces_one_form m (ready_host host) (ready_one host p) c Hr).
    unfold ready_one in *. rewrite Hc in *. cbn [is_tides_orbiting orbiting_ctl] in *. clear Hr.
    unfold radial_of, orth_star_of, orth_planet_of, diss_point_of, host_sigma, planet_sigma, on_tides, ready_host.
    tproj. rewrite Hc. cbn [is_tides_orbiting]. rewrite !npow_pow. tproj.
    num_simpl. unfold on_tides. tproj.
    replace (3 / 1) with 3 by field. conjs; reflexivity.
  Qed.

  Lemma done_one_idle m host p : no_tides p -> done_one m host p = p.
  Proof.
    intros (E & _). unfold done_one, ready_one. rewrite E. cbn [is_tides_orbiting]. now apply forces_one_idle.
  Qed.
  Lemma done_one_consistent m host p : ctl_body p -> apart host p ->
    consistent (ready_host host) (done_one m host p).
  Proof.
    intros Hc Ha.
    destruct (done_one_spec m host p Hc) as (_ & _ & _ & _ & Esp & Ep & Ev & Ed & Er & Es & Epl & _).
    unfold consistent. rewrite Ep, Ev, Ed, Er, Es, Epl, Esp.
    pose proof (norm_pos _ (vsub_apart host p Ha)).
    refine (conj _ (conj (norm_sq _) (conj eq_refl (conj eq_refl eq_refl)))). lra.
  Qed.

  Lemma ready_ctl_or_none host l : Forall ctl_or_none l -> Forall ctl_or_none (map (ready_one host) l).
  Proof.
    intro Hl. rewrite Forall_map. eapply Forall_impl; [|exact Hl]. intros p.
    apply ctl_or_none_ext; [apply ready_one_effect|]. intro E. unfold ready_one. now rewrite E.
  Qed.

  (** the pair bookkeeping of this evaluation *)
  Definition used_pairs (m : pairs) (host : particle R) (l : list (particle R)) : pairs :=
    pair_dependent_factors (ready_host host) (map (ready_one host) l) m.

  Definition star_torque (m : pairs) (host p : particle R) : vec R :=
    ctl_torque (ready_host host) (done_one m host p) true.
  Definition own_torque (m : pairs) (host p : particle R) : vec R :=
    if is_tides_orbiting (t_effect (p_tides p)) then ctl_torque (ready_host host) (done_one m host p) false else vzero.
  Definition pair_force (m : pairs) (host p : particle R) : vec R :=
    if is_tides_orbiting (t_effect (p_tides p)) then ctl_force (ready_host host) (done_one m host p) else vzero.
  Definition final_one (m : pairs) (host p : particle R) : particle R :=
    if is_tides_orbiting (t_effect (p_tides p)) then
      on_tides (fun t => set_t_dL (vscale (- 1) (own_torque m host p))
                           (set_t_acc (vscale (1 / p_mass p) (pair_force m host p)) t)) (done_one m host p)
    else p.
  Definition final_host (m : pairs) (host : particle R) (l : list (particle R)) : particle R :=
    on_tides (fun t => set_t_dL (Vsum (map (fun p => vscale (- 1) (star_torque m host p)) l))
      (set_t_acc (vscale (- 1 * (1 / p_mass host)) (Vsum (map (pair_force m host) l))) t)) (ready_host host).

  Lemma on_tides_twice f g (p : particle R) : on_tides f (on_tides g p) = on_tides (fun t => f (g t)) p.
  Proof. reflexivity. Qed.
  Lemma ctl_torque_set_dL x (h p : particle R) b : ctl_torque h (on_tides (set_t_dL x) p) b = ctl_torque h p b.
  Proof. reflexivity. Qed.
  Lemma ctl_torque_set_acc x (h p : particle R) b : ctl_torque h (on_tides (set_t_acc x) p) b = ctl_torque h p b.
  Proof. reflexivity. Qed.
  Lemma ctl_torque_host f (h p : particle R) b : ctl_torque (on_tides f h) p b = ctl_torque h p b.
  Proof. reflexivity. Qed.
  Lemma ready_host_mass host : p_mass (ready_host host) = p_mass host.
  Proof. reflexivity. Qed.
  Lemma final_host_body m host l :
    p_mass (final_host m host l) = p_mass host /\ p_ipos (final_host m host l) = p_ipos host /\
    p_ivel (final_host m host l) = p_ivel host /\ p_spin (final_host m host l) = p_spin host.
  Proof. unfold final_host, ready_host, on_tides. tproj. auto. Qed.
  Lemma on_tides_effect_acc x (p : particle R) : t_effect (p_tides (on_tides (set_t_acc x) p)) = t_effect (p_tides p).
  Proof. reflexivity. Qed.

  Lemma tides_pass_ctl m host l : ctl_host host -> Forall ctl_or_none l ->
    let m' := used_pairs m host l in
    tides_pass m host l = Ok (final_host m' host l, map (final_one m' host) l).
  Proof.
    intros Hh Hl. cbn zeta. unfold tides_pass.
    assert (Hc : is_tides_central (t_effect (p_tides host)) = true) by (destruct Hh as [c E]; now rewrite E).
    pose proof (ready_spec host l Hc) as Er.
    destruct (tides_inertial_to_heliocentric host l) as [h0 l0].
    destruct (tides_initialize h0 l0) as [h1 l1]. injection Er as -> ->.
    assert (Hh' : ctl_host (ready_host host)) by (destruct Hh as [c E]; exists c; exact E).
    rewrite tides_forces_ctl by (auto using ready_ctl_or_none).
    fold (used_pairs m host l). set (m' := used_pairs m host l).
    rewrite !map_map. f_equal. f_equal.
    - unfold final_host.
      assert (A : map (fun x => force_one (ready_host host) (forces_one m' (ready_host host) (ready_one host x))) l
                  = map (pair_force m' host) l).
      { apply map_ext. intro p. unfold force_one, pair_force. rewrite forces_one_effect, ready_one_effect. reflexivity. }
      rewrite A. clear A.
      rewrite on_tides_twice, ready_host_mass.
      rewrite (map_ext _ (fun p => vscale (- 1) (star_torque m' host p))); [reflexivity|].
      intro p. rewrite ctl_torque_host. unfold star_torque, dL_one, accel_one. fold (done_one m' host p).
      destruct (is_tides_orbiting (t_effect (p_tides (done_one m' host p)))) eqn:E.
      + rewrite on_tides_effect_acc, E, ctl_torque_set_dL, ctl_torque_set_acc. reflexivity.
      + rewrite E. reflexivity.
    - rewrite Forall_forall in Hl. apply map_ext_in. intros p Hp. specialize (Hl p Hp). unfold final_one.
      destruct Hl as [[c E]|Hn].
      + unfold dL_one, accel_one. fold (done_one m' host p).
        assert (Eo : is_tides_orbiting (t_effect (p_tides (done_one m' host p))) = true)
          by (unfold done_one; rewrite forces_one_effect, ready_one_effect, E; reflexivity).
        rewrite Eo, on_tides_effect_acc, Eo. unfold own_torque, pair_force. rewrite E. cbn [is_tides_orbiting].
        destruct (done_one_spec m' host p (ex_intro _ c E)) as (_ & Em & _).
        cbn zeta in Em. rewrite Em, on_tides_twice, ctl_torque_set_acc, ctl_torque_host. reflexivity.
      + fold (done_one m' host p). rewrite done_one_idle by auto.
        destruct Hn as (E & _). unfold dL_one, accel_one. rewrite E. cbn [is_tides_orbiting]. rewrite E. reflexivity.
  Qed.

  Lemma final_one_spec m host p : ctl_or_none p ->
    let q := final_one m host p in
    p_mass q = p_mass p /\ p_ipos q = p_ipos p /\ p_ivel q = p_ivel p /\ p_spin q = p_spin p /\
    (p_mass p <> 0 -> vscale (p_mass p) (tidal_acc q) = pair_force m host p) /\
    tidal_torque q = vscale (- 1) (own_torque m host p).
  Proof.
    intros Hp. cbn zeta. unfold final_one.
    destruct Hp as [Hc|Hn].
    - destruct (done_one_spec m host p Hc) as (_ & Em & Ei & Ev & Es & _). destruct Hc as [c E]. rewrite E.
      cbn [is_tides_orbiting].
      refine (conj Em (conj Ei (conj Ev (conj Es (conj _ eq_refl))))).
      intro Hm. unfold tidal_acc, on_tides. cbn [p_tides set_p_tides t_acc set_t_acc set_t_dL].
      rewrite vscale_scale. replace (p_mass p * (1 / p_mass p)) with 1 by (field; auto). apply vscale_1.
    - destruct Hn as (E & A & B & _). rewrite E. cbn [is_tides_orbiting].
      unfold tidal_acc, tidal_torque, own_torque, pair_force. rewrite E, A, B. cbn [is_tides_orbiting].
      rewrite !vscale_0_r. auto 10.
  Qed.

  Lemma pair_torque_balance m host p : ctl_or_none p -> (ctl_body p -> apart host p) ->
    vcross (vsub (p_ipos p) (p_ipos host)) (pair_force m host p) = vadd (star_torque m host p) (own_torque m host p).
  Proof.
    intros [Hc|Hn] Ha.
    - pose proof (ctl_torque_balance _ _ (done_one_consistent m host p Hc (Ha Hc))) as B.
      destruct (done_one_spec m host p Hc) as (_ & _ & _ & _ & _ & Ep & _). cbn zeta in Ep. rewrite Ep in B.
      unfold pair_force, star_torque, own_torque. destruct Hc as [c E]. rewrite E. cbn [is_tides_orbiting]. exact B.
    - pose proof (done_one_idle m host p Hn) as D. destruct Hn as (E & _ & _ & O).
      unfold pair_force, star_torque, own_torque. rewrite D, E. cbn [is_tides_orbiting].
      unfold ctl_torque. rewrite O. num_simpl. rewrite !Rmult_0_l, vcross_0_r. vring.
  Qed.

  Theorem ctl_momentum_and_torque m host l host' l' :
    ctl_host host -> Forall ctl_or_none l -> Forall (fun p => ctl_body p -> apart host p) l ->
    p_mass host <> 0 -> Forall (fun p => p_mass p <> 0) l ->
    tides_pass m host l = Ok (host', l') ->
    net_force tidal_acc (host' :: l') = vzero /\ net_torque tidal_acc tidal_torque (host' :: l') = vzero.
  Proof.
    intros Hh Hl Ha Hm Hml E. rewrite tides_pass_ctl in E by auto.
    set (m' := used_pairs m host l) in E. injection E as <- <-.
    assert (Hmom : vscale (p_mass host) (tidal_acc (final_host m' host l)) =
                   vscale (- 1) (Vsum (map (pair_force m' host) l))).
    { unfold tidal_acc, final_host, on_tides. cbn [p_tides set_p_tides t_acc set_t_acc set_t_dL].
      rewrite vscale_scale. f_equal. field; auto. }
    assert (Hone : Forall (fun p => vscale (p_mass p) (tidal_acc (final_one m' host p)) = pair_force m' host p) l).
    { rewrite Forall_forall in *. intros p Hp. apply (final_one_spec m' host p (Hl p Hp)); auto. }
    destruct (final_host_body m' host l) as (HM & HP & HV & HS).
    split.
    - rewrite net_force_cons, HM, Hmom. unfold net_force. rewrite map_map.
      rewrite (Vsum_map_ext (fun x => vscale (p_mass (final_one m' host x)) (tidal_acc (final_one m' host x))) (pair_force m' host)).
      + vring.
      + rewrite Forall_forall in *. intros p Hp.
        destruct (final_one_spec m' host p (Hl p Hp)) as (A & _). cbn zeta in A. rewrite A. auto.
    - unfold net_torque. cbn [map]. rewrite map_map.
      rewrite HM, HP, Hmom.
      match goal with |- Vsum (?a :: ?b) = _ => change (vadd a (Vsum b) = vzero) end.
      rewrite (Vsum_map_ext (fun x => vadd (vcross (p_ipos (final_one m' host x)) (vscale (p_mass (final_one m' host x)) (tidal_acc (final_one m' host x)))) (tidal_torque (final_one m' host x)))
        (fun p => vadd (vcross (p_ipos host) (pair_force m' host p)) (star_torque m' host p))).
      + rewrite Vsum_map_add, Vsum_map_cross. unfold tidal_torque at 1, final_host, on_tides.
        tproj. rewrite Vsum_map_scale.
        generalize (Vsum (map (pair_force m' host) l)) (Vsum (map (star_torque m' host) l)) (p_ipos host). vring.
      + rewrite Forall_forall in *. intros p Hp.
        destruct (final_one_spec m' host p (Hl p Hp)) as (A & B & _ & _ & _ & D). cbn zeta in *.
        rewrite A, B, D, Hone by auto.
        pose proof (pair_torque_balance m' host p (Hl p Hp) (Ha p Hp)) as T.
        revert T. generalize (star_torque m' host p) (own_torque m' host p) (pair_force m' host p) (p_ipos host) (p_ipos p).
        intros N1 N2 f x y T. replace N1 with (vsub (vcross (vsub y x) f) N2).
        * vring.
        * rewrite T. vring.
  Qed.

  (** ** Energy *)
  Lemma pair_power m host p : ctl_or_none p -> (ctl_body p -> apart host p) ->
    vdot (pair_force m host p) (vsub (p_ivel p) (p_ivel host)) - vdot (star_torque m host p) (p_spin host)
      - vdot (own_torque m host p) (p_spin p) =
    conservative_power K2 host p
    - (heat_in_host (host_sigma m host p) host p + heat_in_body (planet_sigma m host p) host p).
  Proof.
    intros [Hc|Hn] Ha.
    - pose proof (done_one_consistent m host p Hc (Ha Hc)) as Hk.
      pose proof (norm_pos _ (vsub_apart host p (Ha Hc))) as Hd.
      destruct (done_one_spec m host p Hc)
        as (_ & Em & _ & _ & Esp & Ep & Ev & Ed & Er & _ & _ & Os & Op & _ & Rd). cbn zeta in *.
      set (q := done_one m host p) in *.
      set (r := vsub (p_ipos p) (p_ipos host)) in *. set (v := vsub (p_ivel p) (p_ivel host)) in *.
      set (d := sqrt (norm2 r)) in *.
      unfold conservative_power, heat_in_host, heat_in_body, ctl_only, host_love.
      destruct Hc as [c Hc]. rewrite Hc in *. cbn [orbiting_ctl] in Rd.
      set (kh := match central_ctl (t_effect (p_tides host)) with Some c => ctl_love c | None => 0 end) in Rd.
      assert (Ekh : match t_effect (p_tides host) with
                    | TidesCentral (ConstantTimeLag c0) => ctl_love c0 | _ => 0 end = kh)
        by (unfold kh; destruct (t_effect (p_tides host)) as [[| |]| |]; reflexivity).
      rewrite Ekh. clear Ekh. clearbody kh.
      set (cons := - (3) * K2 / d ^ 7 * (p_mass p * p_mass p * p_radius host ^ 5 * kh
                     + p_mass host * p_mass host * p_radius p ^ 5 * ctl_love c)) in *.
      pose proof (ctl_power (ready_host host) q cons Hk) as P.
      rewrite Os, Op, Er, Ed, Ev, Ep, Esp, Rd in P.
      change (p_spin (ready_host host)) with (p_spin host) in P.
      unfold pair_force, star_torque, own_torque. rewrite Hc. cbn [is_tides_orbiting]. fold q.
      rewrite P.
      + unfold tidal_heat, bulge_force. fold r v. fold d. rewrite !vdot_scale_l. unfold cons.
        generalize (vdot r v) (host_sigma m host p) (planet_sigma m host p)
          (norm2 (vsub v (vcross (p_spin host) r))) (norm2 (vsub v (vcross (p_spin p) r))).
        generalize (p_mass p) (p_mass host) (p_radius p) (p_radius host) (ctl_love c) (@K2 R _).
        assert (Hd0 : d <> 0) by lra. clearbody d. clear - Hd0. intros. field. auto.
      + unfold cons. assert (Hd0 : d <> 0) by lra. clearbody d. clear - Hd0. field. auto.
    - pose proof (done_one_idle m host p Hn) as D. destruct Hn as (E & _ & _ & O).
      unfold conservative_power, heat_in_host, heat_in_body, ctl_only.
      unfold pair_force, star_torque, own_torque. rewrite D, E. cbn [is_tides_orbiting].
      unfold ctl_torque. rewrite O. num_simpl. rewrite !Rmult_0_l. vunfold. ring.
  Qed.

  Theorem ctl_energy m host l host' l' :
    ctl_host host -> Forall ctl_or_none l -> Forall (fun p => ctl_body p -> apart host p) l ->
    p_mass host <> 0 -> Forall (fun p => p_mass p <> 0) l ->
    tides_pass m host l = Ok (host', l') ->
    let m' := used_pairs m host l in
    power tidal_acc tidal_torque (host' :: l') =
    Rsum (map (conservative_power K2 host) l)
    - Rsum (map (fun p => heat_in_host (host_sigma m' host p) host p + heat_in_body (planet_sigma m' host p) host p) l).
  Proof.
    intros Hh Hl Ha Hm Hml E. cbn zeta. rewrite tides_pass_ctl in E by auto.
    set (m' := used_pairs m host l) in *. injection E as <- <-.
    destruct (final_host_body m' host l) as (HM & HP & HV & HS).
    unfold power. cbn [map]. rewrite map_map, HM, HV, HS.
    match goal with |- Rsum (?a :: ?b) = _ => change (a + Rsum b = 
    Rsum (map (conservative_power K2 host) l)
    - Rsum (map (fun p => heat_in_host (host_sigma m' host p) host p + heat_in_body (planet_sigma m' host p) host p) l)) end.
    assert (Hacc : p_mass host * vdot (tidal_acc (final_host m' host l)) (p_ivel host) =
                   - Rsum (map (fun p => vdot (pair_force m' host p) (p_ivel host)) l)).
    { rewrite Vsum_map_dot. unfold tidal_acc, final_host, on_tides. tproj.
      rewrite vdot_scale_l. field. auto. }
    assert (HdL : vdot (tidal_torque (final_host m' host l)) (p_spin host) =
                   - Rsum (map (fun p => vdot (star_torque m' host p) (p_spin host)) l)).
    { rewrite Vsum_map_dot. unfold tidal_torque, final_host, on_tides. tproj.
      rewrite Vsum_map_scale, vdot_scale_l. ring. }
    rewrite Hacc, HdL.
    replace (Rsum (map (conservative_power K2 host) l)
    - Rsum (map (fun p => heat_in_host (host_sigma m' host p) host p + heat_in_body (planet_sigma m' host p) host p) l))
    with (Rsum (map (fun p => vdot (pair_force m' host p) (vsub (p_ivel p) (p_ivel host)) - vdot (star_torque m' host p) (p_spin host)
      - vdot (own_torque m' host p) (p_spin p)) l)).
    - rewrite <- !Rsum_map_opp. rewrite <- !Rsum_map_add. apply Rsum_map_ext.
      rewrite Forall_forall in *. intros p Hp.
      destruct (final_one_spec m' host p (Hl p Hp)) as (A & B & C & D & F & G). cbn zeta in *.
      rewrite A, C, D, G. rewrite <- vdot_scale_l, F by auto.
      generalize (pair_force m' host p) (own_torque m' host p) (star_torque m' host p) (p_ivel host) (p_ivel p) (p_spin p).
      clear. vring.
    - replace (- Rsum (map (fun p => heat_in_host (host_sigma m' host p) host p + heat_in_body (planet_sigma m' host p) host p) l))
        with (- Rsum (map (fun p => heat_in_host (host_sigma m' host p) host p + heat_in_body (planet_sigma m' host p) host p) l)) by ring.
      unfold Rminus at 3. rewrite <- Rsum_map_opp, <- Rsum_map_add. apply Rsum_map_ext.
      rewrite Forall_forall in *. intros p Hp. rewrite pair_power by auto. ring.
  Qed.

  Lemma tidal_heat_nonneg sigma radius mass spin r v :
    0 <= sigma -> r <> vzero -> 0 <= tidal_heat sigma radius mass spin r v.
  Proof.
    intros Hs Hr. unfold tidal_heat. pose proof (norm_pos r Hr) as Hd.
    set (d := sqrt (norm2 r)) in *.
    apply Rmult_le_pos.
    - assert (A : 0 <= mass ^ 2) by apply pow2_ge_0.
      assert (B : 0 <= radius ^ 10) by (replace (radius ^ 10) with ((radius ^ 5) ^ 2) by ring; apply pow2_ge_0).
      unfold Rdiv at 1. apply Rmult_le_pos.
      + apply Rmult_le_pos; [apply Rmult_le_pos|]; auto. lra.
      + apply Rlt_le, Rinv_0_lt_compat, pow_lt; auto.
    - pose proof (norm2_nonneg (vsub v (vcross spin r))).
      pose proof (pow2_ge_0 (vdot r v / d)). lra.
  Qed.
  Lemma tidal_heat_synchronous sigma radius mass spin r : r <> vzero ->
    tidal_heat sigma radius mass spin r (vcross spin r) = 0.
  Proof.
    intros Hr. unfold tidal_heat.
    replace (vdot r (vcross spin r)) with 0 by vring.
    replace (norm2 (vsub (vcross spin r) (vcross spin r))) with 0 by vring.
    pose proof (norm_pos r Hr). set (d := sqrt (norm2 r)) in *. field. lra.
  Qed.
  Lemma tidal_heat_zero sigma radius mass spin r v :
    0 < sigma -> radius <> 0 -> mass <> 0 -> r <> vzero ->
    tidal_heat sigma radius mass spin r v = 0 -> v = vcross spin r.
  Proof.
    intros Hs Hra Hma Hr E. unfold tidal_heat in E. pose proof (norm_pos r Hr) as Hd.
    set (d := sqrt (norm2 r)) in *.
    apply Rmult_integral in E. destruct E as [E|E].
    - exfalso. revert E. assert (mass ^ 2 <> 0) by (apply pow_nonzero; auto).
      assert (radius ^ 10 <> 0) by (apply pow_nonzero; auto). assert (d ^ 8 <> 0) by (apply pow_nonzero; lra).
      unfold Rdiv. intro E. apply Rmult_integral in E. destruct E as [E|E].
      + apply Rmult_integral in E. destruct E as [E|E]; [|auto].
        apply Rmult_integral in E. destruct E as [E|E]; [|auto]. lra.
      + revert E. now apply Rinv_neq_0_compat.
    - pose proof (norm2_nonneg (vsub v (vcross spin r))).
      pose proof (pow2_ge_0 (vdot r v / d)).
      assert (Z : norm2 (vsub v (vcross spin r)) = 0) by lra.
      apply norm2_zero in Z. revert Z. generalize (vcross spin r). intro w. destruct v, w. vunfold.
      intro Z. injection Z. intros. f_equal; lra.
  Qed.

  (** the heat reported for each body (file record) *)
  Theorem reported_heat m host l host' l' :
    ctl_host host -> Forall ctl_or_none l -> Forall (fun p => ctl_body p -> apart host p) l ->
    tides_pass m host l = Ok (host', l') ->
    let m' := used_pairs m host l in
    Forall2 (fun p q => ctl_body p ->
      t_denergy_dt (p_tides (tides_denergy q)) = heat_in_body (planet_sigma m' host p) host p) l l'.
  Proof.
    intros Hh Hl Ha E. cbn zeta. rewrite tides_pass_ctl in E by auto.
    set (m' := used_pairs m host l) in *. injection E as <- <-.
    clear - Hl Ha. clearbody m'. induction l as [|p l IH]; constructor.
    - inversion Hl; inversion Ha; subst. intros Hc.
      match goal with H : ctl_body p -> apart _ _ |- _ => specialize (H Hc); rename H into Hap end.
      pose proof (done_one_consistent m' host p Hc Hap) as (Hd0 & Hd2 & Ds & Dp & Dr).
      pose proof (norm_pos _ (vsub_apart host p Hap)) as Hd.
      destruct (done_one_spec m' host p Hc)
        as (Eo & Em & _ & _ & Esp & Ep & Ev & Ed & Er & _ & _ & Os & Op & Dd & _). cbn zeta in *.
      unfold final_one, own_torque, heat_in_body, ctl_only.
      destruct Hc as [c Hc]. rewrite Hc. cbn [is_tides_orbiting].
      set (q := done_one m' host p) in *. set (T := ctl_torque _ q _). set (f := pair_force _ _ _).
      unfold tides_denergy, on_tides. tproj. rewrite Eo. tproj.
      unfold T, ctl_torque. rewrite Dp.
      rewrite Dd, Op, Ed, Er, Ep, Ev, Esp. rewrite Ed, Ep in Hd2.
      set (r := vsub (p_ipos p) (p_ipos host)) in *. set (v := vsub (p_ivel p) (p_ivel host)) in *.
      unfold tidal_heat. set (d := sqrt (norm2 r)) in *.
      assert (Hdd : d <> 0) by lra. clearbody d.
      generalize (p_mass host) (p_radius p) (planet_sigma m' host p) (p_spin p). intros ma ra sg w.
      clear - Hdd Hd2. clearbody r v. destruct r as [rx ry rz].
      assert (E : forall x, d * x = norm2 (Vec rx ry rz) * (x / d)) by (intro; rewrite <- Hd2; field; auto).
      vdestruct. cbn [vx vy vz vdot vcross vsub vscale vmap2] in *. num_simpl. rewrite !E. clear E. vunfold.
      assert (E : rz * rz = d * d - rx * rx - ry * ry) by lra. clear Hd2.
      field_simplify_eq; [|auto].
      replace (rz^4) with ((rz*rz)*(rz*rz)) by ring.
      replace (rz^3) with ((rz*rz)*rz) by ring.
      replace (rz^2) with (rz*rz) by ring.
      rewrite E. ring.
    - apply IH; [inversion Hl|inversion Ha]; auto.
  Qed.
End TidesR.
