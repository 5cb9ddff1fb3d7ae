(** Creep tides: torques (real arithmetic) *)
From Coq Require Import Reals Lra Psatz List Bool ZArith Arith.
From Verif Require Import Base.Num Base.Result Base.Trans Base.Vec Model.Constants Model.Particle
  Model.Tools Model.Kaula Model.Creep Model.Tides Proofs.NumLemmas Proofs.VecLemmas Proofs.TidesProofs Spec.EffectsSpec.
Import ListNotations.
Open Scope R_scope.

Section CreepR.
  Context `{TR : Trans R} `{FL : Floor R} `{FU : Fuel}.

  (** ** One pair *)
  Definition creep_own_torque (host p : particle R) : vec R :=
    match creep_torque host p false with Ok t => t | Panic _ => vzero end.
  Lemma creep_pair_balance host p :
    vz (t_pos (p_tides p)) = 0 -> t_distance (p_tides p) <> 0 ->
    t_distance (p_tides p) * t_distance (p_tides p) = norm2 (t_pos (p_tides p)) ->
    vcross (t_pos (p_tides p)) (creep_force host p) = creep_own_torque host p.
  Proof.
    intros Hz Hd Hd2. unfold creep_own_torque, creep_force, creep_torque. cbn [rbind].
    rewrite !npow_pow. generalize dependent (t_distance (p_tides p)). intros d Hd Hd2.
    generalize (t_shape (p_tides p)) (@K2 R _) (p_mass p) (p_mass host) (p_radius p).
    destruct (t_pos (p_tides p)) as [rx ry rz]. cbn [vx vy vz] in *. subst rz.
    intros [sx sy sz] K mp mh rp. vunfold. cbn [vx vy vz nlit]. num_simpl.
    assert (E : ry * ry = d * d - rx * rx) by lra. clear Hd2.
    f_equal; try (field; auto).
    field_simplify_eq; [|auto]. replace (ry ^ 2) with (ry * ry) by ring. rewrite E. ring.
  Qed.

  (** ** The whole evaluation: creep planets around a host without creep *)
  Definition creep_body (p : particle R) : Prop :=
    (exists v, t_effect (p_tides p) = TidesOrbiting (CreepCoplanar v)) /\ t_orth_star (p_tides p) = 0.
  (** what the force reads *)
  Definition creep_ready (host p : particle R) : Prop :=
    creep_body p /\ p_mass p <> 0 /\ t_pos (p_tides p) = vsub (p_ipos p) (p_ipos host) /\
    vz (t_pos (p_tides p)) = 0 /\ t_distance (p_tides p) <> 0 /\
    t_distance (p_tides p) * t_distance (p_tides p) = norm2 (t_pos (p_tides p)).

  Lemma creep_update_ready host h p p' : creep_ready host p -> creep_update h p = Ok p' ->
    creep_ready host p'.
  Proof.
    intros Hp E. unfold creep_update in E. destruct (neqb _ _); [injection E as <-; auto|].
    apply rbind_ok in E. destruct E as (s & _ & E). injection E as <-. exact Hp.
  Qed.
  Lemma creep_shapes_ready host h l l' : Forall (creep_ready host) l -> creep_shapes h l = Ok l' ->
    Forall (creep_ready host) l'.
  Proof.
    unfold creep_shapes. revert l'. induction l as [|p l IH]; intros l' Hl E; cbn in E.
    - injection E as <-. constructor.
    - inversion Hl; subst. apply rbind_ok in E. destruct E as (q & Eq & E).
      apply rbind_ok in E. destruct E as (l1 & El & E). injection E as <-.
      constructor; [eapply creep_update_ready; eauto|eauto].
  Qed.

  Definition creep_accel (h p : particle R) : particle R := on_tides (set_t_acc (vscale (1 / p_mass p) (creep_force h p))) p.
  Lemma creep_loop host h l : Forall (creep_ready host) l -> forall total seen,
    rfold tides_acceleration_step l (total, h, seen) =
    Ok (vadd total (Vsum (map (creep_force h) l)), h, seen ++ map (creep_accel h) l).
  Proof.
    induction 1 as [|p l Hp _ IH]; intros total seen.
    - cbn. now rewrite vadd_0_r, app_nil_r.
    - cbn [rfold map Vsum fold_right]. destruct Hp as (((v & E) & _) & _).
      unfold tides_acceleration_step at 1. rewrite E. cbn [rbind model_force].
      rewrite IH. unfold Vsum. now rewrite vadd_assoc, <- app_assoc.
  Qed.
  Lemma creep_dL_loop host h l : Forall (creep_ready host) l ->
    rmap (tides_planet_dL h) l = Ok (map (fun p => on_tides (set_t_dL (vscale (- 1) (creep_own_torque h p))) p) l).
  Proof.
    induction 1 as [|p l Hp _ IH]; [reflexivity|].
    cbn [rmap map]. destruct Hp as (((v & E) & _) & _).
    unfold tides_planet_dL at 1. rewrite E. unfold model_torque, creep_own_torque at 1, creep_torque at 1.
    cbn [rbind]. rewrite IH. reflexivity.
  Qed.

  Theorem creep_momentum_and_torque m host l host' l' :
    ctl_host host -> Forall creep_body l ->
    Forall (fun p => apart host p /\ vz (p_ipos p) = vz (p_ipos host)) l ->
    p_mass host <> 0 -> Forall (fun p => p_mass p <> 0) l ->
    tides_pass m host l = Ok (host', l') ->
    net_force tidal_acc (host' :: l') = vzero /\ net_torque tidal_acc tidal_torque (host' :: l') = vzero.
  Proof.
    intros Hh Hl Ha Hm Hml E. unfold tides_pass in E.
    assert (Hc : is_tides_central (t_effect (p_tides host)) = true) by (destruct Hh as [c Ec]; now rewrite Ec).
    pose proof (ready_spec host l Hc) as Er.
    destruct (tides_inertial_to_heliocentric host l) as [h0 l0].
    destruct (tides_initialize h0 l0) as [h1 l1]. injection Er as -> ->.
    set (h := ready_host host) in *.
    assert (Hh' : ctl_host h) by (destruct Hh as [c Ec]; exists c; exact Ec).
    assert (H0 : Forall (creep_ready host) (map (ready_one host) l)).
    { rewrite Forall_map. rewrite Forall_forall in *. intros p Hp.
      destruct (Hl p Hp) as ((v & Ev) & Eo). destruct (Ha p Hp) as (Hap & Hz).
      pose proof (norm_pos _ (vsub_apart host p Hap)) as Hd. pose proof (norm_sq (vsub (p_ipos p) (p_ipos host))) as Hn.
      unfold ready_one. rewrite Ev. cbn [is_tides_orbiting]. unfold creep_ready, creep_body, on_tides. tproj.
      split; [split; [exists v; exact Ev|exact Eo]|].
      split; [auto|]. split; [reflexivity|]. split; [|split; [lra|exact Hn]].
      destruct (p_ipos p), (p_ipos host). cbn in *. lra. }
    assert (HM : p_mass h = p_mass host) by reflexivity. assert (HP : p_ipos h = p_ipos host) by reflexivity.
    clearbody h. clear Hl Ha Hc.
    unfold tides_forces in E. set (m' := pair_dependent_factors h (map (ready_one host) l) m) in E.
    assert (Eid : ctl_orthogonal_components m' h (map (ready_one host) l) = map (ready_one host) l).
    { unfold ctl_orthogonal_components. rewrite map_map. rewrite <- (map_id (map (ready_one host) l)) at 2.
      apply map_ext_in. intros p Hp. rewrite Forall_forall in H0. destruct (H0 p Hp) as (((v & Ev) & _) & _).
      unfold ctl_orthogonal. rewrite Ev. cbn [orbiting_ctl]. rewrite Ev. reflexivity. }
    rewrite Eid in E. clear Eid. apply rbind_ok in E. destruct E as (l2 & E2 & E).
    pose proof (creep_shapes_ready host h _ _ H0 E2) as H2.
    assert (Eid : ctl_radial_components m' h l2 = l2).
    { unfold ctl_radial_components. rewrite <- (map_id l2) at 2.
      apply map_ext_in. intros p Hp. rewrite Forall_forall in H2. destruct (H2 p Hp) as (((v & Ev) & _) & _).
      unfold ctl_radial. rewrite Ev. reflexivity. }
    rewrite Eid in E. clear Eid m' E2 H0.
    apply rbind_ok in E. destruct E as ([h3 l3] & E3 & E). cbn [fst snd] in E.
    unfold tides_acceleration in E3. rewrite (creep_loop host) in E3 by auto. cbn [rbind] in E3.
    rewrite vadd_0_l in E3. cbn [app] in E3.
    change (t_effect (p_tides (on_tides (set_t_acc (vscale (nmul (nopp n1) (ndiv n1 (p_mass h))) (Vsum (map (creep_force h) l2)))) h)))
      with (t_effect (p_tides h)) in E3.
    destruct Hh' as [c Ec]. rewrite Ec in E3. injection E3 as <- <-.
    assert (H3 : Forall (creep_ready host) (map (creep_accel h) l2)).
    { rewrite Forall_map. eapply Forall_impl; [|exact H2]. intros p Hp. exact Hp. }
    unfold tides_dangular_momentum_dt in E. rewrite (creep_dL_loop host) in E by exact H3. cbn [rbind] in E.
    rewrite host_dL_loop_ctl in E by (exists c; exact Ec). cbn [rbind] in E.
    injection E as <- <-. rewrite vadd_0_l, !map_map. clear H3.
    match goal with |- context [set_t_dL (Vsum ?x)] => assert (Z : Vsum x = vzero) end.
    { transitivity (Vsum (map (fun _ : particle R => vzero) l2)); [apply Vsum_map_ext|].
      - eapply Forall_impl; [|exact H2]. intros p ((_ & Eo) & _).
        unfold ctl_torque, creep_accel, on_tides. tproj. rewrite Eo. vunfold. f_equal; ring.
      - clear. induction l2; cbn; auto. unfold Vsum in IHl2. now rewrite IHl2, vadd_0_l. }
    rewrite Z. clear Z.
    assert (Fo : forall p, creep_ready host p ->
       vscale (p_mass p) (vscale (1 / p_mass p) (creep_force h p)) = creep_force h p).
    { intros p (_ & Hp & _). rewrite vscale_scale. replace (p_mass p * (1 / p_mass p)) with 1 by (field; auto). apply vscale_1. }
    split.
    - rewrite net_force_cons. unfold net_force. rewrite map_map.
      match goal with |- vadd _ ?b = _ => replace b with (Vsum (map (creep_force h) l2)) end.
      2:{ apply Vsum_map_ext. eapply Forall_impl; [|exact H2]. intros p Hp.
          unfold tidal_acc, creep_accel, on_tides. tproj. symmetry. apply Fo; auto. }
      unfold tidal_acc, on_tides. tproj. rewrite HM.
      generalize (Vsum (map (creep_force h) l2)). intros. vdestruct. vunfold. f_equal; field; auto.
    - unfold net_torque. cbn [map]. rewrite map_map.
      match goal with |- Vsum (?a :: ?b) = _ => change (vadd a (Vsum b) = vzero) end.
      match goal with |- vadd _ ?b = _ => replace b with (Vsum (map (fun p => vcross (p_ipos host) (creep_force h p)) l2)) end.
      2:{ apply Vsum_map_ext. eapply Forall_impl; [|exact H2]. intros p Hp.
          unfold tidal_acc, tidal_torque, creep_accel, on_tides. tproj. symmetry. rewrite Fo by auto.
          destruct Hp as (_ & Hmp & Ep & Hz & Hd & Hd2).
          pose proof (creep_pair_balance h p Hz Hd Hd2) as B.
          assert (Eq : forall x, creep_own_torque (set_p_tides (set_t_acc x (p_tides h)) h)
             (set_p_tides (set_t_acc (vscale (1 / p_mass p) (creep_force h p)) (p_tides p)) p) = creep_own_torque h p)
            by reflexivity.
          rewrite Eq, <- B, Ep.
          generalize (creep_force h p) (p_ipos p) (p_ipos host). vring. }
      rewrite Vsum_map_cross. unfold tidal_acc, tidal_torque, on_tides. tproj. rewrite HM, HP.
      generalize (Vsum (map (creep_force h) l2)) (p_ipos host). intros. vdestruct. vunfold. f_equal; field; auto.
  Qed.

  (** ** A creeping host
      Its own tide turns its spin, and nothing else: with an orbiting body that is
      not deformed, the torque on the host is the whole change of the total angular
      momentum. *)
  Lemma creep_torque_set_acc (h p : particle R) x y c :
    creep_torque (on_tides (set_t_acc x) h) (on_tides (set_t_acc y) p) c = creep_torque h p c.
  Proof. reflexivity. Qed.
  Lemma creep_torque_set_dL (h p : particle R) x y c :
    creep_torque (on_tides (set_t_dL x) h) (on_tides (set_t_dL y) p) c = creep_torque h p c.
  Proof. reflexivity. Qed.
  Lemma creep_torque_keep_host (h p : particle R) y c :
    creep_torque h (on_tides (set_t_dL y) p) c = creep_torque h p c.
  Proof. reflexivity. Qed.
  Lemma creep_force_rigid (h p : particle R) : t_shape (p_tides p) = vzero -> creep_force h p = vzero.
  Proof. intros E. unfold creep_force. rewrite E. vunfold. unfold Rdiv. f_equal; ring. Qed.
  Lemma creep_torque_rigid (h p : particle R) : t_shape (p_tides p) = vzero -> creep_torque h p false = Ok vzero.
  Proof. intros E. unfold creep_torque. rewrite E. vunfold. f_equal. f_equal. unfold Rdiv. ring. Qed.
  Lemma creep_host_alone m (host p : particle R) v t :
    t_effect (p_tides host) = TidesCentral (CreepCoplanar v) ->
    t_effect (p_tides p) = TidesOrbiting (CreepCoplanar 0) -> t_shape (p_tides p) = vzero ->
    creep_torque (ready_host host) (ready_one host p) true = Ok t ->
    exists host' l', tides_pass m host [p] = Ok (host', l') /\
      net_torque tidal_acc tidal_torque (host' :: l') = vscale (- 1) t.
  Proof.
    intros Eh Ep Es Et. unfold tides_pass.
    assert (Hc : is_tides_central (t_effect (p_tides host)) = true) by now rewrite Eh.
    pose proof (ready_spec host [p] Hc) as Er.
    destruct (tides_inertial_to_heliocentric host [p]) as [h0 l0].
    destruct (tides_initialize h0 l0) as [h1 l1]. injection Er as -> ->. cbn [map].
    assert (Eh' : t_effect (p_tides (ready_host host)) = TidesCentral (CreepCoplanar v)) by exact Eh.
    assert (Ep' : t_effect (p_tides (ready_one host p)) = TidesOrbiting (CreepCoplanar 0))
      by (rewrite ready_one_effect; exact Ep).
    assert (Es' : t_shape (p_tides (ready_one host p)) = vzero)
      by (unfold ready_one; rewrite Ep; exact Es).
    set (h := ready_host host) in *. set (q := ready_one host p) in *. clearbody h q.
    clear Eh Ep Es Hc h0 l0 host p.
    unfold tides_forces. set (m' := pair_dependent_factors h [q] m). clearbody m'.
    unfold ctl_orthogonal_components. cbn [map]. unfold ctl_orthogonal. rewrite Ep'. cbn [orbiting_ctl]. rewrite Ep'. cbn [orbiting_ctl].
    unfold creep_shapes. cbn [rmap]. unfold creep_update. rewrite Ep'.
    assert (Reqb 0 0 = true) as Ez by (apply Reqb_true; reflexivity). num_simpl. rewrite Ez. cbn [rbind].
    unfold ctl_radial_components. cbn [map]. unfold ctl_radial. rewrite Ep'. cbn [orbiting_ctl].
    unfold tides_acceleration. cbn [rfold]. unfold tides_acceleration_step. rewrite Ep'. cbn [rbind model_force app].
    rewrite creep_force_rigid by exact Es'. rewrite vadd_0_l, !vscale_0_r.
    change (t_effect (p_tides (on_tides (set_t_acc vzero) h))) with (t_effect (p_tides h)). rewrite Eh'. cbn [rbind fst snd].
    unfold tides_dangular_momentum_dt. cbn [rmap]. unfold tides_planet_dL.
    change (t_effect (p_tides (on_tides (set_t_acc vzero) q))) with (t_effect (p_tides q)). rewrite Ep'.
    cbn [model_torque]. rewrite creep_torque_set_acc, creep_torque_rigid by exact Es'. cbn [rbind rfold].
    unfold tides_host_dL_step.
    change (t_effect (p_tides (on_tides (set_t_acc vzero) h))) with (t_effect (p_tides h)). rewrite Eh'.
    cbn [model_torque]. rewrite creep_torque_keep_host, creep_torque_set_acc, Et. cbn [rbind].
    do 2 eexists. split; [reflexivity|].
    unfold net_torque. cbn [map]. unfold tidal_acc, tidal_torque, on_tides. tproj. num_simpl.
    rewrite !vscale_0_r, vadd_0_l. unfold Vsum. cbn [fold_right]. generalize (p_ipos h) (p_ipos q). vring.
  Qed.
End CreepR.
