(** * Torques of one evaluation of tides and flattening (C72) *)
From Coq Require Import Reals Lra List Bool Arith Lia.
From Verif Require Import Base.Num Base.Result Base.Trans Base.Vec Model.Constants Model.Particle Model.Host Model.Creep
  Model.Tides Model.Flattening Model.Universe Spec.EffectsSpec Spec.UniverseSpec Spec.AngularSpec
  Proofs.NumLemmas Proofs.VecLemmas Proofs.TidesProofs Proofs.FlatteningProofs.
Import ListNotations.
Open Scope R_scope.
Local Notation P := (particle R).

Section Forces.
  Context `{Trans R} `{Floor R} `{Fuel}.

  (** ** One pair, the rotation along the line being that of an earlier time *)
  Definition located (h p : P) : Prop :=
    t_pos (p_tides p) = vsub (p_ipos p) (p_ipos h) /\ t_distance (p_tides p) = separation h p /\ t_distance (p_tides p) <> 0.
  Definition lag (h p : P) : vec R :=
    let t := p_tides p in
    vscale ((t_orth_star t * (t_pos_dot_star_spin t - vdot (t_pos t) (p_spin h)) + t_orth_planet t * (t_pos_dot_planet_spin t - vdot (t_pos t) (p_spin p))) / t_distance t) (t_pos t).
  Lemma ctl_torque_lag h p : t_distance (p_tides p) <> 0 -> t_distance (p_tides p) * t_distance (p_tides p) = norm2 (t_pos (p_tides p)) ->
    vcross (t_pos (p_tides p)) (ctl_force h p) = vadd (vadd (ctl_torque h p true) (ctl_torque h p false)) (lag h p).
  Proof.
    unfold ctl_force, ctl_torque, lag. intros Hd Hd2.
    generalize dependent (t_distance (p_tides p)). intros d Hd Hd2.
    generalize (nadd (t_radial (p_tides p)) (ndiv (nmul (nadd (t_orth_star (p_tides p)) (t_orth_planet (p_tides p)))
         (t_radial_velocity (p_tides p))) d)). intro rad.
    generalize (t_orth_star (p_tides p)) (t_orth_planet (p_tides p)) (p_spin h) (p_spin p) (t_vel (p_tides p)) (t_pos_dot_star_spin (p_tides p)) (t_pos_dot_planet_spin (p_tides p)).
    generalize dependent (t_pos (p_tides p)). intros.
    assert (E : forall x, d * x = norm2 v * (x / d)) by (intro; rewrite <- Hd2; field; auto).
    vdestruct. cbn [vx vy vz] in *. num_simpl. rewrite !E. clear E Hd2. vunfold. f_equal; field; auto.
  Qed.

  (** ** All pairs *)
  Definition own (h p : P) : vec R := if is_tides_orbiting (t_effect (p_tides p)) then ctl_torque h p false else vzero.
  Definition lag_one (h p : P) : vec R := if is_tides_orbiting (t_effect (p_tides p)) then lag h p else vzero.
  Lemma tides_torque m h l h' l' : ctl_host h -> Forall ctl_or_none l -> p_mass h <> 0 -> Forall (fun p => p_mass p <> 0) l ->
    Forall (fun p => ctl_body p -> located h p) l -> tides_forces m h l = Ok (h', l') ->
    let m' := pair_dependent_factors h l m in
    net_torque tidal_acc tidal_torque (h' :: l') = Vsum (map (fun p => lag_one h (forces_one m' h p)) l).
  Proof.
    intros Hh Hl Hm Hml Hd E m'. pose proof (tides_forces_ctl m h l Hh Hl) as X. cbn zeta in X. rewrite X in E. clear X. fold m' in E.
    injection E as <- <-. rewrite !map_map.
    set (g := forces_one m' h). set (h1 := on_tides _ h).
    set (T := fun p => if is_tides_orbiting (t_effect (p_tides p)) then ctl_torque h (g p) true else vzero).
    assert (Hg : forall p, ctl_or_none p -> p_mass (g p) = p_mass p /\ p_ipos (g p) = p_ipos p /\ t_effect (p_tides (g p)) = t_effect (p_tides p) /\
        (ctl_body p -> t_pos (p_tides (g p)) = t_pos (p_tides p) /\ t_distance (p_tides (g p)) = t_distance (p_tides p))).
    { intros p Hp. split; [|split; [|split; [apply forces_one_effect|]]].
      - destruct Hp as [[c Ec]|(Ed & _)]; unfold g; [rewrite (forces_one_form m' h p c) by now rewrite Ec|rewrite forces_one_idle by exact Ed]; reflexivity.
      - destruct Hp as [[c Ec]|(Ed & _)]; unfold g; [rewrite (forces_one_form m' h p c) by now rewrite Ec|rewrite forces_one_idle by exact Ed]; reflexivity.
      - intros [c Ec]. unfold g. rewrite (forces_one_form m' h p c) by now rewrite Ec. split; reflexivity. }
    assert (F1 : Vsum (map (fun p => vscale (-1) (ctl_torque h1 (dL_one h1 (accel_one h (g p))) true)) l) = Vsum (map (fun p => vscale (-1) (T p)) l)).
    { apply Vsum_map_ext. rewrite Forall_forall in *. intros p Hp. f_equal. unfold T, dL_one. rewrite accel_one_effect. destruct (Hg p (Hl p Hp)) as (_ & _ & -> & _).
      destruct (Hl p Hp) as [[c Ec]|Hn].
      - rewrite Ec. cbn [is_tides_orbiting]. unfold h1. rewrite ctl_torque_host, ctl_torque_set_dL.
        unfold accel_one. destruct (Hg p (Hl p Hp)) as (_ & _ & -> & _). rewrite Ec. cbn [is_tides_orbiting]. now rewrite ctl_torque_set_acc.
      - pose proof Hn as (Ed & _ & _ & O). rewrite Ed. cbn [is_tides_orbiting]. unfold accel_one, g. rewrite forces_one_idle by exact Ed. rewrite Ed. cbn [is_tides_orbiting].
        unfold ctl_torque. rewrite O. num_simpl. rewrite !Rmult_0_l. reflexivity. }
    unfold net_torque. cbn [map]. rewrite map_map.
    match goal with |- Vsum (?a :: ?b) = _ => change (vadd a (Vsum b) = Vsum (map (fun p => lag_one h (g p)) l)) end.
    unfold tidal_torque at 1, tidal_acc at 1.
    match goal with |- vadd (vadd (vcross (p_ipos ?a) (vscale (p_mass ?a) (t_acc (p_tides ?a)))) (t_dL (p_tides ?a))) _ = _ =>
      change (p_ipos a) with (p_ipos h); change (p_mass a) with (p_mass h);
      change (t_acc (p_tides a)) with (vscale (- 1 * (1 / p_mass h)) (Vsum (map (fun p => force_one h (g p)) l)));
      change (t_dL (p_tides a)) with (Vsum (map (fun p => vscale (-1) (ctl_torque h1 (dL_one h1 (accel_one h (g p))) true)) l)) end.
    rewrite F1. rewrite vscale_scale. replace (p_mass h * (- 1 * (1 / p_mass h))) with (-1) by (field; exact Hm).
    rewrite (Vsum_map_ext (fun q => vadd (vcross (p_ipos (dL_one h1 (accel_one h (g q)))) (vscale (p_mass (dL_one h1 (accel_one h (g q)))) (tidal_acc (dL_one h1 (accel_one h (g q)))))) (tidal_torque (dL_one h1 (accel_one h (g q)))))
      (fun p => vadd (vadd (vcross (p_ipos h) (force_one h (g p))) (T p)) (lag_one h (g p)))).
    - rewrite !Vsum_map_add, Vsum_map_cross, Vsum_map_scale.
      generalize (Vsum (map (fun p => force_one h (g p)) l)) (Vsum (map T l)) (Vsum (map (fun p => lag_one h (g p)) l)) (p_ipos h). vring.
    - rewrite Forall_forall in *. intros p Hp. destruct (Hg p (Hl p Hp)) as (Gm & Gp & Ge & Gd).
      unfold lag_one, force_one, T, tidal_acc, tidal_torque, dL_one. rewrite accel_one_effect, Ge.
      destruct (Hl p Hp) as [Hc|Hn].
      + pose proof Hc as [c Ec]. rewrite Ec. cbn [is_tides_orbiting]. unfold accel_one. rewrite Ge, Ec. cbn [is_tides_orbiting].
        unfold h1. rewrite ctl_torque_host, ctl_torque_set_acc.
        unfold on_tides. tproj. cbn [p_mass p_ipos set_p_tides]. rewrite Gp, Gm.
        rewrite vscale_scale. replace (p_mass p * (1 / p_mass p)) with 1 by (field; apply Hml; exact Hp). rewrite vscale_1.
        destruct (Hd p Hp Hc) as (D1 & D2 & D3). destruct (Gd Hc) as (G1 & G2).
        pose proof (ctl_torque_lag h (g p)) as B. rewrite G1, G2 in B. specialize (B D3). rewrite D2, D1 in B.
        assert (Q : separation h p * separation h p = norm2 (vsub (p_ipos p) (p_ipos h))).
        { unfold separation. apply sqrt_sqrt, norm2_nonneg. }
        specialize (B Q). revert B.
        generalize (ctl_torque h (g p) true) (ctl_torque h (g p) false) (ctl_force h (g p)) (lag h (g p)) (p_ipos h) (p_ipos p).
        intros N1 N2 f lg x y B. replace (vcross y f) with (vadd (vcross x f) (vcross (vsub y x) f)) by vring. rewrite B. vring.
      + pose proof Hn as (Ed & A & B & O). rewrite Ed. cbn [is_tides_orbiting]. unfold accel_one, g. rewrite forces_one_idle by exact Ed. rewrite Ed. cbn [is_tides_orbiting].
        rewrite A, B, !vscale_0_r, !vcross_0_r. vring.
  Qed.
End Forces.

(** ** The flattening alone *)
Section Flat.
  Context `{Trans R} `{Floor R} `{Fuel}.
  Definition rf_out (h : P) (l : list P) : P * list P :=
    let l1 := map (rf_filled h) l in
    let h1 := on_rf (set_rf_acc (vscale (- 1 * (1 / p_mass h)) (Vsum (map (rf_force_one h) l1)))) h in
    let l2 := map (fun p => rf_dL_one h1 (rf_accel_one h p)) l1 in
    (on_rf (set_rf_dL (Vsum (map (fun p => vscale (- 1) (oblate_torque h1 p true)) l2))) h1, l2).
  Lemma flattening_torque_balance h l : oblate_host h -> Forall oblate_or_none l -> p_mass h <> 0 -> Forall (fun p : P => p_mass p <> 0) l ->
    Forall (fun p => oblate_body p -> rf_pos (p_rf p) = vsub (p_ipos p) (p_ipos h)) l ->
    net_torque flattening_acc flattening_torque (fst (rf_out h l) :: snd (rf_out h l)) = vzero.
  Proof.
    intros Hh Hl Hm Hml Hd. unfold rf_out. cbn zeta. cbn [fst snd]. rewrite !map_map.
    set (g := rf_filled h). set (h1 := on_rf _ h).
    set (T := fun p => if is_rf_orbiting (rf_effect (p_rf p)) then oblate_torque h (g p) true else vzero).
    assert (Hg : forall p, oblate_or_none p -> p_mass (g p) = p_mass p /\ p_ipos (g p) = p_ipos p /\ rf_effect (p_rf (g p)) = rf_effect (p_rf p) /\
        (oblate_body p -> rf_pos (p_rf (g p)) = rf_pos (p_rf p))).
    { intros p Hp. split; [|split; [|split; [now apply rf_filled_effect|]]].
      - destruct Hp as [[c Ec]|(Ed & _)]; unfold g; [rewrite (rf_filled_form h p c Ec)|rewrite rf_filled_idle by exact Ed]; reflexivity.
      - destruct Hp as [[c Ec]|(Ed & _)]; unfold g; [rewrite (rf_filled_form h p c Ec)|rewrite rf_filled_idle by exact Ed]; reflexivity.
      - intros [c Ec]. unfold g. rewrite (rf_filled_form h p c Ec). reflexivity. }
    assert (He : forall p, rf_effect (p_rf (rf_accel_one h p)) = rf_effect (p_rf p)) by (intro p; unfold rf_accel_one; now destruct (is_rf_orbiting _)).
    assert (F1 : Vsum (map (fun p => vscale (-1) (oblate_torque h1 (rf_dL_one h1 (rf_accel_one h (g p))) true)) l) = Vsum (map (fun p => vscale (-1) (T p)) l)).
    { apply Vsum_map_ext. rewrite Forall_forall in *. intros p Hp. f_equal. unfold T, rf_dL_one. rewrite He. destruct (Hg p (Hl p Hp)) as (_ & _ & -> & _).
      destruct (Hl p Hp) as [[c Ec]|Hn].
      - rewrite Ec. cbn [is_rf_orbiting]. unfold h1. rewrite oblate_torque_host, oblate_torque_set_dL.
        unfold rf_accel_one. destruct (Hg p (Hl p Hp)) as (_ & _ & -> & _). rewrite Ec. cbn [is_rf_orbiting]. now rewrite oblate_torque_set_acc.
      - pose proof Hn as (Ed & _ & _ & O). rewrite Ed. cbn [is_rf_orbiting]. unfold rf_accel_one, g. rewrite rf_filled_idle by exact Ed. rewrite Ed. cbn [is_rf_orbiting].
        unfold oblate_torque. rewrite O. apply vscale_0_l. }
    unfold net_torque. cbn [map]. rewrite map_map.
    match goal with |- Vsum (?a :: ?b) = _ => change (vadd a (Vsum b) = vzero) end.
    unfold flattening_torque at 1, flattening_acc at 1.
    match goal with |- vadd (vadd (vcross (p_ipos ?a) (vscale (p_mass ?a) (rf_acc (p_rf ?a)))) (rf_dL (p_rf ?a))) _ = _ =>
      change (p_ipos a) with (p_ipos h); change (p_mass a) with (p_mass h);
      change (rf_acc (p_rf a)) with (vscale (- 1 * (1 / p_mass h)) (Vsum (map (fun p => rf_force_one h (g p)) l)));
      change (rf_dL (p_rf a)) with (Vsum (map (fun p => vscale (-1) (oblate_torque h1 (rf_dL_one h1 (rf_accel_one h (g p))) true)) l)) end.
    rewrite F1. rewrite vscale_scale. replace (p_mass h * (- 1 * (1 / p_mass h))) with (-1) by (field; exact Hm).
    rewrite (Vsum_map_ext (fun q => vadd (vcross (p_ipos (rf_dL_one h1 (rf_accel_one h (g q)))) (vscale (p_mass (rf_dL_one h1 (rf_accel_one h (g q)))) (flattening_acc (rf_dL_one h1 (rf_accel_one h (g q)))))) (flattening_torque (rf_dL_one h1 (rf_accel_one h (g q)))))
      (fun p => vadd (vcross (p_ipos h) (rf_force_one h (g p))) (T p))).
    - rewrite !Vsum_map_add, Vsum_map_cross, Vsum_map_scale.
      generalize (Vsum (map (fun p => rf_force_one h (g p)) l)) (Vsum (map T l)) (p_ipos h). vring.
    - rewrite Forall_forall in *. intros p Hp. destruct (Hg p (Hl p Hp)) as (Gm & Gp & Ge & Gd).
      unfold rf_force_one, T, flattening_acc, flattening_torque, rf_dL_one. rewrite He, Ge.
      destruct (Hl p Hp) as [Hc|Hn].
      + pose proof Hc as [c Ec]. rewrite Ec. cbn [is_rf_orbiting]. unfold rf_accel_one. rewrite Ge, Ec. cbn [is_rf_orbiting].
        unfold h1. rewrite oblate_torque_host, oblate_torque_set_acc.
        match goal with |- context [rf_acc (p_rf ?a)] => change (p_ipos a) with (p_ipos (g p)); change (p_mass a) with (p_mass (g p));
          change (rf_acc (p_rf a)) with (vscale (1 / p_mass (g p)) (oblate_force h (g p))); change (rf_dL (p_rf a)) with (vscale (-1) (oblate_torque h (g p) false)) end.
        rewrite Gp, Gm.
        rewrite vscale_scale. replace (p_mass p * (1 / p_mass p)) with 1 by (field; apply Hml; exact Hp). rewrite vscale_1.
        unfold oblate_force, oblate_torque. rewrite (Gd Hc), (Hd p Hp Hc).
        generalize (rf_radial (p_rf (g p))) (rf_orth_planet (p_rf (g p))) (rf_orth_star (p_rf (g p))) (p_ipos h) (p_ipos p) (p_spin h) (p_spin (g p)). vring.
      + pose proof Hn as (Ed & A & B & O). rewrite Ed. cbn [is_rf_orbiting]. unfold rf_accel_one, g. rewrite rf_filled_idle by exact Ed. rewrite Ed. cbn [is_rf_orbiting].
        rewrite A, B, !vscale_0_r, !vcross_0_r. vring.
  Qed.
End Flat.

(** ** Both together *)
Section Both.
  Context `{Trans R} `{Floor R} `{Fuel}.
  Definition tides_out m (h : P) (l : list P) : P * list P :=
    let l1 := map (forces_one m h) l in
    let h1 := on_tides (set_t_acc (vscale (- 1 * (1 / p_mass h)) (Vsum (map (force_one h) l1)))) h in
    let l2 := map (fun p => dL_one h1 (accel_one h p)) l1 in
    (on_tides (set_t_dL (Vsum (map (fun p => vscale (- 1) (ctl_torque h1 p true)) l2))) h1, l2).

  Variable r0 : flattening R.
  Variable t0 : tides R.
  Definition zr (p : P) : P := set_p_rf r0 p.
  Definition zt (p : P) : P := set_p_tides t0 p.
  Lemma stage (z : P -> P) (f : P -> P -> P) h k l m : (forall h p, z (f h p) = f (z h) (z p)) -> z h = z k -> map z l = map z m ->
    map z (map (f h) l) = map z (map (f k) m).
  Proof.
    intros C Eh El. transitivity (map (f (z h)) (map z l)); [rewrite !map_map; apply map_ext; auto|].
    rewrite Eh, El, !map_map. apply map_ext. intro. symmetry. apply C.
  Qed.
  Lemma stage_sum (z : P -> P) (f : P -> P -> vec R) h k l m : (forall h p, f (z h) (z p) = f h p) -> z h = z k -> map z l = map z m ->
    Vsum (map (f h) l) = Vsum (map (f k) m).
  Proof.
    intros C Eh El. f_equal. transitivity (map (f (z h)) (map z l)); [rewrite !map_map; apply map_ext; auto|].
    rewrite Eh, El, !map_map. apply map_ext. auto.
  Qed.
  Lemma zr_orth b m h p : zr (ctl_orthogonal b m h p) = ctl_orthogonal b m (zr h) (zr p).
  Proof. unfold ctl_orthogonal. change (p_tides (zr p)) with (p_tides p). destruct (orbiting_ctl _); [destruct b|]; reflexivity. Qed.
  Lemma zr_radial m h p : zr (ctl_radial m h p) = ctl_radial m (zr h) (zr p).
  Proof. unfold ctl_radial. change (p_tides (zr p)) with (p_tides p). destruct (orbiting_ctl _); reflexivity. Qed.
  Lemma zr_accel h p : zr (accel_one h p) = accel_one (zr h) (zr p).
  Proof. unfold accel_one. change (p_tides (zr p)) with (p_tides p). destruct (is_tides_orbiting _); reflexivity. Qed.
  Lemma zr_force h p : force_one (zr h) (zr p) = force_one h p.
  Proof. reflexivity. Qed.
  Lemma zr_dL h p : zr (dL_one h p) = dL_one (zr h) (zr p).
  Proof. unfold dL_one. change (p_tides (zr p)) with (p_tides p). destruct (is_tides_orbiting _); reflexivity. Qed.
  Lemma zr_torque b h p : ctl_torque (zr h) (zr p) b = ctl_torque h p b.
  Proof. destruct b; reflexivity. Qed.
  Lemma zt_orth b h p : zt (oblate_orthogonal b h p) = oblate_orthogonal b (zt h) (zt p).
  Proof. unfold oblate_orthogonal. change (p_rf (zt p)) with (p_rf p). destruct (rf_effect (p_rf p)) as [|[]|]; [|destruct b| |]; reflexivity. Qed.
  Lemma zt_radial h p : zt (oblate_radial h p) = oblate_radial (zt h) (zt p).
  Proof. unfold oblate_radial. change (p_rf (zt p)) with (p_rf p). destruct (is_rf_orbiting _); reflexivity. Qed.
  Lemma zt_accel h p : zt (rf_accel_one h p) = rf_accel_one (zt h) (zt p).
  Proof. unfold rf_accel_one. change (p_rf (zt p)) with (p_rf p). destruct (is_rf_orbiting _); reflexivity. Qed.
  Lemma zt_force h p : rf_force_one (zt h) (zt p) = rf_force_one h p.
  Proof. reflexivity. Qed.
  Lemma zt_dL h p : zt (rf_dL_one h p) = rf_dL_one (zt h) (zt p).
  Proof. unfold rf_dL_one. change (p_rf (zt p)) with (p_rf p). destruct (is_rf_orbiting _); reflexivity. Qed.
  Lemma zt_torque b h p : oblate_torque (zt h) (zt p) b = oblate_torque h p b.
  Proof. destruct b; reflexivity. Qed.
  (** what the other effect does is not seen *)
  Lemma unseen (z : P -> P) (f : P -> P) l : (forall p, z (f p) = z p) -> map z (map f l) = map z l.
  Proof. intro E. rewrite map_map. now apply map_ext. Qed.
  Lemma no_zr b h p : zr (oblate_orthogonal b h p) = zr p.
  Proof. unfold oblate_orthogonal. destruct (rf_effect (p_rf p)) as [|[]|]; [|destruct b| |]; reflexivity. Qed.
  Lemma no_zr_radial h p : zr (oblate_radial h p) = zr p.
  Proof. unfold oblate_radial. destruct (is_rf_orbiting _); reflexivity. Qed.
  Lemma no_zr_accel h p : zr (rf_accel_one h p) = zr p.
  Proof. unfold rf_accel_one. destruct (is_rf_orbiting _); reflexivity. Qed.
  Lemma no_zr_dL h p : zr (rf_dL_one h p) = zr p.
  Proof. unfold rf_dL_one. destruct (is_rf_orbiting _); reflexivity. Qed.
  Lemma no_zt b m h p : zt (ctl_orthogonal b m h p) = zt p.
  Proof. unfold ctl_orthogonal. destruct (orbiting_ctl _); [destruct b|]; reflexivity. Qed.
  Lemma no_zt_radial m h p : zt (ctl_radial m h p) = zt p.
  Proof. unfold ctl_radial. destruct (orbiting_ctl _); reflexivity. Qed.
  Lemma no_zt_accel h p : zt (accel_one h p) = zt p.
  Proof. unfold accel_one. destruct (is_tides_orbiting _); reflexivity. Qed.
  Lemma no_zt_dL h p : zt (dL_one h p) = zt p.
  Proof. unfold dL_one. destruct (is_tides_orbiting _); reflexivity. Qed.

  Lemma ctl_seen l k : map zr l = map zr k -> Forall ctl_or_none k -> Forall ctl_or_none l.
  Proof.
    revert k. induction l as [|p l IH]; intros [|q k] E F; try discriminate E; constructor; cbn [map] in E; injection E as E1 E2; inversion F as [|? ? Fq Fk]; subst.
    - unfold ctl_or_none, ctl_body, no_tides in *. now replace (p_tides p) with (p_tides q) by (symmetry; exact (f_equal p_tides E1)).
    - now apply (IH k).
  Qed.
  Lemma oblate_seen l k : map zt l = map zt k -> Forall oblate_or_none k -> Forall oblate_or_none l.
  Proof.
    revert k. induction l as [|p l IH]; intros [|q k] E F; try discriminate E; constructor; cbn [map] in E; injection E as E1 E2; inversion F as [|? ? Fq Fk]; subst.
    - unfold oblate_or_none, oblate_body, no_flattening in *. now replace (p_rf p) with (p_rf q) by (symmetry; exact (f_equal p_rf E1)).
    - now apply (IH k).
  Qed.
  Lemma orth_ctl m h l : Forall ctl_or_none l -> Forall ctl_or_none (ctl_orthogonal_components m h l).
  Proof.
    intro Hl. unfold ctl_orthogonal_components. rewrite map_map, Forall_map. eapply Forall_impl; [|exact Hl]. intros p. apply ctl_or_none_ext.
    - unfold ctl_orthogonal. destruct (orbiting_ctl (t_effect (p_tides p))) eqn:E; [|now rewrite E].
      unfold on_tides at 1. cbn [p_tides set_p_tides t_effect set_t_orth_star]. rewrite E. reflexivity.
    - intro E. unfold ctl_orthogonal. cbn. rewrite E. cbn. now rewrite E.
  Qed.
  Lemma forces_ctl m h l : Forall ctl_or_none l -> Forall ctl_or_none (map (forces_one m h) l).
  Proof. intro Hl. rewrite Forall_map. eapply Forall_impl; [|exact Hl]. intros p. apply ctl_or_none_ext; [apply forces_one_effect|apply forces_one_idle]. Qed.
  Lemma accel_ctl h l : Forall ctl_or_none l -> Forall ctl_or_none (map (accel_one h) l).
  Proof.
    intro Hl. rewrite Forall_map. eapply Forall_impl; [|exact Hl]. intros p. apply ctl_or_none_ext; [apply accel_one_effect|].
    intro E. unfold accel_one. now rewrite E.
  Qed.
  Lemma orth_oblate h l : Forall oblate_or_none l -> Forall oblate_or_none (oblate_orthogonal_components h l).
  Proof.
    intro Hl. unfold oblate_orthogonal_components. rewrite map_map, Forall_map. eapply Forall_impl; [|exact Hl]. intros p. apply oblate_or_none_ext.
    - now rewrite !oblate_orthogonal_effect.
    - intro E. unfold oblate_orthogonal. rewrite E. now rewrite E.
  Qed.
  Lemma filled_oblate h l : Forall oblate_or_none l -> Forall oblate_or_none (map (rf_filled h) l).
  Proof.
    intro Hl. rewrite Forall_map. rewrite Forall_forall in *. intros p Hp. apply (oblate_or_none_ext p); [now apply rf_filled_effect; auto|intro; now apply rf_filled_idle|auto].
  Qed.
  Lemma accel_oblate h l : Forall oblate_or_none l -> Forall oblate_or_none (map (rf_accel_one h) l).
  Proof.
    intro Hl. rewrite Forall_map. eapply Forall_impl; [|exact Hl]. intros p. apply oblate_or_none_ext; [unfold rf_accel_one; now destruct (is_rf_orbiting _)|].
    intro E. unfold rf_accel_one. now rewrite E.
  Qed.

  Lemma both_effects b m h o r : ctl_host h -> Forall ctl_or_none o -> (b = true -> oblate_host h) -> (b = true -> Forall oblate_or_none o) ->
    tidal_host_effects (Effects true b false false false false) true true m h o = Ok r ->
    (zr (fst r) = zr (fst (tides_out m h o)) /\ map zr (snd r) = map zr (snd (tides_out m h o))) /\
    (b = true -> zt (fst r) = zt (fst (rf_out h o)) /\ map zt (snd r) = map zt (snd (rf_out h o))).
  Proof.
    intros Hh Ho Hb Hob E. unfold tidal_host_effects in E. cbn [e_tides e_rf] in E.
    set (o1 := ctl_orthogonal_components m h o) in E.
    assert (C1 : Forall ctl_or_none o1) by now apply orth_ctl.
    rewrite creep_shapes_ctl in E by exact C1. cbn [rbind] in E.
    assert (R1 : map zt o1 = map zt o) by (unfold o1, ctl_orthogonal_components; rewrite !unseen; auto using no_zt).
    set (o2 := if b then oblate_orthogonal_components h o1 else o1).
    assert (E2 : (if b then rf_creep_shapes h (oblate_orthogonal_components h o1) else Ok o1) = Ok o2).
    { unfold o2. destruct b; [|reflexivity]. apply rf_shapes_oblate, orth_oblate. eapply oblate_seen; [exact R1|auto]. }
    rewrite E2 in E. cbn [rbind] in E. clear E2.
    assert (T2 : map zr o2 = map zr o1) by (unfold o2, oblate_orthogonal_components; destruct b; [rewrite !unseen; auto using no_zr|reflexivity]).
    assert (R2 : b = true -> map zt o2 = map zt (oblate_orthogonal_components h o)).
    { intros ->. unfold o2, oblate_orthogonal_components. apply (stage zt (oblate_orthogonal false)); [apply zt_orth|reflexivity|].
      apply (stage zt (oblate_orthogonal true)); [apply zt_orth|reflexivity|exact R1]. }
    set (o3 := ctl_radial_components m h o2) in E.
    assert (T3 : map zr o3 = map zr (map (forces_one m h) o)).
    { transitivity (map zr (map (ctl_radial m h) o1)); [apply (stage zr (ctl_radial m)); [apply zr_radial|reflexivity|exact T2]|].
      unfold o1, ctl_orthogonal_components. rewrite !map_map. reflexivity. }
    assert (R3 : map zt o3 = map zt o2) by (unfold o3, ctl_radial_components; apply unseen, no_zt_radial).
    assert (C3 : Forall ctl_or_none o3) by (eapply ctl_seen; [exact T3|now apply forces_ctl]).
    rewrite acceleration_ctl in E by assumption. cbn [rbind fst snd] in E.
    set (h4 := on_tides (set_t_acc (vscale (- 1 * (1 / p_mass h)) (Vsum (map (force_one h) o3)))) h) in E.
    set (o4 := map (accel_one h) o3) in E.
    set (g4 := on_tides (set_t_acc (vscale (- 1 * (1 / p_mass h)) (Vsum (map (force_one h) (map (forces_one m h) o))))) h).
    assert (H4 : h4 = g4).
    { unfold h4, g4. rewrite (stage_sum zr force_one h h o3 (map (forces_one m h) o)); auto. }
    assert (T4 : map zr o4 = map zr (map (accel_one h) (map (forces_one m h) o))) by (apply (stage zr accel_one); [apply zr_accel|reflexivity|exact T3]).
    assert (R4 : map zt o4 = map zt o2) by (unfold o4; rewrite unseen; [exact R3|apply no_zt_accel]).
    assert (Hh4 : zt h4 = zt h) by reflexivity.
    clearbody h4 o4. clear C3 T3 R3 o3.
    set (s5 := if b then rf_acceleration h4 (oblate_radial_components h4 o4) else (h4, o4)) in E.
    assert (S5 : zr (fst s5) = zr g4 /\ map zr (snd s5) = map zr (map (accel_one h) (map (forces_one m h) o)) /\
      (b = true -> zt (fst s5) = zt (on_rf (set_rf_acc (vscale (- 1 * (1 / p_mass h)) (Vsum (map (rf_force_one h) (map (rf_filled h) o))))) h)
                   /\ map zt (snd s5) = map zt (map (rf_accel_one h) (map (rf_filled h) o)))).
    { unfold s5. destruct b; [|cbn [fst snd]; rewrite H4; split; [reflexivity|]; split; [exact T4|intro X; discriminate X]].
      assert (R5 : map zt (oblate_radial_components h4 o4) = map zt (map (rf_filled h) o)).
      { transitivity (map zt (map (oblate_radial h) (oblate_orthogonal_components h o))); [apply (stage zt oblate_radial); [apply zt_radial|exact Hh4|rewrite R4; auto]|].
        unfold oblate_orthogonal_components. rewrite !map_map. reflexivity. }
      assert (C5 : Forall oblate_or_none (oblate_radial_components h4 o4)) by (eapply oblate_seen; [exact R5|now apply filled_oblate; auto]).
      rewrite rf_acceleration_oblate by exact C5. cbn [fst snd].
      split; [rewrite H4; reflexivity|]. split; [rewrite unseen by apply no_zr_accel; unfold oblate_radial_components; rewrite unseen by apply no_zr_radial; exact T4|].
      intros _. split; [|apply (stage zt rf_accel_one); [apply zt_accel|exact Hh4|exact R5]].
      rewrite (stage_sum zt rf_force_one h4 h _ (map (rf_filled h) o) ltac:(intros; apply zt_force) Hh4 R5).
      replace (p_mass h4) with (p_mass h) by (rewrite H4; reflexivity).
      transitivity (on_rf (set_rf_acc (vscale (- 1 * (1 / p_mass h)) (Vsum (map (rf_force_one h) (map (rf_filled h) o))))) (zt h4)); [reflexivity|]. rewrite Hh4. reflexivity. }
    clearbody s5. destruct s5 as [h5 o5]. cbn [fst snd] in *. destruct S5 as (H5 & T5 & R5).
    unfold tides_dangular_momentum_dt in E.
    assert (C5 : Forall ctl_or_none o5) by (eapply ctl_seen; [exact T5|now apply accel_ctl, forces_ctl]).
    assert (Hh5 : ctl_host h5).
    { destruct Hh as (c & Ec). exists c. change (t_effect (p_tides (zr h5)) = TidesCentral (ConstantTimeLag c)). rewrite H5. exact Ec. }
    rewrite dL_loop_ctl in E by exact C5. cbn [rbind] in E. rewrite host_dL_loop_ctl in E by exact Hh5. cbn [rbind fst snd] in E. rewrite vadd_0_l in E.
    set (o6 := map (dL_one h5) o5) in E.
    assert (T6 : map zr o6 = map zr (snd (tides_out m h o))).
    { transitivity (map zr (map (dL_one g4) (map (accel_one h) (map (forces_one m h) o)))); [apply (stage zr dL_one); [apply zr_dL|exact H5|exact T5]|].
      unfold tides_out. cbn [snd]. fold g4. rewrite !map_map. reflexivity. }
    set (h6 := on_tides (set_t_dL _) h5) in E.
    assert (H6 : zr h6 = zr (fst (tides_out m h o))).
    { unfold h6, tides_out. cbn [fst]. fold g4.
      match goal with |- zr (on_tides (set_t_dL ?a) h5) = zr (on_tides (set_t_dL ?b) g4) => replace a with b; [transitivity (on_tides (set_t_dL b) (zr h5)); [reflexivity|rewrite H5; reflexivity]|] end.
      symmetry. apply (stage_sum zr (fun h p => vscale (-1) (ctl_torque h p true))); [intros; now rewrite zr_torque|exact H5|]. rewrite T6. unfold tides_out. cbn [snd]. reflexivity. }
    assert (R6 : b = true -> zt h6 = zt (on_rf (set_rf_acc (vscale (- 1 * (1 / p_mass h)) (Vsum (map (rf_force_one h) (map (rf_filled h) o))))) h)
                   /\ map zt o6 = map zt (map (rf_accel_one h) (map (rf_filled h) o))).
    { intro X. destruct (R5 X) as (A & B). split; [exact A|]. unfold o6. rewrite unseen; [exact B|apply no_zt_dL]. }
    clearbody h6 o6. clear H5 T5 R5 C5 Hh5.
    destruct b; [|injection E as <-; cbn [fst snd]; split; [auto|intro X; discriminate X]].
    destruct (R6 eq_refl) as (A6 & B6). unfold rf_dangular_momentum_dt in E.
    set (k4 := on_rf (set_rf_acc _) h) in A6.
    assert (C6 : Forall oblate_or_none o6) by (eapply oblate_seen; [exact B6|now apply accel_oblate, filled_oblate; auto]).
    assert (Hh6 : oblate_host h6).
    { destruct (Hb eq_refl) as (c & Ec). exists c. change (rf_effect (p_rf (zt h6)) = RfCentral (OblateSpheroid c)). rewrite A6. exact Ec. }
    rewrite rf_dL_loop in E by exact C6. cbn [rbind] in E. rewrite rf_host_loop in E by exact Hh6. cbn [rbind] in E. rewrite vadd_0_l in E. injection E as <-. cbn [fst snd].
    assert (B7 : map zt (map (rf_dL_one h6) o6) = map zt (snd (rf_out h o))).
    { transitivity (map zt (map (rf_dL_one k4) (map (rf_accel_one h) (map (rf_filled h) o)))); [apply (stage zt rf_dL_one); [apply zt_dL|exact A6|exact B6]|].
      unfold rf_out. cbn [snd]. fold k4. rewrite !map_map. reflexivity. }
    split; [split|intros _; split].
    - rewrite <- H6. reflexivity.
    - rewrite unseen by apply no_zr_dL. exact T6.
    - unfold rf_out. cbn [fst]. fold k4.
      match goal with |- zt (on_rf (set_rf_dL ?a) h6) = zt (on_rf (set_rf_dL ?b) k4) => replace a with b; [transitivity (on_rf (set_rf_dL b) (zt h6)); [reflexivity|rewrite A6; reflexivity]|] end.
      symmetry. apply (stage_sum zt (fun h p => vscale (-1) (oblate_torque h p true))); [intros; now rewrite zt_torque|exact A6|]. rewrite B7. reflexivity.
    - exact B7.
  Qed.
End Both.
