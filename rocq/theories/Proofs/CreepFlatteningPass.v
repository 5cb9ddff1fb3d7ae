(** One evaluation of the flattening, for a body with creep flattening (any arithmetic) *)
From Coq Require Import List Bool ZArith Arith.
From Verif Require Import Base.Num Base.Result Base.Trans Base.Vec Model.Constants Model.Particle
  Model.Tools Model.Creep Model.Flattening Proofs.GravityProofs.
Import ListNotations.

Section Pass.
  Context {F : Type} `{Num F} `{Trans F} `{Floor F} `{Fuel}.
  Local Open Scope num_scope.

  Definition creep_pull (host p : particle F) (sh x : vec F) : vec F :=
    let d := nsqrt (norm2 x) in
    let k := nopp (#3) * K2 * p_mass p * p_mass host * p_radius p * p_radius p / (#5 * npow d 4) * vz sh in
    Vec (vx x / d * k) (vy x / d * k) n0.
  Definition creep_twist (host p : particle F) (sh x : vec F) : vec F :=
    Vec n0 n0 (#3 / #5 * K2 * p_mass p * p_mass host * p_radius p * p_radius p * vy sh / npow (nsqrt (norm2 x)) 3).

  Lemma pass_start host l host' l' :
    rf_pass host l = Ok (host', l') -> is_rf_central (rf_effect (p_rf host)) = true ->
    (exists r s, host' = set_p_rf r host /\ rf_dL r = s /\
       exists r2 l2, rf_effect r2 = rf_effect (p_rf host) /\ rfold (rf_host_dL_step (set_p_rf r2 host)) l2 vzero = Ok s) /\
    (forall i p v, nth_error l i = Some p -> rf_effect (p_rf p) = RfOrbiting (CreepCoplanarRf v) -> (v =? n0) = false ->
       exists sh p', creep_shape host p false true false = Ok sh /\ nth_error l' i = Some p' /\
         rf_shape (p_rf p') = sh /\
         let x := vsub (p_ipos p) (p_ipos host) in
         rf_dL (p_rf p') = vscale (nopp n1) (creep_twist host p sh x) /\
         rf_acc (p_rf p') = vscale (n1 / p_mass p) (creep_pull host p sh x)).
  Proof.
    unfold rf_pass, rf_inertial_to_heliocentric. intros E Hc. rewrite Hc in E.
    unfold rf_initialize in E. 
    match type of E with context [is_rf_central ?a] => change a with (rf_effect (p_rf host)) in E end.
    rewrite Hc in E. set (host1 := on_rf _ (on_rf _ host)) in E.
    rewrite map_map in E. match type of E with context [map ?f l] => set (start := f) in E end.
    unfold rf_forces in E. unfold oblate_orthogonal_components in E. rewrite !map_map in E.
    destruct (rf_creep_shapes host1 _) as [l1|] eqn:E1; cbn [rbind] in E; [|discriminate].
    unfold rf_creep_shapes in E1. rewrite rmap_map in E1.
    unfold rf_dangular_momentum_dt in E.
    set (host2 := fst (rf_acceleration _ _)) in E.
    destruct (rmap (rf_planet_dL host2) _) as [l2|] eqn:E2; cbn [rbind] in E; [|discriminate].
    destruct (rfold _ l2 vzero) as [s|] eqn:E3; cbn [rbind] in E; [|discriminate].
    apply (f_equal (fun r => match r with Ok x => x | Panic _ => (host, l) end)) in E. cbn beta iota in E.
    assert (Eh : host' = on_rf (set_rf_dL s) host2) by exact (f_equal fst (eq_sym E)).
    assert (El : l' = l2) by exact (f_equal snd (eq_sym E)). subst host' l'. clear E. split.
    - eexists. exists s. split; [reflexivity|]. split; [reflexivity|]. eexists. exists l2. split; [|exact E3]. reflexivity.
    - intros i p v Hi Ev Hv.
      set (x := vsub (p_ipos p) (p_ipos host)).
      assert (S1 : exists r, start p = set_p_rf r p /\ rf_effect r = RfOrbiting (CreepCoplanarRf v) /\
                   rf_pos r = x /\ rf_distance r = nsqrt (norm2 x)).
      { unfold start, on_rf. rewrite Ev. cbn [is_rf_orbiting]. cbn [p_rf set_p_rf rf_effect set_rf_distance set_rf_vel set_rf_pos].
        rewrite Ev. cbn [is_rf_orbiting]. eexists. split; [reflexivity|]. auto. }
      destruct S1 as (r & Es & Er & Hx & Hd).
      destruct (rmap_nth _ _ _ _ _ E1 Hi) as (p1 & Ep1 & Hi1). rewrite Es in Ep1.
      assert (Eo : forall c, oblate_orthogonal c host1 (set_p_rf r p) = set_p_rf r p).
      { intro c. unfold oblate_orthogonal. cbn [p_rf set_p_rf]. rewrite Er. reflexivity. }
      rewrite !Eo in Ep1. unfold rf_creep_update in Ep1.
      change (p_rf (set_p_rf r p)) with r in Ep1. rewrite Er, Hv in Ep1.
      destruct (creep_shape host1 _ _ _ _) as [sh|] eqn:Esh; cbn [rbind] in Ep1; [|discriminate].
      assert (F1 : p1 = set_p_rf (set_rf_shape sh r) p).
      { apply (f_equal (fun r => match r with Ok x => x | Panic _ => p1 end)) in Ep1. exact (eq_sym Ep1). }
      clear Ep1. subst p1.
      set (q := oblate_radial host1 (set_p_rf (set_rf_shape sh r) p)).
      assert (Q : exists r2, q = set_p_rf r2 p /\ rf_effect r2 = RfOrbiting (CreepCoplanarRf v) /\
                  rf_pos r2 = x /\ rf_distance r2 = nsqrt (norm2 x) /\ rf_shape r2 = sh).
      { unfold q, oblate_radial, on_rf. cbn [p_rf set_p_rf]. change (rf_effect (set_rf_shape sh r)) with (rf_effect r).
        rewrite Er. cbn [is_rf_orbiting]. eexists. split; [reflexivity|]. auto. }
      destruct Q as (r2 & Eq & Er2 & Hx2 & Hd2 & Hs2).
      set (f := rf_creep_force host1 (set_p_rf r2 p)).
      set (a := vscale (n1 / p_mass p) f).
      assert (N : nth_error (snd (rf_acceleration host1 (oblate_radial_components host1 l1))) i
                  = Some (set_p_rf (set_rf_acc a r2) p)).
      { unfold rf_acceleration, oblate_radial_components. cbn [snd]. rewrite map_map.
        rewrite (map_nth_error _ _ _ Hi1). fold q. rewrite Eq. unfold rf_force_of. cbn [p_rf set_p_rf]. rewrite Er2.
        reflexivity. }
      destruct (rmap_nth _ _ _ _ _ E2 N) as (p2 & Ep2 & Hi2).
      unfold rf_planet_dL in Ep2. change (p_rf (set_p_rf (set_rf_acc a r2) p)) with (set_rf_acc a r2) in Ep2.
      change (rf_effect (set_rf_acc a r2)) with (rf_effect r2) in Ep2. rewrite Er2 in Ep2.
      cbn [rf_model_torque rf_creep_torque rbind] in Ep2.
      change (rf_shape (p_rf (set_p_rf (set_rf_acc a r2) p))) with (rf_shape r2) in Ep2.
      apply (f_equal (fun r => match r with Ok x => x | Panic _ => p2 end)) in Ep2. cbn beta iota in Ep2.
      exists sh, p2. split; [exact Esh|]. split; [exact Hi2|]. rewrite <- Ep2. clear Ep2 Hi2.
      split; [|split].
      + unfold on_rf. cbn [p_rf set_p_rf rf_shape set_rf_dL set_rf_acc]. congruence.
      + unfold on_rf, creep_twist. cbn [p_rf set_p_rf rf_dL set_rf_dL rf_distance set_rf_acc].
        rewrite Hd2, Hs2. reflexivity.
      + match goal with |- rf_acc (p_rf ?P) = _ => change (rf_acc (p_rf P)) with a end.
        unfold a, f, rf_creep_force, creep_pull. change (p_rf (set_p_rf r2 p)) with r2.
        rewrite Hx2, Hd2, Hs2. reflexivity.
  Qed.
  Lemma creep_shape_rf f g (host p : particle F) t r c :
    creep_shape (on_rf f host) (on_rf g p) t r c = creep_shape host p t r c.
  Proof. unfold creep_shape. destruct host, p, c; reflexivity. Qed.
  (** one planet: every step succeeds when the figure can be computed *)
  Definition turning (v : F) (p : particle F) : Prop := rf_effect (p_rf p) = RfOrbiting (CreepCoplanarRf v).
  Definition oblate (k : F) (h : particle F) : Prop := rf_effect (p_rf h) = RfCentral (OblateSpheroid k).
  Lemma step_coordinates k v host p : oblate k host -> turning v p ->
    exists f g, rf_inertial_to_heliocentric host [p] = (on_rf f host, [on_rf g p]) /\
      oblate k (on_rf f host) /\ turning v (on_rf g p).
  Proof.
    unfold oblate, turning, rf_inertial_to_heliocentric. intros Hh Hp. rewrite Hh. cbn [is_rf_central map]. rewrite Hp.
    cbn [is_rf_orbiting]. do 2 eexists. split; [reflexivity|]. split; [exact Hh|exact Hp].
  Qed.
  Lemma step_initialize k v host p : oblate k host -> turning v p ->
    exists f g, rf_initialize host [p] = (on_rf f host, [on_rf g p]) /\
      oblate k (on_rf f host) /\ turning v (on_rf g p).
  Proof.
    unfold oblate, turning, rf_initialize. intros Hh Hp. rewrite Hh. cbn [is_rf_central map]. rewrite Hp.
    cbn [is_rf_orbiting]. do 2 eexists. split; [reflexivity|]. split; [exact Hh|exact Hp].
  Qed.
  Lemma step_shape v host p s : turning v p -> (v =? n0) = false -> creep_shape host p false true false = Ok s ->
    rf_creep_shapes host (oblate_orthogonal_components host [p]) = Ok [on_rf (set_rf_shape s) p].
  Proof.
    unfold turning. intros Hp Hv Es. unfold oblate_orthogonal_components, rf_creep_shapes. cbn [map rmap].
    assert (Eo : forall c, oblate_orthogonal c host p = p) by (intro c; unfold oblate_orthogonal; now rewrite Hp).
    rewrite !Eo. unfold rf_creep_update. rewrite Hp, Hv, Es. reflexivity.
  Qed.
  Lemma step_force k v host p : oblate k host -> turning v p ->
    exists f g, rf_acceleration host (oblate_radial_components host [p]) = (on_rf f host, [on_rf g p]) /\
      oblate k (on_rf f host) /\ turning v (on_rf g p).
  Proof.
    unfold oblate, turning. intros Hh Hp. unfold oblate_radial_components, oblate_radial. cbn [map]. rewrite Hp.
    cbn [is_rf_orbiting].
    match goal with |- context [on_rf ?h p] => set (f1 := h) end.
    unfold rf_acceleration. cbn [map]. unfold rf_force_of at 2.
    assert (Hp1 : rf_effect (p_rf (on_rf f1 p)) = RfOrbiting (CreepCoplanarRf v)) by exact Hp.
    rewrite Hp1. eexists. eexists (fun r => _ (f1 r)). split; [reflexivity|]. split; [exact Hh|exact Hp].
  Qed.
  Lemma step_torque k v host p : oblate k host -> turning v p ->
    exists host' p', rf_dangular_momentum_dt host [p] = Ok (host', [p']).
  Proof.
    unfold oblate, turning. intros Hh Hp. unfold rf_dangular_momentum_dt. cbn [rmap]. unfold rf_planet_dL. rewrite Hp.
    cbn [rf_model_torque rf_creep_torque rbind rfold]. unfold rf_host_dL_step. rewrite Hh. cbn [rf_model_torque rbind].
    eexists. eexists. reflexivity.
  Qed.
  Lemma single_pass (host p : particle F) k v s :
    oblate k host -> turning v p -> (v =? n0) = false -> creep_shape host p false true false = Ok s ->
    exists host' p', rf_pass host [p] = Ok (host', [p']).
  Proof.
    intros Hh Hp Hv Es. unfold rf_pass.
    destruct (step_coordinates k v host p Hh Hp) as (f1 & g1 & E1 & Hh1 & Hp1). rewrite E1.
    destruct (step_initialize k v _ _ Hh1 Hp1) as (f2 & g2 & E2 & Hh2 & Hp2). rewrite E2.
    rewrite <- (creep_shape_rf f1 g1), <- (creep_shape_rf f2 g2) in Es.
    unfold rf_forces. rewrite (step_shape v _ _ s Hp2 Hv Es). cbn [rbind].
    set (p3 := on_rf (set_rf_shape s) _). assert (Hp3 : turning v p3) by exact Hp2. clearbody p3.
    destruct (step_force k v _ _ Hh2 Hp3) as (f4 & g4 & E4 & Hh4 & Hp4). rewrite E4. cbn [fst snd].
    exact (step_torque k v _ _ Hh4 Hp4).
  Qed.
End Pass.
