(** The figure of a body with creep flattening, the torque and the force it causes *)
From Coq Require Import Reals Lra Lia List Bool ZArith Arith.
From Verif Require Import Base.Num Base.Result Base.Trans Base.Vec Model.Constants Model.Particle
  Model.Tools Model.Creep Model.Flattening Proofs.NumLemmas Proofs.VecLemmas Proofs.GravityProofs Proofs.CreepFlatteningPass Spec.EffectsSpec Spec.CreepFlatteningSpec.
Import ListNotations.
Open Scope R_scope.

Lemma slow_flattening z ratio n gam e m :
  shape_slow 0 z ratio n gam e m = Vec 0 0 (z * (1 + 12 * e ^ 2 / (1 + (n / gam) ^ 2))).
Proof.
  unfold shape_slow. rewrite !npow_pow. num_simpl. cbn [tsin tcos TransR].
  set (x := n / gam). assert (Dx : 1 + x ^ 2 <> 0) by nra.
  replace (1 - IZR 3 / IZR (Zpos 1) * ratio * 0) with 1 by field.
  assert (D1 : 1 + 1 * 1 * x ^ 2 <> 0) by nra.
  apply f_equal3; [| |field; auto].
  - match goal with |- ?a * _ = 0 => replace a with 0; [ring|field; auto] end.
  - match goal with |- ?a * _ = 0 => replace a with 0; [ring|field; auto] end.
Qed.

Section Figure.
  Context `{FU : Fuel}.

  Lemma flattening_shape a e m period primary companion radius viscosity spin s :
    particle_shape a e m period primary companion radius viscosity spin false true = Ok s ->
    s = creep_flattening_figure K2 primary radius viscosity spin e (2 * PI / period).
  Proof.
    unfold particle_shape, creep_flattening_figure, capture_rate, relaxation_rate, maclaurin_flattening.
    rewrite !npow_pow. num_simpl. cbn [tpi TransR].
    replace (IZR 2 / IZR (Zpos 1) * PI / period) with (2 * PI / period) by (unfold Rdiv; rewrite Rinv_1; ring).
    set (n := 2 * PI / period).
    replace (IZR 3 / IZR (Zpos 1) * K2 * primary * primary / (IZR 8 / IZR (Zpos 1) * PI * radius ^ 4 * viscosity))
      with (3 * K2 * primary ^ 2 / (8 * PI * radius ^ 4 * viscosity))
      by (unfold Rdiv; rewrite !Rinv_1, !Rmult_1_r; apply f_equal2; [ring|reflexivity]).
    set (gam := 3 * K2 * primary ^ 2 / _).
    replace (IZR 5 / IZR (Zpos 1) * spin * spin * radius ^ 3 / (IZR 4 / IZR (Zpos 1) * K2 * primary))
      with (5 / 4 * (spin ^ 2 * radius ^ 3 / (K2 * primary)))
      by (unfold Rdiv; rewrite !Rinv_1, !Rmult_1_r, !Rinv_mult; ring).
    set (z := 5 / 4 * _).
    replace (if Rltb gam n then IZR 9 / IZR (Zpos 10) * n else 1 * n + IZR 7 / IZR (Zpos 1) * e * e * n)
      with (if Rlt_dec gam n then 9 / 10 * n else n * (1 + 7 * e ^ 2))
      by (unfold Rltb; destruct (Rlt_dec gam n); field).
    unfold Rltb. destruct (Rlt_dec spin _).
    - intros E. injection E as <-. rewrite slow_flattening. reflexivity.
    - destruct (true_anomaly fuel e m); [|discriminate].
      match goal with |- context [cayley_sums ?a ?b ?c ?d ?f ?g] => generalize (cayley_sums a b c d f g) end.
      intros [x y w]. cbn [vx vy vz]. intros E. injection E as <-. apply f_equal3; field.
  Qed.

  (** the viscosity that the figure is computed with is the one of the tides *)
  Lemma creep_flattening_shape host p central s :
    creep_shape host p false true central = Ok s ->
    let els := keplerian_elements (p_mass_g host + p_mass_g p) (t_pos (p_tides p)) (t_vel (p_tides p)) in
    let body := if central then host else p in
    s = creep_flattening_figure K2 (p_mass body) (p_radius body) (creep_viscosity (t_effect (p_tides body)) central)
          (vz (p_spin body)) (el_e els) (2 * PI / el_period els).
  Proof. unfold creep_shape. intros E. apply flattening_shape in E. destruct central; exact E. Qed.

  (** ** A whole evaluation of the flattening *)
  Definition rf_creep (e : rf_effect_t R) : Prop := exists v, e = RfOrbiting (CreepCoplanarRf v) /\ v <> 0.
  Definition figure_of (host p : particle R) : vec R :=
    let els := keplerian_elements (p_mass_g host + p_mass_g p) (t_pos (p_tides p)) (t_vel (p_tides p)) in
    creep_flattening_figure K2 (p_mass p) (p_radius p) (creep_viscosity (t_effect (p_tides p)) false)
      (vz (p_spin p)) (el_e els) (2 * PI / el_period els).

  Lemma creep_no_torque_host m host p t : (exists v, m = CreepCoplanarRf v) ->
    rf_model_torque m host p true = Ok t -> t = vzero.
  Proof.
    intros [v ->]. cbn [rf_model_torque]. unfold rf_creep_torque.
    destruct (creep_shape _ _ _ _ _) as [s|] eqn:Es; cbn [rbind]; [|discriminate].
    intros E. injection E as <-. apply creep_flattening_shape in Es. rewrite Es.
    unfold creep_flattening_figure. cbn [vy]. num_simpl. unfold vzero. num_simpl.
    apply f_equal3; [reflexivity|reflexivity|]. unfold Rdiv. ring.
  Qed.
  Lemma host_sum_zero host l : (exists v, rf_effect (p_rf host) = RfCentral (CreepCoplanarRf v)) ->
    forall s, rfold (rf_host_dL_step host) l vzero = Ok s -> s = vzero.
  Proof.
    intros [v Ev]. induction l as [|p l IH]; cbn [rfold]; intros s E.
    - injection E as <-. reflexivity.
    - unfold rf_host_dL_step at 1 in E. rewrite Ev in E.
      destruct (rf_model_torque _ _ _ _) as [t|] eqn:Et; cbn [rbind] in E; [|discriminate].
      apply creep_no_torque_host in Et; [|eauto]. subst t. apply IH. rewrite <- E. f_equal.
      unfold vzero. vunfold. num_simpl. f_equal; ring.
  Qed.

  Lemma creep_pass host l host' l' :
    rf_pass host l = Ok (host', l') -> is_rf_central (rf_effect (p_rf host)) = true ->
    (forall v, rf_effect (p_rf host) = RfCentral (CreepCoplanarRf v) -> rf_dL (p_rf host') = vzero) /\
    (forall i p, nth_error l i = Some p -> rf_creep (rf_effect (p_rf p)) ->
       exists p', nth_error l' i = Some p' /\ rf_shape (p_rf p') = figure_of host p /\ rf_dL (p_rf p') = vzero /\
         let x := vsub (p_ipos p) (p_ipos host) in
         (p_mass p <> 0 -> norm2 x <> 0 ->
          rf_acc (p_rf p') = flattened_pull K2 (p_mass host) (p_radius p) (vz (figure_of host p)) (sqrt (norm2 x)) x)).
  Proof.
    intros E Hc. destruct (pass_start _ _ _ _ E Hc) as [(r & s & -> & Hr & r2 & l2 & E2 & Es) G]. split.
    - intros v Ev. cbn [p_rf set_p_rf]. rewrite Hr. eapply host_sum_zero; [|exact Es].
      exists v. cbn [p_rf set_p_rf]. now rewrite E2.
    - intros i p Hi [v [Ev Hv]].
      destruct (G i p v Hi Ev) as (sh & p' & Esh & Hi' & Hs & HL & Ha).
      { num_simpl. unfold Reqb. destruct (Req_EM_T v 0); auto; contradiction. }
      apply creep_flattening_shape in Esh. assert (Ef : sh = figure_of host p) by exact Esh. clear Esh.
      exists p'. split; [exact Hi'|]. split; [now rewrite Hs|]. split.
      + rewrite HL. unfold creep_twist. assert (Ey : vy sh = 0) by (rewrite Ef; reflexivity). rewrite Ey.
        unfold vzero. vunfold. num_simpl. apply f_equal3; unfold Rdiv; ring.
      + intros x Hm Hn. rewrite Ha, <- Ef. fold x. unfold creep_pull, flattened_pull.
        rewrite npow_pow. num_simpl. set (d := sqrt _). vunfold. cbn [vx vy vz]. num_simpl.
        assert (D : d <> 0).
        { unfold d. intro Z. apply sqrt_eq_0 in Z; [|apply norm2_nonneg]. contradiction. }
        apply f_equal3; field; auto.
  Qed.
End Figure.
