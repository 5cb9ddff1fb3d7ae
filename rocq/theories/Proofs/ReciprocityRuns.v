(** * Runs with effects that act between bodies (C71) *)
From Coq Require Import Reals Lra Lia List Bool Arith.
From Verif Require Import Base.Num Base.Result Base.Trans Base.Vec Model.Constants Model.Particle Model.Host
  Model.Tides Model.Flattening Model.Relativity Model.Disk Model.Universe Model.LeapFrog Model.IAS15
  Spec.EffectsSpec Spec.UniverseSpec Spec.IAS15Spec Spec.IAS15MomentumSpec Spec.ReciprocitySpec
  Model.Creep Proofs.NumLemmas Proofs.VecLemmas Proofs.GravityProofs Proofs.FrameProofs Proofs.EffectSums Proofs.WHFastStep Proofs.IAS15Step Proofs.IAS15Momentum Proofs.Reciprocity.
Import ListNotations.
Open Scope R_scope.
Local Notation P := (particle R).
Local Notation weighted := Spec.UniverseSpec.weighted.

Section Runs.
  Context `{Trans R} `{Floor R} `{Fuel}.

  (** the accelerations of the enabled effects add up to those of each of them *)
  Lemma net_enabled e (l : list P) :
    net_force (enabled_acceleration e) l
    = vadd (only_if (e_tides e) (net_force tidal_acc l)) (vadd (only_if (e_disk e) (net_force disk_acc l))
        (vadd (only_if (e_rf e) (net_force flattening_acc l)) (only_if (e_gr e) (net_force relativistic_acc l)))).
  Proof.
    unfold net_force, enabled_acceleration, tidal_acc, disk_acc, flattening_acc, relativistic_acc. induction l as [|p l IH]; cbn [map].
    - unfold only_if, Vsum. destruct (e_tides e), (e_disk e), (e_rf e), (e_gr e); cbn [fold_right]; vunfold; f_equal; ring.
    - unfold Vsum in *. cbn [fold_right] in *. rewrite IH. clear IH. unfold only_if.
      set (a := fold_right _ _ (map (fun p => vscale (p_mass p) (t_acc (p_tides p))) l)).
      set (b := fold_right _ _ (map (fun p => vscale (p_mass p) (dk_acc (p_disk p))) l)).
      set (c := fold_right _ _ (map (fun p => vscale (p_mass p) (rf_acc (p_rf p))) l)).
      set (d := fold_right _ _ (map (fun p => vscale (p_mass p) (gr_acc (p_gr p))) l)).
      clearbody a b c d. generalize (p_mass p) (t_acc (p_tides p)) (dk_acc (p_disk p)) (rf_acc (p_rf p)) (gr_acc (p_gr p)). clear p l. intros m p q r s.
      destruct (e_tides e), (e_disk e), (e_rf e), (e_gr e); destruct a, b, c, d, p, q, r, s; vunfold; f_equal; ring.
  Qed.
  Lemma unforced_net u : unforced u -> net_force (enabled_acceleration (u_effects u)) (u_particles u) = vzero.
  Proof.
    intros (T & Rf & G & D). rewrite net_enabled. unfold only_if.
    destruct (e_tides _); [rewrite T by reflexivity|]; (destruct (e_disk _); [rewrite D by reflexivity|]);
      (destruct (e_rf _); [rewrite Rf by reflexivity|]); (destruct (e_gr _); [rewrite G by reflexivity|]); vunfold; f_equal; ring.
  Qed.
  Lemma effects_no_force t ev dL ig u u' : reciprocal u -> additional_effects t ev dL true ig u = Ok u' ->
    reciprocal u' /\ same_rest u u' /\ net_force p_iadd (u_particles u') = vzero.
  Proof.
    intros Re E. destruct (effects_reciprocal _ _ _ _ _ _ _ Re E) as (Re' & Un & Rs). split; [exact Re'|]. split; [exact Rs|].
    rewrite <- (unforced_net _ (Un eq_refl)). pose proof (effects_added _ _ _ _ _ _ E) as Ad. rewrite Forall_forall in Ad.
    unfold net_force. f_equal. apply map_ext_in. intros p Hp. rewrite (Ad p Hp). f_equal. f_equal. symmetry. apply Rs.
  Qed.

  (** ** Bodies that are moved *)
  Lemma whole_reciprocal u l : map whole l = map whole (u_particles u) -> reciprocal u -> reciprocal (set_particles l u).
  Proof. intros E. apply reciprocal_calm; [|reflexivity|reflexivity]. cbn [u_particles set_particles]. apply (map_view_rel whole); [apply calm_whole|exact E]. Qed.
  Lemma whole_reciprocal' u u' : map whole (u_particles u') = map whole (u_particles u) -> u_effects u' = u_effects u -> u_hosts u' = u_hosts u -> reciprocal u -> reciprocal u'.
  Proof. intros E. apply reciprocal_calm. apply (map_view_rel whole); [apply calm_whole|exact E]. Qed.
  Definition mutual (u : universe R) : Prop := roche_square u /\ reciprocal u.
  Lemma relocated_whole p p' : relocated p p' -> whole p' = whole p.
  Proof. intros (x & v & a & L & d & ->). reflexivity. Qed.
  Lemma mutual_set u l : mutual u -> Forall2 relocated (u_particles u) l -> mutual (set_particles l u).
  Proof.
    intros ((L & Rr) & Re) Fl. assert (Ll : length (u_particles u) = length l) by (clear - Fl; induction Fl; cbn; congruence).
    split.
    - unfold roche_square. cbn [u_particles u_roche set_particles]. rewrite <- Ll. auto.
    - apply whole_reciprocal; [|exact Re]. clear - Fl. induction Fl; [reflexivity|]. cbn [map]. rewrite IHFl. f_equal. now apply relocated_whole.
  Qed.

  (** ** An evaluation of the forces *)
  Lemma evaluated t (u u1 u2 u3 : universe R) : roche_square u -> reciprocal u ->
    gravity IgnoreNone u = Ok u1 -> inertial_to_heliocentric u1 = Ok u2 -> additional_effects t true true true IgnoreNone u2 = Ok u3 ->
    reciprocal (apply_corrections u3) /\ stays u u3 /\ weighted p_iacc (u_particles (apply_corrections u3)) = vzero /\
    map (fun p => (p_mass p, p_ipos p, p_ivel p)) (u_particles (apply_corrections u3)) = map (fun p => (p_mass p, p_ipos p, p_ivel p)) (u_particles u).
  Proof.
    intros Sq Re E1 E2 E3. pose proof Sq as (L & _).
    pose proof (gravity_no_force u u1 Sq E1) as W.
    destruct (gravity_view whole _ _ _ (fun _ _ => eq_refl) L E1) as (V1 & S1). pose proof S1 as (Se1 & _).
    destruct (i2h_view whole u1 u2 (fun _ => eq_refl) (fun _ _ => eq_refl) E2) as (V2 & S2). pose proof S2 as (Se2 & _).
    assert (Re2 : reciprocal u2).
    { eapply whole_reciprocal'; [rewrite V2; exact V1| | |exact Re].
      - congruence.
      - destruct S1 as (_ & A & _), S2 as (_ & B & _). congruence. }
    destruct (effects_no_force _ _ _ _ _ _ Re2 E3) as (Re3 & Rs3 & N).
    destruct (evaluation_view _ _ _ _ _ _ _ _ _ (accel_blind (u_effects u1)) E2 E3) as (A3 & St3).
    split; [|split; [|split]].
    - apply (whole_reciprocal u3); [|exact Re3]. rewrite map_map. apply map_ext. reflexivity.
    - eapply stays_trans; [exact S1|exact St3].
    - transitivity (vadd (net_force gravitational_acc (u_particles u1)) (net_force p_iadd (u_particles u3))).
      2:{ rewrite W, N. vunfold. f_equal; ring. }
      transitivity (vadd (net_force gravitational_acc (u_particles u3)) (net_force p_iadd (u_particles u3))).
      + unfold apply_corrections, Spec.UniverseSpec.weighted, net_force, gravitational_acc. cbn [u_particles set_particles]. rewrite map_map. clear. unfold Vsum. induction (u_particles u3) as [|p l IH]; cbn [map fold_right].
        * vunfold. f_equal; ring.
        * rewrite IH. cbn [p_mass p_iacc set_p_iacc]. generalize (p_mass p) (p_iacc p) (p_iadd p). intros m [a b c] [d e f].
          destruct (fold_right _ _ (map (fun p => vscale (p_mass p) (p_iacc p)) l)), (fold_right _ _ (map (fun p => vscale (p_mass p) (p_iadd p)) l)). vunfold. f_equal; ring.
      + f_equal. unfold net_force, gravitational_acc. f_equal.
        transitivity (map (fun v => vscale (fst v) (snd v)) (map (fun p => (p_mass p, p_iacc p)) (u_particles u3))); [now rewrite map_map|].
        rewrite A3, map_map. reflexivity.
    - assert (Bl : blind_step (F := R) (u_effects u1) (fun p => (p_mass p, p_ipos p, p_ivel p))).
      { split; unfold blind, blind_iadd, blind_dL, blind_effects, blind_spin, blind_evolution, blind_tides, blind_rf, blind_gr, blind_disk, blind_wind; auto 12. }
      destruct (evaluation_view _ _ _ _ _ _ _ _ _ Bl E2 E3) as (B3 & _).
      destruct (gravity_view (fun p => (p_mass p, p_ipos p, p_ivel p)) _ _ _ (fun _ _ => eq_refl) L E1) as (B1 & _).
      rewrite <- B1, <- B3. unfold apply_corrections. cbn [u_particles set_particles]. rewrite map_map. reflexivity.
  Qed.
  Lemma mutual_eval t u u' : length (u_roche u) = length (u_particles u) -> mutual u -> evaluate t u = Ok u' ->
    mutual u' /\ weighted p_iacc (u_particles u') = vzero /\ map p_mass (u_particles u') = map p_mass (u_particles u).
  Proof.
    intros L (Sq & Re) E. pose proof (evaluate_len _ _ _ L E) as (Ll & (Se & _ & _ & Sr)). unfold evaluate in E.
    destruct (gravity IgnoreNone u) as [u1|] eqn:E1; [|discriminate E]. cbn [rbind] in E.
    destruct (inertial_to_heliocentric u1) as [u2|] eqn:E2; [|discriminate E]. cbn [rbind] in E.
    destruct (additional_effects _ _ _ _ _ u2) as [u3|] eqn:E3; [|discriminate E]. cbn [rbind] in E. injection E as <-.
    destruct (evaluated _ _ _ _ _ Sq Re E1 E2 E3) as (Re' & St & W & V). split; [split; [|exact Re']|split; [exact W|]].
    - unfold roche_square in *. rewrite Sr, Ll. exact Sq.
    - exact (view_part (fun p => (p_mass p, p_ipos p, p_ivel p)) p_mass (fun v => fst (fst v)) _ _ (fun _ => eq_refl) V).
  Qed.

  (** ** IAS15 *)
  Theorem ias_mutual n (s s' : ias (F := R)) : reciprocal (ia_u s) -> roche_square (ia_u s) -> shaped s -> rested s -> balanced s ->
    ias_steps n s = Ok s' ->
    momentum (u_particles (ia_u s')) = momentum (u_particles (ia_u s)) /\
    weighted p_ipos (u_particles (ia_u s')) = vadd (weighted p_ipos (u_particles (ia_u s))) (vscale (ia_t s' - ia_t s) (momentum (u_particles (ia_u s)))) /\
    (reciprocal (ia_u s') /\ roche_square (ia_u s') /\ shaped s' /\ rested s' /\ balanced s').
  Proof.
    intros Un Sq Sh Re Ba E.
    destruct (steps_ok mutual mutual_set mutual_eval (map p_mass (u_particles (ia_u s))) n s s') as ((Sh' & Re' & (Sq' & Un') & Hm' & K') & P & X).
    - split; [exact Sh|]. split; [exact Re|]. split; [split; assumption|]. split; [reflexivity|]. now apply balanced_kept.
    - exact E.
    - split; [exact P|]. split; [exact X|]. split; [exact Un'|]. split; [exact Sq'|]. split; [exact Sh'|]. split; [exact Re'|]. apply balanced_kept. now rewrite Hm'.
  Qed.

  (** ** LeapFrog *)
  Lemma weighted_view (f : P -> vec R) l l' : map (fun p => (p_mass p, f p)) l' = map (fun p => (p_mass p, f p)) l -> weighted f l' = weighted f l.
  Proof.
    intro E. unfold Spec.UniverseSpec.weighted. f_equal.
    transitivity (map (fun v => vscale (fst v) (snd v)) (map (fun p => (p_mass p, f p)) l')); [now rewrite map_map|]. rewrite E, map_map. reflexivity.
  Qed.
  Lemma drifted half (l : list P) :
    weighted p_ivel (map (lf_drift half) l) = weighted p_ivel l /\
    weighted p_ipos (map (lf_drift half) l) = vadd (weighted p_ipos l) (vscale half (weighted p_ivel l)).
  Proof.
    unfold Spec.UniverseSpec.weighted. rewrite !map_map. split; [f_equal; apply map_ext; reflexivity|].
    unfold Vsum. induction l as [|p l IH]; cbn [map fold_right]; [vunfold; f_equal; ring|]. rewrite IH. cbn [lf_drift p_mass p_ipos set_p_L set_p_ipos].
    destruct (fold_right _ _ (map (fun p => vscale (p_mass p) (p_ipos p)) l)), (fold_right _ _ (map (fun p => vscale (p_mass p) (p_ivel p)) l)).
    generalize (p_mass p) (p_ipos p) (p_ivel p). intros m [a b c] [d e f]. vunfold. f_equal; ring.
  Qed.
  Lemma kicked dt (l : list P) : weighted p_iacc l = vzero ->
    weighted p_ivel (map (lf_kick dt) l) = weighted p_ivel l /\ weighted p_ipos (map (lf_kick dt) l) = weighted p_ipos l.
  Proof.
    intro W. assert (K : weighted p_ivel (map (lf_kick dt) l) = vadd (weighted p_ivel l) (vscale dt (weighted p_iacc l))).
    { clear W. unfold Spec.UniverseSpec.weighted. rewrite map_map. unfold Vsum. induction l as [|p l IH]; cbn [map fold_right]; [vunfold; f_equal; ring|]. rewrite IH. cbn [lf_kick p_mass p_ivel set_p_ivel].
      destruct (fold_right _ _ (map (fun p => vscale (p_mass p) (p_iacc p)) l)), (fold_right _ _ (map (fun p => vscale (p_mass p) (p_ivel p)) l)).
      generalize (p_mass p) (p_iacc p) (p_ivel p). intros m [a b c] [d e f]. vunfold. f_equal; ring. }
    split; [rewrite K, W; destruct (weighted p_ivel l); vunfold; f_equal; ring|]. unfold Spec.UniverseSpec.weighted. rewrite map_map. f_equal.
  Qed.
  Lemma square_of (u u' : universe R) : length (u_particles u') = length (u_particles u) -> u_roche u' = u_roche u -> roche_square u -> roche_square u'.
  Proof. intros El Er. unfold roche_square. rewrite El, Er. auto. Qed.
  Lemma lf_mutual_step t dt half (u u' : universe R) : mutual u -> half = dt / 2 -> lf_step t dt half u = Ok u' ->
    mutual u' /\ momentum (u_particles u') = momentum (u_particles u) /\
    weighted p_ipos (u_particles u') = vadd (weighted p_ipos (u_particles u)) (vscale dt (momentum (u_particles u))).
  Proof.
    intros (Sq & Re) Hh. unfold lf_step.
    destruct (inertial_to_heliocentric u) as [u1|] eqn:E1; [|intro X; discriminate X]. cbn [rbind].
    destruct (additional_effects t true true false IgnoreNone u1) as [u2|] eqn:E2; [|intro X; discriminate X]. cbn [rbind]. cbn zeta.
    set (u3 := on_bodies (lf_drift half) u2).
    destruct (gravity IgnoreNone u3) as [u4|] eqn:E4; [|intro X; discriminate X]. cbn [rbind].
    destruct (inertial_to_heliocentric u4) as [u5|] eqn:E5; [|intro X; discriminate X]. cbn [rbind].
    destruct (additional_effects _ _ _ true _ u5) as [u6|] eqn:E6; [|intro X; discriminate X]. cbn [rbind]. intro X. injection X as <-.
    (* the spins at the beginning of the step *)
    destruct (i2h_view whole u u1 (fun _ => eq_refl) (fun _ _ => eq_refl) E1) as (V1 & S1).
    assert (Re1 : reciprocal u1) by (eapply whole_reciprocal'; [exact V1|apply S1|apply S1|exact Re]).
    destruct (effects_reciprocal _ _ _ _ _ _ _ Re1 E2) as (Re2 & _ & Rs2).
    assert (Bl : blind_step (F := R) (u_effects u) (fun p => (p_mass p, p_ipos p, p_ivel p))).
    { split; unfold blind, blind_iadd, blind_dL, blind_effects, blind_spin, blind_evolution, blind_tides, blind_rf, blind_gr, blind_disk, blind_wind; auto 12. }
    destruct (evaluation_view _ _ _ _ _ _ _ _ _ Bl E1 E2) as (B2 & St2).
    assert (L2 : length (u_particles u2) = length (u_particles u)) by (apply (f_equal (@length _)) in B2; now rewrite !map_length in B2).
    assert (Re3 : reciprocal u3) by (apply whole_reciprocal; [|exact Re2]; rewrite map_map; apply map_ext; reflexivity).
    assert (Sq3 : roche_square u3) by (apply (square_of u); [cbn; now rewrite map_length|cbn [u3 on_bodies u_roche set_particles]; apply St2|exact Sq]).
    destruct (evaluated _ _ _ _ _ Sq3 Re3 E4 E5 E6) as (Re7 & St7 & W & B7). set (u7 := apply_corrections u6) in *.
    assert (L7 : length (u_particles u7) = length (u_particles u3)) by (apply (f_equal (@length _)) in B7; now rewrite !map_length in B7).
    cbn [on_bodies u_particles set_particles].
    assert (Em : map (fun p => lf_drift half (lf_kick dt p)) (u_particles u7) = map (lf_drift half) (map (lf_kick dt) (u_particles u7))) by now rewrite map_map.
    rewrite Em. unfold momentum.
    destruct (kicked dt _ W) as (K1 & K2). destruct (drifted half (map (lf_kick dt) (u_particles u7))) as (D1 & D2). rewrite D1, D2, K1, K2.
    assert (Ev : weighted p_ivel (u_particles u7) = weighted p_ivel (u_particles u3)).
    { apply weighted_view. exact (view_part (fun p => (p_mass p, p_ipos p, p_ivel p)) _ (fun v => (fst (fst v), snd v)) _ _ (fun _ => eq_refl) B7). }
    assert (Ex : weighted p_ipos (u_particles u7) = weighted p_ipos (u_particles u3)).
    { apply weighted_view. exact (view_part (fun p => (p_mass p, p_ipos p, p_ivel p)) _ fst _ _ (fun _ => eq_refl) B7). }
    assert (Ev2 : weighted p_ivel (u_particles u2) = weighted p_ivel (u_particles u)).
    { apply weighted_view. exact (view_part (fun p => (p_mass p, p_ipos p, p_ivel p)) _ (fun v => (fst (fst v), snd v)) _ _ (fun _ => eq_refl) B2). }
    assert (Ex2 : weighted p_ipos (u_particles u2) = weighted p_ipos (u_particles u)).
    { apply weighted_view. exact (view_part (fun p => (p_mass p, p_ipos p, p_ivel p)) _ fst _ _ (fun _ => eq_refl) B2). }
    destruct (drifted half (u_particles u2)) as (D3 & D4). rewrite Ev, Ex. unfold u3. cbn [on_bodies u_particles set_particles]. rewrite D3, D4, Ev2, Ex2.
    split; [split|split; [reflexivity|]].
    - apply (square_of u3); [cbn [on_bodies u_particles set_particles]; rewrite !map_length; rewrite L7; cbn [u3 on_bodies u_particles set_particles]; now rewrite map_length| |exact Sq3]. cbn [on_bodies u_roche set_particles]. change (u_roche u7) with (u_roche u6). apply St7.
    - apply whole_reciprocal; [|exact Re7]. rewrite map_map. apply map_ext. reflexivity.
    - generalize (weighted p_ipos (u_particles u)) (weighted p_ivel (u_particles u)). intros [a b c] [d e f]. rewrite Hh. vunfold. f_equal; field.
  Qed.
  Theorem lf_mutual n : forall t dt half (u u' : universe R), reciprocal u -> roche_square u -> half = dt / 2 -> lf_steps n t dt half u = Ok u' ->
    momentum (u_particles u') = momentum (u_particles u) /\
    weighted p_ipos (u_particles u') = vadd (weighted p_ipos (u_particles u)) (vscale (INR n * dt) (momentum (u_particles u))) /\
    reciprocal u' /\ roche_square u'.
  Proof.
    intros t dt half u u' Re Sq Hh. revert t u u' Re Sq. induction n as [|n IH]; intros t u u' Re Sq E; cbn [lf_steps] in E.
    - injection E as <-. split; [reflexivity|]. split; [|auto]. cbn [INR]. generalize (weighted p_ipos (u_particles u)) (momentum (u_particles u)). intros [a b c] [d e f]. vunfold. f_equal; ring.
    - destruct (lf_step t dt half u) as [u1|] eqn:E1; [|discriminate E]. cbn [rbind] in E.
      destruct (lf_mutual_step _ _ _ _ _ (conj Sq Re) Hh E1) as ((Sq1 & Re1) & P1 & X1).
      destruct (IH _ _ _ Re1 Sq1 E) as (P2 & X2 & Re2 & Sq2). rewrite P2, X2, X1, P1. split; [reflexivity|]. split; [|auto].
      rewrite S_INR. generalize (weighted p_ipos (u_particles u)) (momentum (u_particles u)). intros [a b c] [d e f]. vunfold. f_equal; ring.
  Qed.
End Runs.
