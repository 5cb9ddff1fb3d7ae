(** * Total angular momentum along a run (C72) *)
From Coq Require Import Reals Lra List Bool Arith Lia.
From Verif Require Import Base.Num Base.Result Base.Trans Base.Vec Model.Constants Model.Particle Model.Host Model.Creep
  Model.Tides Model.Flattening Model.Relativity Model.Universe Model.LeapFrog Spec.EffectsSpec Spec.UniverseSpec Spec.AngularSpec
  Proofs.NumLemmas Proofs.VecLemmas Proofs.GravityProofs Proofs.TidesProofs Proofs.LeapFrogProofs Proofs.UniverseProofs Proofs.FrameProofs Proofs.EffectSums
  Proofs.Reciprocity Proofs.WHFastStep Proofs.AngularBalance Proofs.AngularStep.
Import ListNotations.
Open Scope R_scope.
Local Notation P := (particle R).

Lemma others_nth {A} i j (l : list A) q : nth_error l j = Some q -> j <> i -> In q (others i l).
Proof.
  intros E N. apply nth_error_In with (if Nat.ltb j i then j else pred j). rewrite others_at.
  destruct (Nat.ltb_spec j i).
  - now rewrite (proj2 (Nat.ltb_lt _ _) H).
  - destruct (Nat.ltb_spec (pred j) i); [lia|]. replace (S (pred j)) with j by lia. exact E.
Qed.

Section Runs.
  Context `{Trans R} `{Floor R} `{Fuel}.

  Lemma clear_seen u u' : (exists h, nth_error (u_particles u) (h_most_massive (u_hosts u)) = Some h) -> clear_of_host u -> inertial_to_heliocentric u = Ok u' -> seen u'.
  Proof.
    intros (h & Eh) Cl E h' Eh'. destruct (i2h_rest _ _ E) as (_ & _ & _ & Rh). rewrite Rh in *. specialize (Cl h Eh). set (i := h_most_massive (u_hosts u)) in *.
    pose proof (heliocentric_spec _ _ _ _ _ E Eh Eh') as X. fold i in X. rewrite Nat.eqb_refl in X. subst h'.
    apply Forall_forall. intros p Hp. apply in_others in Hp. destruct Hp as (j & Hj & Ej).
    pose proof (heliocentric_spec _ _ _ _ _ E Eh Ej) as X. fold i in X. destruct (Nat.eqb_spec j i); [contradiction|]. destruct X as (q & Eq & ->).
    split; [reflexivity|]. split; [reflexivity|]. rewrite Forall_forall in Cl. apply (Cl q). eapply others_nth; eauto.
  Qed.
  Theorem evaluation_torque t ev ig u0 u u' : tidal_system u0 -> clear_of_host u0 -> inertial_to_heliocentric u0 = Ok u -> additional_effects t ev true true ig u = Ok u' ->
    net_torque p_iadd p_dL (u_particles u') = stale_torques (h_most_massive (u_hosts u)) (u_particles u) (u_particles u').
  Proof.
    intros Hu Cl E1 E2. destruct (i2h_rest _ _ E1) as (Re1 & _ & Rr1 & Rh1).
    apply (torque_of_evaluation t ev ig); [|apply (clear_seen u0); auto; destruct Hu as ((h & Eh & _) & _); eauto|exact E2].
    apply (tidal_by_parts u0); [exact Re1|exact Rh1|apply (EffectSums.i2h_view (part _)); [reflexivity|reflexivity|exact E1]|exact Hu].
  Qed.

  Lemma spins_refreshed t ev acc ig u u' : tidal_system u -> additional_effects t ev true acc ig u = Ok u' ->
    map (fun p => p_spin p) (u_particles u') = map (fun p => vdivr (p_L p) (p_inertia p)) (u_particles u).
  Proof.
    intros Hu E. pose proof Hu as ((h & Eh & _) & _).
    destruct (evaluated_tides t ev acc ig u u' h _ Hu Eh eq_refl E) as (m & r & Er & Lr & Ep & Rs). cbn zeta in *. set (i := h_most_massive (u_hosts u)) in *. set (b := e_rf (u_effects u)) in *.
    apply (tidal_host_frame (fun p => p_spin p)) in Er; [|intros _; repeat intro; reflexivity|intros _; repeat intro; reflexivity]. destruct Er as (Fh & Fo).
    transitivity (map (fun p => p_spin p) (reassemble i (fst r) (snd r))).
    { rewrite Ep. destruct acc; rewrite ?map_map; apply map_ext; intro p; [apply (fin_view (fun p => p_spin p)); reflexivity|reflexivity]. }
    rewrite map_reassemble, Fh, Fo, map_map. rewrite (proj2 (proj2 (proj2 (prep_host_view acc b h)))).
    rewrite (map_ext _ (fun p => vdivr (p_L p) (p_inertia p))) by (intro p; apply (prep_view acc b h p)).
    rewrite map_others. apply reassemble_others. now rewrite nth_error_map, Eh.
  Qed.
  Lemma stale_none i (l l' : list P) : map (fun p => p_spin p) l' = map (fun p => p_spin p) l -> stale_torques i l l' = vzero.
  Proof.
    intro E. unfold stale_torques. pose proof (f_equal (fun k => nth_error k i) E) as X. cbv beta in X. rewrite !nth_error_map in X.
    destruct (nth_error l i) as [hb|]; [|reflexivity]. destruct (nth_error l' i) as [ha|]; [|reflexivity]. cbn [option_map] in X. apply some_eq in X.
    pose proof (f_equal (others i) E) as Y. rewrite <- !map_others in Y. clear E. generalize dependent (others i l'). generalize (others i l). clear l l'.
    intros l. induction l as [|p l IH]; intros [|p' l'] Y; try reflexivity. cbn [map] in Y. apply cons_eq in Y. destruct Y as (Yp & Y).
    cbn [combine map fst snd]. match goal with |- Vsum (?a :: ?b) = _ => change (vadd a (Vsum b) = vzero) end. rewrite (IH _ Y).
    assert (Al : forall s r m (w : vec R) x, along_torque s r m (vsub w w) x = vzero).
    { intros s r m w x. unfold along_torque. replace (vdot x (vsub w w)) with 0 by (destruct x, w; vunfold; ring). rewrite Rmult_0_r. destruct x. vunfold. f_equal; ring. }
    unfold stale_torque, ctl_only. rewrite X, Yp. destruct (t_effect (p_tides p')) as [|[]|]; rewrite ?Al; vunfold; f_equal; ring.
  Qed.
  Theorem fresh_balance t ev ig u0 u u' : tidal_system u0 -> clear_of_host u0 -> Forall fresh (u_particles u0) -> inertial_to_heliocentric u0 = Ok u -> additional_effects t ev true true ig u = Ok u' ->
    net_torque p_iadd p_dL (u_particles u') = vzero.
  Proof.
    intros Hu Cl Hf E1 E2. rewrite (evaluation_torque t ev ig u0 u u' Hu Cl E1 E2). apply stale_none.
    destruct (i2h_rest _ _ E1) as (Re1 & _ & Rr1 & Rh1).
    assert (Hu1 : tidal_system u) by (apply (tidal_by_parts u0); [exact Re1|exact Rh1|apply (EffectSums.i2h_view (part _)); [reflexivity|reflexivity|exact E1]|exact Hu]).
    rewrite (spins_refreshed _ _ _ _ _ _ Hu1 E2).
    pose proof (EffectSums.i2h_view (fun p => vdivr (p_L p) (p_inertia p)) _ _ (fun _ => eq_refl) (fun _ _ => eq_refl) E1) as A.
    pose proof (EffectSums.i2h_view (fun p => p_spin p) _ _ (fun _ => eq_refl) (fun _ _ => eq_refl) E1) as B.
    rewrite A, B. clear - Hf. induction Hf as [|p l Hp Hl IH]; [reflexivity|]. cbn [map]. rewrite IH. f_equal. symmetry. exact Hp.
  Qed.

  Theorem step_error_of t dt half u u' : tidal_system u -> roche_square u -> half = dt / 2 -> lf_step t dt half u = Ok u' ->
    exists e, error_of t dt half u e /\ whole_momentum (u_particles u') = vadd (whole_momentum (u_particles u)) e /\ tidal_system u' /\ roche_square u'.
  Proof.
    intros Hu Sq Hh E. destruct (step_angular t dt half u u' Hu Sq Hh E) as (us & um0 & um & E1 & E2 & E3 & Ew & T1 & T2).
    eexists. split; [exists us, um0, um; repeat (split; [eassumption|]); reflexivity|]. split; [exact Ew|auto].
  Qed.
  Theorem run_error_of n t dt half u u' : tidal_system u -> roche_square u -> half = dt / 2 -> lf_steps n t dt half u = Ok u' ->
    exists es, errors_of n t dt half u es /\ whole_momentum (u_particles u') = vadd (whole_momentum (u_particles u)) (Vsum es) /\ tidal_system u' /\ roche_square u'.
  Proof.
    intros Hu Sq Hh. revert t u Hu Sq. induction n as [|n IH]; intros t u Hu Sq E.
    - cbn [lf_steps] in E. injection E as <-. exists []. split; [exact I|]. split; [|auto]. cbn [Vsum fold_right]. generalize (whole_momentum (u_particles u)). vring.
    - cbn [lf_steps] in E. destruct (lf_step t dt half u) as [u1|] eqn:E1; [|discriminate E]. cbn [rbind] in E.
      destruct (step_error_of t dt half u u1 Hu Sq Hh E1) as (e & He & Ew & T1 & T2). destruct (IH _ _ T1 T2 E) as (es & Hes & Ews & T3 & T4).
      exists (e :: es). split; [cbn [errors_of]; split; [exact He|]; exists u1; auto|]. split; [|auto].
      rewrite Ews, Ew. change (Vsum (e :: es)) with (vadd e (Vsum es)). generalize (whole_momentum (u_particles u)) (Vsum es). vring.
  Qed.
End Runs.
