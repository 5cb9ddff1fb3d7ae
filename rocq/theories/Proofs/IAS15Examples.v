(** * A run of IAS15 that ends well (non-vacuity of C20-C22, C24, C54) *)
From Coq Require Import Reals List Bool Lra Lia Arith.
From Verif Require Import Base.Num Base.Result Base.Trans Base.Vec Model.Constants Model.Particle Model.Host
  Model.Creep Model.Relativity Model.Universe Model.WHFast Model.IAS15
  Spec.EffectsSpec Spec.UniverseSpec Spec.WHFastSpec Spec.IAS15Spec Proofs.NumLemmas Proofs.VecLemmas Proofs.GravityProofs Proofs.LeapFrogProofs
  Proofs.FrameProofs Proofs.EffectSums Proofs.UniverseExamples Proofs.WHFastStep Proofs.WHFastExamples
  Proofs.IAS15Poly Proofs.IAS15Fit Proofs.IAS15Pass Proofs.IAS15Step Proofs.IAS15Control.
Import ListNotations.
Open Scope R_scope.

Section Lone.
  Context `{Trans R} `{Floor R} `{Fuel}.
  (** a star alone, with its wind *)
  Definition alone (u : universe R) : Prop :=
    wind_only u /\ forallb kinert (map core (u_particles u)) = true /\ length (u_particles u) = 1%nat /\
    h_most_massive (u_hosts u) = 0%nat /\ u_roche u = [[0]] /\ Forall (FrameProofs.quiet (u_effects u)) (u_particles u).
  Definition torque_parts (p : particle R) := (t_dL (p_tides p), rf_dL (p_rf p), gr_dL (p_gr p), w_dL (p_wind p)).
  Lemma quiet_of e (l l' : list (particle R)) : map torque_parts l' = map torque_parts l -> Forall (FrameProofs.quiet e) l -> Forall (FrameProofs.quiet e) l'.
  Proof.
    revert l. induction l' as [|p' l' IH]; intros [|p l] E Hq; try discriminate E; constructor.
    - inversion_clear Hq as [|? ? Q _]. cbn [map] in E. apply cons_eq in E. destruct E as (E & _). unfold torque_parts in E. injection E as E1 E2 E3 E4.
      unfold FrameProofs.quiet in *. rewrite E1, E2, E3, E4. exact Q.
    - inversion_clear Hq. apply cons_eq in E. apply (IH l); [apply E|assumption].
  Qed.
  Lemma alone_set l (u : universe R) : alone u -> map core l = map core l -> length l = 1%nat -> map p_inertia l = map p_inertia (u_particles u) ->
    map torque_parts l = map torque_parts (u_particles u) -> alone (set_particles l u).
  Proof.
    intros (W & I & L & Hh & Hr & Q) _ Ll Ei Et. unfold alone. cbn [u_particles set_particles u_hosts u_roche u_effects]. split; [exact W|]. split.
    - clear - I Ei. revert l Ei I. induction (u_particles u) as [|p ps IH]; intros [|q l] E I; try discriminate E; [reflexivity|].
      cbn [map forallb] in *. apply cons_eq in E. destruct E as (E1 & E). apply andb_prop in I. destruct I as (I1 & I). apply andb_true_intro. split; [|apply IH; auto].
      unfold kinert, core in *. cbn [k_inertia] in *. now rewrite E1.
    - split; [exact Ll|]. split; [exact Hh|]. split; [exact Hr|]. eapply quiet_of; [exact Et|exact Q].
  Qed.
  Lemma alone_eval t (u : universe R) : alone u -> exists u', evaluate t u = Ok u' /\ alone u' /\ map p_iacc (u_particles u') = [vzero] /\
    map p_ipos (u_particles u') = map p_ipos (u_particles u).
  Proof.
    intros A. pose proof A as (W & I & L & Hh & Hr & Q). unfold evaluate.
    destruct (u_particles u) as [|s [|]] eqn:El; try discriminate L. 
    assert (E1 : gravity IgnoreNone u = Ok (set_particles [set_p_iacc vzero s] u)).
    { unfold gravity. rewrite El, Hr. cbn [length Nat.eqb]. unfold gravities, gon, gp, enumerate. cbn [length seq combine map rmap rfold Nat.eqb rbind]. reflexivity. }
    rewrite E1. cbn [rbind]. set (u1 := set_particles _ u).
    assert (A1 : alone u1) by (apply alone_set; auto; rewrite El; reflexivity).
    pose proof A1 as (W1 & I1 & L1 & Hh1 & Hr1 & Q1).
    destruct (i2h_ok u1) as (u2 & E2); [unfold hosted; rewrite Hh1; lia|]. rewrite E2. cbn [rbind].
    destruct (i2h_frame _ _ E2) as ((Fr2 & Fh2 & Fe2 & Fl2 & _) & C2 & Ac2).
    destruct (i2h_view torque_parts u1 u2 (fun _ => eq_refl) (fun _ _ => eq_refl) E2) as (T2 & _).
    assert (W2 : wind_only u2) by (unfold wind_only in *; congruence).
    destruct (wind_eval_ok t true u2) as (u3 & E3); [exact W2|rewrite Fh2, Hh1; lia|rewrite C2; exact I1|].
    rewrite E3. cbn [rbind]. eexists. split; [reflexivity|].
    destruct (wind_core _ _ _ _ W2 E3) as (C3 & Fh3 & Fr3 & W3).
    assert (Q2 : Forall (FrameProofs.quiet (u_effects u2)) (u_particles u2)) by (rewrite Fe2; eapply quiet_of; [exact T2|exact Q1]).
    destruct (effects_summed _ _ _ _ _ _ _ Q2 E3) as (Ia & _ & Q3). specialize (Ia eq_refl).
    assert (V3 : map p_iacc (u_particles u3) = map p_iacc (u_particles u2)).
    { assert (B : blind_step (u_effects u1) (p_iacc : particle R -> vec R)).
      { split; unfold blind, blind_iadd, blind_dL, blind_effects, blind_spin, blind_evolution, blind_tides, blind_rf, blind_gr, blind_disk, blind_wind; auto 12. }
      destruct (evaluation_view p_iacc _ _ _ _ _ _ _ _ B E2 E3) as (X & _). congruence. }
    assert (L3 : length (u_particles u3) = 1%nat) by (rewrite <- (map_length core), C3, C2, map_length; exact L1).
    assert (Ee : u_effects u3 = u_effects u2) by (unfold wind_only in *; congruence).
    split; [|split].
    - unfold alone, apply_corrections. cbn [u_particles set_particles u_hosts u_roche u_effects]. split; [exact W3|]. rewrite map_map, map_length.
      split; [rewrite <- I1, <- C2, <- C3; f_equal; apply map_ext; reflexivity|]. split; [exact L3|]. split; [congruence|]. split; [congruence|].
      eapply (quiet_of _ (u_particles u3)); [rewrite map_map; apply map_ext; reflexivity|]. rewrite Ee. exact Q3.
    - unfold apply_corrections. cbn [u_particles set_particles]. destruct (u_particles u3) as [|p [|]]; try discriminate L3. cbn [map] in *.
      rewrite Ac2 in V3. cbn in V3. apply cons_eq in V3. destruct V3 as (V3 & _). inversion_clear Ia as [|? ? Ip _]. cbn [p_iacc set_p_iacc].
      rewrite V3, Ip, W2. unfold enabled_acceleration, Vsum. cbn [e_tides e_disk e_rf e_gr only_if fold_right]. f_equal. vunfold. f_equal; ring.
    - unfold apply_corrections. cbn [u_particles set_particles]. rewrite map_map.
      assert (P : forall l : list (particle R), map p_ipos l = map k_pos (map core l)) by (intro l; rewrite map_map; reflexivity).
      cbn [map]. transitivity (map p_ipos (u_particles u3)); [apply map_ext; reflexivity|]. rewrite P, C3, C2, <- P. reflexivity.
  Qed.

  (** nothing happens to coefficients that are zero *)
  Definition flat : line (F := R) := Line co_zero co_zero co_zero 0 0.
  Lemma flat_start : line_start (F := R) co_zero = flat.
  Proof. unfold line_start, flat, g_of_b, co_zero. cbn [q0 q1 q2 q3 q4 q5 q6]. f_equal. nums. f_equal; ring. Qed.
  Lemma flat_update n : (1 <= n <= 7)%nat -> line_update n 0 0 flat = flat.
  Proof.
    intro Hn. unfold line_update. rewrite gk_eq. cbv zeta. change (l_b flat) with (co_zero (F := R)). change (l_csb flat) with (co_zero (F := R)). change (l_g flat) with (co_zero (F := R)).
    replace (0 - 0) with 0 by ring.
    assert (Dz : forall a, divided (F := R) 0 (spacings n) (co_list co_zero) = a -> a = 0).
    { intros a <-. destruct n as [|n]; [lia|]. do 7 (destruct n as [|n]; [cbn [spacings]; unfold co_list, co_zero, divided; cbn [combine fold_left fst snd q0 q1 q2 q3 q4 q5 q6]; nums; unfold Rdiv; ring|]). lia. }
    rewrite (Dz _ eq_refl). unfold co_list, co_zero. cbn [q0 q1 q2 q3 q4 q5 q6].
    assert (Nz : nth (n - 1) [0; 0; 0; 0; 0; 0; 0] (n0 : R) = 0) by (destruct n as [|n]; [lia|]; do 7 (destruct n as [|n]; [reflexivity|]); lia).
    change (@n0 R NumR) with 0 in *. rewrite Nz. change (@nsub R NumR 0 0) with (0 - 0). replace (0 - 0) with 0 by ring. 
    assert (Bz : forall cs, Forall (fun i : R => i = 0) cs -> forall m : nat, bump (F := R) cs (repeat 0 m) (repeat 0 m) = (repeat 0 m, repeat 0 m)).
    { induction cs as [|i cs IH]; intros Hc m; [destruct m; reflexivity|]. inversion_clear Hc. subst i. destruct m as [|m]; [reflexivity|].
      cbn [repeat bump]. rewrite IH by assumption. rewrite add_cs_eq. cbn [fst snd]. repeat f_equal; ring. }
    change ([0; 0; 0; 0; 0; 0; 0]) with (repeat 0 7). rewrite Bz.
    - cbn [fst snd repeat]. unfold flat, co_zero. change (@n0 R NumR) with 0. f_equal.
      destruct n as [|n]; [lia|]; do 7 (destruct n as [|n]; [reflexivity|]); lia.
    - apply Forall_app. split; [|repeat constructor]. apply Forall_forall. intros i Hi. apply in_map_iff in Hi. destruct Hi as (c & <- & _). nums. ring.
  Qed.
  Definition level (w : work (F := R)) : Prop := w_a0 w = vzero /\ w_a w = Vec flat flat flat.
  Lemma level_node t dt u w n : alone u -> level w -> (1 <= n <= 7)%nat ->
    exists u' w', node_step false t dt (u, [w]) n = Ok (u', [w']) /\ alone u' /\ level w' /\ frozen w' = frozen w.
  Proof.
    intros A (La & Lw) Hn. pose proof A as (W & I & L & _). unfold node_step.
    destruct (u_particles u) as [|p [|]] eqn:El; try discriminate L.
    destruct (alone_eval (nadd t (nmul dt (node n))) (set_particles (zip2 (place false (node n) dt) [w] [p]) u)) as (u' & E & A' & Ac & _).
    { apply alone_set; auto; rewrite El; reflexivity. }
    rewrite E. cbn [rbind]. destruct (u_particles u') as [|q [|]] eqn:Eq; try discriminate Ac. exists u', (Model.IAS15.fit false n w q).
    split; [reflexivity|]. split; [exact A'|]. split; [|reflexivity]. split; [exact La|].
    cbn [Model.IAS15.fit w_a]. rewrite La, Lw. cbn [map] in Ac. apply cons_eq in Ac. destruct Ac as (-> & _). unfold each, vzero. cbn [vx vy vz]. 
    change (@n0 R NumR) with 0. rewrite flat_update by exact Hn. reflexivity.
  Qed.
  Lemma level_nodes t dt ns : Forall (fun n => (1 <= n <= 7)%nat) ns -> forall u w, alone u -> level w ->
    exists u' w', rfold (node_step false t dt) ns (u, [w]) = Ok (u', [w']) /\ alone u' /\ level w' /\ frozen w' = frozen w.
  Proof.
    induction ns as [|n ns IH]; intros Hn u w A Lw; cbn [rfold]; [exists u, w; auto|]. inversion_clear Hn.
    destruct (level_node t dt u w n A Lw) as (u1 & w1 & -> & A1 & L1 & F1); [assumption|]. cbn [rbind].
    destruct (IH ltac:(assumption) u1 w1 A1 L1) as (u2 & w2 & E2 & A2 & L2 & F2). exists u2, w2. split; [exact E2|]. split; [exact A2|]. split; [exact L2|congruence].
  Qed.
  Lemma not_less_0 x : 0 <= x -> nltb (x : R) 0 = false.
  Proof. intro. change (Rltb x 0 = false). unfold Rltb. destruct (Rlt_dec x 0); [lra|reflexivity]. Qed.
  Ltac flats := repeat match goal with |- context [if ?b then 0 else 0] => replace (if b then 0 else 0) with 0 by (destruct b; reflexivity) end.
  Lemma alone_attempt (s : ias (F := R)) : alone (ia_u s) -> map p_iacc (u_particles (ia_u s)) = [vzero] -> ia_tracks s = [track_zero] -> ia_dt s <> 0 ->
    exists s', attempt s = Ok (inr s') /\ alone (ia_u s').
  Proof.
    intros A Ac Ek Hd. pose proof A as (W & I & L & _). unfold attempt. rewrite Ek.
    destruct (u_particles (ia_u s)) as [|p [|]] eqn:El; try discriminate L.
    assert (Es : integrate_spin (ia_u s) = false) by (unfold integrate_spin; rewrite W; reflexivity). rewrite Es.
    change (zip2 work_start [track_zero] [p]) with [work_start (F := R) track_zero p].
    assert (Lw : level (work_start track_zero p)).
    { split; [cbn [map] in Ac; apply cons_eq in Ac; apply Ac|]. unfold work_start, track_zero, mem_zero, each. cbn [w_a k_a vx vy vz m_b]. now rewrite flat_start. }
    destruct (level_nodes (ia_t s) (ia_dt s) (seq 1 7) IAS15Pass.seq_range _ _ A Lw) as (u' & w' & E & A' & L' & _).
    change 12%nat with (S 11). generalize 11%nat as m. intro m. cbn [corrector].
    assert (Z : nltb (nlit (10 ^ 300) 1 : R) (nlit 1 10000000000000000) = false).
    { change (Rltb (IZR (10 ^ 300) / 1) (1 / 10000000000000000) = false). unfold Rltb. destruct (Rlt_dec _ _) as [X|X]; [exfalso|reflexivity].
      assert (1 <= IZR (10 ^ 300)) by (apply IZR_le; apply Z.leb_le; vm_compute; reflexivity). lra. }
    rewrite Z. cbn [Nat.ltb Nat.leb andb]. rewrite E. cbn [rbind snd]. destruct L' as (La & Lb).
    assert (Ce : corrector_error (F := R) false [w'] = 0).
    { unfold corrector_error, components. cbn [flat_map]. rewrite Lb. unfold tmp_of, at_of, axes, each, flat. cbn [vx vy vz l_tmp l_at app].
      unfold largest. cbn [fold_left]. change (@n0 R NumR) with 0. change (@nabs R NumR 0) with (Rabs 0). rewrite Rabs_R0.
      unfold larger. change (@n0 R NumR) with 0. flats. change (0 / 0 = 0). unfold Rdiv. ring. }
    assert (C1 : forall k, corrector k 1 false (ia_t s) (ia_dt s) (corrector_error false [w']) (nlit (10 ^ 300) 1) (u', [w']) = Ok (u', [w'], false)).
    { intro k. assert (T : nltb (corrector_error false [w'] : R) (nlit 1 10000000000000000) = true).
      { rewrite Ce. change (Rltb 0 (1 / 10000000000000000) = true). unfold Rltb. destruct (Rlt_dec _ _); [reflexivity|lra]. }
      destruct k; cbn [corrector]; rewrite T; reflexivity. }
    rewrite C1. cbn [rbind].
    assert (Ie : integrator_error (F := R) false (ia_dt s) (u_particles u') [w'] = 0).
    { unfold integrator_error. destruct A' as (_ & _ & L1 & _). destruct (u_particles u') as [|q [|]]; try discriminate L1. cbn [combine fold_left].
      unfold error_body. destruct (_ && _).
      - unfold larger. change (@n0 R NumR) with 0. flats. change (0 / 0 = 0). unfold Rdiv. ring.
      - rewrite Lb. unfold axes. cbn [vx vy vz combine fold_left error_component]. unfold flat. cbn [fst snd l_at l_b co_zero q6].
        change (@n0 R NumR) with 0. change (@nabs R NumR 0) with (Rabs 0). rewrite Rabs_R0.
        unfold larger. change (@n0 R NumR) with 0. flats. change (0 / 0 = 0). unfold Rdiv. ring. }
    rewrite Ie. destruct (decide (ia_dt s) 0) as [new|new] eqn:Ed.
    - exfalso. destruct (rejected_smaller _ _ _ Hd Ed) as (-> & X). rewrite proposed_real in X. unfold Reqb in X. destruct (Req_EM_T 0 0) as [_|N]; [|congruence].
      rewrite Rabs_mult, (Rabs_pos_eq 4) in X by lra. pose proof (Rabs_pos_lt _ Hd). lra.
    - eexists. split; [reflexivity|]. cbn [ia_u]. destruct A' as (W1 & I1 & L1 & A2). destruct (u_particles u') as [|q [|]] eqn:Eq; try discriminate L1.
      apply alone_set; [split; [exact W1|]; rewrite Eq; auto|reflexivity|reflexivity|rewrite Eq; reflexivity|rewrite Eq; reflexivity].
  Qed.
  Lemma lone_alone : alone (lone_u wind_effects).
  Proof.
    destruct (lone_u_lone wind_effects Jacobi (or_intror eq_refl)) as ((_ & _ & I) & _). split; [reflexivity|]. split; [exact I|]. split; [reflexivity|]. split; [reflexivity|]. split; [reflexivity|].
    constructor; [|constructor]. unfold FrameProofs.quiet. cbn. repeat split; intros; try reflexivity; discriminate.
  Qed.
  (** one step of a star with its wind *)
  Definition lone_ias : ias (F := R) := ias_new (lone_u wind_effects) 1.
  Lemma lone_attempt : exists s', attempt lone_ias = Ok (inr s') /\ alone (ia_u s').
  Proof.
    apply alone_attempt; [exact lone_alone|reflexivity|reflexivity|cbn; lra].
  Qed.
  Lemma lone_ias_step : fuel <> 0%nat -> exists s', ias_step lone_ias = Ok s'.
  Proof.
    intro Hf. unfold ias_step. destruct (alone_eval (ia_t lone_ias) (ia_u lone_ias) lone_alone) as (u & E & A & Ac & _). rewrite E. cbn [rbind].
    destruct fuel as [|n]; [congruence|]. cbn [passes].
    destruct (alone_attempt (Ias u (ia_tracks lone_ias) (ia_t lone_ias) (ia_dt lone_ias) (ia_last lone_ias) (ia_exceeded lone_ias)) A Ac eq_refl) as (s' & -> & _); [cbn; lra|].
    cbn [rbind]. eauto.
  Qed.
  Lemma lone_shaped : shaped lone_ias. Proof. split; reflexivity. Qed.
  Lemma lone_rested : rested lone_ias. Proof. constructor; [|constructor]. cbn. auto. Qed.
End Lone.
