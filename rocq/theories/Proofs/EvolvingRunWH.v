(** Evolving bodies along a WHFast simulation *)
From Coq Require Import Reals Lra Lia List Bool Arith.
From Verif Require Import Base.Num Base.Result Base.Trans Base.Vec Model.Constants Model.Particle Model.Host
  Model.Interp Model.Wind Model.Disk Model.Kaula Model.Creep Model.Tides Model.Flattening Model.Relativity Model.Universe Model.LeapFrog Model.WHFast
  Spec.EffectsSpec Spec.UniverseSpec Spec.WHFastSpec Spec.TablesSpec Spec.EvolvingRunSpec
  Proofs.NumLemmas Proofs.VecLemmas Proofs.GravityProofs Proofs.LeapFrogProofs Proofs.UniverseProofs Proofs.FrameProofs Proofs.EffectSums
  Proofs.TablesProofs Proofs.EvolveProofs Proofs.WHFastStep Proofs.EvolvingRun.
Import ListNotations.
Open Scope R_scope.

Section WH.
  Context `{Trans R} `{Floor R} `{Fuel}.
  Ltac blinds := unfold blind, blind_effects, blind_tides, blind_rf, blind_gr, blind_disk, blind_wind, blind_spin, blind_evolution,
    blind_iadd, blind_dL; repeat split; intros; try reflexivity; try congruence.
  Notation P := (particle R).
  Notation vlR := (vl (F := R)).

  (** ** Lists *)
  Lemma nth_combine {A B} (a : list A) : forall (b : list B) i x y, nth_error (combine a b) i = Some (x, y) -> nth_error a i = Some x /\ nth_error b i = Some y.
  Proof.
    induction a as [|a0 a IH]; intros [|b0 b] [|i] x y E; cbn [combine nth_error] in *; try discriminate E; [|exact (IH b i x y E)].
    injection E as <- <-. auto.
  Qed.
  Lemma nth_zip3 {A B C D} (f : A -> B -> C -> D) a b c i d : nth_error (zip3 f a b c) i = Some d ->
    exists x y z, nth_error a i = Some x /\ nth_error b i = Some y /\ nth_error c i = Some z /\ d = f x y z.
  Proof.
    unfold zip3. rewrite nth_error_map. destruct (nth_error (combine (combine a b) c) i) as [[[x y] z]|] eqn:E; [|intro X; discriminate X].
    intro X. injection X as <-. apply nth_combine in E. destruct E as [E Ez]. apply nth_combine in E. destruct E as [Ex Ey].
    exists x, y, z. auto.
  Qed.
  Lemma from_forall_view {B} (c : P -> B) (Q : B -> Prop) l l' : from c l l' -> Forall (fun p => Q (c p)) l -> Forall (fun p => Q (c p)) l'.
  Proof.
    intros A Z. apply Forall_forall. intros p' Hin. apply In_nth_error in Hin. destruct Hin as [i Hi]. destruct (A i p' Hi) as (p & Hp & E).
    rewrite E. rewrite Forall_forall in Z. exact (Z p (nth_error_In _ _ Hp)).
  Qed.
  Lemma from_inertia l l' : from size_view l l' -> Forall inertia_ok l -> Forall inertia_ok l'.
  Proof. exact (from_forall_view size_view sized_ok l l'). Qed.
  Lemma from_sizes l l' : from size_view l l' -> from sizes l l'.
  Proof. intros A i p' Hi. destruct (A i p' Hi) as (p & Hp & E). exists p. split; [exact Hp|]. unfold size_view, sizes in *. congruence. Qed.

  (** ** Sizes *)
  Variable tables : list (evolver R).
  Lemma still_spin t (u u' : universe R) : spin_and_evolving t false u = Ok u' ->
    u_evolvers u' = u_evolvers u /\ u_effects u' = u_effects u /\ from sizes (u_particles u) (u_particles u').
  Proof.
    unfold spin_and_evolving. cbn [andb rbind fst snd]. destruct (rmapi refresh_spin (u_particles u)) as [l|] eqn:E; [|intro X; discriminate X].
    cbn [rbind fst snd]. intro X. injection X as <-. split; [reflexivity|]. split; [reflexivity|].
    apply from_map. exact (rmapi_same sizes _ _ _ refresh_size E).
  Qed.
  Lemma spin_any t ev u u' : on_track tables t u -> spin_and_evolving t ev u = Ok u' -> on_track tables t u' /\ kept tables (u_particles u) (u_particles u').
  Proof.
    intros T E. destruct ev.
    - split; [exact (proj1 (spin_track tables t t u u' T (Rle_refl _) E))|exact (spin_kept tables t t u u' T (Rle_refl _) E)].
    - destruct (still_spin t u u' E) as (A & B & C). split; [exact (track_same tables t u u' A B T)|apply kept_from; exact C].
  Qed.
  Lemma effects_any t ev dL acc ig u u' : on_track tables t u -> additional_effects t ev dL acc ig u = Ok u' ->
    on_track tables t u' /\ kept tables (u_particles u) (u_particles u').
  Proof.
    intros T E. split.
    - destruct (effects_evolvers _ _ _ _ _ _ _ E) as (u1 & u2 & A1 & A2 & E2 & A3 & A4).
      destruct (spin_any t ev u1 u2 (track_same _ _ _ _ A1 A2 T) E2) as [T2 _]. exact (track_same _ _ _ _ A3 A4 T2).
    - destruct (evaluation _ _ _ _ _ _ _ E) as (l0 & u1 & u2 & l & E0 & Eu & E2 & El & Rs & Ep).
      assert (T1 : on_track tables t u1) by (subst u1; exact T).
      destruct (spin_any t ev u1 u2 T1 E2) as [_ K2]. apply (init_list_frame sizes) in E0; [|blinds].
      assert (El' := El _ sizes ltac:(blinds)).
      apply (kept_trans _ _ (u_particles u1)).
      + apply kept_from. apply from_map. subst u1. cbn [u_particles set_particles]. destruct acc; [|exact E0]. rewrite <- E0. apply map_same. reflexivity.
      + apply (kept_trans _ _ _ _ K2). apply kept_from. apply from_map. rewrite Ep, <- El'. cbn zeta. set (l1 := if dL && _ then _ else l).
        transitivity (map sizes l1); [|unfold l1; destruct (dL && _); [apply map_same; reflexivity|reflexivity]].
        destruct acc; [|reflexivity]. apply map_same. apply sums_kept. blinds.
  Qed.
  Definition goes (t : R) (u u' : universe R) : Prop := on_track tables t u' /\ kept tables (u_particles u) (u_particles u') /\
    (Forall inertia_ok (u_particles u) -> Forall inertia_ok (u_particles u')).
  Lemma goes_trans t t' u1 u2 u3 : goes t u1 u2 -> (on_track tables t u2 -> goes t' u2 u3) -> goes t' u1 u3.
  Proof. intros (A & B & C) X. destruct (X A) as (A' & B' & C'). split; [exact A'|]. split; [exact (kept_trans _ _ _ _ B B')|auto]. Qed.
  Lemma goes_from t (u u' : universe R) : u_evolvers u' = u_evolvers u -> u_effects u' = u_effects u -> from size_view (u_particles u) (u_particles u') ->
    on_track tables t u -> goes t u u'.
  Proof.
    intros A B C T. split; [exact (track_same _ _ _ _ A B T)|]. split; [apply kept_from, from_sizes; exact C|]. exact (from_inertia _ _ C).
  Qed.
  Lemma i2h_goes t u u' : on_track tables t u -> inertial_to_heliocentric u = Ok u' -> goes t u u'.
  Proof.
    intros T E. destruct (i2h_evolvers _ _ E) as [A B]. apply goes_from; [exact A|exact B| |exact T].
    apply from_map. apply (EffectSums.i2h_view size_view) in E; [exact E|reflexivity|reflexivity].
  Qed.
  Lemma effects_goes t ev dL acc ig u u' : on_track tables t u -> additional_effects t ev dL acc ig u = Ok u' -> goes t u u'.
  Proof.
    intros T E. destruct (effects_any _ _ _ _ _ _ _ T E) as [A B]. split; [exact A|]. split; [exact B|]. intros I.
    apply effects_inertia in E; [|exact I]. eapply Forall_impl; [|exact E]. intros p (_ & X). exact X.
  Qed.
  Lemma midpoint_goes t dt spin ev c err orig n : forall i final changes u u' f' c', on_track tables t u ->
    midpoint n i t dt spin ev c err orig final changes u = Ok (u', f', c') -> goes t u u'.
  Proof.
    induction n as [|n IH]; intros i final changes u u' f' c' T E; cbn [midpoint] in E.
    - injection E as <- <- <-. apply goes_from; try reflexivity; [apply from_map; reflexivity|exact T].
    - destruct (inertial_to_heliocentric u) as [u1|] eqn:E1; [|discriminate E]. cbn [rbind] in E.
      apply (goes_trans t t _ _ _ (i2h_goes _ _ _ T E1)). intros T1.
      destruct (additional_effects _ _ _ _ _ u1) as [u2|] eqn:E2; [|discriminate E]. cbn [rbind] in E.
      apply (goes_trans t t _ _ _ (effects_goes _ _ _ _ _ _ _ T1 E2)). intros T2.
      destruct (_ && converged _ _ _).
      + injection E as <- <- <-. apply goes_from; try reflexivity; [apply from_map; reflexivity|exact T2].
      + match type of E with midpoint _ _ _ _ _ _ _ _ _ _ _ ?v = _ => set (u3 := v) in E end.
        assert (G3 : goes t u2 u3).
        { apply goes_from; try reflexivity; [|exact T2]. intros k p' Hk. unfold u3 in Hk. cbn [u_particles set_particles] in Hk.
          apply nth_zip3 in Hk. destruct Hk as (x & y & p & _ & _ & Hp & ->). exists p. split; [exact Hp|]. unfold average. destruct spin; reflexivity. }
        apply (goes_trans t t _ _ _ G3). intros T3. exact (IH _ _ _ _ _ _ _ T3 E).
  Qed.
  Lemma velocity_goes t dt spin ev w w' : on_track tables t (w_u w) -> velocity_dependent t dt spin ev w = Ok w' -> goes t (w_u w) (w_u w').
  Proof.
    intros T E. unfold velocity_dependent in E. destruct (midpoint _ _ _ _ _ _ _ _ _ _ _ _) as [[[u f] ch]|] eqn:Em; [|discriminate E].
    cbn [rbind] in E. injection E as <-. cbn [w_u]. apply (goes_trans t t _ _ _ (midpoint_goes _ _ _ _ _ _ _ _ _ _ _ _ _ _ _ T Em)). intros T1.
    apply goes_from; try reflexivity; [|exact T1]. intros k p' Hk. cbn [u_particles set_particles] in Hk. rewrite nth_error_map in Hk.
    destruct (nth_error (combine (u_particles u) f) k) as [[p x]|] eqn:Ek; [|discriminate Hk]. injection Hk as <-. apply nth_combine in Ek.
    exists p. split; [apply Ek|]. destruct spin; reflexivity.
  Qed.
  Lemma bodies_rest (w w' : whfast R) f : with_bodies w f = Ok w' -> u_evolvers (w_u w') = u_evolvers (w_u w) /\ u_effects (w_u w') = u_effects (w_u w).
  Proof. unfold with_bodies. destruct (with_host _ _ _); cbn [rbind]; [|intro X; discriminate X]. intro X. injection X as <-. split; reflexivity. Qed.
  Lemma orbit_sizes : blind_orbit (F := R) size_view.
  Proof. repeat split; reflexivity. Qed.
  Lemma part1_goes t half w w' : on_track tables t (w_u w) -> length (w_alt w) = length (u_particles (w_u w)) -> part1 half w = Ok w' -> goes t (w_u w) (w_u w').
  Proof.
    intros T L E. destruct (bodies_rest _ _ _ E) as [A B]. apply (part1_view size_view) in E; [|exact orbit_sizes|exact L].
    apply goes_from; [exact A|exact B|apply from_map; apply E|exact T].
  Qed.
  Lemma part2_goes t dt half w w' : on_track tables t (w_u w) -> length (w_alt w) = length (u_particles (w_u w)) -> part2 dt half w = Ok w' -> goes t (w_u w) (w_u w').
  Proof.
    intros T L E. destruct (bodies_rest _ _ _ E) as [A B]. apply (part2_view size_view) in E; [|exact orbit_sizes|exact L].
    apply goes_from; [exact A|exact B|apply from_map; apply E|exact T].
  Qed.
  Definition shaped (w : whfast R) : Prop := sized w /\ length (u_roche (w_u w)) = length (u_particles (w_u w)).
  Lemma step_shaped t dt half w w' : shaped w -> wh_step t dt half w = Ok w' -> shaped w'.
  Proof.
    intros (Sz & Lr) E.
    destruct (wh_step_view (fun _ => tt) _ _ _ _ _ Sz Lr (blind_step_unit _) (conj (fun _ _ => eq_refl) (conj (fun _ _ => eq_refl) (fun _ _ => eq_refl))) (fun _ _ _ => eq_refl) E) as (N & T & Z & _).
    apply view_len in N. split; [exact Z|]. destruct T as (_ & _ & _ & ->). congruence.
  Qed.
  Lemma wh_step_goes t dt half w w' : shaped w -> on_track tables t (w_u w) -> wh_step t dt half w = Ok w' -> goes t (w_u w) (w_u w').
  Proof.
    intros (Sz & Lr) T E. unfold wh_step in E.
    destruct (velocity_dependent _ _ _ true w) as [w1|] eqn:E1; [|discriminate E]. cbn [rbind] in E.
    destruct (velocity_dependent_view (fun _ => tt) _ _ _ _ _ _ Sz (blind_step_unit _) (fun _ _ => eq_refl) (fun _ _ _ => eq_refl) E1) as (N1 & S1 & (Z1 & Z2 & Z3) & _). apply view_len in N1.
    apply (goes_trans t t _ _ _ (velocity_goes _ _ _ _ _ _ T E1)). intros T1.
    destruct (part1 half w1) as [w2|] eqn:E2; [|discriminate E]. cbn [rbind] in E.
    destruct (part1_view (fun _ => tt) _ _ _ (conj (fun _ _ => eq_refl) (conj (fun _ _ => eq_refl) (fun _ _ => eq_refl))) Z1 E2) as (N2 & S2 & _ & V2 & L2 & Z4). apply view_len in N2.
    apply (goes_trans t t _ _ _ (part1_goes _ _ _ _ T1 Z1 E2)). intros T2.
    assert (Lr2 : length (u_roche (w_u w2)) = length (u_particles (w_u w2))) by (destruct (stays_trans _ _ _ S1 S2) as (_ & _ & _ & ->); congruence).
    destruct (gravity _ (w_u w2)) as [u3|] eqn:E3; [|discriminate E]. cbn [rbind] in E.
    destruct (gravity_view (fun _ => tt) _ _ _ (fun _ _ => eq_refl) Lr2 E3) as (N3 & _). apply view_len in N3.
    assert (G3 : goes t (w_u w2) u3).
    { pose proof (proj1 (gravity_view size_view _ _ _ (fun _ _ => eq_refl) Lr2 E3)) as X. apply gravity_inv in E3. destruct E3 as (accs & _ & E3).
      apply goes_from; [rewrite E3; reflexivity|rewrite E3; reflexivity|apply from_map; exact X|exact T2]. }
    apply (goes_trans t t _ _ _ G3). intros T3.
    set (w3 := WH u3 _ _ _ _) in E. change (on_track tables t (w_u w3)) in T3. change (goes t (w_u w3) (w_u w')).
    destruct (part2 dt half w3) as [w4|] eqn:E4; [|discriminate E]. cbn [rbind] in E.
    assert (Z5 : length (w_alt w3) = length (u_particles (w_u w3))) by (cbn; congruence).
    apply (goes_trans t t _ _ _ (part2_goes _ _ _ _ _ T3 Z5 E4)). intros T4.
    exact (velocity_goes _ _ _ _ _ _ T4 E).
  Qed.
  Lemma init_goes t (u u' : universe R) : on_track tables t u -> initialize_physical_values t u = Ok u' -> goes t u u'.
  Proof.
    intros T E. destruct (initialize_inv _ _ _ E) as (v & Ev & ->). destruct (spin_any _ _ _ _ T Ev) as [A B]. split; [exact A|]. split; [exact B|].
    intros I. apply spins_refreshed in Ev; [|exact I]. eapply Forall_impl; [|exact Ev]. intros p (_ & X). exact X.
  Qed.
  Lemma output_goes t (u u' : universe R) : on_track tables t u -> refresh_for_output t u = Ok u' -> goes t u u'.
  Proof.
    intros T E. split; [exact (proj1 (output_track _ _ _ _ T E))|]. split; [exact (output_kept _ _ _ _ T E)|]. intros I.
    apply output_spins in E; [|exact I]. eapply Forall_impl; [|exact E]. intros p (_ & X). exact X.
  Qed.
  Lemma init_shape t (u u' : universe R) : length (u_roche u) = length (u_particles u) -> initialize_physical_values t u = Ok u' ->
    length (u_particles u') = length (u_particles u) /\ length (u_roche u') = length (u_particles u').
  Proof.
    intros L E. destruct (initialize_inv _ _ _ E) as (v & Ev & ->). apply (spin_frame (fun _ => tt)) in Ev; [|blinds]. destruct Ev as [N (_ & _ & _ & Ro & _)].
    apply view_len in N. change (u_particles (calculate_roche v)) with (u_particles v). split; [exact N|].
    unfold calculate_roche. cbn [set_roche u_roche]. rewrite map_length, combine_length, enumerate_length, Ro. lia.
  Qed.
  Lemma output_shape t (u u' : universe R) : refresh_for_output t u = Ok u' -> length (u_particles u') = length (u_particles u) /\ u_roche u' = u_roche u.
  Proof.
    intros E. unfold refresh_for_output in E.
    destruct (inertial_to_heliocentric u) as [u1|] eqn:E1; [|discriminate E]. cbn [rbind] in E. destruct (i2h_rest _ _ E1) as (_ & _ & R1 & _).
    apply (EffectSums.i2h_view (fun _ => tt)) in E1; [|reflexivity|reflexivity]. apply view_len in E1.
    destruct (spin_and_evolving t true u1) as [u2|] eqn:E2; [|discriminate E]. cbn [rbind] in E.
    apply (spin_frame (fun _ => tt)) in E2; [|blinds]. destruct E2 as [N (_ & _ & _ & Ro & _)]. apply view_len in N.
    destruct (e_tides (u_effects u2)); [|injection E as <-; split; congruence].
    unfold denergy_dt in E. destruct (with_host _ _ _) as [l|] eqn:El; cbn [rbind] in E; [|discriminate E]. injection E as <-.
    cbn [u_particles u_roche set_particles]. apply (with_host_frame (fun _ => tt)) in El.
    - apply view_len in El. split; congruence.
    - intros host o r [= <-]. split; [reflexivity|]. apply k_tides_denergy. blinds.
  Qed.
  Lemma simulated_wh_goes dt half t w T w' : 0 <= dt -> shaped w -> on_track tables t (w_u w) -> simulated_wh dt half t w T w' ->
    shaped w' /\ goes T (w_u w) (w_u w').
  Proof.
    intros Hd Sh Tu S. induction S as [|t1 w1 u2 S [Sh1 G1] E|t1 w1 w2 S [Sh1 G1] E|t1 w1 u2 S [Sh1 G1] E].
    - split; [exact Sh|]. apply goes_from; try reflexivity; [apply from_map; reflexivity|exact Tu].
    - destruct Sh1 as ((A & B & C) & D). destruct (init_shape _ _ _ D E) as [N L]. split.
      + split; [|exact L]. unfold sized, with_universe in *. cbn [w_u w_alt w_verr w_Lerr]. rewrite N. auto.
      + apply (goes_trans t1 t1 _ _ _ G1). intros T1. exact (init_goes _ _ _ T1 E).
    - split; [exact (step_shaped _ _ _ _ _ Sh1 E)|]. apply (goes_trans t1 (t1 + dt) _ _ _ G1). intros T1.
      destruct (wh_step_goes _ _ _ _ _ Sh1 T1 E) as (A & B & C). split; [|auto]. apply (track_later _ t1); [lra|exact A].
    - destruct Sh1 as ((A & B & C) & D). destruct (output_shape _ _ _ E) as [N L]. split.
      + split; [|cbn [with_universe w_u]; congruence]. unfold sized, with_universe in *. cbn [w_u w_alt w_verr w_Lerr]. rewrite N. auto.
      + apply (goes_trans t1 t1 _ _ _ G1). intros T1. exact (output_goes _ _ _ T1 E).
  Qed.
End WH.

(** ** Angular momenta without torques *)
Section Momentum.
  Context `{Trans R} `{Floor R} `{Fuel}.
  Ltac blinds := unfold blind, blind_effects, blind_tides, blind_rf, blind_gr, blind_disk, blind_wind, blind_spin, blind_evolution,
    blind_iadd, blind_dL; repeat split; intros; try reflexivity; try congruence.
  Notation P := (particle R).
  Notation vlR := (vl (F := R)).
  Lemma effects_L_any t ev dL acc ig v v' : untorqued v -> additional_effects t ev dL acc ig v = Ok v' ->
    from L_view (u_particles v) (u_particles v') /\ untorqued v'.
  Proof.
    intros Q E. destruct (evaluation _ _ _ _ _ _ _ E) as (l0 & u1 & u2 & l & E0 & -> & E2 & El & Rs & Ep).
    split; [|unfold untorqued in *; destruct Rs as (-> & _ & -> & _); exact Q].
    unfold untorqued in Q. cbv zeta in Ep. rewrite Q, andb_false_r in Ep. apply from_map. rewrite Ep.
    apply (init_list_frame L_view) in E0; [|blinds].
    apply (spin_frame L_view) in E2; [|blinds]. destruct E2 as [E2 _]. cbn [u_particles set_particles] in E2.
    assert (El' := El _ L_view ltac:(blinds)).
    transitivity (map L_view l).
    - destruct acc; [|reflexivity]. apply map_same. apply sums_kept. blinds.
    - rewrite El', E2. destruct acc; [|exact E0]. rewrite <- E0. apply map_same. reflexivity.
  Qed.
  (** the values and changes agree with the bodies at the start of the iteration *)
  Definition as_orig (orig l : list vlR) : Prop := forall i x o, nth_error l i = Some x -> nth_error orig i = Some o -> snd x = snd o.
  Definition zero_snd (l : list vlR) : Prop := Forall (fun x => snd x = vzero) l.
  Lemma zero_nth l i x : zero_snd l -> nth_error l i = Some x -> snd x = vzero.
  Proof. intros Z E. unfold zero_snd in Z. rewrite Forall_forall in Z. exact (Z x (nth_error_In _ _ E)). Qed.
  Lemma zero_intro l : (forall i x, nth_error l i = Some x -> snd x = vzero) -> zero_snd l.
  Proof. intros X. apply Forall_forall. intros x Hin. apply In_nth_error in Hin. destruct Hin as [i Hi]. exact (X i x Hi). Qed.
  Lemma midpoint_L l0 t dt spin ev c err n : zero_snd err -> Forall rest_dL l0 -> forall i final changes u u' f' c',
    untorqued u -> from L_view l0 (u_particles u) -> as_orig (map vl_of l0) final -> zero_snd changes ->
    midpoint n i t dt spin ev c err (map vl_of l0) final changes u = Ok (u', f', c') ->
    untorqued u' /\ from L_view l0 (u_particles u') /\ as_orig (map vl_of l0) f' /\ zero_snd c'.
  Proof.
    intros Ze Zd. induction n as [|n IH]; intros i final changes u u' f' c' Q V Fi Zc E; cbn [midpoint] in E.
    - injection E as <- <- <-. auto.
    - destruct (inertial_to_heliocentric u) as [u1|] eqn:E1; [|discriminate E]. cbn [rbind] in E.
      destruct (i2h_L _ _ Q E1) as [V1 Q1]. pose proof (from_trans _ _ _ _ V V1) as W1.
      destruct (additional_effects _ _ _ _ _ u1) as [u2|] eqn:E2; [|discriminate E]. cbn [rbind] in E.
      destruct (effects_L_any _ _ _ _ _ _ _ Q1 E2) as [V2 Q2]. pose proof (from_trans _ _ _ _ W1 V2) as W2.
      pose proof (from_forall _ _ W2 Zd) as Z2.
      set (ch := zip3 (midpoint_change dt spin) _ _ _) in E. set (fi := zip3 (midpoint_final spin) _ _ _) in E.
      assert (Zch : zero_snd ch).
      { apply zero_intro. intros k x Hk. apply nth_zip3 in Hk. destruct Hk as (p & e & o & Hp & He & Ho & ->). unfold midpoint_change. cbn [snd].
        destruct spin; [|exact (zero_nth _ _ _ Zc Ho)]. rewrite (zero_nth _ _ _ Ze He). rewrite Forall_forall in Z2.
        rewrite (Z2 p (nth_error_In _ _ Hp)). apply vec_eq; cbn; ring. }
      assert (Fi' : as_orig (map vl_of l0) fi).
      { intros k x o Hk Ho. apply nth_zip3 in Hk. destruct Hk as (a & b & d & Ha & Hb & Hd & ->). rewrite Ho in Ha. injection Ha as <-.
        unfold midpoint_final. cbn [snd]. destruct spin; [|exact (Fi k d o Hd Ho)]. rewrite (zero_nth _ _ _ Zch Hb). apply vec_eq; cbn; ring. }
      clearbody ch fi. destruct (_ && converged _ _ _).
      + injection E as <- <- <-. auto.
      + refine (IH _ _ _ _ _ _ _ _ _ Fi' Zch E); [exact Q2|].
        intros k p' Hk. cbn [u_particles set_particles] in Hk. apply nth_zip3 in Hk. destruct Hk as (o & f & p & Ho & Hf & Hp & ->).
        destruct (W2 k p Hp) as (p0 & Hp0 & Ev). exists p0. split; [exact Hp0|]. rewrite <- Ev. unfold average. destruct spin; [|reflexivity].
        pose proof (Fi' k f o Hf Ho) as X. rewrite nth_error_map, Hp0 in Ho. injection Ho as <-. cbn [vl_of snd] in X. rewrite X.
        unfold L_view in Ev |- *. injection Ev as _ EL _. cbn [p_mass p_L p_dL set_p_L set_p_ivel snd vl_of]. f_equal. f_equal. rewrite EL. apply vec_eq; cbn; lra.
  Qed.
  Definition calm (w : whfast R) : Prop := untorqued (w_u w) /\ Forall rest_dL (u_particles (w_u w)) /\ Forall (fun v => v = vzero) (w_Lerr w).
  Lemma velocity_L t dt spin ev w w' : calm w -> velocity_dependent t dt spin ev w = Ok w' ->
    from L_view (u_particles (w_u w)) (u_particles (w_u w')) /\ calm w'.
  Proof.
    intros (Q & Z & Ze) E. unfold velocity_dependent in E. destruct (midpoint _ _ _ _ _ _ _ _ _ _ _ _) as [[[u f] ch]|] eqn:Em; [|discriminate E].
    cbn [rbind] in E. injection E as <-. cbn [w_u w_Lerr].
    assert (Ze' : zero_snd (combine (w_verr w) (w_Lerr w))).
    { apply zero_intro. intros i [a b] Hi. apply nth_combine in Hi. destruct Hi as [_ Hi]. rewrite Forall_forall in Ze. exact (Ze b (nth_error_In _ _ Hi)). }
    assert (F0 : as_orig (map vl_of (u_particles (w_u w))) (map vl_of (u_particles (w_u w)))) by (intros i x o A B; congruence).
    assert (Z0 : zero_snd (map (fun _ : vlR => (vzero, vzero)) (map vl_of (u_particles (w_u w))))).
    { apply zero_intro. intros i x Hi. rewrite nth_error_map in Hi. destruct (nth_error _ i); [injection Hi as <-; reflexivity|discriminate Hi]. }
    destruct (midpoint_L (u_particles (w_u w)) t dt spin ev _ _ _ Ze' Z _ _ _ _ _ _ _ Q (from_map _ _ _ eq_refl) F0 Z0 Em)
      as (Q' & V & Fi & Zc).
    assert (V' : from L_view (u_particles (w_u w)) (map (fun pf : P * vlR => let '(p, f) := pf in let p := set_p_ivel (fst f) p in if spin then set_p_L (snd f) p else p) (combine (u_particles u) f))).
    { intros k p' Hk. rewrite nth_error_map in Hk. destruct (nth_error (combine (u_particles u) f) k) as [[p x]|] eqn:Ek; [|discriminate Hk].
      injection Hk as <-. apply nth_combine in Ek. destruct Ek as [Hp Hx]. destruct (V k p Hp) as (p0 & Hp0 & Ev). exists p0. split; [exact Hp0|].
      rewrite <- Ev. destruct spin; [|reflexivity]. pose proof (Fi k x (vl_of p0) Hx ltac:(rewrite nth_error_map, Hp0; reflexivity)) as X. cbn [vl_of snd] in X.
      unfold L_view in Ev |- *. injection Ev as _ EL _. cbn [p_mass p_L p_dL set_p_L set_p_ivel]. rewrite X, EL. reflexivity. }
    split; [exact V'|]. split; [exact Q'|]. split; [exact (from_forall _ _ V' Z)|]. destruct spin; [|exact Ze].
    apply Forall_forall. intros v Hin. apply In_nth_error in Hin. destruct Hin as [k Hk]. apply nth_zip3 in Hk. destruct Hk as (a & b & d & Ha & Hb & Hd & ->).
    rewrite (Fi k a b Ha Hb), (zero_nth _ _ _ Zc Hd). apply vec_eq; cbn; ring.
  Qed.
  Lemma orbit_L : blind_orbit (F := R) L_view.
  Proof. repeat split; reflexivity. Qed.
  Lemma bodies_gr (w w' : whfast R) f : with_bodies w f = Ok w' -> u_effects (w_u w') = u_effects (w_u w) /\ u_gr (w_u w') = u_gr (w_u w) /\ w_Lerr w' = w_Lerr w.
  Proof. unfold with_bodies. destruct (with_host _ _ _); cbn [rbind]; [|intro X; discriminate X]. intro X. injection X as <-. repeat split; reflexivity. Qed.
  Lemma wh_step_L t dt half w w' : shaped w -> calm w -> wh_step t dt half w = Ok w' -> from L_view (u_particles (w_u w)) (u_particles (w_u w')) /\ calm w'.
  Proof.
    intros (Sz & Lr) C E. unfold wh_step in E.
    destruct (velocity_dependent _ _ _ true w) as [w1|] eqn:E1; [|discriminate E]. cbn [rbind] in E.
    destruct (velocity_dependent_view (fun _ => tt) _ _ _ _ _ _ Sz (blind_step_unit _) (fun _ _ => eq_refl) (fun _ _ _ => eq_refl) E1) as (N1 & S1 & (Z1 & Z2 & Z3) & _). apply view_len in N1.
    destruct (velocity_L _ _ _ _ _ _ C E1) as [V1 C1].
    destruct (part1 half w1) as [w2|] eqn:E2; [|discriminate E]. cbn [rbind] in E.
    destruct (bodies_gr _ _ _ E2) as (A2 & B2 & D2).
    pose proof (part1_view L_view _ _ _ orbit_L Z1 E2) as (V2 & S2 & _ & _ & _ & Z4). apply from_map in V2.
    destruct (part1_view (fun _ => tt) _ _ _ (conj (fun _ _ => eq_refl) (conj (fun _ _ => eq_refl) (fun _ _ => eq_refl))) Z1 E2) as (N2 & _). apply view_len in N2.
    assert (C2 : calm w2).
    { destruct C1 as (X & Y & Z). unfold calm, untorqued in *. rewrite A2, B2, D2. split; [exact X|]. split; [exact (from_forall _ _ V2 Y)|exact Z]. }
    assert (Lr2 : length (u_roche (w_u w2)) = length (u_particles (w_u w2))) by (destruct (stays_trans _ _ _ S1 S2) as (_ & _ & _ & ->); congruence).
    destruct (gravity _ (w_u w2)) as [u3|] eqn:E3; [|discriminate E]. cbn [rbind] in E.
    destruct (gravity_view (fun _ => tt) _ _ _ (fun _ _ => eq_refl) Lr2 E3) as (N3 & _). apply view_len in N3.
    destruct (gravity_view L_view _ _ _ (fun _ _ => eq_refl) Lr2 E3) as (V3 & S3). apply from_map in V3.
    set (w3 := WH u3 _ _ _ _) in E. change (from L_view (u_particles (w_u w2)) (u_particles (w_u w3))) in V3.
    assert (C3 : calm w3).
    { destruct C2 as (X & Y & Z). destruct S3 as (Se & _ & Sg & _). unfold calm, untorqued in *. cbn [w3 w_u w_Lerr]. rewrite Se, Sg. split; [exact X|].
      split; [exact (from_forall _ _ V3 Y)|exact Z]. }
    destruct (part2 dt half w3) as [w4|] eqn:E4; [|discriminate E]. cbn [rbind] in E.
    assert (Z5 : length (w_alt w3) = length (u_particles (w_u w3))) by (cbn; congruence).
    destruct (bodies_gr _ _ _ E4) as (A4 & B4 & D4).
    pose proof (part2_view L_view _ _ _ _ orbit_L Z5 E4) as (V4 & _). apply from_map in V4.
    assert (C4 : calm w4).
    { destruct C3 as (X & Y & Z). unfold calm, untorqued in *. rewrite A4, B4, D4. split; [exact X|]. split; [exact (from_forall _ _ V4 Y)|exact Z]. }
    destruct (velocity_L _ _ _ _ _ _ C4 E) as [V5 C5]. split; [|exact C5].
    exact (from_trans _ _ _ _ V1 (from_trans _ _ _ _ V2 (from_trans _ _ _ _ V3 (from_trans _ _ _ _ V4 V5)))).
  Qed.
  Lemma init_L t (u u' : universe R) : untorqued u -> initialize_physical_values t u = Ok u' -> from L_view (u_particles u) (u_particles u') /\ untorqued u'.
  Proof.
    intros Q E. destruct (initialize_inv _ _ _ E) as (v & Ev & ->). apply (spin_frame L_view) in Ev; [|blinds]. destruct Ev as [Ev (A & _ & B & _)].
    split; [exact (from_map _ _ _ Ev)|]. unfold untorqued in *. change (torques_on (u_effects v) (u_gr v) = false). rewrite A, B. exact Q.
  Qed.
  Lemma simulated_wh_L dt half t w T w' : shaped w -> calm w -> simulated_wh dt half t w T w' ->
    shaped w' /\ calm w' /\ from L_view (u_particles (w_u w)) (u_particles (w_u w')).
  Proof.
    intros Sh C S. induction S as [|t1 w1 u2 S (Sh1 & C1 & V1) E|t1 w1 w2 S (Sh1 & C1 & V1) E|t1 w1 u2 S (Sh1 & C1 & V1) E].
    - split; [exact Sh|]. split; [exact C|]. apply from_map. reflexivity.
    - destruct Sh1 as ((A & B & C') & D). destruct (init_shape _ _ _ D E) as [N L]. destruct C1 as (X & Y & Z). destruct (init_L _ _ _ X E) as [V2 Q2].
      split; [split; [unfold sized, with_universe in *; cbn [w_u w_alt w_verr w_Lerr]; rewrite N; auto|exact L]|].
      split; [|exact (from_trans _ _ _ _ V1 V2)]. split; [exact Q2|]. split; [exact (from_forall _ _ V2 Y)|exact Z].
    - destruct (wh_step_L _ _ _ _ _ Sh1 C1 E) as [V2 C2]. split; [exact (step_shaped _ _ _ _ _ Sh1 E)|]. split; [exact C2|exact (from_trans _ _ _ _ V1 V2)].
    - destruct Sh1 as ((A & B & C') & D). destruct (output_shape _ _ _ E) as [N L]. destruct C1 as (X & Y & Z). destruct (output_L _ _ _ X E) as [V2 Q2].
      split; [split; [unfold sized, with_universe in *; cbn [w_u w_alt w_verr w_Lerr]; rewrite N; auto|cbn [with_universe w_u]; congruence]|].
      split; [|exact (from_trans _ _ _ _ V1 V2)]. split; [exact Q2|]. split; [exact (from_forall _ _ V2 Y)|exact Z].
  Qed.
End Momentum.

Section Together.
  Context `{Trans R} `{Floor R} `{Fuel}.
  Lemma new_shaped u c : length (u_roche u) = length (u_particles u) -> shaped (new_whfast u c).
  Proof. intros L. split; [|exact L]. unfold sized, new_whfast. cbn [w_alt w_verr w_Lerr w_u]. rewrite !repeat_length. auto. Qed.
  Theorem wh_output_sizes c dt half t u T w1 u2 i e p : evolving u -> length (u_roche u) = length (u_particles u) -> 0 <= dt ->
    simulated_wh dt half t (new_whfast u c) T w1 -> refresh_for_output T (w_u w1) = Ok u2 ->
    nth_error (u_evolvers u) i = Some e -> nth_error (u_particles u2) i = Some p ->
    has_size_of e T p /\ exists p0, nth_error (u_particles u) i = Some p0 /\ keeps_size_of e p0 p.
  Proof.
    intros Ev L Hd S E He Hp. pose proof (evolving_track t u Ev) as Tu.
    destruct (simulated_wh_goes (u_evolvers u) _ _ _ (new_whfast u c) _ _ Hd (new_shaped u c L) Tu S) as (_ & T1 & K1 & _). split.
    - exact (proj2 (output_track _ _ _ _ T1 E) i e p He Hp).
    - exact (kept_trans _ _ _ _ K1 (output_kept _ _ _ _ T1 E) i e p He Hp).
  Qed.
  Theorem wh_output_rotation c dt half t u T w1 u2 : evolving u -> length (u_roche u) = length (u_particles u) -> 0 <= dt ->
    Forall inertia_ok (u_particles u) -> simulated_wh dt half t (new_whfast u c) T w1 -> refresh_for_output T (w_u w1) = Ok u2 ->
    Forall (fun p => vscale (moment p) (p_spin p) = p_L p) (u_particles u2).
  Proof.
    intros Ev L Hd I S E. pose proof (evolving_track t u Ev) as Tu.
    destruct (simulated_wh_goes (u_evolvers u) _ _ _ (new_whfast u c) _ _ Hd (new_shaped u c L) Tu S) as (_ & _ & _ & K). specialize (K I).
    apply output_spins in E; [|exact K]. eapply Forall_impl; [|exact E].
    intros p ((A & _) & B). unfold inertia_ok in B. unfold moment. rewrite <- B. exact A.
  Qed.
  Theorem wh_output_momentum c dt half t u T w1 u2 i p : no_torques u -> length (u_roche u) = length (u_particles u) ->
    Forall (fun p => p_dL p = vzero) (u_particles u) ->
    simulated_wh dt half t (new_whfast u c) T w1 -> refresh_for_output T (w_u w1) = Ok u2 -> nth_error (u_particles u2) i = Some p ->
    exists p0, nth_error (u_particles u) i = Some p0 /\ p_L p = p_L p0 /\ p_mass p = p_mass p0.
  Proof.
    intros Q L Z S E Hp. apply no_torques_iff in Q.
    assert (C : calm (new_whfast u c)).
    { split; [exact Q|]. split; [exact Z|]. cbn [new_whfast w_Lerr]. apply Forall_forall. intros v Hin. apply repeat_spec in Hin. exact Hin. }
    destruct (simulated_wh_L _ _ _ _ _ _ (new_shaped u c L) C S) as (_ & (Q1 & _) & V). destruct (output_L _ _ _ Q1 E) as [V2 _].
    destruct (from_trans _ _ _ _ V V2 i p Hp) as (p0 & Hp0 & X). exists p0. split; [exact Hp0|]. unfold L_view in X. injection X as X1 X2 X3. auto.
  Qed.
  Theorem wh_output_spin_up c dt half t u T w1 u2 i p : evolving u -> no_torques u -> length (u_roche u) = length (u_particles u) -> 0 <= dt ->
    Forall (fun p => p_dL p = vzero) (u_particles u) ->
    Forall (fun p => inertia_ok p /\ spin_ok p /\ p_mass p <> 0) (u_particles u) ->
    simulated_wh dt half t (new_whfast u c) T w1 -> refresh_for_output T (w_u w1) = Ok u2 -> nth_error (u_particles u2) i = Some p ->
    exists p0, nth_error (u_particles u) i = Some p0 /\
      vscale (p_rg2 p * (p_radius p * p_radius p)) (p_spin p) = vscale (p_rg2 p0 * (p_radius p0 * p_radius p0)) (p_spin p0).
  Proof.
    intros Ev Q Lr Hd Z I S E Hp. destruct (wh_output_momentum _ _ _ _ _ _ _ _ _ _ Q Lr Z S E Hp) as (p0 & Hp0 & L & M). exists p0. split; [exact Hp0|].
    assert (I' : Forall inertia_ok (u_particles u)) by (eapply Forall_impl; [|exact I]; intros a (X & _); exact X).
    pose proof (wh_output_rotation _ _ _ _ _ _ _ _ Ev Lr Hd I' S E) as Ro. rewrite Forall_forall in Ro, I.
    specialize (Ro p (nth_error_In _ _ Hp)). destruct (I p0 (nth_error_In _ _ Hp0)) as (I0 & (S0 & _) & M0).
    rewrite L, <- S0 in Ro. unfold moment in Ro. unfold inertia_ok in I0. rewrite I0, M in Ro.
    destruct (p_spin p) as [x y z], (p_spin p0) as [x0 y0 z0]. unfold vscale in *. cbn [vx vy vz nmul NumR] in *. injection Ro as R1 R2 R3.
    apply vec_eq; cbn [vx vy vz nmul NumR]; apply (Rmult_eq_reg_l (p_mass p0)); try exact M0; nra.
  Qed.
End Together.
