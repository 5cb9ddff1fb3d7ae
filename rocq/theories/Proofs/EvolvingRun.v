(** Evolving bodies along a LeapFrog simulation *)
From Coq Require Import Reals Lra Lia List Bool Arith.
From Verif Require Import Base.Num Base.Result Base.Trans Base.Vec Model.Constants Model.Particle Model.Host
  Model.Interp Model.Wind Model.Disk Model.Kaula Model.Creep Model.Tides Model.Flattening Model.Relativity Model.Universe Model.LeapFrog
  Spec.EffectsSpec Spec.UniverseSpec Spec.TablesSpec Spec.EvolvingRunSpec
  Proofs.NumLemmas Proofs.VecLemmas Proofs.GravityProofs Proofs.LeapFrogProofs Proofs.UniverseProofs Proofs.FrameProofs Proofs.EffectSums
  Proofs.TablesProofs Proofs.EvolveProofs.
Import ListNotations.
Open Scope R_scope.

(** ** The table of one body *)
Definition follows (t : R) (e0 e : evolver R) : Prop := (exists n, e = set_ev_left n e0) /\ forall t', t <= t' -> in_sync e t'.
Lemma follows_later t t' e0 e : t <= t' -> follows t e0 e -> follows t' e0 e.
Proof. intros L (A & B). split; [exact A|]. intros s Ls. apply B. lra. Qed.
Lemma follows_fresh e : ev_left e = 0%nat -> forall t, follows t e e.
Proof. intros L t. split; [exists 0%nat; destruct e; cbn in *; subst; reflexivity|]. intros t' _ i _. unfold ev_idx. rewrite L. cbn. lia. Qed.
Lemma get_follows e0 e t q t' c v e' : well_tabulated e0 -> follows t e0 e -> t <= t' -> get e q t' c = Ok (v, e') ->
  follows t' e0 e' /\ expected e0 (q, t', c) v.
Proof.
  intros W ((n & ->) & S) L E. assert (W' : well_tabulated (set_ev_left n e0)) by (apply well_set; exact W).
  destruct (get_spec (set_ev_left n e0) q t' c W' (S t' L)) as (v' & e1 & E1 & X & S1 & k & Ek).
  rewrite E in E1. injection E1 as <- <-. split; [|apply expected_set in X; exact X].
  destruct (tabulates (ev_type e0) QRadius) eqn:T.
  - subst e'. split; [exists k; destruct e0; reflexivity|]. destruct (W QRadius T) as (NE & _ & I).
    intros s Ls. apply (in_sync_mono _ t' s); [exact I|exact NE|exact Ls|exact S1].
  - assert (N : ev_type (set_ev_left n e0) = NonEvolving) by (destruct e0 as [[m|m|m|m|m|[|]|] ? ? ? ? ? ?]; cbn in T |- *; congruence).
    assert (e' = set_ev_left n e0).
    { destruct q; cbn [get] in E; unfold evolver_radius, evolver_rg2, evolver_love, evolver_invq in E; rewrite N in E; cbn in E; injection E as _ <-; reflexivity. }
    subst e'. split; [exists n; rewrite H; reflexivity|]. intros s Ls. rewrite H. apply S. lra.
Qed.
Lemma non_spin_follows e0 e t t' (p p' : particle R) e' : well_tabulated e0 -> follows t e0 e -> t <= t' ->
  evolve_non_spin t' (p, e) = Ok (p', e') ->
  follows t' e0 e' /\ expected e0 (QRadius, t', p_radius p) (p_radius p') /\ expected e0 (QGyration, t', p_rg2 p) (p_rg2 p').
Proof.
  intros W Fo L E. unfold evolve_non_spin in E.
  destruct (evolver_radius e t' (p_radius p)) as [[nr e1]|] eqn:E1; cbn [rbind] in E; [|discriminate E].
  destruct (get_follows e0 e t QRadius t' _ nr e1 W Fo L E1) as (F1 & X1).
  destruct (evolver_rg2 e1 t' (p_rg2 p)) as [[ng e2]|] eqn:E2; cbn [rbind] in E; [|discriminate E].
  destruct (get_follows e0 e1 t' QGyration t' _ ng e2 W F1 (Rle_refl _) E2) as (F2 & X2).
  set (p1 := if negb (nr =? p_radius p)%num || negb (ng =? p_rg2 p)%num then _ else p) in E.
  assert (S : p_radius p1 = nr /\ p_rg2 p1 = ng).
  { unfold p1. cbn [neqb NumR]. destruct (Reqb nr (p_radius p)) eqn:A; [|split; reflexivity]. destruct (Reqb ng (p_rg2 p)) eqn:B; [|split; reflexivity].
    apply Reqb_true in A, B. cbn. auto. }
  destruct S as [S1 S2].
  assert (K : p' = p1 /\ follows t' e0 e').
  { assert (LV : forall q, (do r3 <- evolver_love e2 t' (ctl_love q); let '(_, e3) := r3 in Ok (p1, e3)) = Ok (p', e') -> p' = p1 /\ follows t' e0 e').
    { intros q Eq. destruct (evolver_love e2 t' (ctl_love q)) as [[lv e3]|] eqn:E3; cbn [rbind] in Eq; [|discriminate Eq]. injection Eq as <- <-. split; [reflexivity|].
      exact (proj1 (get_follows e0 e2 t' QLove t' _ lv e3 W F2 (Rle_refl _) E3)). }
    clearbody p1. destruct (t_effect (p_tides p1)) as [[q|q|q]|[q|q|q]|] ; try (injection E as <- <-; split; [reflexivity|exact F2]); exact (LV q E). }
  destruct K as [-> K]. rewrite S1, S2. auto.
Qed.
Lemma spin_follows e0 e s t t' (p p' : particle R) e' : well_tabulated e0 -> follows t e0 e -> t <= t' ->
  evolve_spin s t' (p, e) = Ok (p', e') -> follows t' e0 e' /\ p_radius p' = p_radius p /\ p_rg2 p' = p_rg2 p.
Proof.
  intros W Fo L E. pose proof (evolve_spin_keeps _ _ _ _ _ _ E) as (_ & _ & K1 & K2 & _). split; [|auto].
  unfold evolve_spin in E. destruct (dynamical_tide (ev_type e)).
  - destruct (evolver_invq e t' n0) as [[q e1]|] eqn:E1; cbn [rbind] in E; [|discriminate E]. injection E as _ <-.
    exact (proj1 (get_follows e0 e t QInvQ t' _ q e1 W Fo L E1)).
  - injection E as _ <-. exact (follows_later t t' e0 e L Fo).
Qed.

(** ** All bodies *)
Lemma rzip_second {A B C} (P Q : C -> B -> Prop) (f : A * B -> res (A * B)) :
  (forall z x y x' y', P z y -> f (x, y) = Ok (x', y') -> Q z y') -> (forall z y, P z y -> Q z y) ->
  forall zs xs ys xs' ys', Forall2 P zs ys -> rzip f xs ys = Ok (xs', ys') -> Forall2 Q zs ys'.
Proof.
  intros Hf Hpq zs xs. revert zs. induction xs as [|x xs IH]; intros zs ys xs' ys' HP E.
  - destruct ys; cbn [rzip] in E; injection E as _ <-; exact (Forall2_imp _ _ _ _ Hpq HP).
  - destruct HP as [|z y zs ys Hz HP]; cbn [rzip] in E; [injection E as _ <-; constructor|].
    destruct (f (x, y)) as [[x1 y1]|] eqn:E1; cbn [rbind] in E; [|discriminate E].
    destruct (rzip f xs ys) as [[xs1 ys1]|] eqn:E2; cbn [rbind fst snd] in E; [|discriminate E]. injection E as _ <-.
    constructor; [exact (Hf _ _ _ _ _ Hz E1)|exact (IH zs ys xs1 ys1 HP E2)].
Qed.
Lemma rzip_nth {A B} (f : A * B -> res (A * B)) xs : forall ys xs' ys', rzip f xs ys = Ok (xs', ys') ->
  forall i x' y, nth_error xs' i = Some x' -> nth_error ys i = Some y -> exists x y', nth_error xs i = Some x /\ nth_error ys' i = Some y' /\ f (x, y) = Ok (x', y').
Proof.
  induction xs as [|x xs IH]; intros ys xs' ys' E i x' y Hx Hy.
  - destruct ys; cbn [rzip] in E; injection E as <- <-; destruct i; discriminate Hx.
  - destruct ys as [|y0 ys]; [destruct i; discriminate Hy|]. cbn [rzip] in E.
    destruct (f (x, y0)) as [[x1 y1]|] eqn:E1; cbn [rbind] in E; [|discriminate E].
    destruct (rzip f xs ys) as [[xs1 ys1]|] eqn:E2; cbn [rbind fst snd] in E; [|discriminate E]. injection E as <- <-.
    destruct i as [|i]; cbn [nth_error] in Hx, Hy |- *.
    + injection Hx as <-. injection Hy as <-. exists x, y1. auto.
    + exact (IH ys xs1 ys1 E2 i x' y Hx Hy).
Qed.
Lemma Forall2_nth {A B} (P : A -> B -> Prop) l l' i a : Forall2 P l l' -> nth_error l i = Some a -> exists b, nth_error l' i = Some b /\ P a b.
Proof.
  intros Fa. revert i. induction Fa as [|x y l l' Hxy _ IH]; intros [|i] E; cbn [nth_error] in *; try discriminate E; [|exact (IH i E)].
  injection E as <-. exists y. auto.
Qed.
Lemma map_nth_back {A B} (c : A -> B) l l' i a' : map c l' = map c l -> nth_error l' i = Some a' -> exists a, nth_error l i = Some a /\ c a' = c a.
Proof.
  intros E Hi. apply (map_nth_error c) in Hi. rewrite E, nth_error_map in Hi. destruct (nth_error l i) as [a|]; [|discriminate Hi].
  injection Hi as Hi. exists a. auto.
Qed.

Section Sim.
  Context `{Trans R} `{Floor R} `{Fuel}.
  Ltac blinds := unfold blind, blind_effects, blind_tides, blind_rf, blind_gr, blind_disk, blind_wind, blind_spin, blind_evolution,
    blind_iadd, blind_dL; repeat split; intros; try reflexivity; try congruence.
  Variable tables : list (evolver R).

  Definition on_track (t : R) (u : universe R) : Prop := e_evolution (u_effects u) = true /\ Forall2 (fun e0 e => well_tabulated e0 /\ follows t e0 e) tables (u_evolvers u).
  Lemma track_later t t' u : t <= t' -> on_track t u -> on_track t' u.
  Proof. intros L (A & B). split; [exact A|]. refine (Forall2_imp _ _ _ _ _ B). intros a b (W & Fo). split; [exact W|exact (follows_later t t' a b L Fo)]. Qed.
  Lemma track_same t (u u' : universe R) : u_evolvers u' = u_evolvers u -> u_effects u' = u_effects u -> on_track t u -> on_track t u'.
  Proof. unfold on_track. intros -> ->. auto. Qed.

  Lemma refresh_size i (p p' : particle R) : refresh_spin (i, p) = Ok p' -> (p_radius p', p_rg2 p') = (p_radius p, p_rg2 p).
  Proof. unfold refresh_spin. destruct (neqb _ _); [intro X; discriminate X|]. intro X. injection X as <-. reflexivity. Qed.
  Lemma spin_track t t' u u' : on_track t u -> t <= t' -> spin_and_evolving t' true u = Ok u' ->
    on_track t' u' /\ forall i e0 p', nth_error tables i = Some e0 -> nth_error (u_particles u') i = Some p' -> has_size_of e0 t' p'.
  Proof.
    intros (A & B) L. unfold spin_and_evolving. rewrite A. cbn [andb].
    destruct (rzip (evolve_non_spin t') (u_particles u) (u_evolvers u)) as [[l1 e1]|] eqn:E1; [|intro X; discriminate X]. cbn [rbind fst snd].
    destruct (rmapi refresh_spin l1) as [l2|] eqn:E2; [|intro X; discriminate X]. cbn [rbind].
    destruct (rzip (evolve_spin SUN_DYN_FREQ_2 t') l2 e1) as [[l3 e3]|] eqn:E3; [|intro X; discriminate X]. cbn [rbind fst snd].
    intro X. injection X as <-.
    assert (B1 : Forall2 (fun e0 e => well_tabulated e0 /\ follows t' e0 e) tables e1).
    { refine (rzip_second _ _ _ _ _ _ _ _ _ _ B E1).
      - intros z x y x' y' (W & Fo) E. split; [exact W|exact (proj1 (non_spin_follows z y t t' x x' y' W Fo L E))].
      - intros z y (W & Fo). split; [exact W|exact (follows_later t t' z y L Fo)]. }
    assert (B3 : Forall2 (fun e0 e => well_tabulated e0 /\ follows t' e0 e) tables e3).
    { refine (rzip_second _ _ _ _ _ _ _ _ _ _ B1 E3).
      - intros z x y x' y' (W & Fo) E. split; [exact W|exact (proj1 (spin_follows z y _ t' t' x x' y' W Fo (Rle_refl _) E))].
      - auto. }
    split; [split; [exact A|exact B3]|]. intros i e0 p' He Hp. cbn [u_particles set_evolvers set_particles] in Hp.
    destruct (Forall2_nth _ _ _ _ _ B1 He) as (y1 & Hy1 & W & F1).
    destruct (rzip_nth _ _ _ _ _ E3 i p' y1 Hp Hy1) as (p2 & y3 & Hp2 & _ & S3).
    destruct (spin_follows e0 y1 _ t' t' p2 p' y3 W F1 (Rle_refl _) S3) as (_ & R3 & G3).
    pose proof (rmapi_same (fun p : particle R => (p_radius p, p_rg2 p)) _ _ _ refresh_size E2) as E2'.
    destruct (map_nth_back _ _ _ _ _ E2' Hp2) as (p1 & Hp1 & E12). injection E12 as R2 G2.
    destruct (Forall2_nth _ _ _ _ _ B He) as (y0 & Hy0 & _ & F0).
    destruct (rzip_nth _ _ _ _ _ E1 i p1 y0 Hp1 Hy0) as (p0 & y1' & _ & _ & S1).
    destruct (non_spin_follows e0 y0 t t' p0 p1 y1' W F0 L S1) as (_ & X1 & X2).
    unfold has_size_of, expected in *. rewrite R3, R2, G3, G2. split; intros T; rewrite T in *; assumption.
  Qed.

  Lemma effects_evolvers t ev dL acc ig u u' : additional_effects t ev dL acc ig u = Ok u' ->
    exists u1 u2, u_evolvers u1 = u_evolvers u /\ u_effects u1 = u_effects u /\ spin_and_evolving t ev u1 = Ok u2 /\ u_evolvers u' = u_evolvers u2 /\ u_effects u' = u_effects u2.
  Proof.
    unfold additional_effects. rewrite initialize_eq. destruct (init_list dL acc u) as [l0|] eqn:E1; [|intro X; discriminate X]. cbn [rbind].
    set (u1 := set_particles _ u). destruct (spin_and_evolving t ev u1) as [u2|] eqn:E2; [|intro X; discriminate X]. cbn [rbind].
    set (u3 := if dL && _ then _ else u2).
    assert (R3 : u_evolvers u3 = u_evolvers u2 /\ u_effects u3 = u_effects u2) by (unfold u3; destruct (dL && _); split; reflexivity).
    destruct (tidal_effects dL acc u3) as [u4|] eqn:E4; [|intro X; discriminate X]. cbn [rbind].
    assert (R4 : u_evolvers u4 = u_evolvers u3 /\ u_effects u4 = u_effects u3).
    { unfold tidal_effects in E4. destruct (e_tides (u_effects u3) || e_rf (u_effects u3)); [|injection E4 as <-; auto]. cbv zeta in E4.
      destruct (with_host _ _ _) as [l|]; cbn [rbind] in E4; [|discriminate E4]. injection E4 as <-. split; reflexivity. }
    destruct (if acc && e_gr _ then _ else _) as [l5|] eqn:E5; [|intro X; discriminate X]. cbn [rbind].
    destruct (if acc && e_disk _ then _ else _) as [l6|] eqn:E6; [|intro X; discriminate X]. cbn [rbind].
    intro X. injection X as <-. exists u1, u2. cbn [u_evolvers u_effects set_particles]. destruct R3, R4.
    repeat split; try exact E2; congruence.
  Qed.
  Lemma effects_track t t' dL acc ig u u' : on_track t u -> t <= t' -> additional_effects t' true dL acc ig u = Ok u' -> on_track t' u'.
  Proof.
    intros T L E. destruct (effects_evolvers _ _ _ _ _ _ _ E) as (u1 & u2 & A1 & A2 & E2 & A3 & A4).
    destruct (spin_track t t' u1 u2 (track_same _ _ _ A1 A2 T) L E2) as [T2 _]. exact (track_same _ _ _ A3 A4 T2).
  Qed.
  Lemma i2h_evolvers (u u' : universe R) : inertial_to_heliocentric u = Ok u' -> u_evolvers u' = u_evolvers u /\ u_effects u' = u_effects u.
  Proof. unfold inertial_to_heliocentric. destruct (with_host _ _ _); cbn [rbind]; [|intro X; discriminate X]. intro X. injection X as <-. split; reflexivity. Qed.
  Lemma step_track t dt half u u' : 0 <= half -> on_track t u -> lf_step t dt half u = Ok u' -> on_track (t + half + half) u'.
  Proof.
    intros Hh T E. unfold lf_step in E.
    destruct (inertial_to_heliocentric u) as [u1|] eqn:E1; [|discriminate E]. cbn [rbind] in E. apply i2h_evolvers in E1. destruct E1 as [A1 B1].
    apply (track_same t u u1 A1 B1) in T.
    destruct (additional_effects t _ _ _ _ u1) as [u2|] eqn:E2; [|discriminate E]. cbn [rbind] in E.
    apply (effects_track t t) in E2; [|exact T|lra].
    destruct (gravity _ _) as [u3|] eqn:E3; [|discriminate E]. cbn [rbind] in E. apply gravity_inv in E3. destruct E3 as (accs & _ & ->).
    match type of E with context [inertial_to_heliocentric ?v] => set (u3 := v) in E end.
    assert (T3 : on_track t u3) by exact (track_same t u2 u3 eq_refl eq_refl E2). clearbody u3.
    destruct (inertial_to_heliocentric u3) as [u4|] eqn:E4; [|discriminate E]. cbn [rbind] in E. apply i2h_evolvers in E4. destruct E4 as [A4 B4].
    apply (track_same t u3 u4 A4 B4) in T3.
    destruct (additional_effects _ _ _ _ _ u4) as [u5|] eqn:E5; [|discriminate E]. cbn [rbind] in E.
    apply (effects_track t) in E5; [|exact T3|cbn [nadd NumR]; lra]. injection E as <-.
    apply (track_later (t + half)); [lra|]. exact (track_same _ u5 _ eq_refl eq_refl E5).
  Qed.
  Lemma denergy_view {B} (c : particle R -> B) (u u' : universe R) : blind_tides c -> denergy_dt u = Ok u' ->
    map c (u_particles u') = map c (u_particles u) /\ u_evolvers u' = u_evolvers u /\ u_effects u' = u_effects u.
  Proof.
    intros Hc. unfold denergy_dt. destruct (with_host _ _ _) as [l|] eqn:E; cbn [rbind]; [|intro X; discriminate X]. intro X. injection X as <-.
    split; [|split; reflexivity]. cbn [u_particles set_particles]. apply (with_host_frame c) in E; [exact E|].
    intros host o r [= <-]. split; [reflexivity|]. apply k_tides_denergy. exact Hc.
  Qed.
  Lemma output_track t u u' : on_track t u -> refresh_for_output t u = Ok u' ->
    on_track t u' /\ forall i e0 p', nth_error tables i = Some e0 -> nth_error (u_particles u') i = Some p' -> has_size_of e0 t p'.
  Proof.
    intros T E. unfold refresh_for_output in E.
    destruct (inertial_to_heliocentric u) as [u1|] eqn:E1; [|discriminate E]. cbn [rbind] in E. apply i2h_evolvers in E1. destruct E1 as [A1 B1].
    apply (track_same t u u1 A1 B1) in T.
    destruct (spin_and_evolving t true u1) as [u2|] eqn:E2; [|discriminate E]. cbn [rbind] in E.
    destruct (spin_track t t u1 u2 T (Rle_refl _) E2) as [T2 S2].
    destruct (e_tides (u_effects u2)); [|injection E as <-; auto].
    apply (denergy_view (fun p => (p_radius p, p_rg2 p))) in E; [|blinds]. destruct E as (V & A & B).
    split; [exact (track_same _ _ _ A B T2)|]. intros i e0 p' He Hp.
    destruct (map_nth_back _ _ _ _ _ V Hp) as (p2 & Hp2 & E22). injection E22 as R2 G2.
    pose proof (S2 i e0 p2 He Hp2) as S. unfold has_size_of in *. rewrite R2, G2. exact S.
  Qed.
  Lemma initialize_inv t (u u' : universe R) : initialize_physical_values t u = Ok u' -> exists v, spin_and_evolving t true u = Ok v /\ u' = calculate_roche v.
  Proof.
    unfold initialize_physical_values. destruct (negb _); [intro X; discriminate X|]. destruct (spin_and_evolving t true u) as [v|]; [|intro X; discriminate X].
    cbn [rbind]. intro X. injection X as <-. exists v. auto.
  Qed.
  Lemma simulated_track dt half t u T u' : 0 <= half -> on_track t u -> simulated dt half t u T u' -> on_track T u'.
  Proof.
    intros Hh Tu S. induction S as [|t1 u1 u2 S IH E|t1 u1 u2 S IH E|t1 u1 u2 S IH E]; [exact Tu| | |].
    - destruct (initialize_inv _ _ _ E) as (v & Ev & ->). exact (proj1 (spin_track t1 t1 u1 v IH (Rle_refl _) Ev)).
    - exact (step_track t1 dt half u1 u2 Hh IH E).
    - exact (proj1 (output_track t1 u1 u2 IH E)).
  Qed.
End Sim.

(** ** The rotation at an output *)
Section Rotation.
  Context `{Trans R} `{Floor R} `{Fuel}.
  Ltac blinds := unfold blind, blind_effects, blind_tides, blind_rf, blind_gr, blind_disk, blind_wind, blind_spin, blind_evolution,
    blind_iadd, blind_dL; repeat split; intros; try reflexivity; try congruence.
  Definition full_view (p : particle R) := (size_view p, p_spin p, p_L p, p_spin2 p).
  Definition full_ok (v : (R * R * R * R) * vec R * vec R * R) : Prop := let '(s, w, L, w2) := v in
    (let '(i, _, _, _) := s in vscale i w = L /\ w2 = norm2 w) /\ sized_ok s.
  Lemma output_spins t (u u' : universe R) : Forall inertia_ok (u_particles u) -> refresh_for_output t u = Ok u' ->
    Forall (fun p => spin_ok p /\ inertia_ok p) (u_particles u').
  Proof.
    intros I E. unfold refresh_for_output in E.
    destruct (inertial_to_heliocentric u) as [u1|] eqn:E1; [|discriminate E]. cbn [rbind] in E.
    apply (i2h_view size_view) in E1; [|reflexivity|reflexivity].
    apply (forall_view size_view sized_ok) in E1; [|exact I].
    destruct (spin_and_evolving t true u1) as [u2|] eqn:E2; [|discriminate E]. cbn [rbind] in E.
    apply spins_refreshed in E2; [|exact E1].
    destruct (e_tides (u_effects u2)); [|injection E as <-; exact E2].
    apply (denergy_view full_view) in E; [|blinds]. destruct E as (V & _).
    change (Forall (fun p => full_ok (full_view p)) (u_particles u2)) in E2.
    change (Forall (fun p => full_ok (full_view p)) (u_particles u')).
    revert E2. apply forall_view. exact V.
  Qed.
  Lemma simulated_inertia dt half t u T u' : Forall inertia_ok (u_particles u) -> simulated dt half t u T u' -> Forall inertia_ok (u_particles u').
  Proof.
    intros I S. induction S as [|t1 u1 u2 S IH E|t1 u1 u2 S IH E|t1 u1 u2 S IH E]; [exact I| | |].
    - destruct (initialize_inv _ _ _ E) as (v & Ev & ->). apply spins_refreshed in Ev; [|exact IH]. eapply Forall_impl; [|exact Ev]. intros p (_ & X). exact X.
    - apply (leapfrog_inertia 1 t1 dt half u1 u2 IH). cbn [lf_steps]. rewrite E. reflexivity.
    - apply output_spins in E; [|exact IH]. eapply Forall_impl; [|exact E]. intros p (_ & X). exact X.
  Qed.

  (** no torque: the angular momenta stay *)
  Definition L_view (p : particle R) := (p_mass p, p_L p, p_dL p).
  Definition rest_dL (p : particle R) : Prop := p_dL p = vzero.
  Definition untorqued (u : universe R) : Prop := torques_on (u_effects u) (u_gr u) = false.
  (** every body of the second list is the body of the first at the same place, as far as [c] sees *)
  Definition from {B} (c : particle R -> B) (l l' : list (particle R)) : Prop :=
    forall i p', nth_error l' i = Some p' -> exists p, nth_error l i = Some p /\ c p' = c p.
  Lemma from_map {B} (c : particle R -> B) l l' : map c l' = map c l -> from c l l'.
  Proof. intros E i p' Hi. exact (map_nth_back c l l' i p' E Hi). Qed.
  Lemma from_trans {B} (c : particle R -> B) l1 l2 l3 : from c l1 l2 -> from c l2 l3 -> from c l1 l3.
  Proof. intros A D i p' Hi. destruct (D i p' Hi) as (p2 & H2 & E2). destruct (A i p2 H2) as (p1 & H1' & E1). exists p1. split; [exact H1'|congruence]. Qed.
  Lemma from_forall l l' : from L_view l l' -> Forall rest_dL l -> Forall rest_dL l'.
  Proof.
    intros A Z. apply Forall_forall. intros p' Hin. apply In_nth_error in Hin. destruct Hin as [i Hi]. destruct (A i p' Hi) as (p & Hp & E).
    apply nth_error_In in Hp. rewrite Forall_forall in Z. specialize (Z p Hp). unfold rest_dL, L_view in *. congruence.
  Qed.
  Lemma from_gravity l (accs : list (vec R)) : from L_view l (map (fun pa => set_p_iacc (snd pa) (fst pa)) (combine l accs)).
  Proof.
    intros i p'. revert accs i. induction l as [|p l IH]; intros [|a accs] [|i] E; cbn [combine map nth_error] in *; try discriminate E; [|exact (IH accs i E)].
    injection E as <-. exists p. split; reflexivity.
  Qed.
  Lemma drift_L half (p : particle R) : rest_dL p -> L_view (lf_drift half p) = L_view p.
  Proof.
    intros Z. unfold L_view, rest_dL in *. destruct p; cbn in *. subst. f_equal. f_equal. apply vec_eq; cbn; ring.
  Qed.
  Lemma from_drift half f l : (forall p, L_view (f p) = L_view p) -> Forall rest_dL l -> from L_view l (map (fun p => lf_drift half (f p)) l).
  Proof.
    intros Hf Z. apply from_map. rewrite map_map. apply map_ext_in. intros p Hin. rewrite Forall_forall in Z. specialize (Z p Hin).
    rewrite drift_L; [apply Hf|]. specialize (Hf p). unfold rest_dL, L_view in *. congruence.
  Qed.
  Lemma effects_L t acc v v' : untorqued v -> additional_effects t true true acc IgnoreNone v = Ok v' ->
    from L_view (u_particles v) (u_particles v') /\ untorqued v'.
  Proof.
    intros Q E. destruct (evaluation _ _ _ _ _ _ _ E) as (l0 & u1 & u2 & l & E0 & -> & E2 & El & Rs & Ep).
    split; [|unfold untorqued in *; destruct Rs as (-> & _ & -> & _); exact Q].
    unfold untorqued in Q. cbv zeta in Ep. rewrite Q, andb_false_r in Ep. apply from_map. rewrite Ep.
    apply (init_list_frame L_view) in E0; [|blinds].
    apply (spin_frame L_view) in E2; [|blinds]. destruct E2 as [E2 _]. cbn [u_particles set_particles] in E2.
    assert (El' := El _ L_view ltac:(blinds)).
    transitivity (map L_view l).
    - destruct acc; [|reflexivity]. apply map_same. apply sums_kept. blinds.
    - rewrite El', E2. destruct acc; [|exact E0]. rewrite <- E0. apply map_same. reflexivity.
  Qed.
  Lemma i2h_L (u u' : universe R) : untorqued u -> inertial_to_heliocentric u = Ok u' -> from L_view (u_particles u) (u_particles u') /\ untorqued u'.
  Proof.
    intros Q E. destruct (i2h_rest _ _ E) as (A & B & _). unfold untorqued in *. rewrite A, B. split; [|exact Q].
    apply from_map. apply (i2h_view L_view) in E; [exact E|reflexivity|reflexivity].
  Qed.
  Lemma step_L t dt half u u' : untorqued u -> Forall rest_dL (u_particles u) -> lf_step t dt half u = Ok u' ->
    from L_view (u_particles u) (u_particles u') /\ untorqued u'.
  Proof.
    intros Q Z E. unfold lf_step in E.
    destruct (inertial_to_heliocentric u) as [u1|] eqn:E1; [|discriminate E]. cbn [rbind] in E.
    destruct (i2h_L _ _ Q E1) as [V1 Q1].
    destruct (additional_effects t _ _ _ _ u1) as [u2|] eqn:E2; [|discriminate E]. cbn [rbind] in E.
    destruct (effects_L _ _ _ _ Q1 E2) as [V2 Q2]. pose proof (from_trans _ _ _ _ V1 V2) as W2.
    assert (V3 : from L_view (u_particles u2) (u_particles (on_bodies (lf_drift half) u2))).
    { exact (from_drift half (fun p => p) _ (fun p => eq_refl) (from_forall _ _ W2 Z)). }
    pose proof (from_trans _ _ _ _ W2 V3) as W3.
    destruct (gravity _ _) as [u3|] eqn:E3; [|discriminate E]. cbn [rbind] in E. apply gravity_inv in E3. destruct E3 as (accs & _ & E3).
    assert (Q3 : untorqued u3) by (rewrite E3; exact Q2).
    assert (V4 : from L_view (u_particles (on_bodies (lf_drift half) u2)) (u_particles u3)) by (rewrite E3; apply from_gravity).
    pose proof (from_trans _ _ _ _ W3 V4) as W4. clear E3.
    destruct (inertial_to_heliocentric u3) as [u4|] eqn:E4; [|discriminate E]. cbn [rbind] in E.
    destruct (i2h_L _ _ Q3 E4) as [V5 Q5]. pose proof (from_trans _ _ _ _ W4 V5) as W5.
    destruct (additional_effects _ _ _ _ _ u4) as [u5|] eqn:E5; [|discriminate E]. cbn [rbind] in E.
    destruct (effects_L _ _ _ _ Q5 E5) as [V6 Q6]. pose proof (from_trans _ _ _ _ W5 V6) as W6.
    injection E as <-. split; [|exact Q6]. apply (from_trans _ _ _ _ W6).
    assert (V7 : from L_view (u_particles u5) (u_particles (apply_corrections u5))) by (apply from_map; cbn [apply_corrections u_particles set_particles]; apply map_same; reflexivity).
    apply (from_trans _ _ _ _ V7). cbn [on_bodies u_particles set_particles].
    apply (from_drift half (lf_kick dt)); [reflexivity|]. exact (from_forall _ _ (from_trans _ _ _ _ W6 V7) Z).
  Qed.
  Lemma output_L t u u' : untorqued u -> refresh_for_output t u = Ok u' -> from L_view (u_particles u) (u_particles u') /\ untorqued u'.
  Proof.
    intros Q E. unfold refresh_for_output in E.
    destruct (inertial_to_heliocentric u) as [u1|] eqn:E1; [|discriminate E]. cbn [rbind] in E.
    destruct (i2h_L _ _ Q E1) as [V1 Q1].
    destruct (spin_and_evolving t true u1) as [u2|] eqn:E2; [|discriminate E]. cbn [rbind] in E.
    apply (spin_frame L_view) in E2; [|blinds]. destruct E2 as [E2 (A & _ & B & _)].
    assert (Q2 : untorqued u2) by (unfold untorqued in *; rewrite A, B; exact Q1).
    assert (T : e_tides (u_effects u2) = false).
    { unfold untorqued, torques_on in Q2. destruct (e_tides (u_effects u2)); [discriminate Q2|reflexivity]. }
    rewrite T in E. injection E as <-. split; [|exact Q2]. exact (from_trans _ _ _ _ V1 (from_map _ _ _ E2)).
  Qed.
  Lemma simulated_L dt half t u T u' : untorqued u -> Forall rest_dL (u_particles u) -> simulated dt half t u T u' ->
    from L_view (u_particles u) (u_particles u') /\ untorqued u'.
  Proof.
    intros Q Z S. induction S as [|t1 u1 u2 S [V IH] E|t1 u1 u2 S [V IH] E|t1 u1 u2 S [V IH] E].
    - split; [apply from_map; reflexivity|exact Q].
    - destruct (initialize_inv _ _ _ E) as (v & Ev & ->). apply (spin_frame L_view) in Ev; [|blinds]. destruct Ev as [Ev (A & _ & B & _)].
      split; [exact (from_trans _ _ _ _ V (from_map _ _ _ Ev))|]. unfold untorqued in *. change (torques_on (u_effects v) (u_gr v) = false). rewrite A, B. exact IH.
    - destruct (step_L t1 dt half u1 u2 IH (from_forall _ _ V Z) E) as [V2 Q2]. split; [exact (from_trans _ _ _ _ V V2)|exact Q2].
    - destruct (output_L t1 u1 u2 IH E) as [V2 Q2]. split; [exact (from_trans _ _ _ _ V V2)|exact Q2].
  Qed.
End Rotation.

(** ** What is not tabulated *)
Section Kept.
  Context `{Trans R} `{Floor R} `{Fuel}.
  Ltac blinds := unfold blind, blind_effects, blind_tides, blind_rf, blind_gr, blind_disk, blind_wind, blind_spin, blind_evolution,
    blind_iadd, blind_dL; repeat split; intros; try reflexivity; try congruence.
  Variable tables : list (evolver R).
  Definition sizes (p : particle R) := (p_radius p, p_rg2 p).
  Definition kept (l l' : list (particle R)) : Prop :=
    forall i e0 p', nth_error tables i = Some e0 -> nth_error l' i = Some p' -> exists p, nth_error l i = Some p /\ keeps_size_of e0 p p'.
  Lemma kept_from l l' : from sizes l l' -> kept l l'.
  Proof. intros A i e0 p' _ Hi. destruct (A i p' Hi) as (p & Hp & E). exists p. split; [exact Hp|]. injection E as E1 E2. split; auto. Qed.
  Lemma kept_trans l1 l2 l3 : kept l1 l2 -> kept l2 l3 -> kept l1 l3.
  Proof.
    intros A D i e0 p' He Hi. destruct (D i e0 p' He Hi) as (p2 & H2 & K1 & K2). destruct (A i e0 p2 He H2) as (p1 & H1' & J1 & J2).
    exists p1. split; [exact H1'|]. split; intros T; [rewrite (K1 T); exact (J1 T)|rewrite (K2 T); exact (J2 T)].
  Qed.
  Lemma spin_kept t t' u u' : on_track tables t u -> t <= t' -> spin_and_evolving t' true u = Ok u' -> kept (u_particles u) (u_particles u').
  Proof.
    intros (A & B) L. unfold spin_and_evolving. rewrite A. cbn [andb].
    destruct (rzip (evolve_non_spin t') (u_particles u) (u_evolvers u)) as [[l1 e1]|] eqn:E1; [|intro X; discriminate X]. cbn [rbind fst snd].
    destruct (rmapi refresh_spin l1) as [l2|] eqn:E2; [|intro X; discriminate X]. cbn [rbind].
    destruct (rzip (evolve_spin SUN_DYN_FREQ_2 t') l2 e1) as [[l3 e3]|] eqn:E3; [|intro X; discriminate X]. cbn [rbind fst snd].
    intro X. injection X as <-.
    assert (B1 : Forall2 (fun e0 e => well_tabulated e0 /\ follows t' e0 e) tables e1).
    { refine (rzip_second _ _ _ _ _ _ _ _ _ _ B E1).
      - intros z x y x' y' (W & Fo) E. split; [exact W|exact (proj1 (non_spin_follows z y t t' x x' y' W Fo L E))].
      - intros z y (W & Fo). split; [exact W|exact (follows_later t t' z y L Fo)]. }
    intros i e0 p' He Hp. cbn [u_particles set_evolvers set_particles] in Hp.
    destruct (Forall2_nth _ _ _ _ _ B1 He) as (y1 & Hy1 & W & F1).
    destruct (rzip_nth _ _ _ _ _ E3 i p' y1 Hp Hy1) as (p2 & y3 & Hp2 & _ & S3).
    destruct (spin_follows e0 y1 _ t' t' p2 p' y3 W F1 (Rle_refl _) S3) as (_ & R3 & G3).
    pose proof (rmapi_same (fun p : particle R => (p_radius p, p_rg2 p)) _ _ _ refresh_size E2) as E2'.
    destruct (map_nth_back _ _ _ _ _ E2' Hp2) as (p1 & Hp1 & E12). injection E12 as R2 G2.
    destruct (Forall2_nth _ _ _ _ _ B He) as (y0 & Hy0 & _ & F0).
    destruct (rzip_nth _ _ _ _ _ E1 i p1 y0 Hp1 Hy0) as (p0 & y1' & Hp0 & _ & S1).
    destruct (non_spin_follows e0 y0 t t' p0 p1 y1' W F0 L S1) as (_ & X1 & X2).
    exists p0. split; [exact Hp0|]. unfold keeps_size_of, expected in *. rewrite R3, R2, G3, G2. split; intros T; rewrite T in *; assumption.
  Qed.
  Lemma effects_kept t t' acc u u' : on_track tables t u -> t <= t' -> additional_effects t' true true acc IgnoreNone u = Ok u' -> kept (u_particles u) (u_particles u').
  Proof.
    intros T L E. destruct (evaluation _ _ _ _ _ _ _ E) as (l0 & u1 & u2 & l & E0 & Eu & E2 & El & Rs & Ep).
    assert (T1 : on_track tables t u1) by (subst u1; exact T).
    apply (spin_kept t t') in E2; [|exact T1|exact L]. apply (init_list_frame sizes) in E0; [|blinds].
    assert (El' := El _ sizes ltac:(blinds)).
    apply (kept_trans _ (u_particles u1)).
    - apply kept_from. apply from_map. subst u1. cbn [u_particles set_particles]. destruct acc; [|exact E0]. rewrite <- E0. apply map_same. reflexivity.
    - apply (kept_trans _ _ _ E2). apply kept_from. apply from_map. rewrite Ep, <- El'. cbn zeta. set (l1 := if true && _ then _ else l).
      transitivity (map sizes l1); [|unfold l1; destruct (true && _); [apply map_same; reflexivity|reflexivity]].
      destruct acc; [|reflexivity]. apply map_same. apply sums_kept. blinds.
  Qed.
  Lemma i2h_kept (u u' : universe R) : inertial_to_heliocentric u = Ok u' -> kept (u_particles u) (u_particles u').
  Proof. intros E. apply kept_from, from_map. apply (i2h_view sizes) in E; [exact E|reflexivity|reflexivity]. Qed.
  Lemma gravity_kept l (accs : list (vec R)) : kept l (map (fun pa => set_p_iacc (snd pa) (fst pa)) (combine l accs)).
  Proof.
    apply kept_from. intros i p'. revert accs i. induction l as [|p l IH]; intros [|a accs] [|i] E; cbn [combine map nth_error] in *; try discriminate E; [|exact (IH accs i E)].
    injection E as <-. exists p. split; reflexivity.
  Qed.
  Lemma step_kept t dt half u u' : 0 <= half -> on_track tables t u -> lf_step t dt half u = Ok u' -> kept (u_particles u) (u_particles u').
  Proof.
    intros Hh T E. unfold lf_step in E.
    destruct (inertial_to_heliocentric u) as [u1|] eqn:E1; [|discriminate E]. cbn [rbind] in E.
    pose proof (i2h_kept _ _ E1) as V1. apply i2h_evolvers in E1. destruct E1 as [A1 B1]. apply (track_same tables t u u1 A1 B1) in T.
    destruct (additional_effects t _ _ _ _ u1) as [u2|] eqn:E2; [|discriminate E]. cbn [rbind] in E.
    pose proof (effects_kept t t _ _ _ T (Rle_refl _) E2) as V2. apply (effects_track tables t t) in E2; [|exact T|lra].
    assert (V3 : kept (u_particles u2) (u_particles (on_bodies (lf_drift half) u2))) by (apply kept_from, from_map; cbn [on_bodies u_particles set_particles]; apply map_same; reflexivity).
    destruct (gravity _ _) as [u3|] eqn:E3; [|discriminate E]. cbn [rbind] in E. apply gravity_inv in E3. destruct E3 as (accs & _ & E3).
    assert (T3 : on_track tables t u3) by (rewrite E3; exact E2).
    assert (V4 : kept (u_particles (on_bodies (lf_drift half) u2)) (u_particles u3)) by (rewrite E3; apply gravity_kept). clear E3.
    destruct (inertial_to_heliocentric u3) as [u4|] eqn:E4; [|discriminate E]. cbn [rbind] in E.
    pose proof (i2h_kept _ _ E4) as V5. apply i2h_evolvers in E4. destruct E4 as [A4 B4]. apply (track_same tables t u3 u4 A4 B4) in T3.
    destruct (additional_effects _ _ _ _ _ u4) as [u5|] eqn:E5; [|discriminate E]. cbn [rbind] in E.
    apply (effects_kept t) in E5; [|exact T3|cbn [nadd NumR]; lra]. injection E as <-.
    apply (kept_trans _ _ _ V1), (kept_trans _ _ _ V2), (kept_trans _ _ _ V3), (kept_trans _ _ _ V4), (kept_trans _ _ _ V5), (kept_trans _ _ _ E5).
    apply kept_from, from_map. cbn [on_bodies apply_corrections u_particles set_particles]. rewrite !map_map. apply map_ext. reflexivity.
  Qed.
  Lemma output_kept t u u' : on_track tables t u -> refresh_for_output t u = Ok u' -> kept (u_particles u) (u_particles u').
  Proof.
    intros T E. unfold refresh_for_output in E.
    destruct (inertial_to_heliocentric u) as [u1|] eqn:E1; [|discriminate E]. cbn [rbind] in E.
    pose proof (i2h_kept _ _ E1) as V1. apply i2h_evolvers in E1. destruct E1 as [A1 B1]. apply (track_same tables t u u1 A1 B1) in T.
    destruct (spin_and_evolving t true u1) as [u2|] eqn:E2; [|discriminate E]. cbn [rbind] in E.
    apply (spin_kept t t) in E2; [|exact T|lra]. apply (kept_trans _ _ _ V1).
    destruct (e_tides (u_effects u2)); [|injection E as <-; exact E2].
    apply (denergy_view sizes) in E; [|blinds]. destruct E as (V & _). exact (kept_trans _ _ _ E2 (kept_from _ _ (from_map _ _ _ V))).
  Qed.
  Lemma simulated_kept dt half t u T u' : 0 <= half -> on_track tables t u -> simulated dt half t u T u' -> kept (u_particles u) (u_particles u').
  Proof.
    intros Hh Tu S. induction S as [|t1 u1 u2 S IH E|t1 u1 u2 S IH E|t1 u1 u2 S IH E].
    - apply kept_from, from_map. reflexivity.
    - destruct (initialize_inv _ _ _ E) as (v & Ev & ->).
      exact (kept_trans _ _ _ IH (spin_kept t1 t1 u1 v (simulated_track tables dt half t u t1 u1 Hh Tu S) (Rle_refl _) Ev)).
    - exact (kept_trans _ _ _ IH (step_kept t1 dt half u1 u2 Hh (simulated_track tables dt half t u t1 u1 Hh Tu S) E)).
    - exact (kept_trans _ _ _ IH (output_kept t1 u1 u2 (simulated_track tables dt half t u t1 u1 Hh Tu S) E)).
  Qed.
End Kept.

(** ** Together *)
Section Together.
  Context `{Trans R} `{Floor R} `{Fuel}.
  Lemma evolving_track t u : evolving u -> on_track (u_evolvers u) t u.
  Proof.
    intros (A & B). split; [exact A|]. induction B as [|e l (W & L) _ IH]; constructor; [|exact IH]. split; [exact W|]. apply follows_fresh. exact L.
  Qed.
  Lemma no_torques_iff (u : universe R) : no_torques u -> untorqued u.
  Proof.
    intros (A & B & C & D). unfold untorqued, torques_on. rewrite A, B, C. destruct (e_gr (u_effects u)); [|reflexivity].
    cbn [orb andb]. specialize (D eq_refl). destruct (u_gr u); cbn; try reflexivity. now elim D.
  Qed.
  Theorem output_sizes dt half t u T u1 u2 i e p : evolving u -> 0 <= half -> simulated dt half t u T u1 -> refresh_for_output T u1 = Ok u2 ->
    nth_error (u_evolvers u) i = Some e -> nth_error (u_particles u2) i = Some p ->
    has_size_of e T p /\ exists p0, nth_error (u_particles u) i = Some p0 /\ keeps_size_of e p0 p.
  Proof.
    intros Ev Hh S E He Hp. pose proof (evolving_track t u Ev) as Tu. pose proof (simulated_track _ _ _ _ _ _ _ Hh Tu S) as T1. split.
    - exact (proj2 (output_track _ _ _ _ T1 E) i e p He Hp).
    - exact (kept_trans _ _ _ _ (simulated_kept _ _ _ _ _ _ _ Hh Tu S) (output_kept _ _ _ _ T1 E) i e p He Hp).
  Qed.
  Theorem output_rotation dt half t u T u1 u2 : Forall inertia_ok (u_particles u) -> simulated dt half t u T u1 -> refresh_for_output T u1 = Ok u2 ->
    Forall (fun p => vscale (moment p) (p_spin p) = p_L p) (u_particles u2).
  Proof.
    intros I S E. apply simulated_inertia in S; [|exact I]. apply output_spins in E; [|exact S]. eapply Forall_impl; [|exact E].
    intros p ((A & _) & B). unfold inertia_ok in B. unfold moment. rewrite <- B. exact A.
  Qed.
  Theorem output_momentum dt half t u T u1 u2 i p : no_torques u -> Forall (fun p => p_dL p = vzero) (u_particles u) ->
    simulated dt half t u T u1 -> refresh_for_output T u1 = Ok u2 -> nth_error (u_particles u2) i = Some p ->
    exists p0, nth_error (u_particles u) i = Some p0 /\ p_L p = p_L p0 /\ p_mass p = p_mass p0.
  Proof.
    intros Q Z S E Hp. apply no_torques_iff in Q. destruct (simulated_L _ _ _ _ _ _ Q Z S) as [V Q1]. destruct (output_L _ _ _ Q1 E) as [V2 _].
    destruct (from_trans _ _ _ _ V V2 i p Hp) as (p0 & Hp0 & X). exists p0. split; [exact Hp0|]. unfold L_view in X. injection X as X1 X2 X3. auto.
  Qed.
  Theorem output_spin_up dt half t u T u1 u2 i p : no_torques u -> Forall (fun p => p_dL p = vzero) (u_particles u) ->
    Forall (fun p => inertia_ok p /\ spin_ok p /\ p_mass p <> 0) (u_particles u) ->
    simulated dt half t u T u1 -> refresh_for_output T u1 = Ok u2 -> nth_error (u_particles u2) i = Some p ->
    exists p0, nth_error (u_particles u) i = Some p0 /\
      vscale (p_rg2 p * (p_radius p * p_radius p)) (p_spin p) = vscale (p_rg2 p0 * (p_radius p0 * p_radius p0)) (p_spin p0).
  Proof.
    intros Q Z I S E Hp. destruct (output_momentum _ _ _ _ _ _ _ _ _ Q Z S E Hp) as (p0 & Hp0 & L & M). exists p0. split; [exact Hp0|].
    assert (I' : Forall inertia_ok (u_particles u)) by (eapply Forall_impl; [|exact I]; intros a (X & _); exact X).
    pose proof (output_rotation _ _ _ _ _ _ _ I' S E) as Ro. rewrite Forall_forall in Ro, I.
    specialize (Ro p (nth_error_In _ _ Hp)). destruct (I p0 (nth_error_In _ _ Hp0)) as (I0 & (S0 & _) & M0).
    rewrite L, <- S0 in Ro. unfold moment in Ro. unfold inertia_ok in I0. rewrite I0, M in Ro.
    destruct (p_spin p) as [x y z], (p_spin p0) as [x0 y0 z0]. unfold vscale in *. cbn [vx vy vz nmul NumR] in *. injection Ro as R1 R2 R3.
    apply vec_eq; cbn [vx vy vz nmul NumR]; apply (Rmult_eq_reg_l (p_mass p0)); try exact M0; nra.
  Qed.
End Together.
