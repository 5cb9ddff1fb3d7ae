(** * WHFast steps return (C64) *)
From Coq Require Import Reals List Bool Lra Lia Arith Permutation.
From Verif Require Import Base.Num Base.Result Base.Trans Base.Vec Model.Constants Model.Particle Model.Host
  Model.Creep Model.Relativity Model.Universe Model.WHFast
  Spec.EffectsSpec Spec.UniverseSpec Spec.WHFastSpec Spec.SplittingSpec Proofs.NumLemmas Proofs.VecLemmas Proofs.GravityProofs Proofs.LeapFrogProofs
  Proofs.FrameProofs Proofs.EffectSums Proofs.UniverseExamples Proofs.WHFastCoords Proofs.WHFastRun Proofs.WHFastStep Proofs.MidpointProofs Proofs.WHFastExamples
  Proofs.SplittingCoords Proofs.SplittingProofs Proofs.KeplerTotal.
Import ListNotations.
Open Scope R_scope.

Lemma settles_panic {A B} (f : Fuel -> res A) (g : Fuel -> A -> res B) p : settles f (Panic p) -> settles (fun i => rbind (f i) (g i)) (Panic p).
Proof. intros (N & E). exists N. intros n L. now rewrite E. Qed.

(** ** Without effects the fuel does not matter outside of the Kepler solver *)
Lemma midpoint_fuel (i j : Fuel) t dt spin ev ty err orig n : forall k final changes (u : universe R), quiet spin u ->
  midpoint (H2 := i) n k t dt spin ev ty err orig final changes u = midpoint (H2 := j) n k t dt spin ev ty err orig final changes u.
Proof.
  induction n as [|n IH]; intros k final changes u Q; cbn [midpoint]; [reflexivity|].
  destruct (inertial_to_heliocentric u) as [u1|] eqn:E1; [|reflexivity]. cbn [rbind].
  destruct (i2h_frame _ _ E1) as (F1 & _). pose proof (quiet_frame _ _ _ F1 Q) as Q1.
  rewrite !effects_quiet by exact Q1. destruct (rmapi refresh_spin _) as [l|]; [|reflexivity]. cbn [rbind].
  match goal with |- context [if ?b then _ else _] => destruct b end; [reflexivity|]. apply IH. exact Q1.
Qed.
Lemma velocity_dependent_fuel (i j : Fuel) t dt spin ev (w : whfast R) : quiet spin (w_u w) ->
  velocity_dependent (H2 := i) t dt spin ev w = velocity_dependent (H2 := j) t dt spin ev w.
Proof. intro Q. unfold velocity_dependent. cbn zeta. now rewrite (midpoint_fuel i j) by exact Q. Qed.
Lemma velocity_dependent_returns t dt spin ev (w : whfast R) : fit spin (w_u w) -> sized w ->
  exists w', (forall i, velocity_dependent (H2 := i) t dt spin ev w = Ok w') /\ fit spin (w_u w').
Proof.
  intros Hf Sz. destruct (velocity_dependent_ok (H1 := {| fuel := 0 |}) t dt spin ev w Hf Sz) as (w' & E & F'). exists w'. split; [|exact F'].
  intro i. rewrite <- E. apply velocity_dependent_fuel. apply Hf.
Qed.

(** ** The Kepler steps *)
Lemma kepler_walk_total mass keep mg dt (l : list (body R)) : 0 < dt -> 0 < mg ->
  (forall m a, 0 < m -> 0 <= a_mass_g a -> 0 < mass m a) -> (forall m a, 0 < m -> 0 <= a_mass_g a -> 0 < keep m a) ->
  Forall (fun b : body R => 0 <= a_mass_g (snd b)) l -> returns (fun i => kepler_walk (H2 := i) mass keep mg dt l).
Proof.
  intros T M Hm Hk. revert mg M. induction l as [|[p a] l IH]; intros mg M Fl; cbn [kepler_walk]; [apply returns_ret|].
  inversion Fl as [|? ? A Fl']; subst. cbn [snd] in A.
  apply returns_bind; [apply kepler_total; auto|]. intros a' _. apply returns_bind; [apply IH; auto|]. intros l' _. apply returns_ret.
Qed.
Lemma kepler_steps_total c dt (star : body R) (o : list (body R)) : 0 < dt -> 0 < p_mass_g (fst star) ->
  Forall (fun b : body R => 0 <= a_mass_g (snd b)) o -> returns (fun i => kepler_steps (H2 := i) c dt star o).
Proof.
  intros T M Fo. unfold kepler_steps. cbn zeta. apply returns_bind; [|intros r _; apply returns_ret].
  destruct c; apply kepler_walk_total; auto; intros; num_simpl; lra.
Qed.

Lemma G_positive : 0 < @G R _.
Proof. unfold G, G_MERCURY, G_SI, AU, M_SUN, DAY. num_simpl. repeat (apply Rmult_lt_0_compat || apply Rdiv_lt_0_compat); lra. Qed.

Section Step.
  Notation hid w := (h_most_massive (u_hosts (w_u w))).
  Notation parts w := (u_particles (w_u w)).
  Lemma with_bodies_returns (w : whfast R) (f : Fuel -> body R -> list (body R) -> res (body R * list (body R))) star :
    slots w -> nth_error (parts w) (hid w) = Some star ->
    (forall a, nth_error (w_alt w) (hid w) = Some a -> returns (fun i => f i (star, a) (combine (others (hid w) (parts w)) (others (hid w) (w_alt w))))) ->
    returns (fun i => with_bodies w (f i)).
  Proof.
    intros L N X.
    assert (Na : exists a, nth_error (w_alt w) (hid w) = Some a).
    { destruct (nth_error (w_alt w) (hid w)) as [a|] eqn:Na; [eauto|]. apply nth_error_None in Na.
      assert (Lh : (hid w < length (parts w))%nat) by (apply nth_error_Some; congruence). unfold slots in L. lia. }
    destruct Na as (a & Na). destruct (X a Na) as (r & M & E).
    exists (WH (set_particles (reassemble (hid w) (fst (fst r)) (map fst (snd r))) (w_u w))
              (reassemble (hid w) (snd (fst r)) (map snd (snd r))) (w_type w) (w_verr w) (w_Lerr w)), M.
    intros n Ln. destruct (with_bodies_ok w (f {| fuel := n |}) star a r L N Na (E n Ln)) as (w' & Ew). rewrite Ew. f_equal.
    destruct (with_bodies_inv w w' (f {| fuel := n |}) star L N Ew) as (a' & r' & Na' & Er & ->). rewrite Na in Na'. injection Na' as <-.
    rewrite (E n Ln) in Er. injection Er as <-. reflexivity.
  Qed.

  Lemma part1_returns half (w : whfast R) star : slots w -> nth_error (parts w) (hid w) = Some star ->
    usable (w_type w) star (except (hid w) (parts w)) -> masses_g (w_u w) -> positive (w_u w) -> 0 < half ->
    returns (fun i => part1 (H2 := i) half w).
  Proof.
    intros L N U Mg Ps T. unfold part1. apply (with_bodies_returns w _ star L N). intros a Na. cbn zeta. rewrite except_others in U.
    set (o := combine _ _).
    assert (Eo : map fst o = others (hid w) (parts w)) by (apply fst_combine_others; exact L).
    unfold masses_g, positive in *. rewrite Forall_forall in Mg, Ps. pose proof G_positive as Gp.
    assert (Is : In star (parts w)) by (eapply nth_error_In; exact N).
    assert (Io : forall b, In b o -> In (fst b) (parts w)).
    { intros b Hb. apply (in_map fst) in Hb. rewrite Eo in Hb. apply (except_in (hid w)). exact Hb. }
    destruct (good_alternative (w_type w) (star, a) o) as (g1 & I1).
    { cbn [fst]. now rewrite Eo. }
    { cbn [fst]. now apply Mg. }
    { rewrite Forall_forall. intros b Hb. apply Mg. now apply Io. }
    pose proof (alternative_coords (w_type w) (star, a) o) as (A1 & _). { cbn [fst]. now rewrite Eo. }
    destruct (to_alternative (w_type w) (star, a) o) as [s1 o1]. cbn [fst snd] in *.
    unfold of_bodies in A1. cbn [map fst snd] in A1. apply cons_eq in A1 as [B1 B2].
    apply returns_bind.
    - apply kepler_steps_total; [exact T| |].
      + rewrite B1, Mg by exact Is. specialize (Ps _ Is). nra.
      + destruct g1 as [_ _ _ Hs]. rewrite Forall_forall in *. intros b Hb. destruct (Hs b Hb) as (_ & ->).
        assert (Hp : 0 < p_mass (fst b)). { apply Ps. apply (in_map fst) in Hb. unfold body in *. rewrite B2 in Hb. rewrite in_map_iff in Hb. destruct Hb as (b' & <- & Hb'). now apply Io. }
        nra.
    - intros r _. destruct (jump _ _ _ _). apply returns_ret.
  Qed.

  Lemma part2_returns dt half (w : whfast R) star : slots w -> nth_error (parts w) (hid w) = Some star -> 0 < p_mass_g star ->
    Forall (fun a : alternative R => 0 <= a_mass_g a) (others (hid w) (w_alt w)) -> 0 < half ->
    returns (fun i => part2 (H2 := i) dt half w).
  Proof.
    intros L N Ps Fa T. unfold part2. apply (with_bodies_returns w _ star L N). intros a Na. cbn zeta. set (o := combine _ _).
    assert (Lo : length (others (hid w) (parts w)) = length (others (hid w) (w_alt w))).
    { assert (Lh : (hid w < length (parts w))%nat) by (apply nth_error_Some; congruence). unfold slots in L.
      pose proof (others_length (hid w) (parts w) Lh). pose proof (others_length (hid w) (w_alt w) ltac:(lia)). lia. }
    assert (Fo : Forall (fun x => 0 <= x) (map (fun b : body R => a_mass_g (snd b)) o)).
    { assert (E : map snd o = others (hid w) (w_alt w)) by (apply map_snd_combine; symmetry; exact Lo).
      rewrite <- E in Fa. apply (to_map a_mass_g (fun x => 0 <= x)) in Fa. rewrite map_map in Fa. exact Fa. }
    destruct (interaction_keeps (w_type w) dt (star, a) o) as (_ & K2 & _). pose proof (interaction_slots (w_type w) dt (star, a) o) as (J1 & _).
    destruct (interaction (w_type w) dt (star, a) o) as [s5 o5]. cbn [fst snd] in *.
    destruct (jump_keeps (w_type w) half s5 o5) as (_ & K3 & _). pose proof (jump_slots (w_type w) half s5 o5) as (J2 & _).
    destruct (jump (w_type w) half s5 o5) as [s6 o6]. cbn [fst snd] in *.
    apply returns_bind; [|intros r _; apply returns_ret]. apply kepler_steps_total; [exact T|now rewrite J2, J1|].
    rewrite <- K2, <- K3 in Fo. apply (of_map (fun b : body R => a_mass_g (snd b)) (fun x => 0 <= x)) in Fo. exact Fo.
  Qed.

  (** panics of the gravity loop *)
  Lemma gp_panics ig mm i a acc jbr p : gp ig mm i a acc jbr = Panic p -> encounter p.
  Proof.
    destruct jbr as [j [[[xb rb] mb] roche]], a as [[xa ra] ma]. unfold gp, gravity_pair. cbn zeta.
    destruct (Nat.eqb i j); [intro X; discriminate X|].
    repeat match goal with |- context [if ?b then _ else _] => destruct b end; intro X; try discriminate X; injection X as <-; exact I.
  Qed.
  Lemma rfold_panics {A B} (f : B -> A -> res B) (P : panic -> Prop) l : (forall b a p, f b a = Panic p -> P p) -> forall b p, rfold f l b = Panic p -> P p.
  Proof.
    intro X. induction l as [|a l IH]; intros b p; cbn [rfold]; [intro E; discriminate E|].
    destruct (f b a) as [b'|q] eqn:E; cbn [rbind]; [apply IH|]. intro Y. injection Y as <-. eapply X; exact E.
  Qed.
  Lemma rmap_panics {A B} (f : A -> res B) (P : panic -> Prop) l : (forall a p, f a = Panic p -> P p) -> forall p, rmap f l = Panic p -> P p.
  Proof.
    intro X. induction l as [|a l IH]; intros p; cbn [rmap]; [intro E; discriminate E|].
    destruct (f a) as [b|q] eqn:E; cbn [rbind]; [|intro Y; injection Y as <-; eapply X; exact E].
    destruct (rmap f l) as [bs|q]; cbn [rbind]; intro Y; [discriminate Y|]. injection Y as <-. now apply IH.
  Qed.
  Lemma gravity_panics ig (u : universe R) p : u_particles u <> [] -> gravity ig u = Panic p -> encounter p.
  Proof.
    intros N. unfold gravity. destruct (Nat.eqb_spec (length (u_particles u)) 0) as [Z|_]; [apply length_zero_iff_nil in Z; contradiction|].
    rewrite gravities_view. destruct (gravities _ _ _ _) as [accs|q] eqn:E; cbn [rbind]; intro X; [discriminate X|]. injection X as <-.
    revert E. unfold gravities. apply (rmap_panics _ encounter). intros [i [a row]] p0. unfold gon. apply (rfold_panics _ encounter). intros b x q0. apply gp_panics.
  Qed.

  (** the moments of inertia are needed to compute the spins *)
  Lemma plain_fit spin (u : universe R) : plain u -> hosted u -> inertias u -> fit spin u.
  Proof.
    intros Hp Hh Hi. split; [left; exact Hp|]. split; [exact Hh|]. rewrite inert_of. unfold inertias in Hi.
    induction Hi as [|p l Np Hi IH]; [reflexivity|]. cbn [map forallb]. rewrite IH. unfold inert_view. rewrite (proj2 (Reqb_false _ _)) by exact Np. reflexivity.
  Qed.
  Lemma fit_inertias spin (u : universe R) : fit spin u -> inertias u.
  Proof.
    intros (_ & _ & I). rewrite inert_of in I. unfold inertias. induction (u_particles u) as [|p l IH]; [constructor|].
    cbn [map forallb] in I. apply andb_true_iff in I as (I1 & I2). constructor; [|auto]. unfold inert_view in I1. intro Z. rewrite Z in I1.
    rewrite (proj2 (Reqb_true 0 0)) in I1 by reflexivity. discriminate I1.
  Qed.
  Theorem step_outcome t dt half (w : whfast R) : ready w -> roche_square (w_u w) -> masses_g (w_u w) -> positive (w_u w) -> inertias (w_u w) -> 0 < half ->
    exists r, settles (fun i => wh_step (H2 := i) t dt half w) r /\ ((exists w', r = Ok w') \/ exists p i w1 w2, r = Panic p /\ encounter p /\ velocity_dependent (H2 := i) t half (integrate_spin (w_u w)) true w = Ok w1
        /\ part1 (H2 := i) half w1 = Ok w2 /\ gravity (ignored (w_type w2)) (w_u w2) = Panic p).
  Proof.
    intros (Hp & Sz & Lr & Hz & star & N & U) Rq Mg Ps Hi T.
    set (view := fun p : particle R => (p_mass_g p, p_mass p)).
    set (iv := fun p : particle R => p_inertia p).
    assert (Hl : (hid w < length (parts w))%nat) by (apply nth_error_Some; congruence).
    assert (Hh : hosted (w_u w)) by (unfold hosted; lia).
    assert (Bg : forall u, plain u -> blind_step (u_effects u) view) by (intros u Hu; apply plain_blind; auto; red; reflexivity).
    assert (Bi : forall u, plain u -> blind_step (u_effects u) iv) by (intros u Hu; apply plain_blind; auto; red; reflexivity).
    set (F0 := {| fuel := 0 |}).
    unfold wh_step. cbn zeta. set (spin := integrate_spin (w_u w)).
    destruct (velocity_dependent_returns t half spin true w (plain_fit spin _ Hp Hh Hi) Sz) as (w1 & E1 & F1).
    pose proof (velocity_dependent_view (H2 := F0) view _ _ _ _ _ _ Sz (Bg _ Hp) (fun _ _ => eq_refl) (fun _ _ _ => eq_refl) (E1 F0)) as (G1 & T1 & Z1 & Y1 & _).
    destruct T1 as (T1e & T1h & T1g & T1r).
    assert (Mv : forall u u', map view (u_particles u') = map view (u_particles u) -> masses_g u -> positive u -> masses_g u' /\ positive u').
    { intros u u' E A B. unfold masses_g, positive in *. split.
      - apply (to_map view (fun t => fst t = G * snd t)) in A. rewrite <- E in A. apply (of_map view (fun t => fst t = G * snd t)) in A. exact A.
      - apply (to_map view (fun t => 0 < snd t)) in B. rewrite <- E in B. apply (of_map view (fun t => 0 < snd t)) in B. exact B. }
    destruct (Mv _ _ G1 Mg Ps) as (Mg1 & Ps1).
    assert (N1 : exists star1, nth_error (parts w1) (hid w1) = Some star1 /\ p_mass star1 = p_mass star).
    { pose proof (f_equal (fun l => nth_error l (hid w)) G1) as X. cbv beta in X. rewrite !nth_error_map, N in X. rewrite T1h.
      destruct (nth_error (parts w1) (hid w)) as [star1|]; [|discriminate X]. cbn [option_map] in X. injection X as X1 X2. eauto. }
    destruct N1 as (star1 & N1 & Ms1).
    assert (U1 : usable (w_type w1) star1 (except (hid w1) (parts w1))).
    { rewrite Y1. eapply usable_masses; [symmetry; exact Ms1| |exact U]. rewrite T1h.
      assert (X : map p_mass (parts w1) = map p_mass (parts w)).
      { apply (f_equal (map snd)) in G1. rewrite !map_map in G1. exact G1. }
      rewrite <- !except_map, X. reflexivity. }
    destruct Z1 as (Z1a & Z1b & Z1c).
    destruct (part1_returns half w1 star1 Z1a N1 U1 Mg1 Ps1 T) as (w2 & E2).
    assert (E2' : exists i, part1 (H2 := i) half w1 = Ok w2) by (destruct E2 as (M & E2); exists {| fuel := M |}; now apply E2).
    destruct E2' as (i2 & E2').
    destruct (part1_splits (H1 := i2) _ _ _ _ Z1a N1 U1 Mg1 E2') as (_ & s3 & o3 & g3 & _ & _ & P2 & A2 & Lo).
    pose proof (part1_view (H2 := i2) view _ _ _ (conj (fun _ _ => eq_refl) (conj (fun _ _ => eq_refl) (fun _ _ => eq_refl))) Z1a E2') as (G2 & T2 & Y2 & VV2 & LL2 & Z2).
    pose proof (part1_view (H2 := i2) iv _ _ _ (conj (fun _ _ => eq_refl) (conj (fun _ _ => eq_refl) (fun _ _ => eq_refl))) Z1a E2') as (I2 & _).
    destruct T2 as (T2e & T2h & T2g & T2r).
    destruct (Mv _ _ G2 Mg1 Ps1) as (Mg2 & Ps2).
    pose proof (f_equal (@length _) G2) as L2. rewrite !map_length in L2. pose proof (f_equal (@length _) G1) as L1. rewrite !map_length in L1.
    assert (Rq2 : roche_square (w_u w2)).
    { destruct Rq as (R1 & R2). unfold roche_square. rewrite T2r, T1r, L2, L1. auto. }
    destruct (gravity (ignored (w_type w2)) (w_u w2)) as [u3|p] eqn:E3.
    2:{ exists (Panic p). split.
        - eapply settles_bind; [exists O; intros; apply E1|]. eapply settles_bind; [exact E2|]. apply settles_panic. rewrite E3. apply settles_ret.
        - right. exists p, i2, w1, w2. split; [reflexivity|]. split; [|auto]. eapply gravity_panics; [|exact E3]. intro Z. rewrite Z in L2. cbn [length] in L2. lia. }
    pose proof (gravity_view view _ _ _ (fun _ _ => eq_refl) (proj1 Rq2) E3) as (G3 & T3). destruct T3 as (T3e & T3h & T3g & T3r).
    pose proof (gravity_view iv _ _ _ (fun _ _ => eq_refl) (proj1 Rq2) E3) as (I3 & _).
    set (w3 := WH u3 (w_alt w2) (w_type w2) (w_verr w2) (w_Lerr w2)).
    pose proof (f_equal (@length _) G3) as L3. rewrite !map_length in L3.
    destruct (Mv _ _ G3 Mg2 Ps2) as (Mg3 & Ps3).
    assert (Hh3 : hid w3 = hid w1) by (cbn [w3 w_u]; congruence).
    assert (L3s : slots w3) by (unfold slots; cbn [w3 w_alt w_u]; congruence).
    assert (N3 : exists star3, nth_error (parts w3) (hid w3) = Some star3).
    { destruct (nth_error (parts w3) (hid w3)) as [x|] eqn:X; [eauto|]. apply nth_error_None in X. rewrite Hh3, T1h in X. cbn [w3 w_u] in X. lia. }
    destruct N3 as (star3 & N3). pose proof G_positive as Gp.
    assert (Q3 : 0 < p_mass_g star3).
    { unfold masses_g, positive in Mg3, Ps3. rewrite Forall_forall in Mg3, Ps3. apply nth_error_In in N3. cbn [w3 w_u] in N3. rewrite (Mg3 _ N3). specialize (Ps3 _ N3). nra. }
    assert (Fa : Forall (fun a : alternative R => 0 <= a_mass_g a) (others (hid w3) (w_alt w3))).
    { rewrite Hh3. cbn [w3 w_alt]. rewrite A2, others_reassemble by (rewrite map_length; exact Lo).
      assert (Pm : Forall (fun m => 0 < m) (map p_mass (all (inertial (w_type w1) s3 o3)))).
      { apply (to_map p_mass (fun m => 0 < m)) in Ps2. rewrite P2 in Ps2. unfold all.
        eapply Permutation_Forall; [|exact Ps2]. apply Permutation_map. symmetry. apply reassemble_perm. }
      rewrite (inertial_masses _ _ _ g3) in Pm. cbn [map] in Pm. inversion Pm as [|? ? _ Pm']; subst.
      destruct g3 as [_ _ _ Hs]. clear - Pm' Hs Gp. unfold body in *. induction o3 as [|b o IH]; [constructor|]. cbn [map] in *. inversion Pm'; subst. inversion Hs as [|? ? (_ & Hb) ?]; subst.
      constructor; [rewrite Hb; nra|auto]. }
    destruct (part2_returns dt half w3 star3 L3s N3 Q3 Fa T) as (w4 & E4).
    assert (E4' : exists i, part2 (H2 := i) dt half w3 = Ok w4) by (destruct E4 as (M & E4); exists {| fuel := M |}; now apply E4).
    destruct E4' as (i4 & E4').
    pose proof (part2_view (H2 := i4) iv _ _ _ _ (conj (fun _ _ => eq_refl) (conj (fun _ _ => eq_refl) (fun _ _ => eq_refl))) L3s E4') as (I4 & T4 & Y4 & VV4 & LL4 & Z4).
    destruct T4 as (T4e & T4h & T4g & T4r).
    pose proof (f_equal (@length _) I4) as L4. rewrite !map_length in L4.
    assert (Hp4 : plain (w_u w4)) by (unfold plain in *; rewrite T4e; cbn [w3 w_u]; rewrite T3e, T2e, T1e; exact Hp).
    assert (Hh4 : hosted (w_u w4)) by (unfold hosted; rewrite T4h, Hh3, T1h, L4; cbn [w3 w_u]; lia).
    assert (Hi4 : inertias (w_u w4)).
    { pose proof (fit_inertias _ _ F1) as Hi1. unfold inertias in *. apply (to_map iv (fun x => x <> 0)) in Hi1. rewrite <- I2, <- I3 in Hi1.
      change (u_particles u3) with (parts w3) in Hi1. rewrite <- I4 in Hi1. apply (of_map iv (fun x => x <> 0)) in Hi1. exact Hi1. }
    assert (Sz4 : sized w4).
    { split; [exact Z4|]. rewrite VV4, LL4. cbn [w3 w_verr w_Lerr w_u] in *. rewrite VV2, LL2. split; congruence. }
    destruct (velocity_dependent_returns t half spin false w4 (plain_fit spin _ Hp4 Hh4 Hi4) Sz4) as (w5 & E5 & _).
    exists (Ok w5). split; [|left; eauto].
    eapply settles_bind; [exists O; intros; apply E1|]. eapply settles_bind; [exact E2|]. rewrite E3. eapply (settles_bind (fun _ => Ok u3)); [apply settles_ret|].
    cbn zeta. fold w3. eapply settles_bind; [exact E4|]. exists O. intros. apply E5.
  Qed.
  Theorem step_returns t dt half (w : whfast R) : ready w -> roche_square (w_u w) -> masses_g (w_u w) -> positive (w_u w) -> inertias (w_u w) -> 0 < half ->
    exists r, settles (fun i => wh_step (H2 := i) t dt half w) r /\ ((exists w', r = Ok w') \/ exists p, r = Panic p /\ encounter p).
  Proof.
    intros A B C D I T. destruct (step_outcome t dt half w A B C D I T) as (r & S & [X|(p & i & w1 & w2 & X & Y & _)]); exists r; split; eauto.
  Qed.
End Step.
