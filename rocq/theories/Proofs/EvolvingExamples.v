(** A star that shrinks to half its radius (examples of C80) *)
From Coq Require Import Reals Lra Lia List Bool Arith.
From Verif Require Import Base.Num Base.Result Base.Trans Base.Vec Model.Constants Model.Particle Model.Host
  Model.Interp Model.Wind Model.Disk Model.Kaula Model.Creep Model.Tides Model.Flattening Model.Relativity Model.Universe Model.LeapFrog
  Spec.EffectsSpec Spec.UniverseSpec Spec.TablesSpec Spec.EvolvingRunSpec
  Proofs.NumLemmas Proofs.VecLemmas Proofs.GravityProofs Proofs.LeapFrogProofs Proofs.UniverseProofs Proofs.FrameProofs Proofs.EffectSums
  Proofs.TablesProofs Proofs.EvolveProofs Proofs.EvolvingRun.
Import ListNotations.
Open Scope R_scope.

Definition shrinking : evolver R := Evolver (Baraffe1998 1) [0; 1] [1; 1 / 2] [] [] [] 0.
Definition lone (p : particle R) (e : evolver R) : universe R :=
  Universe 0 1 [p] [] [e] (Effects false false false false false true) GrImplDisabled
    (Hosts 0 NO_HOST NO_HOST NO_HOST NO_HOST true false false false false) [] [[0]].
Definition young : particle R := new_particle G 1 1 (1 / 2) vzero vzero (Vec 0 0 1).
Lemma shrinking_well : well_tabulated shrinking.
Proof.
  intros [] Hq; cbn in Hq; try discriminate. split; [discriminate|]. split; [reflexivity|].
  intros i j Hij. cbn [shrinking ev_time length] in Hij. assert (i = 0%nat /\ j = 1%nat) as [-> ->] by lia. cbn. lra.
Qed.
Lemma shrinking_range t v : interpolates [0; 1] [1; 1 / 2] t v -> 1 / 2 <= v <= 1.
Proof.
  unfold interpolates. cbn. intros (A & B & C). destruct (Rlt_le_dec t 0) as [L|L]; [rewrite (A L); lra|].
  destruct (Rlt_le_dec t 1) as [L2|L2]; [|rewrite (B L2); lra]. specialize (C 0%nat ltac:(lia)). cbn in C. rewrite C by lra.
  assert (Q : (t - 0) / (1 - 0) = t) by field. rewrite Q. lra.
Qed.

Section Lone.
  Context `{Trans R} `{Floor R} `{Fuel}.
  Definition good (p : particle R) : Prop := p_mass p = 1 /\ p_rg2 p = 1 / 4 /\ 1 / 2 <= p_radius p <= 1 /\ inertia_ok p.
  Lemma young_good : good young.
  Proof. unfold good, inertia_ok, young. cbn. repeat split; lra. Qed.
  Lemma good_inertia p : good p -> p_inertia p <> 0.
  Proof. intros (A & B & C & D). unfold inertia_ok in D. rewrite D, A, B. nra. Qed.
  Lemma non_spin_ok t t' p e : good p -> follows t shrinking e -> t <= t' ->
    exists p' e', evolve_non_spin t' (p, e) = Ok (p', e') /\ good p' /\ follows t' shrinking e'.
  Proof.
    intros G1 Fo L.
    assert (GS : forall t t' q c e, follows t shrinking e -> t <= t' -> exists v e', get e q t' c = Ok (v, e') /\ follows t' shrinking e').
    { clear. intros t t' q c e Fo L. pose proof Fo as ((n & En) & S).
      assert (W' : well_tabulated e) by (subst e; apply well_set; exact shrinking_well).
      destruct (get_spec e q t' c W' (S t' L)) as (v & e1 & E1 & _). exists v, e1. split; [exact E1|].
      exact (proj1 (get_follows _ _ _ _ _ _ _ _ shrinking_well Fo L E1)). }
    assert (X : exists p' e', evolve_non_spin t' (p, e) = Ok (p', e')).
    { unfold evolve_non_spin.
      destruct (GS t t' QRadius (p_radius p) e Fo L) as (nr & e1 & E1 & F1). cbn [get] in E1. rewrite E1. cbn [rbind].
      destruct (GS t' t' QGyration (p_rg2 p) e1 F1 (Rle_refl _)) as (ng & e2 & E2 & F2). cbn [get] in E2. rewrite E2. cbn [rbind].
      assert (LV : forall c, exists v e', evolver_love e2 t' c = Ok (v, e')).
      { intros c. destruct (GS t' t' QLove c e2 F2 (Rle_refl _)) as (v & e3 & E3 & _). cbn [get] in E3. eauto. }
      set (p1 := if negb _ || negb _ then _ else p). clearbody p1.
      destruct (t_effect (p_tides p1)) as [[q|q|q]|[q|q|q]|]; try (destruct (LV (ctl_love q)) as (v & e3 & ->); cbn [rbind]); eauto. }
    destruct X as (p' & e' & X). exists p', e'. split; [exact X|].
    destruct (non_spin_follows _ _ _ _ _ _ _ shrinking_well Fo L X) as (F' & R1 & R2). split; [|exact F'].
    destruct G1 as (A & B & C & D). unfold expected in R1, R2. cbn in R1, R2. apply shrinking_range in R1.
    pose proof (evolve_inertia _ _ _ _ _ D X) as D'. unfold good. repeat split; try tauto; try lra.
    unfold evolve_non_spin in X.
    destruct (evolver_radius e t' (p_radius p)) as [[nr e1]|]; cbn [rbind] in X; [|discriminate X].
    destruct (evolver_rg2 e1 t' (p_rg2 p)) as [[ng e2]|]; cbn [rbind] in X; [|discriminate X].
    set (p1 := if negb _ || negb _ then _ else p) in X.
    assert (M : p_mass p1 = p_mass p) by (unfold p1; destruct (negb _ || negb _); reflexivity). clearbody p1.
    rewrite <- A, <- M.
    destruct (t_effect (p_tides p1)) as [[q|q|q]|[q|q|q]|];
      try (destruct (evolver_love e2 t' (ctl_love q)) as [[v e3]|]; cbn [rbind] in X; [|discriminate X]); injection X as <- <-; reflexivity.
  Qed.
  Lemma lone_spin t t' p e : good p -> follows t shrinking e -> t <= t' ->
    exists p' e', spin_and_evolving t' true (lone p e) = Ok (lone p' e') /\ good p' /\ follows t' shrinking e'.
  Proof.
    intros G1 Fo L. destruct (non_spin_ok t t' p e G1 Fo L) as (p1 & e1 & E1 & G2 & F1).
    unfold spin_and_evolving. cbn [lone u_effects e_evolution andb u_particles u_evolvers rzip]. rewrite E1. cbn [rbind fst snd].
    unfold rmapi. cbn [enumerate length seq combine rmap]. unfold refresh_spin at 1. cbn [neqb NumR n0].
    rewrite (proj2 (Reqb_false (p_inertia p1) 0)) by (apply good_inertia; exact G2). cbn [rbind rzip].
    set (p2 := set_p_spin2 _ _). assert (G3 : good p2) by exact G2. clearbody p2.
    assert (T : dynamical_tide (ev_type e1) = false) by (destruct F1 as ((n & ->) & _); reflexivity).
    unfold evolve_spin at 1. rewrite T. cbn [rbind fst snd]. exists (set_p_tides (set_t_lag_angle n0 (p_tides p2)) p2), e1. split; [reflexivity|]. split; [exact G3|exact F1].
  Qed.
  Lemma lone_i2h p e : exists p', inertial_to_heliocentric (lone p e) = Ok (lone p' e) /\ (good p -> good p').
  Proof. exists (heliocentric_host p). split; [reflexivity|]. intro X. exact X. Qed.
  Lemma lone_effects t t' acc p e : good p -> follows t shrinking e -> t <= t' ->
    exists p' e', additional_effects t' true true acc IgnoreNone (lone p e) = Ok (lone p' e') /\ good p' /\ follows t' shrinking e'.
  Proof.
    intros G1 Fo L. unfold additional_effects.
    assert (E0 : exists p', initialize true acc (lone p e) = Ok (lone p' e) /\ good p') by (destruct acc; eexists; split; [reflexivity|exact G1|reflexivity|exact G1]).
    destruct E0 as (p0 & -> & G0). cbn [rbind]. destruct (lone_spin t t' p0 e G0 Fo L) as (p1 & e1 & -> & G2 & F1). cbn [rbind].
    destruct acc; eexists _, e1; (split; [reflexivity|]); (split; [|exact F1]); exact G2.
  Qed.
  Lemma lone_step t dt half p e : 0 <= half -> good p -> follows t shrinking e ->
    exists p' e', lf_step t dt half (lone p e) = Ok (lone p' e') /\ good p' /\ follows (t + half) shrinking e'.
  Proof.
    intros Hh G1 Fo. unfold lf_step. destruct (lone_i2h p e) as (p1 & -> & X). apply X in G1. clear X. cbn [rbind].
    destruct (lone_effects t t false p1 e G1 Fo (Rle_refl _)) as (p2 & e2 & -> & G2 & F2). cbn [rbind].
    change (on_bodies (lf_drift half) (lone p2 e2)) with (lone (lf_drift half p2) e2).
    assert (G3 : good (lf_drift half p2)) by exact G2. set (p3 := lf_drift half p2) in *. clearbody p3.
    assert (E4 : exists p', gravity IgnoreNone (lone p3 e2) = Ok (lone p' e2) /\ good p') by (eexists; split; [reflexivity|exact G3]).
    destruct E4 as (p4 & -> & G4). cbn [rbind]. destruct (lone_i2h p4 e2) as (p5 & -> & X). apply X in G4. cbn [rbind].
    destruct (lone_effects t (t + half) true p5 e2 G4 F2 ltac:(lra)) as (p6 & e6 & E6 & G6 & F6). cbn [nadd NumR]. rewrite E6. cbn [rbind].
    eexists _, e6. split; [reflexivity|]. split; [exact G6|exact F6].
  Qed.
  Lemma lone_output t p e : good p -> follows t shrinking e -> exists p' e', refresh_for_output t (lone p e) = Ok (lone p' e').
  Proof.
    intros G1 Fo. unfold refresh_for_output. destruct (lone_i2h p e) as (p1 & -> & X). apply X in G1. cbn [rbind].
    destruct (lone_spin t t p1 e G1 Fo (Rle_refl _)) as (p2 & e2 & -> & _). cbn [rbind lone u_effects e_tides]. eauto.
  Qed.
  Lemma lone_init p e : good p -> follows 0 shrinking e -> exists p' e', initialize_physical_values 0 (lone p e) = Ok (lone p' e') /\ good p' /\ follows 0 shrinking e'.
  Proof.
    intros G1 Fo. unfold initialize_physical_values. cbn [neqb NumR n0]. rewrite (proj2 (Reqb_true 0 0) eq_refl). cbn [negb].
    destruct (lone_spin 0 0 p e G1 Fo (Rle_refl _)) as (p' & e' & -> & G' & F'). cbn [rbind]. exists p', e'. split; [reflexivity|]. split; [exact G'|exact F'].
  Qed.
  Lemma lone_ready : evolving (lone young shrinking) /\ no_torques (lone young shrinking) /\
    Forall (fun p => p_dL p = vzero) (u_particles (lone young shrinking)) /\
    Forall (fun p => inertia_ok p /\ spin_ok p /\ p_mass p <> 0) (u_particles (lone young shrinking)).
  Proof.
    split; [split; [reflexivity|constructor; [split; [exact shrinking_well|reflexivity]|constructor]]|]. split; [repeat split; discriminate|].
    split; [repeat constructor|]. constructor; [|constructor]. split; [apply young_good|]. split; [split|].
    - unfold young. cbn. apply vec_eq; cbn; lra.
    - unfold young. cbn. lra.
    - cbn. lra.
  Qed.
  (** initialized and advanced by one unit of time: the star has half the radius and turns four times as fast *)
  Theorem spun_up : exists u1 u2 p, simulated 1 (1 / 2) 0 (lone young shrinking) 1 u1 /\ refresh_for_output 1 u1 = Ok u2 /\
    nth_error (u_particles u2) 0 = Some p /\ p_radius p = 1 / 2 /\ p_spin p = Vec 0 0 4.
  Proof.
    destruct (lone_init young shrinking young_good (follows_fresh shrinking eq_refl 0)) as (p' & e' & E0 & G0 & F0).
    destruct (lone_step 0 1 (1 / 2) p' e' ltac:(lra) G0 F0) as (p1 & e1 & E1 & G1 & F1).
    apply (follows_later _ 1) in F1; [|lra]. destruct (lone_output 1 p1 e1 G1 F1) as (p2 & e2 & E2).
    assert (S : simulated 1 (1 / 2) 0 (lone young shrinking) 1 (lone p1 e1)).
    { replace 1 with (0 + 1 / 2 + 1 / 2) at 3 by lra. apply (sim_step 1 (1 / 2) 0 _ 0 (lone p' e')); [|exact E1].
      apply (sim_init 1 (1 / 2) 0 _ 0 (lone young shrinking)); [constructor|exact E0]. }
    destruct lone_ready as (A & B & C & D).
    destruct (output_sizes 1 (1 / 2) 0 _ 1 _ _ 0%nat shrinking p2 A ltac:(lra) S E2 eq_refl eq_refl) as ((R1 & _) & p0 & P0 & _ & K2).
    specialize (R1 eq_refl). destruct R1 as (_ & R1 & _). cbn in R1. specialize (R1 ltac:(lra)). injection P0 as <-. specialize (K2 eq_refl).
    destruct (output_spin_up 1 (1 / 2) 0 _ 1 _ _ 0%nat p2 B C D S E2 eq_refl) as (p0 & P0 & M). injection P0 as <-.
    exists (lone p1 e1), (lone p2 e2), p2. split; [exact S|]. split; [exact E2|]. split; [reflexivity|]. split; [exact R1|].
    rewrite R1, K2 in M. unfold young in M. cbn in M. destruct (p_spin p2) as [x y z]. unfold vscale in M. cbn in M. injection M as M1 M2 M3.
    apply vec_eq; cbn; lra.
  Qed.
End Lone.
