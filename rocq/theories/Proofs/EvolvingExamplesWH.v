(** A star that shrinks to half its radius, with WHFast (examples of C80) *)
From Coq Require Import Reals Lra Lia List Bool Arith.
From Verif Require Import Base.Num Base.Result Base.Trans Base.Vec Model.Constants Model.Particle Model.Host
  Model.Interp Model.Wind Model.Disk Model.Kaula Model.Creep Model.Tides Model.Flattening Model.Relativity Model.Universe Model.LeapFrog Model.WHFast
  Spec.EffectsSpec Spec.UniverseSpec Spec.TablesSpec Spec.EvolvingRunSpec
  Proofs.NumLemmas Proofs.VecLemmas Proofs.GravityProofs Proofs.LeapFrogProofs Proofs.UniverseProofs Proofs.FrameProofs Proofs.EffectSums
  Proofs.TablesProofs Proofs.EvolveProofs Proofs.EvolvingRun Proofs.EvolvingRunWH Proofs.EvolvingExamples.
Import ListNotations.
Open Scope R_scope.

Section LoneWH.
  Context `{Trans R} `{Floor R} `{Fuel}.
  Lemma lone_spin_flag t t' ev p e : good p -> follows t shrinking e -> t <= t' ->
    exists p' e', spin_and_evolving t' ev (lone p e) = Ok (lone p' e') /\ good p' /\ follows t' shrinking e'.
  Proof.
    intros G1 Fo L. destruct ev; [now apply (lone_spin t)|].
    unfold spin_and_evolving. cbn [lone u_effects e_evolution andb u_particles u_evolvers rbind fst snd].
    unfold rmapi. cbn [enumerate length seq combine rmap]. unfold refresh_spin at 1. cbn [neqb NumR n0].
    rewrite (proj2 (Reqb_false (p_inertia p) 0)) by (apply good_inertia; exact G1). cbn [rbind].
    eexists _, e. split; [reflexivity|]. split; [exact G1|]. exact (follows_later _ _ _ _ L Fo).
  Qed.
  Lemma lone_effects_flag t t' ev ig p e : good p -> follows t shrinking e -> t <= t' ->
    exists p' e', additional_effects t' ev true true ig (lone p e) = Ok (lone p' e') /\ good p' /\ follows t' shrinking e'.
  Proof.
    intros G1 Fo L. unfold additional_effects.
    assert (E0 : exists p', initialize true true (lone p e) = Ok (lone p' e) /\ good p') by (eexists; split; [reflexivity|exact G1]).
    destruct E0 as (p0 & -> & G0). cbn [rbind]. destruct (lone_spin_flag t t' ev p0 e G0 Fo L) as (p1 & e1 & -> & G2 & F1). cbn [rbind].
    eexists _, e1; (split; [reflexivity|]); (split; [|exact F1]); exact G2.
  Qed.
  Lemma lone_midpoint n t dt ev c : forall i err orig final changes p e, good p -> follows t shrinking e ->
    exists p' e' f' ch', midpoint n i t dt true ev c [err] [orig] [final] [changes] (lone p e) = Ok (lone p' e', [f'], [ch']) /\ good p' /\ follows t shrinking e'.
  Proof.
    induction n as [|n IH]; intros i err orig final changes p e G1 Fo; cbn [midpoint].
    - exists p, e, final, changes. auto.
    - destruct (lone_i2h p e) as (p1 & -> & X). apply X in G1. cbn [rbind].
      destruct (lone_effects_flag t t (ev && Nat.eqb i 0) (ignored c) p1 e G1 Fo (Rle_refl _)) as (p2 & e2 & -> & G2 & F2). cbn [rbind].
      set (ch := midpoint_change dt true p2 err changes). set (f := midpoint_final true orig ch final).
      change (zip3 (midpoint_change dt true) (u_particles (lone p2 e2)) [err] [changes]) with [ch].
      change (zip3 (midpoint_final true) [orig] [ch] [final]) with [f]. destruct (_ && _).
      + exists p2, e2, f, ch. auto.
      + change (set_particles (zip3 (average true) [orig] [f] (u_particles (lone p2 e2))) (lone p2 e2)) with (lone (average true orig f p2) e2).
        apply IH; assumption.
  Qed.
  Lemma lone_velocity t dt ev c p e a ve Le : good p -> follows t shrinking e ->
    exists p' e' ve' Le', velocity_dependent t dt true ev (WH (lone p e) [a] c [ve] [Le]) = Ok (WH (lone p' e') [a] c [ve'] [Le']) /\ good p' /\ follows t shrinking e'.
  Proof.
    intros G1 Fo. unfold velocity_dependent.
    destruct (lone_midpoint IMPLICIT_MIDPOINT_MAX_ITER t dt ev c 0 (ve, Le) (vl_of p) (vl_of p) (vzero, vzero) p e G1 Fo) as (p1 & e1 & f & ch & E & G2 & F1).
    match goal with |- context [midpoint ?n ?i ?tt ?d ?s ?v ?cc ?x ?y ?z ?k ?u] => replace (midpoint n i tt d s v cc x y z k u)
      with (Ok (lone p1 e1, [f], [ch])) by (symmetry; exact E) end.
    cbn [rbind lone u_particles combine map]. eexists _, e1, _, _. split; [reflexivity|]. split; [exact G2|exact F1].
  Qed.
  Lemma lone_part1 half c p e a ve Le : exists p' a', part1 half (WH (lone p e) [a] c [ve] [Le]) = Ok (WH (lone p' e) [a'] c [ve] [Le]) /\ (good p -> good p').
  Proof. destruct c; eexists _, _; (split; [reflexivity|intros X; exact X]). Qed.
  Lemma lone_part2 dt half c p e a ve Le : exists p' a', part2 dt half (WH (lone p e) [a] c [ve] [Le]) = Ok (WH (lone p' e) [a'] c [ve] [Le]) /\ (good p -> good p').
  Proof. destruct c; eexists _, _; (split; [reflexivity|intros X; exact X]). Qed.
  Lemma lone_wh_step t dt half c p e a ve Le : good p -> follows t shrinking e ->
    exists p' e' a' ve' Le', wh_step t dt half (WH (lone p e) [a] c [ve] [Le]) = Ok (WH (lone p' e') [a'] c [ve'] [Le']) /\ good p' /\ follows t shrinking e'.
  Proof.
    intros G1 Fo. unfold wh_step. change (integrate_spin (w_u (WH (lone p e) [a] c [ve] [Le]))) with true. cbv zeta.
    destruct (lone_velocity t half true c p e a ve Le G1 Fo) as (p1 & e1 & v1 & l1 & -> & G2 & F1). cbn [rbind].
    destruct (lone_part1 half c p1 e1 a v1 l1) as (p2 & a2 & -> & X). apply X in G2. clear X. cbn [rbind w_u w_type w_alt w_verr w_Lerr].
    assert (E4 : exists p', gravity (ignored c) (lone p2 e1) = Ok (lone p' e1) /\ good p') by (destruct c; eexists; (split; [reflexivity|exact G2])).
    destruct E4 as (p3 & -> & G3). cbn [rbind].
    destruct (lone_part2 dt half c p3 e1 a2 v1 l1) as (p4 & a4 & -> & X). apply X in G3. cbn [rbind].
    destruct (lone_velocity t half false c p4 e1 a4 v1 l1 G3 F1) as (p5 & e5 & v5 & l5 & -> & G5 & F5).
    exists p5, e5, a4, v5, l5. auto.
  Qed.
  (** initialized and advanced by one unit of time: the star has half the radius and turns four times as fast *)
  Theorem wh_spun_up c : exists w1 u2 p, simulated_wh 1 (1 / 2) 0 (new_whfast (lone young shrinking) c) 1 w1 /\ refresh_for_output 1 (w_u w1) = Ok u2 /\
    nth_error (u_particles u2) 0 = Some p /\ p_radius p = 1 / 2 /\ p_spin p = Vec 0 0 4.
  Proof.
    destruct (lone_init young shrinking young_good (follows_fresh shrinking eq_refl 0)) as (p' & e' & E0 & G0 & F0).
    destruct (lone_wh_step 0 1 (1 / 2) c p' e' (Alt 0 0 vzero vzero vzero) vzero vzero G0 F0) as (p1 & e1 & a1 & v1 & l1 & E1 & G1 & F1).
    apply (follows_later _ 1) in F1; [|lra]. destruct (lone_output 1 p1 e1 G1 F1) as (p2 & e2 & E2).
    set (w1 := WH (lone p1 e1) [a1] c [v1] [l1]) in *.
    assert (S : simulated_wh 1 (1 / 2) 0 (new_whfast (lone young shrinking) c) 1 w1).
    { replace 1 with (0 + 1) at 3 by lra.
      apply (wh_advance 1 (1 / 2) 0 _ 0 (with_universe (lone p' e') (new_whfast (lone young shrinking) c))); [|exact E1].
      apply (wh_init 1 (1 / 2) 0 _ 0); [constructor|exact E0]. }
    destruct lone_ready as (A & B & C & D).
    destruct (wh_output_sizes c 1 (1 / 2) 0 _ 1 _ _ 0%nat shrinking p2 A eq_refl ltac:(lra) S E2 eq_refl eq_refl) as ((R1 & _) & p0 & P0 & _ & K2).
    specialize (R1 eq_refl). destruct R1 as (_ & R1 & _). cbn in R1. specialize (R1 ltac:(lra)). injection P0 as <-. specialize (K2 eq_refl).
    destruct (wh_output_spin_up c 1 (1 / 2) 0 _ 1 _ _ 0%nat p2 A B eq_refl ltac:(lra) C D S E2 eq_refl) as (p0 & P0 & M). injection P0 as <-.
    exists w1, (lone p2 e2), p2. split; [exact S|]. split; [exact E2|]. split; [reflexivity|]. split; [exact R1|].
    rewrite R1, K2 in M. unfold young in M. cbn in M. destruct (p_spin p2) as [x y z]. unfold vscale in M. cbn in M. injection M as M1 M2 M3.
    apply vec_eq; cbn; lra.
  Qed.
End LoneWH.
