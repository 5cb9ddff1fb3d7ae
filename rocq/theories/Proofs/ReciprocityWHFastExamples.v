(** * WHFast with effects that act between bodies: example (C71) *)
From Coq Require Import Reals Lra Lia List Bool Arith.
From Verif Require Import Base.Num Base.Result Base.Trans Base.Vec Model.Constants Model.Particle Model.Host
  Model.Creep Model.Relativity Model.Universe Model.WHFast
  Spec.EffectsSpec Spec.UniverseSpec Spec.WHFastSpec Spec.ReciprocitySpec
  Proofs.NumLemmas Proofs.VecLemmas Proofs.GravityProofs Proofs.LeapFrogProofs Proofs.FrameProofs Proofs.EffectSums Proofs.WHFastCoords Proofs.WHFastRun Proofs.WHFastStep Proofs.MidpointProofs
  Proofs.UniverseExamples Proofs.WHFastExamples Proofs.IAS15Step Proofs.IAS15Momentum Proofs.Reciprocity Proofs.ReciprocityExamples.
Import ListNotations.
Open Scope R_scope.
Local Notation P := (particle R).

Section Run.
  Context `{Trans R} `{Floor R} `{Fuel}.
  Lemma full_engaged c : engaged (new_whfast full_u c).
  Proof.
    split; [exact full_reciprocal|]. split; [repeat split|]. split; [reflexivity|]. split; [split; [|intros _]; repeat constructor|].
    eexists. split; [reflexivity|]. destruct c; cbn [usable w_type new_whfast].
    - intros [|[|k]]; unfold total_mass, Rsum; cbn; num_simpl; lra.
    - split; unfold total_mass, Rsum; cbn; num_simpl; lra.
    - split; [cbn; lra|]. split; [unfold total_mass, Rsum; cbn; num_simpl; lra|]. repeat constructor. cbn. lra.
  Qed.
  Definition alive (u : universe R) : Prop := alike u /\ forallb kinert (map core (u_particles u)) = true.
  Lemma alive_eval t spin c ev (u : universe R) : alive u -> exists u', rates t spin c ev u = Ok u' /\ alive u' /\ length (u_particles u') = length (u_particles u).
  Proof.
    intros (A & I). destruct (i2h_ok u) as (u1 & E1).
    { destruct A as (_ & Hh & _ & L & _). unfold hosted. rewrite Hh, L. cbn. lia. }
    pose proof (alike_i2h _ _ A E1) as A1. destruct (i2h_frame _ _ E1) as (_ & C1 & _).
    destruct (alike_eval t ev spin true (ignored c) u1 A1) as (u2 & E2 & A2 & C2); [now rewrite C1|].
    exists u2. unfold rates. rewrite E1. cbn [rbind]. split; [exact E2|]. split; [split; [exact A2|rewrite C2, C1; exact I]|].
    destruct A as (_ & _ & _ & L & _), A2 as (_ & _ & _ & L2 & _). congruence.
  Qed.
  Definition kept_view (p : P) := (kind p, inert_view p).
  Lemma alive_set l (u : universe R) : alive u -> length l = length (u_particles u) -> map kept_view l = map kept_view (u_particles u) -> alive (set_particles l u).
  Proof.
    intros ((A & B & C & L & S) & I) Ll V.
    assert (K : map kind l = map kind (u_particles u)) by exact (view_part kept_view kind fst _ _ (fun _ => eq_refl) V).
    assert (J : map inert_view l = map inert_view (u_particles u)) by exact (view_part kept_view inert_view snd _ _ (fun _ => eq_refl) V).
    split; [|cbn [u_particles set_particles]; rewrite inert_of, J, <- inert_of; exact I].
    split; [exact A|]. split; [exact B|]. split; [exact C|]. split; [cbn; congruence|]. exact (simple_kept _ _ K S).
  Qed.
  Lemma midpoint_alive t dt spin ev ty (err orig : list vlR) n : forall i (final changes : list vlR) u,
    alive u -> length err = length (u_particles u) -> length orig = length (u_particles u) -> length final = length (u_particles u) ->
    length changes = length (u_particles u) ->
    exists r, midpoint n i t dt spin ev ty err orig final changes u = Ok r.
  Proof.
    induction n as [|n IH]; intros i final changes u Hf L1 L2 L3 L4; cbn [midpoint]; [eauto|].
    destruct (alive_eval t spin ty (ev && Nat.eqb i 0) u Hf) as (u2 & Er & F2 & L5). unfold rates in Er.
    destruct (inertial_to_heliocentric u) as [u1|]; [|discriminate Er]. cbn [rbind] in *. rewrite Er. cbn [rbind].
    set (ch := zip3 _ (u_particles u2) err changes). set (fi := zip3 _ orig ch final).
    assert (Lc : length ch = length (u_particles u)) by (unfold ch; rewrite zip3_len; congruence).
    assert (Lf : length fi = length (u_particles u)) by (unfold fi; rewrite zip3_len; congruence).
    match goal with |- context [if ?b then _ else _] => destruct b end; [eauto|].
    set (u3 := set_particles _ u2).
    assert (L6 : length (u_particles u3) = length (u_particles u)) by (unfold u3; cbn [u_particles set_particles]; rewrite zip3_len; congruence).
    apply (IH (S i) fi ch u3); try congruence.
    apply alive_set; [exact F2|rewrite zip3_len; congruence|]. apply zip3_view; try congruence.
    intros o f p. unfold average. destruct spin; reflexivity.
  Qed.
  Lemma full_vd t dt c : exists w', velocity_dependent t dt true true (new_whfast full_u c) = Ok w'.
  Proof.
    unfold velocity_dependent. cbn zeta.
    match goal with |- context [midpoint ?n 0 t dt true true ?ty ?err ?orig ?fi ?ch ?u] => destruct (midpoint_alive t dt true true ty err orig n 0 fi ch u) as (((u', fi'), ch') & E) end; try reflexivity.
    - split; [|exact pair_inert]. repeat (split; [reflexivity|]). exact full_simple.
    - rewrite E. cbn [rbind]. eauto.
  Qed.
End Run.
