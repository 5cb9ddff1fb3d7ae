(** The Anderson corrections of a body without mass in WHFast, with the host at the origin *)
From Coquelicot Require Import Coquelicot.
From Coq Require Import Reals Lra Psatz List Bool ZArith Lia.
From Verif Require Import Base.Num Base.Vec Base.Trans Model.Constants Model.Particle Model.Relativity
  Proofs.NumLemmas Proofs.VecLemmas Proofs.RelativityProofs Proofs.ShiftProofs Proofs.RelativityExamples Proofs.EIHProofs Proofs.DiskOrbit Proofs.PostNewton
  Proofs.RelativisticPair Proofs.AndersonProofs Proofs.SkippedProofs Proofs.PostNewtonExamples
  Spec.EffectsSpec Spec.DiskSpec Spec.EIHSpec Spec.PostNewtonSpec Spec.SkippedSpec.
Import ListNotations.
Open Scope R_scope.

Lemma skipped_pair_of ig (host p : particle R) : ig <> IgnoreNone -> is_anderson host -> p_ipos host = vzero -> gr_orbiting p = true ->
  same_accs (relativity_pass ig host [p]) (relativity_pass IgnoreNone (completed_host host [p]) [completed host p]).
Proof.
  intros Hi K H0 Ho. destruct ig; [congruence| |].
  - apply (skipped_one host p []); auto.
  - apply (skipped_two host [p]); auto.
Qed.
Theorem anderson_whfast ig host p host' p' : ig <> IgnoreNone -> is_anderson host -> gr_orbiting p = true -> 0 < p_mass host -> p_mass p = 0 ->
  p_mass_g host = G * p_mass host -> apart host p -> p_ipos host = vzero -> p_iacc host = vzero -> p_iacc p = vzero ->
  let mu := p_mass_g host in let r := rel_pos host p in let v := rel_vel host p in let d := sqrt (norm2 r) in
  smallness mu r v <= 1 / 20 ->
  relativity_pass ig host [p] = (host', [p']) ->
  norm2 (vsub (vsub (relativistic_acc p') (relativistic_acc host')) (kidder_1pn SPEED_OF_LIGHT_2 mu 0 r v))
  <= (64 * smallness mu r v ^ 2 * (mu / d ^ 2)) ^ 2.
Proof.
  intros Hi K Ho Mh Mp Hg Ha H0 Ah Ap mu r v d Hs E.
  pose proof (skipped_pair_of ig host p Hi K H0 Ho) as S. rewrite E in S.
  destruct (relativity_pass IgnoreNone (completed_host host [p]) [completed host p]) as [h2 l2] eqn:E2. destruct S as [S1 S2]. cbn [fst snd map] in S1, S2.
  destruct l2 as [|q2 [|? ?]]; try discriminate S2. injection S2 as S2. rewrite S1, S2.
  pose proof G_bounds as [G1 G2].
  apply (anderson_first_order (completed_host host [p]) (completed host p) h2 q2 K Ho Mh).
  - change (0 <= p_mass p). lra.
  - change (0 <= p_mass_g host). rewrite Hg. nra.
  - exact Ha.
  - change (rel_pos (completed_host host [p]) (completed host p)) with r. change (p_mass_g (completed_host host [p])) with mu.
    unfold completed, completed_host. change (p_iacc (set_p_iacc ?a ?b)) with a. rewrite Ah, Ap. unfold Vsum. cbn [map fold_right].
    unfold attraction. rewrite Mp.
    assert (N : norm2 (vsub (p_ipos host) (p_ipos p)) = norm2 r) by (unfold r, rel_pos; destruct (p_ipos host), (p_ipos p); vunfold; num_simpl; ring).
    assert (V : vsub (p_ipos host) (p_ipos p) = vscale (-1) r) by (unfold r, rel_pos; destruct (p_ipos host), (p_ipos p); vunfold; num_simpl; f_equal; ring).
    rewrite N, V. fold (rel_pos host p). fold r. fold d. unfold mu. rewrite Hg. clearbody r. clear - r. destruct r. vunfold. num_simpl. unfold Rdiv. f_equal; ring.
  - exact Hs.
  - exact E2.
Qed.
(** the body of the other example, before its acceleration is computed *)
Definition unpulled : particle R := set_p_iacc vzero light.
Lemma test_body_whfast : is_anderson heavy /\ gr_orbiting unpulled = true /\ 0 < p_mass heavy /\ p_mass unpulled = 0 /\
  p_mass_g heavy = G * p_mass heavy /\ apart heavy unpulled /\ p_ipos heavy = vzero /\ p_iacc heavy = vzero /\ p_iacc unpulled = vzero /\
  0 < smallness (p_mass_g heavy) (rel_pos heavy unpulled) (rel_vel heavy unpulled) <= 1 / 20.
Proof.
  destruct test_body as (A & B & C & _ & _ & D & _ & E). repeat (split; [assumption || reflexivity|]).
  split; [change (@G R _ = G * 1); ring|]. split; [exact D|]. repeat (split; [reflexivity|]). exact E.
Qed.
