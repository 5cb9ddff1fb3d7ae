(** Concrete systems for property C77 *)
From Coquelicot Require Import Coquelicot.
From Coq Require Import Reals Lra Psatz List Bool ZArith Lia.
From Verif Require Import Base.Num Base.Vec Base.Trans Model.Constants Model.Particle Model.Relativity
  Proofs.NumLemmas Proofs.VecLemmas Proofs.RelativityProofs Proofs.ShiftProofs Proofs.RelativityExamples Proofs.EIHProofs
  Proofs.RelativisticPair Proofs.AndersonProofs Proofs.DiskOrbit Spec.EffectsSpec Spec.DiskSpec Spec.EIHSpec Spec.PostNewtonSpec.
Import ListNotations.
Open Scope R_scope.

(** the Anderson correction of one evaluation *)
Theorem anderson_first_order (host p host' p' : particle R) : is_anderson host -> gr_orbiting p = true -> 0 < p_mass host -> 0 <= p_mass p ->
  0 <= p_mass_g host -> apart host p ->
  let mu := p_mass_g host in let r := rel_pos host p in let v := rel_vel host p in let d := sqrt (norm2 r) in
  vsub (p_iacc p) (p_iacc host) = vscale (- (mu / d ^ 3)) r -> smallness mu r v <= 1 / 20 ->
  relativity_pass IgnoreNone host [p] = (host', [p']) ->
  norm2 (vsub (vsub (relativistic_acc p') (relativistic_acc host')) (kidder_1pn SPEED_OF_LIGHT_2 mu 0 r v))
  <= (64 * smallness mu r v ^ 2 * (mu / d ^ 2)) ^ 2.
Proof.
  intros Hh Ho Mh Mp Hm Ha mu r v d En Hs E. rewrite (anderson_relative host p host' p' Hh Ho Mh Mp E).
  fold mu r v. rewrite En. replace (- (mu / d ^ 3)) with (- mu / d ^ 3) by (unfold Rdiv; ring). refine (anderson_close mu r v Hm _ Hs).
  apply sqrt_lt_R0, norm2_pos. intros Z. apply Ha. revert Z. unfold r, rel_pos. destruct (p_ipos host), (p_ipos p). vunfold. num_simpl.
  intros Z. injection Z. intros. f_equal; lra.
Qed.

(** two unit masses at unit distance that move across the line between them *)
Definition east : particle R := set_p_ivel (Vec 0 1 0) (plt 0 (- G)).
Definition west : particle R := set_p_ivel (Vec 0 (-1) 0) (hst 0 G).
Lemma dist1 : sqrt (norm2 (Vec 1 0 0)) = 1.
Proof. rewrite norm_x. apply Rabs_right. lra. Qed.
Lemma dist2 : sqrt (norm2 (Vec (-1) 0 0)) = 1.
Proof. rewrite norm_x. rewrite Rabs_left; lra. Qed.
Lemma pair_newtonian : newtonian_pair west east.
Proof.
  unfold newtonian_pair. cbv zeta.
  assert (E : rel_pos west east = Vec 1 0 0) by (change (vsub (Vec (0 + 1) 0 0) (Vec 0 0 0) = Vec 1 0 0); vunfold; num_simpl; f_equal; ring). rewrite E, dist1.
  change (p_mass west) with 1. change (p_mass east) with 1. change (p_iacc west) with (Vec (@G R _) 0 0).
  change (p_iacc east) with (Vec (- @G R _) 0 0). generalize (@G R _). intros g.
  vunfold. num_simpl. split; f_equal; field.
Qed.
Lemma pair_at_rest : at_rest_together west east.
Proof. change (vadd (vscale 1 (Vec 0 (-1) 0)) (vscale 1 (Vec 0 1 0)) = vzero). vunfold. num_simpl. f_equal; ring. Qed.
Lemma pair_apart : apart west east.
Proof. unfold apart. change (p_ipos west) with (Vec 0 0 0). change (p_ipos east) with (Vec (0 + 1) 0 0). intros Z. injection Z. lra. Qed.
Lemma step_large (s : R) : s * s = 1 -> vec_not_tiny (Vec (s * (G / SPEED_OF_LIGHT_2 * (7 - 9 * G))) 0 0).
Proof.
  intros Hs. repeat split; cbn [vx vy vz]; [right|left; reflexivity|left; reflexivity].
  pose proof k12_bounds as [K _]. unfold k12 in K.
  pose proof G_bounds as [G1 G2]. pose proof c2_bounds as [C1 C2].
  assert (L : limit_30 < / 100000000000000) by (unfold limit_30; num_simpl; lra).
  assert (A : Rabs s = 1) by (unfold Rabs; destruct (Rcase_abs s); nra).
  rewrite Rabs_mult, A, Rmult_1_l.
  revert L K G1 G2 C1 C2. generalize limit_30 (@G R _) (@SPEED_OF_LIGHT_2 R _). intros l g c L K G1 G2 C1 C2.
  assert (P : 0 < g / c) by (apply Rdiv_lt_0_compat; lra).
  assert (Q : g * g / c = g / c * g) by (field; lra). rewrite Q in K.
  rewrite Rabs_right by nra. nra.
Qed.
Lemma pair_large : pair_not_tiny west east.
Proof.
  assert (X0 : pos_at [west; east] west 0 = Vec 0 0 0) by reflexivity.
  assert (X1 : pos_at [west; east] west 1 = Vec 1 0 0) by (change (Vec (0 + 1) 0 0 = Vec 1 0 0); f_equal; ring).
  assert (V0 : vel_at [west; east] west 0 = Vec 0 (-1) 0) by reflexivity.
  assert (V1 : vel_at [west; east] west 1 = Vec 0 1 0) by reflexivity.
  assert (M0 : gm_at [west; east] west 0 = G) by (unfold gm_at, body_at; cbn [nth]; change (p_mass west) with 1; ring).
  assert (M1 : gm_at [west; east] west 1 = G) by (unfold gm_at, body_at; cbn [nth]; change (p_mass east) with 1; ring).
  assert (D01 : vsub (pos_at [west; east] west 1) (pos_at [west; east] west 0) = Vec 1 0 0) by (rewrite X0, X1; vunfold; num_simpl; f_equal; ring).
  assert (D10 : vsub (pos_at [west; east] west 0) (pos_at [west; east] west 1) = Vec (-1) 0 0) by (rewrite X0, X1; vunfold; num_simpl; f_equal; ring).
  pose proof c2_ne as Hc.
  set (c := @SPEED_OF_LIGHT_2 R _) in *. set (g := @G R _) in *.
  set (gm := gm_at _ _) in *. set (x := pos_at _ _) in *. set (v := vel_at _ _) in *.
  assert (R01 : gap x 0 1 = 1) by (unfold gap; rewrite D01; apply dist1).
  assert (R10 : gap x 1 0 = 1) by (unfold gap; rewrite D10; apply dist2).
  intros i Hi. fold c gm x v. destruct i as [|[|i]]; [| |lia].
  - assert (E : eih_acc c 2 gm x v (newton_acc 2 gm x) 0 = Vec (1 * (g / c * (7 - 9 * g))) 0 0).
    { unfold eih_acc, newton_acc, others. cbn [seq filter Nat.eqb negb map Vsum fold_right]. unfold eih_term, newton_term, potential, others.
      cbn [seq filter Nat.eqb negb map Vsum Rsum fold_right]. rewrite R01, R10, D01, D10, M0, M1, V0, V1.
      clearbody c g. clear - Hc. vunfold. num_simpl. f_equal; field; exact Hc. }
    rewrite E. apply step_large. ring.
  - assert (E : eih_acc c 2 gm x v (newton_acc 2 gm x) 1 = Vec (-1 * (g / c * (7 - 9 * g))) 0 0).
    { unfold eih_acc, newton_acc, others. cbn [seq filter Nat.eqb negb map Vsum fold_right]. unfold eih_term, newton_term, potential, others.
      cbn [seq filter Nat.eqb negb map Vsum Rsum fold_right]. rewrite R01, R10, D01, D10, M0, M1, V0, V1.
      clearbody c g. clear - Hc. vunfold. num_simpl. f_equal; field; exact Hc. }
    rewrite E. apply step_large. ring.
Qed.
Lemma relativistic_two : is_newhall west /\ gr_orbiting east = true /\ 0 < p_mass west /\ 0 < p_mass east /\ apart west east /\
  newtonian_pair west east /\ at_rest_together west east /\ pair_not_tiny west east /\ rel_vel west east = Vec 0 2 0.
Proof.
  repeat split; try exact pair_apart; try apply pair_newtonian; try exact pair_at_rest; try apply pair_large; try assumption.
  1,2: change (0 < 1); lra. change (vsub (Vec 0 1 0) (Vec 0 (-1) 0) = Vec 0 2 0). vunfold. num_simpl. f_equal; ring.
Qed.

(** a body without mass around the same host *)
Definition heavy : particle R := set_p_mass_g G (rest (GrCentral Anderson1975) 0 0).
Definition light : particle R := set_p_ivel (Vec 0 1 0) (set_p_mass 0 (rest GrOrbiting 1 (- G))).
Lemma test_body : is_anderson heavy /\ gr_orbiting light = true /\ 0 < p_mass heavy /\ 0 <= p_mass light /\ 0 < p_mass_g heavy /\ apart heavy light /\
  vsub (p_iacc light) (p_iacc heavy) = vscale (- (p_mass_g heavy / sqrt (norm2 (rel_pos heavy light)) ^ 3)) (rel_pos heavy light) /\
  0 < smallness (p_mass_g heavy) (rel_pos heavy light) (rel_vel heavy light) <= 1 / 20.
Proof.
  assert (E : rel_pos heavy light = Vec 1 0 0) by (change (vsub (Vec 1 0 0) (Vec 0 0 0) = Vec 1 0 0); vunfold; num_simpl; f_equal; ring).
  assert (Ev : rel_vel heavy light = Vec 0 1 0) by (change (vsub (Vec 0 1 0) (Vec 0 0 0) = Vec 0 1 0); vunfold; num_simpl; f_equal; ring).
  rewrite E, Ev. unfold smallness. rewrite dist1. change (p_mass_g heavy) with (@G R _).
  change (p_mass heavy) with 1. change (p_mass light) with 0. pose proof G_bounds as [G1 G2]. pose proof c2_bounds as [C1 C2].
  assert (S : norm2 (Vec 0 1 0) = 1) by (vunfold; num_simpl; ring). rewrite S.
  repeat split; try lra.
  - unfold apart. change (p_ipos heavy) with (Vec 0 0 0). change (p_ipos light) with (Vec 1 0 0). intros Z. injection Z. lra.
  - change (p_iacc heavy) with (Vec 0 0 0). change (p_iacc light) with (Vec (- @G R _) 0 0). vunfold. num_simpl. f_equal; field.
  - apply Rdiv_lt_0_compat; lra.
  - apply Rle_div_l; lra.
Qed.

(** two bodies with masses around it *)
Definition companion_1 : particle R := rest GrOrbiting 1 (- G).
Definition companion_2 : particle R := set_p_mass 2 (rest GrOrbiting 2 (- (G / 4))).
Lemma companions : is_anderson heavy /\ 0 < p_mass heavy /\ p_mass companion_1 = 1 /\ p_mass companion_2 = 2 /\
  filter gr_orbiting [companion_1; companion_2] = [companion_1; companion_2] /\ p_ipos companion_1 <> p_ipos companion_2.
Proof.
  repeat split.
  - change (0 < 1). lra.
  - change (Vec 1 0 0 <> Vec 2 0 0). intros Z. injection Z. lra.
Qed.
