(** Two bodies under the Newhall and the Anderson corrections *)
From Coquelicot Require Import Coquelicot.
From Coq Require Import Reals Lra Psatz List Bool ZArith Lia.
From Verif Require Import Base.Num Base.Vec Base.Trans Model.Constants Model.Particle Model.Relativity
  Proofs.NumLemmas Proofs.VecLemmas Proofs.RelativityProofs Proofs.ShiftProofs Proofs.RelativityExamples Proofs.EIHProofs Proofs.DiskOrbit Proofs.PostNewton
  Spec.EffectsSpec Spec.DiskSpec Spec.EIHSpec Spec.PostNewtonSpec.
Import ListNotations.
Open Scope R_scope.

(** the accelerations that Newton's law gives the two *)
Definition newtonian_pair (host p : particle R) : Prop :=
  let r := rel_pos host p in let d := sqrt (norm2 r) in
  p_iacc host = vscale (G * p_mass p / d ^ 3) r /\ p_iacc p = vscale (- (G * p_mass host / d ^ 3)) r.
Definition at_rest_together (host p : particle R) : Prop :=
  vadd (vscale (p_mass host) (p_ivel host)) (vscale (p_mass p) (p_ivel p)) = vzero.
Definition mass_ratio (host p : particle R) : R := p_mass host * p_mass p / (p_mass host + p_mass p) ^ 2.
(** the corrections that the program would not take for zero are not below its limit *)
Definition pair_not_tiny (host p : particle R) : Prop :=
  forall i, (i < 2)%nat -> vec_not_tiny (eih_acc SPEED_OF_LIGHT_2 2 (gm_at [host; p] host) (pos_at [host; p] host) (vel_at [host; p] host)
    (newton_acc 2 (gm_at [host; p] host) (pos_at [host; p] host)) i).

Section Pair.
  Variables (host p host' p' : particle R).
  Hypotheses (Hh : is_newhall host) (Ho : gr_orbiting p = true) (Mh : 0 < p_mass host) (Mp : 0 < p_mass p)
    (Ha : apart host p) (Hn : newtonian_pair host p) (Hc : at_rest_together host p) (Ht : pair_not_tiny host p)
    (E : relativity_pass IgnoreNone host [p] = (host', [p'])).
  Lemma newton_of_pair i : (i < 2)%nat ->
    p_iacc (body_at [host; p] host i) = newton_acc 2 (gm_at [host; p] host) (pos_at [host; p] host) i.
  Proof.
    intros Hi. destruct Hn as [N0 N1]. unfold newton_acc, others, newton_term, gap, gm_at, pos_at, body_at.
    destruct i as [|[|i]]; [| |lia]; cbn [seq filter Nat.eqb negb map Vsum fold_right nth]; rewrite vadd_0_r.
    - rewrite N0. reflexivity.
    - rewrite N1. unfold rel_pos.
      assert (En : norm2 (vsub (p_ipos host) (p_ipos p)) = norm2 (vsub (p_ipos p) (p_ipos host))) by (destruct (p_ipos host), (p_ipos p); vunfold; num_simpl; ring).
      rewrite En. generalize (G * p_mass host / sqrt (norm2 (vsub (p_ipos p) (p_ipos host))) ^ 3). intros k.
      destruct (p_ipos host), (p_ipos p). vunfold. num_simpl. f_equal; ring.
  Qed.
  Theorem newhall_relative : vsub (relativistic_acc p') (relativistic_acc host') =
    kidder_1pn SPEED_OF_LIGHT_2 (G * (p_mass host + p_mass p)) (mass_ratio host p) (rel_pos host p) (rel_vel host p).
  Proof.
    assert (L : forall i, (i < 2)%nat -> nth i (map relativistic_acc [host'; p']) vzero =
      eih_acc SPEED_OF_LIGHT_2 2 (gm_at [host; p] host) (pos_at [host; p] host) (vel_at [host; p] host)
        (newton_acc 2 (gm_at [host; p] host) (pos_at [host; p] host)) i).
    { intros i Hi.
      assert (X : forall k, eih_acc SPEED_OF_LIGHT_2 2 (gm_at [host; p] host) (pos_at [host; p] host) (vel_at [host; p] host) (fun j => p_iacc (body_at [host; p] host j)) k
        = eih_acc SPEED_OF_LIGHT_2 2 (gm_at [host; p] host) (pos_at [host; p] host) (vel_at [host; p] host) (newton_acc 2 (gm_at [host; p] host) (pos_at [host; p] host)) k)
        by (intros k; apply eih_ext; try reflexivity; exact newton_of_pair).
      rewrite <- X. apply (newhall_law host [p]); [exact Hh|constructor; [exact Ho|constructor]| | |exact E|exact Hi].
      - intros [|[|a]] [|[|b]] La Lb Hab; cbn in La, Lb; try lia; unfold pos_at, body_at; cbn [nth]; unfold apart in Ha; congruence.
      - intros k Hk. cbn [length] in *. rewrite X. now apply Ht. }
    pose proof (L 0%nat (le_S _ _ (le_n _))) as L0. pose proof (L 1%nat (le_n _)) as L1. cbn [map nth] in L0, L1.
    rewrite L0, L1. rewrite (eih_two SPEED_OF_LIGHT_2).
    - unfold gm_at, pos_at, vel_at, body_at, rel_pos, rel_vel, mass_ratio. cbn [nth]. pose proof G_bounds as [G0 _].
      f_equal; [ring|]. assert (g0 : 0 < G * (p_mass host + p_mass p)) by (apply Rmult_lt_0_compat; lra). field. repeat split; lra.
    - exact c2_ne.
    - unfold gm_at, body_at. cbn [nth]. pose proof G_bounds. apply Rmult_lt_0_compat; lra.
    - unfold gm_at, body_at. cbn [nth]. pose proof G_bounds. apply Rmult_lt_0_compat; lra.
    - exact Ha.
    - unfold gm_at, vel_at, body_at. cbn [nth]. revert Hc. unfold at_rest_together. generalize (@G R _). intros g.
      destruct (p_ivel host), (p_ivel p). vunfold. num_simpl. intros Z. injection Z as Z1 Z2 Z3. f_equal; [transitivity (g * 0); [rewrite <- Z1|]; ring|transitivity (g * 0); [rewrite <- Z2|]; ring|transitivity (g * 0); [rewrite <- Z3|]; ring].
  Qed.
  Variables (x v : R -> vec R) (t : R).
  Let gm := G * (p_mass host + p_mass p).
  Hypotheses (Ex : x t = rel_pos host p) (Ev : v t = rel_vel host p)
    (M : disturbed_orbit gm x v t (vsub (relativistic_acc p') (relativistic_acc host'))).
  Theorem newhall_conserves :
    derivable_pt_lim (fun u => energy_1pn SPEED_OF_LIGHT_2 gm (mass_ratio host p) (x u) (v u)) t
      (energy_left gm (mass_ratio host p) (x t) (v t) / SPEED_OF_LIGHT_2 ^ 2) /\
    vderiv (fun u => momentum_1pn SPEED_OF_LIGHT_2 gm (mass_ratio host p) (x u) (v u)) t
      (vscale (/ SPEED_OF_LIGHT_2 ^ 2) (momentum_left gm (mass_ratio host p) (x t) (v t))).
  Proof.
    rewrite newhall_relative in M. fold gm in M. rewrite <- Ex, <- Ev in M.
    assert (Hr : 0 < norm2 (x t)).
    { rewrite Ex. apply norm2_pos. intros Z. apply Ha. revert Z. unfold rel_pos. destruct (p_ipos host), (p_ipos p). vunfold. num_simpl.
      intros Z. injection Z. intros. f_equal; lra. }
    split; [apply energy_change|apply momentum_change]; auto using c2_ne.
  Qed.
End Pair.

(** ** Anderson *)
Lemma anderson_prepare (host p : particle R) : is_anderson host -> gr_orbiting p = true ->
  exists h q, gr_prepare host [p] = (h, [q]) /\ kept host h /\ kept p q.
Proof.
  unfold is_anderson, gr_prepare, gr_inertial_to_heliocentric, gr_implemented. intros E Ep. rewrite E.
  unfold gr_initialize. set (h := set_gr_coords _ _ _ _ _ _ host).
  assert (Eh : gr_effect (p_gr h) = GrCentral Anderson1975) by exact E. rewrite Eh. cbn [map]. rewrite Ep.
  eexists _, _. split; [reflexivity|]. split; [repeat split; reflexivity|].
  match goal with |- context [if ?b then _ else _] => destruct b end; repeat split; reflexivity.
Qed.
Theorem anderson_relative (host p host' p' : particle R) : is_anderson host -> gr_orbiting p = true -> 0 < p_mass host -> 0 <= p_mass p ->
  relativity_pass IgnoreNone host [p] = (host', [p']) ->
  vsub (relativistic_acc p') (relativistic_acc host') =
  anderson_correction (p_mass_g host) (rel_pos host p, rel_vel host p, vsub (p_iacc p) (p_iacc host)).
Proof.
  intros Hh Ho Mh Mp E. destruct (anderson_prepare host p Hh Ho) as (h & q & Ep & Kh & Kq). unfold relativity_pass in E. rewrite Ep in E.
  destruct Kh as (K1 & K2 & K3 & K4 & K5 & K6), Kq as (Q1 & Q2 & Q3 & Q4 & Q5 & Q6).
  assert (Eh : gr_effect (p_gr h) = GrCentral Anderson1975) by now rewrite K6. rewrite Eh in E.
  assert (Oq : gr_orbiting q = true) by (unfold gr_orbiting in *; now rewrite Q6).
  unfold anderson, newtonian_accelerations in E. cbn [map combine firstn fold_left skipn app] in E.
  unfold to_jacobi in E. cbn [map combine firstn fold_left skipn app] in E. rewrite step_on in E by exact Oq.
  cbv zeta in E. cbn [js_eta js_x js_v js_a app combine map fst snd] in E. rewrite Oq in E.
  match type of E with context [anderson_correction ?mu (?a, ?b, ?c)] =>
    replace (anderson_correction mu (a, b, c)) with (anderson_correction (p_mass_g host) (rel_pos host p, rel_vel host p, vsub (p_iacc p) (p_iacc host))) in E end.
  2:{ rewrite K1, K2, K3, K4, K5, Q3, Q4, Q5. unfold rel_pos, rel_vel. f_equal.
      apply f_equal2; [apply f_equal2|].
      - destruct (p_ipos p), (p_ipos host). vunfold. num_simpl. f_equal; field; lra.
      - destruct (p_ivel p), (p_ivel host). vunfold. num_simpl. f_equal; field; lra.
      - destruct (p_iacc p), (p_iacc host). vunfold. num_simpl. f_equal; field; lra. }
  set (ja := anderson_correction _ _) in *. clearbody ja.
  unfold from_jacobi in E. cbn [combine fold_right] in E. unfold from_jacobi_step in E. rewrite Oq in E. cbv zeta in E. cbn [combine map fst snd] in E. rewrite Oq in E.
  pose proof (f_equal (fun r => relativistic_acc (fst r)) E) as E1. pose proof (f_equal (fun r => map relativistic_acc (snd r)) E) as E2.
  cbn [fst snd map] in E1, E2. assert (E3 : relativistic_acc p' = hd vzero (map relativistic_acc [p'])) by reflexivity.
  cbn [map] in E3. rewrite <- E2 in E3. cbn [hd] in E3. rewrite E3, <- E1. unfold relativistic_acc, on_gr, set_gr_acc.
  change (gr_acc (p_gr (set_p_gr ?g ?q))) with (gr_acc g). cbn [p_gr set_p_gr gr_acc]. rewrite K1, Q1.
  destruct ja as [j1 j2 j3]. vunfold. num_simpl. f_equal; field; repeat split; lra.
Qed.

(** ** The first order of Kidder *)
Theorem kidder_conserves (host p : particle R) x v t : apart host p -> p_ivel p <> p_ivel host ->
  let gm := p_mass_g host + p_mass_g p in
  x t = rel_pos host p -> v t = rel_vel host p -> disturbed_orbit gm x v t (kidder_first (prep_host host) (prep host p)) ->
  derivable_pt_lim (fun u => energy_1pn SPEED_OF_LIGHT_2 gm (eta_of host p) (x u) (v u)) t
    (energy_left gm (eta_of host p) (x t) (v t) / SPEED_OF_LIGHT_2 ^ 2) /\
  vderiv (fun u => momentum_1pn SPEED_OF_LIGHT_2 gm (eta_of host p) (x u) (v u)) t
    (vscale (/ SPEED_OF_LIGHT_2 ^ 2) (momentum_left gm (eta_of host p) (x t) (v t))).
Proof.
  intros Ha Hv gm Ex Ev M. rewrite first_formula in M by assumption. fold gm in M.
  change (vsub (p_ipos p) (p_ipos host)) with (rel_pos host p) in M. change (vsub (p_ivel p) (p_ivel host)) with (rel_vel host p) in M.
  rewrite <- Ex, <- Ev in M.
  assert (Hr : 0 < norm2 (x t)).
  { rewrite Ex. apply norm2_pos. intros Z. apply Ha. revert Z. unfold rel_pos. destruct (p_ipos host), (p_ipos p). vunfold. num_simpl.
    intros Z. injection Z. intros. f_equal; lra. }
  split; [apply energy_change|apply momentum_change]; auto using c2_ne.
Qed.
