(** * Theorems on a whole WHFast step (properties C62 to C64) *)
From Coq Require Import Reals Lra Lia List Bool Arith.
From Verif Require Import Base.Num Base.Result Base.Trans Base.Vec Model.Constants Model.Particle Model.Host
  Model.Creep Model.Relativity Model.Universe Model.WHFast
  Spec.EffectsSpec Spec.UniverseSpec Spec.WHFastSpec Spec.SplittingSpec Proofs.NumLemmas Proofs.VecLemmas
  Proofs.GravityProofs Proofs.EffectSums Proofs.UniverseExamples Proofs.KeplerProofs Proofs.WHFastLast
  Proofs.SplittingProofs Proofs.SplittingMomentum Proofs.KeplerTotal Proofs.KeplerBounds Proofs.WHFastTotal Proofs.SplittingExamples.
Import ListNotations.
Open Scope R_scope.

Section Any.
  (** the functions of libm and the iteration bound do not matter *)
  Context `{Trans R} `{Floor R} `{Fuel}.

  (** ** C62 *)
  Theorem C62_step t dt half (w w' : whfast R) : ready w -> roche_square (w_u w) -> masses_g (w_u w) -> wh_step t dt half w = Ok w' ->
    exists s s', splits (w_u w) s /\ splits (w_u w') s' /\
    exists a b d e, kepler_part (w_type w) half s a /\ jump_part (w_type w) half a b /\ kick_part (w_type w) dt b d
      /\ jump_part (w_type w) half d e /\ kepler_part (w_type w) half e s'.
  Proof. exact (step_splits t dt half w w'). Qed.

  (** ** C63 *)
  Theorem C63_jump c h s s' : usable c (fst s) (snd s) -> jump_part c h s s' -> orbital_momentum (all s') = orbital_momentum (all s).
  Proof. exact (jump_momentum c h s s'). Qed.
  Theorem C63_kick c h s s' : usable c (fst s) (snd s) -> kick_part c h s s' -> orbital_momentum (all s') = orbital_momentum (all s).
  Proof. exact (kick_momentum c h s s'). Qed.
  (** each Kepler motion multiplies its own angular momentum with a number, which is 1
      for the exact solution ([C18_exact_drift]).  Missing for conservation over a step:
      that this number is 1 for the solution the program finds, which is true up to the
      truncation of the series and the tolerance of the solver only *)
  Theorem C63_kepler_partial c h s s' : usable c (fst s) (snd s) -> kepler_part c h s s' ->
    exists ks, length ks = length (snd s) /\
    orbital_momentum (all s') = vadd (orbital_momentum (all s))
      (cross_sum (zip (fun m k => m * (k - 1)) (coordinate_masses c (fst s) (snd s)) ks) (positions c s) (velocities c s)).
  Proof. exact (kepler_momentum c h s s'). Qed.
  Theorem C63_step_partial t dt half (w w' : whfast R) : ready w -> roche_square (w_u w) -> masses_g (w_u w) -> wh_step t dt half w = Ok w' ->
    exists s e ks ks', splits (w_u w) s /\ same_masses s e /\ length ks = length (snd s) /\ length ks' = length (snd s) /\
    let turn x k := cross_sum (zip (fun m k => m * (k - 1)) (coordinate_masses (w_type w) (fst s) (snd s)) k) (positions (w_type w) x) (velocities (w_type w) x) in
    orbital_momentum (u_particles (w_u w')) = vadd (orbital_momentum (u_particles (w_u w))) (vadd (turn s ks) (turn e ks')).
  Proof. exact (step_momentum t dt half w w'). Qed.
End Any.

(** a star and a planet make a whole step *)
Example C62_example : exists (i : Fuel) (w' : whfast R), ready (new_whfast circ_u Jacobi) /\ roche_square circ_u /\ masses_g circ_u
  /\ wh_step 0 2 1 (new_whfast circ_u Jacobi) = Ok w'.
Proof.
  destruct circ_runs as (w' & N & E). exists {| fuel := N |}, w'. split; [apply circ_ready|]. split; [exact circ_square|]. split; [exact circ_masses_g|].
  now apply E.
Qed.
(** a kick that is not zero: three bodies on a line *)
Example C63_example c : usable c (at_ vzero vzero sun) [at_ (Vec 1 0 0) vzero earth] /\
  let s := (at_ vzero vzero sun, [at_ (Vec 1 0 0) vzero earth; at_ (Vec 2 0 0) vzero earth]) in
  vx (pulled (all s) (at_ (Vec 1 0 0) vzero earth)) < 0.
Proof.
  split.
  - destruct c; cbn [usable].
    + intros [|[|k]]; unfold total_mass; cbn; lra.
    + unfold total_mass. cbn. split; lra.
    + unfold total_mass. cbn. split; [lra|]. split; [lra|]. repeat constructor; cbn; lra.
  - cbn zeta. unfold pulled, all, Vsum. cbn [fst snd map fold_right]. pose proof G_positive as Gp.
    set (p := at_ (Vec 1 0 0) vzero earth). set (q := at_ (Vec 2 0 0) vzero earth). set (h := at_ vzero vzero sun).
    assert (D1 : separation p h = 1).
    { unfold separation. transitivity (sqrt 1); [f_equal; unfold p, h; cbn; num_simpl; ring|apply sqrt_1]. }
    assert (D2 : separation p q = 1).
    { unfold separation. transitivity (sqrt 1); [f_equal; unfold p, q; cbn; num_simpl; ring|apply sqrt_1]. }
    unfold attraction. rewrite D1, D2. generalize (G * p_mass p / separation p p ^ 3). intro z.
    replace (p_mass h) with 1 by (unfold h; cbn; reflexivity). replace (p_mass q) with (1/10) by (unfold q; cbn; reflexivity).
    replace (p_ipos h) with (Vec 0 0 0) by reflexivity. replace (p_ipos p) with (Vec 1 0 0) by reflexivity. replace (p_ipos q) with (Vec 2 0 0) by reflexivity.
    vunfold. generalize dependent (@G R _). intros g Gp. num_simpl. lra.
Qed.

(** ** C64 *)
(** a Kepler step of a non-degenerate orbit returns *)
Theorem C64_kepler_returns mu dt (a : alternative R) : 0 < mu -> 0 < dt -> norm2 (a_pos a) <> 0 -> vcross (a_pos a) (a_vel a) <> vzero ->
  returns (fun i => kepler_step (H2 := i) mu dt a).
Proof. intros Mu T _ _. exact (kepler_total mu dt a Mu T). Qed.
(** the interval that is bisected contains the solution of Kepler's equation, and no
    other solution exists *)
Theorem C64_bounds mu dt x v g : 0 < mu -> 0 < dt -> norm2 x <> 0 -> vcross x v <> vzero -> stiefel_functions (orbit_beta mu x v) g ->
  let b := bisection_bounds (F := R) (kepler_setup mu dt x v) in
  exists s, fst b <= s <= snd b /\ universal_time mu x v s (g s) = dt /\ forall s', universal_time mu x v s' (g s') = dt -> s' = s.
Proof. exact (bounds_bracket mu dt x v g). Qed.
(** what bisection returns: an end of an interval around a change of sign of the
    program's own Kepler equation, of relative width [1e-15] *)
Theorem C64_bisection (i : Fuel) n mu dt x v lo hi g : norm2 x <> 0 -> lo <= hi ->
  bisection n (kepler_setup mu dt x v) lo hi ((hi + lo) / 2) = Ok g ->
  let late s g := universal_time mu x v s g - dt in
  exists lo' hi' x', stiefel_gs3 (orbit_beta mu x v) x' = Ok g /\ (x' = lo' \/ x' = hi')
    /\ lo <= lo' /\ lo' <= hi' /\ hi' <= hi /\ Rabs (hi' - lo') / hi' <= 1 / 10 ^ 15
    /\ (lo' = lo \/ exists gl, stiefel_gs3 (orbit_beta mu x v) lo' = Ok gl /\ late lo' gl < 0)
    /\ (hi' = hi \/ exists gh, stiefel_gs3 (orbit_beta mu x v) hi' = Ok gh /\ 0 <= late hi' gh).
Proof.
  intros X L E. cbn zeta. destruct (bisection_brackets i n _ _ _ _ _ E) as (lo' & hi' & x' & S & W & D & A & B & O).
  rewrite setup_beta in * by exact X. destruct (O eq_refl L) as (O1 & O2 & O3).
  exists lo', hi', x'. split; [exact S|]. split; [exact W|]. split; [exact O1|]. split; [exact O2|]. split; [exact O3|]. split; [exact D|].
  split.
  - destruct A as [A|(gl & A1 & A2)]; [now left|]. right. exists gl. split; [exact A1|]. now rewrite <- excess_time.
  - destruct B as [B|(gh & B1 & B2)]; [now left|]. right. exists gh. split; [exact B1|]. now rewrite <- excess_time.
Qed.
(** a step ends well, or reports an encounter *)
Theorem C64_step t dt half (w : whfast R) : ready w -> roche_square (w_u w) -> masses_g (w_u w) -> positive (w_u w) -> inertias (w_u w) -> 0 < half ->
  exists r, settles (fun i => wh_step (H2 := i) t dt half w) r /\ ((exists w', r = Ok w') \/ exists p, r = Panic p /\ encounter p).
Proof. exact (step_returns t dt half w). Qed.
Example C64_example c : ready (new_whfast circ_u c) /\ roche_square circ_u /\ masses_g circ_u /\ positive circ_u /\ inertias circ_u
  /\ exists w', settles (fun i => wh_step (H2 := i) 0 2 1 (new_whfast circ_u Jacobi)) (Ok w').
Proof.
  split; [apply circ_ready|]. split; [exact circ_square|]. split; [exact circ_masses_g|]. split; [exact circ_positive|]. split; [exact circ_inertias|].
  exact circ_runs.
Qed.
(** the hypotheses of the bounds hold for a circular orbit *)
Example C64_bounds_example : 0 < norm2 (a_pos circle) /\ vcross (a_pos circle) (a_vel circle) <> vzero
  /\ stiefel_functions (orbit_beta 1 (a_pos circle) (a_vel circle)) (fun s => Cs (cos s) (sin s) (1 - cos s) (s - sin s)).
Proof.
  split; [cbn; num_simpl; lra|]. split.
  - intro Z. apply (f_equal vz) in Z. revert Z. cbn. num_simpl. lra.
  - rewrite circle_beta. exact circle_functions.
Qed.

Print Assumptions C62_step.
Print Assumptions C63_jump.
Print Assumptions C63_kick.
Print Assumptions C63_kepler_partial.
Print Assumptions C63_step_partial.
Print Assumptions C64_kepler_returns.
Print Assumptions C64_bounds.
Print Assumptions C64_bisection.
Print Assumptions C64_step.
