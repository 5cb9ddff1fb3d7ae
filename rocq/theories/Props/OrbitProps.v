(** * C47-C50: orbital elements, Kepler's equation, true anomaly *)
From Coq Require Import Reals Lra Lia List ZArith.
From Verif Require Import Base.Num Base.Trans Base.Vec Model.Tools Spec.OrbitSpec Proofs.NumLemmas Proofs.VecLemmas
  Proofs.OrbitState Proofs.OrbitElements Proofs.TrueAnomaly Proofs.KeplerSolvers Proofs.OrbitFindings.
Open Scope R_scope.

(** ** C47: from elements to a state
    The state has the distance, energy, angular momentum and vector of Laplace
    of the orbit described.  [a = q/(1-e)]; the anomaly is the one the solver of
    Kepler's equation returns (how well it solves it is C48). *)
Theorem C47_ellipse gm q e i p n l (x v : vec R) :
  0 < gm -> 0 < q -> 0 <= e < 1 -> cartesian_coordinates (F := R) gm q e i p n l = (x, v) ->
  let a := q / (1 - e) in let E := kepler_ellipse (F := R) e l in
  length3 x = a * (1 - e * cos E)
  /\ energy gm x v = - gm / (2 * a)
  /\ cross x v = times (sqrt (gm * a * (1 - e * e))) (plane_normal i n)
  /\ laplace gm x v = times e (towards_pericentre i (p - n) n)
  /\ x = in_plane i (p - n) n (a * (cos E - e)) (a * sqrt (1 - e * e) * sin E).
Proof. exact (cartesian_ellipse gm q e i p n l x v). Qed.
Theorem C47_parabola gm q i p n l (x v : vec R) : 0 < gm -> 0 < q ->
  cartesian_coordinates (F := R) gm q 1 i p n l = (x, v) ->
  let u := snd (kepler_parabola (F := R) l) in
  length3 x = q * (1 + u * u)
  /\ energy gm x v = 0
  /\ cross x v = times (sqrt (2 * gm * q)) (plane_normal i n)
  /\ laplace gm x v = towards_pericentre i (p - n) n.
Proof. exact (cartesian_parabola gm q i p n l x v). Qed.
Theorem C47_hyperbola gm q e i p n l (x v : vec R) : 0 < gm -> 0 < q -> 1 < e ->
  cartesian_coordinates (F := R) gm q e i p n l = (x, v) ->
  let a := q / (1 - e) in let H := kepler_hyperbola (F := R) e l in
  length3 x = a * (1 - e * cosh H)
  /\ energy gm x v = - gm / (2 * a)
  /\ cross x v = times (sqrt (gm * a * (1 - e * e))) (plane_normal i n)
  /\ laplace gm x v = times e (towards_pericentre i (p - n) n).
Proof. exact (cartesian_hyperbola gm q e i p n l x v). Qed.
(** a circular orbit at mean anomaly zero, in a tilted plane *)
Example C47_at_pericentre : exists x v : vec R,
  cartesian_coordinates (F := R) 4 1 0 (PI / 2) 0 0 0 = (x, v) /\ length3 x = 1 /\ energy 4 x v = -2
  /\ cross x v = Vec 0 (-2) 0.
Proof.
  destruct (cartesian_coordinates (F := R) 4 1 0 (PI / 2) 0 0 0) as [x v] eqn:E. exists x, v. split; [reflexivity|].
  destruct (C47_ellipse 4 1 0 (PI / 2) 0 0 0 x v ltac:(lra) ltac:(lra) ltac:(lra) E) as (A & B & C & _).
  split; [rewrite A; field|]. split; [rewrite B; field|].
  rewrite C. unfold times, plane_normal. cbn [vx vy vz]. rewrite sin_0, cos_0, sin_PI2, cos_PI2.
  replace (4 * (1 / (1 - 0)) * (1 - 0 * 0)) with (2 * 2) by field. rewrite sqrt_square by lra. f_equal; ring.
Qed.

(** ** C48: the solvers
    Full statement: for every eccentricity and mean anomaly the value returned
    satisfies Kepler's equation (to a stated accuracy).
    It is false: [C48_negative_refuted], [C48_hyperbola_refuted].
    Proved: the whole-turn reduction, circular orbits, parabolas, that one step
    keeps a solution.  Missing: an accuracy bound over all ellipses. *)
(** reduction by whole turns and by symmetry *)
Theorem C48_reduction_partial e oldl : let '(l, sign) := reduce_anomaly (F := R) oldl in
  (0 <= oldl -> 0 <= l <= PI) /\
  exists k : Z, forall u, Rabs (sign * u - e * sin (sign * u) - (oldl + IZR k * (2 * PI))) = Rabs (u - e * sin u - l).
Proof.
  pose proof (reduce_range oldl) as A. pose proof (residual_reduced e oldl) as B.
  destruct (reduce_anomaly oldl). exact (conj A B).
Qed.
Theorem C48_circular oldl : exists k : Z, kepler 0 (oldl + IZR k * (2 * PI)) (kepler_ellipse (F := R) 0 oldl).
Proof. destruct (kepler_circular oldl) as [k K]. exists k. unfold kepler. rewrite K. ring. Qed.
Theorem C48_step_keeps_solution e l u : kepler e l u -> 0 <= e < 1 ->
  kepler_refine (F := R) e l u (u - sin u) (1 - cos u) = u.
Proof. exact (refine_exact e l u). Qed.
Theorem C48_parabola q0 : let '(q, u) := kepler_parabola (F := R) q0 in
  q = q0 /\ (1 / 1000 <= Rabs q0 -> barker q0 u) /\ Rabs (u + u ^ 3 / 3 - q0) <= Rabs q0 ^ 7.
Proof. exact (kepler_parabola_spec q0). Qed.
Theorem C48_hyperbola_keeps_solution n e capn x : kepler_hyp e capn x -> fget_loop (F := R) n e capn x = x.
Proof. exact (fget_keeps n e capn x). Qed.
(** a negative mean anomaly is not brought into the solver's range, and the
    answer misses Kepler's equation by more than 0.4 whatever the number of turns *)
Theorem C48_negative_range oldl : oldl < 0 -> - (2 * PI) < fst (reduce_anomaly (F := R) oldl) <= 0.
Proof. exact (reduce_negative oldl). Qed.
Theorem C48_negative_refuted : exists e oldl, 0 <= e < 1 /\ forall k : Z,
  let E := kepler_ellipse (F := R) e oldl in 4 / 10 < Rabs (E - e * sin E - (oldl + IZR k * (2 * PI))).
Proof. exists (1 / 2), bad_mean. split; [lra|exact kepler_negative]. Qed.
(** hyperbolas with a small mean anomaly get the mean anomaly back *)
Theorem C48_hyperbola_low e n : Rabs n < 636 / 1000 * e - 6 / 10 -> kepler_hyperbola (F := R) e n = n.
Proof. exact (hyperbola_low e n). Qed.
Theorem C48_hyperbola_refuted : exists e n, 1 < e /\ ~ kepler_hyp e n (kepler_hyperbola (F := R) e n).
Proof. exists 2, (1 / 2). split; [lra|]. apply hyperbola_low_wrong. lra. Qed.
Example C48_quarter_turn : exists k : Z, kepler_ellipse (F := R) 0 (PI / 2) = PI / 2 + IZR k * (2 * PI).
Proof. exact (kepler_circular (PI / 2)). Qed.
Example C48_barker : barker (4 / 3) (snd (kepler_parabola (F := R) (4 / 3))).
Proof.
  pose proof (C48_parabola (4 / 3)) as H. destruct (kepler_parabola (4 / 3)) as [q u].
  apply H. rewrite Rabs_right; lra.
Qed.

(** ** C49: from a state to elements *)
Theorem C49_shape gm x v : 0 < gm -> x <> vzero :> vec R -> energy gm x v < 0 ->
  let el := keplerian_elements (F := R) gm x v in
  let e0 := length3 (laplace gm x v) in
  el_a el = - gm / (2 * energy gm x v)
  /\ 0 < el_a el
  /\ dot v v = gm * (2 / length3 x - 1 / el_a el)
  /\ dot (cross x v) (cross x v) = gm * el_a el * (1 - e0 * e0)
  /\ el_q el = el_a el * (1 - e0)
  /\ el_e el = (if Rlt_dec e0 (3 / 100000000) then 0 else e0)
  /\ perihelion_eccentricity (F := R) gm x v = (el_a el * (1 - e0), e0).
Proof. exact (elements_shape gm x v). Qed.
(** The state is recovered from its elements when the second component of the
    angular momentum is not positive (and the orbit is bound and not circular). *)
Theorem C49_round_trip_partial gm x v : 0 < gm -> x <> vzero -> energy gm x v < 0 -> cross x v <> vzero ->
  vy (cross x v) <= 0 -> 3 / 100000000 <= length3 (laplace gm x v) ->
  let el := keplerian_elements (F := R) gm x v in
  0 <= el_i el <= PI
  /\ cross x v = times (length3 (cross x v)) (plane_normal (el_i el) (el_n el))
  /\ laplace gm x v = times (el_e el) (towards_pericentre (el_i el) (el_p el - el_n el) (el_n el))
  /\ (kepler (el_e el) (el_l el) (kepler_ellipse (F := R) (el_e el) (el_l el)) ->
      cartesian_coordinates (F := R) gm (el_q el) (el_e el) (el_i el) (el_p el) (el_n el) (el_l el) = (x, v)).
Proof.
  intros Hg Hx Hb Hh Hy He el.
  pose proof (el_e_value gm x v Hg Hx Hb He) as Ee. fold el in Ee.
  split; [exact (proj1 (plane gm x v Hh Hy))|]. split; [exact (proj2 (plane gm x v Hh Hy))|]. split.
  - rewrite Ee. exact (pericentre gm x v Hg Hx Hb Hh Hy He).
  - intros K. rewrite Ee in K. exact (cartesian_of_elements gm x v Hg Hx Hb Hh Hy He K).
Qed.
(** otherwise the inclination is above pi and the elements describe another orbit *)
Theorem C49_inclination_outside gm x v : 0 < vy (cross x v) -> PI < el_i (keplerian_elements (F := R) gm x v) < 2 * PI.
Proof. exact (inclination_outside gm x v). Qed.
Theorem C49_wrong_side gm x v x' v' : 0 < gm -> x <> vzero -> energy gm x v < 0 -> 0 < vy (cross x v) ->
  3 / 100000000 <= length3 (laplace gm x v) ->
  let el := keplerian_elements (F := R) gm x v in
  cartesian_coordinates (F := R) gm (el_q el) (el_e el) (el_i el) (el_p el) (el_n el) (el_l el) = (x', v') ->
  cross x' v' = mirrored (cross x v).
Proof. exact (wrong_side gm x v x' v'). Qed.
Theorem C49_inclination_refuted : exists gm x v, 0 < gm /\ energy gm x v < 0
  /\ ~ (0 <= el_i (keplerian_elements (F := R) gm x v) <= PI).
Proof.
  exists 1, (Vec 1 0 0), (Vec 0 0 (-1)). split; [lra|]. split.
  - unfold energy, dot, length3. cbn [vx vy vz]. replace (1 * 1 + 0 * 0 + 0 * 0) with 1 by ring. rewrite sqrt_1. lra.
  - pose proof (C49_inclination_outside 1 (Vec 1 0 0) (Vec 0 0 (-1))) as H. cbn [vx vy vz cross] in H. lra.
Qed.
(** a circular orbit's phase is only ever reported in [0, pi] *)
Theorem C49_circular_phase gm x v : el_e (keplerian_elements (F := R) gm x v) = 0 ->
  0 <= el_l (keplerian_elements (F := R) gm x v) <= PI.
Proof. exact (circular_phase gm x v). Qed.
Theorem C49_circular_refuted : exists gm x v x' v', x <> x'
  /\ keplerian_elements (F := R) gm x v = keplerian_elements (F := R) gm x' v'.
Proof.
  exists 1, (Vec 0 1 0), (Vec (-1) 0 0), (Vec 0 (-1) 0), (Vec 1 0 0). split; [|exact circular_opposite].
  intros K. injection K. lra.
Qed.
Theorem C49_unbound_mean_anomaly e r a rv t : 1 <= e -> mean_anomaly_raw (F := R) e r a rv t = 0.
Proof. exact (unbound_mean_anomaly e r a rv t). Qed.
(** an eccentric orbit seen at pericentre satisfies the hypotheses *)
Example C49_eccentric : let x := Vec 1 0 0 in let v := Vec 0 (6 / 5) 0 in
  energy 1 x v < 0 /\ vy (cross x v) <= 0 /\ length3 (laplace 1 x v) = 11 / 25 /\ cross x v = Vec 0 0 (6 / 5).
Proof.
  cbv zeta. unfold energy, laplace, minus, times, cross, dot, length3. cbn [vx vy vz].
  replace (1 * 1 + 0 * 0 + 0 * 0) with 1 by ring. rewrite sqrt_1. repeat split; try lra.
  - match goal with |- sqrt ?t = _ => replace t with (11 / 25 * (11 / 25)) by field end. apply sqrt_square. lra.
  - f_equal; ring.
Qed.

(** ** C50: the true anomaly *)
Theorem C50_terminates e m : 0 <= e < 1 -> exists N, forall fuel, (N <= fuel)%nat -> true_anomaly (F := R) fuel e m <> None.
Proof.
  intros He. destruct (small_power e (1 / 10000000000000) He ltac:(lra)) as [N HN]. exists (S N). intros fuel Hf.
  apply (true_anomaly_stops e m N fuel He); [|lia].
  cbn [pow]. pose proof (pow_le e N (proj1 He)). nra.
Qed.
Theorem C50_rounds e m N fuel : 0 <= e < 1 -> e ^ S N <= 1 / 10000000000000 -> (N < fuel)%nat ->
  true_anomaly (F := R) fuel e m <> None.
Proof. exact (true_anomaly_stops e m N fuel). Qed.
Theorem C50_value fuel e m f : 0 <= e < 1 -> true_anomaly (F := R) fuel e m = Some f ->
  exists u, Rabs (u - e * sin u - m) <= e / 10000000000000
    /\ (forall E, kepler e m E -> Rabs (u - E) <= e / (1 - e) / 10000000000000)
    /\ (cos (u / 2) <> 0 -> - PI < f < PI /\ cos f = (cos u - e) / (1 - e * cos u)
          /\ sin f = sqrt (1 - e * e) * sin u / (1 - e * cos u)).
Proof. exact (true_anomaly_value fuel e m f). Qed.
Example C50_tenth : true_anomaly (F := R) 13 (1 / 10) 1 <> None.
Proof. apply (C50_rounds (1 / 10) 1 12 13); [lra| |lia]. cbn. lra. Qed.

Print Assumptions C47_ellipse.
Print Assumptions C47_parabola.
Print Assumptions C47_hyperbola.
Print Assumptions C48_reduction_partial.
Print Assumptions C48_circular.
Print Assumptions C48_step_keeps_solution.
Print Assumptions C48_parabola.
Print Assumptions C48_hyperbola_keeps_solution.
Print Assumptions C48_negative_range.
Print Assumptions C48_negative_refuted.
Print Assumptions C48_hyperbola_low.
Print Assumptions C48_hyperbola_refuted.
Print Assumptions C49_shape.
Print Assumptions C49_round_trip_partial.
Print Assumptions C49_inclination_outside.
Print Assumptions C49_wrong_side.
Print Assumptions C49_inclination_refuted.
Print Assumptions C49_circular_phase.
Print Assumptions C49_circular_refuted.
Print Assumptions C49_unbound_mean_anomaly.
Print Assumptions C50_terminates.
Print Assumptions C50_rounds.
Print Assumptions C50_value.
