(** * From elements to a state *)
From Coq Require Import Reals Lra Lia List Bool ZArith Psatz.
From Verif Require Import Base.Num Base.Trans Base.Vec Model.Constants Model.Tools Spec.OrbitSpec
  Proofs.NumLemmas Proofs.VecLemmas.
Import ListNotations.
Open Scope R_scope.

(** the in-plane coordinates along the two axes *)
Definition in_plane (i w n z1 z2 : R) : vec R :=
  Vec (vx (towards_pericentre i w n) * z1 + vx (ahead_of_pericentre i w n) * z2)
      (vy (towards_pericentre i w n) * z1 + vy (ahead_of_pericentre i w n) * z2)
      (vz (towards_pericentre i w n) * z1 + vz (ahead_of_pericentre i w n) * z2).

Lemma rotate_in_plane i p n z1 z2 z3 z4 :
  rotate_orbit (F := R) i p n z1 z2 z3 z4 = (in_plane i (p - n) n z1 z2, in_plane i (p - n) n z3 z4).
Proof.
  unfold rotate_orbit, in_plane, towards_pericentre, ahead_of_pericentre. cbn [vx vy vz].
  change (@tsin R _) with sin. change (@tcos R _) with cos. num_simpl.
  f_equal; f_equal; ring.
Qed.

Ltac trig i w n :=
  let Hi := fresh "Hi" in let Hw := fresh "Hw" in let Hn := fresh "Hn" in
  assert (Hi : sin i * sin i = 1 - cos i * cos i) by (pose proof (sin2_cos2 i) as Q; unfold Rsqr in Q; lra);
  assert (Hw : sin w * sin w = 1 - cos w * cos w) by (pose proof (sin2_cos2 w) as Q; unfold Rsqr in Q; lra);
  assert (Hn : sin n * sin n = 1 - cos n * cos n) by (pose proof (sin2_cos2 n) as Q; unfold Rsqr in Q; lra);
  generalize dependent (sin i); generalize dependent (cos i); generalize dependent (sin w);
  generalize dependent (cos w); generalize dependent (sin n); generalize dependent (cos n).

Lemma in_plane_dot i w n a b c d : dot (in_plane i w n a b) (in_plane i w n c d) = a * c + b * d.
Proof.
  unfold dot, in_plane, towards_pericentre, ahead_of_pericentre. cbn [vx vy vz].
  trig i w n. intros cn sn Hn cw sw Hw ci si Hi. ring [Hi Hw Hn].
Qed.
Lemma in_plane_cross i w n a b c d :
  cross (in_plane i w n a b) (in_plane i w n c d) = times (a * d - b * c) (plane_normal i n).
Proof.
  unfold cross, times, plane_normal, in_plane, towards_pericentre, ahead_of_pericentre. cbn [vx vy vz].
  trig i w n. intros cn sn Hn cw sw Hw ci si Hi. f_equal; ring [Hi Hw Hn].
Qed.
Lemma normal_cross i w n k a b :
  cross (in_plane i w n a b) (times k (plane_normal i n)) = in_plane i w n (k * b) (- (k * a)).
Proof.
  unfold cross, times, plane_normal, in_plane, towards_pericentre, ahead_of_pericentre. cbn [vx vy vz].
  trig i w n. intros cn sn Hn cw sw Hw ci si Hi. f_equal; ring [Hi Hw Hn].
Qed.
Lemma in_plane_length i w n a b : length3 (in_plane i w n a b) = sqrt (a * a + b * b).
Proof. unfold length3. f_equal. exact (in_plane_dot i w n a b a b). Qed.
Lemma in_plane_minus i w n a b c d k l :
  minus (times k (in_plane i w n a b)) (times l (in_plane i w n c d))
  = in_plane i w n (k * a - l * c) (k * b - l * d).
Proof. unfold minus, times, in_plane. cbn [vx vy vz]. f_equal; ring. Qed.
Lemma in_plane_axis i w n k : in_plane i w n k 0 = times k (towards_pericentre i w n).
Proof. unfold times, in_plane. f_equal; ring. Qed.
Lemma normal_unit i n : dot (plane_normal i n) (plane_normal i n) = 1.
Proof.
  unfold dot, plane_normal. cbn [vx vy vz].
  trig i 0 n. intros cn sn Hn c0 s0 _ ci si Hi. ring [Hi Hn].
Qed.

(** ** Ellipse *)
Section Ellipse.
Variables gm a e u : R.
Hypotheses (Hg : 0 < gm) (Ha : 0 < a) (He : 0 <= e < 1).
Let r := a * (1 - e * cos u).
Let b := sqrt (1 - e * e).
Let k := sqrt (gm / a).

Lemma ellipse_pos : 0 < 1 - e * cos u.
Proof. pose proof (COS_bound u). nra. Qed.
Lemma b_sq : b * b = 1 - e * e.
Proof. apply sqrt_sqrt. nra. Qed.
Lemma k_sq : k * k = gm / a.
Proof. apply sqrt_sqrt. apply Rlt_le, Rdiv_lt_0_compat; assumption. Qed.

Lemma ellipse_values : ellipse_state (F := R) gm a e u
  = (a * (cos u - e), a * b * sin u, - sin u * (k / (1 - e * cos u)), b * cos u * (k / (1 - e * cos u))).
Proof. reflexivity. Qed.

Let trig_u : sin u * sin u = 1 - cos u * cos u.
Proof. pose proof (sin2_cos2 u) as Q; unfold Rsqr in Q; lra. Qed.

Lemma ellipse_r : sqrt ((a * (cos u - e)) * (a * (cos u - e)) + (a * b * sin u) * (a * b * sin u)) = r.
Proof.
  pose proof b_sq as B. pose proof ellipse_pos.
  replace ((a * (cos u - e)) * (a * (cos u - e)) + (a * b * sin u) * (a * b * sin u)) with (r * r).
  - apply sqrt_square. unfold r. nra.
  - unfold r. transitivity (a * a * ((cos u - e) * (cos u - e) + (b * b) * (sin u * sin u))); [|ring].
    rewrite B, trig_u. ring.
Qed.
Lemma ellipse_v2 : (- sin u * (k / (1 - e * cos u))) * (- sin u * (k / (1 - e * cos u)))
  + (b * cos u * (k / (1 - e * cos u))) * (b * cos u * (k / (1 - e * cos u)))
  = gm / a * ((1 + e * cos u) / (1 - e * cos u)).
Proof.
  pose proof b_sq as B. pose proof k_sq as K. pose proof ellipse_pos as P.
  transitivity ((sin u * sin u + b * b * (cos u * cos u)) * (k * k) / ((1 - e * cos u) * (1 - e * cos u))).
  - field. lra.
  - rewrite B, K, trig_u. field. lra.
Qed.
Lemma ellipse_h : a * (cos u - e) * (b * cos u * (k / (1 - e * cos u))) - a * b * sin u * (- sin u * (k / (1 - e * cos u)))
  = sqrt (gm * a * (1 - e * e)).
Proof.
  pose proof ellipse_pos as P.
  transitivity (a * b * k * (cos u * cos u + sin u * sin u - e * cos u) / (1 - e * cos u)); [field; lra|].
  rewrite trig_u. replace (cos u * cos u + (1 - cos u * cos u) - e * cos u) with (1 - e * cos u) by ring.
  replace (a * b * k * (1 - e * cos u) / (1 - e * cos u)) with (a * k * b) by (field; lra).
  rewrite sqrt_mult; [|nra|nra]. unfold b. f_equal.
  replace a with (sqrt (a * a)) at 1 by (apply sqrt_square; lra).
  unfold k. rewrite <- sqrt_mult; [f_equal; field; lra|nra|apply Rlt_le, Rdiv_lt_0_compat; assumption].
Qed.
End Ellipse.

Theorem ellipse_orbit gm a e i w n u (x v : vec R) :
  0 < gm -> 0 < a -> 0 <= e < 1 ->
  (let '(z1, z2, z3, z4) := ellipse_state (F := R) gm a e u in (in_plane i w n z1 z2, in_plane i w n z3 z4)) = (x, v) ->
  length3 x = a * (1 - e * cos u)
  /\ energy gm x v = - gm / (2 * a)
  /\ cross x v = times (sqrt (gm * a * (1 - e * e))) (plane_normal i n)
  /\ laplace gm x v = times e (towards_pericentre i w n).
Proof.
  intros Hg Ha He E. rewrite ellipse_values in E. injection E as <- <-.
  pose proof (ellipse_pos e u He) as P.
  assert (L : length3 (in_plane i w n (a * (cos u - e)) (a * sqrt (1 - e * e) * sin u)) = a * (1 - e * cos u))
    by (rewrite in_plane_length; apply ellipse_r; assumption).
  assert (C : cross (in_plane i w n (a * (cos u - e)) (a * sqrt (1 - e * e) * sin u))
     (in_plane i w n (- sin u * (sqrt (gm / a) / (1 - e * cos u))) (sqrt (1 - e * e) * cos u * (sqrt (gm / a) / (1 - e * cos u))))
     = times (sqrt (gm * a * (1 - e * e))) (plane_normal i n)).
  { rewrite in_plane_cross. f_equal. apply ellipse_h; assumption. }
  split; [exact L|]. split; [|split; [exact C|]].
  - unfold energy. rewrite L, in_plane_dot, ellipse_v2 by assumption. field. lra.
  - unfold laplace. rewrite C, L, normal_cross, in_plane_minus, <- in_plane_axis.
    assert (H : sqrt (gm * a * (1 - e * e)) = a * sqrt (gm / a) * sqrt (1 - e * e)).
    { rewrite sqrt_mult; [|nra|nra]. f_equal.
      replace a with (sqrt (a * a)) at 2 by (apply sqrt_square; lra).
      rewrite <- sqrt_mult; [f_equal; field; lra|nra|apply Rlt_le, Rdiv_lt_0_compat; assumption]. }
    rewrite H. pose proof (b_sq e He) as B. pose proof (k_sq gm a Hg Ha) as K.
    set (b := sqrt (1 - e * e)) in *. set (k := sqrt (gm / a)) in *.
    assert (T : sin u * sin u = 1 - cos u * cos u) by (pose proof (sin2_cos2 u) as Q; unfold Rsqr in Q; lra).
    f_equal.
    + transitivity (/ gm * (a * (b * b) * (k * k) * cos u / (1 - e * cos u)) - (cos u - e) / (1 - e * cos u)); [field; lra|].
      rewrite B, K. field. lra.
    + transitivity (/ gm * (a * b * (k * k) * sin u / (1 - e * cos u)) - b * sin u / (1 - e * cos u)); [field; lra|].
      rewrite K. field. lra.
Qed.

Theorem cartesian_ellipse gm q e i p n l (x v : vec R) :
  0 < gm -> 0 < q -> 0 <= e < 1 -> cartesian_coordinates (F := R) gm q e i p n l = (x, v) ->
  let a := q / (1 - e) in let E := kepler_ellipse (F := R) e l in
  length3 x = a * (1 - e * cos E)
  /\ energy gm x v = - gm / (2 * a)
  /\ cross x v = times (sqrt (gm * a * (1 - e * e))) (plane_normal i n)
  /\ laplace gm x v = times e (towards_pericentre i (p - n) n)
  /\ x = in_plane i (p - n) n (a * (cos E - e)) (a * sqrt (1 - e * e) * sin E).
Proof.
  intros Hg Hq He H a E. unfold cartesian_coordinates in H. num_simpl.
  rewrite (proj2 (Rltb_true e 1)) in H by lra. fold a in H. fold E in H.
  assert (Ha : 0 < a) by (apply Rdiv_lt_0_compat; lra).
  destruct (ellipse_state gm a e E) as [[[z1 z2] z3] z4] eqn:Ez. rewrite rotate_in_plane in H.
  assert (K := ellipse_orbit gm a e i (p - n) n E x v Hg Ha He). rewrite Ez in K. specialize (K H).
  repeat split; try apply K. rewrite ellipse_values in Ez. injection Ez as <- <- _ _. injection H as <- _. reflexivity.
Qed.

(** ** Parabola and hyperbola *)
Lemma plane_laplace gm i w n z1 z2 z3 z4 (r h : R) : 0 < gm -> 0 < r -> sqrt (z1 * z1 + z2 * z2) = r ->
  z1 * z4 - z2 * z3 = h ->
  let x := in_plane i w n z1 z2 in let v := in_plane i w n z3 z4 in
  length3 x = r /\ cross x v = times h (plane_normal i n)
  /\ laplace gm x v = in_plane i w n (h * z4 / gm - z1 / r) (- (h * z3 / gm) - z2 / r).
Proof.
  intros Hg Hr Er Eh x v.
  assert (L : length3 x = r) by (unfold x; rewrite in_plane_length; exact Er).
  assert (C : cross x v = times h (plane_normal i n)) by (unfold x, v; rewrite in_plane_cross, Eh; reflexivity).
  split; [exact L|]. split; [exact C|].
  unfold laplace. rewrite C, L. unfold x, v. rewrite normal_cross, in_plane_minus. f_equal; field; lra.
Qed.
Theorem parabola_orbit gm q i w n u (x v : vec R) : 0 < gm -> 0 < q ->
  (let '(z1, z2, z3, z4) := parabola_state (F := R) gm q u in (in_plane i w n z1 z2, in_plane i w n z3 z4)) = (x, v) ->
  length3 x = q * (1 + u * u)
  /\ energy gm x v = 0
  /\ cross x v = times (sqrt (2 * gm * q)) (plane_normal i n)
  /\ laplace gm x v = towards_pericentre i w n.
Proof.
  intros Hg Hq E. unfold parabola_state in E. num_simpl. replace (2 / 1) with 2 in E by field.
  injection E as <- <-.
  set (k := sqrt (2 * gm / q)).
  assert (P : 0 < 2 * gm / q) by (apply Rdiv_lt_0_compat; lra).
  assert (K2 : k * k = 2 * gm / q) by (apply sqrt_sqrt; lra).
  assert (K0 : 0 < k) by (apply sqrt_lt_R0; exact P).
  assert (D : 0 < 1 + u * u) by nra.
  assert (Hs : sqrt (2 * gm * q) = q * k).
  { apply sqrt_lem_1; [nra|nra|]. transitivity (q * q * (k * k)); [ring|]. rewrite K2. field. lra. }
  assert (Er : sqrt (q * (1 - u * u) * (q * (1 - u * u)) + 2 * q * u * (2 * q * u)) = q * (1 + u * u)).
  { apply sqrt_lem_1; [nra|nra|]. ring. }
  assert (Eh : q * (1 - u * u) * (k / (1 + u * u)) - 2 * q * u * (- u * (k / (1 + u * u))) = q * k) by (field; lra).
  destruct (plane_laplace gm i w n _ _ _ _ _ _ Hg (Rmult_lt_0_compat _ _ Hq D) Er Eh) as (L & C & A).
  split; [exact L|]. split; [|split; [rewrite Hs; exact C|]].
  - unfold energy. rewrite L, in_plane_dot.
    replace (- u * (k / (1 + u * u)) * (- u * (k / (1 + u * u))) + k / (1 + u * u) * (k / (1 + u * u)))
      with (k * k / (1 + u * u)) by (field; lra). rewrite K2. field. lra.
  - rewrite A. replace (towards_pericentre i w n) with (times 1 (towards_pericentre i w n))
      by (destruct (towards_pericentre i w n); unfold times; cbn; f_equal; ring).
    rewrite <- in_plane_axis. f_equal.
    + transitivity (q * (k * k) / (1 + u * u) / gm - (1 - u * u) / (1 + u * u)); [field; lra|]. rewrite K2. field. lra.
    + transitivity (q * (k * k) * u / (1 + u * u) / gm - 2 * u / (1 + u * u)); [field; lra|]. rewrite K2. field. lra.
Qed.
Theorem cartesian_parabola gm q i p n l (x v : vec R) : 0 < gm -> 0 < q ->
  cartesian_coordinates (F := R) gm q 1 i p n l = (x, v) ->
  let u := snd (kepler_parabola (F := R) l) in
  length3 x = q * (1 + u * u)
  /\ energy gm x v = 0
  /\ cross x v = times (sqrt (2 * gm * q)) (plane_normal i n)
  /\ laplace gm x v = towards_pericentre i (p - n) n.
Proof.
  intros Hg Hq H u. unfold cartesian_coordinates in H. num_simpl.
  rewrite (proj2 (Rltb_false 1 1)), (proj2 (Reqb_true 1 1)) in H by lra. fold u in H.
  destruct (parabola_state gm q u) as [[[z1 z2] z3] z4] eqn:Ez. rewrite rotate_in_plane in H.
  apply (parabola_orbit gm q i (p - n) n u x v Hg Hq). rewrite Ez. exact H.
Qed.

Lemma cosh_sinh u : cosh u * cosh u - sinh u * sinh u = 1.
Proof.
  unfold cosh, sinh. assert (E : exp u * exp (- u) = 1) by (rewrite <- exp_plus, Rplus_opp_r; apply exp_0).
  transitivity (exp u * exp (- u)); [field|exact E].
Qed.
Lemma cosh_ge_1 u : 1 <= cosh u.
Proof.
  pose proof (cosh_sinh u). assert (0 < cosh u) by (unfold cosh; pose proof (exp_pos u); pose proof (exp_pos (- u)); lra). nra.
Qed.
Theorem hyperbola_orbit gm a e i w n u (x v : vec R) : 0 < gm -> a < 0 -> 1 < e ->
  (let '(z1, z2, z3, z4) := hyperbola_state (F := R) gm a e u in (in_plane i w n z1 z2, in_plane i w n z3 z4)) = (x, v) ->
  length3 x = a * (1 - e * cosh u)
  /\ energy gm x v = - gm / (2 * a)
  /\ cross x v = times (sqrt (gm * a * (1 - e * e))) (plane_normal i n)
  /\ laplace gm x v = times e (towards_pericentre i w n).
Proof.
  intros Hg Ha He E. unfold hyperbola_state in E. num_simpl.
  change (@tsinh R _) with sinh in E. change (@tcosh R _) with cosh in E. injection E as <- <-.
  rewrite (Rabs_left a) by assumption. pose proof (cosh_sinh u) as T. pose proof (cosh_ge_1 u) as C1.
  set (c := cosh u) in *. set (s := sinh u) in *. clearbody c s. 
  assert (D : 0 < e * c - 1) by nra.
  set (k := sqrt (gm / - a)). set (b := sqrt (e * e - 1)).
  assert (P : 0 < gm / - a) by (apply Rdiv_lt_0_compat; lra).
  assert (K2 : k * k = gm / - a) by (apply sqrt_sqrt; lra).
  assert (K0 : 0 < k) by (apply sqrt_lt_R0; exact P).
  assert (B2 : b * b = e * e - 1) by (apply sqrt_sqrt; nra).
  assert (B0 : 0 < b) by (apply sqrt_lt_R0; nra).
  assert (S2 : s * s = c * c - 1) by lra.
  assert (Hs : sqrt (gm * a * (1 - e * e)) = - a * b * k).
  { apply sqrt_lem_1.
    - replace (gm * a * (1 - e * e)) with (gm * - a * (e * e - 1)) by ring. apply Rmult_le_pos; [nra|nra].
    - apply Rmult_le_pos; [apply Rmult_le_pos|]; lra.
    - transitivity (a * a * (b * b) * (k * k)); [ring|]. rewrite B2, K2. field. lra. }
  assert (Er : sqrt (a * (c - e) * (a * (c - e)) + - a * b * s * (- a * b * s)) = a * (1 - e * c)).
  { apply sqrt_lem_1; [|nra|].
    - pose proof (Rle_0_sqr (a * (c - e))). pose proof (Rle_0_sqr (- a * b * s)). unfold Rsqr in *. lra.
    - transitivity (a * (c - e) * (a * (c - e)) + a * a * (b * b) * (s * s)); [rewrite B2, S2; ring|ring]. }
  assert (Eh : a * (c - e) * (b * c * (k / (e * c - 1))) - - a * b * s * (- s * (k / (e * c - 1))) = - a * b * k).
  { transitivity (a * b * k * ((c - e) * c - s * s) / (e * c - 1)); [field; lra|]. rewrite S2. field. lra. }
  assert (Hr : 0 < a * (1 - e * c)) by nra.
  destruct (plane_laplace gm i w n _ _ _ _ _ _ Hg Hr Er Eh) as (L & C & A).
  split; [exact L|]. split; [|split; [rewrite Hs; exact C|]].
  - unfold energy. rewrite L, in_plane_dot.
    transitivity (k * k * (s * s + b * b * (c * c)) / ((e * c - 1) * (e * c - 1)) / 2 - gm / (a * (1 - e * c))); [field; lra|].
    rewrite K2, S2, B2. field. repeat split; try lra.
  - rewrite A, <- in_plane_axis. f_equal.
    + transitivity (- a * (b * b) * (k * k) * c / (e * c - 1) / gm - (c - e) / (1 - e * c)); [field; lra|].
      rewrite B2, K2. field. lra.
    + transitivity (- a * b * (k * k) * s / (e * c - 1) / gm + b * s / (1 - e * c)); [field; lra|].
      rewrite K2. field. lra.
Qed.
Theorem cartesian_hyperbola gm q e i p n l (x v : vec R) : 0 < gm -> 0 < q -> 1 < e ->
  cartesian_coordinates (F := R) gm q e i p n l = (x, v) ->
  let a := q / (1 - e) in let H := kepler_hyperbola (F := R) e l in
  length3 x = a * (1 - e * cosh H)
  /\ energy gm x v = - gm / (2 * a)
  /\ cross x v = times (sqrt (gm * a * (1 - e * e))) (plane_normal i n)
  /\ laplace gm x v = times e (towards_pericentre i (p - n) n).
Proof.
  intros Hg Hq He H a E. unfold cartesian_coordinates in H. num_simpl.
  rewrite (proj2 (Rltb_false e 1)), (proj2 (Reqb_false e 1)) in H by lra. fold a in H. fold E in H.
  assert (Ha : a < 0).
  { unfold a. replace (q / (1 - e)) with (- (q / (e - 1))) by (field; lra).
    assert (0 < q / (e - 1)) by (apply Rdiv_lt_0_compat; lra). lra. }
  destruct (hyperbola_state gm a e E) as [[[z1 z2] z3] z4] eqn:Ez. rewrite rotate_in_plane in H.
  apply (hyperbola_orbit gm a e i (p - n) n E x v Hg Ha He). rewrite Ez. exact H.
Qed.
