(** * From a state to elements *)
From Coq Require Import Reals Lra Lia List Bool ZArith Psatz.
From Verif Require Import Base.Num Base.Trans Base.Vec Model.Constants Model.Tools Spec.OrbitSpec
  Proofs.NumLemmas Proofs.VecLemmas Proofs.OrbitState.
Import ListNotations.
Open Scope R_scope.

(** ** powf with exponent 2, atan2 *)
Lemma Int_part_IZR z : Int_part (IZR z) = z.
Proof.
  unfold Int_part. rewrite <- (tech_up (IZR z) (z + 1)); rewrite ?plus_IZR; try lra. lia.
Qed.
Lemma powf_2 x : Rpowf x (2 / 1) = x * x.
Proof.
  unfold Rpowf. replace (2 / 1) with 2 by lra. destruct (Rlt_dec 0 x) as [Hx|Hx].
  - replace 2 with (INR 2) by (simpl; lra). rewrite Rpower_pow by assumption. simpl. ring.
  - destruct (Req_EM_T 2 0); [lra|]. destruct (Req_EM_T x 0) as [->|N]; [ring|].
    change 2 with (IZR 2). rewrite Int_part_IZR. destruct (Req_EM_T (IZR 2) (IZR 2)); [|contradiction].
    simpl. ring.
Qed.
Lemma sqrt_half_pos y : 0 < y -> sqrt (1 + y * y) > 0.
Proof. intros. apply sqrt_lt_R0. nra. Qed.
Lemma cos_atan_ratio y x : 0 < x -> cos (atan (y / x)) = x / sqrt (x * x + y * y) /\ sin (atan (y / x)) = y / sqrt (x * x + y * y).
Proof.
  intros Hx.
  assert (S : sqrt (x * x + y * y) = x * sqrt (1 + (y / x)²)).
  { replace (x * x + y * y) with ((x * x) * (1 + (y / x)²)) by (unfold Rsqr; field; lra).
    rewrite sqrt_mult, sqrt_square by (try unfold Rsqr; nra). reflexivity. }
  assert (P : 0 < sqrt (1 + (y / x)²)) by (apply sqrt_lt_R0; unfold Rsqr; nra).
  rewrite S, cos_atan, sin_atan. split; field; lra.
Qed.
Lemma atan2_spec y x : 0 < x * x + y * y ->
  cos (Ratan2 y x) = x / sqrt (x * x + y * y) /\ sin (Ratan2 y x) = y / sqrt (x * x + y * y).
Proof.
  intros Hp. unfold Ratan2. destruct (Rlt_dec 0 x) as [Hx|Hx]; [apply cos_atan_ratio; exact Hx|].
  destruct (Rlt_dec x 0) as [Hn|Hn].
  - destruct (cos_atan_ratio (- y) (- x)) as [C S]; [lra|].
    replace (- y / - x) with (y / x) in C, S by (field; lra).
    replace (- x * - x + - y * - y) with (x * x + y * y) in C, S by ring.
    destruct (Rle_dec 0 y).
    + rewrite neg_cos, neg_sin, C, S. split; field; apply Rgt_not_eq, sqrt_lt_R0; lra.
    + unfold Rminus. replace (atan (y / x) + - PI) with (- (PI - atan (y / x))) by ring.
      rewrite cos_neg, sin_neg, sin_PI_x. replace (cos (PI - atan (y / x))) with (- cos (atan (y / x)))
        by (rewrite cos_minus, cos_PI, sin_PI; ring).
      rewrite C, S. split; field; apply Rgt_not_eq, sqrt_lt_R0; lra.
  - assert (x = 0) by lra. subst x. replace (0 * 0 + y * y) with (y * y) by ring.
    assert (y <> 0) by nra.
    destruct (Rlt_dec 0 y); [|destruct (Rlt_dec y 0); [|lra]].
    + rewrite cos_PI2, sin_PI2, sqrt_square by lra. split; field; lra.
    + rewrite cos_neg, sin_neg, cos_PI2, sin_PI2. replace (y * y) with (- y * - y) by ring.
      rewrite sqrt_square by lra. split; field; lra.
Qed.
Lemma cos_shift x : cos (x + 2 * PI) = cos x /\ sin (x + 2 * PI) = sin x.
Proof. split; [apply cos_2PI_shift || (rewrite cos_plus, cos_2PI, sin_2PI; ring)|rewrite sin_plus, cos_2PI, sin_2PI; ring]. Qed.
Lemma clamp_id x : -1 <= x <= 1 -> nclamp (F := R) x (Ropp 1) 1 = x.
Proof.
  intros H. unfold nclamp. num_simpl. rewrite (proj2 (Rltb_false _ _)) by lra. rewrite (proj2 (Rltb_false _ _)) by lra. reflexivity.
Qed.

(** ** Vector identities *)
Lemma laplace_model gm x v : 0 < gm -> eccentricity_vector (F := R) gm x v = laplace gm x v.
Proof.
  intros Hg. destruct x, v. unfold eccentricity_vector, laplace, minus, times, cross, length3.
  vunfold. f_equal; unfold Rdiv; ring.
Qed.
Lemma h2_model (h : vec R) : norm2_powf h = dot h h.
Proof. unfold norm2_powf, dot. num_simpl. change (@tpow R _) with Rpowf. rewrite !powf_2. reflexivity. Qed.
Lemma length_pos (x : vec R) : x <> vzero -> 0 < length3 x.
Proof.
  intros N. unfold length3. replace (vx x * vx x + vy x * vy x + vz x * vz x) with (norm2 x) by (vunfold; ring).
  apply norm_pos. exact N.
Qed.
Lemma dot_nonneg (x : vec R) : 0 <= dot x x.
Proof. unfold dot. pose proof (Rle_0_sqr (vx x)). pose proof (Rle_0_sqr (vy x)). pose proof (Rle_0_sqr (vz x)). unfold Rsqr in *. lra. Qed.
Lemma length_sq (x : vec R) : length3 x * length3 x = dot x x.
Proof. unfold length3. apply sqrt_sqrt. apply dot_nonneg. Qed.
Lemma lagrange (x v : vec R) : dot (cross x v) (cross x v) = dot x x * dot v v - dot x v * dot x v.
Proof. destruct x, v. unfold dot, cross. cbn. ring. Qed.
Lemma laplace_sq gm (x v : vec R) : 0 < gm -> x <> vzero ->
  dot (laplace gm x v) (laplace gm x v)
  = 1 + dot (cross x v) (cross x v) / gm * (dot v v / gm - 2 / length3 x).
Proof.
  intros Hg Hx. pose proof (length_pos x Hx) as P. pose proof (length_sq x) as Q.
  unfold laplace. set (r := length3 x) in *.
  transitivity (dot (cross v (cross x v)) (cross v (cross x v)) / (gm * gm)
     - 2 * dot (cross v (cross x v)) x / (gm * r) + dot x x / (r * r)).
  - destruct x, v. unfold dot, minus, times, cross. cbn. field. lra.
  - rewrite <- Q. replace (dot (cross v (cross x v)) (cross v (cross x v))) with (dot v v * dot (cross x v) (cross x v))
      by (destruct x, v; unfold dot, cross; cbn; ring).
    replace (dot (cross v (cross x v)) x) with (dot (cross x v) (cross x v)) by (destruct x, v; unfold dot, cross; cbn; ring).
    field. lra.
Qed.
Lemma laplace_orthogonal gm (x v : vec R) : dot (laplace gm x v) (cross x v) = 0.
Proof. destruct x, v. unfold laplace, dot, minus, times, cross. cbn. ring. Qed.

(** ** Size and shape *)
Section Shape.
Variables (gm : R) (x v : vec R).
Hypotheses (Hg : 0 < gm) (Hx : x <> vzero).
Let r := length3 x.
Let h2 := dot (cross x v) (cross x v).

Lemma raw_eccentricity_length : raw_eccentricity (F := R) gm (h2 / gm) (dot v v) r = length3 (laplace gm x v).
Proof.
  unfold raw_eccentricity. num_simpl. replace (2 / 1) with 2 by lra.
  pose proof (laplace_sq gm x v Hg Hx) as L. fold h2 in L. fold r in L. rewrite <- L.
  assert (P : 0 <= dot (laplace gm x v) (laplace gm x v)) by apply dot_nonneg.
  change (length3 (laplace gm x v)) with (sqrt (dot (laplace gm x v) (laplace gm x v))).
  destruct (Rleb_spec (dot (laplace gm x v) (laplace gm x v)) 0) as [H|H]; [|reflexivity].
  replace (dot (laplace gm x v) (laplace gm x v)) with 0 by lra. rewrite sqrt_0. reflexivity.
Qed.

Lemma model_r : nsqrt (F := R) (vdot x x) = r.
Proof. reflexivity. Qed.
End Shape.

Theorem elements_shape gm x v : 0 < gm -> x <> vzero :> vec R ->
  energy gm x v < 0 ->
  let el := keplerian_elements (F := R) gm x v in
  let e0 := length3 (laplace gm x v) in
  el_a el = - gm / (2 * energy gm x v)
  /\ 0 < el_a el
  /\ dot v v = gm * (2 / length3 x - 1 / el_a el)
  /\ dot (cross x v) (cross x v) = gm * el_a el * (1 - e0 * e0)
  /\ el_q el = el_a el * (1 - e0)
  /\ el_e el = (if Rlt_dec e0 (3 / 100000000) then 0 else e0)
  /\ perihelion_eccentricity (F := R) gm x v = (el_a el * (1 - e0), e0).
Proof.
  intros Hg Hx Hb el e0.
  pose proof (length_pos x Hx) as P.
  assert (Ea : el_a el = gm * length3 x / (2 * gm - length3 x * dot v v)).
  { unfold el, keplerian_elements. destruct (inclination_node _ _). cbn [el_a]. num_simpl.
    replace (2 / 1) with 2 by lra. reflexivity. }
  assert (D : 0 < 2 * gm - length3 x * dot v v).
  { unfold energy in Hb. apply (Rmult_lt_compat_r (2 * length3 x)) in Hb; [|lra].
    replace ((dot v v / 2 - gm / length3 x) * (2 * length3 x)) with (length3 x * dot v v - 2 * gm) in Hb by (field; lra). lra. }
  assert (A : 0 < el_a el) by (rewrite Ea; apply Rdiv_lt_0_compat; nra).
  assert (VV : dot v v = gm * (2 / length3 x - 1 / el_a el)) by (rewrite Ea; field; repeat split; lra).
  pose proof (laplace_sq gm x v Hg Hx) as L.
  assert (E2 : e0 * e0 = dot (laplace gm x v) (laplace gm x v)) by apply length_sq.
  assert (H2 : dot (cross x v) (cross x v) = gm * el_a el * (1 - e0 * e0)).
  { rewrite E2, L, VV. field. split; [lra|]. split; lra. }
  assert (E0 : 0 <= e0) by apply sqrt_pos.
  assert (Q : dot (cross x v) (cross x v) / gm / (1 + e0) = el_a el * (1 - e0)) by (rewrite H2; field; lra).
  assert (Eq : el_q el = dot (cross x v) (cross x v) / gm / (1 + e0)).
  { unfold el, keplerian_elements. destruct (inclination_node _ _). cbn [el_q]. num_simpl.
    rewrite h2_model. change (vcross x v) with (cross x v). change (vdot v v) with (dot v v).
    change (sqrt (vdot x x)) with (length3 x). rewrite raw_eccentricity_length by assumption. reflexivity. }
  split; [|split; [exact A|split; [exact VV|split; [exact H2|split; [congruence|split]]]]].
  - unfold energy. rewrite Ea. field. repeat split; try lra.
  - unfold el, keplerian_elements. destruct (inclination_node _ _). cbn [el_e]. num_simpl.
    rewrite h2_model. change (vcross x v) with (cross x v). change (vdot v v) with (dot v v).
    change (sqrt (vdot x x)) with (length3 x). rewrite raw_eccentricity_length by assumption. fold e0.
    destruct (Rltb_spec e0 (3 / 100000000)), (Rlt_dec e0 (3 / 100000000)); try reflexivity; contradiction.
  - unfold perihelion_eccentricity. num_simpl.
    rewrite h2_model. change (vcross x v) with (cross x v). change (vdot v v) with (dot v v).
    change (sqrt (vdot x x)) with (length3 x). rewrite raw_eccentricity_length by assumption. fold e0.
    rewrite Q. reflexivity.
Qed.

(** ** Orientation *)
Definition mirrored (v : vec R) : vec R := Vec (- vx v) (- vy v) (vz v).

Lemma inclination_node_spec (h : vec R) : h <> vzero ->
  let '(i, n) := inclination_node (F := R) h (length3 h) in
  cos i = vz h / length3 h /\ 0 <= n < 2 * PI /\
  ((vy h <= 0 -> 0 <= i <= PI /\ h = times (length3 h) (plane_normal i n)) /\
   (0 < vy h -> PI < i < 2 * PI /\ h = times (length3 h) (mirrored (plane_normal i n)))).
Proof.
  intros Hh. pose proof (length_pos h Hh) as P. pose proof (length_sq h) as Q. unfold dot in Q.
  set (m := length3 h) in *. set (c := vz h / m).
  assert (Hc : c * m = vz h) by (unfold c; field; lra).
  assert (C1 : -1 <= c <= 1).
  { assert (vz h * vz h <= m * m) by (rewrite Q; pose proof (Rle_0_sqr (vx h)); pose proof (Rle_0_sqr (vy h)); unfold Rsqr in *; lra).
    rewrite <- Hc in H. assert (c * c <= 1) by (apply (Rmult_le_reg_r (m * m)); nra). nra. }
  pose proof PI_RGT_0 as HPI.
  unfold inclination_node. num_simpl. fold c. rewrite clamp_id by exact C1.
  change (@tacos R _) with acos. change (@tatan2 R _) with Ratan2. change (@tpi R _) with PI. unfold TWO_PI. num_simpl.
  change (@tpi R _) with PI.
  destruct (Rltb_spec (Rabs c) 1) as [Hs|Hs].
  - assert (C2 : -1 < c < 1) by (apply Rabs_def2 in Hs; lra).
    assert (S : 0 < vx h * vx h + vy h * vy h).
    { assert (vx h * vx h + vy h * vy h = m * m * (1 - c * c)) by nra. rewrite H.
      apply Rmult_lt_0_compat; nra. }
    assert (Sm : sqrt (vx h * vx h + vy h * vy h) = m * sqrt (1 - c * c)).
    { rewrite <- (sqrt_square m) at 1 by lra. rewrite <- sqrt_mult by nra. f_equal. nra. }
    assert (B : 0 < acos c < PI).
    { pose proof (acos_bound c). split.
      - destruct (Rlt_le_dec 0 (acos c)); [assumption|exfalso].
        assert (acos c = 0) by lra. pose proof (cos_acos c C1) as K. rewrite H0, cos_0 in K. lra.
      - destruct (Rlt_le_dec (acos c) PI); [assumption|exfalso].
        assert (acos c = PI) by lra. pose proof (cos_acos c C1) as K. rewrite H0, cos_PI in K. lra. }
    destruct (atan2_spec (vx h) (- vy h)) as [A1 A2]; [lra|].
    replace (- vy h * - vy h + vx h * vx h) with (vx h * vx h + vy h * vy h) in A1, A2 by ring.
    rewrite Sm in A1, A2.
    assert (Sp : 0 < sqrt (1 - c * c)) by (apply sqrt_lt_R0; nra).
    set (nd := if Rltb (Ratan2 (vx h) (- vy h)) 0 then Ratan2 (vx h) (- vy h) + (PI * (2 / 1)) else Ratan2 (vx h) (- vy h)).
    assert (N : cos nd = - vy h / (m * sqrt (1 - c * c)) /\ sin nd = vx h / (m * sqrt (1 - c * c))).
    { unfold nd. destruct (Rltb _ 0); [|split; assumption].
      replace (PI * (2 / 1)) with (2 * PI) by lra. destruct (cos_shift (Ratan2 (vx h) (- vy h))) as [-> ->]. split; assumption. }
    assert (NB : 0 <= nd < 2 * PI).
    { assert (AB : - PI <= Ratan2 (vx h) (- vy h) <= PI).
      { unfold Ratan2. pose proof (atan_bound (vx h / - vy h)).
        destruct (Rlt_dec 0 (- vy h)); [lra|]. destruct (Rlt_dec (- vy h) 0).
        - destruct (Rle_dec 0 (vx h)).
          + split; [lra|]. assert (vx h / - vy h <= 0).
            { apply Rmult_le_reg_r with (vy h); [lra|]. replace (vx h / - vy h * vy h) with (- vx h) by (field; lra). lra. }
            assert (atan (vx h / - vy h) <= 0).
            { destruct (Rle_lt_or_eq_dec _ _ H0) as [L|E]; [|rewrite E, atan_0; lra].
              apply Rlt_le. rewrite <- atan_0. apply atan_increasing. exact L. }
            lra.
          + split; [|lra]. assert (0 < vx h / - vy h).
            { replace (vx h / - vy h) with (- vx h / vy h) by (field; lra). apply Rdiv_lt_0_compat; lra. }
            assert (0 < atan (vx h / - vy h)) by (rewrite <- atan_0; apply atan_increasing; assumption). lra.
        - destruct (Rlt_dec 0 (vx h)); [lra|]. destruct (Rlt_dec (vx h) 0); lra. }
      unfold nd. destruct (Rltb_spec (Ratan2 (vx h) (- vy h)) 0); lra. }
    assert (Sa : sin (acos c) = sqrt (1 - c * c)) by (rewrite sin_acos by lra; reflexivity).
    assert (Hx : vx h = m * (sqrt (1 - c * c) * sin nd)) by (rewrite (proj2 N); field; lra).
    assert (Hy : vy h = m * - (sqrt (1 - c * c) * cos nd)) by (rewrite (proj1 N); field; lra).
    assert (Hz : vz h = m * c) by lra.
    destruct (Rltb_spec 0 (vy h)) as [Hv|Hv].
    + rewrite (proj2 (Reqb_false _ _)) by lra.
      fold nd.
      assert (Ec : cos (PI * (2 / 1) - acos c) = c).
      { replace (PI * (2 / 1) - acos c) with (- (acos c) + 2 * PI) by lra. rewrite (proj1 (cos_shift _)), cos_neg. apply cos_acos; exact C1. }
      assert (Es : sin (PI * (2 / 1) - acos c) = - sqrt (1 - c * c)).
      { replace (PI * (2 / 1) - acos c) with (- (acos c) + 2 * PI) by lra. rewrite (proj2 (cos_shift _)), sin_neg, Sa. reflexivity. }
      split; [exact Ec|]. split; [exact NB|]. split; [intros; lra|]. intros _. split; [lra|].
      unfold times, mirrored, plane_normal. cbn [vx vy vz]. rewrite Ec, Es.
      destruct h as [hx hy hz]. cbn [vx vy vz] in *. f_equal; lra.
    + rewrite (proj2 (Reqb_false _ _)) by lra. fold nd.
      split; [apply cos_acos; exact C1|]. split; [exact NB|]. split; [|intros; lra]. intros _. split; [lra|].
      unfold times, plane_normal. cbn [vx vy vz]. rewrite Sa, cos_acos by exact C1.
      destruct h as [hx hy hz]. cbn [vx vy vz] in *. f_equal; lra.
  - assert (C2 : c * c = 1).
    { unfold Rabs in Hs. destruct (Rcase_abs c); nra. }
    assert (vx h = 0 /\ vy h = 0) as [X0 Y0].
    { assert (vx h * vx h + vy h * vy h = 0) by nra. split; nra. }
    replace (if Rltb 0 c then 0 else 0) with 0 by (destruct (Rltb 0 c); reflexivity).
    destruct (Rltb_spec c 0) as [Hn|Hn].
    + assert (c = -1) by nra. rewrite cos_PI. split; [lra|]. split; [lra|]. split; [|lra]. intros _. split; [lra|].
      unfold times, plane_normal. cbn [vx vy vz]. rewrite sin_PI, cos_PI.
      destruct h as [hx hy hz]. cbn [vx vy vz] in *. f_equal; nra.
    + assert (c = 1) by nra. rewrite cos_0. split; [lra|]. split; [lra|]. split; [|lra]. intros _. split; [lra|].
      unfold times, plane_normal. cbn [vx vy vz]. rewrite sin_0, cos_0.
      destruct h as [hx hy hz]. cbn [vx vy vz] in *. f_equal; nra.
Qed.

(** ** Kepler's equation has one solution *)
Lemma sin_lipschitz a b : Rabs (sin a - sin b) <= Rabs (a - b).
Proof.
  destruct (Rtotal_order a b) as [H|[->|H]].
  - destruct (MVT_cor2 sin cos a b H) as (c & E & _); [intros; apply derivable_pt_lim_sin|].
    rewrite <- Rabs_Ropp, Ropp_minus_distr, E, Rabs_mult, (Rabs_minus_sym a b).
    pose proof (COS_bound c). assert (Rabs (cos c) <= 1) by (apply Rabs_le; lra). pose proof (Rabs_pos (b - a)). nra.
  - unfold Rminus. rewrite !Rplus_opp_r, Rabs_R0. lra.
  - destruct (MVT_cor2 sin cos b a H) as (c & E & _); [intros; apply derivable_pt_lim_sin|].
    rewrite E, Rabs_mult. pose proof (COS_bound c). assert (Rabs (cos c) <= 1) by (apply Rabs_le; lra).
    pose proof (Rabs_pos (a - b)). nra.
Qed.
Lemma kepler_unique e M E E' : 0 <= e < 1 -> kepler e M E -> kepler e M E' -> E = E'.
Proof.
  unfold kepler. intros He A B. pose proof (sin_lipschitz E E') as L.
  assert (D : E - E' = e * (sin E - sin E')) by lra.
  apply (f_equal Rabs) in D. rewrite Rabs_mult, (Rabs_right e) in D by lra.
  pose proof (Rabs_pos (E - E')). assert (Rabs (E - E') = 0) by nra.
  destruct (Req_dec (E - E') 0); [lra|]. apply Rabs_no_R0 in H1. contradiction.
Qed.

(** ** The plane of the orbit *)
Lemma axes_at i w n : towards_pericentre i w n = in_plane i 0 n (cos w) (sin w)
  /\ ahead_of_pericentre i w n = in_plane i 0 n (- sin w) (cos w).
Proof.
  unfold in_plane, towards_pericentre, ahead_of_pericentre. cbn [vx vy vz]. rewrite sin_0, cos_0.
  split; f_equal; ring.
Qed.
(** a vector orthogonal to the normal is the sum of its two projections *)
Lemma in_plane_of i w n (x : vec R) : dot x (plane_normal i n) = 0 ->
  x = in_plane i w n (dot x (towards_pericentre i w n)) (dot x (ahead_of_pericentre i w n)).
Proof.
  intros H. destruct x as [a b c].
  assert (K : Vec a b c = Vec
    (a - dot (Vec a b c) (plane_normal i n) * (sin i * sin n))
    (b + dot (Vec a b c) (plane_normal i n) * (sin i * cos n))
    (c - dot (Vec a b c) (plane_normal i n) * cos i)) by (rewrite H; f_equal; ring).
  rewrite K at 1. clear H K.
  unfold dot, in_plane, towards_pericentre, ahead_of_pericentre, plane_normal. cbn [vx vy vz].
  trig i w n. intros cn sn Hn cw sw Hw ci si Hi. f_equal; ring [Hi Hw Hn].
Qed.
Lemma ahead_cross i w n (L : vec R) :
  dot L (ahead_of_pericentre i w n) = dot (plane_normal i n) (cross (towards_pericentre i w n) L).
Proof.
  unfold dot, cross, towards_pericentre, ahead_of_pericentre, plane_normal. cbn [vx vy vz].
  trig i w n. intros cn sn Hn cw sw Hw ci si Hi. ring [Hi Hw Hn].
Qed.
Lemma dot_comm (a b : vec R) : dot a b = dot b a.
Proof. unfold dot. ring. Qed.
Lemma dot_times (k : R) (a b : vec R) : dot a (times k b) = k * dot a b.
Proof. unfold dot, times. cbn. ring. Qed.
Lemma cross_times (k : R) (a b : vec R) : cross (times k a) b = times k (cross a b).
Proof. unfold cross, times. cbn. f_equal; ring. Qed.

(** ** The whole state *)
Section RoundTrip.
Variables (gm : R) (x v : vec R).
Hypotheses (Hg : 0 < gm) (Hx : x <> vzero) (Hb : energy gm x v < 0).
Hypothesis Hh : cross x v <> vzero.
Hypothesis Hy : vy (cross x v) <= 0.
Let el := keplerian_elements (F := R) gm x v.
Let e := length3 (laplace gm x v).
Hypothesis He : 3 / 100000000 <= e.
Let a := el_a el.
Let r := length3 x.
Let h := length3 (cross x v).
Let i := el_i el.
Let n := el_n el.
Let w := el_p el - el_n el.

Lemma e_range : 0 < e < 1.
Proof.
  pose proof (elements_shape gm x v Hg Hx Hb) as (_ & A & _ & H2 & _).
  split; [lra|]. pose proof (length_pos _ Hh) as P. pose proof (length_sq (cross x v)) as Q.
  rewrite H2 in Q. fold el e a in Q, A. fold h in P, Q.
  assert (0 < gm * a) by (apply Rmult_lt_0_compat; assumption).
  destruct (Rlt_le_dec e 1) as [|B]; [assumption|exfalso].
  assert (0 < h * h) by (apply Rmult_lt_0_compat; assumption). assert (1 <= e * e) by nra.
  match type of Q with _ = ?t => assert (t <= 0); [|lra] end.
  assert (0 <= gm * a * (e * e - 1)) by (apply Rmult_le_pos; lra). lra.
Qed.
Lemma el_e_value : el_e el = e.
Proof.
  pose proof (elements_shape gm x v Hg Hx Hb) as (_ & _ & _ & _ & _ & E & _). fold el e in E. rewrite E.
  destruct (Rlt_dec e (3 / 100000000)); lra.
Qed.
Lemma in_el : inclination_node (F := R) (cross x v) h = (i, n).
Proof.
  unfold i, n, el, keplerian_elements. change (vcross x v) with (cross x v). rewrite h2_model.
  change (nsqrt (dot (cross x v) (cross x v))) with (length3 (cross x v)). fold h.
  destruct (inclination_node (cross x v) h). reflexivity.
Qed.
Lemma plane : 0 <= i <= PI /\ cross x v = times h (plane_normal i n).
Proof.
  pose proof (inclination_node_spec (cross x v) Hh) as S. fold h in S. rewrite in_el in S.
  destruct S as (_ & _ & S & _). exact (S Hy).
Qed.
Lemma h_pos : 0 < h.
Proof. exact (length_pos _ Hh). Qed.
Lemma orthogonal_normal (u : vec R) : dot u (cross x v) = 0 -> dot u (plane_normal i n) = 0.
Proof.
  rewrite (proj2 plane), dot_times. pose proof h_pos. intros K. apply Rmult_integral in K. destruct K; [lra|assumption].
Qed.

Lemma w_value : w = Ratan2 (dot (laplace gm x v) (ahead_of_pericentre i 0 n)) (dot (laplace gm x v) (towards_pericentre i 0 n)).
Proof.
  pose proof in_el as I. pose proof el_e_value as Ee. pose proof e_range as Er.
  unfold w, el, keplerian_elements in *. change (vcross x v) with (cross x v) in *. rewrite h2_model in *.
  change (nsqrt (dot (cross x v) (cross x v))) with h in *. rewrite I in *.
  cbn [el_p el_n el_e] in *. rewrite Ee. num_simpl. rewrite (proj2 (Reqb_false e 0)) by lra.
  rewrite laplace_model by exact Hg. change (@tatan2 R _) with Ratan2. change (@tcos R _) with cos. change (@tsin R _) with sin.
  unfold towards_pericentre, ahead_of_pericentre. rewrite sin_0, cos_0.
  set (L := laplace gm x v). unfold dot. cbn [vx vy vz].
  match goal with |- Ratan2 ?y ?z + _ - _ = Ratan2 ?y' ?z' => replace y' with y by ring; replace z' with z by ring end. ring.
Qed.
Lemma pericentre : laplace gm x v = times e (towards_pericentre i w n).
Proof.
  pose proof e_range as Er.
  assert (O : dot (laplace gm x v) (plane_normal i n) = 0) by (apply orthogonal_normal, laplace_orthogonal).
  pose proof (in_plane_of i 0 n _ O) as K. pose proof w_value as W.
  set (c := dot (laplace gm x v) (towards_pericentre i 0 n)) in *.
  set (s := dot (laplace gm x v) (ahead_of_pericentre i 0 n)) in *.
  assert (E2 : e = sqrt (c * c + s * s)) by (unfold e; rewrite K; apply in_plane_length).
  assert (P : 0 < c * c + s * s).
  { destruct (Rlt_le_dec 0 (c * c + s * s)); [assumption|]. assert (c * c + s * s = 0) by nra. rewrite H, sqrt_0 in E2. lra. }
  destruct (atan2_spec s c P) as [A1 A2]. rewrite <- W, <- E2 in A1, A2.
  rewrite (proj1 (axes_at i w n)), A1, A2. rewrite K.
  unfold times, in_plane. cbn [vx vy vz]. f_equal; field; lra.
Qed.

Let rv := dot x v.
Lemma a_pos : 0 < a.
Proof. pose proof (elements_shape gm x v Hg Hx Hb) as (_ & A & _). exact A. Qed.
Lemma r_pos : 0 < r.
Proof. exact (length_pos x Hx). Qed.
Lemma h_sq : h * h = gm * a * (1 - e * e).
Proof. pose proof (elements_shape gm x v Hg Hx Hb) as (_ & _ & _ & H2 & _). unfold h. rewrite length_sq. exact H2. Qed.
Lemma v_sq : dot v v = gm * (2 / r - 1 / a).
Proof. pose proof (elements_shape gm x v Hg Hx Hb) as (_ & _ & V & _). exact V. Qed.
Lemma r_sq : dot x x = r * r.
Proof. unfold r. rewrite length_sq. reflexivity. Qed.
Lemma rv_sq : rv * rv = gm * a * (e * e - (1 - r / a) * (1 - r / a)).
Proof.
  pose proof a_pos. pose proof r_pos. pose proof h_sq as Q. pose proof (lagrange x v) as G.
  unfold h in Q. rewrite length_sq in Q. rewrite r_sq, v_sq in G. fold rv in G.
  rewrite Q in G. transitivity (r * r * (gm * (2 / r - 1 / a)) - gm * a * (1 - e * e)); [lra|]. field. lra.
Qed.

Definition eccentric_anomaly : R :=
  let c := 1 / e * (1 - r / a) in if Rlt_dec rv 0 then 2 * PI - acos c else acos c.
Let E := eccentric_anomaly.
Lemma anomaly_range : -1 <= 1 / e * (1 - r / a) <= 1.
Proof.
  pose proof e_range as Er. pose proof a_pos. pose proof rv_sq as Q.
  set (d := 1 - r / a) in *.
  assert (0 <= gm * a * (e * e - d * d)) by (rewrite <- Q; apply Rle_0_sqr).
  assert (0 < gm * a) by (apply Rmult_lt_0_compat; assumption).
  assert (d * d <= e * e) by nra.
  assert (- e <= d <= e) by (split; nra).
  split; apply (Rmult_le_reg_l e); try lra; replace (e * (1 / e * d)) with d by (field; lra); lra.
Qed.
Lemma anomaly_cos : cos E = 1 / e * (1 - r / a).
Proof.
  pose proof anomaly_range as B. unfold E, eccentric_anomaly. destruct (Rlt_dec rv 0).
  - replace (2 * PI - acos _) with (- acos (1 / e * (1 - r / a)) + 2 * INR 1 * PI) by (cbn; ring).
    rewrite cos_period, cos_neg. apply cos_acos, B.
  - apply cos_acos, B.
Qed.
Lemma anomaly_r : r = a * (1 - e * cos E).
Proof. pose proof e_range. pose proof a_pos. rewrite anomaly_cos. field. lra. Qed.
Lemma anomaly_turn : 0 <= E <= 2 * PI /\ (E = 2 * PI -> False).
Proof.
  pose proof (acos_bound (1 / e * (1 - r / a))) as B. pose proof PI_RGT_0. unfold E, eccentric_anomaly.
  destruct (Rlt_dec rv 0) as [N|N]; [|split; [lra|intros; lra]].
  split; [lra|]. intros K. assert (Z : acos (1 / e * (1 - r / a)) = 0) by lra.
  assert (C : 1 / e * (1 - r / a) = 1) by (rewrite <- (cos_acos _ anomaly_range), Z; apply cos_0).
  pose proof e_range. assert (D : 1 - r / a = e) by (apply (Rmult_eq_reg_l (1 / e)); [rewrite C; field; lra|apply Rgt_not_eq, Rdiv_lt_0_compat; lra]).
  pose proof rv_sq as Q. rewrite D in Q. nra.
Qed.
Lemma anomaly_sin : rv = sqrt (gm * a) * (e * sin E).
Proof.
  pose proof e_range as Er. pose proof a_pos. pose proof anomaly_range as B.
  assert (P : 0 < gm * a) by (apply Rmult_lt_0_compat; assumption).
  assert (S : 0 < sqrt (gm * a)) by (apply sqrt_lt_R0; exact P).
  assert (Q : rv * rv = (sqrt (gm * a) * (e * sin E)) * (sqrt (gm * a) * (e * sin E))).
  { rewrite rv_sq. replace (1 - r / a) with (e * cos E) by (rewrite anomaly_cos; field; lra).
    pose proof (sin2_cos2 E) as T. unfold Rsqr in T.
    transitivity (sqrt (gm * a) * sqrt (gm * a) * (e * e * (sin E * sin E))); [|ring].
    rewrite sqrt_sqrt by lra. replace (sin E * sin E) with (1 - cos E * cos E) by lra. ring. }
  assert (G : (0 <= rv -> 0 <= sin E) /\ (rv < 0 -> sin E <= 0)).
  { pose proof (acos_bound (1 / e * (1 - r / a))) as Ba. unfold E, eccentric_anomaly. split; intros K.
    - destruct (Rlt_dec rv 0); [lra|]. apply sin_ge_0; lra.
    - destruct (Rlt_dec rv 0); [|lra]. apply sin_le_0; lra. }
  assert (0 < sqrt (gm * a) * e) by (apply Rmult_lt_0_compat; lra).
  rewrite <- Rmult_assoc. replace (sqrt (gm * a) * (e * sin E)) with (sqrt (gm * a) * e * sin E) in Q by ring.
  set (k := sqrt (gm * a) * e) in *.
  destruct (Rlt_le_dec rv 0) as [N|N].
  - pose proof (proj2 G N). assert (k * sin E <= 0) by nra.
    assert (- rv = - (k * sin E)); [|lra]. apply Rsqr_inj; [lra|lra|]. rewrite <- !Rsqr_neg. unfold Rsqr. rewrite Q. ring.
  - pose proof (proj1 G N). assert (0 <= k * sin E) by nra. apply Rsqr_inj; [lra|lra|]. unfold Rsqr. rewrite Q. ring.
Qed.

Lemma sin_le_id t : 0 <= t -> sin t <= t.
Proof. intros H. pose proof (sin_lipschitz t 0) as L. rewrite sin_0 in L. unfold Rminus in L. rewrite Ropp_0, !Rplus_0_r in L.
  rewrite (Rabs_right t) in L by lra. pose proof (Rle_abs (sin t)). lra. Qed.
Lemma kepler_turn e' t : 0 <= e' <= 1 -> 0 <= t <= 2 * PI -> 0 <= t - e' * sin t <= 2 * PI.
Proof.
  intros He' Ht. pose proof (sin_le_id t (proj1 Ht)) as A.
  pose proof (sin_le_id (2 * PI - t) ltac:(lra)) as B.
  assert (sin (2 * PI - t) = - sin t) as C.
  { replace (2 * PI - t) with (- t + 2 * INR 1 * PI) by (cbn; ring). rewrite sin_period. apply sin_neg. }
  rewrite C in B. split.
  - destruct (Rle_dec 0 (sin t)); nra.
  - destruct (Rle_dec 0 (sin t)); nra.
Qed.
(** the reported mean anomaly *)
Lemma mean_anomaly : kepler e (el_l el) E.
Proof.
  pose proof el_e_value as Ee. pose proof e_range as Er. pose proof in_el as I. pose proof anomaly_range as B.
  pose proof anomaly_turn as [T _]. pose proof PI_RGT_0 as Ppi.
  assert (K : forall t, mean_anomaly_raw (F := R) e r a rv t = E - e * sin E).
  { intros t. unfold mean_anomaly_raw. num_simpl. rewrite (proj2 (Reqb_false e 0)), (proj2 (Rltb_true e 1)) by lra.
    rewrite clamp_id by exact B. rewrite (proj2 (Rltb_false 1 _)) by (apply Rabs_le; exact B).
    unfold E, eccentric_anomaly. change (@tacos R _) with acos. change (@tsin R _) with sin.
    destruct (Rltb_spec rv 0); destruct (Rlt_dec rv 0); try lra.
    unfold TWO_PI. num_simpl. change (@tpi R _) with PI. replace (PI * (2 / 1)) with (2 * PI) by field. reflexivity. }
  assert (A : el_l el = let m := E - e * sin E in
     let m := if Rltb m 0 then m + 2 * PI else m in if Rltb (2 * PI) m then modulus (F := R) m (2 * PI) else m).
  { assert (Q : a = gm * r / (2 / 1 * gm - r * dot v v)).
    { unfold a, el, keplerian_elements. change (vcross x v) with (cross x v). rewrite h2_model.
      change (nsqrt (dot (cross x v) (cross x v))) with h. rewrite I. reflexivity. }
    clearbody a. unfold el, keplerian_elements in *. change (vcross x v) with (cross x v) in *. rewrite h2_model in *.
    change (nsqrt (dot (cross x v) (cross x v))) with h in *. rewrite I in *.
    cbn [el_l el_e] in *. rewrite Ee.
    change (vdot x v) with rv. change (nsqrt (vdot x x)) with r.
    match goal with |- context [mean_anomaly_raw e r ?z rv ?t] => change z with (gm * r / (2 / 1 * gm - r * dot v v)); rewrite <- Q, (K t) end.
    unfold TWO_PI. num_simpl. change (@tpi R _) with PI. replace (PI * (2 / 1)) with (2 * PI) by field. reflexivity. }
  rewrite A. pose proof (kepler_turn e E ltac:(lra) T) as M. cbv zeta.
  rewrite (proj2 (Rltb_false (E - e * sin E) 0)) by lra. rewrite (proj2 (Rltb_false _ _)) by lra. reflexivity.
Qed.

(** ** Projections on the axes of the orbit *)
Lemma laplace_x : dot (laplace gm x v) x = h * h / gm - r.
Proof.
  pose proof r_pos. unfold h. rewrite length_sq.
  assert (G : dot (laplace gm x v) x = dot (cross x v) (cross x v) / gm - dot x x / r).
  { unfold laplace. fold r. unfold dot, minus, times, cross. cbn [vx vy vz]. field. lra. }
  rewrite G, r_sq. field. lra.
Qed.
Lemma laplace_v : dot (laplace gm x v) v = - rv / r.
Proof. pose proof r_pos. unfold laplace, rv. fold r. unfold dot, minus, times, cross. cbn [vx vy vz]. field. lra. Qed.
Lemma laplace_cross_x : cross (laplace gm x v) x = times (rv / gm) (cross x v).
Proof. pose proof r_pos. unfold laplace, rv. fold r. unfold dot, minus, times, cross. cbn [vx vy vz]. f_equal; field; lra. Qed.
Lemma laplace_cross_v : cross (laplace gm x v) v = times (dot v v / gm - 1 / r) (cross x v).
Proof. pose proof r_pos. unfold laplace. fold r. unfold dot, minus, times, cross. cbn [vx vy vz]. f_equal; field; lra. Qed.
Lemma project (u : vec R) :
  dot u (towards_pericentre i w n) = dot (laplace gm x v) u / e
  /\ dot u (ahead_of_pericentre i w n) = dot (cross x v) (cross (laplace gm x v) u) / (e * h).
Proof.
  pose proof e_range. pose proof h_pos. split.
  - rewrite pericentre, (dot_comm (times _ _)), dot_times. field. lra.
  - rewrite ahead_cross. rewrite pericentre, (proj2 plane), cross_times, dot_times.
    rewrite (dot_comm (times h _)), dot_times, dot_comm. field. lra.
Qed.
Lemma h_value : h = sqrt (gm * a) * sqrt (1 - e * e).
Proof.
  pose proof e_range. pose proof a_pos. pose proof h_pos. assert (0 < gm * a) by (apply Rmult_lt_0_compat; assumption).
  rewrite <- sqrt_mult; [|lra|nra]. rewrite <- h_sq. symmetry. apply sqrt_square. lra.
Qed.

(** the state is the one its elements describe *)
Theorem state_of_elements :
  let '(z1, z2, z3, z4) := ellipse_state (F := R) gm a e E in
  x = in_plane i w n z1 z2 /\ v = in_plane i w n z3 z4.
Proof.
  pose proof e_range as Er. pose proof a_pos as Ha. pose proof h_pos as Hp. pose proof r_pos as Hr. pose proof h_sq as H2.
  pose proof (ellipse_pos e E ltac:(lra)) as Pc.
  rewrite ellipse_values.
  assert (P : 0 < gm * a) by (apply Rmult_lt_0_compat; assumption).
  assert (S : sqrt (gm * a) * sqrt (gm * a) = gm * a) by (apply sqrt_sqrt; lra).
  assert (Sk : sqrt (gm / a) = sqrt (gm * a) / a).
  { apply Rsqr_inj; [apply sqrt_pos| |].
    - apply Rlt_le, Rdiv_lt_0_compat; [apply sqrt_lt_R0|]; assumption.
    - unfold Rsqr. rewrite sqrt_sqrt by (apply Rlt_le, Rdiv_lt_0_compat; assumption).
      replace (sqrt (gm * a) / a * (sqrt (gm * a) / a)) with (sqrt (gm * a) * sqrt (gm * a) / (a * a)) by (field; lra).
      rewrite S. field. lra. }
  pose proof h_value as Hv. pose proof anomaly_sin as Rs. pose proof anomaly_r as Ra.
  assert (S0 : 0 < sqrt (gm * a)) by (apply sqrt_lt_R0; exact P).
  assert (Ox : dot x (plane_normal i n) = 0) by (apply orthogonal_normal; unfold dot, cross; cbn; ring).
  assert (Ov : dot v (plane_normal i n) = 0) by (apply orthogonal_normal; unfold dot, cross; cbn; ring).
  split.
  - rewrite (in_plane_of i w n x Ox). f_equal.
    + rewrite (proj1 (project x)), laplace_x, H2, Ra. field. lra.
    + rewrite (proj2 (project x)), laplace_cross_x, dot_times. rewrite <- length_sq. fold h.
      transitivity (h * rv / (e * gm)); [field; lra|]. rewrite Hv, Rs.
      transitivity (sqrt (gm * a) * sqrt (gm * a) * sqrt (1 - e * e) * sin E / gm); [field; lra|]. rewrite S. field. lra.
  - rewrite (in_plane_of i w n v Ov). rewrite Sk. f_equal.
    + rewrite (proj1 (project v)), laplace_v, Rs, Ra. field. lra.
    + rewrite (proj2 (project v)), laplace_cross_v, dot_times, <- (length_sq (cross x v)). fold h. rewrite v_sq.
      transitivity (h * (1 / r - 1 / a) / e); [field; lra|]. rewrite Hv, Ra. field. lra.
Qed.
(** and the conversion back returns it, given a solution of Kepler's equation *)
Theorem cartesian_of_elements : kepler e (el_l el) (kepler_ellipse (F := R) e (el_l el)) ->
  cartesian_coordinates (F := R) gm (el_q el) (el_e el) (el_i el) (el_p el) (el_n el) (el_l el) = (x, v).
Proof.
  intros K. pose proof e_range as Er. pose proof a_pos as Ha.
  pose proof (kepler_unique e (el_l el) _ E ltac:(lra) K mean_anomaly) as U.
  pose proof (elements_shape gm x v Hg Hx Hb) as (_ & _ & _ & _ & Q & _). fold el e a in Q.
  pose proof state_of_elements as S.
  unfold cartesian_coordinates. rewrite el_e_value, Q. num_simpl.
  rewrite (proj2 (Rltb_true e 1)) by lra. rewrite U.
  replace (a * (1 - e) / (1 - e)) with a by (field; lra).
  destruct (ellipse_state gm a e E) as [[[z1 z2] z3] z4]. rewrite rotate_in_plane. f_equal; symmetry; apply S.
Qed.
End RoundTrip.
