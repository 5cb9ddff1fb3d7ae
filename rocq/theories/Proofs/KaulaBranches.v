(** * Coplanar against inclined formulas, and how the stellar tide scales *)
From Coq Require Import Reals List Lra Lia Bool Arith ZArith.
From Verif Require Import Base.Num Base.Result Base.Trans Base.Vec Model.Constants Model.Particle Model.Tools Model.Kaula
  Spec.KaulaSpec Proofs.NumLemmas Proofs.KaulaTables Proofs.KaulaForce Proofs.TidesExamples.
Import ListNotations.
Open Scope R_scope.

Definition twice (k : R) (x : R * R) : R * R := (k * fst x, k * snd x).

(** ** Zero obliquity *)
Lemma radial_planetary_opposite (host particle : particle R) o par :
  ob_obliquity o = 0 -> ob_e o <> 0 ->
  radial_inclined host particle o false par = twice (-1) (radial_planar host particle o false par).
Proof.
  intros Ho He. unfold radial_inclined, radial_planar. num_simpl.
  destruct (Reqb (ob_e o) 0) eqn:E; [apply Reqb_true in E; contradiction|].
  unfold twice. rewrite <- radial_eccentric_scale, <- radial_zero_obliquity by assumption.
  f_equal. unfold Rdiv. rewrite Rinv_1. ring.
Qed.
Lemma radial_stellar_masses (host particle : particle R) o par :
  ob_obliquity o = 0 -> ob_e o <> 0 ->
  twice (p_mass host ^ 2) (radial_inclined host particle o true par)
  = twice (p_mass particle ^ 2) (radial_planar host particle o true par).
Proof.
  intros Ho He. unfold radial_inclined, radial_planar. num_simpl.
  destruct (Reqb (ob_e o) 0) eqn:E; [apply Reqb_true in E; contradiction|].
  unfold twice. rewrite <- radial_eccentric_scale, <- radial_3d_scale, <- radial_zero_obliquity by assumption.
  f_equal. unfold Rdiv. simpl. num_simpl.
  rewrite !Rinv_mult, Rinv_opp, Rinv_1. ring.
Qed.
Lemma normal_inclined_zero (host particle : particle R) o ce par :
  ob_obliquity o = 0 -> normal_inclined host particle o ce par = (0, 0).
Proof.
  intros Ho. unfold normal_inclined.
  destruct (normal_zero_obliquity o par ce false Ho) as (-> & -> & ->).
  destruct (normal_zero_obliquity o par ce true Ho) as (-> & -> & ->).
  num_simpl. f_equal; ring.
Qed.

(** ** A table of one point *)
Definition one_point (re im : R) : kaula_params R := KaulaParams [0] [re] [im] 1 (Vec 0 0 0).
Lemma love_one o re im ce m p q :
  0 <= sigma_2mpq m p q (ob_spin o) (ob_freq o) -> love o (one_point re im) ce m p q = (- re, im).
Proof.
  intros S. unfold love, kaula_numbers, one_point. cbn [kl_freq kl_re kl_im length nth Nat.sub]. num_simpl.
  rewrite (proj2 (Rltb_false _ _)) by lra. rewrite andb_false_r.
  destruct (Rleb _ 0) eqn:E; [reflexivity|]. apply Rleb_false in E.
  rewrite (proj2 (Rleb_true _ _)) by lra. reflexivity.
Qed.

(** everything is one; the orbit is circular and the body does not rotate *)
Definition circle : orbit := Orbit 1 0 0 0 0 1 0 0.
Definition unit_star : particle R :=
  set_p_tides (set_t_pos unit_pos (new_tides TidesDisabled))
   (set_p_hdist 1 (new_particle 1 1 1 1 unit_pos unit_vel (Vec 0 0 1))).

Lemma f33_zero : inclination_f_33p (F := R) 0 = [15; 0; 0; 0].
Proof. unfold inclination_f_33p. unfold tsin, tcos; simpl. rewrite sin_0, cos_0. num_simpl. apply list4; field. Qed.
Lemma f31_zero : inclination_f_31p (F := R) 0 = [0; -3; 3/2; 0].
Proof. unfold inclination_f_31p. unfold tsin, tcos; simpl. rewrite sin_0, cos_0. num_simpl. apply list4; field. Qed.
Lemma order_zero : series_order (F := R) 0 = 2%nat.
Proof.
  unfold series_order. num_simpl.
  repeat (match goal with |- context [Rltb ?a ?b] => rewrite (proj2 (Rltb_false a b)) by lra end).
  rewrite (proj2 (Rleb_true _ _)) by lra. reflexivity.
Qed.
Lemma list5 (a b c d e a' b' c' d' e' : R) : a = a' -> b = b' -> c = c' -> d = d' -> e = e' ->
  [a; b; c; d; e] = [a'; b'; c'; d'; e'].
Proof. intros -> -> -> -> ->. reflexivity. Qed.
Lemma g2_zero p : (p < 3)%nat -> window 2 (nth p (eccentricity_g_2pq (F := R) 0) []) = [0; 0; 1; 0; 0].
Proof.
  intros Hp. destruct p as [|[|[|p]]]; [..|lia]; cbn [eccentricity_g_2pq nth]; unfold window; cbn [Nat.sub skipn firstn Nat.mul Nat.add];
    apply list5; unfold tpow; simpl; num_simpl;
    try (replace (1 - 0 * 0) with 1 by ring; apply Rpowf_1); field.
Qed.
Lemma g3_zero p : (p < 4)%nat -> window 2 (nth p (eccentricity_g_3pq (F := R) 0) []) = [0; 0; 1; 0; 0].
Proof.
  intros Hp. destruct p as [|[|[|[|p]]]]; [..|lia]; cbn [eccentricity_g_3pq nth]; unfold window; cbn [Nat.sub skipn firstn Nat.mul Nat.add];
    apply list5; unfold tpow; simpl; num_simpl;
    try (replace (1 - 0 * 0) with 1 by ring; rewrite Rpowf_1); field.
Qed.

Lemma four (a b c d : R * R) f : esum (F := R) [a; b; c; d] f = f 0%nat a + f 1%nat b + f 2%nat c + f 3%nat d.
Proof. rewrite esum_isum. simpl. ring. Qed.
Lemma five (a b c d e : R) f : esum (F := R) [a; b; c; d; e] f
  = f 0%nat a + f 1%nat b + f 2%nat c + f 3%nat d + f 4%nat e.
Proof. rewrite esum_isum. simpl. ring. Qed.
Lemma orthogonal_sum_zero m fa fb w o par ce s : orthogonal_sum (F := R) m [0; 0; 0] fa fb w o par ce s = 0.
Proof. unfold orthogonal_sum. rewrite three. num_simpl. ring. Qed.

Lemma sigma_22 : sigma_2mpq (F := R) (2/1) 0 0 0 1 = 2.
Proof. unfold sigma_2mpq. num_simpl. field. Qed.

Lemma circle_inclined c re im :
  fst (orthogonal_3d c circle (one_point re im) false) = c * (15 / (4 * sqrt 6) * im).
Proof.
  assert (S6 : sqrt 6 <> 0) by (apply Rgt_not_eq, sqrt_lt_R0; lra).
  unfold orthogonal_3d. change (ob_obliquity circle) with 0.
  rewrite f21_zero, f22_zero, f33_zero, f31_zero, orthogonal_sum_zero. cbn [fst].
  unfold orthogonal_sum. change (ob_e circle) with 0. rewrite order_zero, three.
  rewrite (g2_zero 0) by lia. num_simpl. rewrite five.
  replace (offset (F := R) 2 2) with 0 by (symmetry; apply offset_mid).
  replace (nofnat (F := R) 0) with 0 by (rewrite nofnat_R; reflexivity).
  rewrite (love_one circle re im false (2/1) 0 0) by (cbn [ob_spin ob_freq circle]; rewrite sigma_22; lra).
  cbn [combine]. rewrite !four. cbn [fst snd].
  rewrite (g3_zero 0), (g3_zero 1), (g3_zero 2), (g3_zero 3) by lia.
  unfold efold. cbn [length seq combine fold_left fst snd]. num_simpl.
  replace (offset (F := R) 2 2) with 0 by (symmetry; apply offset_mid).
  change (ob_m circle) with 0. change (ob_omega circle) with 0. change (ob_node circle) with 0.
  assert (A3 : forall p q k j, phase_alpha_3 (F := R) p q k j 0 0 0 0 0 = 0) by (intros; unfold phase_alpha_3; num_simpl; ring).
  assert (A4 : forall p q k j, phase_alpha_4 (F := R) p q k j 0 0 0 0 0 = 0) by (intros; unfold phase_alpha_4; num_simpl; ring).
  rewrite !A3, !A4. change (@tcos R _) with cos. change (@tsin R _) with sin. rewrite cos_0, sin_0.
  replace (6 / 1) with 6 by lra.
  repeat match goal with |- context [love ?a ?b ?cc ?d ?e ?f] => destruct (love a b cc d e f) end.
  change (nsqrt (F := R)) with sqrt. replace (6 / 1) with 6 by lra. field. split; [exact S6|].
  apply Rgt_not_eq, sqrt_lt_R0; lra.
Qed.

Lemma G_pos : 0 < @G R _.
Proof. unfold G. exact K2_pos. Qed.
(** with unit masses and radii, the planar branch gives [- 3/2 G im] *)
Lemma circle_planar re im :
  fst (orthogonal_planar unit_star unit_star circle false (one_point re im)) = - G * (3 / 2 * im).
Proof.
  unfold orthogonal_planar. change (ob_e circle) with 0. num_simpl.
  rewrite (proj2 (Reqb_true _ _)) by reflexivity.
  unfold orthogonal_circular. num_simpl.
  rewrite (love_one circle re im false (2/1) 0 0) by (cbn [ob_spin ob_freq circle]; rewrite sigma_22; lra).
  cbn [fst]. unfold raised_by. cbn. num_simpl.
  replace (1 * 1 + 0 * 0 + 0 * 0) with 1 by ring. replace (1 * 1 + 0 * 0) with 1 by ring.
  rewrite sqrt_1. field.
Qed.
Lemma circle_inclined_value re im :
  fst (orthogonal_inclined unit_star unit_star circle false (one_point re im)) = - G * (15 / (4 * sqrt 6) * im).
Proof.
  unfold orthogonal_inclined. rewrite circle_inclined. f_equal. unfold raised_by. cbn. num_simpl. field.
Qed.
Lemma circle_differs : orthogonal_inclined unit_star unit_star circle false (one_point 1 1)
  <> orthogonal_planar unit_star unit_star circle false (one_point 1 1).
Proof.
  intros E. apply (f_equal fst) in E. rewrite circle_planar, circle_inclined_value in E.
  pose proof G_pos as HG. apply Rmult_eq_reg_l in E; [|lra].
  assert (P : 0 < sqrt 6) by (apply sqrt_lt_R0; lra).
  assert (Q : sqrt 6 * sqrt 6 = 6) by (apply sqrt_sqrt; lra).
  assert (H : sqrt 6 = 5 / 2).
  { rewrite !Rmult_1_r in E. apply (f_equal (fun x => x * (4 * sqrt 6) / 6)) in E.
    replace (15 / (4 * sqrt 6) * (4 * sqrt 6) / 6) with (5 / 2) in E by (field; lra). lra. }
  rewrite H in Q. lra.
Qed.

(** ** Scaling *)
Ltac scaling :=
  generalize (@G R _); intros g0; unfold Rdiv; cbn; num_simpl; unfold Rdiv; rewrite ?Rinv_1;
  repeat match goal with |- context [Rinv ?x] => generalize (Rinv x); intros end; ring.
Definition heavier (k : R) (p : particle R) : particle R := set_p_mass (k * p_mass p) p.
Definition larger (k : R) (p : particle R) : particle R := set_p_radius (k * p_radius p) p.

(** the description of the orbit is given; it depends on neither *)
Lemma kaula_orbit_scale j k (host particle : particle R) els ce :
  kaula_orbit (heavier j host) (larger k particle) els ce = kaula_orbit host particle els ce.
Proof. destruct ce; reflexivity. Qed.

Lemma twice_pair k x : (k * fst x, k * snd x) = twice k x.
Proof. reflexivity. Qed.
Lemma twice_inj k x y : k <> 0 -> twice k x = twice k y -> x = y.
Proof.
  destruct x, y. unfold twice. simpl. intros Hk E. injection E as E1 E2.
  apply Rmult_eq_reg_l in E1, E2; try assumption. congruence.
Qed.

(** planetary tide: mass of the host squared, radius of the planet to the fifth *)
Lemma radial_planetary_scale j k (host particle : particle R) els par :
  kaula_radial (heavier j host) (larger k particle) els false par
  = twice (j ^ 2 * k ^ 5) (kaula_radial host particle els false par).
Proof.
  unfold kaula_radial. rewrite kaula_orbit_scale. set (o := kaula_orbit host particle els false).
  destruct (nleb _ _).
  - unfold radial_planar. destruct (neqb _ _); unfold twice;
      [rewrite <- radial_circular_scale|rewrite <- radial_eccentric_scale]; f_equal;
      scaling.
  - unfold radial_inclined, twice. rewrite <- radial_3d_scale. f_equal. scaling.
Qed.
Lemma normal_planetary_scale j k (host particle : particle R) els par :
  kaula_normal (heavier j host) (larger k particle) els false par
  = twice (j ^ 2 * k ^ 5) (kaula_normal host particle els false par).
Proof.
  unfold kaula_normal. rewrite kaula_orbit_scale. set (o := kaula_orbit host particle els false).
  destruct (nleb _ _).
  - unfold twice. simpl. num_simpl. f_equal; ring.
  - unfold normal_inclined, twice. cbn [fst snd]. f_equal; change (p_hdist (larger k particle)) with (p_hdist particle);
      change (p_mass (heavier j host)) with (j * p_mass host); change (p_radius (larger k particle)) with (k * p_radius particle);
      generalize (@G R _); intros g0; cbn [npow]; num_simpl; unfold Rdiv; ring.
Qed.
Lemma orthogonal_planetary_scale j k (host particle : particle R) els par :
  kaula_orthogonal (heavier j host) (larger k particle) els false par
  = twice (j ^ 2 * k ^ 5) (kaula_orthogonal host particle els false par).
Proof.
  unfold kaula_orthogonal. rewrite kaula_orbit_scale. set (o := kaula_orbit host particle els false).
  destruct (nleb _ _).
  - unfold orthogonal_planar. destruct (neqb _ _); unfold twice;
      [rewrite <- orthogonal_circular_scale|rewrite <- orthogonal_eccentric_scale]; f_equal;
      unfold raised_by; scaling.
  - unfold orthogonal_inclined, twice. rewrite <- orthogonal_3d_scale. f_equal. unfold raised_by; scaling.
Qed.
(** stellar tide: [host] is the planet, [particle] the star *)
Lemma radial_stellar_scale j k (planet star : particle R) els par :
  ob_obliquity (kaula_orbit planet star els true) <= 1 / 100000000 ->
  kaula_radial (heavier j planet) (larger k star) els true par
  = twice (j ^ 2 * k ^ 5) (kaula_radial planet star els true par).
Proof.
  intros Ho. unfold kaula_radial. rewrite kaula_orbit_scale. set (o := kaula_orbit planet star els true) in *.
  num_simpl. rewrite (proj2 (Rleb_true _ _)) by lra.
  unfold radial_planar. destruct (neqb _ _); unfold twice;
      [rewrite <- radial_circular_scale|rewrite <- radial_eccentric_scale]; f_equal;
      scaling.
Qed.
Lemma radial_stellar_inclined j k (planet star : particle R) els par :
  1 / 100000000 < ob_obliquity (kaula_orbit planet star els true) ->
  kaula_radial (heavier j planet) (larger k star) els true par
  = twice (k ^ 5) (kaula_radial planet star els true par).
Proof.
  intros Ho. unfold kaula_radial. rewrite kaula_orbit_scale. set (o := kaula_orbit planet star els true) in *.
  num_simpl. rewrite (proj2 (Rleb_false _ _)) by lra.
  unfold radial_inclined, twice. rewrite <- radial_3d_scale. f_equal. scaling.
Qed.
(** neither the planet's mass nor the star's radius enters the other two components *)
Lemma normal_stellar j k (planet star : particle R) els par :
  kaula_normal (heavier j planet) (larger k star) els true par = kaula_normal planet star els true par.
Proof. reflexivity. Qed.
Lemma orthogonal_stellar j k (planet star : particle R) els par :
  kaula_orthogonal (heavier j planet) (larger k star) els true par = kaula_orthogonal planet star els true par.
Proof. reflexivity. Qed.

(** a star and a planet in its equatorial plane, everything one *)
Definition flat_planet : particle R := set_p_hpos unit_pos (set_p_hvel unit_vel unit_star).
Definition flat_elements : elements R := Elements 1 1 0 0 0 0 0 1.
Lemma love_one_central o re im m p q : love o (one_point re im) true m p q = (- re, im).
Proof.
  unfold love, kaula_numbers, one_point. cbn [kl_freq kl_re kl_im length nth Nat.sub negb andb]. num_simpl.
  destruct (Rleb _ 0) eqn:E; [reflexivity|]. apply Rleb_false in E.
  rewrite (proj2 (Rleb_true _ _)) by lra. reflexivity.
Qed.
Lemma flat_obliquity : ob_obliquity (kaula_orbit flat_planet unit_star flat_elements true) = 0.
Proof.
  cbn [kaula_orbit ob_obliquity]. unfold orbital_equatorial_inclination. cbn. num_simpl.
  apply acos_clamp_1.
  replace ((0 * 0 - 0 * 1) * (0 * 0 - 0 * 1) + (0 * 0 - 1 * 0) * (0 * 0 - 1 * 0) +
      (1 * 1 - 0 * 0) * (1 * 1 - 0 * 0)) with 1 by ring.
  rewrite sqrt_1.
  match goal with |- _ / (sqrt ?a * sqrt ?b) = _ => replace a with 1 by field; replace b with 1 by ring end.
  rewrite sqrt_1. field.
Qed.
Lemma flat_orthogonal :
  fst (kaula_orthogonal flat_planet unit_star flat_elements true (one_point 1 1)) = G * (3 / 2).
Proof.
  unfold kaula_orthogonal. rewrite flat_obliquity. num_simpl. rewrite (proj2 (Rleb_true _ _)) by lra.
  unfold orthogonal_planar. change (ob_e (kaula_orbit flat_planet unit_star flat_elements true)) with 0. num_simpl.
  rewrite (proj2 (Reqb_true _ _)) by reflexivity.
  unfold orthogonal_circular. num_simpl. rewrite love_one_central.
  cbn [fst]. unfold raised_by. generalize (@G R _). intros g. cbn. num_simpl.
  replace (1 * 1 + 0 * 0 + 0 * 0) with 1 by ring. replace (1 * 1 + 0 * 0) with 1 by ring.
  rewrite sqrt_1. field.
Qed.
Lemma stellar_witness : exists (planet star : particle R) els par,
  fst (kaula_orthogonal planet star els true par) <> 0
  /\ kaula_orthogonal (heavier 2 planet) star els true par = kaula_orthogonal planet star els true par
  /\ kaula_orthogonal (heavier 2 planet) star els true par <> twice (2 ^ 2) (kaula_orthogonal planet star els true par).
Proof.
  exists flat_planet, unit_star, flat_elements, (one_point 1 1).
  pose proof flat_orthogonal as E. pose proof G_pos as P.
  split; [rewrite E; nra|]. split; [reflexivity|].
  change (kaula_orthogonal (heavier 2 flat_planet) unit_star flat_elements true (one_point 1 1))
    with (kaula_orthogonal flat_planet unit_star flat_elements true (one_point 1 1)).
  intros K. apply (f_equal fst) in K. unfold twice in K. cbn [fst] in K. rewrite E in K. nra.
Qed.
