(** * Properties of the Kaula tidal model (C31, C32, C33, C56, C57, C58) *)
From Coq Require Import Reals List Lra Lia Bool Arith ZArith.
From Verif Require Import Base.Num Base.Result Base.Trans Base.Vec Model.Constants Model.Particle Model.Tools Model.Kaula
  Spec.TablesSpec Spec.KaulaSpec Proofs.NumLemmas Proofs.TidesExamples
  Proofs.KaulaTables Proofs.KaulaLove Proofs.KaulaForce Proofs.KaulaBranches.
Import ListNotations.
Open Scope R_scope.

(** ** C31: inclination functions

    Full statement: [forall l m i u, 2 <= l <= 3 -> m <= l -> expands l m (F_lm i) i u].
    Degree 2 holds.  In degree 3 each of the four tables is wrong; the last
    theorem says at which inclinations it happens to be right. *)
Theorem C31_degree_2_partial i u :
  expands 2 0 (inclination_f_20p (F := R) i) i u
  /\ expands 2 1 (inclination_f_21p (F := R) i) i u
  /\ expands 2 2 (inclination_f_22p (F := R) i) i u.
Proof. exact (conj (f20_expands i u) (conj (f21_expands i u) (f22_expands i u))). Qed.
(** non-vacuity: the second harmonic overhead an orbit inclined by 90 degrees *)
Example C31_degree_2_example : harmonic 2 0 (PI/2) (PI/2) = (1, 0) /\
  expands 2 0 (inclination_f_20p (F := R) (PI/2)) (PI/2) (PI/2).
Proof.
  split; [|apply f20_expands]. unfold harmonic, direction, power, legendre. rewrite ?cos_PI2, sin_PI2. f_equal; field.
Qed.

(** the definition has exactly one solution in degree 3, the published one *)
Theorem C31_degree_3_definition m i : (m <= 3)%nat ->
  (forall u, expands 3 m (right_f_3 m i) i u)
  /\ forall a b c d, (forall u, expands 3 m [a; b; c; d] i u) -> [a; b; c; d] = right_f_3 m i.
Proof.
  intros Hm. split; [intros u; exact (right_expands m i u Hm)|]. intros a b c d H.
  pose proof (fun u => right_expands m i u Hm) as Hr.
  destruct m as [|[|[|[|m]]]]; [..|lia]; unfold right_f_3 in *;
    destruct (expansion_unique _ _ _ _ _ _ _ _ _ _ H Hr) as (-> & -> & -> & ->); reflexivity.
Qed.
Theorem C31_degree_3_right_only i :
  ((forall u, expands 3 0 (inclination_f_30p (F := R) i) i u) <-> sin i = 0)
  /\ ((forall u, expands 3 1 (inclination_f_31p (F := R) i) i u) <-> cos i = 0)
  /\ ((forall u, expands 3 2 (inclination_f_32p (F := R) i) i u) <-> sin i = 0 \/ sin i = 1)
  /\ ((forall u, expands 3 3 (inclination_f_33p (F := R) i) i u) <-> sin i = 0).
Proof. exact (conj (f30_right i) (conj (f31_right i) (conj (f32_right i) (f33_right i)))). Qed.
Theorem C31_degree_3_refuted : exists i,
  ~ (forall u, expands 3 0 (inclination_f_30p (F := R) i) i u)
  /\ ~ (forall u, expands 3 1 (inclination_f_31p (F := R) i) i u)
  /\ ~ (forall u, expands 3 2 (inclination_f_32p (F := R) i) i u)
  /\ ~ (forall u, expands 3 3 (inclination_f_33p (F := R) i) i u).
Proof.
  exists (PI/6). rewrite f30_right, f31_right, f32_right, f33_right, sin_PI6, cos_PI6.
  assert (0 < sqrt 3) by (apply sqrt_lt_R0; lra). lra.
Qed.

(** ** C32: eccentricity functions

    Full statement: [at_pericentre l (row G_l p)] for every [l] in 2..3 and [p <= l]. *)
Theorem C32_rows_partial :
  at_pericentre 2 (row (eccentricity_g_2pq (F := R)) 1) /\ at_apocentre 2 (row (eccentricity_g_2pq (F := R)) 1)
  /\ at_pericentre 3 (row (eccentricity_g_3pq (F := R)) 0) /\ at_apocentre 3 (row (eccentricity_g_3pq (F := R)) 0)
  /\ at_pericentre 3 (row (eccentricity_g_3pq (F := R)) 3) /\ at_apocentre 3 (row (eccentricity_g_3pq (F := R)) 3).
Proof.
  exact (conj g21_pericentre (conj g21_apocentre (conj g30_pericentre (conj g30_apocentre
    (conj g33_pericentre g33_apocentre))))).
Qed.
(** the rows kept separately for coplanar orbits are rows of the full table *)
Theorem C32_coplanar_rows e :
  eccentricity_g_20q (F := R) e = row eccentricity_g_2pq 0 e
  /\ eccentricity_g_21q (F := R) e = row eccentricity_g_2pq 1 e.
Proof. exact (conj (g20_row e) (g21_row e)). Qed.
(** one wrong coefficient: an error of 575/48 e^4 *)
Theorem C32_g20_refuted : ~ at_pericentre 2 (row (eccentricity_g_2pq (F := R)) 0).
Proof. exact g20_not_pericentre. Qed.
Theorem C32_g20_error e : 0 < e <= 1/2 ->
  Rabs (total (row (eccentricity_g_2pq (F := R)) 0 e) - / (1 - e) ^ 3 - 575/48 * e ^ 4) <= 1000 * e ^ 8.
Proof. exact (g20_pericentre_error e). Qed.
(** wrong already at second order *)
Theorem C32_g31_refuted : ~ at_pericentre 3 (row (eccentricity_g_3pq (F := R)) 1).
Proof. exact g31_not_pericentre. Qed.
Theorem C32_g31_error e : 0 < e <= 1/2 ->
  Rabs (total (row (eccentricity_g_3pq (F := R)) 1 e) - / (1 - e) ^ 4 - -3/2 * e ^ 2) <= 20000 * e ^ 3.
Proof. exact (g31_pericentre_error e). Qed.
(** and the mirrored rows carry the same errors *)
Theorem C32_mirrored e :
  row (eccentricity_g_2pq (F := R)) 2 e = rev (row eccentricity_g_2pq 0 e)
  /\ row (eccentricity_g_3pq (F := R)) 2 e = rev (row eccentricity_g_3pq 1 e)
  /\ row (eccentricity_g_3pq (F := R)) 3 e = rev (row eccentricity_g_3pq 0 e).
Proof. exact (conj (g22_row e) (conj (g32_row e) (g33_row e))). Qed.
Example C32_example : total (row (eccentricity_g_3pq (F := R)) 0 (1/10)) = 1 + 4/10 + 10/100 + 20/1000 + 35/10000 + 56/100000 + 84/1000000 + 120/10000000.
Proof. rewrite g30_total. unfold T4. lra. Qed.

(** ** C33: Love numbers

    Full statement: the tables a case file may contain are arrays of 1024 entries of
    which the first [num_datapoints] count.  The interpolation is right when all the
    entries count. *)
Theorem C33_interpolation_partial w p central :
  table (kl_freq p) (kl_re p) -> table (kl_freq p) (kl_im p) ->
  let flip := andb (negb central) (Rltb w 0) in
  let w' := if flip then - w else w in
  exists re im,
    interpolates (kl_freq p) (kl_re p) w' re /\ interpolates (kl_freq p) (kl_im p) w' im /\
    kaula_numbers (F := R) w p central = (- re, if flip then - im else im).
Proof. exact (kaula_numbers_table w p central). Qed.
(** with even one entry of padding every frequency above the first reads zero *)
Theorem C33_padded w f r i num force k central :
  (1 <= k)%nat -> f <> [] -> length r = length f -> length i = length f -> nth 0 f 0 < w -> 0 <= w ->
  kaula_numbers (F := R) w (KaulaParams (padded k f) (padded k r) (padded k i) num force) central = (0, 0).
Proof. exact (kaula_numbers_padded w f r i num force k central). Qed.
Theorem C33_padded_refuted : exists w f r i k,
  (length f = 2 /\ k = 1022)%nat /\ table f r /\ table f i /\ interpolates f r w (3/2) /\
  fst (kaula_numbers (F := R) w (KaulaParams (padded k f) (padded k r) (padded k i) 2 (Vec 0 0 0)) false) <> - (3/2).
Proof.
  exists (3/2), [1; 2], [1; 2], [1; 2], 1022%nat.
  assert (T : table [1; 2] [1; 2]).
  { split; [discriminate|]. split; [reflexivity|]. intros a b H. simpl in H.
    assert (a = 0 /\ b = 1)%nat as [-> ->] by lia. simpl. lra. }
  split; [split; reflexivity|]. split; [exact T|]. split; [exact T|]. split.
  - unfold interpolates. simpl. split; [lra|]. split; [lra|]. intros j Hj.
    assert (j = 0)%nat as -> by lia. simpl. lra.
  - rewrite kaula_numbers_padded; [simpl; lra|lia|discriminate|reflexivity|reflexivity|simpl; lra|lra].
Qed.
Example C33_example : kaula_numbers (F := R) (-(3/2)) (KaulaParams [1; 2] [1; 2] [5; 7] 2 (Vec 0 0 0)) false = (- (3/2), - (6)).
Proof.
  destruct (kaula_numbers_table (-(3/2)) (KaulaParams [1; 2] [1; 2] [5; 7] 2 (Vec 0 0 0)) false) as (re & im & A & B & ->).
  - split; [discriminate|]. split; [reflexivity|]. intros a b H. simpl in *.
    assert (a = 0 /\ b = 1)%nat as [-> ->] by lia. simpl. lra.
  - split; [discriminate|]. split; [reflexivity|]. intros a b H. simpl in *.
    assert (a = 0 /\ b = 1)%nat as [-> ->] by lia. simpl. lra.
  - cbn [negb andb]. rewrite (proj2 (Rltb_true _ _)) in * by lra. cbn [negb andb] in *.
    destruct A as (_ & _ & A). specialize (A 0%nat). destruct B as (_ & _ & B). specialize (B 0%nat). simpl in A, B.
    rewrite A by (lia || lra). rewrite B by (lia || lra). f_equal; field.
Qed.

(** ** C56: circular and eccentric coplanar branches

    Full statement: the circular branch is the limit of the eccentric one.  It is for
    the orthogonal component; the radial one has the imaginary part of a Love number
    where the limit has the real part. *)
Theorem C56_orthogonal_partial c o par central :
  tends (fun e => fst (orthogonal_eccentric c (with_eccentricity e o) par central)) (fst (orthogonal_circular c o par central))
  /\ tends (fun e => snd (orthogonal_eccentric c (with_eccentricity e o) par central)) (snd (orthogonal_circular c o par central)).
Proof. exact (orthogonal_limit c o par central). Qed.
Theorem C56_radial_limit c o par central :
  tends (fun e => fst (radial_eccentric c (with_eccentricity e o) par central))
    (c * (3/4 * fst (love o par central 0 1 0) + 9/4 * fst (love o par central (2/1) 0 0)))
  /\ tends (fun e => snd (radial_eccentric c (with_eccentricity e o) par central))
    (c * (3/4 * fst (love o par central 0 1 0) + 9/4 * fst (love o par central (2/1) 0 0))).
Proof. exact (radial_limit c o par central). Qed.
Theorem C56_radial_exactly_when c o par central : c <> 0 ->
  (tends (fun e => fst (radial_eccentric c (with_eccentricity e o) par central)) (fst (radial_circular c o par central))
   <-> fst (love o par central (2/1) 0 0) = snd (love o par central (2/1) 0 0)).
Proof. exact (radial_circular_limit c o par central). Qed.
(** a perfectly elastic body (no imaginary part) on a circular orbit *)
Theorem C56_radial_refuted : exists c o par,
  ~ tends (fun e => fst (radial_eccentric c (with_eccentricity e o) par false)) (fst (radial_circular c o par false)).
Proof.
  exists 1, circle, (one_point 1 0). rewrite radial_circular_limit by lra.
  rewrite (love_one circle 1 0 false (2/1) 0 0) by (cbn [ob_spin ob_freq circle]; rewrite sigma_22; lra).
  simpl. lra.
Qed.
Example C56_example : exists c o par, fst (orthogonal_circular c o par false) = 3
  /\ tends (fun e => fst (orthogonal_eccentric c (with_eccentricity e o) par false)) 3.
Proof.
  exists 1, circle, (one_point 1 2).
  assert (E : fst (orthogonal_circular 1 circle (one_point 1 2) false) = 3).
  { unfold orthogonal_circular. num_simpl.
    rewrite (love_one circle 1 2 false (2/1) 0 0) by (cbn [ob_spin ob_freq circle]; rewrite sigma_22; lra). simpl. lra. }
  split; [exact E|]. rewrite <- E. exact (proj1 (orthogonal_limit 1 circle (one_point 1 2) false)).
Qed.

(** ** C57: coplanar and inclined branches

    Full statement: [X_inclined host particle o central par = X_planar host particle o central par]
    for each component [X] when [ob_obliquity o = 0]. *)
Theorem C57_normal_partial (host particle : particle R) o central par :
  ob_obliquity o = 0 -> normal_inclined host particle o central par = (0, 0).
Proof. exact (normal_inclined_zero host particle o central par). Qed.
(** the sums are the same ... *)
Theorem C57_radial_sums c o par central : ob_obliquity o = 0 ->
  radial_3d (F := R) (3 * c) o par central = radial_eccentric c o par central.
Proof. exact (radial_zero_obliquity c o par central). Qed.
(** ... but the force on a planet has the opposite sign *)
Theorem C57_radial_opposite (host particle : particle R) o par : ob_obliquity o = 0 -> ob_e o <> 0 ->
  radial_inclined host particle o false par = twice (-1) (radial_planar host particle o false par).
Proof. exact (radial_planetary_opposite host particle o par). Qed.
(** and the stellar tide is computed with another mass *)
Theorem C57_radial_stellar (planet star : particle R) o par : ob_obliquity o = 0 -> ob_e o <> 0 ->
  twice (p_mass planet ^ 2) (radial_inclined planet star o true par)
  = twice (p_mass star ^ 2) (radial_planar planet star o true par).
Proof. exact (radial_stellar_masses planet star o par). Qed.
Theorem C57_orthogonal_refuted : exists (host particle : particle R) o par, ob_obliquity o = 0 /\
  orthogonal_inclined host particle o false par <> orthogonal_planar host particle o false par.
Proof. exists unit_star, unit_star, circle, (one_point 1 1). split; [reflexivity|exact circle_differs]. Qed.

(** ** C58: scaling of the stellar tide

    Full statement: for the tide raised in the star, every component is multiplied by
    [j^2 k^5] when the planet's mass is multiplied by [j] and the star's radius by [k].
    It holds for the tide raised in a planet with the roles exchanged. *)
Theorem C58_planetary (host planet : particle R) j k els par :
  kaula_radial (heavier j host) (larger k planet) els false par
    = twice (j ^ 2 * k ^ 5) (kaula_radial host planet els false par)
  /\ kaula_normal (heavier j host) (larger k planet) els false par
    = twice (j ^ 2 * k ^ 5) (kaula_normal host planet els false par)
  /\ kaula_orthogonal (heavier j host) (larger k planet) els false par
    = twice (j ^ 2 * k ^ 5) (kaula_orthogonal host planet els false par).
Proof.
  exact (conj (radial_planetary_scale j k host planet els par) (conj (normal_planetary_scale j k host planet els par)
    (orthogonal_planetary_scale j k host planet els par))).
Qed.
Theorem C58_radial_coplanar_partial (planet star : particle R) j k els par :
  ob_obliquity (kaula_orbit planet star els true) <= 1 / 100000000 ->
  kaula_radial (heavier j planet) (larger k star) els true par
  = twice (j ^ 2 * k ^ 5) (kaula_radial planet star els true par).
Proof. exact (radial_stellar_scale j k planet star els par). Qed.
(** what happens instead in the other branches *)
Theorem C58_radial_inclined_ignores_mass (planet star : particle R) j k els par :
  1 / 100000000 < ob_obliquity (kaula_orbit planet star els true) ->
  kaula_radial (heavier j planet) (larger k star) els true par
  = twice (k ^ 5) (kaula_radial planet star els true par).
Proof. exact (radial_stellar_inclined j k planet star els par). Qed.
Theorem C58_others_ignore_both (planet star : particle R) j k els par :
  kaula_normal (heavier j planet) (larger k star) els true par = kaula_normal planet star els true par
  /\ kaula_orthogonal (heavier j planet) (larger k star) els true par = kaula_orthogonal planet star els true par.
Proof. exact (conj (normal_stellar j k planet star els par) (orthogonal_stellar j k planet star els par)). Qed.
(** a planet twice as massive raises the same tide *)
Theorem C58_orthogonal_refuted : exists (planet star : particle R) els par,
  fst (kaula_orthogonal planet star els true par) <> 0
  /\ kaula_orthogonal (heavier 2 planet) star els true par = kaula_orthogonal planet star els true par
  /\ kaula_orthogonal (heavier 2 planet) star els true par <> twice (2 ^ 2) (kaula_orthogonal planet star els true par).
Proof. exact stellar_witness. Qed.

Print Assumptions C31_degree_2_partial.
Print Assumptions C31_degree_3_definition.
Print Assumptions C31_degree_3_right_only.
Print Assumptions C31_degree_3_refuted.
Print Assumptions C32_rows_partial.
Print Assumptions C32_coplanar_rows.
Print Assumptions C32_g20_refuted.
Print Assumptions C32_g20_error.
Print Assumptions C32_g31_refuted.
Print Assumptions C32_g31_error.
Print Assumptions C32_mirrored.
Print Assumptions C33_interpolation_partial.
Print Assumptions C33_padded.
Print Assumptions C33_padded_refuted.
Print Assumptions C56_orthogonal_partial.
Print Assumptions C56_radial_limit.
Print Assumptions C56_radial_exactly_when.
Print Assumptions C56_radial_refuted.
Print Assumptions C57_normal_partial.
Print Assumptions C57_radial_sums.
Print Assumptions C57_radial_opposite.
Print Assumptions C57_radial_stellar.
Print Assumptions C57_orthogonal_refuted.
Print Assumptions C58_planetary.
Print Assumptions C58_radial_coplanar_partial.
Print Assumptions C58_radial_inclined_ignores_mass.
Print Assumptions C58_others_ignore_both.
Print Assumptions C58_orthogonal_refuted.
