(** * Torques and truncation of the Kaula tidal model (C65, C66, C67, C68) *)
From Coq Require Import Reals List Lra Lia Bool Arith ZArith.
From Verif Require Import Base.Num Base.Result Base.Trans Base.Vec Model.Constants Model.Particle Model.Tools Model.Kaula
  Model.Creep Model.Tides
  Spec.EffectsSpec Spec.OrbitSpec Spec.TablesSpec Spec.KaulaTorqueSpec Proofs.NumLemmas Proofs.TidesExamples
  Proofs.KaulaBranches Proofs.Spherical Proofs.KaulaTorque Proofs.KaulaSeries Proofs.KaulaHost.
Import ListNotations.
Open Scope R_scope.

(** ** C65: a planet with a circular orbit in its equatorial plane *)
Theorem C65_torque `{Fuel} (host p : particle R) x v w par : 0 < G * (p_mass host + p_mass p) ->
  circles (G * (p_mass host + p_mass p)) x v -> upright p x v w par -> 0 < w ->
  exists f h' p' p'',
    kaula_force (F := R) host p false = Ok (f, h', p') /\ tides_planet_dL (F := R) h' p' = Ok p''
    /\ t_dL (p_tides p'')
       = Vec 0 0 (3 / 2 * G * p_mass host ^ 2 * p_radius p ^ 5 / length3 x ^ 6
           * snd (kaula_numbers (F := R) (2 * (mean_motion (G * (p_mass host + p_mass p)) (length3 x) - w) / DAY) par false)).
Proof. exact (upright_torque host p x v w par). Qed.
(** slow planets are spun up, fast ones are braked *)
Theorem C65_towards_synchronism `{Fuel} (host p : particle R) x v w par f h' p' p'' :
  0 < G * (p_mass host + p_mass p) -> circles (G * (p_mass host + p_mass p)) x v -> upright p x v w par -> 0 < w ->
  kaula_force (F := R) host p false = Ok (f, h', p') -> tides_planet_dL (F := R) h' p' = Ok p'' ->
  dissipative par -> p_mass host <> 0 -> 0 < p_radius p ->
  let n := mean_motion (G * (p_mass host + p_mass p)) (length3 x) in
  (w < n -> 0 < vz (t_dL (p_tides p''))) /\ (n < w -> vz (t_dL (p_tides p'')) < 0).
Proof. intros Hg C U Hw A B. exact (upright_sign host p x v w par Hg C U Hw f h' p' p'' A B). Qed.
(** by the same amount when they are equally far from it *)
Theorem C65_opposite n d par : d <> 0 ->
  snd (kaula_numbers (F := R) (2 * (n - (n + d)) / DAY) par false)
  = - snd (kaula_numbers (F := R) (2 * (n - (n - d)) / DAY) par false).
Proof. exact (upright_opposite n d par). Qed.
(** the force, and the mean force kept for the torque, have the computed components
    outwards, southwards and eastwards: any planet, any orbit *)
Theorem C65_components (host p : particle R) (central : bool) f h' p' :
  let planet := if central then host else p in
  let x := t_pos (p_tides planet) in
  let els := keplerian_elements (F := R) (G * (p_mass host + p_mass p)) (p_hpos planet) (p_hvel planet) in
  kaula_force (F := R) host p central = Ok (f, h', p') ->
  t_distance (p_tides planet) = length3 x -> 0 < vx x * vx x + vy x * vy x ->
  exists par, kaula_of (t_effect (p_tides p)) = Some par
  /\ dot f (outwards x) = fst (kaula_radial (F := R) host p els central par)
  /\ dot f (southwards x) = fst (kaula_normal (F := R) host p els central par)
  /\ dot f (eastwards x) = fst (kaula_orthogonal (F := R) host p els central par)
  /\ let s := remembered p' in
     dot s (outwards x) = snd (kaula_radial (F := R) host p els central par)
     /\ dot s (southwards x) = snd (kaula_normal (F := R) host p els central par)
     /\ dot s (eastwards x) = snd (kaula_orthogonal (F := R) host p els central par).
Proof. exact (force_components host p central f h' p'). Qed.
(** non-vacuity: unit masses one unit apart; a planet with a slow and one with a fast rotation *)
Example C65_example `{Fuel} : exists w1 w2 f1 h1 p1 q1 f2 h2 p2 q2,
  kaula_force (F := R) unit_star (up_planet w1) false = Ok (f1, h1, p1) /\ tides_planet_dL (F := R) h1 p1 = Ok q1
  /\ kaula_force (F := R) unit_star (up_planet w2) false = Ok (f2, h2, p2) /\ tides_planet_dL (F := R) h2 p2 = Ok q2
  /\ 0 < vz (t_dL (p_tides q1)) /\ vz (t_dL (p_tides q2)) < 0.
Proof.
  pose proof G_pos as GP.
  assert (Hg : 0 < G * (p_mass unit_star + p_mass (up_planet 1))) by (change (0 < G * (1 + 1)); lra).
  set (n := mean_motion (G * (1 + 1)) (length3 unit_pos)).
  assert (N : 0 < n) by (unfold n, mean_motion; rewrite unit_length; apply sqrt_lt_R0; lra).
  exists (n / 2), (2 * n).
  destruct (upright_torque unit_star (up_planet (n / 2)) unit_pos up_v (n / 2) up_par Hg up_circles (up_upright _)) as (f1 & h1 & p1 & q1 & A1 & B1 & _); [lra|].
  destruct (upright_torque unit_star (up_planet (2 * n)) unit_pos up_v (2 * n) up_par Hg up_circles (up_upright _)) as (f2 & h2 & p2 & q2 & A2 & B2 & _); [lra|].
  exists f1, h1, p1, q1, f2, h2, p2, q2. repeat (split; [assumption|]). split.
  - eapply (upright_sign unit_star (up_planet (n / 2)) unit_pos up_v (n / 2) up_par Hg up_circles (up_upright _)); try eassumption.
    + lra. + exact up_dissipative. + cbn. lra. + cbn. lra.
    + change (n / 2 < n). lra.
  - eapply (upright_sign unit_star (up_planet (2 * n)) unit_pos up_v (2 * n) up_par Hg up_circles (up_upright _)); try eassumption.
    + lra. + exact up_dissipative. + cbn. lra. + cbn. lra.
    + change (n < 2 * n). lra.
Qed.

(** ** C66: no torque in synchronous rotation

    Full statement: [vz (t_dL (p_tides p'')) = 0] when [w = n].  The code reads the
    first entry of the table instead. *)
Theorem C66_synchronous_value `{Fuel} (host p : particle R) x v w par f h' p' p'' :
  0 < G * (p_mass host + p_mass p) -> circles (G * (p_mass host + p_mass p)) x v -> upright p x v w par -> 0 < w ->
  kaula_force (F := R) host p false = Ok (f, h', p') -> tides_planet_dL (F := R) h' p' = Ok p'' ->
  w = mean_motion (G * (p_mass host + p_mass p)) (length3 x) ->
  dissipative par -> 0 <= nth 0 (kl_freq par) 0 ->
  vz (t_dL (p_tides p'')) = 3 / 2 * G * p_mass host ^ 2 * p_radius p ^ 5 / length3 x ^ 6 * nth 0 (kl_im par) 0.
Proof. intros Hg C U Hw A B. exact (upright_synchronous host p x v w par Hg C U Hw f h' p' p'' A B). Qed.
Theorem C66_synchronous_refuted `{Fuel} : exists (host p : particle R) x v w par f h' p' p'',
  0 < G * (p_mass host + p_mass p) /\ circles (G * (p_mass host + p_mass p)) x v /\ upright p x v w par /\ 0 < w
  /\ dissipative par /\ w = mean_motion (G * (p_mass host + p_mass p)) (length3 x)
  /\ kaula_force (F := R) host p false = Ok (f, h', p') /\ tides_planet_dL (F := R) h' p' = Ok p''
  /\ vz (t_dL (p_tides p'')) = 3 / 2 * G /\ vz (t_dL (p_tides p'')) <> 0.
Proof.
  pose proof G_pos as GP.
  assert (Hg : 0 < G * (1 + 1)) by lra.
  set (n := mean_motion (G * (1 + 1)) (length3 unit_pos)).
  assert (N : 0 < n) by (unfold n, mean_motion; rewrite unit_length; apply sqrt_lt_R0; lra).
  destruct (upright_torque unit_star (up_planet n) unit_pos up_v n up_par Hg up_circles (up_upright _) N) as (f & h' & p' & p'' & A & B & _).
  exists unit_star, (up_planet n), unit_pos, up_v, n, up_par, f, h', p', p''.
  assert (V : vz (t_dL (p_tides p'')) = 3 / 2 * G).
  { rewrite (upright_synchronous unit_star (up_planet n) unit_pos up_v n up_par Hg up_circles (up_upright _) N f h' p' p'' A B eq_refl up_dissipative).
    - rewrite unit_length. cbn [up_planet unit_star p_mass p_radius up_par kl_im nth set_p_tides set_p_hdist set_p_spin2 new_particle]. field.
    - cbn [up_par kl_freq nth]. lra. }
  split; [exact Hg|]. split; [exact up_circles|]. split; [exact (up_upright n)|]. split; [exact N|]. split; [exact up_dissipative|].
  split; [reflexivity|]. split; [exact A|]. split; [exact B|]. split; [exact V|]. rewrite V. lra.
Qed.

(** ** C67: the torque on a host is the sum over its planets

    Full statement: with several planets, [t_dL] of the host is the sum of what each
    of them gives alone.  Every planet's lever arm is combined with the force
    remembered for the last one instead. *)
Theorem C67_host_torque `{Fuel} par (host : particle R) ps h' l' h'' l'' :
  t_effect (p_tides host) = TidesCentral (Kaula par) ->
  tides_acceleration host ps = Ok (h', l') -> tides_dangular_momentum_dt h' l' = Ok (h'', l'') ->
  t_dL (p_tides h'')
  = Vsum (map (fun p => vcross (t_pos (p_tides p)) (last (map (pull host) ps) (kl_force par))) ps).
Proof. exact (host_torque par host ps h' l' h'' l''). Qed.
Theorem C67_runs `{Fuel} par (host : particle R) ps :
  t_effect (p_tides host) = TidesCentral (Kaula par) -> Forall kaula_planet ps ->
  exists h' l' h'' l'', tides_acceleration host ps = Ok (h', l') /\ tides_dangular_momentum_dt h' l' = Ok (h'', l'').
Proof. exact (host_runs par host ps). Qed.
(** two planets on opposite sides never move the host, whatever they are *)
Theorem C67_opposite `{Fuel} par (host p q : particle R) h' l' h'' l'' :
  t_effect (p_tides host) = TidesCentral (Kaula par) -> t_pos (p_tides q) = vneg (t_pos (p_tides p)) ->
  tides_acceleration host [p; q] = Ok (h', l') -> tides_dangular_momentum_dt h' l' = Ok (h'', l'') ->
  t_dL (p_tides h'') = Vec 0 0 0.
Proof. exact (opposite_planets par host p q h' l' h'' l''). Qed.
Theorem C67_additive_refuted `{Fuel} : exists (host p q : particle R) h1 l1 h1' l1' h2 l2 h2' l2' h3 l3 h3' l3',
  tides_acceleration host [p] = Ok (h1, l1) /\ tides_dangular_momentum_dt h1 l1 = Ok (h1', l1')
  /\ tides_acceleration host [q] = Ok (h2, l2) /\ tides_dangular_momentum_dt h2 l2 = Ok (h2', l2')
  /\ tides_acceleration host [p; q] = Ok (h3, l3) /\ tides_dangular_momentum_dt h3 l3 = Ok (h3', l3')
  /\ t_dL (p_tides h1') = Vec 0 0 (3 / 2 * G) /\ t_dL (p_tides h2') = Vec 0 0 (3 / 2 * G)
  /\ t_dL (p_tides h3') <> vadd (t_dL (p_tides h1')) (t_dL (p_tides h2')).
Proof.
  destruct (wit_alone 1) as (h1 & l1 & h1' & l1' & A1 & B1 & V1); [lra|].
  destruct (wit_alone (-1)) as (h2 & l2 & h2' & l2' & A2 & B2 & V2); [lra|].
  destruct wit_together as (h3 & l3 & h3' & l3' & A3 & B3 & V3).
  exists wit_star, (wit_planet 1), (wit_planet (-1)), h1, l1, h1', l1', h2, l2, h2', l2', h3, l3, h3', l3'.
  repeat (split; [assumption|]). rewrite V1, V2, V3. intros E. apply (f_equal vz) in E. revert E.
  unfold vadd, vmap2. cbn [vz]. num_simpl. pose proof G_pos. intros E. lra.
Qed.

(** ** C68: the terms left out of the eccentricity series *)
Theorem C68_remainder (e : R) : 0 <= e ->
  let o := series_order (F := R) e in
  (forall p, (p < 3)%nat -> small_entries (1/25) o (nth p (eccentricity_g_2pq (F := R) e) []))
  /\ (forall p, (p < 4)%nat -> small_entries (1/6) o (nth p (eccentricity_g_3pq (F := R) e) [])).
Proof. exact (series_remainder e). Qed.
Theorem C68_kept (e : R) : 0 <= e ->
  let o := series_order (F := R) e in
  (2 <= o <= 7)%nat
  /\ (forall p, (p < 3)%nat -> length (window o (nth p (eccentricity_g_2pq (F := R) e) [])) = (2 * o + 1)%nat
      /\ forall i, (i < 2 * o + 1)%nat ->
         nth i (window o (nth p (eccentricity_g_2pq (F := R) e) [])) 0 = nth (7 - o + i) (nth p (eccentricity_g_2pq (F := R) e) []) 0)
  /\ (forall p, (p < 4)%nat -> length (window o (nth p (eccentricity_g_3pq (F := R) e) [])) = (2 * o + 1)%nat
      /\ forall i, (i < 2 * o + 1)%nat ->
         nth i (window o (nth p (eccentricity_g_3pq (F := R) e) [])) 0 = nth (7 - o + i) (nth p (eccentricity_g_3pq (F := R) e) []) 0).
Proof. exact (series_kept e). Qed.
(** non-vacuity: at eccentricity 1/4 the sixth harmonic is left out, and it is not zero *)
Example C68_example : series_order (F := R) (1/4) = 5%nat
  /\ nth 13 (nth 0 (eccentricity_g_2pq (F := R) (1/4)) []) 0 = 73369 / 720 / 4096.
Proof.
  split.
  - destruct (order_cases (1/4)) as [[H _]|[[H _]|[[H _]|[[_ H]|[[H _]|[H _]]]]]]; try lra. exact H.
  - cbn [eccentricity_g_2pq nth]. num_simpl. field.
Qed.

Print Assumptions C65_torque. Print Assumptions C65_towards_synchronism. Print Assumptions C65_opposite.
Print Assumptions C65_components. Print Assumptions C66_synchronous_value. Print Assumptions C66_synchronous_refuted.
Print Assumptions C67_host_torque. Print Assumptions C67_runs. Print Assumptions C67_opposite. Print Assumptions C67_additive_refuted.
Print Assumptions C68_remainder. Print Assumptions C68_kept.
