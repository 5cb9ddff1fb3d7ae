(** * Theorems on tables, evolving quantities, angles and spins
    (properties C41, C42, C45, C46, C51) *)
From Coq Require Import Reals List.
From Verif Require Import Base.Num Base.Result Base.Vec Base.Trans Model.Particle Model.Interp Model.Tools
  Spec.TablesSpec Proofs.TablesProofs Proofs.EvolveProofs Proofs.TablesExamples.
Import ListNotations.
Open Scope R_scope.

(** ** C45 *)
(** Interpolating any usable table never fails and returns the value of the
    piecewise linear function (constant outside the table). *)
Theorem C45_linear_interpolation xs ys t :
  table xs ys ->
  exists v i, linear_interpolation t xs ys = Ok (v, i) /\ interpolates xs ys t v.
Proof.
  exact (fun Ht => match linear_interpolation_spec xs ys t Ht with
    | ex_intro _ v (ex_intro _ i (conj E (conj H _))) => ex_intro _ v (ex_intro _ i (conj E H)) end).
Qed.
Print Assumptions C45_linear_interpolation.

Theorem C45_exact_at_nodes xs ys i v :
  table xs ys -> (i < length xs)%nat -> interpolates xs ys (nth i xs 0) v -> v = nth i ys 0.
Proof. exact (interpolates_node xs ys i v). Qed.
Print Assumptions C45_exact_at_nodes.

Theorem C45_between_neighbours xs ys t v i :
  table xs ys -> interpolates xs ys t v -> (S i < length xs)%nat ->
  nth i xs 0 <= t < nth (S i) xs 0 ->
  Rmin (nth i ys 0) (nth (S i) ys 0) <= v <= Rmax (nth i ys 0) (nth (S i) ys 0).
Proof. exact (interpolates_neighbours xs ys t v i). Qed.
Print Assumptions C45_between_neighbours.

(** the specification determines one value *)
Theorem C45_unique xs ys t v w :
  table xs ys -> interpolates xs ys t v -> interpolates xs ys t w -> v = w.
Proof. exact (interpolates_unique xs ys t v w). Qed.
Print Assumptions C45_unique.

Example C45_example : table ages radii /\ length ages = 20%nat.
Proof. exact (conj ages_table eq_refl). Qed.

(** ** C41 *)
(** The full property (whatever the order of the requested times) is false, see
    below.  What holds: for every evolution model and every sequence of requests
    whose times do not decrease, every answer is the interpolation of the full
    table (or the current value for quantities that are not tabulated). *)
Theorem C41_evolving_quantities_partial e reqs :
  well_tabulated e -> ev_left e = 0%nat ->
  nondecreasing (map (fun '(_, t, _) => t) reqs) ->
  exists vs, get_all e reqs = Ok vs /\ Forall2 (expected e) reqs vs.
Proof. exact (get_all_fresh e reqs). Qed.
Print Assumptions C41_evolving_quantities_partial.

Example C41_example :
  well_tabulated star /\ ev_left star = 0%nat /\
  nondecreasing (map (fun '(_, t, _) => t)
    [(QRadius, 1/2, 0); (QGyration, 1/2, 7); (QRadius, 31/2, 0); (QRadius, 100, 0)]).
Proof. exact star_forward. Qed.

(** After two requests in a row beyond the tenth, any earlier time gets the value
    of that row: the program does not look back at all. *)
Theorem C41_going_back_in_time e t1 t2 L c :
  table (ev_time e) (ev_radius e) -> ev_type e <> NonEvolving -> ev_left e = 0%nat ->
  bracket (ev_time e) t1 L -> (10 < L)%nat -> t2 < nth L (ev_time e) 0 ->
  exists v1 v2, get_all e [(QRadius, t1, c); (QRadius, t1, c); (QRadius, t2, c)]
    = Ok [v1; v2; nth L (ev_radius e) 0].
Proof. exact (going_back e t1 t2 L c). Qed.
Print Assumptions C41_going_back_in_time.

Theorem C41_evolving_quantities_refuted :
  exists e reqs vs, well_tabulated e /\ ev_left e = 0%nat /\
    get_all e reqs = Ok vs /\ ~ Forall2 (expected e) reqs vs.
Proof.
  exact (match star_back with
  | ex_intro _ v1 (ex_intro _ v2 (ex_intro _ v3 (conj E (conj H3 Hw)))) =>
    ex_intro _ star (ex_intro _ _ (ex_intro _ _ (conj star_well (conj eq_refl (conj E
      (fun F : Forall2 (expected star) [(QRadius, 31/2, 0); (QRadius, 31/2, 0); (QRadius, 25/2, 0)] [v1; v2; v3] =>
       third_differs v1 v2 v3 F H3 Hw))))))
  end).
Qed.
Print Assumptions C41_evolving_quantities_refuted.

(** The lag angle of the dynamical tide follows the tabulated dissipation and the
    spin; a body without such a table gets none, and nothing else changes. *)
Theorem C41_lag_angle sun2 t (p p' : particle R) e e' :
  evolve_spin sun2 t (p, e) = Ok (p', e') ->
  p' = set_p_tides (set_t_lag_angle (t_lag_angle (p_tides p')) (p_tides p)) p /\
  if tabulates (ev_type e) QInvQ
  then exists q, get e QInvQ t 0 = Ok (q, e') /\ t_lag_angle (p_tides p') = 3 / 4 * (p_spin2 p / sun2) * q
  else e' = e /\ t_lag_angle (p_tides p') = 0.
Proof. exact (lag_angle_set sun2 t p p' e e'). Qed.
Print Assumptions C41_lag_angle.

(** ** C42 is false: the tidal parameters are never changed by the evolution, and
    there is a body whose table gives another Love number than the one used. *)
Theorem C42_love_number_never_changes {F} `{Num F} t (p p' : particle F) e e' :
  evolve_non_spin t (p, e) = Ok (p', e') -> p_tides p' = p_tides p.
Proof. exact (fun E => proj1 (evolve_non_spin_keeps_tides t p p' e e' E)). Qed.
Print Assumptions C42_love_number_never_changes.

Theorem C42_love_number_refuted :
  exists p' e' v e'' k,
    evolve_non_spin (q64 1 1) (young_planet, planet_evolver) = Ok (p', e') /\
    evolver_love planet_evolver (q64 1 1) n0 = Ok (v, e'') /\
    love_used p' = Some k /\ neqb v k = false.
Proof. exact love_lost. Qed.
Print Assumptions C42_love_number_refuted.

(** ** C46 *)
Theorem C46_modulus (a b : R) : 0 < b ->
  0 <= modulus a b < b /\ exists k : Z, a = modulus a b + IZR k * b.
Proof. exact (modulus_spec a b). Qed.
Print Assumptions C46_modulus.
Example C46_example : 0 < 2 * PI /\ -7 < 0.
Proof. exact two_pi_positive. Qed.

(** in binary64 the upper bound is reached *)
Theorem C46_binary64_refuted : exists a b : f64, (n0 <? b)%num = true /\ modulus a b = b.
Proof. exact modulus_tiny. Qed.
Print Assumptions C46_binary64_refuted.

(** ** C51: norm, angle to the reference axis, angle to the orbit normal (given by
    inclination and node), orthogonal to the line of nodes *)
Theorem C51_spin_vector (w inclination obliquity node : R) :
  let s := calculate_spin w inclination obliquity node in
  vdot s s = w * w /\
  vdot s (Vec 0 0 1) = w * cos (obliquity + inclination) /\
  vdot s (Vec (sin inclination * sin node) (- (sin inclination * cos node)) (cos inclination))
    = w * cos obliquity /\
  vdot s (Vec (cos node) (sin node) 0) = 0.
Proof. exact (calculate_spin_spec w inclination obliquity node). Qed.
Print Assumptions C51_spin_vector.
