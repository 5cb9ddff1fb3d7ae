(** * Theorems on the WHFast integrator (properties C16 to C19, C52, C54, C61) *)
From Coq Require Import Reals Lra Lia List Bool Arith.
From Verif Require Import Base.Num Base.Result Base.Trans Base.Vec Model.Constants Model.Particle Model.Host
  Model.Creep Model.Relativity Model.Universe Model.WHFast
  Spec.EffectsSpec Spec.UniverseSpec Spec.WHFastSpec Proofs.NumLemmas Proofs.VecLemmas
  Proofs.EffectSums Proofs.WHFastCoords Proofs.WHFastRun Proofs.WHFastStep Proofs.StumpffProofs Proofs.KeplerProofs Proofs.MidpointProofs
  Proofs.UniverseExamples Proofs.WHFastExamples Proofs.WHFastLast.
Import ListNotations.
Open Scope R_scope.

Section Any.
  (** the functions of libm and the iteration bound do not matter *)
  Context `{Trans R} `{Floor R} `{Fuel}.
  Notation parts w := (u_particles (w_u w)).
  Notation hid w := (h_most_massive (u_hosts (w_u w))).

  (** ** C16 *)
  (** the bodies of the universe, for every host index *)
  Theorem C16_round_trip (w : whfast R) star : length (w_alt w) = length (parts w) ->
    nth_error (parts w) (hid w) = Some star -> usable (w_type w) star (except (hid w) (parts w)) ->
    exists w', with_bodies w (fun s o => let '(s, o) := to_alternative (w_type w) s o in Ok (to_inertial (w_type w) s o)) = Ok w'
    /\ u_particles (w_u w') = u_particles (w_u w).
  Proof. exact (round_trip_whole w star). Qed.
  Example C16_example c : let w := new_whfast (pair_u no_effects) c in
    length (w_alt w) = length (parts w) /\ exists star, nth_error (parts w) (hid w) = Some star /\ usable c star (except (hid w) (parts w)).
  Proof.
    split; [reflexivity|]. exists (at_ (Vec (-1) 0 0) (Vec 0 (-1/100) 0) sun). split; [reflexivity|].
    change (except _ _) with [at_ (Vec 9 0 0) (Vec 0 (9/100) 0) earth].
    assert (A : p_mass (at_ (Vec (-1) 0 0) (Vec 0 (-1/100) 0) sun) = 1) by (cbn; lra).
    assert (B : p_mass (at_ (Vec 9 0 0) (Vec 0 (9/100) 0) earth) = 1/10) by (cbn; lra).
    set (s := at_ _ _ sun) in *. set (e := at_ _ _ earth) in *. clearbody s e. unfold usable, total_mass.
    destruct c; [intros [|[|k]]| |]; cbn [firstn map Rsum fold_right]; rewrite ?A, ?B; repeat split; try lra.
    repeat constructor. rewrite ?A, ?B. lra.
  Qed.

  (** ** C17 *)
  Theorem C17_coordinates c (star : body R) (o : list (body R)) : usable c (fst star) (map fst o) ->
    let r := to_alternative c star o in let l := map fst (star :: o) in
    of_bodies r = l
    /\ a_mass (snd (fst r)) = total_mass l
    /\ a_pos (snd (fst r)) = mean p_ipos l
    /\ a_vel (snd (fst r)) = mean p_ivel l
    /\ map (fun b : body R => a_pos (snd b)) (snd r) = coordinate_pos c (fst star) (map fst o)
    /\ map (fun b : body R => a_vel (snd b)) (snd r) = coordinate_vel c (fst star) (map fst o)
    /\ map (fun b : body R => a_mass (snd b)) (snd r) = map (fun b : body R => p_mass (fst b)) o.
  Proof. exact (alternative_coords c star o). Qed.
  (** momentum in the new coordinates: that of the total mass moving with the centre of mass *)
  Theorem C17_momentum c (star : body R) (o : list (body R)) : usable c (fst star) (map fst o) ->
    let r := to_alternative c star o in
    vscale (a_mass (snd (fst r))) (a_vel (snd (fst r))) = momentum (map fst (star :: o)).
  Proof.
    intro U. cbn zeta. destruct (alternative_coords c star o U) as (_ & M & _ & V & _). rewrite M, V.
    unfold mean, momentum. rewrite vscale_scale, Rinv_r, vscale_1; [reflexivity|].
    destruct c; cbn [usable map] in *; [|apply U|apply U]. specialize (U (length o)). rewrite firstn_all2 in U by now rewrite map_length. exact U.
  Qed.
  Theorem C17_angular_momentum c (star : body R) (o : list (body R)) : usable c (fst star) (map fst o) ->
    let r := to_alternative c star o in
    vadd (vscale (a_mass (snd (fst r))) (vcross (a_pos (snd (fst r))) (a_vel (snd (fst r)))))
      (cross_sum (coordinate_masses c (fst star) (map fst o)) (map (fun b : body R => a_pos (snd b)) (snd r)) (map (fun b : body R => a_vel (snd b)) (snd r)))
    = orbital_momentum (map fst (star :: o)).
  Proof.
    intro U. cbn zeta. destruct (alternative_coords c star o U) as (_ & M & X & V & XS & VS & _). rewrite M, X, V, XS, VS.
    exact (angular_momentum c star o U).
  Qed.

  (** ** C18 *)
  (** the drift with exact Stiefel functions and a solved Kepler equation *)
  Theorem C18_exact_drift mu dt s x v g : norm2 x <> 0 -> stiefel_identities (orbit_beta mu x v) s g ->
    universal_time mu x v s g = dt -> 0 < universal_radius mu x v g ->
    let '(x', v') := kepler_drift (kepler_setup mu dt x v) g (1 / universal_radius mu x v g) x v in
    (exists f h f' h', x' = vadd (vscale f x) (vscale h v) /\ v' = vadd (vscale f' x) (vscale h' v) /\ f * h' - h * f' = 1)
    /\ vcross x' v' = vcross x v /\ sqrt (norm2 x') = universal_radius mu x v g
    /\ two_body_energy mu x' v' = two_body_energy mu x v.
  Proof. exact (drift_exact mu dt s x v g). Qed.
  (** it is the solution of the equation of motion from [x] and [v], bound or not *)
  Theorem C18_equation_of_motion mu x v g : norm2 x <> 0 -> vcross x v <> vzero ->
    stiefel_functions (orbit_beta mu x v) g ->
    let drift s := kepler_drift (kepler_setup mu (universal_time mu x v s (g s)) x v) (g s) (1 / universal_radius mu x v (g s)) x v in
    universal_time mu x v 0 (g 0) = 0 /\ drift 0 = (x, v)
    /\ two_body_motion mu (fun s => universal_time mu x v s (g s)) (fun s => fst (drift s)) (fun s => snd (drift s)).
  Proof.
    intros X C G. cbn zeta. split; [unfold universal_time; rewrite (proj1 G); cbn; ring|].
    split; [exact (motion_start mu x v g X C G)|exact (motion mu x v g X C G)].
  Qed.
  Example C18_example : norm2 (a_pos circle) <> 0 /\ vcross (a_pos circle) (a_vel circle) <> vzero
    /\ (let g s := Cs (cos s) (sin s) (1 - cos s) (s - sin s) in
        stiefel_functions (orbit_beta 1 (a_pos circle) (a_vel circle)) g
        /\ forall s, stiefel_identities (orbit_beta 1 (a_pos circle) (a_vel circle)) s (g s)
           /\ universal_time 1 (a_pos circle) (a_vel circle) s (g s) = s /\ 0 < universal_radius 1 (a_pos circle) (a_vel circle) (g s)).
  Proof.
    destruct circle_norms as (N1 & _ & _ & N4). rewrite N1, N4. split; [lra|]. split; [intro X; injection X; lra|]. cbn zeta.
    rewrite circle_beta. split; [exact circle_functions|]. intro s. split; [exact (stiefel_hold 1 _ circle_functions s)|].
    destruct (circle_time s) as (T & U). rewrite U. split; [exact T|lra].
  Qed.
  (** The step of the code.  The full statement is that of [C18_exact_drift] for every
      step that the code takes.  The code evaluates truncated series, so the defects [b]
      and [d] of the Stiefel functions and the residual [kappa] of Kepler's equation enter;
      missing is a bound on [kappa]. *)
  Theorem C18_step_partial mu dt (a a' : alternative R) : norm2 (a_pos a) <> 0 -> kepler_step mu dt a = Ok a' ->
    let x := a_pos a in let v := a_vel a in let r0 := sqrt (norm2 x) in let beta := orbit_beta mu x v in
    exists s g b d, stiefel_gs3 beta s = Ok g /\
      let r := universal_radius mu x v g in let kappa := dt - universal_time mu x v s g in
      (r <> 0 ->
        vcross (a_pos a') (a_vel a') = vscale (1 + mu / (r0 * r) * (r0 * b + cs1 g * (kappa - r0 * d))) (vcross x v)
        /\ norm2 (vadd (a_pos a') (vscale (r0 * d - kappa) v)) = r ^ 2 + norm2 (vcross x v) * b
        /\ norm2 (a_vel a') = 2 * mu / r - beta + mu ^ 2 / r ^ 2 * b)
      /\ (Rabs (beta * s ^ 2) <= 10 ^ 15 ->
          Rabs b <= 4/10^16 * s ^ 2 * (1 + cs0 g ^ 2) /\ Rabs d <= 3/10^17 * Rabs beta * Rabs s ^ 3 * (1 + Rabs (cs0 g))).
  Proof. exact (step_defects mu dt a a'). Qed.
  Example C18_step_example : norm2 (a_pos circle) <> 0
    /\ exists a', kepler_step (H := NumR) (H0 := TransR) (H1 := FloorR) (H2 := {| fuel := 1 |}) 1 (1/4) circle = Ok a'.
  Proof. split; [destruct circle_norms as (-> & _); lra|exact circle_step]. Qed.
  (** where Newton's method stops: at a solution (see [newton_update_eq] below), or in a cycle of two values *)
  Theorem C18_newton n (k : kepler R) x o g g' ri : WHFast.newton n k x o g = Ok (true, g', ri) ->
    (exists g0, stiefel_gs3 (k_beta k) o = Ok g0 /\ x = newton_update k g0 o) ->
    exists s, stiefel_gs3 (k_beta k) s = Ok g' /\
      (newton_update k g' s = s
       \/ exists o' g0, stiefel_gs3 (k_beta k) o' = Ok g0 /\ newton_update k g0 o' = s /\ newton_update k g' s = o').
  Proof. exact (newton_exit n k x o g g' ri). Qed.
  Theorem C18_newton_fixed (k : kepler R) g s : k_r0 k + (k_eta0 k * cs1 g + k_zeta0 k * cs2 g) <> 0 ->
    (newton_update k g s = s <-> k_r0 k * s + k_eta0 k * cs2 g + k_zeta0 k * cs3 g = k_dt k).
  Proof.
    intro N. rewrite (newton_update_eq k g s N). set (d := k_r0 k + _) in *. set (f := k_r0 k * s + _ + _). split.
    - intro E. assert (Z : (k_dt k - f) / d = 0) by lra. unfold Rdiv in Z. apply Rmult_integral in Z. destruct Z as [Z|Z]; [lra|].
      exfalso. exact (Rinv_neq_0_compat d N Z).
    - intro E. rewrite E. unfold Rdiv. replace (k_dt k - k_dt k) with 0 by ring. ring.
  Qed.

  (** ** C19 *)
  Theorem C19_jump c dt (star : body R) (o : list (body R)) : usable c (fst star) (map fst o) ->
    let r := to_alternative c star o in let q := jump c dt (fst r) (snd r) in
    momentum (of_bodies (to_inertial c (fst q) (snd q))) = momentum (map fst (star :: o))
    /\ weighted p_ipos (of_bodies (to_inertial c (fst q) (snd q))) = weighted p_ipos (map fst (star :: o)).
  Proof. exact (momentum_slots c star o (jump c dt) (jump_slots c dt)). Qed.
  Theorem C19_kick c dt (star : body R) (o : list (body R)) : usable c (fst star) (map fst o) ->
    let r := to_alternative c star o in let q := interaction c dt (fst r) (snd r) in
    momentum (of_bodies (to_inertial c (fst q) (snd q))) = momentum (map fst (star :: o))
    /\ weighted p_ipos (of_bodies (to_inertial c (fst q) (snd q))) = weighted p_ipos (map fst (star :: o)).
  Proof. exact (momentum_slots c star o (interaction c dt) (interaction_slots c dt)). Qed.
  Example C19_example c : exists (star : body R) (o : list (body R)), o <> [] /\ usable c (fst star) (map fst o).
  Proof.
    destruct (C16_example c) as (_ & s & Es & U). exists (s, Alt 0 0 vzero vzero vzero),
      (map (fun p => (p, Alt 0 0 vzero vzero vzero)) (except 0 (parts (new_whfast (pair_u no_effects) c)))).
    split; [intro X; discriminate X|]. rewrite map_map. cbn [fst]. rewrite map_id. exact U.
  Qed.

  (** ** C61: whole steps *)
  Theorem C61_whfast_conserves dt half n t (w w' : whfast R) : ready w -> wh_steps n t dt half w = Ok w' ->
    momentum (parts w') = momentum (parts w)
    /\ weighted p_ipos (parts w') = vadd (weighted p_ipos (parts w)) (vscale (INR n * (half + half)) (momentum (parts w))).
  Proof. exact (wh_conserves dt half n t w w'). Qed.
  Example C61_example c n : ready (new_whfast (lone_u no_effects) c)
    /\ exists w', wh_steps n 0 1 (1/2) (new_whfast (lone_u no_effects) c) = Ok w'.
  Proof. split; [apply lone_ready|apply lone_run; auto]. Qed.

  (** ** C52 *)
  (** three to ten evaluations, the last of which gives the update; the iterations end
      with the first evaluation from the third on that agrees with the one before it *)
  Theorem C52_iterations t dt spin ev (w w' : whfast R) : sized w -> compensated spin w ->
    velocity_dependent t dt spin ev w = Ok w' ->
    exists k u v, (2 <= k <= 9)%nat /\ evaluations t dt spin ev (w_type w) (w_u w) k v
      /\ rates t spin (w_type w) false (midpoint_of dt spin (w_u w) v) = Ok u
      /\ ((settled dt spin (w_u w) DBL_EPSILON_2 v u \/ k = 9%nat) /\
          forall j x y, (2 <= j < k)%nat -> evaluations t dt spin ev (w_type w) (w_u w) j x ->
            rates t spin (w_type w) false (midpoint_of dt spin (w_u w) x) = Ok y -> ~ settled dt spin (w_u w) DBL_EPSILON_2 x y)
      /\ w_u w' = set_particles (zip (fun s p => with_vl spin p (updated dt spin s p)) (parts w) (u_particles u)) u
      /\ w_alt w' = w_alt w /\ w_type w' = w_type w /\ sized w' /\ compensated spin w'.
  Proof. exact (velocity_dependent_midpoint t dt spin ev w w'). Qed.
  Theorem C52_spin_magnitude t dt ev (w w' : whfast R) : sized w -> compensated true w ->
    velocity_dependent t dt true ev w = Ok w' ->
    exists k u v, (2 <= k <= 9)%nat /\ evaluations t dt true ev (w_type w) (w_u w) k v
      /\ rates t true (w_type w) false (midpoint_of dt true (w_u w) v) = Ok u
      /\ forall i s p q, nth_error (parts w) i = Some s -> nth_error (u_particles u) i = Some p -> nth_error (u_particles v) i = Some q ->
         exists s' m, nth_error (parts w') i = Some s' /\ nth_error (u_particles (midpoint_of dt true (w_u w) v)) i = Some m
         /\ p_L s' = vadd (p_L s) (vscale dt (p_dL p))
         /\ (vdot (p_dL p) (p_L m) = 0 ->
             norm2 (p_L s') - norm2 (p_L s) = dt ^ 2 * vdot (p_dL p) (vsub (p_dL p) (p_dL q))
             /\ (p_dL p = p_dL q -> norm2 (p_L s') = norm2 (p_L s))).
  Proof. exact (spin_magnitude t dt ev w w'). Qed.
  (** the compensations of a new integrator *)
  Theorem C52_new (u : universe R) c spin : sized (new_whfast u c) /\ compensated spin (new_whfast u c).
  Proof.
    split; [unfold sized; cbn; rewrite !repeat_length; auto|].
    assert (Z : forall n, Forall (fun v : vec R => v = vzero) (repeat vzero n)) by (induction n; constructor; auto).
    split; cbn; auto.
  Qed.
  Example C52_example c : exists w', velocity_dependent 0 1 true true (new_whfast (lone_u no_effects) c) = Ok w'.
  Proof.
    destruct (lone_u_lone no_effects c (or_introl eq_refl)) as ((_ & Ho & I) & Sz & _).
    destruct (velocity_dependent_ok 0 1 true true (new_whfast (lone_u no_effects) c)) as (w' & E & _); [|exact Sz|eauto].
    split; [left; reflexivity|]. split; assumption.
  Qed.

  (** ** C54: with the wind alone, WHFast leaves the spin as it is *)
  Theorem C54_whfast_keeps n t dt half (w w' : whfast R) : sized w -> length (u_roche (w_u w)) = length (parts w) ->
    integrate_spin (w_u w) = false -> wh_steps n t dt half w = Ok w' ->
    map p_L (parts w') = map p_L (parts w).
  Proof. exact (spin_untouched n t dt half w w'). Qed.
  (** a wind that slows the star down with LeapFrog ([C54_leapfrog_partial]) *)
  Theorem C54_whfast_refuted : exists (w w' : whfast R) p p', wind_only (w_u w) /\ wh_steps 1 0 1 (1/2) w = Ok w'
    /\ nth_error (parts w) 0 = Some p /\ braked (1/2) (rotation p) /\ nth_error (parts w') 0 = Some p' /\ p_L p' = p_L p.
  Proof.
    destruct (lone_run wind_effects Jacobi 1) as (w' & E); [auto|]. set (w := new_whfast (lone_u wind_effects) Jacobi) in *.
    assert (K : map p_L (parts w') = map p_L (parts w)).
    { apply (spin_untouched 1 0 1 (1/2) w w'); [unfold sized; cbn; auto|reflexivity|reflexivity|exact E]. }
    assert (Ep : nth_error (parts w) 0 = Some (at_ (Vec (-1) 0 0) (Vec 0 (1/100) 0) sun)) by reflexivity.
    destruct (nth_error (parts w') 0) as [p'|] eqn:Ep'.
    - exists w, w', (at_ (Vec (-1) 0 0) (Vec 0 (1/100) 0) sun), p'.
      split; [reflexivity|]. split; [exact E|]. split; [exact Ep|]. split; [exact pair_braked|]. split; [exact Ep'|].
      apply (f_equal (fun l => nth_error l 0)) in K. rewrite !nth_error_map, Ep, Ep' in K. cbn [option_map] in K. injection K as K. exact K.
    - exfalso. apply (f_equal (fun l => nth_error l 0)) in K. rewrite !nth_error_map, Ep, Ep' in K. discriminate K.
  Qed.
End Any.

Print Assumptions C16_round_trip.
Print Assumptions C17_coordinates.
Print Assumptions C17_momentum.
Print Assumptions C17_angular_momentum.
Print Assumptions C18_exact_drift.
Print Assumptions C18_equation_of_motion.
Print Assumptions C18_step_partial.
Print Assumptions C18_newton.
Print Assumptions C18_newton_fixed.
Print Assumptions C19_jump.
Print Assumptions C19_kick.
Print Assumptions C61_whfast_conserves.
Print Assumptions C52_iterations.
Print Assumptions C52_spin_magnitude.
Print Assumptions C52_new.
Print Assumptions C54_whfast_keeps.
Print Assumptions C54_whfast_refuted.
