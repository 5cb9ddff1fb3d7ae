(** Statements about WHFast put together, and concrete orbits *)
From Coq Require Import Reals Lra Psatz List Bool Arith Lia.
From Verif Require Import Base.Num Base.Result Base.Trans Base.Vec Model.Constants Model.Particle Model.Host
  Model.Creep Model.Relativity Model.Universe Model.WHFast
  Spec.EffectsSpec Spec.UniverseSpec Spec.WHFastSpec Proofs.NumLemmas Proofs.VecLemmas Proofs.GravityProofs Proofs.LeapFrogProofs
  Proofs.UniverseProofs Proofs.FrameProofs Proofs.EffectSums Proofs.WHFastCoords Proofs.WHFastRun Proofs.WHFastStep Proofs.StumpffProofs Proofs.KeplerProofs Proofs.MidpointProofs
  Proofs.UniverseExamples Proofs.WHFastExamples.
Import ListNotations.
Open Scope R_scope.

(** ** Momentum through the coordinates *)
Section Momentum.
  Lemma momentum_slots c (star : body R) (o : list (body R)) (f : body R -> list (body R) -> body R * list (body R)) :
    (forall s o, same_slots s o (f s o)) -> usable c (fst star) (map fst o) ->
    let r := to_alternative c star o in let q := f (fst r) (snd r) in
    momentum (of_bodies (to_inertial c (fst q) (snd q))) = momentum (map fst (star :: o))
    /\ weighted p_ipos (of_bodies (to_inertial c (fst q) (snd q))) = weighted p_ipos (map fst (star :: o)).
  Proof.
    intros Hf U. cbn zeta. destruct (alternative_coords c star o U) as (A1 & A2 & _).
    unfold of_bodies in A1. cbn [map] in A1. apply cons_eq in A1 as [B1 B2].
    assert (U' : usable c (fst (fst (to_alternative c star o))) (map fst (snd (to_alternative c star o)))) by (rewrite B1, B2; exact U).
    assert (M : a_mass (snd (fst (to_alternative c star o))) = total_mass (map fst (fst (to_alternative c star o) :: snd (to_alternative c star o)))).
    { cbn [map]. rewrite B1, B2. exact A2. }
    destruct (slots_momentum c _ _ _ U' M (Hf _ _)) as (P & X). rewrite P, X.
    pose proof (round_trip c star o U) as RT. cbn zeta in RT. rewrite RT.
    unfold of_bodies. cbn [map]. rewrite B1, B2. auto.
  Qed.
End Momentum.

(** ** The spin through the implicit midpoint *)
Lemma nth_zip {A B C} (f : A -> B -> C) l k i a b : nth_error l i = Some a -> nth_error k i = Some b -> nth_error (zip f l k) i = Some (f a b).
Proof. intros X Y. unfold zip. rewrite nth_error_map, (nth_combine _ _ _ _ _ X Y). reflexivity. Qed.
Section Spin.
  Context `{Trans R} `{Floor R} `{Fuel}.
  Lemma spin_magnitude t dt ev (w w' : whfast R) : sized w -> compensated true w ->
    velocity_dependent t dt true ev w = Ok w' ->
    exists k u v, (2 <= k <= 9)%nat /\ evaluations t dt true ev (w_type w) (w_u w) k v
      /\ rates t true (w_type w) false (midpoint_of dt true (w_u w) v) = Ok u
      /\ forall i s p q, nth_error (u_particles (w_u w)) i = Some s -> nth_error (u_particles u) i = Some p -> nth_error (u_particles v) i = Some q ->
         exists s' m, nth_error (u_particles (w_u w')) i = Some s' /\ nth_error (u_particles (midpoint_of dt true (w_u w) v)) i = Some m
         /\ p_L s' = vadd (p_L s) (vscale dt (p_dL p))
         /\ (vdot (p_dL p) (p_L m) = 0 -> 
             norm2 (p_L s') - norm2 (p_L s) = dt ^ 2 * vdot (p_dL p) (vsub (p_dL p) (p_dL q))
             /\ (p_dL p = p_dL q -> norm2 (p_L s') = norm2 (p_L s))).
  Proof.
    intros Sz C E. destruct (velocity_dependent_midpoint t dt true ev w w' Sz C E) as (k & u & v & K & Ev & Er & _ & Ew & _).
    exists k, u, v. split; [exact K|]. split; [exact Ev|]. split; [exact Er|]. intros i s p q Es Ep Eq.
    pose proof (nth_zip (fun s p => with_vl true p (updated dt true s p)) _ _ i s p Es Ep) as Es'.
    pose proof (nth_zip (fun s p => with_vl true p (halfway (p_ivel s, p_L s) (updated dt true s p))) _ _ i s q Es Eq) as Em.
    eexists. eexists. rewrite Ew. cbn [u_particles set_particles midpoint_of]. split; [exact Es'|]. split; [exact Em|].
    change (p_L (with_vl true p (updated dt true s p))) with (vadd (p_L s) (vscale dt (p_dL p))). split; [reflexivity|].
    change (p_L (with_vl true q (halfway (p_ivel s, p_L s) (updated dt true s q)))) with (vscale (1/2) (vadd (p_L s) (vadd (p_L s) (vscale dt (p_dL q))))).
    generalize (p_L s) (p_dL p) (p_dL q). intros L tp tq Z.
    assert (X : norm2 (vadd L (vscale dt tp)) - norm2 L = dt ^ 2 * vdot tp (vsub tp tq)).
    { rewrite (spin_change _ _ _ _ Z). generalize tp tq L. clear. intros tp tq L. vdestruct. vunfold. ring. }
    split; [exact X|]. intros ->. replace (vdot tq (vsub tq tq)) with 0 in X; [lra|]. clear. vdestruct. vunfold. ring.
  Qed.
End Spin.

(** ** Concrete orbits *)
Definition circle : alternative R := Alt 1 1 (Vec 1 0 0) (Vec 0 1 0) vzero.
Lemma circle_norms : norm2 (a_pos circle) = 1 /\ norm2 (a_vel circle) = 1 /\ vdot (a_pos circle) (a_vel circle) = 0 /\ vcross (a_pos circle) (a_vel circle) = Vec 0 0 1.
Proof. cbn [circle a_pos a_vel]. repeat split; [vunfold; ring ..|]. vunfold. f_equal; ring. Qed.
Section Circle.
  Lemma circle_step : exists a', kepler_step (H := NumR) (H2 := {| fuel := 1 |}) 1 (1/4) circle = Ok a'.
  Proof.
    destruct circle_norms as (N1 & N2 & N3 & _). unfold kepler_step. cbn zeta.
    assert (S : sqrt 1 = 1) by apply sqrt_1.
    assert (K : kepler_setup 1 (1/4) (a_pos circle) (a_vel circle) = Kepler 1 (1/4) 1 1 0 0 1).
    { unfold kepler_setup. rewrite N1, N2, N3. num_simpl. rewrite S. f_equal; field. }
    rewrite K. 
    assert (G : exists g, stiefel_gs3 (H := NumR) (H2 := {| fuel := 1 |}) 1 (1/4) = Ok g).
    { unfold stiefel_gs3, stumpff_cs3. cbn [fuel quarter npow]. num_simpl.
      rewrite (proj2 (Rltb_false _ _)); [eexists; reflexivity|]. unfold nabs. rewrite Rabs_pos_eq; lra. }
    destruct G as (g & G).
    unfold solve_kepler. cbn zeta. cbn [k_beta k_r0 k_dt k_eta0 k_mu]. num_simpl. rewrite (proj2 (Rltb_true 0 1)) by lra. cbn [andb].
    replace (1 / 4 * (1 / 1) * (1 - 1 / 4 * (1 / 1) * 0 * (5 / 10) * (1 / 1))) with (1 / 4) by field.
    rewrite G. cbn [rbind].
    assert (U : newton_update (Kepler 1 (1/4) 1 1 0 0 1) g (1/4) = 1/4).
    { unfold newton_update, radius_inverse. cbn [k_beta k_r0 k_dt k_eta0 k_zeta0]. num_simpl. field. }
    rewrite U. rewrite (proj2 (Rltb_false _ _)).
    2:{ unfold nabs. rewrite Rminus_diag_eq by reflexivity. rewrite Rabs_R0, S. change (@tpi R TransR) with PI. pose proof PI_RGT_0. unfold Rdiv. rewrite Rinv_1. lra. }
    cbn [WHFAST_NMAX_NEWT Nat.sub WHFast.newton k_beta]. rewrite G. cbn [rbind]. rewrite U. num_simpl.
    rewrite (proj2 (Reqb_true _ _)) by reflexivity. cbn [orb rbind]. destruct (kepler_drift _ _ _ _ _). eexists. reflexivity.
  Qed.
  (** the Stiefel functions of a bound orbit with [beta = 1] *)
  Lemma circle_functions : stiefel_functions 1 (fun s => Cs (cos s) (sin s) (1 - cos s) (s - sin s)).
  Proof.
    split; [rewrite cos_0, sin_0; f_equal; ring|]. intro s. cbn [cs0 cs1 cs2 cs3]. split; [|split; [|split]].
    - replace (- (1) * sin s) with (- sin s) by ring. apply derivable_pt_lim_cos.
    - apply derivable_pt_lim_sin.
    - replace (sin s) with (0 - - sin s) by ring. exact (derivable_pt_lim_minus (fun _ => 1) cos s 0 (- sin s) (derivable_pt_lim_const 1 s) (derivable_pt_lim_cos s)).
    - exact (derivable_pt_lim_minus id sin s 1 (cos s) (derivable_pt_lim_id s) (derivable_pt_lim_sin s)).
  Qed.
  Lemma circle_beta : orbit_beta 1 (a_pos circle) (a_vel circle) = 1.
  Proof. destruct circle_norms as (N1 & N2 & _). unfold orbit_beta. rewrite N1, N2, sqrt_1. field. Qed.
  Lemma circle_time s : universal_time 1 (a_pos circle) (a_vel circle) s (Cs (cos s) (sin s) (1 - cos s) (s - sin s)) = s
    /\ universal_radius 1 (a_pos circle) (a_vel circle) (Cs (cos s) (sin s) (1 - cos s) (s - sin s)) = 1.
  Proof. destruct circle_norms as (N1 & N2 & N3 & _). unfold universal_time, universal_radius. rewrite N1, N2, N3, sqrt_1. cbn [cs1 cs2 cs3]. split; field. Qed.
End Circle.
