(** * What is remembered for the torque, and the mean of the Kaula force (C69) *)
From Coq Require Import Reals List Lra Lia Bool Arith ZArith.
From Verif Require Import Base.Num Base.Trans Base.Vec Model.Constants Model.Particle Model.Tools Model.Kaula
  Spec.KaulaMeanSpec Proofs.NumLemmas Proofs.KaulaBranches Proofs.KaulaMean Proofs.KaulaMeanExamples.
Import ListNotations.
Open Scope R_scope.

(** Claim: each remembered component is the mean of the instantaneous one over the mean
    anomaly and the argument of pericentre, the bodies staying where they are.
    [fst] is the instantaneous component, [snd] the remembered one. *)

(** the radial component: any bodies, any elements *)
Theorem C69_radial (host p : particle R) els central par :
  mean2 (fun anomaly pericentre => fst (kaula_radial (F := R) host p (with_angles els anomaly pericentre) central par))
    (snd (kaula_radial (F := R) host p els central par)).
Proof. exact (kaula_radial_mean host p els central par). Qed.
(** the orthogonal component when the orbit is in the equatorial plane: the mean anomaly alone suffices *)
Theorem C69_orthogonal_coplanar (host p : particle R) els central par pericentre :
  ob_obliquity (kaula_orbit (F := R) host p els central) <= 1 / 100000000 ->
  mean (fun anomaly => fst (kaula_orthogonal (F := R) host p (with_angles els anomaly pericentre) central par))
    (snd (kaula_orthogonal (F := R) host p els central par)).
Proof. exact (kaula_orthogonal_mean host p els central par pericentre). Qed.
(** the other components on an inclined orbit: what the mean is *)
Theorem C69_normal_mean (host p : particle R) o central par :
  mean2 (fun x w => fst (normal_inclined (F := R) host p (at_angles o x w) central par))
    (G * (if central then npow (p_mass p) 2 else npow (p_mass host) 2) * (if central then npow (p_radius host) 5 else npow (p_radius p) 5)
     / (npow (ob_a o) 6 * (if central then p_hdist host else p_hdist p)) * normal_constant o par central).
Proof. exact (normal_inclined_mean host p o central par). Qed.
Theorem C69_orthogonal_mean (host p : particle R) o central par :
  mean2 (fun x w => fst (orthogonal_inclined (F := R) host p (at_angles o x w) central par))
    (- (G * (if central then npow (p_mass p) 2 else npow (p_mass host) 2) * (if central then npow (p_radius host) 5 else npow (p_radius p) 5))
     / npow (ob_a o) 7 * orthogonal_constant o par central).
Proof. exact (orthogonal_inclined_mean host p o central par). Qed.
(** ... and that something else is remembered: for an elastic body on a circular orbit
    with an obliquity of 60 degrees there is a mean force towards the pole, but none is
    remembered; for a dissipative one an orthogonal force is remembered though its mean is zero *)
Theorem C69_normal_refuted : exists (host p : particle R) o par m,
  mean2 (fun x w => fst (normal_inclined (F := R) host p (at_angles o x w) false par)) m
  /\ 0 < m /\ snd (normal_inclined (F := R) host p o false par) = 0.
Proof.
  exists unit_star, unit_star, tilted, (one_point 1 0), (G * (33 * sqrt 3 / 256)).
  destruct normal_witness as [A B]. split; [exact B|]. split; [|exact A].
  apply Rmult_lt_0_compat; [exact G_pos|]. pose proof (sqrt_lt_R0 3 ltac:(lra)). lra.
Qed.
Theorem C69_orthogonal_refuted : exists (host p : particle R) o par,
  mean2 (fun x w => fst (orthogonal_inclined (F := R) host p (at_angles o x w) false par)) 0
  /\ 0 < snd (orthogonal_inclined (F := R) host p o false par).
Proof.
  exists unit_star, unit_star, tilted, (one_point 0 1).
  destruct orthogonal_witness as [A B]. split; [exact B|]. rewrite A.
  apply Rmult_lt_0_compat; [exact G_pos|]. pose proof (sqrt_lt_R0 6 ltac:(lra)). apply Rdiv_lt_0_compat; lra.
Qed.
(** a function has at most one mean *)
Theorem C69_mean_unique f a b : mean2 f a -> mean2 f b -> a = b.
Proof. exact (mean2_unique f a b). Qed.
(** non-vacuity: a force that oscillates about its mean *)
Example C69_example : mean2 (fun x w => 5 + 2 * cos (3 * x + 4 * w)) 5.
Proof.
  cut (mean2 (fun x w => 5 + 2 * cos (3 * x + 4 * w)) (5 + 2 * 0)); [rewrite Rmult_0_r, Rplus_0_r; auto|]. apply mean2_plus; [apply mean2_const|]. apply mean2_scal.
  apply (mean2_ext (fun x w => turned_re (IZR 3 * x + IZR 4 * w + 0) (1, 0))).
  - intros x w. unfold turned_re. cbn [fst snd]. replace (3 * x + 4 * w + 0) with (3 * x + 4 * w) by ring. ring.
  - apply (mean2_turned 3 4 0 (1, 0)).
Qed.

Print Assumptions C69_radial. Print Assumptions C69_orthogonal_coplanar. Print Assumptions C69_normal_mean.
Print Assumptions C69_orthogonal_mean. Print Assumptions C69_normal_refuted. Print Assumptions C69_orthogonal_refuted.
Print Assumptions C69_mean_unique.
