(** The components of the force of the Kaula model along the directions of spherical coordinates *)
From Coq Require Import Reals Lra Nsatz.
From Verif Require Import Base.Num Base.Vec Model.Particle Model.Kaula Spec.OrbitSpec Spec.KaulaTorqueSpec
  Proofs.NumLemmas Proofs.OrbitElements.
Open Scope R_scope.
Lemma components (x : vec R) (ra no eo : R) : 0 < vx x * vx x + vy x * vy x ->
  let rho := sqrt (vx x * vx x + vy x * vy x) in
  let f := spherical_to_cartesian (F := R) ra no eo (rho / length3 x) (vz x / length3 x) (vy x / rho) (vx x / rho) in
  dot f (outwards x) = ra /\ dot f (southwards x) = no /\ dot f (eastwards x) = eo
  /\ dot f f = ra * ra + no * no + eo * eo.
Proof.
  intros P rho f.
  assert (R0 : 0 < rho) by (apply sqrt_lt_R0; exact P).
  assert (R2 : rho * rho = vx x * vx x + vy x * vy x) by (apply sqrt_sqrt; lra).
  assert (L0 : 0 < length3 x) by (unfold length3; apply sqrt_lt_R0; nra).
  assert (L2 : length3 x * length3 x = rho * rho + vz x * vz x).
  { rewrite length_sq, R2. unfold dot. ring. }
  unfold southwards, outwards, eastwards. fold rho. unfold f. clear f. clearbody rho.
  set (r := length3 x) in *. clearbody r. destruct x as [a b c]. cbn [vx vy vz] in *.
  unfold spherical_to_cartesian, dot, times, cross. cbn [vx vy vz]. num_simpl.
  set (ct := a / rho). set (st := b / rho). set (cf := c / r). set (sf := rho / r).
  assert (E1 : ct * ct + st * st = 1) by (unfold ct, st; transitivity ((a * a + b * b) / (rho * rho)); [field; lra|rewrite <- R2; field; lra]).
  assert (E2 : sf * sf + cf * cf = 1) by (unfold sf, cf; transitivity ((rho * rho + c * c) / (r * r)); [field; lra|rewrite <- L2; field; lra]).
  assert (A : / r * a = sf * ct) by (unfold sf, ct; field; lra).
  assert (B : / r * b = sf * st) by (unfold sf, st; field; lra).
  assert (D : / r * c = cf) by (unfold cf; field; lra).
  assert (A' : / rho * (1 * a - 0 * c) = ct) by (unfold ct; field; lra).
  assert (B' : / rho * (0 * c - 1 * b) = - st) by (unfold st; field; lra).
  assert (D' : / rho * (0 * b - 0 * a) = 0) by (field; lra).
  rewrite A, B, D, A', B', D'. clearbody ct st cf sf. clear - E1 E2.
  assert (S1 : st * st = 1 - ct * ct) by lra. assert (S2 : sf * sf = 1 - cf * cf) by lra.
  repeat split; clear E1 E2; nsatz.
Qed.
