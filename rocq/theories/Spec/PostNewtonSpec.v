(** * Conserved quantities of two bodies in the first post-Newtonian order (Kidder 1995, 2.7a-b and 2.9)
    per unit of reduced mass; [gm] is the total gravitational parameter, [eta] the symmetric mass
    ratio, [r] and [v] the relative position and velocity, [c2] the square of the speed of light *)
From Coq Require Import Reals List.
From Verif Require Import Base.Num Base.Vec Spec.EffectsSpec.
Open Scope R_scope.

Definition energy_1pn (c2 gm eta : R) (r v : vec R) : R :=
  let d := sqrt (norm2 r) in let rdot := vdot r v / d in
  norm2 v / 2 - gm / d
  + 1 / c2 * (3 / 8 * (1 - 3 * eta) * norm2 v ^ 2 + 1 / 2 * (3 + eta) * norm2 v * (gm / d)
              + 1 / 2 * eta * (gm / d) * rdot ^ 2 + 1 / 2 * (gm / d) ^ 2).
Definition momentum_1pn (c2 gm eta : R) (r v : vec R) : vec R :=
  let d := sqrt (norm2 r) in
  vscale (1 + 1 / c2 * (1 / 2 * (1 - 3 * eta) * norm2 v + (3 + eta) * (gm / d))) (vcross r v).
(** What the first order leaves to the second; neither depends on the speed of light. *)
Definition energy_left (gm eta : R) (r v : vec R) : R :=
  let d := sqrt (norm2 r) in let f := kidder_1pn 1 gm eta r v in
  (3 / 2 * (1 - 3 * eta) * norm2 v + (3 + eta) * (gm / d)) * vdot v f + eta * gm * vdot r v / d ^ 3 * vdot r f.
Definition momentum_left (gm eta : R) (r v : vec R) : vec R :=
  let d := sqrt (norm2 r) in let f := kidder_1pn 1 gm eta r v in
  vadd (vscale (1 / 2 * (1 - 3 * eta) * norm2 v + (3 + eta) * (gm / d)) (vcross r f))
       (vscale ((1 - 3 * eta) * vdot v f) (vcross r v)).
