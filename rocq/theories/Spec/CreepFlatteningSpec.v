(** * The figure of a rotating body under the creep law, for property C73

    Folonier et al. (2018): a body of mass [m], radius [r] and viscosity [eta],
    turning at the rate [spin] on an orbit of eccentricity [e] and mean motion
    [n].  Only the flattening by rotation is described here. *)
From Coq Require Import Reals.
From Verif Require Import Base.Vec Spec.EffectsSpec.
Open Scope R_scope.

(** the rate at which the figure follows the equilibrium *)
Definition relaxation_rate (G m r eta : R) : R := 3 * G * m ^ 2 / (8 * PI * r ^ 4 * eta).

(** a body turning more slowly than this is taken to be at rest in the rotating
    frame of its companion, a faster one to turn freely *)
Definition capture_rate (gam n e : R) : R :=
  if Rlt_dec gam n then 9 / 10 * n else n * (1 + 7 * e ^ 2).

Definition creep_flattening_figure (G m r eta spin e n : R) : vec R :=
  let gam := relaxation_rate G m r eta in
  Vec 0 0 (maclaurin_flattening G m r spin
           * (if Rlt_dec spin (capture_rate gam n e) then 1 + 12 * e ^ 2 / (1 + (n / gam) ^ 2) else 1)).

(** the pull of the flattened body of figure [z] on its companion of mass [M] at
    [x]: the in-plane part of the field of a flattened body, per unit mass of the body *)
Definition flattened_pull (G M r z d : R) (x : vec R) : vec R :=
  Vec (- (3 * G * M * r ^ 2 * z / (5 * d ^ 5)) * vx x) (- (3 * G * M * r ^ 2 * z / (5 * d ^ 5)) * vy x) 0.
