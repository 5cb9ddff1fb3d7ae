(** * The tidal figure of a creeping body on an eccentric orbit, for property C60 *)
From Coq Require Import Reals.
From Verif Require Import Base.Result Base.Vec.
Open Scope R_scope.

(** prolateness of a fluid body at distance [a] of its companion (Jeans) *)
Definition tidal_prolateness (primary companion radius a : R) : R := 15 / 4 * (companion / primary) * (radius / a) ^ 3.
(** A figure as a function of the mean anomaly: an ellipsoid of prolateness [rho] and half that
    polar flattening, up to a constant, whose long axis leads the companion by [delta].  Both
    follow the tide with a delay: the prolateness relaxes towards the instantaneous one, to the
    second order in the mean and the first in the oscillation; the angle lags with
    its own rate.  [x] is the mean motion in units of the relaxation rate. *)
Definition follows (x alpha rho_bar e : R) (figure : R -> vec R) : Prop :=
  let k := 2 * rho_bar * x ^ 2 * e ^ 2 / (1 + alpha ^ 2 * x ^ 2) in
  exists rho delta : R -> R,
    (forall m, figure m = Vec (rho m * cos (2 * delta m)) (rho m * sin (2 * delta m)) (rho m / 2 + k)) /\
    forall m, exists rho' delta', derivable_pt_lim rho m rho' /\ derivable_pt_lim delta m delta' /\
      x * rho' + rho m = rho_bar * (1 + 3 / 2 * e ^ 2 + 3 * e * cos m) - 2 * k /\
      alpha * x * delta' + delta m =
        3 * x * e ^ 2 / (1 + x ^ 2) * (2 + (1 + alpha) * x ^ 2) / (1 + alpha ^ 2 * x ^ 2) - 2 * x * e * cos m.
