(** * How a magnetised wind slows a star down, for property C78
    Kawaler (1988) and Bouvier et al. (1997): the torque grows with the cube of the rotation
    rate below saturation and linearly above it. *)
From Coq Require Import Reals.
From Verif Require Import Base.Num Base.Vec.
Open Scope R_scope.

(** below saturation (Skumanich's law): the rate falls like the inverse square root of the time *)
Definition skumanich (c : R) (w : vec R) (t : R) : vec R := vscale (/ sqrt (1 + 2 * c * norm2 w * t)) w.
(** above saturation: exponential decay *)
Definition saturated_decay (c s : R) (w : vec R) (t : R) : vec R := vscale (exp (- (c * s ^ 2 * t))) w.
(** when a star of rate [w] reaches the saturation rate [s] *)
Definition desaturation_time (c s : R) (w : vec R) : R := ln (norm2 w / s ^ 2) / (2 * c * s ^ 2).
(** the whole life of a star of initial rotation [w]; [c] is the strength of the wind per moment of inertia *)
Definition spin_down (c s : R) (w : vec R) (t : R) : vec R :=
  if Rle_dec (norm2 w) (s ^ 2) then skumanich c w t
  else let t1 := desaturation_time c s w in
    if Rle_dec t t1 then saturated_decay c s w t else skumanich c (saturated_decay c s w t1) (t - t1).
