(** * Tides with a constant time lag and what they do to an orbit (Mignard 1979) *)
From Coq Require Import Reals List.
From Verif Require Import Base.Num Base.Vec Model.Particle Spec.EffectsSpec Spec.DiskSpec.
Open Scope R_scope.

(** strength of the friction in a body of dissipation factor [sigma] and radius [radius]
    under the tide of a companion of mass [mass] at [r] *)
Definition tide_strength (sigma radius mass : R) (r : vec R) : R :=
  9 / 2 * sigma * mass ^ 2 * radius ^ 10 / sqrt (norm2 r) ^ 8.
(** velocity of the companion over the surface of the body that rotates with [spin] *)
Definition over_surface (spin r v : vec R) : vec R := vsub v (vcross spin r).
(** the friction on the companion, and the torque on the rotation of the body *)
Definition tidal_friction (c : R) (spin r v : vec R) : vec R :=
  vscale (- c) (vadd (vscale (2 * (vdot r v / norm2 r)) r) (over_surface spin r v)).
Definition friction_torque (c : R) (spin r v : vec R) : vec R := vscale c (vcross r (over_surface spin r v)).

(** angular velocity of the orbital motion *)
Definition orbital_rate (r v : vec R) : vec R := vscale (/ norm2 r) (vcross r v).
(** a rotation about the normal of the orbit, [k] times as fast as the orbital motion *)
Definition turning (k : R) (spin r v : vec R) : Prop := spin = vscale k (orbital_rate r v).
