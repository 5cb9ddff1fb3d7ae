(** * What an orbit is (used by C47-C50) *)
From Coq Require Import Reals.
From Verif Require Import Base.Num Base.Vec.
Open Scope R_scope.

(** Kepler's equations: ellipse, parabola, hyperbola *)
Definition kepler (e M E : R) : Prop := E - e * sin E = M.
Definition barker (M D : R) : Prop := D + D ^ 3 / 3 = M.
Definition kepler_hyp (e M H : R) : Prop := e * sinh H - H = M.

(** unit vector normal to the plane with inclination [i] and node [n] *)
Definition plane_normal (i n : R) : vec R := Vec (sin i * sin n) (- (sin i * cos n)) (cos i).
(** unit vector towards the pericentre, [w] the argument of pericentre *)
Definition towards_pericentre (i w n : R) : vec R :=
  Vec (cos w * cos n - sin w * sin n * cos i) (cos w * sin n + sin w * cos n * cos i) (sin w * sin i).
(** unit vector, in the plane, ninety degrees ahead of it *)
Definition ahead_of_pericentre (i w n : R) : vec R :=
  Vec (- (sin w * cos n) - cos w * sin n * cos i) (- (sin w * sin n) + cos w * cos n * cos i) (cos w * sin i).

Definition length3 (v : vec R) : R := sqrt (vx v * vx v + vy v * vy v + vz v * vz v).
Definition dot (a b : vec R) : R := vx a * vx b + vy a * vy b + vz a * vz b.
Definition cross (a b : vec R) : vec R :=
  Vec (vy a * vz b - vz a * vy b) (vz a * vx b - vx a * vz b) (vx a * vy b - vy a * vx b).
Definition times (k : R) (v : vec R) : vec R := Vec (k * vx v) (k * vy v) (k * vz v).
Definition minus (a b : vec R) : vec R := Vec (vx a - vx b) (vy a - vy b) (vz a - vz b).

(** specific orbital energy and the vector of Laplace *)
Definition energy (gm : R) (x v : vec R) : R := dot v v / 2 - gm / length3 x.
Definition laplace (gm : R) (x v : vec R) : vec R :=
  minus (times (/ gm) (cross v (cross x v))) (times (/ length3 x) x).
