(** * What the Kaula torque should do

    A planet on a circular orbit in its own equatorial plane, turning the same way as
    it revolves.  The torque of the host on its tidal bulge is
    [3/2 G M^2 R^5 / a^6 Im k2(2 n - 2 w)] (Kaula 1964; Efroimsky 2012): it spins the
    planet up while it turns more slowly than it revolves, down while it turns faster,
    and vanishes when the two rates agree. *)
From Coq Require Import Reals List.
From Verif Require Import Base.Num Base.Result Base.Trans Base.Vec Model.Constants Model.Particle Model.Kaula Spec.OrbitSpec Spec.TablesSpec.
Open Scope R_scope.

(** position and velocity of a circular orbit in the plane of the axes, counterclockwise *)
Definition circles (gm : R) (x v : vec R) : Prop :=
  vz x = 0 /\ vz v = 0 /\ dot x v = 0 /\ dot v v * length3 x = gm /\ 0 < vx x * vy v - vy x * vx v.
(** its angular velocity, by Kepler's third law (radians per day) *)
Definition mean_motion (gm a : R) : R := sqrt (gm / a ^ 3).

(** the planet knows its orbit, turns about the normal at [w] radians per day and
    follows the Kaula model with the given table *)
Definition upright (p : particle R) (x v : vec R) (w : R) (par : kaula_params R) : Prop :=
  p_hpos p = x /\ p_hvel p = v /\ t_pos (p_tides p) = x /\ p_hdist p = length3 x /\ t_distance (p_tides p) = length3 x
  /\ p_spin p = Vec 0 0 w /\ p_spin2 p = w ^ 2 /\ t_effect (p_tides p) = TidesOrbiting (Kaula par).

(** a material that always dissipates *)
Definition dissipative (par : kaula_params R) : Prop :=
  table (kl_freq par) (kl_re par) /\ table (kl_freq par) (kl_im par) /\ List.Forall (fun y => 0 < y) (kl_im par).

(** ** The three components of a force at a position: outwards, towards the south and
    towards the east *)
Definition outwards (x : vec R) : vec R := times (/ length3 x) x.
Definition eastwards (x : vec R) : vec R :=
  times (/ sqrt (vx x * vx x + vy x * vy x)) (cross (Vec 0 0 1) x).
Definition southwards (x : vec R) : vec R := cross (eastwards x) (outwards x).

(** the mean force remembered by a body of the Kaula model for its torque *)
Definition remembered (p : particle R) : vec R :=
  match t_effect (p_tides p) with
  | TidesCentral (Kaula q) | TidesOrbiting (Kaula q) => kl_force q
  | _ => Vec 0 0 0
  end.

(** what the host remembers after meeting one planet (the first argument of
    [kaula_force] is the perturber) *)
Definition pull (star planet : particle R) : vec R :=
  match kaula_force (F := R) planet star true with
  | Ok (_, _, s) => remembered s
  | Panic _ => Vec 0 0 0
  end.
Definition kaula_planet (p : particle R) : Prop := exists q, t_effect (p_tides p) = TidesOrbiting (Kaula q).

(** ** Truncated series: entries [-7 .. 7] of a row, of which [-o .. o] are used;
    the others do not exceed [bound] *)
Definition small_entries (bound : R) (o : nat) (l : list R) : Prop :=
  forall q, (q < 15)%nat -> (q + o < 7 \/ 7 + o < q)%nat -> Rabs (List.nth q l 0) <= bound.
