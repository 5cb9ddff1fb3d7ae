(** * The gas disk of Alibert et al. (2013): what migration it should cause

    Written from the paper's formulas; only the record of the disk's parameters is
    shared with the model. *)
From Coq Require Import Reals.
From Verif Require Import Base.Num Base.Vec Model.Constants Model.Particle.
Open Scope R_scope.

(** surface density at distance [r] from the host and time [t] *)
Definition gas_density (d : disk_props R) (t r : R) : R :=
  if Rlt_dec (dp_inner d) r
  then dp_density d / r * exp (- (r / dp_outer d)) * (1 - sqrt (dp_inner d / r)) * exp (- (t / dp_lifetime d))
  else 0.
(** viscosity: alpha c_s^2 / Omega, with c_s^2 = k T / (mu m_H), T = 280 K (r / AU)^(-1/2)
    (M / M_sun) and Omega^2 = G M / r^3 *)
Definition gas_viscosity (boltzmann hydrogen : R) (d : disk_props R) (mass gm r : R) : R :=
  dp_alpha d * (boltzmann * (280 / sqrt r * mass) / (dp_weight d * hydrogen)) / sqrt (gm / r ^ 3).
(** The relative rate at which the semi-major axis [a] should shrink when
    a gas of viscosity [nu] makes a body of mass [m] drift: with the gas as long as
    2 [density] [a]^2 is at least [m], slower otherwise. *)
Definition drift_rate (nu density m a : R) : R := Rmin (3 * nu / (2 * a ^ 2)) (3 * nu * density / m).

(** semi-major axis of the orbit with relative position [r] and velocity [v] around the
    mass [gm] / G (vis-viva) *)
Definition semi_major (gm : R) (r v : vec R) : R := / (2 / sqrt (norm2 r) - norm2 v / gm).
(** acceleration by migration and by damping of eccentricity and inclination, ten times
    faster (equations 8 to 10) *)
Definition disk_drag (rate : R) (r v : vec R) : vec R :=
  vscale (- rate) (vadd v (vadd (vscale (20 * (vdot r v / norm2 r)) r) (Vec 0 0 (20 * vz v)))).

(** [d] is the derivative of [f] at [t] *)
Definition vderiv (f : R -> vec R) (t : R) (d : vec R) : Prop :=
  derivable_pt_lim (fun s => vx (f s)) t (vx d) /\
  derivable_pt_lim (fun s => vy (f s)) t (vy d) /\
  derivable_pt_lim (fun s => vz (f s)) t (vz d).
(** At time [t] the relative motion [x], [v] of a body is the one of the two bodies
    under gravity and the relative acceleration [f]. *)
Definition disturbed_orbit (gm : R) (x v : R -> vec R) (t : R) (f : vec R) : Prop :=
  vderiv x t (v t) /\ vderiv v t (vadd (vscale (- gm / sqrt (norm2 (x t)) ^ 3) (x t)) f).
(** a circular orbit *)
Definition circular (gm : R) (r v : vec R) : Prop := vdot r v = 0 /\ norm2 v = gm / sqrt (norm2 r).
(** in the plane of the disk *)
Definition in_plane (r v : vec R) : Prop := vz r = 0 /\ vz v = 0.

(** ** A body and its host *)
Definition rel_pos (host p : particle R) : vec R := vsub (p_ipos p) (p_ipos host).
Definition rel_vel (host p : particle R) : vec R := vsub (p_ivel p) (p_ivel host).
Definition pair_mass (host p : particle R) : R := p_mass_g p + p_mass_g host.
(** the rate at which the orbit of [p] should shrink *)
Definition body_rate (d : disk_props R) (t : R) (host p : particle R) : R :=
  let r := sqrt (norm2 (rel_pos host p)) in
  drift_rate (gas_viscosity BOLTZMANN MASS_HYDROGEN d (p_mass host) (p_mass_g host) r) (gas_density d t r) (p_mass p)
    (semi_major (pair_mass host p) (rel_pos host p) (rel_vel host p)).
