(** * What the additional forces should satisfy

    Mechanics of a system of bodies under an effect that gives each body an
    acceleration [acc] and each spin a torque [dL].  Nothing here refers to how the
    accelerations and torques are computed. *)
From Coq Require Import Reals List Bool.
From Verif Require Import Base.Num Base.Vec Model.Particle.
Import ListNotations.
Open Scope R_scope.

Definition Vsum (l : list (vec R)) : vec R := fold_right vadd vzero l.
Definition Rsum (l : list R) : R := fold_right Rplus 0 l.

(** total force *)
Definition net_force (acc : particle R -> vec R) (bodies : list (particle R)) : vec R :=
  Vsum (map (fun b => vscale (p_mass b) (acc b)) bodies).
(** rate of change of the total (orbital + spin) angular momentum about the origin
    of the inertial frame *)
Definition net_torque (acc dL : particle R -> vec R) (bodies : list (particle R)) : vec R :=
  Vsum (map (fun b => vadd (vcross (p_ipos b) (vscale (p_mass b) (acc b))) (dL b)) bodies).
(** rate of work on the motion of the bodies and on their spins *)
Definition power (acc dL : particle R -> vec R) (bodies : list (particle R)) : R :=
  Rsum (map (fun b => p_mass b * vdot (acc b) (p_ivel b) + vdot (dL b) (p_spin b)) bodies).

Definition tidal_acc (b : particle R) : vec R := t_acc (p_tides b).
Definition tidal_torque (b : particle R) : vec R := t_dL (p_tides b).
Definition flattening_acc (b : particle R) : vec R := rf_acc (p_rf b).
Definition flattening_torque (b : particle R) : vec R := rf_dL (p_rf b).

(** two bodies at different places *)
Definition apart (a b : particle R) : Prop := p_ipos a <> p_ipos b.
Definition separation (a b : particle R) : R := sqrt (norm2 (vsub (p_ipos b) (p_ipos a))).
Definition radial_speed (a b : particle R) : R :=
  vdot (vsub (p_ipos b) (p_ipos a)) (vsub (p_ivel b) (p_ivel a)) / separation a b.

(** The energy turned into heat per unit time in a body of spin [spin], dissipation
    factor [sigma] and radius [radius] by the tide that a companion of mass [mass]
    at relative position [r] and relative velocity [v] raises in it, constant time
    lag (Mignard 1979): 9/2 sigma m^2 R^10 / d^8 (2 v_r^2 + |v - spin x r|^2). *)
Definition tidal_heat (sigma radius mass : R) (spin r v : vec R) : R :=
  let d := sqrt (norm2 r) in
  9 / 2 * sigma * mass ^ 2 * radius ^ 10 / d ^ 8 *
  (2 * (vdot r v / d) ^ 2 + norm2 (vsub v (vcross spin r))).
(** The force between a tide raised instantaneously in a body of potential Love
    number [k2] and radius [radius] and the companion of mass [mass] that raises it,
    at [r] from it: -3 G k2 m^2 R^5 / d^7 along r. *)
Definition bulge_force (g k2 radius mass : R) (r : vec R) : vec R :=
  let d := sqrt (norm2 r) in
  vscale (- 3 * g * k2 * mass ^ 2 * radius ^ 5 / d ^ 7 / d) r.

(** Constant time lag tides between a host and an orbiting body (nothing for a body
    without them): the work of the conservative part per unit time, and the heat
    released in both bodies, for given dissipation factors. *)
Definition ctl_only {A} (d : A) (f : ctl_params R -> A) (p : particle R) : A :=
  match t_effect (p_tides p) with TidesOrbiting (ConstantTimeLag c) => f c | _ => d end.
Definition host_love (h : particle R) : R :=
  match t_effect (p_tides h) with TidesCentral (ConstantTimeLag c) => ctl_love c | _ => 0 end.
Definition conservative_power (g : R) (h p : particle R) : R :=
  let r := vsub (p_ipos p) (p_ipos h) in
  let v := vsub (p_ivel p) (p_ivel h) in
  ctl_only 0 (fun c => vdot (bulge_force g (host_love h) (p_radius h) (p_mass p) r) v
                     + vdot (bulge_force g (ctl_love c) (p_radius p) (p_mass h) r) v) p.
Definition heat_in_host (sigma : R) (h p : particle R) : R :=
  ctl_only 0 (fun _ => tidal_heat sigma (p_radius h) (p_mass p) (p_spin h)
                         (vsub (p_ipos p) (p_ipos h)) (vsub (p_ivel p) (p_ivel h))) p.
Definition heat_in_body (sigma : R) (h p : particle R) : R :=
  ctl_only 0 (fun _ => tidal_heat sigma (p_radius p) (p_mass h) (p_spin p)
                         (vsub (p_ipos p) (p_ipos h)) (vsub (p_ivel p) (p_ivel h))) p.
(** on a circular orbit in step with the spins of both bodies *)
Definition synchronous (h p : particle R) : Prop :=
  let r := vsub (p_ipos p) (p_ipos h) in
  let v := vsub (p_ivel p) (p_ivel h) in
  v = vcross (p_spin h) r /\ v = vcross (p_spin p) r.

(** a rotation of space (or a reflection) *)
Record isometry := { iso : vec R -> vec R;
  iso_add : forall a b, iso (vadd a b) = vadd (iso a) (iso b);
  iso_scale : forall k a, iso (vscale k a) = vscale k (iso a);
  iso_dot : forall a b, vdot (iso a) (iso b) = vdot a b }.
(** proper rotations also keep cross products *)
Definition proper (q : isometry) : Prop :=
  forall a b, iso q (vcross a b) = vcross (iso q a) (iso q b).

(** the same system seen after an isometry of space *)
Definition turned (q : isometry) (p : particle R) : particle R :=
  set_p_ipos (iso q (p_ipos p)) (set_p_ivel (iso q (p_ivel p)) (set_p_spin (iso q (p_spin p)) p)).

(** Potential between a body of mass [mass] at [r] and a body flattened by its spin,
    of fluid Love number [k] and radius [radius] (quadrupole k R^5 spin^2 / 6):
    the force on the former is the gradient of this function of [r]. *)
Definition quadrupole (k radius mass : R) (spin r : vec R) : R :=
  let d := sqrt (norm2 r) in
  mass * k * radius ^ 5 / 6 * (norm2 spin / d ^ 3 - 3 * (vdot r spin) ^ 2 / d ^ 5).
(** [f] is a gradient of [V] at [r] *)
Definition gradient_at (V : vec R -> R) (r f : vec R) : Prop :=
  forall v, derivable_pt_lim (fun t => V (vadd r (vscale t v))) 0 (vdot f v).

(** two functions of the eccentricity that agree up to terms of order [n] *)
Definition agree_to (n : nat) (f g : R -> R) : Prop :=
  exists C, forall e, 0 <= e <= 1/2 -> Rabs (f e - g e) <= C * e ^ n.
(** (a/r)^3 at pericentre *)
Definition pericentre_3 (e : R) : R := / (1 - e) ^ 3.

(** ** Relativity *)
Definition relativistic_acc (b : particle R) : vec R := gr_acc (p_gr b).
Definition relativistic_torque (b : particle R) : vec R := gr_dL (p_gr b).
Definition rotation_momentum (b : particle R) : vec R := vscale (p_inertia b) (p_spin b).

(** Relative acceleration of two bodies in the post-Newtonian approximation (Kidder
    1995, equations 2.2b, 2.2d and 2.2c): [gm] is G times the total mass, [eta] the
    symmetric mass ratio, [r] and [v] the relative position and velocity, [c2] the
    square of the speed of light. *)
Definition kidder_1pn (c2 gm eta : R) (r v : vec R) : vec R :=
  let d := sqrt (norm2 r) in
  let rdot := vdot r v / d in
  vscale (- gm / (c2 * d ^ 2))
    (vsub (vscale ((1 + 3 * eta) * norm2 v - 2 * (2 + eta) * (gm / d) - 3 / 2 * eta * rdot ^ 2) (vscale (/ d) r))
          (vscale (2 * (2 - eta) * rdot) v)).
Definition kidder_2pn (c2 gm eta : R) (r v : vec R) : vec R :=
  let d := sqrt (norm2 r) in
  let rdot := vdot r v / d in
  let v2 := norm2 v in
  vscale (- gm / (c2 ^ 2 * d ^ 2))
    (vsub (vscale (3 / 4 * (12 + 29 * eta) * (gm / d) ^ 2 + eta * (3 - 4 * eta) * v2 ^ 2
                   + 15 / 8 * eta * (1 - 3 * eta) * rdot ^ 4 - 3 / 2 * eta * (3 - 4 * eta) * v2 * rdot ^ 2
                   - 1 / 2 * eta * (13 - 4 * eta) * (gm / d) * v2
                   - (2 + 25 * eta + 2 * eta ^ 2) * (gm / d) * rdot ^ 2) (vscale (/ d) r))
          (vscale (1 / 2 * rdot * (eta * (15 + 4 * eta) * v2 - (4 + 41 * eta + 8 * eta ^ 2) * (gm / d)
                                   - 3 * eta * (3 + 2 * eta) * rdot ^ 2)) v)).
(** spin-orbit coupling; [s1], [s2] the spin angular momenta of bodies of masses
    [m1], [m2] and [r], [v] the motion of the second relative to the first *)
Definition kidder_so (g c2 m1 m2 : R) (s1 s2 r v : vec R) : vec R :=
  let d := sqrt (norm2 r) in
  let rdot := vdot r v / d in
  let n := vscale (/ d) r in
  let s := vadd s1 s2 in
  let delta := vscale ((m1 - m2) / (m1 + m2) * (m1 + m2)) (vsub (vscale (/ m2) s2) (vscale (/ m1) s1)) in
  vscale (g / (c2 * d ^ 3))
    (vadd (vsub (vscale (6 * vdot (vcross n v) (vadd (vscale 2 s) delta)) n)
                (vcross v (vadd (vscale 7 s) (vscale 3 delta))))
          (vscale (3 * rdot) (vcross n (vadd (vscale 3 s) delta)))).

(** the same system placed elsewhere *)
Definition shifted (v : vec R) (p : particle R) : particle R := set_p_ipos (vadd (p_ipos p) v) p.

(** ** Disk and wind *)
Definition disk_acc (b : particle R) : vec R := dk_acc (p_disk b).
Definition wind_dL (b : particle R) : vec R := w_dL (p_wind b).

(** ** Creep tides: the hydrostatic figure of a synchronous body on a circular orbit.
    Prolateness raised by a companion of mass [mc] at distance [a] in a body of mass
    [m] and radius [r] (Jeans), flattening due to a rotation at rate [w] (Maclaurin). *)
Definition jeans_prolateness (m mc r a : R) : R := 15 / 4 * (mc / m) * (r / a) ^ 3.
Definition maclaurin_flattening (g m r w : R) : R := 5 / 4 * (w ^ 2 * r ^ 3 / (g * m)).
(** components of the figure along, across and normal to the direction of the companion *)
Definition hydrostatic_figure (g m mc r a w : R) : vec R :=
  Vec (jeans_prolateness m mc r a) 0 (jeans_prolateness m mc r a / 2 + maclaurin_flattening g m r w).
