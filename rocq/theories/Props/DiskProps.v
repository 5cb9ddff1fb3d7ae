(** * The disk's law of migration (property C75) *)
From Coq Require Import Reals List Bool ZArith.
From Verif Require Import Base.Num Base.Vec Base.Trans Model.Constants Model.Particle Model.Disk
  Proofs.DiskProofs Proofs.DiskLaw Proofs.DiskOrbit Proofs.DiskExamples Spec.EffectsSpec Spec.DiskSpec.
Import ListNotations.
Open Scope R_scope.

(** One evaluation gives every orbiting body the drag of the disk, with the rate of
    migration of the law, whose inverse is what the body stores as its time scale. *)
Theorem C75_law t d host l host' l' : migrating_system d host l -> disk_pass t host l = (host', l') ->
  Forall2 (fun p p' : particle R => is_disk_orbiting p = true ->
    disk_acc p' = disk_drag (body_rate d t host p) (rel_pos host p) (rel_vel host p) /\
    dk_timescale (p_disk p') = / body_rate d t host p) l l'.
Proof. exact (disk_law t d host l host' l'). Qed.
Print Assumptions C75_law.
(** The density of the gas has no jump, also not at the inner edge, ... *)
Theorem C75_continuous d t r : 0 < dp_inner d -> 0 < r -> continuity_pt (fun r => disk_surface_density d t r) r.
Proof. exact (code_density_continuous d t r). Qed.
Print Assumptions C75_continuous.
(** ... and migration does not get faster as the disk ages. *)
Theorem C75_ages t s d host l h1 l1 h2 l2 : migrating_system d host l -> 0 < dp_lifetime d -> 0 <= s ->
  disk_pass t host l = (h1, l1) -> disk_pass (t + s) host l = (h2, l2) ->
  Forall2 (fun p1 p2 : particle R => is_disk_orbiting p1 = true -> 0 < dk_timescale (p_disk p1) <= dk_timescale (p_disk p2)) l1 l2.
Proof. exact (disk_ages t s d host l h1 l1 h2 l2). Qed.
Print Assumptions C75_ages.

(** How the semi-major axis of a body alone with its host changes, ... *)
Theorem C75_orbit t d host p host' p' x v : migrating_system d host [p] -> is_disk_orbiting p = true ->
  disk_pass t host [p] = (host', [p']) -> x t = rel_pos host p -> v t = rel_vel host p ->
  let gm := pair_mass host p in
  disturbed_orbit gm x v t (vsub (disk_acc p') (disk_acc host')) ->
  derivable_pt_lim (fun s => semi_major gm (x s) (v s)) t
    (- (2 * (1 + p_mass p / p_mass host) * semi_major gm (x t) (v t) ^ 2 / (gm * dk_timescale (p_disk p'))
        * (norm2 (v t) + 20 * vdot (x t) (v t) ^ 2 / norm2 (x t) + 20 * vz (v t) ^ 2))).
Proof. exact (orbit_shrinks t d host p host' p' x v). Qed.
Print Assumptions C75_orbit.
(** ... on a circular orbit in the plane of the disk in particular, ... *)
Theorem C75_circular t d host p host' p' x v : migrating_system d host [p] -> is_disk_orbiting p = true ->
  disk_pass t host [p] = (host', [p']) -> x t = rel_pos host p -> v t = rel_vel host p ->
  let gm := pair_mass host p in
  disturbed_orbit gm x v t (vsub (disk_acc p') (disk_acc host')) ->
  circular gm (x t) (v t) -> in_plane (x t) (v t) ->
  derivable_pt_lim (fun s => semi_major gm (x s) (v s)) t
    (- (2 * (1 + p_mass p / p_mass host) * (semi_major gm (x t) (v t) / dk_timescale (p_disk p')))).
Proof. exact (circular_shrinks t d host p host' p' x v). Qed.
Print Assumptions C75_circular.
(** ... and how the angular momentum of any orbit in that plane does. *)
Theorem C75_angular_momentum t d host p host' p' x v : migrating_system d host [p] -> is_disk_orbiting p = true ->
  disk_pass t host [p] = (host', [p']) -> x t = rel_pos host p -> v t = rel_vel host p ->
  disturbed_orbit (pair_mass host p) x v t (vsub (disk_acc p') (disk_acc host')) ->
  in_plane (x t) (v t) ->
  vderiv (fun s => vcross (x s) (v s)) t
    (vscale (- ((1 + p_mass p / p_mass host) / dk_timescale (p_disk p'))) (vcross (x t) (v t))).
Proof. exact (momentum_decays t d host p host' p' x v). Qed.
Print Assumptions C75_angular_momentum.
(** The time scale is computed as a / |da/dt|, but the orbit does not shrink at that rate. *)
Theorem C75_computed_rate_refuted : exists t d host p host' p' x v a',
  migrating_system d host [p] /\ is_disk_orbiting p = true /\ disk_pass t host [p] = (host', [p']) /\
  x t = rel_pos host p /\ v t = rel_vel host p /\
  disturbed_orbit (pair_mass host p) x v t (vsub (disk_acc p') (disk_acc host')) /\
  circular (pair_mass host p) (x t) (v t) /\ in_plane (x t) (v t) /\
  derivable_pt_lim (fun s => semi_major (pair_mass host p) (x s) (v s)) t a' /\
  a' <> - (semi_major (pair_mass host p) (x t) (v t) / dk_timescale (p_disk p')).
Proof. exact faster_than_computed. Qed.
Print Assumptions C75_computed_rate_refuted.
(** its star and planet *)
Example C75_example : migrating_system disk_d disk_star [round_planet] /\ is_disk_orbiting round_planet = true /\
  0 < dp_inner disk_d /\ 0 < dp_lifetime disk_d /\
  circular (pair_mass disk_star round_planet) (rel_pos disk_star round_planet) (rel_vel disk_star round_planet) /\
  in_plane (rel_pos disk_star round_planet) (rel_vel disk_star round_planet).
Proof. exact round_example. Qed.
