(** * Constant time lag tides: their law and what they do to an orbit (property C76) *)
From Coq Require Import Reals List Bool.
From Verif Require Import Base.Num Base.Result Base.Trans Base.Vec Model.Constants Model.Particle Model.Creep Model.Tides
  Proofs.TidesProofs Proofs.TidesExamples Proofs.TidalOrbit Spec.EffectsSpec Spec.DiskSpec Spec.TidalOrbitSpec.
Import ListNotations.
Open Scope R_scope.

(** One evaluation: the forces of both bulges and of the friction in both bodies, the reaction on
    the host, and the torques of the friction on the rotations. *)
Theorem C76_law `{Trans R} `{Floor R} `{Fuel} m host l host' l' : ctl_system host l -> tides_pass m host l = Ok (host', l') ->
  let m' := used_pairs m host l in
  Forall2 (fun p p' : particle R => ctl_body p ->
    tidal_acc p' = vscale (/ p_mass p) (mignard m' host p) /\
    tidal_torque p' = friction_torque (body_friction m' host p) (p_spin p) (rel_pos host p) (rel_vel host p)) l l' /\
  tidal_acc host' = vscale (- / p_mass host) (Vsum (map (force_of_tides m' host) l)) /\
  tidal_torque host' = Vsum (map (host_torque_of m' host) l).
Proof. exact (ctl_law m host l host' l'). Qed.
Print Assumptions C76_law.
(** On a circular orbit in the equator of both bodies, which rotate [kh] and [kp] times as fast as
    they revolve: the rotations are driven towards the orbital rate, ... *)
Theorem C76_spins `{Trans R} `{Floor R} `{Fuel} m host p host' p' kh kp : ctl_system host [p] -> ctl_body p ->
  tides_pass m host [p] = Ok (host', [p']) ->
  let m' := used_pairs m host [p] in let r := rel_pos host p in let v := rel_vel host p in
  circular (pair_mass host p) r v -> turning kh (p_spin host) r v -> turning kp (p_spin p) r v ->
  tidal_torque host' = vscale (host_friction m' host p * (1 - kh) * norm2 r) (orbital_rate r v) /\
  tidal_torque p' = vscale (body_friction m' host p * (1 - kp) * norm2 r) (orbital_rate r v).
Proof. exact (circular_spins m host p host' p' kh kp). Qed.
Print Assumptions C76_spins.
(** ... the orbit changes at this rate, ... *)
Theorem C76_orbit `{Trans R} `{Floor R} `{Fuel} m host p host' p' x v t kh kp : ctl_system host [p] -> ctl_body p ->
  tides_pass m host [p] = Ok (host', [p']) ->
  let m' := used_pairs m host [p] in let gm := pair_mass host p in
  0 < gm -> circular gm (rel_pos host p) (rel_vel host p) ->
  turning kh (p_spin host) (rel_pos host p) (rel_vel host p) -> turning kp (p_spin p) (rel_pos host p) (rel_vel host p) ->
  x t = rel_pos host p -> v t = rel_vel host p ->
  disturbed_orbit gm x v t (vsub (tidal_acc p') (tidal_acc host')) ->
  derivable_pt_lim (fun s => semi_major gm (x s) (v s)) t
    (- (2 * semi_major gm (x t) (v t) * (/ p_mass p + / p_mass host)
        * (host_friction m' host p * (1 - kh) + body_friction m' host p * (1 - kp)))).
Proof. exact (circular_orbit m host p host' p' x v t kh kp). Qed.
Print Assumptions C76_orbit.
(** ... so a synchronous body moves inwards if it revolves faster than its host rotates, outwards if
    it revolves more slowly. *)
Theorem C76_corotation `{Trans R} `{Floor R} `{Fuel} m host p host' p' x v t kh kp : ctl_system host [p] -> ctl_body p ->
  tides_pass m host [p] = Ok (host', [p']) ->
  let m' := used_pairs m host [p] in let gm := pair_mass host p in
  0 < gm -> circular gm (rel_pos host p) (rel_vel host p) ->
  turning kh (p_spin host) (rel_pos host p) (rel_vel host p) -> turning kp (p_spin p) (rel_pos host p) (rel_vel host p) ->
  x t = rel_pos host p -> v t = rel_vel host p ->
  disturbed_orbit gm x v t (vsub (tidal_acc p') (tidal_acc host')) ->
  kp = 1 -> 0 < host_sigma m' host p -> p_radius host <> 0 ->
  exists a', derivable_pt_lim (fun s => semi_major gm (x s) (v s)) t a' /\ (a' < 0 <-> kh < 1) /\ (0 < a' <-> 1 < kh) /\ (a' = 0 <-> kh = 1).
Proof. exact (corotation m host p host' p' x v t kh kp). Qed.
Print Assumptions C76_corotation.
(** a star that rotates once in four revolutions of its planet, the planet at any rate *)
Example C76_example spin : ctl_system hot_sun [jupiter spin] /\ ctl_body (jupiter spin) /\ 0 < pair_mass hot_sun (jupiter spin) /\
  circular (pair_mass hot_sun (jupiter spin)) (rel_pos hot_sun (jupiter spin)) (rel_vel hot_sun (jupiter spin)) /\
  turning (1 / 4) (p_spin hot_sun) (rel_pos hot_sun (jupiter spin)) (rel_vel hot_sun (jupiter spin)) /\
  turning spin (p_spin (jupiter spin)) (rel_pos hot_sun (jupiter spin)) (rel_vel hot_sun (jupiter spin)).
Proof. exact (moon_system spin). Qed.
(** ... and a motion of theirs *)
Example C76_motion `{Trans R} `{Floor R} `{Fuel} m : let p := jupiter 1 in
  exists host' p' x v, tides_pass m hot_sun [p] = Ok (host', [p']) /\ x 0 = rel_pos hot_sun p /\ v 0 = rel_vel hot_sun p /\
    disturbed_orbit (pair_mass hot_sun p) x v 0 (vsub (tidal_acc p') (tidal_acc host')) /\
    0 < host_sigma (used_pairs m hot_sun [p]) hot_sun p /\ p_radius hot_sun <> 0.
Proof. exact (moon_motion m). Qed.
