(** * Tides: constant time lag, creep, and the driver common to all models

    src/effects/tides/constant_time_lag.rs, creep_coplanar.rs (force and torque)
    and common.rs.  Every function takes the host and the other bodies (see
    [Model/Host.v]) and returns them updated.  Bodies are visited in the order of
    [particles ++ more_particles]. *)
From Coq Require Import List Bool ZArith Arith.
From Verif Require Import Base.Num Base.Result Base.Trans Base.Vec Model.Constants Model.Particle Model.Tools Model.Kaula Model.Creep.
Import ListNotations.

Section Tides.
  Context {F : Type} `{Num F} `{Trans F} `{Floor F} `{Fuel}.
  Local Open Scope num_scope.

  (** ** The pair-dependent dissipation factors (a [HashMap<usize, f64>]) *)
  Definition pairs := list (nat * F).
  (** the map key, constant_time_lag.rs:145, 150, 155 *)
  Definition pair_key (id depends_on : nat) : nat := id * MAX_PARTICLES + depends_on.
  Definition map_remove (k : nat) (m : pairs) : pairs := filter (fun kv => negb (Nat.eqb (fst kv) k)) m.
  Definition map_insert (k : nat) (v : F) (m : pairs) : pairs := (k, v) :: map_remove k m.
  Definition map_get (k : nat) (m : pairs) : option F :=
    match find (fun kv => Nat.eqb (fst kv) k) m with Some kv => Some (snd kv) | None => None end.

  (** src/effects/tides/constant_time_lag.rs:144-147, 149-152, 154-169 *)
  Definition set_pair (m : pairs) (id dep : nat) (v : F) : pairs := map_insert (pair_key id dep) v m.
  Definition remove_pair (m : pairs) (id dep : nat) : pairs := map_remove (pair_key id dep) m.
  Definition get_pair_or_else (m : pairs) (id dep : nat) (e : evolution F) (default : F) : F :=
    if dynamical_tide e then
      match map_get (pair_key id dep) m with Some v => v | None => default end
    else default.

  Definition is_tides_orbiting (e : tides_effect F) : bool :=
    match e with TidesOrbiting _ => true | _ => false end.
  Definition is_tides_central (e : tides_effect F) : bool :=
    match e with TidesCentral _ => true | _ => false end.
  Definition orbiting_ctl (e : tides_effect F) : option (ctl_params F) :=
    match e with TidesOrbiting (ConstantTimeLag p) => Some p | _ => None end.
  Definition central_ctl (e : tides_effect F) : option (ctl_params F) :=
    match e with TidesCentral (ConstantTimeLag p) => Some p | _ => None end.

  (** half the excitation frequency, constant_time_lag.rs:56-59 and 110-113 *)
  Definition half_excitation (host p : particle F) (spin_norm : F) : F :=
    let gm := p_mass_g host + p_mass_g p in
    let '(q, e) := perihelion_eccentricity gm (t_pos (p_tides p)) (t_vel (p_tides p)) in
    let mean_motion := nsqrt gm * tpow (q / (n1 - e)) (nopp (3//2)) in
    nabs (spin_norm - mean_motion).
  (** the dissipation of a body in the dynamical regime, 63-76 and 117-130 *)
  Definition dynamical_dissipation (body : particle F) (scale dissipation half : F) : F :=
    let half := if half <? SMOOTHING_FACTOR then SMOOTHING_FACTOR else half in
    let inverse := n1 / half in
    scale * (#2 * K2 / (#3 * npow (p_radius body) 5) * t_lag_angle (p_tides body) * inverse + dissipation).

  (** src/effects/tides/constant_time_lag.rs:26-93 [calculate_planet_dependent_scaled_dissipation_factors] *)
  Definition planet_dependent_factors (host : particle F) (l : list (particle F)) (m : pairs) : pairs :=
    if dynamical_tide (p_evo host) then
      let spin := nsqrt (p_spin2 host) in
      fold_left (fun m p =>
        match orbiting_ctl (t_effect (p_tides p)) with
        | Some _ =>
            let '(scale, dissipation) :=
              match central_ctl (t_effect (p_tides host)) with
              | Some c => (ctl_scale c, ctl_dissipation c)
              | None => (n0, n0)
              end in
            let half := half_excitation host p spin in
            if half <? spin then set_pair m (p_id host) (p_id p) (dynamical_dissipation host scale dissipation half)
            else remove_pair m (p_id host) (p_id p)
        | None => m
        end) l m
    else m.

  (** src/effects/tides/constant_time_lag.rs:95-142 [calculate_host_dependent_scaled_dissipation_factors] *)
  Definition host_dependent_factors (host : particle F) (l : list (particle F)) (m : pairs) : pairs :=
    fold_left (fun m p =>
      if dynamical_tide (p_evo p) then
        match orbiting_ctl (t_effect (p_tides p)) with
        | Some c =>
            let spin := nsqrt (p_spin2 p) in
            let half := half_excitation host p spin in
            if half <? spin then
              set_pair m (p_id p) (p_id host) (dynamical_dissipation p (ctl_scale c) (ctl_dissipation c) half)
            else remove_pair m (p_id host) (p_id p)
        | None => m
        end
      else m) l m.

  (** src/effects/tides/constant_time_lag.rs:20-24 [calculate_pair_dependent_scaled_dissipation_factors] *)
  Definition pair_dependent_factors (host : particle F) (l : list (particle F)) (m : pairs) : pairs :=
    host_dependent_factors host l (planet_dependent_factors host l m).

  (** ** Constant time lag *)
  Definition on_tides (f : tides F -> tides F) (p : particle F) : particle F := set_p_tides (f (p_tides p)) p.

  Definition host_sigma (m : pairs) (host p : particle F) : F :=
    get_pair_or_else m (p_id host) (p_id p) (p_evo host) (t_sigma (p_tides host)).
  Definition planet_sigma (m : pairs) (host p : particle F) : F :=
    get_pair_or_else m (p_id p) (p_id host) (p_evo p) (t_sigma (p_tides p)).

  (** src/effects/tides/constant_time_lag.rs:206-264 [calculate_orthogonal_component_of_the_tidal_force], both passes *)
  Definition ctl_orthogonal (central : bool) (m : pairs) (host p : particle F) : particle F :=
    match orbiting_ctl (t_effect (p_tides p)) with
    | None => p
    | Some _ =>
        let distance_7 := npow (t_distance (p_tides p)) 7 in
        if central then
          on_tides (set_t_orth_star (9//2 * npow (p_mass p) 2 * npow (p_radius host) 10 * host_sigma m host p / distance_7)) p
        else
          on_tides (set_t_orth_planet (9//2 * npow (p_mass host) 2 * npow (p_radius p) 10 * planet_sigma m host p / distance_7)) p
    end.
  Definition ctl_orthogonal_components (m : pairs) (host : particle F) (l : list (particle F)) : list (particle F) :=
    map (ctl_orthogonal false m host) (map (ctl_orthogonal true m host) l).

  (** src/effects/tides/constant_time_lag.rs:266-307 [calculate_radial_component_of_the_tidal_force] *)
  Definition ctl_radial (m : pairs) (host p : particle F) : particle F :=
    match orbiting_ctl (t_effect (p_tides p)) with
    | None => p
    | Some c =>
        let host_love := match central_ctl (t_effect (p_tides host)) with Some c => ctl_love c | None => n0 end in
        let host_mass_2 := p_mass host * p_mass host in
        let particle_mass_2 := p_mass p * p_mass p in
        let d := t_distance (p_tides p) in
        let conservative := nopp (#3) * K2 / npow d 7
          * (particle_mass_2 * npow (p_radius host) 5 * host_love + host_mass_2 * npow (p_radius p) 5 * ctl_love c) in
        let factor1 := nopp (27//2) * t_radial_velocity (p_tides p) / npow d 8 in
        let term1 := particle_mass_2 * npow (p_radius host) 10 * host_sigma m host p in
        let term2 := host_mass_2 * npow (p_radius p) 10 * planet_sigma m host p in
        let diss_point := factor1 * term2 in
        let dissipative := diss_point + factor1 * term1 in
        on_tides (fun t => set_t_radial (conservative + dissipative) (set_t_radial_diss_point diss_point t)) p
    end.
  Definition ctl_radial_components (m : pairs) (host : particle F) (l : list (particle F)) : list (particle F) :=
    map (ctl_radial m host) l.

  (** src/effects/tides/constant_time_lag.rs:171-204 [calculate_torque_due_to_tides] *)
  Definition ctl_torque (host p : particle F) (central : bool) : vec F :=
    let t := p_tides p in
    let spin := if central then p_spin host else p_spin p in
    let rscalspin := if central then t_pos_dot_star_spin t else t_pos_dot_planet_spin t in
    let orth := if central then t_orth_star t else t_orth_planet t in
    let d := t_distance t in
    let h := vcross (t_pos t) (t_vel t) in
    Vec (orth * (d * vx spin - rscalspin * vx (t_pos t) / d - n1 / d * vx h))
        (orth * (d * vy spin - rscalspin * vy (t_pos t) / d - n1 / d * vy h))
        (orth * (d * vz spin - rscalspin * vz (t_pos t) / d - n1 / d * vz h)).

  (** src/effects/tides/constant_time_lag.rs:309-332 [calculate_tidal_force] *)
  Definition ctl_force (host p : particle F) : vec F :=
    let t := p_tides p in
    let d := t_distance t in
    let factor3 := t_radial t + (t_orth_star t + t_orth_planet t) * t_radial_velocity t / d in
    let star := vsub (vcross (p_spin host) (t_pos t)) (t_vel t) in
    let planet := vsub (vcross (p_spin p) (t_pos t)) (t_vel t) in
    Vec (factor3 * vx (t_pos t) / d + t_orth_star t / d * vx star + t_orth_planet t / d * vx planet)
        (factor3 * vy (t_pos t) / d + t_orth_star t / d * vy star + t_orth_planet t / d * vy planet)
        (factor3 * vz (t_pos t) / d + t_orth_star t / d * vz star + t_orth_planet t / d * vz planet).

  (** ** Creep tide *)
  (** src/effects/tides/creep_coplanar.rs:16-57 [calculate_torque_due_to_tides] *)
  Definition creep_torque (host p : particle F) (central : bool) : res (vec F) :=
    let d3 := npow (t_distance (p_tides p)) 3 in
    if central then
      do shape <- creep_shape host p true false true;
      Ok (Vec n0 n0 (#3 / #5 * K2 * p_mass host * p_mass p * p_radius host * p_radius host * vy shape / d3))
    else
      Ok (Vec n0 n0 (#3 / #5 * K2 * p_mass p * p_mass host * p_radius p * p_radius p * vy (t_shape (p_tides p)) / d3)).

  (** src/effects/tides/creep_coplanar.rs:59-120 [calculate_tidal_force] *)
  Definition creep_force (host p : particle F) : vec F :=
    let t := p_tides p in
    let d := t_distance t in
    let distance_4 := npow d 4 in
    let s := t_shape t in
    let radial :=
      nopp (9//10) * K2 * p_mass p * p_mass host * p_radius p * p_radius p / distance_4 * vx s
      - (#3 * K2 * p_mass p * p_mass host * p_radius p * p_radius p / (#5 * distance_4) * vz s) in
    Vec (vx (t_pos t) / d * radial
         - (#3 * K2 * vy (t_pos t) * p_mass p * p_mass host * p_radius p * p_radius p / (#5 * distance_4 * d) * vy s))
        (vy (t_pos t) / d * radial
         + (#3 * K2 * vx (t_pos t) * p_mass p * p_mass host * p_radius p * p_radius p / (#5 * distance_4 * d) * vy s))
        n0.

  (** src/effects/tides/creep_coplanar.rs:124-148 [calculate_creep_coplanar_shapes] *)
  Definition creep_update (host p : particle F) : res (particle F) :=
    let viscosity := match t_effect (p_tides p) with
                     | TidesCentral (CreepCoplanar v) | TidesOrbiting (CreepCoplanar v) => v
                     | _ => n0
                     end in
    if viscosity =? n0 then Ok p
    else do shape <- creep_shape host p true false false;
         Ok (on_tides (set_t_shape shape) p).
  Definition creep_shapes (host : particle F) (l : list (particle F)) : res (list (particle F)) :=
    rmap (creep_update host) l.

  (** ** The driver, src/effects/tides/common.rs *)
  (** 143-175 [initialize] *)
  Definition tides_initialize (host : particle F) (l : list (particle F)) : particle F * list (particle F) :=
    if is_tides_central (t_effect (p_tides host)) then
      (on_tides (fun t => set_t_dL vzero (set_t_acc vzero (set_t_pos_dot_planet_spin n0 (set_t_pos_dot_star_spin n0 t)))) host,
       map (fun p =>
         if is_tides_orbiting (t_effect (p_tides p)) then
           on_tides (fun t => set_t_dL vzero (set_t_acc vzero
             (set_t_pos_dot_planet_spin (vdot (t_pos t) (p_spin p))
               (set_t_pos_dot_star_spin (vdot (t_pos t) (p_spin host)) t)))) p
         else p) l)
    else (host, l).

  (** 177-205 [inertial_to_heliocentric_coordinates] *)
  Definition tides_inertial_to_heliocentric (host : particle F) (l : list (particle F)) : particle F * list (particle F) :=
    if is_tides_central (t_effect (p_tides host)) then
      (on_tides (fun t => set_t_radial_velocity n0 (set_t_distance n0 (set_t_vel vzero (set_t_pos vzero t)))) host,
       map (fun p =>
         if is_tides_orbiting (t_effect (p_tides p)) then
           let pos := vsub (p_ipos p) (p_ipos host) in
           let vel := vsub (p_ivel p) (p_ivel host) in
           let d := nsqrt (norm2 pos) in
           on_tides (fun t => set_t_radial_velocity (vdot pos vel / d) (set_t_distance d (set_t_vel vel (set_t_pos pos t)))) p
         else p) l)
    else (host, l).

  (** 207-221 [copy_heliocentric_coordinates] *)
  Definition tides_copy_one (p : particle F) : particle F :=
    on_tides (fun t => set_t_radial_velocity (p_hradvel p) (set_t_distance (p_hdist p)
      (set_t_vel (p_hvel p) (set_t_pos (p_hpos p) t)))) p.
  Definition tides_copy_heliocentric (host : particle F) (l : list (particle F)) : particle F * list (particle F) :=
    if is_tides_central (t_effect (p_tides host)) then
      (tides_copy_one host,
       map (fun p => if is_tides_orbiting (t_effect (p_tides p)) then tides_copy_one p else p) l)
    else (host, l).

  (** the torque of one pair, dispatched on the model of the body it acts on *)
  Definition model_torque (m : tidal_model F) (host p : particle F) (central : bool) : res (vec F) :=
    match m with
    | ConstantTimeLag _ => Ok (ctl_torque host p central)
    | CreepCoplanar _ => creep_torque host p central
    | Kaula _ => kaula_torque host p central
    end.

  (** 223-261 [calculate_dangular_momentum_dt_due_to_tides] *)
  Definition tides_planet_dL (host p : particle F) : res (particle F) :=
    match t_effect (p_tides p) with
    | TidesOrbiting m =>
        do torque <- model_torque m host p false;
        Ok (on_tides (set_t_dL (vscale (nopp n1) torque)) p)
    | _ => Ok p
    end.
  Definition tides_host_dL_step (host : particle F) (acc : vec F) (p : particle F) : res (vec F) :=
    match t_effect (p_tides host) with
    | TidesCentral m =>
        do torque <- model_torque m host p true;
        Ok (vadd acc (vscale (nopp n1) torque))
    | _ => Ok acc
    end.
  Definition tides_dangular_momentum_dt (host : particle F) (l : list (particle F)) : res (particle F * list (particle F)) :=
    do l' <- rmap (tides_planet_dL host) l;
    do s <- rfold (tides_host_dL_step host) l' vzero;
    Ok (on_tides (set_t_dL s) host, l').

  (** 263-285 [calculate_denergy_dt] *)
  Definition tides_denergy (p : particle F) : particle F :=
    if is_tides_orbiting (t_effect (p_tides p)) then
      let t := p_tides p in
      let factor2 := t_orth_planet t / t_distance t in
      let rel := vsub (vcross (p_spin p) (t_pos t)) (t_vel t) in
      on_tides (set_t_denergy_dt
        (nopp ((n1 / t_distance t * (t_radial_diss_point t + factor2 * t_radial_velocity t)) * vdot (t_pos t) (t_vel t)
               + factor2 * vdot rel (t_vel t))
         - vdot (t_dL t) (p_spin p))) p
    else p.
  Definition tides_denergy_dt (l : list (particle F)) : list (particle F) := map tides_denergy l.

  (** 288-332 (first loop): the force of one orbiting body, and the bodies as left by it *)
  Definition model_force (m : tidal_model F) (host p : particle F) : res (vec F * particle F * particle F) :=
    match m with
    | ConstantTimeLag _ => Ok (ctl_force host p, host, p)
    | CreepCoplanar _ => Ok (creep_force host p, host, p)
    | Kaula _ => kaula_force host p false
    end.
  (** one iteration: accumulated force and already treated bodies (in order) *)
  Definition tides_acceleration_step (acc : vec F * particle F * list (particle F)) (p : particle F)
      : res (vec F * particle F * list (particle F)) :=
    let '(total, host, seen) := acc in
    match t_effect (p_tides p) with
    | TidesOrbiting m =>
        do r <- model_force m host p;
        let '(force, host, p) := r in
        Ok (vadd total force, host, seen ++ [on_tides (set_t_acc (vscale (n1 / p_mass p) force)) p])
    | _ => Ok (total, host, seen ++ [p])
    end.
  (** stellar tide of a Kaula host, second loop *)
  Definition tides_stellar_step (factor2 : F) (acc : particle F * list (particle F)) (p : particle F)
      : res (particle F * list (particle F)) :=
    let '(host, seen) := acc in
    do r <- kaula_force p host true;
    let '(force, p, host) := r in
    let host := on_tides (set_t_acc (vadd (t_acc (p_tides host)) (vscale factor2 force))) host in
    let p := on_tides (set_t_acc (vadd (t_acc (p_tides p)) (vscale (nopp n1 * (n1 / p_mass p)) force))) p in
    Ok (host, seen ++ [p]).
  (** src/effects/tides/common.rs:312-370 [calculate_tidal_acceleration] *)
  Definition tides_acceleration (host : particle F) (l : list (particle F)) : res (particle F * list (particle F)) :=
    let factor2 := n1 / p_mass host in
    do r <- rfold tides_acceleration_step l (vzero, host, []);
    let '(total, host, l) := r in
    let host := on_tides (set_t_acc (vscale (nopp n1 * factor2) total)) host in
    match t_effect (p_tides host) with
    | TidesCentral (Kaula _) => rfold (tides_stellar_step factor2) l (host, [])
    | _ => Ok (host, l)
    end.

  (** ** The tidal part of one force evaluation
      src/particles/universe.rs:353-426 [initialize] and 428-538
      [calculate_additional_effects] with both torques and accelerations requested,
      restricted to the tidal calls, for a host whose coordinates are taken from the
      inertial frame.  The refresh of the spins that sits between [initialize] and
      the forces is left out here: it belongs to [Model/Universe.v]. *)
  Definition tides_forces (m : pairs) (host : particle F) (l : list (particle F)) : res (particle F * list (particle F)) :=
    let m := pair_dependent_factors host l m in
    do l <- creep_shapes host (ctl_orthogonal_components m host l);
    do r <- tides_acceleration host (ctl_radial_components m host l);
    tides_dangular_momentum_dt (fst r) (snd r).
  Definition tides_pass (m : pairs) (host : particle F) (l : list (particle F)) : res (particle F * list (particle F)) :=
    let '(host, l) := tides_inertial_to_heliocentric host l in
    let '(host, l) := tides_initialize host l in
    tides_forces m host l.
End Tides.
