(** * Rotational flattening (src/effects/rotational_flattening/) *)
From Coq Require Import List Bool ZArith Arith.
From Verif Require Import Base.Num Base.Result Base.Trans Base.Vec Model.Constants Model.Particle Model.Tools Model.Creep.
Import ListNotations.

Section Flattening.
  Context {F : Type} `{Num F} `{Trans F} `{Floor F} `{Fuel}.
  Local Open Scope num_scope.

  Definition on_rf (f : flattening F -> flattening F) (p : particle F) : particle F := set_p_rf (f (p_rf p)) p.
  Definition is_rf_orbiting (e : rf_effect_t F) : bool :=
    match e with RfOrbiting _ => true | _ => false end.
  Definition is_rf_central (e : rf_effect_t F) : bool :=
    match e with RfCentral _ => true | _ => false end.

  (** ** Oblate spheroid (oblate_spheroid.rs) *)
  (** src/effects/rotational_flattening/oblate_spheroid.rs:12-49 *)
  Definition oblate_orthogonal (central : bool) (host p : particle F) : particle F :=
    match rf_effect (p_rf p) with
    | RfOrbiting (OblateSpheroid love) =>
        let host_love := match rf_effect (p_rf host) with RfCentral (OblateSpheroid k) => k | _ => n0 end in
        let d5 := npow (rf_distance (p_rf p)) 5 in
        if central then
          let factor := p_mass p * host_love * p_spin2 host * npow (p_radius host) 5 / #6 in
          on_rf (fun r => set_rf_orth_star (nopp (#6) * factor * rf_pos_dot_star_spin r / (p_spin2 host * d5))
                            (set_rf_factor_star factor r)) p
        else
          let factor := p_mass host * love * p_spin2 p * npow (p_radius p) 5 / #6 in
          on_rf (fun r => set_rf_orth_planet (nopp (#6) * factor * rf_pos_dot_planet_spin r / (p_spin2 p * d5))
                            (set_rf_factor_planet factor r)) p
    | _ => p
    end.
  Definition oblate_orthogonal_components (host : particle F) (l : list (particle F)) : list (particle F) :=
    map (oblate_orthogonal false host) (map (oblate_orthogonal true host) l).

  (** src/effects/rotational_flattening/oblate_spheroid.rs:51-61 (any model of an orbiting body) *)
  Definition oblate_radial (host p : particle F) : particle F :=
    if is_rf_orbiting (rf_effect (p_rf p)) then
      on_rf (fun r => set_rf_radial
        (nopp (#3) / npow (rf_distance r) 5 * (rf_factor_planet r + rf_factor_star r)
         + #15 / npow (rf_distance r) 7
           * (rf_factor_star r * rf_pos_dot_star_spin r * rf_pos_dot_star_spin r / p_spin2 host
              + rf_factor_planet r * rf_pos_dot_planet_spin r * rf_pos_dot_planet_spin r / p_spin2 p)) r) p
    else p.
  Definition oblate_radial_components (host : particle F) (l : list (particle F)) : list (particle F) :=
    map (oblate_radial host) l.

  (** src/effects/rotational_flattening/oblate_spheroid.rs:63-82 *)
  Definition oblate_torque (host p : particle F) (central : bool) : vec F :=
    let r := p_rf p in
    let spin := if central then p_spin host else p_spin p in
    let orth := if central then rf_orth_star r else rf_orth_planet r in
    vscale orth (vcross (rf_pos r) spin).

  (** src/effects/rotational_flattening/oblate_spheroid.rs:84-97 *)
  Definition oblate_force (host p : particle F) : vec F :=
    let r := p_rf p in
    vadd (vadd (vscale (rf_radial r) (rf_pos r)) (vscale (rf_orth_planet r) (p_spin p)))
         (vscale (rf_orth_star r) (p_spin host)).

  (** ** Creep (creep_coplanar.rs) *)
  (** src/effects/rotational_flattening/creep_coplanar.rs:10-32 *)
  Definition rf_creep_update (host p : particle F) : res (particle F) :=
    let viscosity := match rf_effect (p_rf p) with
                     | RfCentral (CreepCoplanarRf v) | RfOrbiting (CreepCoplanarRf v) => v
                     | _ => n0
                     end in
    if viscosity =? n0 then Ok p
    else do shape <- creep_shape host p false true false;
         Ok (on_rf (set_rf_shape shape) p).
  Definition rf_creep_shapes (host : particle F) (l : list (particle F)) : res (list (particle F)) :=
    rmap (rf_creep_update host) l.

  (** src/effects/rotational_flattening/creep_coplanar.rs:35-70 *)
  Definition rf_creep_torque (host p : particle F) (central : bool) : res (vec F) :=
    let d3 := npow (rf_distance (p_rf p)) 3 in
    if central then
      do shape <- creep_shape host p false true true;
      Ok (Vec n0 n0 (#3 / #5 * K2 * p_mass host * p_mass p * p_radius host * p_radius host * vy shape / d3))
    else
      Ok (Vec n0 n0 (#3 / #5 * K2 * p_mass p * p_mass host * p_radius p * p_radius p * vy (rf_shape (p_rf p)) / d3)).

  (** src/effects/rotational_flattening/creep_coplanar.rs:72-104 *)
  Definition rf_creep_force (host p : particle F) : vec F :=
    let r := p_rf p in
    let d := rf_distance r in
    let k := nopp (#3) * K2 * p_mass p * p_mass host * p_radius p * p_radius p / (#5 * npow d 4) * vz (rf_shape r) in
    Vec (vx (rf_pos r) / d * k) (vy (rf_pos r) / d * k) n0.

  (** ** The driver (common.rs) *)
  (** 93-120 [initialize] *)
  Definition rf_initialize (host : particle F) (l : list (particle F)) : particle F * list (particle F) :=
    if is_rf_central (rf_effect (p_rf host)) then
      (on_rf (fun r => set_rf_dL vzero (set_rf_acc vzero (set_rf_pos_dot_planet_spin n0 (set_rf_pos_dot_star_spin n0 r)))) host,
       map (fun p =>
         if is_rf_orbiting (rf_effect (p_rf p)) then
           on_rf (fun r => set_rf_dL vzero (set_rf_acc vzero
             (set_rf_pos_dot_planet_spin (vdot (rf_pos r) (p_spin p))
               (set_rf_pos_dot_star_spin (vdot (rf_pos r) (p_spin host)) r)))) p
         else p) l)
    else (host, l).

  (** 122-147 [inertial_to_heliocentric_coordinates] *)
  Definition rf_inertial_to_heliocentric (host : particle F) (l : list (particle F)) : particle F * list (particle F) :=
    if is_rf_central (rf_effect (p_rf host)) then
      (on_rf (fun r => set_rf_distance n0 (set_rf_vel vzero (set_rf_pos vzero r))) host,
       map (fun p =>
         if is_rf_orbiting (rf_effect (p_rf p)) then
           let pos := vsub (p_ipos p) (p_ipos host) in
           let vel := vsub (p_ivel p) (p_ivel host) in
           on_rf (fun r => set_rf_distance (nsqrt (norm2 pos)) (set_rf_vel vel (set_rf_pos pos r))) p
         else p) l)
    else (host, l).

  (** 149-162 [copy_heliocentric_coordinates] *)
  Definition rf_copy_one (p : particle F) : particle F :=
    on_rf (fun r => set_rf_distance (p_hdist p) (set_rf_vel (p_hvel p) (set_rf_pos (p_hpos p) r))) p.
  Definition rf_copy_heliocentric (host : particle F) (l : list (particle F)) : particle F * list (particle F) :=
    if is_rf_central (rf_effect (p_rf host)) then
      (rf_copy_one host, map (fun p => if is_rf_orbiting (rf_effect (p_rf p)) then rf_copy_one p else p) l)
    else (host, l).

  Definition rf_model_torque (m : rf_model F) (host p : particle F) (central : bool) : res (vec F) :=
    match m with
    | OblateSpheroid _ => Ok (oblate_torque host p central)
    | CreepCoplanarRf _ => rf_creep_torque host p central
    end.
  Definition rf_model_force (m : rf_model F) (host p : particle F) : vec F :=
    match m with
    | OblateSpheroid _ => oblate_force host p
    | CreepCoplanarRf _ => rf_creep_force host p
    end.

  (** 166-203 [calculate_dangular_momentum_dt_induced_by_rotational_flattening] *)
  Definition rf_planet_dL (host p : particle F) : res (particle F) :=
    match rf_effect (p_rf p) with
    | RfOrbiting m =>
        do torque <- rf_model_torque m host p false;
        Ok (on_rf (set_rf_dL (vscale (nopp n1) torque)) p)
    | _ => Ok p
    end.
  Definition rf_host_dL_step (host : particle F) (acc : vec F) (p : particle F) : res (vec F) :=
    match rf_effect (p_rf host) with
    | RfCentral m =>
        do torque <- rf_model_torque m host p true;
        Ok (vadd acc (vscale (nopp n1) torque))
    | _ => Ok acc
    end.
  Definition rf_dangular_momentum_dt (host : particle F) (l : list (particle F)) : res (particle F * list (particle F)) :=
    do l' <- rmap (rf_planet_dL host) l;
    do s <- rfold (rf_host_dL_step host) l' vzero;
    Ok (on_rf (set_rf_dL s) host, l').

  (** 205-237 [calculate_acceleration_induced_by_rotational_flattering] *)
  Definition rf_force_of (host p : particle F) : option (vec F) :=
    match rf_effect (p_rf p) with RfOrbiting m => Some (rf_model_force m host p) | _ => None end.
  Definition rf_acceleration (host : particle F) (l : list (particle F)) : particle F * list (particle F) :=
    let factor2 := n1 / p_mass host in
    let total := fold_left (fun acc p => match rf_force_of host p with Some f => vadd acc f | None => acc end) l vzero in
    (on_rf (set_rf_acc (vscale (nopp n1 * factor2) total)) host,
     map (fun p => match rf_force_of host p with
                   | Some f => on_rf (set_rf_acc (vscale (n1 / p_mass p) f)) p
                   | None => p
                   end) l).

  (** The flattening part of one force evaluation, as [tides_pass] in [Model/Tides.v] *)
  Definition rf_forces (host : particle F) (l : list (particle F)) : res (particle F * list (particle F)) :=
    do l <- rf_creep_shapes host (oblate_orthogonal_components host l);
    let r := rf_acceleration host (oblate_radial_components host l) in
    rf_dangular_momentum_dt (fst r) (snd r).
  Definition rf_pass (host : particle F) (l : list (particle F)) : res (particle F * list (particle F)) :=
    let '(host, l) := rf_inertial_to_heliocentric host l in
    let '(host, l) := rf_initialize host l in
    rf_forces host l.
End Flattening.
