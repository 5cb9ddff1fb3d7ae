(** * Disk interaction (src/effects/disk.rs:82-268) *)
From Coq Require Import List Bool ZArith.
From Verif Require Import Base.Num Base.Trans Base.Vec Model.Constants Model.Particle.

Section Disk.
  Context {F : Type} `{Num F} `{Trans F}.
  Local Open Scope num_scope.

  Definition is_disk_central (p : particle F) : bool :=
    match dk_effect (p_disk p) with DiskCentral _ => true | _ => false end.
  Definition is_disk_orbiting (p : particle F) : bool :=
    match dk_effect (p_disk p) with DiskOrbiting => true | _ => false end.
  Definition set_disk_acc (v : vec F) (p : particle F) : particle F :=
    set_p_disk (set_dk_acc v (p_disk p)) p.
  Definition set_disk_coords (pos vel : vec F) (d nv nv2 : F) (p : particle F) : particle F :=
    set_p_disk (set_dk_pos pos (set_dk_vel vel (set_dk_distance d
      (set_dk_norm_vel nv (set_dk_norm_vel2 nv2 (p_disk p)))))) p.

  (** src/effects/disk.rs:84-99 [initialize] *)
  Definition disk_initialize (host : particle F) (others : list (particle F)) :=
    if is_disk_central host then
      (set_disk_acc vzero host,
       map (fun p => if is_disk_orbiting p then set_disk_acc vzero p else p) others)
    else (host, others).

  (** src/effects/disk.rs:101-133 [inertial_to_heliocentric_coordinates] *)
  Definition disk_inertial_to_heliocentric (host : particle F) (others : list (particle F)) :=
    if is_disk_central host then
      (set_disk_coords vzero vzero n0 n0 n0 host,
       map (fun p => if is_disk_orbiting p then
          let pos := vsub (p_ipos p) (p_ipos host) in
          let vel := vsub (p_ivel p) (p_ivel host) in
          let nv2 := norm2 (vsub vel vzero) in
          set_disk_coords pos vel (nsqrt (norm2 pos)) (nsqrt nv2) nv2 p else p) others)
    else (host, others).

  (** src/effects/disk.rs:135-153 [copy_heliocentric_coordinates] *)
  Definition disk_copy_coordinates (p : particle F) : particle F :=
    set_disk_coords (p_hpos p) (p_hvel p) (p_hdist p) (p_hnorm p) (p_hnorm2 p) p.
  Definition disk_copy_heliocentric (host : particle F) (others : list (particle F)) :=
    if is_disk_central host then
      (disk_copy_coordinates host,
       map (fun p => if is_disk_orbiting p then disk_copy_coordinates p else p) others)
    else (host, others).

  (** src/effects/disk.rs:166-171 [calculate_temperature_disk] *)
  Definition temperature_disk (host_mass distance : F) : F :=
    #280 * tpow distance (nopp (1//2)) * host_mass.
  (** src/effects/disk.rs:174-183 [calculate_disk_surface_density] *)
  Definition disk_surface_density (d : disk_props F) (time distance : F) : F :=
    let initial := dp_density d * (n1 / distance)
        * texp (nopp n1 * distance / dp_outer d) * (n1 - nsqrt (dp_inner d / distance)) in
    if distance >? dp_inner d then initial * texp (nopp time / dp_lifetime d) else n0.
  (** src/effects/disk.rs:185-188 [calculate_keplerian_velocity] *)
  Definition keplerian_frequency (host_mass_g distance : F) : F :=
    nsqrt (host_mass_g / npow distance 3).
  (** src/effects/disk.rs:190-196 [calculate_disk_viscosity] *)
  Definition disk_viscosity (d : disk_props F) (host_mass host_mass_g distance : F) : F :=
    let cs2 := BOLTZMANN * temperature_disk host_mass distance / (dp_weight d * MASS_HYDROGEN) in
    dp_alpha d * cs2 / keplerian_frequency host_mass_g distance.
  (** src/effects/disk.rs:198-202 [calculate_gas_radial_velocity] *)
  Definition gas_radial_velocity (d : disk_props F) (host_mass host_mass_g distance sma : F) : F :=
    nopp (#3) * disk_viscosity d host_mass host_mass_g distance / (#2 * sma).
  (** src/effects/disk.rs:156-164 [calculate_migration_timescale] *)
  Definition migration_timescale (d : disk_props F)
      (time host_mass host_mass_g mass distance sma : F) : F :=
    let v := gas_radial_velocity d host_mass host_mass_g distance sma in
    let density := disk_surface_density d time distance in
    let a_dot := v * nmin n1 (#2 * density * npow sma 2 / mass) in
    nopp sma / a_dot.

  (** src/effects/disk.rs:212-253: the force on one orbiting body given its
      migration time scale *)
  Definition disk_force (timescale : F) (p : particle F) : vec F :=
    let k := p_disk p in
    let mig := nopp (p_mass p) / timescale in
    let ecc_timescale := 1//10 * timescale in
    let fecc := nopp (p_mass p) * #2 / ecc_timescale in
    let inc_timescale := ecc_timescale in
    let finc := nopp (p_mass p) * #2 / inc_timescale in
    let f1 := vscale mig (dk_vel k) in
    let s := n1 / (dk_distance k * dk_distance k) * vdot (dk_pos k) (dk_vel k) in
    let f2 := vscale (fecc * s) (dk_pos k) in
    let f3 := Vec n0 n0 (finc * vz (dk_vel k)) in
    vadd (vadd f1 f2) f3.

  Definition disk_timescale (d : disk_props F) (time : F) (host p : particle F) : F :=
    let k := p_disk p in
    let sma := (p_mass_g p + p_mass_g host) * dk_distance k
               / (#2 * (p_mass_g p + p_mass_g host) - dk_distance k * dk_norm_vel2 k) in
    migration_timescale d time (p_mass host) (p_mass_g host) (p_mass p) (dk_distance k) sma.

  (** src/effects/disk.rs:205-268 [calculate_disk_interaction_acceleration].  The
      host's acceleration is rewritten inside the loop, after each body. *)
  Definition calculate_disk_acceleration (time : F) (host : particle F) (others : list (particle F))
      : particle F * list (particle F) :=
    match dk_effect (p_disk host) with
    | DiskCentral d =>
        let factor2 := n1 / p_mass host in
        let '(sum, host', others') :=
          fold_left (fun '(sum, hst, done) p =>
            let '(sum, p) :=
              if is_disk_orbiting p then
                let ts := disk_timescale d time host p in
                let p := set_p_disk (set_dk_timescale ts (p_disk p)) p in
                let f := disk_force ts p in
                (vadd sum f, set_disk_acc (vscale (n1 / p_mass p) f) p)
              else (sum, p) in
            (sum, set_disk_acc (vscale (nopp n1 * factor2) sum) hst, done ++ p :: nil))
          others (vzero, host, nil) in
        (host', others')
    | _ => (host, others)
    end.
End Disk.
