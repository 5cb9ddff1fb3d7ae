(** * The universe (src/particles/universe.rs, src/particles/common.rs)

    The Rust array of [MAX_PARTICLES] bodies is kept as the list of the first
    [n_particles] bodies and the list of unused slots.  Console output is left out;
    [check_effects_vs_central_and_orbiting] (766-898) only prints. *)
From Coq Require Import List Bool ZArith Arith.
From Verif Require Import Base.Num Base.Result Base.Trans Base.Vec Model.Constants Model.Particle Model.Host
  Model.Interp Model.Wind Model.Disk Model.Creep Model.Tides Model.Flattening Model.Relativity.
Import ListNotations.

(** src/particles/universe.rs:24-32 [ConsiderEffects] *)
Record effects := Effects {
  e_tides : bool; e_rf : bool; e_gr : bool; e_disk : bool; e_wind : bool; e_evolution : bool }.
(** src/particles/universe.rs:34-55 [Hosts]: indices, and whether they are the most massive body *)
Record hosts := Hosts {
  h_most_massive : nat; h_tides : nat; h_rf : nat; h_gr : nat; h_disk : nat;
  m_all : bool; m_tides : bool; m_rf : bool; m_gr : bool; m_disk : bool }.

(** [for (a, b) in xs.iter_mut().zip(ys.iter_mut()) { f(a, b) }] *)
Fixpoint rzip {A B} (f : A * B -> res (A * B)) (xs : list A) (ys : list B) : res (list A * list B) :=
  match xs, ys with
  | x :: xs', y :: ys' =>
      do r <- f (x, y); do rs <- rzip f xs' ys'; Ok (fst r :: fst rs, snd r :: snd rs)
  | _, _ => Ok (xs, ys)
  end.
(** [for (i, x) in l.iter_mut().enumerate()] *)
Definition rmapi {A B} (f : nat * A -> res B) (l : list A) : res (list B) := rmap f (enumerate l).

Section Universe.
  Context {F : Type} `{Num F} `{Trans F} `{Floor F} `{Fuel}.
  Local Open Scope num_scope.
  Local Notation P := (particle F).

  (** src/particles/universe.rs:10-22 [Universe] *)
  Record universe := Universe {
    u_initial : F; u_limit : F;
    u_particles : list P;       (* particles[..n_particles] *)
    u_dummies : list P;         (* particles[n_particles..] *)
    u_evolvers : list (evolver F);
    u_effects : effects;
    u_gr : gr_impl;
    u_hosts : hosts;
    u_pairs : @pairs F;
    u_roche : list (list F) }.  (* rows of the first n_particles^2 entries *)
  Definition set_particles (l : list P) (u : universe) : universe :=
    Universe (u_initial u) (u_limit u) l (u_dummies u) (u_evolvers u) (u_effects u) (u_gr u) (u_hosts u) (u_pairs u) (u_roche u).
  Definition set_dummies (l : list P) (u : universe) : universe :=
    Universe (u_initial u) (u_limit u) (u_particles u) l (u_evolvers u) (u_effects u) (u_gr u) (u_hosts u) (u_pairs u) (u_roche u).
  Definition set_evolvers (l : list (evolver F)) (u : universe) : universe :=
    Universe (u_initial u) (u_limit u) (u_particles u) (u_dummies u) l (u_effects u) (u_gr u) (u_hosts u) (u_pairs u) (u_roche u).
  Definition set_pairs (m : @pairs F) (u : universe) : universe :=
    Universe (u_initial u) (u_limit u) (u_particles u) (u_dummies u) (u_evolvers u) (u_effects u) (u_gr u) (u_hosts u) m (u_roche u).
  Definition set_roche (m : list (list F)) (u : universe) : universe :=
    Universe (u_initial u) (u_limit u) (u_particles u) (u_dummies u) (u_evolvers u) (u_effects u) (u_gr u) (u_hosts u) (u_pairs u) m.

  (** 663-681 [get_center_of_mass_of_pair] *)
  Definition com_pair (acc : vec F * vec F * F) (p : P) : vec F * vec F * F :=
    let '(pos, vel, m) := acc in
    let pos := vadd (vmulr pos m) (vmulr (p_hpos p) (p_mass p)) in
    let vel := vadd (vmulr vel m) (vmulr (p_hvel p) (p_mass p)) in
    let m' := m + p_mass p in
    if m' >? n0 then (vdivr pos m', vdivr vel m', m') else (pos, vel, m').
  (** 683-697 [calculate_center_of_mass] *)
  Definition center_of_mass (l : list P) : vec F * vec F :=
    fst (fold_left com_pair l (vzero, vzero, n0)).

  Definition gr_central (p : P) : bool :=
    match gr_effect (p_gr p) with GrCentral i => negb (gr_impl_eqb i GrImplDisabled) | _ => false end.
  Definition tides_central (p : P) : bool := is_tides_central (t_effect (p_tides p)).
  Definition rf_central (p : P) : bool := is_rf_central (rf_effect (p_rf p)).
  Definition wind_on (p : P) : bool := w_on (p_wind p).

  (** 699-764 [disable_unnecessary_effects]: one loop with four "found" flags; a second
      central body for the same effect panics *)
  Definition found_step (acc : bool * bool * bool * bool) (p : P) : res (bool * bool * bool * bool) :=
    let '(ft, ff, fg, fd) := acc in
    if tides_central p && ft then Panic PTwoCentral
    else if rf_central p && ff then Panic PTwoCentral
    else if gr_central p && fg then Panic PTwoCentral
    else if is_disk_central p && fd then Panic PTwoCentral
    else Ok (ft || tides_central p, ff || rf_central p, fg || gr_central p, fd || is_disk_central p).
  Definition disable_unnecessary (c : effects) (l : list P) : res effects :=
    do f <- rfold found_step l (false, false, false, false);
    let '(ft, ff, fg, fd) := f in
    Ok (Effects (e_tides c && ft) (e_rf c && ff) (e_gr c && fg) (e_disk c && fd)
          (e_wind c && existsb wind_on l) (e_evolution c && existsb (fun p => evolves (p_evo p)) l)).

  (** 900-1006 [find_indices] *)
  Definition NO_HOST : nat := S MAX_PARTICLES.
  Definition most_massive_step (acc : F * nat) (ip : nat * P) : F * nat :=
    if p_mass (snd ip) >? fst acc then (p_mass (snd ip), fst ip) else acc.
  Definition most_massive (l : list P) : nat := snd (fold_left most_massive_step (enumerate l) (n0, NO_HOST)).
  Definition central_step (c : P -> bool) (acc : nat) (ip : nat * P) : res nat :=
    if c (snd ip) then if Nat.eqb acc NO_HOST then Ok (fst ip) else Panic PTwoCentral else Ok acc.
  Definition find_central (c : P -> bool) (l : list P) : res nat := rfold (central_step c) (enumerate l) NO_HOST.
  Definition disk_central (p : P) : bool :=
    match dk_effect (p_disk p) with
    | DiskCentral d => negb (dp_inner d =? n0) || negb (dp_outer d =? n0)
    | _ => false
    end.
  Definition find_indices (l : list P) (c : effects) : res hosts :=
    let mm := most_massive l in
    do gr <- (if e_gr c then
                do g <- find_central gr_central l;
                if Nat.eqb mm g then Ok g else Panic PGrHost
              else Ok NO_HOST);
    do td <- (if e_tides c then find_central tides_central l else Ok NO_HOST);
    do rf <- (if e_rf c then find_central rf_central l else Ok NO_HOST);
    do td <- (if e_tides c && e_rf c && negb (Nat.eqb td rf) then Panic PHostsDiffer
              else if negb (e_tides c) && e_rf c then Ok rf else Ok td);
    do dk <- (if e_disk c then find_central disk_central l else Ok NO_HOST);
    let mt := e_tides c && Nat.eqb mm td in
    let mf := e_rf c && Nat.eqb mm rf in
    let mg := e_gr c && Nat.eqb mm gr in
    let md := e_disk c && Nat.eqb mm dk in
    Ok (Hosts mm td rf gr dk
          (((e_tides c && mt) || negb (e_tides c)) && ((e_rf c && mf) || negb (e_rf c))
           && ((e_gr c && mg) || negb (e_gr c)) && ((e_disk c && md) || negb (e_disk c)))
          mt mf mg md).

  (** 79-95: the relativistic mass factor of every body but the host *)
  Definition gr_factors (host : P) (l : list P) : P * list P :=
    if gr_central host then
      (host, map (fun p => on_gr (set_gr_factor
                (p_mass_g host * p_mass_g p / npow (p_mass_g host + p_mass_g p) 2)) p) l)
    else (host, l).
  Definition host_implementation (c : effects) (h : hosts) (l : list P) : gr_impl :=
    if e_gr c then
      match nth_error l (h_gr h) with
      | Some host => match gr_effect (p_gr host) with GrCentral i => i | _ => GrImplDisabled end
      | None => GrImplDisabled
      end
    else GrImplDisabled.

  (** 126-153: start an evolving body from the state its model gives at time 0 *)
  Definition start_evolving (pe : P * evolver F) : res (P * evolver F) :=
    let '(p, e) := pe in
    if negb (evolves (p_evo p)) then Ok (p, e)
    else
      do r1 <- evolver_radius e n0 (p_radius p);
      let '(radius, e) := r1 in
      let b1 := nabs (radius - p_radius p) >? 1//1000000 in
      let p := if b1 then set_p_radius radius p else p in
      do r2 <- evolver_rg2 e n0 (p_rg2 p);
      let '(rg2, e) := r2 in
      let b2 := nabs (rg2 - p_rg2 p) >? 1//1000000 in
      let p := if b2 then set_p_rg2 rg2 p else p in
      if b1 || b2 then
        let p := set_p_inertia (p_mass p * p_rg2 p * npow (p_radius p) 2) p in
        Ok (set_p_L (vmulr (p_spin p) (p_inertia p)) p, e)
      else Ok (p, e).

  Definition recentre (com : vec F * vec F) (p : P) : P :=
    set_p_ivel (vsub (p_hvel p) (snd com)) (set_p_ipos (vsub (p_hpos p) (fst com)) p).
  Definition number (ip : nat * P) : P := set_p_id (fst ip) (snd ip).

  (** 73-175 [Universe::new]; [mk_evolver] is [Evolver::new], which reads the tables
      of the evolution models from files *)
  Definition new_universe (mk_evolver : evolution F -> F -> F -> evolver F)
      (initial limit : F) (l : list P) (c : effects) : res universe :=
    do c <- disable_unnecessary c l;
    do h <- find_indices l c;
    do l <- (if e_gr c then with_host (h_gr h) l (fun host o => Ok (gr_factors host o)) else Ok l);
    let impl := host_implementation c h l in
    let l := map (recentre (center_of_mass l)) l in
    if Nat.ltb MAX_PARTICLES (length l) then Panic PTooMany
    else
      let l := map number (enumerate l) in
      let unused := (MAX_PARTICLES - length l)%nat in
      let evs := map (fun p => mk_evolver (p_evo p) initial limit) l
                 ++ repeat (mk_evolver NonEvolving initial limit) unused in
      do r <- (if e_evolution c then rzip start_evolving l evs else Ok (l, evs));
      Ok (Universe initial limit (fst r) (repeat dummy_particle unused) (snd r) c impl h []
            (map (fun _ => map (fun _ => n0) l) l)).

  (** 177-196 [calculate_roche_radiuses] (the diagonal keeps its value) *)
  Definition roche_radius (a b : P) : F :=
    if p_mass a >? p_mass b
    then (p_radius b / (462//1000)) * tpow (p_mass a / p_mass b) (n1 / #3)
    else (p_radius a / (462//1000)) * tpow (p_mass b / p_mass a) (n1 / #3).
  Definition calculate_roche (u : universe) : universe :=
    let l := enumerate (u_particles u) in
    set_roche (map (fun iar : (nat * P) * list F =>
                 map (fun jbr : (nat * P) * F =>
                        if Nat.eqb (fst (fst iar)) (fst (fst jbr)) then snd jbr
                        else roche_radius (snd (fst iar)) (snd (fst jbr)))
                   (combine l (snd iar)))
                 (combine l (u_roche u))) u.

  (** 198-303 [gravity_calculate_acceleration] *)
  Definition gravity_ignored (ig : ignore_terms) (mm i j : nat) : bool :=
    match ig with
    | IgnoreNone => false
    | WHFastOne =>
        (Nat.eqb i mm && Nat.eqb mm 0 && Nat.eqb j 1) || (Nat.eqb i mm && Nat.ltb 0 mm && Nat.eqb j 0)
        || (Nat.eqb j mm && Nat.eqb mm 0 && Nat.eqb i 1) || (Nat.eqb j mm && Nat.ltb 0 mm && Nat.eqb i 0)
    | WHFastTwo => Nat.eqb i mm || Nat.eqb j mm
    end.
  (** one pair: [jbr] is the index of the other body, the body and the Roche radius *)
  Definition gravity_pair (ig : ignore_terms) (mm i : nat) (a : P) (acc : vec F) (jbr : nat * (P * F)) : res (vec F) :=
    let '(j, (b, roche)) := jbr in
    if Nat.eqb i j then Ok acc
    else
      let d := vsub (p_ipos a) (p_ipos b) in
      let distance_2 := vx d * vx d + vy d * vy d + vz d * vz d in
      let go :=
        if gravity_ignored ig mm i j then Ok acc
        else
          let distance := nsqrt distance_2 in
          let prefact := nopp G / (distance * distance * distance) * p_mass b in
          Ok (vadd acc (vscale prefact d)) in
      if Nat.ltb i j then
        if distance_2 <=? npow roche 2 then Panic (PRocheLimit i j)
        else if distance_2 <=? npow (p_radius a + p_radius b) 2 then Panic (PCollision i j)
        else if (MAX_DISTANCE_2 >? n0) && Nat.eqb i mm && (distance_2 >? MAX_DISTANCE_2) then Panic (PEjected j)
        else go
      else go.
  Definition gravity_on (ig : ignore_terms) (mm : nat) (l : list P) (iar : nat * (P * list F)) : res (vec F) :=
    let '(i, (a, row)) := iar in
    rfold (gravity_pair ig mm i a) (enumerate (combine l row)) vzero.
  Definition gravity (ig : ignore_terms) (u : universe) : res universe :=
    if Nat.eqb (length (u_particles u)) 0 then Panic POther  (* chunks_mut(0) *)
    else
      do accs <- rmap (gravity_on ig (h_most_massive (u_hosts u)) (u_particles u))
                   (enumerate (combine (u_particles u) (u_roche u)));
      Ok (set_particles (map (fun pa => set_p_iacc (snd pa) (fst pa)) (combine (u_particles u) accs)) u).

  (** src/particles/common.rs:3-15 [calculate_spin] *)
  Definition refresh_spin (ip : nat * P) : res P :=
    let '(i, p) := ip in
    if p_inertia p =? n0 then Panic (PZeroInertia i)
    else
      let p := set_p_spin (vdivr (p_L p) (p_inertia p)) p in
      Ok (set_p_spin2 (norm2 (p_spin p)) p).
  (** src/particles/universe.rs:305-316 [calculate_spin_and_evolving_quantities] *)
  Definition spin_and_evolving (t : F) (evolution : bool) (u : universe) : res universe :=
    let ev := evolution && e_evolution (u_effects u) in
    do r <- (if ev then rzip (evolve_non_spin t) (u_particles u) (u_evolvers u) else Ok (u_particles u, u_evolvers u));
    do l <- rmapi refresh_spin (fst r);
    do r <- (if ev then rzip (evolve_spin SUN_DYN_FREQ_2 t) l (snd r) else Ok (l, snd r));
    Ok (set_evolvers (snd r) (set_particles (fst r) u)).

  (** 318-351 [inertial_to_heliocentric] *)
  Definition heliocentric (host p : P) : P :=
    let p := set_p_hpos (vsub (p_ipos p) (p_ipos host)) p in
    let p := set_p_hvel (vsub (p_ivel p) (p_ivel host)) p in
    let p := set_p_hdist (nsqrt (norm2 (p_hpos p))) p in
    let p := set_p_hradvel (vdot (p_hpos p) (p_hvel p) / p_hdist p) p in
    let p := set_p_hnorm2 (norm2 (vsub (p_hvel p) (p_hvel host))) p in
    set_p_hnorm (nsqrt (p_hnorm2 p)) p.
  Definition heliocentric_host (p : P) : P :=
    set_p_hnorm n0 (set_p_hnorm2 n0 (set_p_hradvel n0 (set_p_hdist n0 (set_p_hvel vzero (set_p_hpos vzero p))))).
  Definition inertial_to_heliocentric (u : universe) : res universe :=
    let n := length (u_particles u) in
    do l <- with_host (h_most_massive (u_hosts u)) (u_particles u ++ u_dummies u)
              (fun host o => Ok (heliocentric_host host, map (heliocentric host) o));
    Ok (set_dummies (skipn n l) (set_particles (firstn n l) u)).

  (** 353-426 [initialize] *)
  Definition opt_step (b : bool) (f g : P -> list P -> P * list P) (s : P * list P) : P * list P :=
    if b then let s := f (fst s) (snd s) in g (fst s) (snd s) else s.
  Definition init_on (b : bool) (h : nat) (f g : P -> list P -> P * list P) (l : list P) : res (list P) :=
    if b then with_host h l (fun host o => Ok (opt_step true f g (host, o))) else Ok l.
  Definition initialize (dL acc : bool) (u : universe) : res universe :=
    let c := u_effects u in
    let h := u_hosts u in
    let it := (dL && e_tides c) || (acc && e_tides c) in
    let ir := (dL && e_rf c) || (acc && e_rf c) in
    let iw := dL && e_wind c in
    let ig := (dL && e_gr c && gr_impl_eqb (u_gr u) Kidder1995) || (acc && e_gr c) in
    let id := acc && e_disk c in
    do l <- (if it || ir || iw || ig || id then
        let l := if iw then wind_initialize (u_particles u) else u_particles u in
        do l <- with_host (h_most_massive h) l (fun host o =>
                  Ok (opt_step (id && m_disk h) disk_copy_heliocentric disk_initialize
                     (opt_step (ig && m_gr h) gr_copy_heliocentric gr_initialize
                     (opt_step (ir && m_rf h) rf_copy_heliocentric rf_initialize
                     (opt_step (it && m_tides h) tides_copy_heliocentric tides_initialize (host, o))))));
        if negb (m_all h) then
          do l <- init_on (it && negb (m_tides h)) (h_tides h) tides_inertial_to_heliocentric tides_initialize l;
          do l <- init_on (ir && negb (m_rf h)) (h_rf h) rf_inertial_to_heliocentric rf_initialize l;
          do l <- init_on (ig && negb (m_gr h)) (h_gr h) gr_inertial_to_heliocentric gr_initialize l;
          init_on (id && negb (m_disk h)) (h_disk h) disk_inertial_to_heliocentric disk_initialize l
        else Ok l
      else Ok (u_particles u));
    Ok (set_particles (if acc then map (set_p_iadd vzero) l else l) u).

  (** 438-491: tides and flattening around their common host *)
  Definition tidal_host_effects (c : effects) (dL acc : bool) (m : @pairs F) (host : P) (o : list P) : res (P * list P) :=
    do o <- (if e_tides c then creep_shapes host (ctl_orthogonal_components m host o) else Ok o);
    do o <- (if e_rf c then rf_creep_shapes host (oblate_orthogonal_components host o) else Ok o);
    do s <- (if acc then
               do s <- (if e_tides c then tides_acceleration host (ctl_radial_components m host o) else Ok (host, o));
               Ok (if e_rf c then rf_acceleration (fst s) (oblate_radial_components (fst s) (snd s)) else s)
             else Ok (host, o));
    if dL then
      do s <- (if e_tides c then tides_dangular_momentum_dt (fst s) (snd s) else Ok s);
      if e_rf c then rf_dangular_momentum_dt (fst s) (snd s) else Ok s
    else Ok s.
  Definition tidal_effects (dL acc : bool) (u : universe) : res universe :=
    let c := u_effects u in
    if e_tides c || e_rf c then
      let needed := (dL && (e_tides c || e_rf c)) || (acc && (e_tides c || e_disk c || e_rf c || e_gr c)) in
      let h := h_tides (u_hosts u) in
      let m := if needed then
                 match nth_error (u_particles u) h with
                 | Some host => pair_dependent_factors host (others h (u_particles u)) (u_pairs u)
                 | None => u_pairs u
                 end
               else u_pairs u in
      do l <- with_host h (u_particles u) (fun host o =>
                if needed then tidal_host_effects c dL acc m host o else Ok (host, o));
      Ok (set_pairs m (set_particles l u))
    else Ok u.
  (** 492-513 *)
  Definition gr_effects (ig : ignore_terms) (host : P) (o : list P) : P * list P :=
    match gr_effect (p_gr host) with
    | GrCentral Kidder1995 => kidder host o
    | GrCentral Anderson1975 => anderson ig host o
    | GrCentral Newhall1983 => newhall ig host o
    | _ => (host, o)
    end.
  (** 580-614 [calculate_dangular_momentum_dt] *)
  Definition sum_dL (p : P) : P :=
    set_p_dL (vadd (vadd (vadd (t_dL (p_tides p)) (rf_dL (p_rf p))) (gr_dL (p_gr p))) (w_dL (p_wind p))) p.
  (** 540-567 [add_additional_acceleration_corrections] *)
  Definition add_if (b : bool) (a : P -> vec F) (p : P) : P :=
    if b then set_p_iadd (vadd (p_iadd p) (a p)) p else p.
  Definition add_corrections (c : effects) (p : P) : P :=
    add_if (e_gr c) (fun p => gr_acc (p_gr p))
      (add_if (e_rf c) (fun p => rf_acc (p_rf p))
         (add_if (e_disk c) (fun p => dk_acc (p_disk p))
            (add_if (e_tides c) (fun p => t_acc (p_tides p)) p))).
  (** 428-538 [calculate_additional_effects] *)
  Definition additional_effects (t : F) (evolution dL acc : bool) (ig : ignore_terms) (u : universe) : res universe :=
    do u <- initialize dL acc u;
    do u <- spin_and_evolving t evolution u;
    let c := u_effects u in
    let h := u_hosts u in
    let u := if dL && e_wind c then set_particles (calculate_wind_factor (u_particles u)) u else u in
    do u <- tidal_effects dL acc u;
    do l <- (if acc && e_gr c
             then with_host (h_gr h) (u_particles u) (fun host o => Ok (gr_effects ig host o))
             else Ok (u_particles u));
    do l <- (if acc && e_disk c
             then with_host (h_disk h) l (fun host o => Ok (calculate_disk_acceleration t host o))
             else Ok l);
    let l := if dL && (e_tides c || e_rf c || (e_gr c && gr_impl_eqb (u_gr u) Kidder1995) || e_wind c)
             then map sum_dL l else l in
    Ok (set_particles (if acc then map (add_corrections c) l else l) u).

  (** 570-576 [apply_acceleration_corrections] *)
  Definition apply_corrections (u : universe) : universe :=
    set_particles (map (fun p => set_p_iacc (vadd (p_iacc p) (p_iadd p)) p) (u_particles u)) u.

  (** 616-621 [calculate_denergy_dt] *)
  Definition denergy_dt (u : universe) : res universe :=
    do l <- with_host (h_tides (u_hosts u)) (u_particles u) (fun host o => Ok (host, tides_denergy_dt o));
    Ok (set_particles l u).

  (** 625-647 [compute_total_energy] *)
  Definition kinetic (p : P) : F := (1//2) * p_mass p * norm2 (p_hvel p).
  Fixpoint potential (l : list P) (e : F) : F :=
    match l with
    | [] => e
    | a :: l => potential l (fold_left (fun e b =>
                  e - p_mass_g b * p_mass a / nsqrt (norm2 (vsub (p_hpos a) (p_hpos b)))) l e)
    end.
  Definition total_energy (u : universe) : F :=
    (fold_left (fun e p => e + kinetic p) (u_particles u) n0 + potential (u_particles u) n0) + n0.
  (** 649-658 [compute_total_angular_momentum] *)
  Definition total_angular_momentum (u : universe) : F :=
    nsqrt (norm2 (fold_left (fun s p => vadd s (vscale (p_mass p) (vcross (p_hpos p) (p_hvel p)))) (u_particles u) vzero)).
End Universe.
Arguments universe F : clear implicits.
