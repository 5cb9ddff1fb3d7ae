(** * Table interpolation and the evolution of physical quantities
    (src/tools.rs:840-907, src/effects/evolution.rs:446-567) *)
From Coq Require Import List Bool Arith ZArith.
From Verif Require Import Base.Num Base.Result Base.Vec Model.Particle.
Import ListNotations.

(** [data.iter().position(p)] *)
Fixpoint position {A} (p : A -> bool) (l : list A) : option nat :=
  match l with
  | [] => None
  | a :: l => if p a then Some 0 else option_map S (position p l)
  end.

(** indexing, panicking out of range *)
Definition index {A} (l : list A) (i : nat) : res A :=
  match nth_error l i with Some a => Ok a | None => Panic PSplit end.
(** slicing [&l[i..]], panicking if [i > len] *)
Definition slice_from {A} (l : list A) (i : nat) : res (list A) :=
  if i <=? length l then Ok (skipn i l) else Panic PSplit.

Section Interp.
  Context {F : Type} `{Num F}.
  Local Open Scope num_scope.

  (** src/tools.rs:884-907 [find_indices_around_target_value].  The indices
      [0.wrapping_sub(1)] and [0 - 1] of an empty slice panic. *)
  Definition find_indices_around (data : list F) (target : F) : res (nat * nat) :=
    let ndata := length data in
    let last := pred ndata in
    match position (fun r => r >? target) data with
    | None => do x <- index data last;
              Ok (if x >? target then (0, 0) else (last, last))
    | Some i => Ok (if Nat.eqb i 0 then (0, 0)
                    else if Nat.eqb i ndata then (last, last)
                    else (pred i, i))
    end.

  (** src/tools.rs:840-860 [linear_interpolation] *)
  Definition linear_interpolation (target : F) (x y : list F) : res (F * nat) :=
    do lr <- find_indices_around x target;
    let '(il, ir) := lr in
    if Nat.eqb il ir then do yl <- index y il; Ok (yl, il)
    else
      do x_left <- index x il; do x_right <- index x ir;
      let percent := (target - x_left) / (x_right - x_left) in
      do y_left <- index y il; do y_right <- index y ir;
      Ok (y_left * (n1 - percent) + y_right * percent, il).

  (** src/effects/evolution.rs:19-28 [Evolver] *)
  Record evolver := Evolver {
    ev_type : evolution F; ev_time : list F; ev_radius : list F; ev_rg2 : list F;
    ev_love : list F; ev_invq : list F; ev_left : nat }.
  Definition set_ev_left (n : nat) (e : evolver) : evolver :=
    Evolver (ev_type e) (ev_time e) (ev_radius e) (ev_rg2 e) (ev_love e) (ev_invq e) n.

  (** src/effects/evolution.rs:449-456 [idx] *)
  Definition ev_idx (e : evolver) : nat :=
    let security_shift := 10 in
    if Nat.ltb security_shift (ev_left e) then (ev_left e - security_shift)%nat else 0.

  (** the common body of the four accessors below: interpolate in the window
      starting at [idx] and advance [left_index] *)
  Definition ev_lookup (e : evolver) (column : list F) (t : F) : res (F * evolver) :=
    do xs <- slice_from (ev_time e) (ev_idx e);
    do ys <- slice_from column (ev_idx e);
    do r <- linear_interpolation t xs ys;
    let '(v, il) := r in
    Ok (v, set_ev_left (ev_left e + il)%nat e).

  (** src/effects/evolution.rs:458-465 [radius] *)
  Definition evolver_radius (e : evolver) (t current : F) : res (F * evolver) :=
    match ev_type e with
    | NonEvolving => Ok (current, e)
    | _ => ev_lookup e (ev_radius e) t
    end.
  (** src/effects/evolution.rs:467-476 [radius_of_gyration_2] *)
  Definition evolver_rg2 (e : evolver) (t current : F) : res (F * evolver) :=
    match ev_type e with
    | Baraffe2015 _ | Leconte2011 _ | LeconteChabrier2013 _ => ev_lookup e (ev_rg2 e) t
    | _ => Ok (current, e)
    end.
  (** src/effects/evolution.rs:478-485 [love_number] *)
  Definition evolver_love (e : evolver) (t current : F) : res (F * evolver) :=
    match ev_type e with
    | LeconteChabrier2013 _ => ev_lookup e (ev_love e) t
    | _ => Ok (current, e)
    end.
  (** src/effects/evolution.rs:487-513 [inverse_tidal_q_factor] *)
  Definition evolver_invq (e : evolver) (t current : F) : res (F * evolver) :=
    if dynamical_tide (ev_type e) then ev_lookup e (ev_invq e) t else Ok (current, e).

  (** src/effects/evolution.rs:516-546, body of the loop of
      [calculate_particles_non_spin_dependent_evolving_quantities].  The new Love
      number is stored in [params], a copy (pattern [ConstantTimeLag(mut params)]
      binds by copy since the struct is [Copy]), so the particle is not changed by
      the last statement; only the evolver's [left_index] is. *)
  Definition evolve_non_spin (t : F) (pe : particle F * evolver) : res (particle F * evolver) :=
    let '(p, e) := pe in
    do r1 <- evolver_radius e t (p_radius p);
    let '(new_radius, e) := r1 in
    do r2 <- evolver_rg2 e t (p_rg2 p);
    let '(new_rg2, e) := r2 in
    let p := if negb (new_radius =? p_radius p) || negb (new_rg2 =? p_rg2 p)
             then let p := set_p_rg2 new_rg2 (set_p_radius new_radius p) in
                  set_p_inertia (p_mass p * p_rg2 p * npow (p_radius p) 2) p
             else p in
    match t_effect (p_tides p) with
    | TidesCentral (ConstantTimeLag q) | TidesOrbiting (ConstantTimeLag q) =>
        do r3 <- evolver_love e t (ctl_love q);
        let '(_lost, e) := r3 in Ok (p, e)
    | _ => Ok (p, e)
    end.

  (** src/effects/evolution.rs:548-567, body of the loop of
      [calculate_particles_spin_dependent_evolving_quantities]; [sun2] is
      [constants::SUN_DYN_FREQ_2] *)
  Definition evolve_spin (sun2 t : F) (pe : particle F * evolver) : res (particle F * evolver) :=
    let '(p, e) := pe in
    if dynamical_tide (ev_type e) then
      do r <- evolver_invq e t n0;
      let '(invq, e) := r in
      let eps2 := p_spin2 p / sun2 in
      let lag := #3 * eps2 * invq / #4 in
      Ok (set_p_tides (set_t_lag_angle lag (p_tides p)) p, e)
    else Ok (set_p_tides (set_t_lag_angle n0 (p_tides p)) p, e).
End Interp.
Arguments evolver F : clear implicits.
