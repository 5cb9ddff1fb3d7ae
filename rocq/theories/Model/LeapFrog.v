(** * The LeapFrog integrator (src/integrator/leapfrog.rs)

    The update of the universe; clock, output and snapshots are in [Model/Run.v]. *)
From Coq Require Import List Bool ZArith.
From Verif Require Import Base.Num Base.Result Base.Trans Base.Vec Model.Constants Model.Particle
  Model.Creep Model.Relativity Model.Universe.
Import ListNotations.

Section LeapFrog.
  Context {F : Type} `{Num F} `{Trans F} `{Floor F} `{Fuel}.
  Local Open Scope num_scope.
  Local Notation P := (particle F).

  (** leapfrog.rs:234-245 [integrator_part1] *)
  Definition lf_drift (half : F) (p : P) : P :=
    set_p_L (vadd (p_L p) (vmulr (p_dL p) half)) (set_p_ipos (vadd (p_ipos p) (vscale half (p_ivel p))) p).
  (** leapfrog.rs:248-262 [integrator_part2] *)
  Definition lf_kick (dt : F) (p : P) : P := set_p_ivel (vadd (p_ivel p) (vscale dt (p_iacc p))) p.
  Definition on_bodies (f : P -> P) (u : universe F) : universe F := set_particles (map f (u_particles u)) u.

  (** leapfrog.rs:179-206, the part of [iterate] after the output *)
  Definition lf_step (t dt half : F) (u : universe F) : res (universe F) :=
    do u <- inertial_to_heliocentric u;
    do u <- additional_effects t true true false IgnoreNone u;
    let u := on_bodies (lf_drift half) u in
    do u <- gravity IgnoreNone u;
    do u <- inertial_to_heliocentric u;
    do u <- additional_effects (t + half) true true true IgnoreNone u;
    let u := apply_corrections u in
    Ok (on_bodies (fun p => lf_drift half (lf_kick dt p)) u).

  (** leapfrog.rs:142-149 [initialize_physical_values] (the same in the three integrators) *)
  Definition initialize_physical_values (t : F) (u : universe F) : res (universe F) :=
    if negb (t =? n0) then Panic POther
    else
      do u <- spin_and_evolving t true u;
      Ok (calculate_roche u).

  (** the refresh before output, leapfrog.rs:157-162 (the same in the three integrators) *)
  Definition refresh_for_output (t : F) (u : universe F) : res (universe F) :=
    do u <- inertial_to_heliocentric u;
    do u <- spin_and_evolving t true u;
    if e_tides (u_effects u) then denergy_dt u else Ok u.

  (** [n] consecutive steps, clock included (leapfrog.rs:244,261) *)
  Fixpoint lf_steps (n : nat) (t dt half : F) (u : universe F) : res (universe F) :=
    match n with
    | O => Ok u
    | S n => do u <- lf_step t dt half u; lf_steps n ((t + half) + half) dt half u
    end.
End LeapFrog.
