(** * One iteration of an integrator as seen from the outside:
    clock, triggers, history output, limits.

    The physics (positions, spins, evolvers, integrator buffers) is an abstract
    state [phys]; what each integrator does to it is a section variable, so that
    every theorem holds for every physics.  The concrete physics is modelled in
    the other files of this directory. *)
From Coq Require Import List ZArith NArith Bool.
From Verif Require Import Base.Num Model.History.
Import ListNotations.

(** the three implementations of the [Integrator] trait (src/integrator/mod.rs) *)
Inductive kind := KLeapFrog | KWHFast | KIas15.

Section Run.
  Context {F : Type} `{Num F}.
  Local Open Scope num_scope.

  (** everything in the integrator except the fields listed in [integ] *)
  Variable phys : Type.
  (** [universe.n_particles]; constant during a run *)
  Variable n_particles : nat.
  (** the history record of body [i] at a given time and time step
      (src/integrator/output.rs:99-135) *)
  Variable record_of : phys -> F -> F -> nat -> hrecord.
  (** refresh before output: [inertial_to_heliocentric],
      [calculate_spin_and_evolving_quantities], [calculate_denergy_dt]
      (src/integrator/leapfrog.rs:157-162, whfast.rs:241-246, ias15.rs:426-431) *)
  Variable observe : phys -> F -> phys.
  (** the update of the universe by one LeapFrog step from time [t] with step
      [dt] with half step [half] (leapfrog.rs:179-206), clock excluded *)
  Variable lf_advance : phys -> F -> F -> F -> phys.
  (** same for WHFast (whfast.rs:262-291) *)
  Variable wh_advance : phys -> F -> F -> phys.
  (** same for IAS15, which also chooses the new clock and time step
      (ias15.rs:444-456, 480-1339) *)
  Variable ias_advance : phys -> F -> F -> phys * F * F.
  (** [initialize_physical_values] (leapfrog.rs:142-149, whfast.rs:225-232,
      ias15.rs:409-416) *)
  Variable init_phys : phys -> phys.
  (** [universe.consider_effects.evolution] and the last tabulated time of every
      evolving body, in order (leapfrog.rs:107-112) *)
  Variable evolution_on : phys -> bool.
  Variable table_ends : phys -> list F.

  (** the fields common to [LeapFrog], [WHFast] and [Ias15]
      (leapfrog.rs:42-54, whfast.rs:99-119, ias15.rs:29-41);
      [i_limit] is [universe.time_limit] *)
  Record integ := mkInteg {
    i_kind : kind;
    i_phys : phys;
    i_dt : F;             (* time_step *)
    i_half : F;           (* half_time_step (unused by IAS15) *)
    i_time : F;           (* current_time *)
    i_iter : N;           (* current_iteration *)
    i_rec_period : F;     (* recovery_snapshot_period *)
    i_hist_period : F;    (* historic_snapshot_period *)
    i_last_rec : F;       (* last_recovery_snapshot_time *)
    i_last_hist : F;      (* last_historic_snapshot_time *)
    i_nhist : N;          (* n_historic_snapshots *)
    i_hash : N;
    i_limit : F }.

  (** leapfrog.rs:66-81, whfast.rs:143-168, ias15.rs:256-369 *)
  Definition new_integ (k : kind) (dt rec_period hist_period limit : F) (p : phys) : integ :=
    mkInteg k p dt ((1//2) * dt) n0 0 rec_period hist_period (- n1) (- n1) 0 0 limit.

  Inductive outcome :=
  | Completed               (* Err("Simulation completed") *)
  | Ok (recovery_trigger : bool).

  (** [current_iteration += 1]: u32 for LeapFrog and IAS15 (wrapping, release
      build), usize for WHFast *)
  Definition next_iter (k : kind) (n : N) : N :=
    match k with KWHFast => (n + 1)%N | _ => ((n + 1) mod 2 ^ 32)%N end.

  (** the new value of [last_historic_snapshot_time] after writing
      (leapfrog.rs:164-170, whfast.rs:248-254, ias15.rs:433) *)
  Definition next_last_hist (s : integ) (first : bool) : F :=
    match i_kind s with
    | KIas15 => i_time s
    | _ => if negb first then i_last_hist s + i_hist_period s else n0
    end.

  (** state update of the integration part, clock included *)
  Definition advance (s : integ) (p : phys) : phys * F * F :=
    match i_kind s with
    | KLeapFrog => (lf_advance p (i_time s) (i_dt s) (i_half s),
                    (i_time s + i_half s) + i_half s,   (* leapfrog.rs:244,261 *)
                    i_dt s)
    | KWHFast => (wh_advance p (i_time s) (i_dt s), i_time s + i_dt s, i_dt s) (* whfast.rs:292 *)
    | KIas15 => ias_advance p (i_time s) (i_dt s)
    end.

  Definition first_trigger (s : integ) : bool := i_last_hist s <? n0.
  Definition hist_trigger (s : integ) : bool := (i_last_hist s + i_hist_period s) <=? i_time s.
  Definition rec_trigger (s : integ) : bool := (i_last_rec s + i_rec_period s) <=? i_time s.

  (** bytes of one historic snapshot: one record per body, in order *)
  Definition snapshot_bytes (p : phys) (t dt : F) : list byte :=
    encode_records (map (record_of p t dt) (seq 0 n_particles)).

  (** [Integrator::iterate] (leapfrog.rs:151-215, whfast.rs:235-305,
      ias15.rs:420-463): returns the new state, the bytes handed to the history
      writer, and the result *)
  Definition iterate (s : integ) : integ * list byte * outcome :=
    let first := first_trigger s in
    let due := first || hist_trigger s in
    let rec_due := rec_trigger s in
    let p1 := if due then observe (i_phys s) (i_time s) else i_phys s in
    let out := if due then snapshot_bytes p1 (i_time s) (i_dt s) else [] in
    let last_hist := if due then next_last_hist s first else i_last_hist s in
    let nhist := if due then (i_nhist s + 1)%N else i_nhist s in
    let '(p2, t2, dt2) := advance s p1 in
    let s' := mkInteg (i_kind s) p2 dt2 (i_half s) t2 (next_iter (i_kind s) (i_iter s))
                (i_rec_period s) (i_hist_period s) (i_last_rec s) last_hist nhist
                (i_hash s) (i_limit s) in
    (s', out, if (t2 + dt2) >? i_limit s then Completed else Ok (first || rec_due)).

  (** [set_time_limit] (leapfrog.rs:103-124, identical in whfast.rs:187-208 and
      ias15.rs:371-392); [None] is a panic *)
  Definition set_time_limit (s : integ) (limit : F) : option integ :=
    if (limit >? n0) && negb (i_limit s =? limit) then
      let refuse :=
        if (limit >? i_limit s) && evolution_on (i_phys s)
        then existsb (fun last => last <? limit) (table_ends (i_phys s))
        else if limit <? i_limit s then limit <? i_time s else false in
      if refuse then None
      else Some (mkInteg (i_kind s) (i_phys s) (i_dt s) (i_half s) (i_time s) (i_iter s)
                   (i_rec_period s) (i_hist_period s) (i_last_rec s) (i_last_hist s)
                   (i_nhist s) (i_hash s) limit)
    else Some s.

  (** [set_snapshot_periods] (leapfrog.rs:126-140, whfast.rs:210-224,
      ias15.rs:394-408) *)
  Definition set_snapshot_periods (s : integ) (hist rec : F) : integ :=
    let hist' := if (hist >? n0) && negb (i_hist_period s =? hist) then hist else i_hist_period s in
    let rec' := if (rec >? n0) && negb (i_rec_period s =? rec) then rec else i_rec_period s in
    mkInteg (i_kind s) (i_phys s) (i_dt s) (i_half s) (i_time s) (i_iter s)
      rec' hist' (i_last_rec s) (i_last_hist s) (i_nhist s) (i_hash s) (i_limit s).

  (** the part of [restore_snapshot] after deserialization (output.rs:191-199):
      a state whose clock is zero is initialised *)
  Definition after_restore (s : integ) : integ :=
    if i_time s =? n0
    then mkInteg (i_kind s) (init_phys (i_phys s)) (i_dt s) (i_half s) (i_time s) (i_iter s)
           (i_rec_period s) (i_hist_period s) (i_last_rec s) (i_last_hist s)
           (i_nhist s) (i_hash s) (i_limit s)
    else s.

  (** [write_recovery_snapshot], integrator side (leapfrog.rs:217-226): the
      fields changed in the live state before it is serialized.  [hash_of] stands
      for the [DefaultHasher] of the debug print of the state with hash 0. *)
  Variable hash_of : integ -> N.
  Definition mark_recovery (s : integ) : integ :=
    let s0 := mkInteg (i_kind s) (i_phys s) (i_dt s) (i_half s) (i_time s) (i_iter s)
                (i_rec_period s) (i_hist_period s) (i_time s) (i_last_hist s)
                (i_nhist s) 0 (i_limit s) in
    mkInteg (i_kind s) (i_phys s) (i_dt s) (i_half s) (i_time s) (i_iter s)
      (i_rec_period s) (i_hist_period s) (i_time s) (i_last_hist s)
      (i_nhist s) (hash_of s0) (i_limit s).
End Run.

Arguments mkInteg {F phys}.
Arguments i_kind {F phys}. Arguments i_phys {F phys}. Arguments i_dt {F phys}.
Arguments i_half {F phys}. Arguments i_time {F phys}. Arguments i_iter {F phys}.
Arguments i_rec_period {F phys}. Arguments i_hist_period {F phys}.
Arguments i_last_rec {F phys}. Arguments i_last_hist {F phys}.
Arguments i_nhist {F phys}. Arguments i_hash {F phys}. Arguments i_limit {F phys}.
