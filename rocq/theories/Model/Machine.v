(** * The whole program: command line entry points, main loop, files, crashes

    A small-step machine over (process state, disk).  A crash (SIGKILL, power
    loss) may happen between any two steps; the only volatile data are the
    integrator state and the bytes still in the history [BufWriter].  Physical
    loss of already written file data (missing fsync) is not modelled. *)
From Coq Require Import List ZArith NArith Bool.
From Verif Require Import Base.Num Model.History Model.Run.
Import ListNotations.

(** ** Files *)

(** [Path::extension() == "json"] or not (output.rs:46,186).  Paths without an
    extension (panic at output.rs:46) are not modelled. *)
Inductive ext := Json | Bin.
Definition ext_eqb (a b : ext) : bool :=
  match a, b with Json, Json | Bin, Bin => true | _, _ => false end.

(** a snapshot path: base name plus the list of time stamps inserted by successive
    [with_extension("<stamp>.bin")] calls (output.rs:39-40) *)
Record path := mkPath { p_base : N; p_stamps : list N; p_ext : ext }.
Definition path_eq_dec (p q : path) : {p = q} + {p <> q}.
Proof. repeat decide equality. Defined.
Definition path_eqb (p q : path) : bool := if path_eq_dec p q then true else false.

(** output.rs:39-40: the backup name; the stamp is the half-day of the clock *)
Definition backup (p : path) (stamp : N) : path :=
  mkPath (p_base p) (p_stamps p ++ [stamp]) Bin.

Section Machine.
  Context {F : Type} `{Num F}.
  Local Open Scope num_scope.
  Variable phys : Type.
  Variable n_particles : nat.
  Variable record_of : phys -> F -> F -> nat -> hrecord.
  Variable observe : phys -> F -> phys.
  Variable lf_advance : phys -> F -> F -> F -> phys.
  Variable wh_advance : phys -> F -> F -> phys.
  Variable ias_advance : phys -> F -> F -> phys * F * F.
  Variable init_phys : phys -> phys.
  Variable evolution_on : phys -> bool.
  Variable table_ends : phys -> list F.
  Variable hash_of : integ (F:=F) phys -> N.
  (** what comes back when a JSON snapshot of a state is parsed again
      ([None]: parse error, e.g. a NaN was written as [null]); serde_json itself
      is not modelled *)
  Variable json_roundtrip : integ (F:=F) phys -> option (integ (F:=F) phys).

  Notation state := (integ (F:=F) phys).
  Notation iterate := (iterate phys n_particles record_of observe lf_advance wh_advance ias_advance).
  Notation set_time_limit := (set_time_limit phys evolution_on table_ends).
  Notation set_snapshot_periods := (set_snapshot_periods phys).
  Notation after_restore := (after_restore phys init_phys).
  Notation mark_recovery := (mark_recovery phys hash_of).

  (** content of a snapshot file: an incomplete serialization, or a complete one *)
  Inductive content := Partial | Complete (format : ext) (s : state).

  Record disk := mkDisk {
    d_files : path -> option content;
    d_hist : option (list byte) }.

  Definition upd (f : path -> option content) (p : path) (c : option content) : path -> option content :=
    fun q => if path_eqb q p then c else f q.

  (** ** [restore_snapshot] (output.rs:178-203) followed by
      [set_snapshot_periods(-1,-1)] and [set_time_limit(-1)]
      (main.rs:99-101,111-113,135-136: no option given).  [None]: the program
      panics or reports an error and exits.  A file whose extension does not
      match its content fails to parse: JSON text decoded by bincode yields an
      invalid enum tag at [particles[0].reference], and bincode bytes are not
      JSON. *)
  Definition load (f : path -> option content) (p : path) : option state :=
    match f p with
    | Some (Complete fmt s) =>
      match p_ext p, fmt with
      | Bin, Bin => Some s
      | Json, Json => json_roundtrip s
      | _, _ => None
      end
    | _ => None
    end.
  Definition boot (s : state) : option state :=
    set_time_limit (set_snapshot_periods (after_restore s) (- n1) (- n1)) (- n1).

  (** main.rs:139-141 *)
  Definition expected_n_bytes (s : state) : N :=
    (i_nhist s * N.of_nat n_bytes_per_particle * N.of_nat n_particles)%N.

  (** [get_universe_history_writer] (output.rs:63-89): returns the disk
      afterwards and whether it succeeded *)
  Definition open_history (d : disk) (expected : N) : disk * bool :=
    let h := match d_hist d with Some h => h | None => [] end in
    if (N.of_nat (length h) <? expected)%N
    then (mkDisk (d_files d) (Some h), false)
    else (mkDisk (d_files d) (Some (firstn (N.to_nat expected) h)), true).

  (** ** Process state *)
  Inductive pcounter :=
  | PLoop                       (* about to call [iterate] *)
  | PSave (exit_after : bool)   (* about to call [write_recovery_snapshot] *)
  | PRename (exit_after : bool) (* history flushed; about to move the old snapshot away *)
  | PCreate (exit_after : bool)
  | PWrite (exit_after : bool).

  Inductive mstate :=
  | Up (p : path)               (* snapshot path of this process *)
       (limited : bool)         (* --limit given (non zero) *)
       (s : state)
       (pending : list byte)    (* bytes in the BufWriter, not yet in the file *)
       (pc : pcounter) (d : disk)
  | Down (d : disk)             (* no process: crashed, exited at the limit, or refused to start *)
  | Finished (d : disk).        (* "Simulation completed" *)

  Definition disk_of (m : mstate) : disk :=
    match m with Up _ _ _ _ _ d => d | Down d => d | Finished d => d end.

  Definition append_hist (d : disk) (bs : list byte) : disk :=
    mkDisk (d_files d) (Some (match d_hist d with Some h => h | None => [] end ++ bs)).

  (** [posidonius start case snapshot history] (main.rs:93-150).  [Down d']:
      the program refused, leaving the disk [d']. *)
  Definition start (case p : path) (limited : bool) (d : disk) : mstate :=
    match load (d_files d) case with
    | None => Down d
    | Some s0 =>
      match boot s0 with
      | None => Down d
      | Some s =>
        match d_files d p, d_hist d with
        | Some _, _ => Down d                (* main.rs:144-145 *)
        | _, Some _ => Down d                (* main.rs:146-147 *)
        | None, None =>
          let '(d', ok) := open_history d (expected_n_bytes s) in
          if ok then Up p limited s [] PLoop d' else Down d'
        end
      end
    end.

  (** [posidonius resume snapshot history] (main.rs:104-115,124-150) *)
  Definition resume (p : path) (limited : bool) (d : disk) : mstate :=
    match load (d_files d) p with
    | None => Down d
    | Some s0 =>
      match boot s0 with
      | None => Down d
      | Some s =>
        let '(d', ok) := open_history d (expected_n_bytes s) in
        if ok then Up p limited s [] PLoop d' else Down d'
      end
    end.

  Inductive label := LTau | LCrash | LResume (p : path).

  Inductive step : label -> mstate -> mstate -> Prop :=
  (* the BufWriter may write out part of its buffer at any time *)
  | st_spill p lim s a b pc d :
      step LTau (Up p lim s (a ++ b) pc d) (Up p lim s b pc (append_hist d a))
  (* main.rs:159,174: completed; the BufWriter is flushed when main returns *)
  | st_complete p lim s pend d s' out :
      iterate s = (s', out, Completed) ->
      step LTau (Up p lim s pend PLoop d) (Finished (append_hist d (pend ++ out)))
  (* main.rs:160-163: limit given and not yet reached *)
  | st_iter_limited p s pend d s' out trig :
      iterate s = (s', out, Ok trig) ->
      step LTau (Up p true s pend PLoop d) (Up p true s' (pend ++ out) PLoop d)
  (* main.rs:163-167: limit given and reached *)
  | st_iter_limit_reached p s pend d s' out trig :
      iterate s = (s', out, Ok trig) ->
      step LTau (Up p true s pend PLoop d) (Up p true s' (pend ++ out) (PSave true) d)
  (* main.rs:169-172: no limit *)
  | st_iter p s pend d s' out trig :
      iterate s = (s', out, Ok trig) ->
      step LTau (Up p false s pend PLoop d)
           (Up p false s' (pend ++ out) (if trig then PSave false else PLoop) d)
  (* leapfrog.rs:218-224: mark, flush *)
  | st_save p lim s pend ex d :
      step LTau (Up p lim s pend (PSave ex) d)
           (Up p lim (mark_recovery s) [] (PRename ex) (append_hist d pend))
  (* output.rs:35-41 *)
  | st_rename p lim s pend ex d stamp c :
      d_files d p = Some c ->
      step LTau (Up p lim s pend (PRename ex) d)
           (Up p lim s pend (PCreate ex)
              (mkDisk (upd (upd (d_files d) (backup p stamp) (Some c)) p None) (d_hist d)))
  | st_no_rename p lim s pend ex d :
      d_files d p = None ->
      step LTau (Up p lim s pend (PRename ex) d) (Up p lim s pend (PCreate ex) d)
  (* output.rs:44 *)
  | st_create p lim s pend ex d :
      step LTau (Up p lim s pend (PCreate ex) d)
           (Up p lim s pend (PWrite ex) (mkDisk (upd (d_files d) p (Some Partial)) (d_hist d)))
  (* output.rs:46-54: all bytes written *)
  | st_write p lim s pend (ex : bool) d :
      step LTau (Up p lim s pend (PWrite ex) d)
           (let d' := mkDisk (upd (d_files d) p (Some (Complete (p_ext p) s))) (d_hist d) in
            if ex then Down (append_hist d' pend) else Up p lim s pend PLoop d')
  (* the process dies; the buffer is lost *)
  | st_crash p lim s pend pc d : step LCrash (Up p lim s pend pc d) (Down d)
  (* the user resumes from any file, with or without limit *)
  | st_resume q lim d : step (LResume q) (Down d) (resume q lim d)
  | st_resume_finished q lim d : step (LResume q) (Finished d) (resume q lim d).

  Inductive steps : list label -> mstate -> mstate -> Prop :=
  | steps_refl m : steps [] m m
  | steps_snoc ls l m m1 m2 : steps ls m m1 -> step l m1 m2 -> steps (ls ++ [l]) m m2.

  Definition initial_disk (case : path) (fmt : ext) (s : state) : disk :=
    mkDisk (fun q => if path_eqb q case then Some (Complete fmt s) else None) None.
End Machine.

Arguments mkDisk {F phys}. Arguments d_files {F phys}. Arguments d_hist {F phys}.
Arguments Partial {F phys}. Arguments Complete {F phys}.
Arguments upd {F phys}. Arguments append_hist {F phys}. Arguments disk_of {F phys}.
Arguments Up {F phys}. Arguments Down {F phys}. Arguments Finished {F phys}.
