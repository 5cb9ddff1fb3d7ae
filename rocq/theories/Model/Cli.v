(** * The options of [posidonius resume] (src/main.rs:33-80, 104-115)

    Value parsing and typed retrieval of clap 4: an option value is parsed with
    its declared [value_parser]; [get_one::<T>] on an option that was supplied
    panics unless [T] is the declared type (clap_builder's
    [MatchesError::Downcast]); on an option that was not supplied it returns
    [None]. *)
From Coq Require Import NArith ZArith List.
From Verif Require Import Base.Num Model.Run.
Import ListNotations.

Section Cli.
  Context {F : Type} `{Num F}.
  Local Open Scope num_scope.

  (** text of an option value: an unsigned integer, or a decimal number *)
  Inductive raw := RInt (n : N) | RDec (x : F).
  Inductive parsed := PU64 (n : N) | PF64 (x : F).
  Inductive cli_type := TU64 | TF64.

  Inductive cli (A : Type) :=
  | CliOk (a : A)
  | CliUsage                 (* rejected by the parser with a usage message *)
  | CliPanic.                (* the program panics *)
  Arguments CliOk {A}. Arguments CliUsage {A}. Arguments CliPanic {A}.

  Definition cli_bind {A B} (c : cli A) (f : A -> cli B) : cli B :=
    match c with CliOk a => f a | CliUsage => CliUsage | CliPanic => CliPanic end.

  (** [value_parser!(u64)] and [value_parser!(f64)] *)
  Definition parse_value (t : cli_type) (r : raw) : cli parsed :=
    match t, r with
    | TU64, RInt n => CliOk (PU64 n)
    | TU64, RDec _ => CliUsage
    | TF64, RInt n => CliOk (PF64 #(Z.of_N n))
    | TF64, RDec x => CliOk (PF64 x)
    end.
  Definition parse_opt (t : cli_type) (o : option raw) : cli (option parsed) :=
    match o with
    | None => CliOk None
    | Some r => cli_bind (parse_value t r) (fun p => CliOk (Some p))
    end.

  Definition get_one_u64 (o : option parsed) : cli (option N) :=
    match o with
    | None => CliOk None
    | Some (PU64 n) => CliOk (Some n)
    | Some (PF64 _) => CliPanic
    end.
  Definition get_one_f64 (o : option parsed) : cli (option F) :=
    match o with
    | None => CliOk None
    | Some (PF64 x) => CliOk (Some x)
    | Some (PU64 _) => CliPanic
    end.

  (** the command line of [resume], file names and [--silent] omitted *)
  Record resume_args := {
    a_limit : option raw;            (* --limit *)
    a_hist_period : option raw;      (* --historic-snapshot-period *)
    a_rec_period : option raw;       (* --recovery-snapshot-period *)
    a_time_limit : option raw }.     (* --time-limit *)

  Record resume_settings := {
    r_hist_period : F; r_rec_period : F; r_time_limit : F; r_limit : N }.

  (** main.rs:47-76 (declared types) and main.rs:111-114 (types read) *)
  Definition resume_cli (a : resume_args) : cli resume_settings :=
    cli_bind (parse_opt TU64 (a_limit a)) (fun limit =>
    cli_bind (parse_opt TF64 (a_hist_period a)) (fun hist =>
    cli_bind (parse_opt TF64 (a_rec_period a)) (fun rec =>
    cli_bind (parse_opt TU64 (a_time_limit a)) (fun time =>
    cli_bind (get_one_f64 hist) (fun hist =>
    cli_bind (get_one_f64 rec) (fun rec =>
    cli_bind (get_one_f64 time) (fun time =>
    cli_bind (get_one_u64 limit) (fun limit =>
    let dflt (o : option F) := match o with Some x => x | None => - n1 end in
    CliOk {| r_hist_period := dflt hist; r_rec_period := dflt rec; r_time_limit := dflt time;
             r_limit := match limit with Some n => n | None => 0%N end |})))))))).
End Cli.
Arguments CliOk {A}. Arguments CliUsage {A}. Arguments CliPanic {A}.
