(** * Uninterrupted runs: the reference against which resumed runs are compared *)
From Coq Require Import List NArith ZArith.
From Verif Require Import Base.Num Model.History Model.Run Model.Machine Model.Cli.
Import ListNotations.

Section RunSpec.
  Context {S : Type} (iterate : S -> S * list byte * outcome).

  (** [completes s h]: started from [s] and never interrupted, the program stops
      with "Simulation completed" and has written exactly the bytes [h] *)
  Inductive completes : S -> list byte -> Prop :=
  | completes_now s s' out :
      iterate s = (s', out, Completed) -> completes s out
  | completes_later s s' out trig h :
      iterate s = (s', out, Ok trig) -> completes s' h -> completes s (out ++ h).

  (** [runs n s h s']: [n] uninterrupted iterations that do not complete the
      simulation lead from [s] to [s'] and write [h] *)
  Inductive runs : nat -> S -> list byte -> S -> Prop :=
  | runs_0 s : runs 0 s [] s
  | runs_S n s h s1 s2 out trig :
      runs n s h s1 -> iterate s1 = (s2, out, Ok trig) ->
      runs (Datatypes.S n) s (h ++ out) s2.
End RunSpec.

(** Two integrator states are the same simulation if they agree on everything
    but the two bookkeeping fields of recovery snapshots (time of the last
    recovery snapshot, hash). *)
Section Eqv.
  Context {F : Type} `{Num F} (phys : Type).
  Definition erase (s : integ (F:=F) phys) : integ (F:=F) phys :=
    mkInteg (i_kind s) (i_phys s) (i_dt s) (i_half s) (i_time s) (i_iter s)
      (i_rec_period s) (i_hist_period s) n0 (i_last_hist s) (i_nhist s) 0 (i_limit s).
  Definition eqv (a b : integ (F:=F) phys) : Prop := erase a = erase b.
End Eqv.

(** an internal step of the running process: neither a crash nor a command of the user *)
Definition tau (l : label) : bool := match l with LTau => true | _ => false end.
Definition is_resume (l : label) : bool := match l with LResume _ => true | _ => false end.

(** the number denoted by the text of a command line option *)
Definition value_of {F} `{Num F} (r : raw (F:=F)) : F :=
  match r with RInt n => nlit (Z.of_N n) 1 | RDec x => x end.

(** the state with only the time limit, or only the two periods, replaced *)
Definition with_limit {F phys} (s : integ (F:=F) phys) (l : F) : integ (F:=F) phys :=
  mkInteg (i_kind s) (i_phys s) (i_dt s) (i_half s) (i_time s) (i_iter s)
    (i_rec_period s) (i_hist_period s) (i_last_rec s) (i_last_hist s)
    (i_nhist s) (i_hash s) l.
Definition with_periods {F phys} (s : integ (F:=F) phys) (hist rec : F) : integ (F:=F) phys :=
  mkInteg (i_kind s) (i_phys s) (i_dt s) (i_half s) (i_time s) (i_iter s)
    rec hist (i_last_rec s) (i_last_hist s) (i_nhist s) (i_hash s) (i_limit s).
