(** * Sampling and stopping of fixed-step runs, as the user understands them *)
From Coq Require Import Reals NArith.
From Verif Require Import Base.Num Model.Run.
Open Scope R_scope.

(** a record is due at step [n] (time [n dt]): the very first step, or the first
    step at or after some multiple [k P], [k >= 1], of the history period *)
Definition sample_due (dt P : R) (n : nat) : Prop :=
  n = 0%nat \/ exists k, (1 <= k)%nat /\ (INR n - 1) * dt < INR k * P <= INR n * dt.

(** a LeapFrog or WHFast state whose half step is half of its positive step *)
Definition fixed_step {phys} (s : integ (F:=R) phys) : Prop :=
  i_kind s <> KIas15 /\ i_half s = i_dt s / 2 /\ 0 < i_dt s.

(** a state that has not run yet *)
Definition fresh {phys} (s : integ (F:=R) phys) : Prop :=
  i_time s = 0 /\ i_last_hist s = -1 /\ i_last_rec s = -1 /\ i_nhist s = 0%N.

(** no iteration has been executed yet *)
Definition first_pending {phys} (s : integ (F:=R) phys) : Prop := i_last_hist s < 0.
