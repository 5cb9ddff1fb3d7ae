(** * When the iterations of an IAS15 step stop (C22) *)
From Coq Require Import ZArith List Bool Arith.
From Verif Require Import Base.Num Base.Result Base.Trans Base.Vec Model.Particle Model.Creep Model.Universe Model.WHFast Model.IAS15.
Import ListNotations.
Open Scope num_scope.

Section Any.
  Context {F : Type} `{Num F} `{Trans F} `{Floor F} `{Creep.Fuel}.
  (** [k] iterations, each through the seven nodes of the step *)
  Fixpoint sweeps (spin : bool) (t dt : F) (k : nat) (s : universe F * list (work (F := F))) : res (universe F * list (work (F := F))) :=
    match k with
    | O => Ok s
    | S k => do s <- rfold (node_step spin t dt) (seq 1 7) s; sweeps spin t dt k s
    end.
  (** the error after [k] iterations; [first] before any *)
  Definition error_after (spin : bool) (t dt first : F) (s : universe F * list (work (F := F))) (k : nat) : F :=
    match k with
    | O => first
    | S _ => match sweeps spin t dt k s with Ok s' => corrector_error spin (snd s') | Panic _ => n0 end
    end.
  (** the error is below the smallest relevant one, or no longer decreases after
      three iterations *)
  Definition settled (e : nat -> F) (k : nat) : Prop :=
    nltb (e k) (nlit 1%Z 10000000000000000%positive) = true \/ (3 <= k)%nat /\ nleb (e (pred k)) (e k) = true.
End Any.
