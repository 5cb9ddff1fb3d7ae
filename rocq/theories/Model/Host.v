(** * Splitting the bodies around a host

    [particles.split_at_mut(h)] followed by [split_first_mut] gives the host and
    the two slices around it; every effect then walks
    [left.iter_mut().chain(right.iter_mut())].  The model works on the host and
    the concatenation [left ++ right], and puts the host back afterwards. *)
From Coq Require Import List Arith.
From Verif Require Import Base.Result.
Import ListNotations.

Section Host.
  Context {A : Type}.
  (** left ++ right *)
  Definition others (h : nat) (l : list A) : list A := firstn h l ++ skipn (S h) l.
  Definition reassemble (h : nat) (host : A) (o : list A) : list A :=
    firstn h o ++ host :: skipn h o.
  (** [split_at_mut] panics past the end; at the end [split_first_mut] is [None]
      and nothing happens *)
  Definition with_host (h : nat) (l : list A)
      (f : A -> list A -> res (A * list A)) : res (list A) :=
    if h <=? length l then
      match nth_error l h with
      | Some host => do r <- f host (others h l); Ok (reassemble h (fst r) (snd r))
      | None => Ok l
      end
    else Panic PSplit.
End Host.
