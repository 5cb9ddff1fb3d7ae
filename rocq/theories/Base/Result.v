(** * Results of functions that may panic

    A Rust [panic!] unwinds and ends the process; it is modelled as the value
    [Panic k], where [k] names the panic. *)
Inductive panic :=
| PRocheLimit (i j : nat)      (** "Particle i was destroyed by particle j ..." *)
| PCollision (i j : nat)       (** "Collision between particle i and j!" *)
| PEjected (j : nat)           (** "Particle j has been ejected!" *)
| PSplit                       (** [split_at_mut] past the end / index out of range *)
| PTwoCentral                  (** "Only one central body is allowed ..." *)
| PGrHost                      (** "The central body for General Relativity should be the most massive one!" *)
| PHostsDiffer                 (** "The central body for tidal & rotational flattening effects needs to be the same!" *)
| PTooMany                     (** "Only 10 bodies are allowed ..." *)
| PZeroInertia (i : nat)       (** "Moment of inertia for particle i is zero!" *)
| PNoTermination                (** an unbounded loop that has not stopped within the model's fuel *)
| POther.

Inductive res (A : Type) := Ok (a : A) | Panic (k : panic).
Arguments Ok {A} a.
Arguments Panic {A} k.

Definition rbind {A B} (x : res A) (f : A -> res B) : res B :=
  match x with Ok a => f a | Panic k => Panic k end.
Notation "'do' x <- m ; f" := (rbind m (fun x => f))
  (at level 61, x pattern, m at next level, right associativity).

(** left-to-right traversal, stopping at the first panic *)
Fixpoint rmap {A B} (f : A -> res B) (l : list A) : res (list B) :=
  match l with
  | nil => Ok nil
  | cons a l => do b <- f a; do bs <- rmap f l; Ok (cons b bs)
  end.
Fixpoint rfold {A B} (f : B -> A -> res B) (l : list A) (b : B) : res B :=
  match l with
  | nil => Ok b
  | cons a l => do b' <- f b a; rfold f l b'
  end.
Definition is_ok {A} (x : res A) : bool := match x with Ok _ => true | Panic _ => false end.
