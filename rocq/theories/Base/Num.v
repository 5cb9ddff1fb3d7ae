(** * The arithmetic interface of the model

    The Rust code computes with [f64].  Every numerical function of the model is
    written once, against the record of operations below, and is used at two
    instances:
    - the real numbers (exact arithmetic, for algebraic laws);
    - IEEE-754 binary64 as defined by the standard library's [SpecFloat] (an
      executable definition with rounding, signed zeros, infinities and NaN).
    The class contains operations only, no laws. *)
From Coq Require Import ZArith Reals SpecFloat Bool.

Class Num (F : Type) := {
  n0 : F; n1 : F;
  nadd : F -> F -> F; nsub : F -> F -> F; nmul : F -> F -> F; ndiv : F -> F -> F;
  nopp : F -> F; nabs : F -> F; nsqrt : F -> F;
  nltb : F -> F -> bool; nleb : F -> F -> bool; neqb : F -> F -> bool;
  (** decimal literals, written as a quotient of two integers *)
  nlit : Z -> positive -> F;
  (** [f64::is_normal] *)
  nnormal : F -> bool
}.

Declare Scope num_scope.
Delimit Scope num_scope with num.
Infix "+" := nadd : num_scope.
Infix "-" := nsub : num_scope.
Infix "*" := nmul : num_scope.
Infix "/" := ndiv : num_scope.
Notation "- x" := (nopp x) : num_scope.
Infix "<?" := nltb : num_scope.
Infix "<=?" := nleb : num_scope.
Infix "=?" := neqb : num_scope.
(** [x > y] and [x >= y] are the mirrored comparisons (as in IEEE) *)
Notation "x >? y" := (nltb y x) (at level 70, no associativity) : num_scope.
Notation "x >=? y" := (nleb y x) (at level 70, no associativity) : num_scope.
Notation "# z" := (nlit z 1) (at level 1, z at level 0, format "# z") : num_scope.
Notation "z // p" := (nlit z p) (at level 40, format "z // p") : num_scope.

Section Derived.
  Context {F : Type} `{Num F}.
  Local Open Scope num_scope.
  (** [f64::powi] with a literal positive exponent: repeated multiplication.
      (Rust leaves the association unspecified; over R it does not matter, and
      the binary64 statements of this development do not depend on it.) *)
  Fixpoint npow (x : F) (n : nat) : F :=
    match n with O => n1 | S O => x | S m => npow x m * x end.
  Definition nsum (l : list F) : F := List.fold_left nadd l n0.
  (** [f64::max]/[f64::min] on non-NaN arguments *)
  Definition nmax (x y : F) : F := if x <? y then y else x.
  Definition nmin (x y : F) : F := if y <? x then y else x.
  Definition ngtb (x y : F) : bool := y <? x.
End Derived.

(** ** Instance: real numbers *)
Definition Rltb (x y : R) : bool := if Rlt_dec x y then true else false.
Definition Rleb (x y : R) : bool := if Rle_dec x y then true else false.
Definition Reqb (x y : R) : bool := if Req_EM_T x y then true else false.

#[global] Instance NumR : Num R := {
  n0 := 0%R; n1 := 1%R;
  nadd := Rplus; nsub := Rminus; nmul := Rmult; ndiv := Rdiv;
  nopp := Ropp; nabs := Rabs; nsqrt := sqrt;
  nltb := Rltb; nleb := Rleb; neqb := Reqb;
  nlit := fun z p => (IZR z / IZR (Zpos p))%R;
  (* exact arithmetic has neither subnormals nor infinities nor NaN *)
  nnormal := fun x => negb (Reqb x 0)
}.

(** ** Instance: IEEE-754 binary64 *)
Definition prec64 : Z := 53.
Definition emax64 : Z := 1024.
Definition f64 := spec_float.
Definition f64_of_Z (z : Z) : f64 := binary_normalize prec64 emax64 z 0 false.
Definition f64_add := SFadd prec64 emax64.
Definition f64_sub := SFsub prec64 emax64.
Definition f64_mul := SFmul prec64 emax64.
Definition f64_div := SFdiv prec64 emax64.
Definition f64_sqrt := SFsqrt prec64 emax64.
Definition f64_is_nan (x : f64) : bool := match x with S754_nan => true | _ => false end.
(** normal: finite, non-zero, with a full 53-bit significand *)
Definition f64_is_normal (x : f64) : bool :=
  match x with
  | S754_finite _ m _ => Zpos m >=? 2 ^ 52
  | _ => false
  end%Z.

(** the binary64 number nearest to [z / p]: the division of the standard library
    takes significands of any size, so that there is a single rounding *)
Definition f64_quotient (z : Z) (p : positive) : f64 :=
  match z with
  | Z0 => S754_zero false
  | Zpos m => f64_div (S754_finite false m 0) (S754_finite false p 0)
  | Zneg m => f64_div (S754_finite true m 0) (S754_finite false p 0)
  end.

#[global] Instance NumF64 : Num f64 := {
  n0 := S754_zero false; n1 := f64_of_Z 1;
  nadd := f64_add; nsub := f64_sub; nmul := f64_mul; ndiv := f64_div;
  nopp := SFopp; nabs := SFabs; nsqrt := f64_sqrt;
  nltb := SFltb; nleb := SFleb; neqb := SFeqb;
  nlit := fun z p => match p with
                     | xH => f64_of_Z z
                     | _ => f64_quotient z p end;
  nnormal := f64_is_normal
}.
