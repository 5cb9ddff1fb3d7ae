(** * Transcendental functions used by the code

    [f64::sin], [powf], ... are calls into the platform's libm.  The model takes
    them as operations of the class below.  There is an instance for the real
    numbers (the mathematical functions); statements about binary64 that involve
    them are quantified over every possible instance. *)
From Coq Require Import Reals ZArith SpecFloat.
From Verif Require Import Base.Num.

Class Trans (F : Type) := {
  tsin : F -> F; tcos : F -> F; ttan : F -> F; tatan : F -> F; tacos : F -> F;
  texp : F -> F; tln : F -> F; tsinh : F -> F; tcosh : F -> F;
  (** [f64::powf] *)
  tpow : F -> F -> F;
  (** [y.atan2(x)] *)
  tatan2 : F -> F -> F;
  tpi : F
}.

(** [powf] on the reals.  A negative base needs an integer exponent (the code's
    [f64] result is NaN otherwise), a zero base a positive one; theorems carry
    the guard where it matters. *)
Definition Rpowf (x y : R) : R :=
  if Rlt_dec 0 x then Rpower x y
  else if Req_EM_T y 0 then 1%R
  else if Req_EM_T x 0 then 0%R
  else if Req_EM_T y (IZR (Int_part y)) then powerRZ x (Int_part y)
  else 0%R.
Definition Ratan2 (y x : R) : R :=
  (if Rlt_dec 0 x then atan (y / x)
   else if Rlt_dec x 0 then (if Rle_dec 0 y then atan (y / x) + PI else atan (y / x) - PI)
   else if Rlt_dec 0 y then PI / 2
   else if Rlt_dec y 0 then - (PI / 2) else 0)%R.

(** [acos] is [PI] resp. [0] outside [-1,1] in the standard library (NaN in the
    code); theorems using it carry the guard. *)
#[global] Instance TransR : Trans R := {
  tsin := sin; tcos := cos; ttan := tan; tatan := atan; tacos := acos;
  texp := exp; tln := ln; tsinh := sinh; tcosh := cosh;
  tpow := Rpowf; tatan2 := Ratan2; tpi := PI
}.

(** [f64::floor] is exact, hence definable for both instances *)
Class Floor (F : Type) := { nfloor : F -> F }.
#[global] Instance FloorR : Floor R := { nfloor := fun x => IZR (Int_part x) }.
Definition f64_floor (x : f64) : f64 :=
  match x with
  | S754_finite s m e =>
      if (0 <=? e)%Z then x
      else let z := if s then Zneg m else Zpos m in
           let q := (z / 2 ^ (- e))%Z in
           if (q =? 0)%Z then S754_zero s else f64_of_Z q
  | _ => x
  end.
#[global] Instance FloorF64 : Floor f64 := { nfloor := f64_floor }.
