(** * Doubles as real numbers *)
From Coq Require Import Reals List Floats.SpecFloat Bool.
From Flocq Require Import Core.Core IEEE754.BinarySingleNaN.
From Verif Require Import Base.Num Model.IAS15.
Import ListNotations.
Open Scope R_scope.

(** the number a finite double stands for *)
Definition value (x : f64) : R := SF2R radix2 x.
(** a number that a double can hold, neither infinite nor NaN *)
Definition double (x : f64) : Prop := valid_binary prec64 emax64 x = true /\ is_finite_SF x = true.

(** ** A running total [p] with the part [c] lost so far, to which increments are added.
    [fits]: none of the differences and sums overflows. *)
Fixpoint fits (pc : f64 * f64) (l : list f64) : Prop :=
  match l with
  | [] => True
  | i :: l' => let y := f64_sub i (snd pc) in let p' := f64_add (fst pc) y in
      double i /\ double y /\ double p' /\ double (f64_sub p' (fst pc)) /\ double (f64_sub (f64_sub p' (fst pc)) y)
      /\ fits (add_cs (fst pc) (snd pc) i) l'
  end.
(** the sum of the sizes of the corrected increments *)
Fixpoint moved (pc : f64 * f64) (l : list f64) : R :=
  match l with
  | [] => 0
  | i :: l' => Rabs (value i - value (snd pc)) + moved (add_cs (fst pc) (snd pc) i) l'
  end.
Definition total (l : list f64) : R := fold_right (fun i s => value i + s) 0 l.
