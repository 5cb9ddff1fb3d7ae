(** * Theorems on compensated summation in binary64 (property C24) *)
From Coq Require Import Reals List Floats.SpecFloat ZArith.
From Verif Require Import Base.Num Model.IAS15 Spec.Binary64Spec Proofs.Compensated.
Import ListNotations.
Open Scope R_scope.

(** ** C24 *)
(** the total less the part kept aside differs from the exact sum by three units in
    the 53rd place of the increments, whatever the size of the total *)
Theorem C24_binary64 (l : list f64) (p c : f64) : double p -> double c -> fits (p, c) l ->
  let r := add_all (p, c) l in
  double (fst r) /\ double (snd r) /\
  Rabs (value (fst r) - value (snd r) - (value p - value c + total l)) <= 3 / 2 ^ 53 * moved (p, c) l.
Proof. exact (fits_total l p c). Qed.
(** nothing at all is lost of an increment not larger than the total *)
Theorem C24_binary64_exact (p y : f64) : double p -> double y -> double (f64_add p y) -> Rabs (value y) <= Rabs (value p) ->
  let r := add_cs p (S754_zero false) y in value (fst r) - value (snd r) = value p + value y.
Proof. exact (added_exactly p y). Qed.
(** it would not be exact for a larger one *)
Theorem C24_binary64_exact_refuted : exists p i : f64, double p /\ double i /\ fits (p, S754_zero false) [i] /\
  let r := add_cs p (S754_zero false) i in value (fst r) - value (snd r) <> value p + value i.
Proof. exact large_lost. Qed.
Example C24_binary64_example :
  fits (d 1 0, d 0 0) crumbs /\ add_all (d 1 0, d 0 0) crumbs = (d (2 ^ 52 + 1) (-52), d 1 (-54)) /\
  fold_left f64_add crumbs (d 1 0) = d 1 0.
Proof. exact (conj crumbs_fit (conj crumbs_kept crumbs_lost)). Qed.

Print Assumptions C24_binary64.
Print Assumptions C24_binary64_exact.
Print Assumptions C24_binary64_exact_refuted.
