(** * Physical constants (src/constants.rs:3-74) *)
From Coq Require Import ZArith.
From Verif Require Import Base.Num Base.Trans.

Definition MAX_PARTICLES : nat := 10.

Section Constants.
  Context {F : Type} `{Num F}.
  Local Open Scope num_scope.
  Definition MAX_DISTANCE : F := #100.
  Definition MAX_DISTANCE_2 : F := MAX_DISTANCE * MAX_DISTANCE.
  Definition HOUR : F := #3600.
  Definition DAY : F := #24 * HOUR.
  Definition M_SUN : F := #1981800000000000000000000000000.
  Definition G_SI : F := 667428//10000000000000000.
  Definition AU : F := #149597870700.
  Definition SPEED_OF_LIGHT : F := #299792458 / AU * DAY.
  Definition SPEED_OF_LIGHT_2 : F := SPEED_OF_LIGHT * SPEED_OF_LIGHT.
  Definition R_SUN : F := #695700000 / AU.
  Definition G_MERCURY : F := G_SI / (AU * AU * AU) * M_SUN * (DAY * DAY).
  Definition G : F := G_MERCURY.
  Definition K2 : F := G_MERCURY.
  Definition SUN_DYN_FREQ_2 : F := K2 / (R_SUN * R_SUN * R_SUN).
  Definition SMOOTHING_FACTOR : F := 1//100000 * #86400.
  Definition BOLTZMANN_SI : F := 1380649//100000000000000000000000000000.
  Definition MASS_HYDROGEN_SI : F := 1672162841//1000000000000000000000000000000000000.
  Definition BOLTZMANN : F := BOLTZMANN_SI / (M_SUN * AU * AU) * DAY * DAY.
  Definition MASS_HYDROGEN : F := MASS_HYDROGEN_SI / M_SUN.
  Definition DBL_EPSILON : F := 1//4503599627370496. (* 2^-52, the value the literal rounds to *)
  Definition DBL_EPSILON_2 : F := DBL_EPSILON * DBL_EPSILON.
End Constants.
