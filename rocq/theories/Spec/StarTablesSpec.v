(** * What the file of a stellar model means (used by C79) *)
From Coq Require Import Reals List ZArith.
From Verif Require Import Base.Num Base.Result Model.Constants Model.Particle Spec.TablesSpec.
Import ListNotations.
Open Scope R_scope.

Definition fields := list (option R).
(** the number in a column, if there is one *)
Definition number (k : nat) (r : fields) : option R := match nth_error r k with Some o => o | None => None end.

(** the masses (in solar masses) each model has a file for, and how close to them the mass has to be *)
Definition nominal_masses (e : evolution R) : list R :=
  match e with
  | GalletBolmont2017 _ => [3/10; 4/10; 6/10; 7/10; 8/10; 9/10; 1; 11/10; 12/10; 14/10]
  | BolmontMathis2016 _ => [4/10; 5/10; 6/10; 7/10; 8/10; 9/10; 1; 11/10; 12/10; 13/10; 14/10; 15/10]
  | Leconte2011 _ => [10/1000; 12/1000; 15/1000; 20/1000; 30/1000; 40/1000; 50/1000; 60/1000; 70/1000; 72/1000; 75/1000; 80/1000]
  | Baraffe1998 _ => [1/10; 1]
  | Baraffe2015 _ => [10/1000; 15/1000; 20/1000; 30/1000; 40/1000; 50/1000; 60/1000; 70/1000; 72/1000; 75/1000; 80/1000;
                      9/100; 11/100; 13/100; 15/100; 17/100; 20/100; 30/100; 40/100; 50/100; 60/100; 70/100; 80/100; 90/100;
                      1; 11/10; 12/10; 13/10; 14/10]
  | LeconteChabrier2013 _ | NonEvolving => []
  end.
Definition star_mass (e : evolution R) : R :=
  match e with
  | GalletBolmont2017 m | BolmontMathis2016 m | Leconte2011 m | Baraffe1998 m | Baraffe2015 m => m
  | LeconteChabrier2013 _ | NonEvolving => 0
  end.
Definition close (e : evolution R) (nominal : R) : Prop :=
  let d := Rabs (star_mass e - nominal) in
  match e with
  | GalletBolmont2017 _ | BolmontMathis2016 _ => d <= 1/1000
  | Leconte2011 _ => d <= 1/10000
  | Baraffe1998 _ => d <= 1/10000000
  | Baraffe2015 _ => if Rle_dec nominal (8/100) then d <= 1/10000 else d < 1/10000000
  | LeconteChabrier2013 _ | NonEvolving => False
  end.
(** the [i]-th file is the one for this mass *)
Definition file_of (e : evolution R) (i : nat) : Prop :=
  match e with
  | LeconteChabrier2013 _ | NonEvolving => i = 0%nat
  | _ => exists nominal, nth_error (nominal_masses e) i = Some nominal /\ close e nominal
  end.

(** the age in years, the column of the radius and the length (in AU) of its unit *)
Definition age (e : evolution R) (x : R) : R := match e with GalletBolmont2017 _ => Rpower 10 x | _ => x end.
Definition radius_column (e : evolution R) : nat := match e with Baraffe2015 _ => 2 | GalletBolmont2017 _ => 3 | _ => 1 end.
Definition in_metres (e : evolution R) : bool :=
  match e with
  | LeconteChabrier2013 _ => true
  | Baraffe1998 m => if Rle_dec (Rabs (m - 1)) (1/10000000) then true else false
  | _ => false
  end.
(** the value of a quantity in a row *)
Definition entry (e : evolution R) (q : quantity) (r : fields) : option R :=
  match q, e with
  | QRadius, _ => option_map (fun x => if in_metres e then x / AU else x * R_SUN) (number (radius_column e) r)
  | QGyration, (LeconteChabrier2013 _ | Baraffe2015 _) => number 3 r
  | QLove, LeconteChabrier2013 _ => number 2 r
  | QInvQ, BolmontMathis2016 _ => number 2 r
  | QInvQ, GalletBolmont2017 _ => option_map (fun x => Rpower 10 (- x)) (number 10 r)
  | QInvQ, LeconteChabrier2013 true => number 5 r
  | _, _ => None
  end.

(** every quantity of the model can be read *)
Definition readable (e : evolution R) (r : fields) : Prop := forall q, tabulates e q = true -> entry e q r <> None.

(** days since the start of the simulation *)
Definition days (initial years : R) : R := years * (36525 / 100) - initial.
(** the rows with data: all of them, but the first if it does not start with an age *)
Definition data (rows : list fields) : list fields :=
  match rows with
  | [] => []
  | r :: l => match number 0 r with Some x => if Rlt_dec x 0 then l else rows | None => l end
  end.
(** the ages of the rows; a row after the first without a readable age counts as age -1 *)
Definition raw_age (r : fields) : R := match number 0 r with Some x => x | None => -1 end.

(** the rows of brown dwarfs within the times of the auxiliary file *)
Definition covered (aux_times : list R) (x : R) : bool :=
  if Rle_dec (nth 0 aux_times 0) x then (if Rle_dec x (nth (length aux_times - 1) aux_times 0) then true else false) else false.
