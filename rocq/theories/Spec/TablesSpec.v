(** * What interpolating a table means (used by C33, C41, C45) *)
From Coq Require Import Reals List.
Import ListNotations.
Open Scope R_scope.

(** strictly increasing *)
Definition increasing (xs : list R) : Prop :=
  forall i j, (i < j < length xs)%nat -> nth i xs 0 < nth j xs 0.

(** a usable table: abscissae increasing, one ordinate each, at least one row *)
Definition table (xs ys : list R) : Prop :=
  xs <> [] /\ length ys = length xs /\ increasing xs.

(** [v] is the value at [t] of the piecewise linear function through the points
    of the table, constant outside of it *)
Definition interpolates (xs ys : list R) (t v : R) : Prop :=
  let n := length xs in
  (t < nth 0 xs 0 -> v = nth 0 ys 0) /\
  (nth (n - 1) xs 0 <= t -> v = nth (n - 1) ys 0) /\
  (forall i, (S i < n)%nat -> nth i xs 0 <= t < nth (S i) xs 0 ->
     v = nth i ys 0 + (nth (S i) ys 0 - nth i ys 0)
                      * ((t - nth i xs 0) / (nth (S i) xs 0 - nth i xs 0))).

(** times never go back *)
Fixpoint nondecreasing (ts : list R) : Prop :=
  match ts with
  | a :: ((b :: _) as l) => a <= b /\ nondecreasing l
  | _ => True
  end.

(** ** Requests to an evolving body's table *)
From Verif Require Import Base.Num Base.Result Model.Particle Model.Interp.

Inductive quantity := QRadius | QGyration | QLove | QInvQ.

(** which quantities each evolution model tabulates *)
Definition tabulates (ev : evolution R) (q : quantity) : bool :=
  match ev, q with
  | NonEvolving, _ => false
  | _, QRadius => true
  | (Baraffe2015 _ | Leconte2011 _ | LeconteChabrier2013 _), QGyration => true
  | LeconteChabrier2013 _, QLove => true
  | (BolmontMathis2016 _ | GalletBolmont2017 _ | LeconteChabrier2013 true), QInvQ => true
  | _, _ => false
  end.
Definition column (e : evolver R) (q : quantity) : list R :=
  match q with
  | QRadius => ev_radius e | QGyration => ev_rg2 e | QLove => ev_love e | QInvQ => ev_invq e
  end.

(** the program's accessors, by quantity *)
Definition get (e : evolver R) (q : quantity) (t current : R) : res (R * evolver R) :=
  match q with
  | QRadius => evolver_radius e t current
  | QGyration => evolver_rg2 e t current
  | QLove => evolver_love e t current
  | QInvQ => evolver_invq e t current
  end.

(** a sequence of requests (quantity, time, value currently held) *)
Fixpoint get_all (e : evolver R) (reqs : list (quantity * R * R)) : res (list R) :=
  match reqs with
  | [] => Ok []
  | (q, t, current) :: reqs =>
      match get e q t current with
      | Panic k => Panic k
      | Ok (v, e') => match get_all e' reqs with Panic k => Panic k | Ok vs => Ok (v :: vs) end
      end
  end.

(** the answer the user expects *)
Definition expected (e : evolver R) (req : quantity * R * R) (v : R) : Prop :=
  let '(q, t, current) := req in
  if tabulates (ev_type e) q then interpolates (ev_time e) (column e q) t v else v = current.

(** every tabulated column is a usable table *)
Definition well_tabulated (e : evolver R) : Prop :=
  forall q, tabulates (ev_type e) q = true -> table (ev_time e) (column e q).
