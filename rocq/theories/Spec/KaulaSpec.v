(** * What the Kaula expansions are expected to be (C31-C33, C56-C58) *)
From Coq Require Import Reals List.
Import ListNotations.
Open Scope R_scope.

(** ** Spherical harmonics of degree 2 and 3
    [legendre l m z] is the m-th derivative of the Legendre polynomial of degree
    [l]; the associated function is [P_lm(sin phi) = cos^m phi * legendre l m (sin phi)]. *)
Definition legendre (l m : nat) (z : R) : R :=
  match l, m with
  | 2%nat, 0%nat => (3 * z ^ 2 - 1) / 2
  | 2%nat, 1%nat => 3 * z
  | 2%nat, 2%nat => 3
  | 3%nat, 0%nat => (5 * z ^ 3 - 3 * z) / 2
  | 3%nat, 1%nat => (15 * z ^ 2 - 3) / 2
  | 3%nat, 2%nat => 15 * z
  | 3%nat, 3%nat => 15
  | _, _ => 0
  end.

(** the direction of a body at argument of latitude [u] on an orbit of
    inclination [i], measured from the ascending node *)
Definition direction (i u : R) : R * R * R := (cos u, cos i * sin u, sin i * sin u).

(** real and imaginary part of the m-th power of [x + i y] *)
Fixpoint power (x y : R) (m : nat) : R * R :=
  match m with
  | O => (1, 0)
  | S m => let '(a, b) := power x y m in (x * a - y * b, x * b + y * a)
  end.

(** [P_lm(sin phi) e^(i m alpha)] in the direction of the body *)
Definition harmonic (l m : nat) (i u : R) : R * R :=
  let '(x, y, z) := direction i u in
  let '(a, b) := power x y m in
  (legendre l m z * a, legendre l m z * b).

(** sums over the index of a list *)
Fixpoint series (f : nat -> R -> R) (k : nat) (l : list R) : R :=
  match l with [] => 0 | x :: l => f k x + series f (S k) l end.

(** Kaula's definition of the inclination functions F_lmp:
    [P_lm e^(i m alpha) = sum_p F_lmp e^(i (l-2p) u)], times [-i] when [l - m] is odd *)
Definition expands (l m : nat) (F : list R) (i u : R) : Prop :=
  let c := series (fun p f => f * cos ((INR l - 2 * INR p) * u)) 0 F in
  let s := series (fun p f => f * sin ((INR l - 2 * INR p) * u)) 0 F in
  length F = S l /\
  harmonic l m i u = if Nat.even (l - m) then (c, s) else (s, - c).

(** the functions of degree 3 that satisfy the definition (Kaula 1961, table 1) *)
Definition right_f_3 (m : nat) (i : R) : list R :=
  let s := sin i in let c := cos i in
  match m with
  | O => [ - (5/16) * s ^ 3; 15/16 * s ^ 3 - 3/4 * s; - (15/16) * s ^ 3 + 3/4 * s; 5/16 * s ^ 3 ]
  | 1%nat => [ - (15/16) * s ^ 2 * (1 + c); 15/16 * s ^ 2 * (1 + 3 * c) - 3/4 * (1 + c);
          15/16 * s ^ 2 * (1 - 3 * c) - 3/4 * (1 - c); - (15/16) * s ^ 2 * (1 - c) ]
  | 2%nat => [ 15/8 * s * (1 + c) ^ 2; 15/8 * s * (1 - 2 * c - 3 * c ^ 2);
          - (15/8) * s * (1 + 2 * c - 3 * c ^ 2); - (15/8) * s * (1 - c) ^ 2 ]
  | _ => [ 15/8 * (1 + c) ^ 3; 45/8 * s ^ 2 * (1 + c); 45/8 * s ^ 2 * (1 - c); 15/8 * (1 - c) ^ 3 ]
  end.

(** ** Eccentricity functions
    [(a/r)^(l+1) e^(i (l-2p) f) = sum_q G_lpq e^(i (l-2p+q) M)]: at pericentre the
    functions add up to [(1-e)^-(l+1)], at apocentre, with alternating signs, to
    [(1+e)^-(l+1)]; the middle one of the fifteen is [q = 0]. *)
Definition total (G : list R) : R := series (fun _ g => g) 0 G.
Definition alternating (G : list R) : R := series (fun q g => (-1) ^ S q * g) 0 G.
Definition same_to_order (n : nat) (f g : R -> R) : Prop :=
  exists C, forall e, 0 < e <= 1 / 2 -> Rabs (f e - g e) <= C * e ^ n.
Definition at_pericentre (l : nat) (G : R -> list R) : Prop :=
  same_to_order 8 (fun e => total (G e)) (fun e => / (1 - e) ^ S l).
Definition at_apocentre (l : nat) (G : R -> list R) : Prop :=
  same_to_order 8 (fun e => alternating (G e)) (fun e => / (1 + e) ^ S l).

(** ** Limits for small eccentricity *)
Definition tends (f : R -> R) (L : R) : Prop :=
  forall eps, 0 < eps -> exists d, 0 < d /\ forall e, 0 < e < d -> Rabs (f e - L) < eps.
