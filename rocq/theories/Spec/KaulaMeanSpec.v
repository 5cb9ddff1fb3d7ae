(** * Mean values over the angles of an orbit (C69) *)
From Coq Require Import Reals List Arith.
From Verif Require Import Base.Num Base.Trans Base.Vec Model.Constants Model.Particle Model.Tools Model.Kaula.
Import ListNotations.
Open Scope R_scope.

(** [m] is the mean value of [f] over one turn: [f] has a primitive that grows by
    [2 pi m] from [0] to [2 pi] *)
Definition mean (f : R -> R) (m : R) : Prop :=
  exists A, (forall x, derivable_pt_lim A x (f x)) /\ A (2 * PI) - A 0 = 2 * PI * m.
(** mean value over two independent angles *)
Definition mean2 (f : R -> R -> R) (m : R) : Prop :=
  exists g, (forall w, mean (fun x => f x w) (g w)) /\ mean g m.

(** the same orbit with another mean anomaly and another argument of pericentre *)
Definition at_angles (o : orbit (F := R)) (anomaly pericentre : R) : orbit (F := R) :=
  Orbit (ob_a o) (ob_e o) anomaly pericentre (ob_node o) (ob_freq o) (ob_obliquity o) (ob_spin o).

(** orbital elements with another mean anomaly and another argument of pericentre
    ([el_p] is the longitude of pericentre, [el_n] the longitude of the node) *)
Definition with_angles (els : elements R) (anomaly pericentre : R) : elements R :=
  Elements (el_a els) (el_q els) (el_e els) (el_i els) (pericentre + el_n els) (el_n els) anomaly (el_period els).

(** a complex number [re + i im] turned by an angle: real and imaginary part *)
Definition turned_re (a : R) (z : R * R) : R := cos a * fst z - sin a * snd z.
Definition turned_im (a : R) (z : R * R) : R := sin a * fst z + cos a * snd z.

(** ** The terms of zero frequency of the force on an inclined orbit
    The force is a sum of terms in [(2k - 2p + q - j) M + 2 (k - p) omega] (for the
    second part of order 0 in [(4 - 2p - 2k + q - j) M + (4 - 2k - 2p) omega], for the
    orthogonal component in [(2k - 2p + q - j - 1) M + 2 (k - p - 1) omega]), turned by
    the node.  Those left by the mean have both multiples zero. *)
Fixpoint sum_to (n : nat) (f : nat -> R) : R :=
  match n with O => 0 | S n => sum_to n f + f n end.
Section ZeroFrequency.
Variables (o : orbit (F := R)) (par : kaula_params R) (central : bool).
Let n := series_order (ob_e o).
Let i := ob_obliquity o.
Let node := ob_node o.
(** [q] is counted from the first of the [2 n + 1] functions in use *)
Definition width : nat := (2 * n + 1)%nat.
Definition G2 (p q : nat) : R := nth q (window n (nth p (eccentricity_g_2pq (ob_e o)) [])) 0.
Definition G3 (p q : nat) : R := nth q (window n (nth p (eccentricity_g_3pq (ob_e o)) [])) 0.
Definition K (m : R) (p q : nat) : R * R := love o par central m (nofnat p) (offset n q).
Definition F2 (m p : nat) : R :=
  nth p (match m with O => inclination_f_20p i | 1%nat => inclination_f_21p i | _ => inclination_f_22p i end) 0.
Definition F3 (m p : nat) : R :=
  nth p (match m with O => inclination_f_30p i | 1%nat => inclination_f_31p i | 2%nat => inclination_f_32p i
         | _ => inclination_f_33p i end) 0.

Definition normal_constant : R :=
  sum_to 3 (fun p => sum_to width (fun q =>
      F2 0 p * (1/2 * F2 1 p * G2 p q + 3/2 * F2 1 (2 - p) * G2 (2 - p) q) * G2 p q * turned_re (- node) (K 0 p q)))
  + 1/3 * sum_to 3 (fun p => sum_to width (fun q =>
      F2 1 p * (1/2 * F2 2 p * turned_re (- node) (K 1 p q) - 3 * F2 0 p * turned_re node (K 1 p q)) * G2 p q ^ 2))
  - 1/6 * sum_to 3 (fun p => sum_to width (fun q => F2 2 p * F2 1 p * G2 p q ^ 2 * turned_re node (K 2 p q))).
Definition orthogonal_constant : R :=
  - (4) / sqrt 15 * sum_to 3 (fun p => sum_to width (fun q => F2 1 p * G2 p q * G3 (S p) (S q)
      * (1/6 * F3 2 (S p) * - turned_im node (K 1 p q) + F3 0 (S p) * turned_im node (fst (K 1 p q), - snd (K 1 p q)))))
  - 5 / (48 * sqrt 6) * sum_to 3 (fun p => sum_to width (fun q => F2 2 p * G2 p q * G3 (S p) (S q)
      * (F3 3 (S p) * - turned_im node (K 2 p q) + 2 * F3 1 (S p) * turned_im node (fst (K 2 p q), - snd (K 2 p q))))).
End ZeroFrequency.
