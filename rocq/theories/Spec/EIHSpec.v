(** * The equations of motion of Einstein, Infeld and Hoffmann (Newhall, Standish and Williams
    1983, equation 1, with both parameters of the theory equal to 1)
    [n] point masses of gravitational parameters [gm] at [x] with velocities [v] and accelerations
    [a]; [c2] is the square of the speed of light. *)
From Coq Require Import Reals List Bool Arith.
From Verif Require Import Base.Num Base.Vec Spec.EffectsSpec.
Open Scope R_scope.

Definition others (n i : nat) : list nat := filter (fun j => negb (Nat.eqb j i)) (seq 0 n).
Section EIH.
  Variables (c2 : R) (n : nat) (gm : nat -> R) (x v a : nat -> vec R).
  Definition gap (i j : nat) : R := sqrt (norm2 (vsub (x j) (x i))).
  (** the potential of the others at body [i] *)
  Definition potential (i : nat) : R := Rsum (map (fun k => gm k / gap i k) (others n i)).
  (** Newton's term and the terms of the first order of body [j] in the acceleration of body [i] *)
  Definition newton_term (i j : nat) : vec R := vscale (gm j / gap i j ^ 3) (vsub (x j) (x i)).
  Definition eih_term (i j : nat) : vec R :=
    let d := vsub (x j) (x i) in
    vadd (vadd
      (vscale (gm j / gap i j ^ 3 *
               (- (4 / c2) * potential i - 1 / c2 * potential j + norm2 (v i) / c2 + 2 * norm2 (v j) / c2
                - 4 / c2 * vdot (v i) (v j) - 3 / (2 * c2) * (vdot (vsub (x i) (x j)) (v j) / gap i j) ^ 2
                + 1 / (2 * c2) * vdot d (a j))) d)
      (vscale (1 / c2 * (gm j / gap i j ^ 3) * vdot (vsub (x i) (x j)) (vsub (vscale 4 (v i)) (vscale 3 (v j)))) (vsub (v i) (v j))))
      (vscale (7 / (2 * c2) * (gm j / gap i j)) (a j)).
  Definition newton_acc (i : nat) : vec R := Vsum (map (newton_term i) (others n i)).
  Definition eih_acc (i : nat) : vec R := Vsum (map (eih_term i) (others n i)).
End EIH.
