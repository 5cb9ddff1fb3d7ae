(** * Three-vectors

    src/particles/axes.rs [Axes].  The Rust code spells every operation out by
    component; the helpers below are those spellings, with the operand order of
    the sources. *)
From Coq Require Import List.
From Verif Require Import Base.Num.

Record vec (F : Type) := Vec { vx : F; vy : F; vz : F }.
Arguments Vec {F}. Arguments vx {F} _. Arguments vy {F} _. Arguments vz {F} _.

Section Vec.
  Context {F : Type} `{Num F}.
  Local Open Scope num_scope.
  Definition vzero : vec F := Vec n0 n0 n0.
  Definition vmap2 (f : F -> F -> F) (a b : vec F) : vec F :=
    Vec (f (vx a) (vx b)) (f (vy a) (vy b)) (f (vz a) (vz b)).
  Definition vadd := vmap2 nadd.
  Definition vsub := vmap2 nsub.
  (** [k * v] *)
  Definition vscale (k : F) (v : vec F) : vec F := Vec (k * vx v) (k * vy v) (k * vz v).
  (** [v * k] *)
  Definition vmulr (v : vec F) (k : F) : vec F := Vec (vx v * k) (vy v * k) (vz v * k).
  (** [v / k] *)
  Definition vdivr (v : vec F) (k : F) : vec F := Vec (vx v / k) (vy v / k) (vz v / k).
  Definition vneg (v : vec F) : vec F := Vec (- vx v) (- vy v) (- vz v).
  Definition vdot (a b : vec F) : F := vx a * vx b + vy a * vy b + vz a * vz b.
  Definition vcross (a b : vec F) : vec F :=
    Vec (vy a * vz b - vz a * vy b) (vz a * vx b - vx a * vz b) (vx a * vy b - vy a * vx b).
  (** [v.x.powi(2) + v.y.powi(2) + v.z.powi(2)] *)
  Definition norm2 (v : vec F) : F := npow (vx v) 2 + npow (vy v) 2 + npow (vz v) 2.
  Definition vsum (l : list (vec F)) : vec F := fold_left vadd l vzero.
End Vec.
