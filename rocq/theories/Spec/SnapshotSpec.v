(** * What it means for a snapshot to be restored (C05)

    A state is described by plain data: numbers as bit patterns, booleans,
    sequences and tagged variants.  [well_typed t s] says that the Rust type
    described by [t] has the value [s]: every number fits its width, every
    sequence its length and every variant its list of variants. *)
From Coq Require Import ZArith List.
From Verif Require Import Model.Bincode.
Import ListNotations.
Local Open Scope Z_scope.

Fixpoint all_typed (ws : list (val -> Prop)) (l : list val) : Prop :=
  match ws, l with
  | [], [] => True
  | w :: ws, v :: l => w v /\ all_typed ws l
  | _, _ => False
  end.

Fixpoint well_typed (t : ty) (v : val) : Prop :=
  match t, v with
  | TNum n, VZ z => 0 <= z < 256 ^ Z.of_nat n
  | TBool, VZ z => z = 0 \/ z = 1
  | TArr n t, VL l => length l = n /\ Forall (well_typed t) l
  | TVec t, VL l => Z.of_nat (length l) < 2 ^ 64 /\ Forall (well_typed t) l
  | TStruct ts, VL l => all_typed (map well_typed ts) l
  | TEnum ts, VT k v => (k < length ts)%nat /\ nth k (map well_typed ts) (fun _ => False) v
  | _, _ => False
  end.

(** The property: whatever is saved is what is restored, with its integrator. *)
Definition restored (k : kind) (s : val) : Prop := restore (save k s) = Some (k, s).

(** The low 32 bits of an 8-byte number. *)
Definition low32 (v : val) : Z := match v with VZ z => z mod 2 ^ 32 | _ => 0 end.

(** ** Reading parts of a state, by their position in the Rust structs *)
Definition part (i : nat) (v : val) : val :=
  match v with VL l => nth i l (VZ 0) | VT _ v => v | _ => v end.
Definition variant (v : val) : nat := match v with VT k _ => k | _ => 0%nat end.
Definition contents (v : val) : val := match v with VT _ v => v | _ => VZ 0 end.

(** the universe of an integrator's state, and its first body *)
Definition universe_of (k : kind) (s : val) : val :=
  match k with IAS15 => part 1 s | _ => part 2 s end.
Definition first_body (k : kind) (s : val) : val := part 0 (part 2 (universe_of k s)).
Definition evolvers (k : kind) (s : val) : list val :=
  match part 3 (universe_of k s) with VL l => l | _ => [] end.

Definition moment_of_inertia (b : val) : val := part 19 b.
Definition reference (b : val) : val := part 20 b.
Definition tides_effect (b : val) : val := part 0 (part 21 b).
Definition tides_distance (b : val) : val := part 0 (part 0 (part 1 (part 21 b))).
Definition tidal_model (b : val) : val := contents (tides_effect b).
Definition dissipation_factor (b : val) : val := part 0 (contents (tidal_model b)).

(** entry [j] of the [i]-th buffer of an IAS15 state *)
Definition ias15_buffer (i j : nat) (s : val) : val := part j (part (13 + i) s).

(** ** Conditions under which a file is restored *)
(** What keeps an IAS15 file from being read as WHFast: the first body refers to
    the most massive one and the bytes that are then taken for tags are none. *)
Definition ias15_telling (b : val) : Prop :=
  variant (reference b) = 0%nat /\
  match tides_effect b with
  | VT 2 _ => 2 <= low32 (tides_distance b)
  | VT _ (VT 0 _) => 3 <= low32 (dissipation_factor b)
  | VT _ (VT 1 _) => 3 <= low32 (tides_distance b)
  | _ => True
  end.

(** a body whose tides do not follow Kaula's model *)
Definition no_kaula (b : val) : Prop :=
  match tides_effect b with VT _ (VT 2 _) => False | _ => True end.

(** the bytes of the evolution tables and of the map of dissipation factors *)
Definition table_bytes (k : kind) (s : val) : nat :=
  length (enc (TVec tevolver) (part 3 (universe_of k s)))
  + length (enc (TVec (TStruct [tusize; tf64])) (part 8 (universe_of k s))).

(** ** States with all effects off *)
(** a value of every type, all numbers zero, the [last] or first variant of each enum *)
Fixpoint zero (last : bool) (t : ty) : val :=
  match t with
  | TNum _ | TBool => VZ 0
  | TArr n t => VL (repeat (zero last t) n)
  | TVec _ => VL []
  | TStruct ts => VL (map (zero last) ts)
  | TEnum ts => let k := if last then (length ts - 1)%nat else 0%nat in
                VT k (nth k (map (zero last) ts) (VL []))
  end.

(** reference to the most massive body, every effect disabled and idle *)
Definition idle_effects := VT 0 (VL []) :: map (zero true) tparticle_effects.
