(** * Binary snapshots: the bincode format and the layout of the saved states

    A binary recovery snapshot is [bincode::serialize_into] of the whole
    integrator (src/integrator/output.rs:51) and is read back with
    [bincode::deserialize_from] (src/integrator/output.rs:243-281).  The model
    has three parts: bincode 1.3's default format for the kinds of data that
    occur in the states, the layout of the three integrators, and the guess of
    the integrator when a file is restored.

    bincode 1.3 [serialize_into]/[deserialize_from] (fixed-width integers,
    little endian, trailing bytes left unread):
    - [u64], [usize], [u32], [i32], [f64]: their 8 or 4 bytes, lowest first; a
      number is represented here by its bit pattern, so every [f64] (infinities
      and NaN payloads included) is one value;
    - [bool]: one byte, any value but 0 and 1 is an error;
    - arrays ([BigArray] included), tuples and structs: the parts in order,
      without a length;
    - [Vec] and [HashMap]: the length as a [u64], then the elements (a map's
      elements are key/value pairs, in the order the map is iterated);
    - enums: the index of the variant as a [u32], then its contents; an index
      out of range is an error;
    - reaching the end of the file is an error. *)
From Coq Require Import ZArith List Bool.
Import ListNotations.
Local Open Scope Z_scope.

Inductive ty :=
| TNum (bytes : nat)
| TBool
| TArr (n : nat) (t : ty)
| TVec (t : ty)
| TStruct (ts : list ty)
| TEnum (ts : list ty).

Inductive val :=
| VZ (z : Z)
| VL (l : list val)
| VT (k : nat) (v : val).

(** the [n] lowest bytes of [z], lowest first *)
Fixpoint le (n : nat) (z : Z) : list Z :=
  match n with
  | O => []
  | S n => (z mod 256) :: le n (z / 256)
  end.

(** the number written in the first [n] bytes, and the bytes behind *)
Fixpoint read (n : nat) (bs : list Z) : option (Z * list Z) :=
  match n with
  | O => Some (0, bs)
  | S n => match bs with
           | [] => None
           | b :: bs => match read n bs with
                        | Some (z, r) => Some (b + 256 * z, r)
                        | None => None
                        end
           end
  end.

Definition encoder := val -> list Z.
Definition decoder := list Z -> option (val * list Z).

Fixpoint enc_seq (es : list encoder) (l : list val) : list Z :=
  match es, l with
  | e :: es, v :: l => e v ++ enc_seq es l
  | _, _ => []
  end.

Fixpoint enc (t : ty) (v : val) : list Z :=
  match t, v with
  | TNum n, VZ z => le n z
  | TBool, VZ z => [z]
  | TArr _ t, VL l => flat_map (enc t) l
  | TVec t, VL l => le 8 (Z.of_nat (length l)) ++ flat_map (enc t) l
  | TStruct ts, VL l => enc_seq (map enc ts) l
  | TEnum ts, VT k v =>
      le 4 (Z.of_nat k) ++ nth k (map enc ts) (fun _ => []) v
  | _, _ => []
  end.

Fixpoint dec_seq (ds : list decoder) (bs : list Z) : option (list val * list Z) :=
  match ds with
  | [] => Some ([], bs)
  | d :: ds => match d bs with
               | Some (v, r) => match dec_seq ds r with
                                | Some (l, r) => Some (v :: l, r)
                                | None => None
                                end
               | None => None
               end
  end.

Fixpoint dec_rep (d : decoder) (n : nat) (bs : list Z) : option (list val * list Z) :=
  match n with
  | O => Some ([], bs)
  | S n => match d bs with
           | Some (v, r) => match dec_rep d n r with
                            | Some (l, r) => Some (v :: l, r)
                            | None => None
                            end
           | None => None
           end
  end.

Definition as_list (x : option (list val * list Z)) : option (val * list Z) :=
  match x with Some (l, r) => Some (VL l, r) | None => None end.

(** Reading a [Vec] of [n] elements out of fewer than [n] bytes is cut short
    here: bincode would read elements until the file ends and then fail, since
    no element takes less than one byte ([vec_guard] in Proofs/BincodeProofs.v). *)
Fixpoint dec (t : ty) : decoder := fun bs =>
  match t with
  | TNum n => match read n bs with Some (z, r) => Some (VZ z, r) | None => None end
  | TBool => match bs with
             | b :: r => if (b =? 0) || (b =? 1) then Some (VZ b, r) else None
             | [] => None
             end
  | TArr n t => as_list (dec_rep (dec t) n bs)
  | TVec t => match read 8 bs with
              | Some (n, r) =>
                  if Z.of_nat (length r) <? n then None
                  else as_list (dec_rep (dec t) (Z.to_nat n) r)
              | None => None
              end
  | TStruct ts => as_list (dec_seq (map dec ts) bs)
  | TEnum ts => match read 4 bs with
                | Some (k, r) =>
                    if Z.of_nat (length ts) <=? k then None
                    else match nth (Z.to_nat k) (map dec ts) (fun _ => None) r with
                         | Some (v, r) => Some (VT (Z.to_nat k) v, r)
                         | None => None
                         end
                | None => None
                end
  end.

(** ** Layout of the saved states, field by field in the order of the structs *)
Definition tf64 := TNum 8.
Definition tusize := TNum 8.
Definition tu32 := TNum 4.
Definition tunit := TStruct [].

(** src/particles/axes.rs:4-8 *)
Definition taxes := TStruct [tf64; tf64; tf64].
(** the [..Coordinates] of each effect: position, velocity *)
Definition tcoordinates := TStruct [taxes; taxes].
(** src/effects/tides/constant_time_lag.rs:13-17 *)
Definition tconstant_time_lag := TStruct [tf64; tf64; tf64].
(** src/effects/tides/creep_coplanar.rs:12-14 *)
Definition tcreep := TStruct [tf64].
(** src/effects/tides/kaula.rs:1067-1079 *)
Definition tpolynomials := TStruct
  [TArr 3 (TArr 15 tf64); TArr 15 tf64; TArr 15 tf64; TArr 4 (TArr 15 tf64);
   TArr 3 tf64; TArr 3 tf64; TArr 3 tf64;
   TArr 4 tf64; TArr 4 tf64; TArr 4 tf64; TArr 4 tf64].
(** src/effects/tides/kaula.rs:14-26 *)
Definition tkaula := TStruct
  [TArr (32 * 32) tf64; TArr (32 * 32) tf64; TArr (32 * 32) tf64; tf64; tpolynomials; taxes].
(** src/effects/tides/common.rs:82-94 *)
Definition ttidal_model := TEnum [tconstant_time_lag; tcreep; tkaula].
Definition ttides_effect := TEnum [ttidal_model; ttidal_model; tunit].
(** src/effects/tides/common.rs:42-80, 96-100 *)
Definition ttides_internal := TStruct
  [tf64; tf64; tf64; tf64; tf64; tf64; tf64; tf64; tf64; taxes; tf64; tf64].
Definition ttides := TStruct
  [ttides_effect; TStruct [ttides_internal; TStruct [taxes; taxes]]; tcoordinates].
(** src/effects/rotational_flattening/common.rs:9-62, oblate_spheroid.rs:8-10 *)
Definition tflattening_model := TEnum [TStruct [tf64]; tcreep].
Definition tflattening_effect := TEnum [tflattening_model; tflattening_model; tunit].
Definition tflattening_internal := TStruct
  [tf64; tf64; tf64; tf64; tf64; tf64; tf64; tf64; taxes].
Definition tflattening := TStruct
  [tflattening_effect; TStruct [tflattening_internal; TStruct [taxes; taxes]]; tcoordinates].
(** src/effects/general_relativity.rs:11-59 *)
Definition trelativity_implementation := TEnum [tunit; tunit; tunit; tunit].
Definition trelativity_effect := TEnum [trelativity_implementation; tunit; tunit].
Definition trelativity := TStruct
  [trelativity_effect;
   TStruct [TStruct [tf64; tf64; tf64; tf64; tf64]; TStruct [taxes; taxes]]; tcoordinates].
(** src/effects/wind.rs:7-39 *)
Definition twind := TStruct
  [TEnum [tunit; tunit]; TStruct [TStruct [tf64; tf64]; TStruct [tf64]; TStruct [taxes]]].
(** src/effects/disk.rs:7-56 *)
Definition tdisk := TStruct
  [TEnum [TStruct [tf64; tf64; tf64; tf64; tf64; tf64]; tunit; tunit];
   TStruct [TStruct [tf64; tf64; tf64; tf64]; TStruct [taxes]]; tcoordinates].
(** src/effects/evolution.rs:9-29 *)
Definition tevolution_type := TEnum [tf64; tf64; tf64; tf64; tf64; TBool; tunit].
Definition tevolver := TStruct
  [tevolution_type; TVec tf64; TVec tf64; TVec tf64; TVec tf64; TVec tf64; tusize].
(** src/particles/particle.rs:10-44: id to moment_of_inertia, then the rest *)
Definition treference := TEnum [tunit; tusize].
Definition tparticle_numbers :=
  [tusize; tf64; tf64; tf64; taxes; taxes; taxes; taxes; taxes; taxes;
   tf64; tf64; tf64; tf64; taxes; tf64; taxes; taxes; tf64; tf64].
Definition tparticle_effects :=
  [ttides; tflattening; trelativity; twind; tdisk; tevolution_type].
Definition tparticle := TStruct (tparticle_numbers ++ treference :: tparticle_effects).
(** src/particles/universe.rs:15-64; MAX_PARTICLES = 10 (src/constants.rs:3) *)
Definition thosts := TStruct
  [TStruct [tusize; tusize; tusize; tusize; tusize]; TStruct [TBool; TBool; TBool; TBool; TBool]].
Definition tconsider_effects := TStruct [TBool; TBool; TBool; TBool; TBool; TBool].
Definition tuniverse_rest :=
  [TVec tevolver; tusize; tconsider_effects; trelativity_implementation; thosts;
   TVec (TStruct [tusize; tf64]); TArr 100 tf64].
Definition tuniverse := TStruct (tf64 :: tf64 :: TArr 10 tparticle :: tuniverse_rest).

(** src/integrator/whfast.rs:90-130 *)
Definition talternative := TStruct [tf64; tf64; taxes; taxes; taxes].
Definition twhfast_rest :=
  [tusize; tf64; tf64; tf64; tf64; tusize; tusize; TArr 10 talternative;
   TEnum [tunit; tunit; tunit]; tusize; TArr 10 taxes; TArr 10 taxes].
Definition twhfast := TStruct (tf64 :: tf64 :: tuniverse :: tf64 :: twhfast_rest).
(** src/integrator/ias15.rs:29-230: the 80 buffers of 3*MAX_PARTICLES numbers
    are [b_0..6], [br_0..6], [g_0..6], [e_0..6], [er_0..6], [at], [x0], [v0],
    [a0], [sb_0..6], [sbr_0..6], [sg_0..6], [se_0..6], [ser_0..6],
    [dangular_momentum_dtt], [dangular_momentum_dt0], [angular_momentum0],
    [csx], [csv], [css] *)
Definition tias15_rest :=
  [tu32; tf64; tf64; tf64; tf64; tusize; tusize; tusize; tu32; tf64]
  ++ repeat (TArr 30 tf64) 80 ++ [TArr 9 tf64].
Definition tias15 := TStruct (tf64 :: tuniverse :: tf64 :: tias15_rest).
(** src/integrator/leapfrog.rs:42-54 *)
Definition tleapfrog_rest := [tu32; tf64; tf64; tf64; tf64; tusize; tusize].
Definition tleapfrog := TStruct (tf64 :: tf64 :: tuniverse :: tf64 :: tleapfrog_rest).

(** ** Saving and restoring *)
Inductive kind := WHFAST | IAS15 | LEAPFROG.
Definition layout (k : kind) : ty :=
  match k with WHFAST => twhfast | IAS15 => tias15 | LEAPFROG => tleapfrog end.

(** src/integrator/output.rs:51 [write_recovery_snapshot]: the file holds the
    encoded integrator and nothing that says which integrator it is *)
Definition save (k : kind) (s : val) : list Z := enc (layout k) s.

(** src/integrator/output.rs:243-281 [deserialize_bin_snapshot]: WHFast is
    tried first, then IAS15, then LeapFrog *)
Definition restore (bs : list Z) : option (kind * val) :=
  match dec twhfast bs with
  | Some (s, _) => Some (WHFAST, s)
  | None =>
      match dec tias15 bs with
      | Some (s, _) => Some (IAS15, s)
      | None => match dec tleapfrog bs with
                | Some (s, _) => Some (LEAPFROG, s)
                | None => None
                end
      end
  end.
