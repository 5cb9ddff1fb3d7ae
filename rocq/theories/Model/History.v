(** * The history file: byte layout, writer-side encoder and the Python reader *)
From Coq Require Import List ZArith NArith Bool Lia.
Import ListNotations.
Open Scope N_scope.

(** A byte is an [N] below 256. *)
Definition byte := N.

(** little-endian bytes of an unsigned integer; bincode 1.3 default options
    ([bincode::serialize_into], src/integrator/output.rs:127,135) write fixed
    width little-endian integers and the IEEE bits of f64. *)
Fixpoint le_bytes (n : nat) (v : N) : list byte :=
  match n with
  | O => []
  | S m => (v mod 256) :: le_bytes m (v / 256)
  end.
Fixpoint le_val (bs : list byte) : N :=
  match bs with [] => 0 | b :: r => b + 256 * le_val r end.

(** One per-body record: the two tuples written by [write_historic_snapshot]
    (src/integrator/output.rs:101-117 and 128-134).  f64 fields are held as
    their 64-bit patterns; [h_id] is the 32-bit pattern of [particle.id as i32]
    (output.rs:104). *)
Record hrecord := {
  h_time : N; h_time_step : N; h_id : N;
  h_position_x : N; h_position_y : N; h_position_z : N;
  h_spin_x : N; h_spin_y : N; h_spin_z : N;
  h_velocity_x : N; h_velocity_y : N; h_velocity_z : N;
  h_mass : N; h_radius : N; h_radius_of_gyration_2 : N;
  h_love_number : N; h_scaled_dissipation_factor : N; h_lag_angle : N;
  h_denergy_dt : N; h_migration_timescale : N }.

(** src/integrator/output.rs:101-135 *)
Definition encode_record (r : hrecord) : list byte :=
  (le_bytes 8 (h_time r) ++ le_bytes 8 (h_time_step r) ++ le_bytes 4 (h_id r)
  ++ le_bytes 8 (h_position_x r) ++ le_bytes 8 (h_position_y r) ++ le_bytes 8 (h_position_z r)
  ++ le_bytes 8 (h_spin_x r) ++ le_bytes 8 (h_spin_y r) ++ le_bytes 8 (h_spin_z r)
  ++ le_bytes 8 (h_velocity_x r) ++ le_bytes 8 (h_velocity_y r) ++ le_bytes 8 (h_velocity_z r)
  ++ le_bytes 8 (h_mass r) ++ le_bytes 8 (h_radius r) ++ le_bytes 8 (h_radius_of_gyration_2 r))
  ++
  (le_bytes 8 (h_love_number r) ++ le_bytes 8 (h_scaled_dissipation_factor r)
  ++ le_bytes 8 (h_lag_angle r) ++ le_bytes 8 (h_denergy_dt r)
  ++ le_bytes 8 (h_migration_timescale r)).

(** src/integrator/output.rs:57-61: [n_bytes_per_particle_in_historic_snapshot] *)
Definition n_bytes_per_particle : nat := let n_stored_fields := 20%nat in (8 + 8 + 4 + 8 * (n_stored_fields - 3))%nat.

(** src/integrator/output.rs:91-172: [write_historic_snapshot] loops over
    [universe.particles[..n_particles]].  (The orbital-period sanity check,
    lines 137-168, is dead code: [MIN_ORBITAL_PERIOD_TIME_STEP_RATIO = -1.0],
    src/constants.rs.) *)
Definition encode_records (l : list hrecord) : list byte := flat_map encode_record l.

(** ** The Python reader, posidonius/analysis/history.py:14-47 *)

(** [struct.unpack('< d d i' + ' d'*17, row)] on one row, history.py:26-28;
    fails when the row is shorter than 156 bytes *)
Definition take_field (n : nat) (bs : list byte) : option (N * list byte) :=
  if Nat.ltb (length bs) n then None else Some (le_val (firstn n bs), skipn n bs).

Definition obind {A B} (o : option A) (f : A -> option B) : option B :=
  match o with Some a => f a | None => None end.
Notation "'let?' p ':=' e 'in' c" := (obind e (fun x => let p := x in c))
  (at level 200, p pattern, right associativity).

Definition decode_record (bs : list byte) : option (hrecord * list byte) :=
  let? (f0, bs) := take_field 8 bs in
  let? (f1, bs) := take_field 8 bs in
  let? (f2, bs) := take_field 4 bs in
  let? (f3, bs) := take_field 8 bs in
  let? (f4, bs) := take_field 8 bs in
  let? (f5, bs) := take_field 8 bs in
  let? (f6, bs) := take_field 8 bs in
  let? (f7, bs) := take_field 8 bs in
  let? (f8, bs) := take_field 8 bs in
  let? (f9, bs) := take_field 8 bs in
  let? (f10, bs) := take_field 8 bs in
  let? (f11, bs) := take_field 8 bs in
  let? (f12, bs) := take_field 8 bs in
  let? (f13, bs) := take_field 8 bs in
  let? (f14, bs) := take_field 8 bs in
  let? (f15, bs) := take_field 8 bs in
  let? (f16, bs) := take_field 8 bs in
  let? (f17, bs) := take_field 8 bs in
  let? (f18, bs) := take_field 8 bs in
  let? (f19, bs) := take_field 8 bs in
  Some (Build_hrecord f0 f1 f2 f3 f4 f5 f6 f7 f8 f9 f10 f11 f12 f13 f14 f15 f16 f17 f18 f19, bs).

(** The reading loop, history.py:23-32: rows are read until one cannot be
    unpacked.  [fuel] bounds the number of rows ([None] would mean fuel
    exhaustion; [length bs] is always enough). *)
Fixpoint read_rows (fuel : nat) (bs : list byte) : option (list hrecord) :=
  match fuel with
  | O => None
  | S fuel' =>
    match decode_record bs with
    | None => Some []
    | Some (r, rest) =>
      match read_rows fuel' rest with
      | Some l => Some (r :: l)
      | None => None
      end
    end
  end.

(** the [i32] id is read back signed; ids are 0..9, so this is the identity on
    every id the writer produces *)
Definition signed32 (v : N) : Z :=
  if v <? 2 ^ 31 then Z.of_N v else (Z.of_N v - 2 ^ 32)%Z.

Definition max_id (l : list hrecord) : Z :=
  fold_right (fun r m => Z.max (signed32 (h_id r)) m) (-2 ^ 31)%Z l.

Inductive read_result := ReadEmpty (* raises "Empty file!" *)
  | ReadOk (n_particles : Z) (rows : list hrecord)
  | ReadOutOfFuel.

(** history.py:35-46.  [data[:-1*excess]] with [excess > 0] drops the last
    [excess] rows (all rows if [excess >= len]). *)
Definition py_read (bs : list byte) : read_result :=
  match read_rows (S (length bs)) bs with
  | None => ReadOutOfFuel
  | Some [] => ReadEmpty
  | Some rows =>
    let n_particles := (max_id rows + 1)%Z in
    let outer := (n_particles - 1)%Z in
    let last_particle := signed32 (h_id (last rows (Build_hrecord 0 0 0 0 0 0 0 0 0 0 0 0 0 0 0 0 0 0 0 0))) in
    let excess := ((n_particles - (outer - last_particle)) mod n_particles)%Z in
    if (0 <? excess)%Z
    then ReadOk n_particles (firstn (length rows - Z.to_nat excess) rows)
    else ReadOk n_particles rows
  end.
