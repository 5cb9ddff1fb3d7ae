(** * What the history file must be, stated without the encoder or the reader *)
From Coq Require Import List ZArith NArith.
From Verif Require Import Model.History.
Import ListNotations.
Open Scope N_scope.

(** every field fits its type: 64-bit patterns and a 32-bit id *)
Definition valid_record (r : hrecord) : Prop :=
  Forall (fun v => v < 2 ^ 64)
    [h_time r; h_time_step r; h_position_x r; h_position_y r; h_position_z r;
     h_spin_x r; h_spin_y r; h_spin_z r; h_velocity_x r; h_velocity_y r; h_velocity_z r;
     h_mass r; h_radius r; h_radius_of_gyration_2 r; h_love_number r;
     h_scaled_dissipation_factor r; h_lag_angle r; h_denergy_dt r; h_migration_timescale r]
  /\ h_id r < 2 ^ 32.

(** a snapshot of [n] bodies: one record per body, ids 0, 1, ..., n-1 in order *)
Definition is_snapshot (n : nat) (l : list hrecord) : Prop :=
  map h_id l = map N.of_nat (seq 0 n) /\ Forall valid_record l.

(** [a] is what is left of [b] when the file is cut at an arbitrary byte *)
Definition cut_of {A} (a b : list A) : Prop := exists rest, b = a ++ rest /\ rest <> [].
