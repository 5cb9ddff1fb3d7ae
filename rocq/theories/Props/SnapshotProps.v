(** * Binary snapshots (C05) *)
From Coq Require Import ZArith List Bool Lia.
From Verif Require Import Model.Bincode Spec.SnapshotSpec Proofs.BincodeProofs Proofs.SnapshotProofs
  Proofs.SnapshotExamples Proofs.SnapshotSizes.
Import ListNotations.
Local Open Scope Z_scope.

(** ** C05: binary snapshots restore exactly what was saved, with the right integrator

    The full statement is
    [forall k s, well_typed (layout k) s -> restored k s].
    It holds for WHFast and fails for IAS15 and LeapFrog, because a file does not
    say which integrator wrote it. *)

(** The format itself loses nothing: read with the layout it was written with,
    every state of every integrator, with evolution tables of any length, comes
    back exactly, whatever follows in the file. *)
Theorem C05_format_round_trip : forall k s rest, well_typed (layout k) s ->
  dec (layout k) (save k s ++ rest) = Some (s, rest).
Proof. exact layout_round_trip. Qed.
Print Assumptions C05_format_round_trip.

(** The size of a file is that of the universe, which takes at least 11015 bytes, and a
    fixed part for the integrator. *)
Theorem C05_sizes : forall k s, well_typed (layout k) s ->
  Z.of_nat (length (save k s)) = Z.of_nat (length (enc tuniverse (universe_of k s)))
    + match k with WHFAST => 1452 | IAS15 => 19360 | LEAPFROG => 76 end.
Proof. exact sizes. Qed.
Theorem C05_universe_size : forall u, well_typed tuniverse u -> 11015 <= Z.of_nat (length (enc tuniverse u)).
Proof. exact universe_least. Qed.
Example C05_sizes_example : well_typed twhfast whfast_state /\ Z.of_nat (length (save WHFAST whfast_state)) = 12467.
Proof. split; [exact whfast_state_typed|exact example_size]. Qed.
Print Assumptions C05_sizes.
Print Assumptions C05_universe_size.

Theorem C05_whfast : forall s, well_typed twhfast s -> restored WHFAST s.
Proof. exact whfast_restored. Qed.
Print Assumptions C05_whfast.

Example C05_whfast_example : well_typed twhfast whfast_state /\
  restore (save WHFAST whfast_state) = Some (WHFAST, whfast_state).
Proof. split; [exact whfast_state_typed|]. apply C05_whfast, whfast_state_typed. Qed.

(** A LeapFrog file is never taken for WHFast ... *)
Theorem C05_leapfrog_never_whfast : forall s w, well_typed tleapfrog s ->
  restore (save LEAPFROG s) <> Some (WHFAST, w).
Proof.
  intros s w H. unfold restore. rewrite (leapfrog_never_whfast s H).
  destruct (dec tias15 (save LEAPFROG s)) as [[? ?]|]; [discriminate|].
  destruct (dec tleapfrog (save LEAPFROG s)) as [[? ?]|]; discriminate.
Qed.
Print Assumptions C05_leapfrog_never_whfast.

(** ... and is restored exactly if the first body's moment of inertia has any
    other low half than 0 or 1, ... *)
Theorem C05_leapfrog_partial : forall s, well_typed tleapfrog s ->
  2 <= low32 (moment_of_inertia (first_body LEAPFROG s)) -> restored LEAPFROG s.
Proof. exact leapfrog_restored_by_inertia. Qed.
Print Assumptions C05_leapfrog_partial.

(** ... or if no body has Kaula tides and the tables take at most 16000 bytes. *)
Theorem C05_leapfrog_short_partial : forall s, well_typed tleapfrog s ->
  (forall i, (i < 10)%nat -> no_kaula (part i (part 2 (universe_of LEAPFROG s)))) ->
  (table_bytes LEAPFROG s <= 2000 * 8)%nat -> restored LEAPFROG s.
Proof. exact leapfrog_restored_when_short. Qed.
Print Assumptions C05_leapfrog_short_partial.

Example C05_leapfrog_example :
  restored LEAPFROG (leapfrog_state third [evolver 4000]) /\
  restored LEAPFROG (leapfrog_state (VZ 0) [evolver 1000]).
Proof.
  assert (H : forall i n, well_typed tf64 i -> Z.of_nat n < 2 ^ 64 ->
    well_typed tleapfrog (leapfrog_state i [evolver n])).
  { intros i n Hi Hn. apply leapfrog_state_typed; [exact Hi|]. split; [cbn [length]; lia|].
    constructor; [|constructor]. now apply evolver_typed. }
  split.
  - apply C05_leapfrog_partial; [apply H; [cbn; lia|lia]|].
    apply Z.leb_le. vm_compute. reflexivity.
  - apply C05_leapfrog_short_partial; [apply H; [cbn; lia|lia]| |].
    + intros i Hi. do 10 (destruct i as [|i]; [exact I|]). lia.
    + apply Nat.leb_le. vm_compute. reflexivity.
Qed.

(** An IAS15 file is restored exactly if the first body refers to the most
    massive one and has tides of Kaula's kind, or a dissipation factor (or tidal
    distance) whose low half is not a small number, ... *)
Theorem C05_ias15_partial : forall s, well_typed tias15 s ->
  ias15_telling (first_body IAS15 s) -> restored IAS15 s.
Proof. exact ias15_restored_by_first_body. Qed.
Print Assumptions C05_ias15_partial.

(** ... or if the first body has no effects at all. *)
Theorem C05_ias15_idle_partial : forall s, well_typed tias15 s ->
  (forall j, (j < 7)%nat -> part (20 + j) (first_body IAS15 s) = nth j idle_effects (VZ 0)) ->
  restored IAS15 s.
Proof. exact ias15_restored_when_idle. Qed.
Print Assumptions C05_ias15_idle_partial.

Example C05_ias15_example : restored IAS15 (ias15_state (VT 0 (VL []))).
Proof.
  apply C05_ias15_idle_partial.
  - apply ias15_state_typed. split; [cbn; lia|exact I].
  - intros j Hj. do 7 (destruct j as [|j]; [reflexivity|]). lia.
Qed.

(** Whenever the first body's reference is a numbered body and six bodies or fewer
    are used (so that the unused entry 18 of the fourth buffer is zero), the file
    of an IAS15 simulation is restored as WHFast. *)
Theorem C05_ias15_read_as_whfast : forall s k, well_typed tias15 s ->
  reference (first_body IAS15 s) = VT 1 (VZ k) -> k < 2 ^ 32 ->
  low32 (ias15_buffer 3 18 s) < 3 ->
  exists w, restore (save IAS15 s) = Some (WHFAST, w).
Proof. exact ias15_read_as_whfast. Qed.
Print Assumptions C05_ias15_read_as_whfast.

Theorem C05_refuted :
  (exists s, well_typed tias15 s /\
     (exists w, restore (save IAS15 s) = Some (WHFAST, w)) /\ ~ restored IAS15 s) /\
  (exists s, well_typed tleapfrog s /\
     (exists w, restore (save LEAPFROG s) = Some (IAS15, w)) /\ ~ restored LEAPFROG s).
Proof. exact (conj ias15_not_restored leapfrog_not_restored). Qed.
Print Assumptions C05_refuted.
