(** * Properties of runs, snapshots and the command line (C01-C04, C06-C10) *)
From Coq Require Import List ZArith NArith Bool Reals.
From Verif Require Import Base.Num Model.History Model.Run Model.Machine Model.Cli
  Spec.HistorySpec Spec.RunSpec Spec.ClockSpec
  Proofs.HistoryProofs Proofs.HistoryRun Proofs.MachineProofs Proofs.MachineTheorems
  Proofs.ClockProofs Proofs.LossProofs Proofs.SettingsProofs Proofs.MachineExec Proofs.RunExamples.
Import ListNotations.

Section Generic.
  Context {F : Type} `{Num F}.
  (** arbitrary physics *)
  Variable phys : Type.
  Variable n_particles : nat.
  Variable record_of : phys -> F -> F -> nat -> hrecord.
  Variable observe : phys -> F -> phys.
  Variable lf_advance : phys -> F -> F -> F -> phys.
  Variable wh_advance : phys -> F -> F -> phys.
  Variable ias_advance : phys -> F -> F -> phys * F * F.
  Variable init_phys : phys -> phys.
  Variable evolution_on : phys -> bool.
  Variable table_ends : phys -> list F.
  Variable hash_of : integ (F:=F) phys -> N.
  Variable json_roundtrip : integ (F:=F) phys -> option (integ (F:=F) phys).
  Notation iterate := (iterate phys n_particles record_of observe lf_advance wh_advance ias_advance).
  Notation steps := (steps phys n_particles record_of observe lf_advance wh_advance ias_advance
                      init_phys evolution_on table_ends hash_of json_roundtrip).
  Notation start := (start phys n_particles init_phys evolution_on table_ends json_roundtrip).
  Notation resume := (resume phys n_particles init_phys evolution_on table_ends json_roundtrip).
  Notation load := (load phys json_roundtrip).
  Notation boot := (boot phys init_phys evolution_on table_ends).
  Notation expected_n_bytes := (expected_n_bytes phys n_particles).

  (** C01.  Whatever crashes happened (at any micro-step) and from whichever
      snapshots the run was resumed, any number of times: when the simulation
      completes, the history on disk is byte for byte the one of the
      uninterrupted run.  JSON snapshot paths are allowed only if the JSON text
      of the states of this run reads back exactly. *)
  Theorem C01_resume_equals_uninterrupted
    (case p : path) (lim0 : bool) (d0 d1 : disk (F:=F) phys) (s0 : integ (F:=F) phys) ls d :
    (n0 <? - n1)%num = false ->
    (forall q f s, d_files d0 q = Some (Complete f s) -> q = case) ->
    start case p lim0 d0 = Up p lim0 s0 [] PLoop d1 ->
    (forall n h s, runs iterate (S n) s0 h s -> (i_time s =? n0)%num = false) ->
    let usable q := p_ext q = Bin \/
      forall n h s sn, runs iterate (S n) s0 h sn -> eqv phys s sn -> json_roundtrip s = Some s in
    usable p -> (forall q, In (LResume q) ls -> usable q) ->
    steps ls (Up p lim0 s0 [] PLoop d1) (Finished d) ->
    exists h, d_hist d = Some h /\ completes iterate s0 h.
  Proof.
    exact (fun Hn Ho Hs Hc => resumed_equals_uninterrupted phys n_particles record_of observe
      lf_advance wh_advance ias_advance init_phys evolution_on table_ends hash_of json_roundtrip
      Hn case p lim0 d0 d1 s0 Ho Hs Hc ls d).
  Qed.

  (** C01, on the way: at every instant of every such execution the history file
      is a prefix of the history of the uninterrupted run. *)
  Theorem C01_history_always_a_prefix
    (case p : path) (lim0 : bool) (d0 d1 : disk (F:=F) phys) (s0 : integ (F:=F) phys) ls m h :
    (n0 <? - n1)%num = false ->
    (forall q f s, d_files d0 q = Some (Complete f s) -> q = case) ->
    start case p lim0 d0 = Up p lim0 s0 [] PLoop d1 ->
    (forall n h s, runs iterate (S n) s0 h s -> (i_time s =? n0)%num = false) ->
    let usable q := p_ext q = Bin \/
      forall n h s sn, runs iterate (S n) s0 h sn -> eqv phys s sn -> json_roundtrip s = Some s in
    usable p -> (forall q, In (LResume q) ls -> usable q) ->
    steps ls (Up p lim0 s0 [] PLoop d1) m ->
    completes iterate s0 h ->
    exists rest, h = match d_hist (disk_of m) with Some x => x | None => [] end ++ rest.
  Proof.
    exact (fun Hn Ho Hs Hc Hp Hl Hst => history_is_prefix phys n_particles record_of observe
      lf_advance wh_advance ias_advance init_phys evolution_on table_ends hash_of json_roundtrip
      Hn case p lim0 d0 d1 s0 Ho Hs Hc ls m Hp Hl Hst h).
  Qed.

  (** C02a.  When a recovery snapshot is about to be complete, the history file
      holds exactly the announced number of bytes. *)
  Theorem C02_size_law
    (case p : path) (lim0 : bool) (d0 d1 : disk (F:=F) phys) (s0 : integ (F:=F) phys)
    ls q lim s ex d :
    (n0 <? - n1)%num = false ->
    (forall q f s, d_files d0 q = Some (Complete f s) -> q = case) ->
    start case p lim0 d0 = Up p lim0 s0 [] PLoop d1 ->
    (forall n h s, runs iterate (S n) s0 h s -> (i_time s =? n0)%num = false) ->
    let usable q := p_ext q = Bin \/
      forall n h s sn, runs iterate (S n) s0 h sn -> eqv phys s sn -> json_roundtrip s = Some s in
    usable p -> (forall q, In (LResume q) ls -> usable q) ->
    steps ls (Up p lim0 s0 [] PLoop d1) (Up q lim s [] (PWrite ex) d) ->
    N.of_nat (length (match d_hist d with Some x => x | None => [] end))
      = (i_nhist s * 156 * N.of_nat n_particles)%N.
  Proof.
    exact (fun Hn Ho Hs Hc Hp Hl Hst => saved_snapshot_size phys n_particles record_of observe
      lf_advance wh_advance ias_advance init_phys evolution_on table_ends hash_of json_roundtrip
      Hn case p lim0 d0 d1 s0 Ho Hs Hc ls q lim s [] ex d Hp Hl Hst eq_refl).
  Qed.

  (** C02a.  As long as no process is resumed from an older snapshot, every
      complete recovery snapshot on disk is covered by the history file. *)
  Theorem C02_snapshots_covered
    (case p : path) (lim0 : bool) (d0 d1 : disk (F:=F) phys) (s0 : integ (F:=F) phys) ls m q f s :
    (n0 <? - n1)%num = false ->
    (forall q f s, d_files d0 q = Some (Complete f s) -> q = case) ->
    start case p lim0 d0 = Up p lim0 s0 [] PLoop d1 ->
    (forall n h s, runs iterate (S n) s0 h s -> (i_time s =? n0)%num = false) ->
    let usable q := p_ext q = Bin \/
      forall n h s sn, runs iterate (S n) s0 h sn -> eqv phys s sn -> json_roundtrip s = Some s in
    usable p -> forallb (fun l => negb (is_resume l)) ls = true ->
    steps ls (Up p lim0 s0 [] PLoop d1) m ->
    q <> case -> d_files (disk_of m) q = Some (Complete f s) ->
    (i_nhist s * 156 * N.of_nat n_particles
      <= N.of_nat (length (match d_hist (disk_of m) with Some x => x | None => [] end)))%N.
  Proof.
    exact (fun Hn Ho Hs Hc Hp Hl Hst => snapshots_covered phys n_particles record_of observe
      lf_advance wh_advance ias_advance init_phys evolution_on table_ends hash_of json_roundtrip
      Hn case p lim0 d0 d1 s0 Ho Hs Hc ls m Hp Hl Hst q f s).
  Qed.

  (** C02b.  The history of a run is the concatenation of whole snapshots
      (ids 0..n-1), and the Python reader applied to it, or to any prefix of it
      that contains at least one snapshot, returns exactly the records of the
      complete snapshots, in order. *)
  Theorem C02_history_reads_back (s0 : integ (F:=F) phys) h b rest :
    (0 < n_particles)%nat -> (N.of_nat n_particles <= 2 ^ 31)%N ->
    (forall p t dt i, (i < n_particles)%nat ->
       valid_record (record_of p t dt i) /\ h_id (record_of p t dt i) = N.of_nat i) ->
    completes iterate s0 h -> h = b ++ rest -> (156 * n_particles <= length b)%nat ->
    exists snaps, Forall (is_snapshot n_particles) snaps /\ h = encode_records (concat snaps) /\
      py_read b = ReadOk (Z.of_nat n_particles)
                    (concat (firstn (length b / (156 * n_particles)) snaps)).
  Proof.
    exact (fun Hn Hn31 Hv Hc E Hl =>
      match completes_snaps phys n_particles record_of observe lf_advance wh_advance ias_advance Hv s0 h Hc with
      | ex_intro _ snaps (conj Hs Eh) =>
        ex_intro _ snaps (conj Hs (conj Eh
          (py_read_prefix n_particles snaps b rest Hn Hn31 Hs (eq_trans (eq_sym E) Eh) Hl)))
      end).
  Qed.

  (** C03.  [start] never modifies an existing file; it refuses if the snapshot
      or the history path exists. *)
  Theorem C03_start_never_destroys (case p : path) lim (d : disk (F:=F) phys) :
    (d_files d p <> None \/ d_hist d <> None -> start case p lim d = Down d) /\
    d_files (disk_of (start case p lim d)) = d_files d /\
    (forall h, d_hist d = Some h -> d_hist (disk_of (start case p lim d)) = Some h).
  Proof. exact (start_preserves phys n_particles init_phys evolution_on table_ends json_roundtrip case p lim d). Qed.

  (** C03.  [resume] keeps exactly the announced prefix of the history, or
      refuses and leaves it untouched. *)
  Theorem C03_resume_keeps_prefix p lim (d : disk (F:=F) phys) h :
    d_hist d = Some h ->
    match resume p lim d with
    | Up p' lim' s pend pc d' =>
      N.of_nat (length h) >= expected_n_bytes s /\
      (exists h', d_hist d' = Some h' /\ N.of_nat (length h') = expected_n_bytes s
                  /\ exists cut, h = h' ++ cut) /\ pend = [] /\ d_files d' = d_files d
    | Down d' => d_hist d' = Some h /\ d_files d' = d_files d
    | Finished _ => False
    end%N.
  Proof. exact (resume_history phys n_particles init_phys evolution_on table_ends json_roundtrip p lim d h). Qed.

  Theorem C03_resume_refuses_short_history p lim (d : disk (F:=F) phys) s1 s :
    load (d_files d) p = Some s1 -> boot s1 = Some s ->
    (N.of_nat (length (match d_hist d with Some h => h | None => [] end)) < expected_n_bytes s)%N ->
    exists d', resume p lim d = Down d'.
  Proof. exact (resume_refuses_short phys n_particles init_phys evolution_on table_ends json_roundtrip p lim d s1 s). Qed.

  (** C04 (binary snapshot paths).  Once a complete snapshot other than the case
      file exists, at every later instant some file can be resumed, at a point
      after the beginning of the simulation. *)
  Theorem C04_snapshot_survives_partial
    (case p : path) (lim0 : bool) (d0 d1 : disk (F:=F) phys) (s0 : integ (F:=F) phys) ls1 m1 ls2 m2 :
    (n0 <? - n1)%num = false ->
    (forall q f s, d_files d0 q = Some (Complete f s) -> q = case) ->
    start case p lim0 d0 = Up p lim0 s0 [] PLoop d1 ->
    (forall n h s, runs iterate (S n) s0 h s -> (i_time s =? n0)%num = false) ->
    p_ext p = Bin -> p <> case ->
    (forall q, In (LResume q) (ls1 ++ ls2) -> p_ext q = Bin /\ q <> case) ->
    steps ls1 (Up p lim0 s0 [] PLoop d1) m1 ->
    (exists q f s, q <> case /\ d_files (disk_of m1) q = Some (Complete f s)) ->
    steps ls2 m1 m2 ->
    exists q, forall lim, exists s d',
      resume q lim (disk_of m2) = Up q lim s [] PLoop d' /\ (i_time s =? n0)%num = false.
  Proof.
    exact (fun Hn Ho Hs Hc => snapshot_survives phys n_particles record_of observe
      lf_advance wh_advance ias_advance init_phys evolution_on table_ends hash_of json_roundtrip
      Hn case p lim0 d0 d1 s0 Ho Hs Hc ls1 m1 ls2 m2).
  Qed.

  (** C06 (limit).  With --limit, no snapshot is written before the limit is
      reached: the snapshot files never change, whatever the recovery period. *)
  Theorem C06_limit_disables_periodic_snapshots p s pend (d : disk (F:=F) phys) ls p' lim' s' pend' d' :
    forallb tau ls = true ->
    steps ls (Up p true s pend PLoop d) (Up p' lim' s' pend' PLoop d') ->
    d_files d' = d_files d /\ lim' = true.
  Proof.
    exact (limit_disables_periodic phys n_particles record_of observe lf_advance wh_advance
      ias_advance init_phys evolution_on table_ends hash_of json_roundtrip p s pend d ls p' lim' s' pend' d').
  Qed.

  (** C06 (limit).  When the limit is reached the state of the last completed
      step is saved and the history is complete. *)
  Theorem C06_limit_saves_last_step p s pend (d : disk (F:=F) phys) ls d' :
    forallb tau ls = true ->
    steps ls (Up p true s pend (PSave true) d) (Down d') ->
    exists s', d_files d' p = Some (Complete (p_ext p) s') /\ eqv phys s' s /\
      match d_hist d' with Some h => h | None => [] end
        = match d_hist d with Some h => h | None => [] end ++ pend.
  Proof.
    exact (limit_saves phys n_particles record_of observe lf_advance wh_advance
      ias_advance init_phys evolution_on table_ends hash_of json_roundtrip p s pend d ls d').
  Qed.
End Generic.
Print Assumptions C01_resume_equals_uninterrupted.
Print Assumptions C01_history_always_a_prefix.
Print Assumptions C02_size_law.
Print Assumptions C02_snapshots_covered.
Print Assumptions C02_history_reads_back.
Print Assumptions C03_start_never_destroys.
Print Assumptions C03_resume_keeps_prefix.
Print Assumptions C03_resume_refuses_short_history.
Print Assumptions C04_snapshot_survives_partial.
Print Assumptions C06_limit_disables_periodic_snapshots.
Print Assumptions C06_limit_saves_last_step.

(** C01: the hypotheses are met by a run with two crashes during snapshot writing,
    each followed by a resume from the backup *)
Example C01_example :
  exists d h, toy_steps (map label_of crashes) (Up (toy_path Bin) false toy_s0 [] PLoop toy_d1) (Finished d)
    /\ d_hist d = Some h /\ length h = 936%nat /\ completes toy_iterate toy_s0 h.
Proof. exact c01_example. Qed.

(** C02: an instance of the size law *)
Example C02_size_law_example :
  exists s d, toy_steps (map label_of first_save) (Up (toy_path Bin) false toy_s0 [] PLoop toy_d1)
                (Up (toy_path Bin) false s [] (PWrite false) d)
    /\ (i_nhist s * 156 * N.of_nat 2)%N = 312%N
    /\ match d_hist d with Some h => length h | None => 0%nat end = 312%nat.
Proof. exact c02_size_law_example. Qed.

(** C02 without the restriction on resuming is false: after resuming from an
    older snapshot the newer one announces more history than there is (and
    cannot be resumed any more, by C03). *)
Theorem C02_snapshots_covered_any_resume_refuted :
  exists m q s, toy_steps (map label_of older_resume) (Up (toy_path Bin) false toy_s0 [] PLoop toy_d1) m /\
    q <> toy_case /\ d_files (disk_of m) q = Some (Complete Bin s) /\
    (N.of_nat (length (match d_hist (disk_of m) with Some x => x | None => [] end)) < i_nhist s * 156 * 2)%N.
Proof. exact c02_snapshots_covered_any_resume_refuted. Qed.
Print Assumptions C02_snapshots_covered_any_resume_refuted.

Example C02_history_example :
  exists h, completes toy_iterate toy_s0 h /\ length h = 936%nat /\
    forall p t dt i, (i < 2)%nat -> (p < 2 ^ 64)%N ->
      valid_record (toy_record p t dt i) /\ h_id (toy_record p t dt i) = N.of_nat i.
Proof. exact c02_history_example. Qed.

(** C03 on concrete disks: a resume that truncates, a refused start *)
Example C03_example :
  (exists s d', toy_resume (toy_path Bin) false
     (mkDisk (fun q => if path_eqb q (toy_path Bin) then Some (Complete Bin (with_limit toy_s0 (z 9))) else None) (Some [1;2;3]%N))
     = Up (toy_path Bin) false s [] PLoop d' /\ d_hist d' = Some []) /\
  toy_start toy_case (toy_path Bin) false (mkDisk (d_files toy_disk) (Some [1]%N))
    = Down (mkDisk (d_files toy_disk) (Some [1]%N)).
Proof. exact c03_example. Qed.

(** C04 "always found at the path given by the user" is false: between the
    renaming of the old snapshot and the creation of the new one, the path given
    by the user does not exist, although a complete snapshot had been there. *)
Theorem C04_always_at_given_path_refuted :
  exists cs1 m1 cs2 m2 s,
    toy_steps (map label_of cs1) (Up (toy_path Bin) false toy_s0 [] PLoop toy_d1) m1 /\
    d_files (disk_of m1) (toy_path Bin) = Some (Complete Bin s) /\
    toy_steps (map label_of cs2) m1 m2 /\
    d_files (disk_of m2) (toy_path Bin) = None /\
    (forall lim, toy_resume (toy_path Bin) lim (disk_of m2) = Down (disk_of m2)).
Proof. exact c04_always_at_given_path_refuted. Qed.
Print Assumptions C04_always_at_given_path_refuted.

(** C04 is false for JSON snapshot paths: the backup of a JSON snapshot gets the
    extension .bin, and after a crash during the following write no file of the
    run can be resumed (even though JSON itself is lossless here). *)
Theorem C04_json_paths_refuted :
  exists ls1 m1 ls2 d s,
    toy_steps ls1 (Up (toy_path Json) false toy_s0 [] PLoop toy_d1) m1 /\
    d_files (disk_of m1) (toy_path Json) = Some (Complete Json s) /\
    toy_steps ls2 m1 (Down d) /\
    (forall q lim, q <> toy_case -> toy_resume q lim d = Down d).
Proof. exact c04_json_paths_refuted. Qed.
Print Assumptions C04_json_paths_refuted.
