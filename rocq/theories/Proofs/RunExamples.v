(** Concrete executions of the machine (binary64 clock, toy physics), used as
    examples and counterexamples in Props/RunProps.v *)
From Coq Require Import List ZArith NArith Bool Lia.
From Verif Require Import Base.Num Model.History Model.Run Model.Machine Model.Cli
  Spec.HistorySpec Spec.RunSpec
  Proofs.HistoryProofs Proofs.MachineProofs Proofs.MachineTheorems Proofs.MachineExec.
Import ListNotations.

(** *** Concrete executions meeting the hypotheses (binary64 clock, toy physics) *)
Lemma exec_check cs m P :
  match toy_exec cs m with Some m' => P m' | None => false end = true ->
  exists m', toy_exec cs m = Some m' /\ toy_steps (map label_of cs) m m' /\ P m' = true.
Proof.
  destruct (toy_exec cs m) as [m'|] eqn:E; [|discriminate]. intros HP. exists m'.
  split; [reflexivity|]. split; [|exact HP].
  exact (exec_sound (F:=f64) N 2 toy_record toy_observe toy_lf toy_wh toy_ias toy_init toy_evo toy_ends toy_hash toy_json _ _ _ E).
Qed.
Definition hist_len (d : disk (F:=f64) N) : nat := match d_hist d with Some h => length h | None => 0 end.
Definition complete_at (d : disk (F:=f64) N) (q : path) (e : ext) : bool :=
  match d_files d q with Some (Complete f _) => ext_eqb f e | _ => false end.
Definition absent_at (d : disk (F:=f64) N) (q : path) : bool :=
  match d_files d q with None => true | _ => false end.
Lemma complete_at_spec d q e : complete_at d q e = true -> exists s, d_files d q = Some (Complete e s).
Proof. unfold complete_at. destruct (d_files d q) as [[|f s]|]; try discriminate. destruct f, e; try discriminate; eauto. Qed.
Lemma absent_at_spec d q : absent_at d q = true -> d_files d q = None.
Proof. unfold absent_at. now destruct (d_files d q). Qed.
Lemma path_eqb_eq p q : path_eqb p q = true -> p = q.
Proof. unfold path_eqb. now destruct (path_eq_dec p q). Qed.

Definition crashes : list cmd :=
  [CIter; CSave; CRename 0; CCreate; CWrite; CIter; CIter; CIter; CSave; CRename 0; CCreate; CCrash;
   CResume (backup (toy_path Bin) 0) false; CIter; CSpill 100; CIter; CIter; CSave; CRename 1; CCreate; CWrite;
   CIter; CIter; CIter; CSave; CRename 1; CCreate; CCrash;
   CResume (backup (backup (toy_path Bin) 0) 1) true; CIter; CIter; CIter; CIter; CIter].

Lemma c01_example :
  exists d h, toy_steps (map label_of crashes) (Up (toy_path Bin) false toy_s0 [] PLoop toy_d1) (Finished d)
    /\ d_hist d = Some h /\ length h = 936%nat /\ completes toy_iterate toy_s0 h.
Proof.
  destruct (exec_check crashes (Up (toy_path Bin) false toy_s0 [] PLoop toy_d1)
    (fun m => match m with Finished d => Nat.eqb (hist_len d) 936 | _ => false end)) as (m & E & Hs & HP);
    [vm_compute; reflexivity|].
  destruct m as [| |d]; [discriminate HP|discriminate HP|].
  exists d. unfold hist_len in HP. destruct (d_hist d) as [h|] eqn:Eh; [|discriminate HP].
  exists h. split; [exact Hs|]. split; [reflexivity|]. split; [now apply Nat.eqb_eq|].
  destruct (resumed_equals_uninterrupted (F:=f64) N 2 toy_record toy_observe toy_lf toy_wh toy_ias toy_init toy_evo toy_ends toy_hash toy_json
      toy_neg_one toy_case (toy_path Bin) false toy_disk toy_d1 toy_s0
      toy_only_case (toy_started Bin false) toy_clock (map label_of crashes) d) as (h' & Eh' & Hc).
  - now left.
  - simpl. intros q Hq. left. repeat (destruct Hq as [Hq|Hq]; [try discriminate Hq; injection Hq as <-; reflexivity|]). contradiction.
  - exact Hs.
  - rewrite Eh in Eh'. injection Eh' as <-. exact Hc.
Qed.

(** the same execution meets the hypotheses of the other theorems: here, up to the
    middle of the second snapshot *)
Definition first_save : list cmd := [CIter; CSave; CRename 0; CCreate].
Lemma c02_size_law_example :
  exists s d, toy_steps (map label_of first_save) (Up (toy_path Bin) false toy_s0 [] PLoop toy_d1)
                (Up (toy_path Bin) false s [] (PWrite false) d)
    /\ (i_nhist s * 156 * N.of_nat 2)%N = 312%N
    /\ match d_hist d with Some h => length h | None => 0%nat end = 312%nat.
Proof.
  destruct (exec_check first_save (Up (toy_path Bin) false toy_s0 [] PLoop toy_d1)
    (fun m => match m with
              | Up p false s [] (PWrite false) d =>
                path_eqb p (toy_path Bin) && N.eqb (i_nhist s * 156 * 2) 312 && Nat.eqb (hist_len d) 312
              | _ => false end)) as (m & E & Hs & X);
    [vm_compute; reflexivity|].
  destruct m as [p lim s pend pc d| |]; try discriminate X.
  destruct lim; try discriminate X. destruct pend; try discriminate X. destruct pc as [| | | |ex]; try discriminate X.
  destruct ex; try discriminate X.
  apply andb_prop in X as [X X3]. apply andb_prop in X as [X1 X2].
  apply path_eqb_eq in X1 as ->.
  exists s, d. split; [exact Hs|]. split; [now apply N.eqb_eq in X2|now apply Nat.eqb_eq in X3].
Qed.

(** C02 without the restriction on resuming is false: after resuming from an
    older snapshot the newer one announces more history than there is (and
    cannot be resumed any more: C03). *)
Definition older_resume : list cmd :=
  [CIter; CSave; CRename 0; CCreate; CWrite; CIter; CIter; CIter; CSave; CRename 0; CCreate; CWrite; CCrash;
   CResume (backup (toy_path Bin) 0) false].
Lemma c02_snapshots_covered_any_resume_refuted :
  exists m q s, toy_steps (map label_of older_resume) (Up (toy_path Bin) false toy_s0 [] PLoop toy_d1) m /\
    q <> toy_case /\ d_files (disk_of m) q = Some (Complete Bin s) /\
    (N.of_nat (length (match d_hist (disk_of m) with Some x => x | None => [] end)) < i_nhist s * 156 * 2)%N.
Proof.
  destruct (exec_check older_resume (Up (toy_path Bin) false toy_s0 [] PLoop toy_d1)
    (fun m => match d_files (disk_of m) (toy_path Bin) with
                | Some (Complete Bin s) => N.ltb (N.of_nat (length (match d_hist (disk_of m) with Some x => x | None => [] end))) (i_nhist s * 156 * 2)
                | _ => false end)) as (m & E & Hs & X); [vm_compute; reflexivity|].
  destruct (d_files (disk_of m) (toy_path Bin)) as [[|f s]|] eqn:Ef; try discriminate X.
  destruct f; [discriminate X|]. apply N.ltb_lt in X.
  exists m, (toy_path Bin), s. repeat split; auto. discriminate.
Qed.

(** C02: the toy history reads back *)
Lemma c02_history_example :
  exists h, completes toy_iterate toy_s0 h /\ length h = 936%nat /\
    forall p t dt i, (i < 2)%nat -> (p < 2 ^ 64)%N ->
      valid_record (toy_record p t dt i) /\ h_id (toy_record p t dt i) = N.of_nat i.
Proof.
  assert (X : match run_bytes toy_iterate 20 toy_s0 with Some h => Nat.eqb (length h) 936 | None => false end = true)
    by (vm_compute; reflexivity).
  destruct (run_bytes toy_iterate 20 toy_s0) as [h|] eqn:E; [|discriminate X].
  exists h. split; [exact (run_bytes_sound _ _ _ _ E)|]. split; [now apply Nat.eqb_eq|].
  intros p t dt i Hi Hp. split; [|reflexivity]. split.
  - repeat constructor; cbn; auto; reflexivity.
  - cbn. destruct i as [|[|i]]; [reflexivity|reflexivity|lia].
Qed.

(** C03 on concrete disks: a refused start, a resume that truncates, a refusal *)
Lemma c03_example :
  (exists s d', toy_resume (toy_path Bin) false
     (mkDisk (fun q => if path_eqb q (toy_path Bin) then Some (Complete Bin (with_limit toy_s0 (z 9))) else None) (Some [1;2;3]%N))
     = Up (toy_path Bin) false s [] PLoop d' /\ d_hist d' = Some []) /\
  toy_start toy_case (toy_path Bin) false (mkDisk (d_files toy_disk) (Some [1]%N))
    = Down (mkDisk (d_files toy_disk) (Some [1]%N)).
Proof.
  split; [|reflexivity].
  eexists _, _. split; vm_compute; reflexivity.
Qed.

(** C04 as stated ("found at the path given by the user") is false: between the
    renaming of the old snapshot and the creation of the new one, the path given
    by the user does not exist, although a complete snapshot had been there. *)
Definition window : list cmd := [CIter; CSave; CRename 0; CCreate; CWrite; CIter; CIter; CIter; CSave; CRename 0].
Lemma c04_always_at_given_path_refuted :
  exists cs1 m1 cs2 m2 s,
    toy_steps (map label_of cs1) (Up (toy_path Bin) false toy_s0 [] PLoop toy_d1) m1 /\
    d_files (disk_of m1) (toy_path Bin) = Some (Complete Bin s) /\
    toy_steps (map label_of cs2) m1 m2 /\
    d_files (disk_of m2) (toy_path Bin) = None /\
    (forall lim, toy_resume (toy_path Bin) lim (disk_of m2) = Down (disk_of m2)).
Proof.
  destruct (exec_check (firstn 5 window) (Up (toy_path Bin) false toy_s0 [] PLoop toy_d1)
    (fun m => complete_at (disk_of m) (toy_path Bin) Bin
       && match toy_exec (skipn 5 window) m with Some m2 => absent_at (disk_of m2) (toy_path Bin) | None => false end))
    as (m1 & E1 & Hs1 & X); [vm_compute; reflexivity|].
  apply andb_prop in X as [X1 X2]. apply complete_at_spec in X1 as [s Es].
  apply exec_check in X2 as (m2 & E2 & Hs2 & X2). apply absent_at_spec in X2.
  exists (firstn 5 window), m1, (skipn 5 window), m2, s.
  repeat split; auto.
  intros lim. unfold toy_resume, resume, load. now rewrite X2.
Qed.


(** which files an execution without resume can touch *)
Section Untouched.
  Context {F : Type} `{Num F}.
  Variable phys : Type.
  Variable n_particles : nat.
  Variable record_of : phys -> F -> F -> nat -> hrecord.
  Variable observe : phys -> F -> phys.
  Variable lf_advance : phys -> F -> F -> F -> phys.
  Variable wh_advance : phys -> F -> F -> phys.
  Variable ias_advance : phys -> F -> F -> phys * F * F.
  Variable init_phys : phys -> phys.
  Variable evolution_on : phys -> bool.
  Variable table_ends : phys -> list F.
  Variable hash_of : integ (F:=F) phys -> N.
  Variable json_roundtrip : integ (F:=F) phys -> option (integ (F:=F) phys).
  Notation exec1 := (exec1 phys n_particles record_of observe lf_advance wh_advance ias_advance
                      init_phys evolution_on table_ends hash_of json_roundtrip).
  Notation exec := (exec phys n_particles record_of observe lf_advance wh_advance ias_advance
                      init_phys evolution_on table_ends hash_of json_roundtrip).
  Definition on_path (p : path) (m : mstate (F:=F) phys) : Prop :=
    match m with Up q _ _ _ _ _ => q = p | _ => True end.
  Definition plain (p q : path) (c : cmd) : Prop :=
    match c with CResume _ _ => False | CRename st => q <> backup p st | _ => True end.

  Lemma upd_other (f : path -> option (content (F:=F) phys)) p c q : q <> p -> upd f p c q = f q.
  Proof. intros Hq. unfold upd, path_eqb. destruct (path_eq_dec q p); [contradiction|reflexivity]. Qed.

  Lemma exec1_untouched p q c m m' : on_path p m -> q <> p -> plain p q c -> exec1 c m = Some m' ->
    on_path p m' /\ d_files (disk_of m') q = d_files (disk_of m) q.
  Proof.
    intros Ho Hq Hc E.
    destruct c as [| | |stamp| | |nn| |q0 lim0]; destruct m as [p1 lim s pend pc d|d|d]; cbn in E; try discriminate E; cbn in Ho; subst;
      try contradiction; cbn in Hc; try (destruct pc; try discriminate E).
    - destruct (iterate phys n_particles record_of observe lf_advance wh_advance ias_advance s) as [[s1 o] [|t]];
        [|destruct lim]; injection E as <-; split; reflexivity || exact I.
    - destruct lim; [|discriminate E].
      destruct (iterate phys n_particles record_of observe lf_advance wh_advance ias_advance s) as [[s1 o] [|t]];
        [discriminate E|]; injection E as <-; split; reflexivity.
    - destruct lim; discriminate E.
    - destruct lim; discriminate E.
    - destruct lim; discriminate E.
    - destruct lim; discriminate E.
    - injection E as <-; split; reflexivity.
    - destruct (d_files d p); injection E as <-; split; try reflexivity. cbn. now rewrite !upd_other.
    - injection E as <-; split; [reflexivity|]. cbn. now rewrite upd_other.
    - injection E as <-. destruct exit_after; (split; [reflexivity || exact I|]); cbn; now rewrite upd_other.
    - injection E as <-; split; reflexivity.
    - injection E as <-; split; reflexivity.
    - injection E as <-; split; reflexivity.
    - injection E as <-; split; reflexivity.
    - injection E as <-; split; reflexivity.
    - injection E as <-; split; reflexivity.
    - injection E as <-; split; reflexivity.
    - injection E as <-; split; reflexivity.
    - injection E as <-; split; reflexivity.
    - injection E as <-; split; reflexivity.
  Qed.

  Lemma exec_untouched p q cs m m' : on_path p m -> q <> p -> Forall (plain p q) cs -> exec cs m = Some m' ->
    d_files (disk_of m') q = d_files (disk_of m) q.
  Proof.
    revert m. induction cs as [|c cs IH]; intros m Ho Hq Hf; simpl.
    - now intros [= ->].
    - destruct (exec1 c m) as [m1|] eqn:E; [|discriminate]. intros E2.
      inversion Hf as [|? ? Hc Hr]; subst.
      destruct (exec1_untouched p q c m m1 Ho Hq Hc E) as [Ho1 E1].
      rewrite (IH m1 Ho1 Hq Hr E2). exact E1.
  Qed.
End Untouched.

Definition json_window : list cmd := window ++ [CCrash].
Lemma c04_json_paths_refuted :
  exists ls1 m1 ls2 d s,
    toy_steps ls1 (Up (toy_path Json) false toy_s0 [] PLoop toy_d1) m1 /\
    d_files (disk_of m1) (toy_path Json) = Some (Complete Json s) /\
    toy_steps ls2 m1 (Down d) /\
    (forall q lim, q <> toy_case -> toy_resume q lim d = Down d).
Proof.
  destruct (exec_check (firstn 5 json_window) (Up (toy_path Json) false toy_s0 [] PLoop toy_d1)
    (fun m => complete_at (disk_of m) (toy_path Json) Json
       && match m with Up p _ _ _ _ _ => path_eqb p (toy_path Json) | _ => false end
       && match toy_exec (skipn 5 json_window) m with
          | Some m2 => (fun m2 => match m2 with
               | Down d => absent_at d (toy_path Json) && complete_at d (backup (toy_path Json) 0) Json
               | _ => false end) m2
          | None => false end))
    as (m1 & E1 & Hs1 & X); [vm_compute; reflexivity|].
  apply andb_prop in X as [X X3]. apply andb_prop in X as [X1 X2]. apply complete_at_spec in X1 as [s Es].
  apply exec_check in X3 as (m2 & E2 & Hs2 & X3).
  destruct m2 as [|d|]; try discriminate X3.
  apply andb_prop in X3 as [X3 X4]. apply absent_at_spec in X3. apply complete_at_spec in X4 as [s4 X4].
  destruct m1 as [p1 l1 s1 pe1 pc1 dd1|dd1|dd1]; try discriminate X2.
  apply path_eqb_eq in X2 as ->.
  eexists _, _, _, d, s.
  split; [exact Hs1|]. split; [exact Es|]. split; [exact Hs2|].
  intros q lim Hq. unfold toy_resume, resume, load.
  destruct (path_eq_dec q (toy_path Json)) as [->|Hq1].
  { now rewrite X3. }
  destruct (path_eq_dec q (backup (toy_path Json) 0)) as [->|Hq2].
  { now rewrite X4. }
  assert (Hf1 : Forall (plain (toy_path Json) q) (firstn 5 json_window))
    by (repeat constructor; cbn [plain]; auto).
  assert (Hf2 : Forall (plain (toy_path Json) q) (skipn 5 json_window))
    by (repeat constructor; cbn [plain]; auto).
  pose proof (exec_untouched (F:=f64) N 2 toy_record toy_observe toy_lf toy_wh toy_ias toy_init toy_evo toy_ends toy_hash toy_json
    (toy_path Json) q _ (Up (toy_path Json) false toy_s0 [] PLoop toy_d1) _ eq_refl Hq1 Hf1 E1) as U1.
  pose proof (exec_untouched (F:=f64) N 2 toy_record toy_observe toy_lf toy_wh toy_ias toy_init toy_evo toy_ends toy_hash toy_json
    (toy_path Json) q _ (Up (toy_path Json) l1 s1 pe1 pc1 dd1) (Down d) eq_refl Hq1 Hf2 E2) as U2.
  cbn [disk_of] in U1, U2.
  pose proof (start_Up _ _ _ _ _ _ _ _ _ _ _ _ _ _ _ _ (toy_started Json false)) as (_ & _ & _ & _ & _ & Hfd & _).
  assert (Ht : d_files toy_disk q = None).
  { unfold toy_disk, initial_disk; cbn [d_files]. unfold path_eqb. destruct (path_eq_dec q toy_case); [contradiction|reflexivity]. }
  rewrite U2, U1, Hfd, Ht. reflexivity.
Qed.
