(** An executable driver for the machine, used to exhibit concrete executions *)
From Coq Require Import List ZArith NArith Bool Lia SpecFloat.
From Verif Require Import Base.Num Model.History Model.Run Model.Machine Spec.RunSpec.
Import ListNotations.

Inductive cmd :=
| CIter | CLimit | CSave | CRename (stamp : N) | CCreate | CWrite
| CSpill (n : nat) | CCrash | CResume (q : path) (lim : bool).

Section Exec.
  Context {F : Type} `{Num F}.
  Variable phys : Type.
  Variable n_particles : nat.
  Variable record_of : phys -> F -> F -> nat -> hrecord.
  Variable observe : phys -> F -> phys.
  Variable lf_advance : phys -> F -> F -> F -> phys.
  Variable wh_advance : phys -> F -> F -> phys.
  Variable ias_advance : phys -> F -> F -> phys * F * F.
  Variable init_phys : phys -> phys.
  Variable evolution_on : phys -> bool.
  Variable table_ends : phys -> list F.
  Variable hash_of : integ (F:=F) phys -> N.
  Variable json_roundtrip : integ (F:=F) phys -> option (integ (F:=F) phys).
  Notation iterate := (iterate phys n_particles record_of observe lf_advance wh_advance ias_advance).
  Notation step := (step phys n_particles record_of observe lf_advance wh_advance ias_advance
                      init_phys evolution_on table_ends hash_of json_roundtrip).
  Notation steps := (steps phys n_particles record_of observe lf_advance wh_advance ias_advance
                      init_phys evolution_on table_ends hash_of json_roundtrip).
  Notation resume := (resume phys n_particles init_phys evolution_on table_ends json_roundtrip).
  Notation mark_recovery := (mark_recovery phys hash_of).

  Definition label_of (c : cmd) : label :=
    match c with CCrash => LCrash | CResume q _ => LResume q | _ => LTau end.

  Definition exec1 (c : cmd) (m : mstate (F:=F) phys) : option (mstate (F:=F) phys) :=
    match c, m with
    | CSpill n, Up p lim s pend pc d =>
      Some (Up p lim s (skipn n pend) pc (append_hist d (firstn n pend)))
    | CIter, Up p lim s pend PLoop d =>
      match iterate s with
      | (s', out, Completed) => Some (Finished (append_hist d (pend ++ out)))
      | (s', out, Ok trig) =>
        Some (if lim then Up p lim s' (pend ++ out) PLoop d
              else Up p lim s' (pend ++ out) (if trig then PSave false else PLoop) d)
      end
    | CLimit, Up p true s pend PLoop d =>
      match iterate s with
      | (s', out, Completed) => None
      | (s', out, Ok trig) => Some (Up p true s' (pend ++ out) (PSave true) d)
      end
    | CSave, Up p lim s pend (PSave ex) d =>
      Some (Up p lim (mark_recovery s) [] (PRename ex) (append_hist d pend))
    | CRename stamp, Up p lim s pend (PRename ex) d =>
      match d_files d p with
      | Some c => Some (Up p lim s pend (PCreate ex)
              (mkDisk (upd (upd (d_files d) (backup p stamp) (Some c)) p None) (d_hist d)))
      | None => Some (Up p lim s pend (PCreate ex) d)
      end
    | CCreate, Up p lim s pend (PCreate ex) d =>
      Some (Up p lim s pend (PWrite ex) (mkDisk (upd (d_files d) p (Some Partial)) (d_hist d)))
    | CWrite, Up p lim s pend (PWrite ex) d =>
      Some (let d' := mkDisk (upd (d_files d) p (Some (Complete (p_ext p) s))) (d_hist d) in
            if ex then Down (append_hist d' pend) else Up p lim s pend PLoop d')
    | CCrash, Up p lim s pend pc d => Some (Down d)
    | CResume q lim, Down d => Some (resume q lim d)
    | CResume q lim, Finished d => Some (resume q lim d)
    | _, _ => None
    end.

  Lemma exec1_sound c m m' : exec1 c m = Some m' -> step (label_of c) m m'.
  Proof.
    destruct c as [| | |stamp| | |n| |q0 lim0]; destruct m as [p lim s pend pc d|d|d]; cbn [exec1 label_of]; try discriminate.
    - destruct pc; try discriminate.
      destruct (iterate s) as [[s' out] [|trig]] eqn:E; [intros [= <-]; econstructor; eassumption|].
      destruct lim; intros [= <-]; econstructor; eassumption.
    - destruct lim; [|discriminate]. destruct pc; try discriminate.
      destruct (iterate s) as [[s' out] [|trig]] eqn:E; [discriminate|].
      intros [= <-]; eapply st_iter_limit_reached; eassumption.
    - destruct pc; try discriminate. intros [= <-]. constructor.
    - destruct pc; try discriminate. destruct (d_files d p) eqn:E; intros [= <-].
      + now constructor.
      + now constructor.
    - destruct pc; try discriminate. intros [= <-]. constructor.
    - destruct pc; try discriminate. intros [= <-]. constructor.
    - intros [= <-]. rewrite <- (firstn_skipn n pend) at 1. constructor.
    - intros [= <-]. constructor.
    - intros [= <-]. constructor.
    - intros [= <-]. constructor.
  Qed.

  Fixpoint exec (cs : list cmd) (m : mstate (F:=F) phys) : option (mstate (F:=F) phys) :=
    match cs with
    | [] => Some m
    | c :: r => match exec1 c m with Some m' => exec r m' | None => None end
    end.

  Lemma steps_cons l ls m m1 m2 : step l m m1 -> steps ls m1 m2 -> steps (l :: ls) m m2.
  Proof.
    intros Hst Hs. induction Hs as [m1|ls l' m1 m3 m4 Hs IH Hst'].
    - change [l] with ([] ++ [l]). econstructor; [constructor|exact Hst].
    - change (l :: ls ++ [l']) with ((l :: ls) ++ [l']). econstructor; eauto.
  Qed.

  Lemma exec_sound cs m m' : exec cs m = Some m' -> steps (map label_of cs) m m'.
  Proof.
    revert m. induction cs as [|c cs IH]; intros m; simpl.
    - intros [= ->]. constructor.
    - destruct (exec1 c m) as [m1|] eqn:E; [|discriminate]. intros Hx.
      eapply steps_cons; [apply exec1_sound; eassumption|auto].
  Qed.
End Exec.

(** ** A toy simulation over binary64 used in the examples *)
Definition toy_record (p : N) (t dt : f64) (i : nat) : hrecord :=
  Build_hrecord 0 0 (N.of_nat i) 0 0 0 0 0 0 0 0 0 p 0 0 0 0 0 0 0.
Definition toy_observe (p : N) (t : f64) : N := (p + 1)%N.
Definition toy_lf (p : N) (t dt half : f64) : N := ((3 * p + 1) mod 1000)%N.
Definition toy_wh (p : N) (t dt : f64) : N := ((5 * p + 2) mod 1000)%N.
Definition toy_ias (p : N) (t dt : f64) : N * f64 * f64 := (((7 * p + 3) mod 1000)%N, f64_add t dt, dt).
Definition toy_init (p : N) : N := (p + 100)%N.
Definition toy_evo (p : N) : bool := false.
Definition toy_ends (p : N) : list f64 := [].
Definition toy_hash (s : integ (F:=f64) N) : N := i_phys s.
Definition toy_json (s : integ (F:=f64) N) : option (integ (F:=f64) N) := Some s.

Definition toy_iterate := iterate (F:=f64) N 2 toy_record toy_observe toy_lf toy_wh toy_ias.
Definition toy_exec := exec (F:=f64) N 2 toy_record toy_observe toy_lf toy_wh toy_ias toy_init toy_evo toy_ends toy_hash toy_json.
Definition toy_step := step (F:=f64) N 2 toy_record toy_observe toy_lf toy_wh toy_ias toy_init toy_evo toy_ends toy_hash toy_json.
Definition toy_steps := steps (F:=f64) N 2 toy_record toy_observe toy_lf toy_wh toy_ias toy_init toy_evo toy_ends toy_hash toy_json.
Definition toy_start := start (F:=f64) N 2 toy_init toy_evo toy_ends toy_json.
Definition toy_resume := resume (F:=f64) N 2 toy_init toy_evo toy_ends toy_json.

Definition z (n : Z) : f64 := f64_of_Z n.
Definition toy_case : path := mkPath 0 [] Json.
Definition toy_path (e : ext) : path := mkPath 1 [] e.
(** LeapFrog, step 1, recovery every 2, history every 3, until 9 *)
Definition toy_new : integ (F:=f64) N := new_integ N KLeapFrog (z 1) (z 2) (z 3) (z 9) 7%N.
Definition toy_disk : disk (F:=f64) N := initial_disk N toy_case Json toy_new.

(** checking a property of every state of a (finite) uninterrupted run *)
Section Check.
  Context {S : Type} (it : S -> S * list byte * outcome).
  Fixpoint check_run (fuel : nat) (P : S -> bool) (s : S) : bool :=
    match fuel with
    | O => false
    | Datatypes.S fuel =>
      match it s with
      | (_, _, Completed) => true
      | (s', _, Ok _) => P s' && check_run fuel P s'
      end
    end.
  Lemma runs_front n s h s' : runs it (Datatypes.S n) s h s' ->
    exists s1 o trig h', it s = (s1, o, Ok trig) /\ runs it n s1 h' s' /\ h = o ++ h'.
  Proof.
    revert h s'. induction n as [|n IH]; intros h s' Hr.
    - inversion Hr as [|? ? h1 s1 ? o trig Hr1 Hi]; subst. inversion Hr1; subst.
      exists s', o, trig, []. split; [assumption|]. split; [constructor|]. simpl. now rewrite app_nil_r.
    - inversion Hr as [|? ? h1 s1 ? o trig Hr1 Hi]; subst.
      destruct (IH _ _ Hr1) as (s2 & o2 & t2 & h2 & E & Hr2 & ->).
      exists s2, o2, t2, (h2 ++ o). split; [assumption|]. split; [econstructor; eassumption|].
      now rewrite app_assoc.
  Qed.
  Lemma check_run_sound fuel P s : check_run fuel P s = true ->
    forall n h s', runs it (Datatypes.S n) s h s' -> P s' = true.
  Proof.
    revert s. induction fuel as [|fuel IH]; intros s; [discriminate|]. simpl.
    destruct (it s) as [[s1 o] [|trig]] eqn:E; intros Hc n h s' Hr.
    - apply runs_front in Hr as (? & ? & ? & ? & E' & _). congruence.
    - apply andb_prop in Hc as [Hp Hc].
      apply runs_front in Hr as (s2 & o2 & t2 & h2 & E' & Hr & _).
      rewrite E in E'. injection E' as <- <- <-.
      destruct n as [|n]; [inversion Hr; subst; assumption|].
      eapply IH; eassumption.
  Qed.

  Fixpoint run_bytes (fuel : nat) (s : S) : option (list byte) :=
    match fuel with
    | O => None
    | Datatypes.S fuel =>
      match it s with
      | (_, out, Completed) => Some out
      | (s', out, Ok _) => match run_bytes fuel s' with Some h => Some (out ++ h) | None => None end
      end
    end.
  Lemma run_bytes_sound fuel s h : run_bytes fuel s = Some h -> completes it s h.
  Proof.
    revert s h. induction fuel as [|fuel IH]; intros s h; [discriminate|]. simpl.
    destruct (it s) as [[s1 o] [|trig]] eqn:E.
    - intros [= <-]. econstructor; eassumption.
    - destruct (run_bytes fuel s1) as [h1|] eqn:E1; [|discriminate].
      intros [= <-]. eapply completes_later; [eassumption|auto].
  Qed.
End Check.

Definition toy_s0 : integ (F:=f64) N :=
  match toy_start toy_case (toy_path Bin) false toy_disk with
  | Up _ _ s _ _ _ => s | _ => toy_new end.
Definition toy_d1 : disk (F:=f64) N :=
  disk_of (toy_start toy_case (toy_path Bin) false toy_disk).

Lemma toy_neg_one : ((n0 : f64) <? - n1)%num = false. Proof. reflexivity. Qed.
Lemma toy_started e lim : toy_start toy_case (toy_path e) lim toy_disk = Up (toy_path e) lim toy_s0 [] PLoop toy_d1.
Proof. destruct e; vm_compute; reflexivity. Qed.
Lemma toy_only_case q f s : d_files toy_disk q = Some (Complete f s) -> q = toy_case.
Proof.
  unfold toy_disk, initial_disk; cbn -[path_eqb]. unfold path_eqb.
  destruct (path_eq_dec q toy_case); [auto|discriminate].
Qed.
Lemma toy_clock : forall n h s, runs toy_iterate (S n) toy_s0 h s -> (i_time s =? n0)%num = false.
Proof.
  intros n h s Hr. apply negb_true_iff.
  exact (check_run_sound toy_iterate 20 (fun s => negb (i_time s =? n0)%num) toy_s0 eq_refl n h s Hr).
Qed.
