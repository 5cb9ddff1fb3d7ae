(** Concrete states and runs used in Props/ClockProps.v *)
From Coq Require Import List ZArith NArith Bool Lia Reals Lra.
From Verif Require Import Base.Num Model.History Model.Run Model.Machine
  Spec.RunSpec Spec.ClockSpec Proofs.NumLemmas Proofs.MachineProofs Proofs.MachineTheorems
  Proofs.ClockProofs Proofs.MachineExec Proofs.RunExamples.
Import ListNotations.
Open Scope R_scope.

Section ClockAt.
  Variable phys : Type.
  Variable n_particles : nat.
  Variable record_of : phys -> R -> R -> nat -> hrecord.
  Variable observe : phys -> R -> phys.
  Variable lf_advance : phys -> R -> R -> R -> phys.
  Variable wh_advance : phys -> R -> R -> phys.
  Variable ias_advance : phys -> R -> R -> phys * R * R.
  Notation iterate := (iterate phys n_particles record_of observe lf_advance wh_advance ias_advance).
  Lemma clock_at n (s0 : integ (F:=R) phys) h s : fixed_step s0 -> i_time s0 = 0 ->
    runs iterate n s0 h s -> i_time s = INR n * i_dt s0.
  Proof.
    intros Hf Ht Hr.
    destruct (runs_clock phys n_particles record_of observe lf_advance wh_advance ias_advance n s0 h s Hf Hr)
      as (_ & E & _). rewrite E, Ht. lra.
  Qed.
End ClockAt.

Definition unit_record (p : unit) (t dt : R) (i : nat) : hrecord :=
  Build_hrecord 0 0 (N.of_nat i) 0 0 0 0 0 0 0 0 0 0 0 0 0 0 0 0 0.
Definition lagging_iterate :=
  iterate (F:=R) unit 1 unit_record (fun p _ => p) (fun p _ _ _ => p) (fun p _ _ => p) (fun p t dt => (p, t + dt, dt)).
Definition lagging : integ (F:=R) unit := new_integ unit KWHFast 5 100 1 1000 tt.
Definition sampled : integ (F:=R) unit := new_integ unit KLeapFrog 1 100 3 1000 tt.

Lemma lagging_fresh : fixed_step lagging /\ i_time lagging = 0 /\ fresh lagging.
Proof. unfold fixed_step, fresh, lagging, new_integ; simpl; num_simpl. repeat split; try discriminate; try lra. Qed.
Lemma sampled_ok : fixed_step sampled /\ fresh sampled /\ i_dt sampled <= i_hist_period sampled.
Proof. unfold fixed_step, fresh, sampled, new_integ; simpl; num_simpl. repeat split; try discriminate; try lra. Qed.

Definition lag_state (n : N) (t last : R) : integ (F:=R) unit :=
  mkInteg KWHFast tt 5 (1/2*5) t n 100 1 (-(1)) last n 0 1000.
Lemma lag_first : lagging_iterate lagging =
  (lag_state 1 5 0, snapshot_bytes unit 1 unit_record tt 0 5, Ok true).
Proof.
  unfold lagging_iterate, lagging, new_integ, iterate, first_trigger, hist_trigger, rec_trigger, next_last_hist, advance; simpl.
  num_simpl. unfold Rltb, Rleb. destruct (Rlt_dec (-(1)) 0); [|lra]. simpl.
  destruct (Rlt_dec 1000 (0 + 5 + 5)); [lra|].
  unfold lag_state. repeat f_equal; lra.
Qed.
Lemma lag_next n t last : last <= 0 + INR (N.to_nat n) -> 0 <= last -> last + 1 <= t -> t <= 900 ->
  exists trig, lagging_iterate (lag_state n t last) =
    (lag_state (n + 1) (t + 5) (last + 1), snapshot_bytes unit 1 unit_record tt t 5, Ok trig).
Proof.
  intros _ H0 H1 H2.
  unfold lagging_iterate, iterate, first_trigger, hist_trigger, rec_trigger, next_last_hist, advance, lag_state; simpl.
  num_simpl. unfold Rltb, Rleb. destruct (Rlt_dec last 0); [lra|].
  destruct (Rle_dec (last + 1) t); [|lra]. simpl.
  destruct (Rlt_dec 1000 (t + 5 + 5)); [lra|]. eexists. reflexivity.
Qed.
Lemma lagging_history : exists n h s s' out r,
    runs lagging_iterate n lagging h s /\ lagging_iterate s = (s', out, r) /\
    out <> [] /\ i_time s - i_last_hist s' > 2 * i_dt s.
Proof.
  destruct (lag_next 1 5 0 ltac:(simpl; lra) ltac:(lra) ltac:(lra) ltac:(lra)) as [t1 E1].
  destruct (lag_next 2 10 1 ltac:(simpl; lra) ltac:(lra) ltac:(lra) ltac:(lra)) as [t2 E2].
  destruct (lag_next 3 15 2 ltac:(simpl; lra) ltac:(lra) ltac:(lra) ltac:(lra)) as [t3 E3].
  replace (5 + 5) with 10 in E1 by lra. replace (0 + 1) with 1 in E1 by lra.
  replace (10 + 5) with 15 in E2 by lra. replace (1 + 1) with 2 in E2 by lra.
  exists 3%nat. eexists _, _, _, _, _. split.
  - eapply runs_S; [eapply runs_S; [eapply runs_S; [apply runs_0|exact lag_first]|exact E1]|exact E2].
  - split; [exact E3|]. split; [discriminate|]. simpl. lra.
Qed.

(** ** A run with --limit: no snapshot although fifty recovery periods elapse *)
Definition limited_s0 : integ (F:=f64) N :=
  mkInteg KLeapFrog 7%N (z 1) (f64_div (z 1) (z 2)) (z 0) 0%N (z 2) (z 3) (z (-1)) (z (-1)) 0%N 0%N (z 1000).
Definition limited_run (m : mstate (F:=f64) N) : Prop :=
  exists n, toy_steps (repeat LTau n) (Up (toy_path Bin) true limited_s0 [] PLoop toy_d1) m.
Lemma map_label_iter n : map label_of (repeat CIter n) = repeat LTau n.
Proof. induction n; simpl; congruence. Qed.
Definition sf_same (a b : f64) : bool :=
  match a, b with
  | SpecFloat.S754_finite s m e, SpecFloat.S754_finite s' m' e' =>
    Bool.eqb s s' && Pos.eqb m m' && Z.eqb e e'
  | _, _ => false
  end.
Lemma sf_same_eq a b : sf_same a b = true -> a = b.
Proof.
  destruct a as [| | |s m e], b as [| | |s' m' e']; try discriminate. simpl. intros X.
  apply andb_prop in X as [X X3]. apply andb_prop in X as [X1 X2].
  apply Bool.eqb_prop in X1. apply Pos.eqb_eq in X2. apply Z.eqb_eq in X3. congruence.
Qed.
Lemma limited_run_exists : exists m s p pend d,
    limited_run m /\ m = Up p true s pend PLoop d /\
    ((z 100) <=? i_time s)%num = true /\ i_rec_period s = z 2 /\
    (forall q, d_files d q = d_files toy_d1 q).
Proof.
  destruct (exec_check (repeat CIter 100) (Up (toy_path Bin) true limited_s0 [] PLoop toy_d1)
    (fun m => match m with Up p true s pend PLoop d =>
       ((z 100) <=? i_time s)%num && sf_same (i_rec_period s) (z 2) | _ => false end)) as (m & E & Hs & X);
    [vm_compute; reflexivity|].
  destruct m as [p lim s pend pc d| |]; try discriminate X. destruct lim; try discriminate X.
  destruct pc; try discriminate X. apply andb_prop in X as [X1 X2]. apply sf_same_eq in X2.
  rewrite map_label_iter in Hs.
  assert (Hd : d_files d = d_files toy_d1).
  { eapply limit_disables_periodic; [|exact Hs].
    rewrite forallb_forall. intros l Hl. now apply repeat_spec in Hl as ->. }
  eexists _, s, p, pend, d. split; [exists 100%nat; exact Hs|]. split; [reflexivity|].
  split; [exact X1|]. split; [exact X2|]. intros q. now rewrite Hd.
Qed.

(** ** Binary64: ten steps of 0.1 do not reach 10 x 0.1 *)
Definition tenth : f64 := f64_div (z 1) (z 10).
Definition drift_iterate := toy_iterate.
Definition drift : integ (F:=f64) N := new_integ N KWHFast tenth (z 100) (z 100) (z 1000) 7%N.
Section RunN.
  Context {S : Type} (it : S -> S * list byte * outcome).
  Fixpoint run_n (n : nat) (s : S) : option (list byte * S) :=
    match n with
    | O => Some ([], s)
    | Datatypes.S n => match run_n n s with
             | Some (h, s1) => match it s1 with (s2, o, Ok _) => Some (h ++ o, s2) | _ => None end
             | None => None end
    end.
  Lemma run_n_sound n s h s' : run_n n s = Some (h, s') -> runs it n s h s'.
  Proof.
    revert h s'. induction n as [|n IH]; simpl; intros h s'.
    - intros [= <- <-]. constructor.
    - destruct (run_n n s) as [[h1 s1]|]; [|discriminate].
      destruct (it s1) as [[s2 o] [|t]] eqn:E; [discriminate|]. intros [= <- <-].
      econstructor; [apply IH; reflexivity|exact E].
  Qed.
End RunN.
Lemma drift_exists : exists h s, runs drift_iterate 10 drift h s /\
    i_dt s = tenth /\ (i_time s =? f64_mul (z 10) tenth)%num = false.
Proof.
  assert (X : match run_n drift_iterate 10 drift with
    | Some (h, s) => sf_same (i_dt s) tenth && negb (i_time s =? f64_mul (z 10) tenth)%num
    | None => false end = true) by (vm_compute; reflexivity).
  destruct (run_n drift_iterate 10 drift) as [[h s]|] eqn:E; [|discriminate X].
  apply andb_prop in X as [X1 X2]. exists h, s. split; [exact (run_n_sound _ _ _ _ _ E)|].
  split; [now apply sf_same_eq|]. now apply negb_true_iff.
Qed.

Lemma real_start : exists d0 d1 s0 case p,
  (forall q f s, d_files d0 q = Some (Complete f s) -> q = case) /\
  start unit 2 (fun x => x) (fun _ => false) (fun _ => []) Some case p false d0 = Up p false s0 [] PLoop d1 /\
  p_ext p = Bin /\ p <> case /\ fixed_step s0 /\ fresh s0 /\ 0 <= i_rec_period s0.
Proof.
  exists (initial_disk unit toy_case Json sampled), (mkDisk (d_files (initial_disk unit toy_case Json sampled)) (Some [])),
    sampled, toy_case, (toy_path Bin).
  split; [|split; [|split; [reflexivity|split; [discriminate|split; [apply sampled_ok|split; [apply sampled_ok|]]]]]].
  - intros q f s. cbn. unfold path_eqb. destruct (path_eq_dec q toy_case); [auto|discriminate].
  - unfold start, load, initial_disk; cbn -[boot sampled].
    rewrite boot_after_restore by exact neg_one_R.
    unfold after_restore. destruct (i_time sampled =? n0)%num; reflexivity.
  - unfold sampled, new_integ. simpl. num_simpl. lra.
Qed.
Lemma started_state : exists (s : integ (F:=R) unit), i_time s <= i_limit s /\ 0 < i_time s.
Proof. exists (mkInteg KWHFast tt 5 (5/2) 5 1 100 1 (-1) 0 1 0 1000). simpl. lra. Qed.

Lemma new_fixed phys k dt rec hist limit (p : phys) : k <> KIas15 -> 0 < dt ->
  fixed_step (new_integ phys k dt rec hist limit p) /\ fresh (new_integ phys k dt rec hist limit p) /\
  i_limit (new_integ phys k dt rec hist limit p) = limit /\ i_dt (new_integ phys k dt rec hist limit p) = dt.
Proof.
  intros Hk Hd. unfold fixed_step, fresh, new_integ. cbn. num_simpl. repeat split; auto; lra.
Qed.
