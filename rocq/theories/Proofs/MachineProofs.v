From Coq Require Import List ZArith NArith Bool Lia.
From Verif Require Import Base.Num Model.History Model.Run Model.Machine
  Spec.HistorySpec Spec.RunSpec Proofs.HistoryProofs.
Import ListNotations.

Lemma path_eqb_refl p : path_eqb p p = true.
Proof. unfold path_eqb. destruct (path_eq_dec p p); congruence. Qed.
Lemma path_eqb_eq p q : path_eqb p q = true <-> p = q.
Proof. unfold path_eqb. destruct (path_eq_dec p q); split; congruence. Qed.
Lemma path_eqb_neq p q : path_eqb p q = false <-> p <> q.
Proof. unfold path_eqb. destruct (path_eq_dec p q); split; congruence. Qed.

Lemma backup_ne p c : backup p c <> p.
Proof.
  intros E. apply (f_equal p_stamps) in E. simpl in E.
  apply (f_equal (@length _)) in E. rewrite app_length in E. simpl in E. lia.
Qed.

Section MachineProofs.
  Context {F : Type} `{Num F}.
  Local Open Scope num_scope.
  Variable phys : Type.
  Variable n_particles : nat.
  Variable record_of : phys -> F -> F -> nat -> hrecord.
  Variable observe : phys -> F -> phys.
  Variable lf_advance : phys -> F -> F -> F -> phys.
  Variable wh_advance : phys -> F -> F -> phys.
  Variable ias_advance : phys -> F -> F -> phys * F * F.
  Variable init_phys : phys -> phys.
  Variable evolution_on : phys -> bool.
  Variable table_ends : phys -> list F.
  Variable hash_of : integ (F:=F) phys -> N.
  Variable json_roundtrip : integ (F:=F) phys -> option (integ (F:=F) phys).

  Notation state := (integ (F:=F) phys).
  Notation iterate := (iterate phys n_particles record_of observe lf_advance wh_advance ias_advance).
  Notation boot := (boot phys init_phys evolution_on table_ends).
  Notation load := (load phys json_roundtrip).
  Notation after_restore := (after_restore phys init_phys).
  Notation mark_recovery := (mark_recovery phys hash_of).
  Notation expected_n_bytes := (expected_n_bytes phys n_particles).
  Notation step := (step phys n_particles record_of observe lf_advance wh_advance ias_advance
                      init_phys evolution_on table_ends hash_of json_roundtrip).
  Notation steps := (steps phys n_particles record_of observe lf_advance wh_advance ias_advance
                      init_phys evolution_on table_ends hash_of json_roundtrip).
  Notation start := (start phys n_particles init_phys evolution_on table_ends json_roundtrip).
  Notation resume := (resume phys n_particles init_phys evolution_on table_ends json_roundtrip).
  Notation mstate := (mstate (F:=F) phys).
  Notation disk := (disk (F:=F) phys).
  Notation runs := (runs iterate).
  Notation completes := (completes iterate).

  (** ** general facts about [completes] and [runs] *)

  Lemma runs_completes n s h s' s'' out :
    runs n s h s' -> iterate s' = (s'', out, Completed) -> completes s (h ++ out).
  Proof.
    intros Hr Hi.
    assert (Hc : completes s' out) by (econstructor; eassumption). clear Hi.
    revert out Hc. induction Hr as [|n s h s1 s2 o trig Hr IH Hi]; intros out Hc; [assumption|].
    rewrite <- app_assoc. apply IH. eapply completes_later; eassumption.
  Qed.

  (** [iterate] is a function, so [completes] is deterministic *)
  Lemma completes_det s h1 h2 : completes s h1 -> completes s h2 -> h1 = h2.
  Proof.
    intros H1. revert h2. induction H1 as [s s' out E|s s' out trig h E Hc IH]; intros h2 H2.
    - inversion H2; subst; congruence.
    - inversion H2; subst; [congruence|].
      match goal with E1 : iterate s = _, E2 : iterate s = _ |- _ => rewrite E1 in E2; inversion E2; subst end.
      f_equal. now apply IH.
  Qed.

  (** ** states up to the two fields that a recovery snapshot changes *)
  Notation erase := (erase phys).
  Notation eqv := (eqv phys).

  Lemma eqv_refl (a : state) : eqv a a. Proof. reflexivity. Qed.
  Lemma eqv_sym (a b : state) : eqv a b -> eqv b a. Proof. unfold RunSpec.eqv; congruence. Qed.
  Lemma eqv_trans (a b c : state) : eqv a b -> eqv b c -> eqv a c. Proof. unfold RunSpec.eqv; congruence. Qed.

  Lemma eqv_mark s : eqv (mark_recovery s) s. Proof. reflexivity. Qed.

  Lemma eqv_iterate a b a' o r :
    eqv a b -> iterate a = (a', o, r) ->
    exists b' r', iterate b = (b', o, r') /\ eqv a' b' /\
      (r = Completed <-> r' = Completed).
  Proof.
    destruct a as [k p dt hf t it rp hp lr lh nh hs lm].
    destruct b as [k2 p2 dt2 hf2 t2 it2 rp2 hp2 lr2 lh2 nh2 hs2 lm2].
    unfold RunSpec.eqv, RunSpec.erase; simpl. intros [=]; subst.
    unfold Run.iterate, first_trigger, hist_trigger, next_last_hist, advance; simpl.
    set (due := _ || _).
    match goal with |- context [let '(_, _) := ?x in _] => destruct x as [[p1 t1] dt1] end.
    intros [= <- <- <-].
    destruct (t1 + dt1 >? lm2); (eexists; eexists; split; [reflexivity|split; [reflexivity|split; congruence]]).
  Qed.

  Lemma eqv_runs n a b h a' :
    eqv a b -> runs n a h a' -> exists b', runs n b h b' /\ eqv a' b'.
  Proof.
    intros Hab Hr. induction Hr as [s|n s h s1 s2 o trig Hr IH Hi].
    - exists b. split; [constructor|assumption].
    - destruct (IH Hab) as (b1 & Hb1 & He1).
      destruct (eqv_iterate _ _ _ _ _ He1 Hi) as (b2 & r' & Hb2 & He2 & Hc).
      destruct r' as [|t']; [exfalso; destruct Hc as [_ Hc]; now discriminate (Hc eq_refl)|].
      exists b2. split; [econstructor; eassumption|assumption].
  Qed.

  Lemma eqv_completes a b h : eqv a b -> completes a h -> completes b h.
  Proof.
    intros Hab Hc. revert b Hab.
    induction Hc as [s s' out E|s s' out trig h E Hc IH]; intros b Hab;
      destruct (eqv_iterate _ _ _ _ _ Hab E) as (b' & r' & Eb & Hb & Hr).
    - destruct r'; [econstructor; eassumption|].
      destruct Hr as [Hr _]; discriminate (Hr eq_refl).
    - destruct r'; [destruct Hr as [_ Hr]; discriminate (Hr eq_refl)|].
      eapply completes_later; eauto.
  Qed.

  Lemma eqv_nhist (a b : state) : eqv a b -> i_nhist a = i_nhist b.
  Proof. intros E. apply (f_equal i_nhist) in E. exact E. Qed.
  Lemma eqv_time (a b : state) : eqv a b -> i_time a = i_time b.
  Proof. intros E. apply (f_equal i_time) in E. exact E. Qed.
  Lemma eqv_expected a b : eqv a b -> expected_n_bytes a = expected_n_bytes b.
  Proof. intros E. unfold Machine.expected_n_bytes. now rewrite (eqv_nhist _ _ E). Qed.

  (** ** size law *)
  Lemma snapshot_bytes_length p t dt :
    length (snapshot_bytes phys n_particles record_of p t dt) = (n_bytes_per_particle * n_particles)%nat.
  Proof. unfold snapshot_bytes. now rewrite encode_records_length, map_length, seq_length. Qed.

  Lemma iterate_size s s' out r : iterate s = (s', out, r) ->
    N.of_nat (length out) = ((i_nhist s' - i_nhist s) * N.of_nat n_bytes_per_particle * N.of_nat n_particles)%N
    /\ (i_nhist s <= i_nhist s')%N.
  Proof.
    unfold Run.iterate. set (due := _ || _).
    destruct (advance _ _ _ _ _ _) as [[p1 t1] dt1].
    intros [= <- <- _]. simpl.
    destruct due.
    - rewrite snapshot_bytes_length, Nat2N.inj_mul. split; [|lia].
      replace (i_nhist s + 1 - i_nhist s)%N with 1%N by lia. now rewrite N.mul_1_l.
    - simpl. rewrite N.sub_diag; split; [reflexivity|lia].
  Qed.

  Lemma runs_size n s h s' : runs n s h s' ->
    (expected_n_bytes s + N.of_nat (length h) = expected_n_bytes s')%N.
  Proof.
    induction 1 as [s|n s h s1 s2 o trig Hr IH Hi].
    - simpl; lia.
    - apply iterate_size in Hi as [Hi1 Hi2]. rewrite app_length, Nat2N.inj_add.
      rewrite N.add_assoc, IH, Hi1. unfold Machine.expected_n_bytes.
      assert (E : i_nhist s2 = (i_nhist s1 + (i_nhist s2 - i_nhist s1))%N) by lia.
      rewrite <- !N.mul_add_distr_r, <- E. reflexivity.
  Qed.

  (** ** options left at -1 change nothing *)
  Hypothesis neg_one : (n0 <? - n1) = false.

  Lemma boot_after_restore s : boot s = Some (after_restore s).
  Proof.
    unfold Machine.boot, set_time_limit, set_snapshot_periods. rewrite neg_one. simpl.
    now destruct (after_restore s).
  Qed.

  Lemma boot_started s : (i_time s =? n0) = false -> boot s = Some s.
  Proof. intros E. rewrite boot_after_restore. unfold Run.after_restore. now rewrite E. Qed.

  (** ** the invariant of C01 *)
  Variable s0 : state.    (* the state from which the simulation starts *)
  Hypothesis nhist0 : expected_n_bytes s0 = 0%N.
  (** the clock never reads zero again *)
  Hypothesis clock_moves : forall n h s, runs (S n) s0 h s -> (i_time s =? n0) = false.

  (** JSON snapshots of this simulation read back exactly *)
  Definition json_exact : Prop :=
    forall n h s sn, runs (S n) s0 h sn -> eqv s sn -> json_roundtrip s = Some s.

  Definition allowed (q : path) : Prop := p_ext q = Bin \/ json_exact.

  Definition reachable_state (s : state) (h : list byte) : Prop :=
    exists n sn, runs n s0 h sn /\ eqv s sn.
  Definition reachable_state1 (s : state) (h : list byte) : Prop :=
    exists n sn, runs (S n) s0 h sn /\ eqv s sn.

  Lemma reachable1_started s h : reachable_state1 s h -> (i_time s =? n0) = false.
  Proof. intros (n & sn & Hr & He). rewrite (eqv_time _ _ He). eapply clock_moves; eassumption. Qed.

  Lemma reachable1_reachable s h : reachable_state1 s h -> reachable_state s h.
  Proof. intros (n & sn & ? & ?); exists (S n), sn; auto. Qed.

  (** two ideal outputs are comparable *)
  Lemma runs_split m s h' s' : runs m s h' s' ->
    forall n, (n <= m)%nat -> exists h1 s1 r, runs n s h1 s1 /\ h' = h1 ++ r.
  Proof.
    induction 1 as [s|m s h s1 s2 o trig Hr IH Hi]; intros n Hn.
    - exists [], s, []. replace n with 0%nat by lia. split; [constructor|reflexivity].
    - destruct (Nat.eq_dec n (S m)) as [->|Hne].
      + exists (h ++ o), s2, []. split; [econstructor; eassumption|now rewrite app_nil_r].
      + destruct (IH n ltac:(lia)) as (h1 & s3 & r & Hr1 & ->).
        exists h1, s3, (r ++ o). split; [assumption|now rewrite app_assoc].
  Qed.

  Lemma runs_det n s h1 s1 h2 s2 : runs n s h1 s1 -> runs n s h2 s2 -> h1 = h2 /\ s1 = s2.
  Proof.
    intros Hr. revert h2 s2. induction Hr as [s|n s h s1 s3 o trig Hr IH Hi]; intros h2 s2 H2.
    - inversion H2; auto.
    - inversion H2 as [|? ? h' s1' ? o' trig' Hr' Hi']; subst.
      destruct (IH _ _ Hr') as [-> ->]. rewrite Hi in Hi'. inversion Hi'; subst; auto.
  Qed.

  Lemma runs_then_completes n s h s1 h' : runs n s h s1 -> completes s h' ->
    exists h2, h' = h ++ h2 /\ completes s1 h2.
  Proof.
    intros Hr Hc. induction Hr as [s|n s h s1 s2 o trig Hr IH Hi].
    - exists h'; auto.
    - destruct (IH Hc) as (h2 & -> & Hc2).
      inversion Hc2 as [? ? ? E|? ? ? ? h3 E Hc3]; subst; rewrite Hi in E; [discriminate|].
      inversion E; subst. exists h3. now rewrite app_assoc.
  Qed.

  Definition ideal (h : list byte) : Prop := (exists n s, runs n s0 h s) \/ completes s0 h.

  Lemma ideal_compat n h s l r : runs n s0 h s -> ideal (l ++ r) ->
    (length h <= length l)%nat -> firstn (length h) l = h.
  Proof.
    intros Hr Hi Hl.
    assert (Hp : exists q, l ++ r = h ++ q \/ h = (l ++ r) ++ q).
    { destruct Hi as [(m & s' & Hr')|Hc].
      - destruct (Nat.le_ge_cases n m) as [Hnm|Hnm].
        + destruct (runs_split _ _ _ _ Hr' n Hnm) as (h1 & s1 & q & Hr1 & E).
          destruct (runs_det _ _ _ _ _ _ Hr Hr1) as [-> _]. exists q; auto.
        + destruct (runs_split _ _ _ _ Hr m Hnm) as (h1 & s1 & q & Hr1 & E).
          destruct (runs_det _ _ _ _ _ _ Hr' Hr1) as [-> _]. exists q; auto.
      - destruct (runs_then_completes _ _ _ _ _ Hr Hc) as (h2 & E & _). exists h2; auto. }
    destruct Hp as [q [E|E]].
    - apply (f_equal (firstn (length h))) in E.
      rewrite !firstn_app, Nat.sub_diag, firstn_O, app_nil_r, firstn_all in E.
      replace (length h - length l)%nat with 0%nat in E by lia.
      now rewrite firstn_O, app_nil_r in E.
    - assert (length l = length h /\ r = [] /\ q = []) as (El & -> & ->).
      { apply (f_equal (@length _)) in E. rewrite !app_length in E.
        destruct r; destruct q; simpl in *; repeat split; auto; lia. }
      rewrite !app_nil_r in E. subst. apply firstn_all.
  Qed.

  (** what [resume] makes of a complete snapshot is a state of the ideal run *)
  Definition good_content (c : content (F:=F) phys) : Prop :=
    match c with
    | Partial => True
    | Complete fmt s =>
      forall s1 s2, (match fmt with Bin => Some s | Json => json_roundtrip s end) = Some s1 ->
        boot s1 = Some s2 -> exists h, reachable_state s2 h
    end.
  Definition good_files (f : path -> option (content (F:=F) phys)) : Prop :=
    forall q c, f q = Some c -> good_content c.

  Definition hist_of (d : disk) : list byte :=
    match d_hist d with Some h => h | None => [] end.

  Definition Inv (m : mstate) : Prop :=
    match m with
    | Up p lim s pend pc d =>
      good_files (d_files d) /\ allowed p /\
      match pc with
      | PLoop => reachable_state s (hist_of d ++ pend)
      | _ => reachable_state1 s (hist_of d ++ pend)
      end
    | Down d => good_files (d_files d) /\ exists r, ideal (hist_of d ++ r)
    | Finished d => good_files (d_files d) /\ d_hist d <> None /\ completes s0 (hist_of d)
    end.

  Lemma good_upd f p c : good_files f -> (forall c', c = Some c' -> good_content c') ->
    good_files (upd f p c).
  Proof.
    intros Hf Hc q c' E. unfold upd in E. destruct (path_eqb q p); [now apply Hc|].
    exact (Hf _ _ E).
  Qed.

  Lemma snapshot_good fmt s h : (fmt = Bin \/ json_exact) -> reachable_state1 s h ->
    good_content (Complete fmt s).
  Proof.
    intros Ha Hr s1 s2 E1 E2.
    assert (s1 = s) as ->.
    { destruct fmt; [|congruence]. destruct Ha as [Ha|Ha]; [discriminate|].
      destruct Hr as (n & sn & Hr & He). rewrite (Ha _ _ _ _ Hr He) in E1. congruence. }
    rewrite boot_started in E2 by (eapply reachable1_started; eassumption).
    injection E2 as <-. exists h. now apply reachable1_reachable.
  Qed.

  Lemma hist_append d bs : hist_of (append_hist d bs) = hist_of d ++ bs.
  Proof. reflexivity. Qed.

  Lemma Inv_resume q lim d : allowed q ->
    good_files (d_files d) -> (exists r, ideal (hist_of d ++ r)) ->
    Inv (resume q lim d).
  Proof.
    intros Ha Hg Hh. unfold Machine.resume, Machine.load.
    destruct (d_files d q) as [c|] eqn:Eq; [|split; assumption].
    destruct c as [|fmt s]; [split; assumption|].
    specialize (Hg q _ Eq) as Hgc. simpl in Hgc.
    set (l := match p_ext q with Json => _ | Bin => _ end).
    assert (Hl : l = (match fmt with Bin => Some s | Json => json_roundtrip s end) \/ l = None)
      by (subst l; destruct (p_ext q), fmt; auto).
    destruct l as [s1|]; [|split; assumption].
    destruct Hl as [Hl|]; [|discriminate]. symmetry in Hl.
    destruct (boot s1) as [s2|] eqn:Eb; [|split; assumption].
    destruct (Hgc _ _ Hl Eb) as (h & n & sn & Hr & He).
    unfold open_history. fold (hist_of d).
    pose proof (runs_size _ _ _ _ Hr) as Hsz. rewrite nhist0 in Hsz.
    rewrite <- (eqv_expected _ _ He) in Hsz.
    destruct (N.ltb_spec (N.of_nat (length (hist_of d))) (expected_n_bytes s2)) as [Hlt|Hge].
    - simpl. split; assumption.
    - simpl. split; [assumption|]. split; [assumption|].
      exists n, sn. split; [|assumption]. unfold hist_of at 1; simpl. rewrite app_nil_r.
      destruct Hh as [r Hr'].
      replace (N.to_nat (expected_n_bytes s2)) with (length h) by lia.
      rewrite (ideal_compat _ _ _ _ _ Hr Hr') by lia. exact Hr.
  Qed.

  Lemma reachable_iterate s h s' out trig :
    reachable_state s h -> iterate s = (s', out, Ok trig) -> reachable_state1 s' (h ++ out).
  Proof.
    intros (n & sn & Hr & He) Hi.
    destruct (eqv_iterate _ _ _ _ _ He Hi) as (b & r' & Hb & He2 & Hc).
    destruct r' as [|t']; [destruct Hc as [_ Hc]; discriminate (Hc eq_refl)|].
    exists n, b. split; [econstructor; eassumption|assumption].
  Qed.

  Lemma reachable_complete s h s' out :
    reachable_state s h -> iterate s = (s', out, Completed) -> completes s0 (h ++ out).
  Proof.
    intros (n & sn & Hr & He) Hi.
    destruct (eqv_iterate _ _ _ _ _ He Hi) as (b & r' & Hb & He2 & Hc).
    destruct Hc as [Hc _]. rewrite (Hc eq_refl) in Hb.
    eapply runs_completes; eassumption.
  Qed.

  Lemma reachable_ideal s h : reachable_state s h -> ideal h.
  Proof. intros (n & sn & Hr & _). left. eauto. Qed.

  Definition label_ok (l : label) : Prop := match l with LResume q => allowed q | _ => True end.

  Lemma Inv_step l m m' : label_ok l -> step l m m' -> Inv m -> Inv m'.
  Proof.
    intros Hlab Hst HI. destruct Hst; simpl in HI.
    - (* spill *) destruct HI as (Hg & Ha & Hr). simpl. split; [assumption|]. split; [assumption|].
      rewrite hist_append, <- app_assoc. exact Hr.
    - destruct HI as (Hg & Ha & Hr). simpl. split; [assumption|]. split; [discriminate|].
      rewrite hist_append, app_assoc. eapply reachable_complete; eassumption.
    - destruct HI as (Hg & Ha & Hr). simpl. split; [assumption|]. split; [assumption|].
      rewrite app_assoc. apply reachable1_reachable. eapply reachable_iterate; eassumption.
    - destruct HI as (Hg & Ha & Hr). simpl. split; [assumption|]. split; [assumption|].
      rewrite app_assoc. eapply reachable_iterate; eassumption.
    - destruct HI as (Hg & Ha & Hr). simpl. split; [assumption|]. split; [assumption|].
      rewrite app_assoc. pose proof (reachable_iterate _ _ _ _ _ Hr H0).
      destruct trig; [assumption|now apply reachable1_reachable].
    - (* save *) destruct HI as (Hg & Ha & n & sn & Hr & He). simpl. split; [assumption|]. split; [assumption|].
      rewrite hist_append, app_nil_r. exists n, sn. split; [assumption|].
      eapply eqv_trans; [apply eqv_mark|assumption].
    - destruct HI as (Hg & Ha & Hr). simpl. split; [|split; [assumption|exact Hr]].
      apply good_upd; [apply good_upd; [assumption|]|discriminate].
      intros c' [= <-]. eapply Hg; eassumption.
    - exact HI.
    - destruct HI as (Hg & Ha & Hr). simpl. split; [|split; [assumption|exact Hr]].
      apply good_upd; [assumption|]. intros c' [= <-]. exact I.
    - destruct HI as (Hg & Ha & Hr).
      assert (Hg' : good_files (upd (d_files d) p (Some (Complete (p_ext p) s)))).
      { apply good_upd; [assumption|]. intros c' [= <-]. eapply snapshot_good; [|eassumption].
        destruct Ha as [Ha|Ha]; auto. }
      destruct ex; simpl.
      + split; [assumption|]. exists []. rewrite app_nil_r, hist_append.
        apply reachable1_reachable in Hr. eapply reachable_ideal; exact Hr.
      + split; [assumption|]. split; [assumption|]. now apply reachable1_reachable.
    - (* crash *) destruct HI as (Hg & Ha & Hr). simpl. split; [assumption|].
      exists pend. destruct pc; try (apply reachable1_reachable in Hr); eapply reachable_ideal; exact Hr.
    - destruct HI as (Hg & Hh). now apply Inv_resume.
    - destruct HI as (Hg & _ & Hh). apply Inv_resume; auto. exists []. rewrite app_nil_r. now right.
  Qed.

  Lemma Inv_steps ls m m' : Forall label_ok ls -> steps ls m m' -> Inv m -> Inv m'.
  Proof.
    intros Hl Hs. induction Hs; intros HI; auto.
    apply Forall_app in Hl as [Hl1 Hl2]. inversion Hl2; subst.
    eapply Inv_step; eauto.
  Qed.

  (** *** C04: an anchor snapshot survives *)
  Variable case : path.

  Definition ok_at (d : disk) (q : path) : Prop :=
    p_ext q = Bin /\ exists s, d_files d q = Some (Complete Bin s) /\
      (i_time s =? n0) = false /\ (expected_n_bytes s <= N.of_nat (length (hist_of d)))%N.

  (** in the middle of a save the history is flushed; snapshot files other than
      the case file carry a running clock *)
  Definition Side (m : mstate) : Prop :=
    (forall q f s, q <> case -> d_files (disk_of m) q = Some (Complete f s) -> (i_time s =? n0) = false) /\
    match m with
    | Up p _ _ pend pc _ => p <> case /\ p_ext p = Bin /\ match pc with PLoop | PSave _ => True | _ => pend = [] end
    | _ => True
    end.

  Definition Anchor (m : mstate) : Prop :=
    match m with
    | Up p lim s pend pc d =>
      match pc with
      | PLoop | PSave _ | PRename _ => ok_at d p
      | PCreate _ | PWrite _ => exists c, ok_at d (backup p c)
      end
    | Down d | Finished d => exists q, ok_at d q
    end.

  Definition only_case (m : mstate) : Prop :=
    forall q f s, d_files (disk_of m) q = Some (Complete f s) -> q = case.

  Definition snap_label (l : label) : Prop :=
    match l with LResume q => p_ext q = Bin /\ q <> case | _ => True end.

  Lemma ok_at_mono d q d' : ok_at d q -> d_files d' q = d_files d q ->
    (length (hist_of d) <= length (hist_of d'))%nat -> ok_at d' q.
  Proof.
    intros (He & s & Ef & Eb & Hl) Ef' Hl'. split; [assumption|].
    exists s. rewrite Ef'. split; [assumption|]. split; [assumption|]. lia.
  Qed.

  Lemma len_append d bs : (length (hist_of d) <= length (hist_of (append_hist d bs)))%nat.
  Proof. rewrite hist_append, app_length. lia. Qed.

  Lemma upd_same f p (c : option (content (F:=F) phys)) : upd f p c p = c.
  Proof. unfold upd. now rewrite path_eqb_refl. Qed.
  Lemma upd_other f p q (c : option (content (F:=F) phys)) : q <> p -> upd f p c q = f q.
  Proof. intros Hn. unfold upd. apply path_eqb_neq in Hn. now rewrite Hn. Qed.

  Lemma resume_cases q lim d :
    (exists d', resume q lim d = Down d' /\ d_files d' = d_files d /\ hist_of d' = hist_of d) \/
    (exists s1 s d', resume q lim d = Up q lim s [] PLoop d' /\ d_files d' = d_files d
       /\ load (d_files d) q = Some s1 /\ boot s1 = Some s
       /\ (expected_n_bytes s <= N.of_nat (length (hist_of d)))%N
       /\ hist_of d' = firstn (N.to_nat (expected_n_bytes s)) (hist_of d)).
  Proof.
    unfold Machine.resume. destruct (load (d_files d) q) as [s1|] eqn:El; [|left; eauto].
    destruct (boot s1) as [s|] eqn:Eb; [|left; eauto].
    unfold open_history. fold (hist_of d).
    destruct (N.ltb_spec (N.of_nat (length (hist_of d))) (expected_n_bytes s)); [left; eauto|].
    right. exists s1, s. eexists. split; [reflexivity|]. repeat split; auto.
  Qed.

  Lemma load_bin f q s : p_ext q = Bin -> load f q = Some s -> f q = Some (Complete Bin s).
  Proof.
    unfold Machine.load. intros Hb. destruct (f q) as [[|fmt s']|]; try discriminate.
    rewrite Hb. destruct fmt; [discriminate|congruence].
  Qed.

  Lemma Side_step l m m' : snap_label l -> step l m m' -> Inv m -> Side m -> Side m'.
  Proof.
    intros Hlab Hst HI HS. destruct Hst; destruct HS as (HS & HU); simpl in HS, HU; simpl in HI.
    - split; [exact HS|]. destruct HU as (Hc & Hb & HU). split; [assumption|]. split; [assumption|].
      destruct pc; auto; now apply app_eq_nil in HU as [_ HU].
    - split; [exact HS|exact I].
    - split; [exact HS|]. destruct HU as (Hc & Hb & HU). repeat split; auto.
    - split; [exact HS|]. destruct HU as (Hc & Hb & HU). repeat split; auto.
    - split; [exact HS|]. destruct HU as (Hc & Hb & HU). repeat split; auto. destruct trig; auto.
    - split; [exact HS|]. destruct HU as (Hc & Hb & HU). repeat split; auto.
    - destruct HU as (Hc & Hb & HU). split; [|repeat split; auto].
      intros q f s1 Hq E. simpl in E. unfold upd in E.
      destruct (path_eqb q p); [discriminate|]. destruct (path_eqb q (backup p stamp)).
      + injection E as ->. exact (HS _ _ _ Hc H0).
      + exact (HS _ _ _ Hq E).
    - split; [exact HS|]. destruct HU as (Hc & Hb & HU). repeat split; auto.
    - destruct HU as (Hc & Hb & HU). split; [|repeat split; auto].
      intros q f s1 Hq E. simpl in E. unfold upd in E.
      destruct (path_eqb q p); [discriminate|]. exact (HS _ _ _ Hq E).
    - destruct HU as (Hc & Hb & HU). destruct HI as (_ & _ & Hr).
      assert (HS' : forall q f s1, q <> case -> upd (d_files d) p (Some (Complete (p_ext p) s)) q = Some (Complete f s1) ->
                (i_time s1 =? n0) = false).
      { intros q f s1 Hq E. unfold upd in E. destruct (path_eqb q p); [|exact (HS _ _ _ Hq E)].
        injection E as <- <-. eapply reachable1_started; eassumption. }
      destruct ex; simpl; split; simpl; auto.
    - split; [exact HS|exact I].
    - destruct Hlab as [Hb Hc].
      destruct (resume_cases q lim d) as [(d' & -> & Ef & _)|(s1 & s & d' & -> & Ef & _)];
        (split; simpl; [rewrite Ef; exact HS|auto]).
    - destruct Hlab as [Hb Hc].
      destruct (resume_cases q lim d) as [(d' & -> & Ef & _)|(s1 & s & d' & -> & Ef & _)];
        (split; simpl; [rewrite Ef; exact HS|auto]).
  Qed.

  Lemma save_ok p d s : p_ext p = Bin -> reachable_state1 s (hist_of d) ->
    ok_at (mkDisk (upd (d_files d) p (Some (Complete (p_ext p) s))) (d_hist d)) p.
  Proof.
    intros Hb Hr. split; [assumption|]. exists s. simpl. rewrite upd_same, Hb.
    split; [reflexivity|]. split; [eapply reachable1_started; eassumption|].
    destruct Hr as (n & sn & Hr & He). apply runs_size in Hr. rewrite nhist0 in Hr.
    rewrite (eqv_expected _ _ He). unfold hist_of in *; simpl. lia.
  Qed.

  Lemma Anchor_resume_Up q lim d : p_ext q = Bin -> q <> case ->
    (forall q f s, q <> case -> d_files d q = Some (Complete f s) -> (i_time s =? n0) = false) ->
    (exists d', resume q lim d = Down d' /\ d_files d' = d_files d /\ hist_of d' = hist_of d)
    \/ Anchor (resume q lim d).
  Proof.
    intros Hb Hc HS.
    destruct (resume_cases q lim d) as [Hl|(s1 & s & d' & -> & Ef & El & Eb & Hl & Hh)]; [left; assumption|right].
    apply load_bin in El; [|assumption].
    pose proof (HS _ _ _ Hc El) as Ht. rewrite (boot_started _ Ht) in Eb. injection Eb as <-.
    split; [assumption|]. exists s1. rewrite Ef. split; [assumption|]. split; [assumption|].
    rewrite Hh, firstn_length. lia.
  Qed.

  (** once there is an anchor there always is one; and the first complete
      snapshot creates one *)
  Lemma Anchor_step l m m' : snap_label l -> step l m m' -> Inv m -> Side m ->
    (Anchor m -> Anchor m') /\ (only_case m -> only_case m' \/ Anchor m').
  Proof.
    intros Hlab Hst HI HS. destruct Hst; destruct HS as (HS & HU); simpl in HS, HU; simpl in HI.
    - (* spill *) split; [|intros Ho; left; exact Ho]. intros HA.
      assert (Hm : forall q, ok_at d q -> ok_at (append_hist d a) q).
      { intros q Hq. eapply ok_at_mono; [exact Hq|reflexivity|apply len_append]. }
      simpl in *. destruct pc; auto; destruct HA as [c HA]; exists c; auto.
    - split; [|intros Ho; left; exact Ho]. intros HA. exists p.
      eapply ok_at_mono; [exact HA|reflexivity|apply len_append].
    - split; [auto|intros Ho; left; exact Ho].
    - split; [auto|intros Ho; left; exact Ho].
    - split; [intros HA; simpl; destruct trig; exact HA|intros Ho; left; exact Ho].
    - split; [|intros Ho; left; exact Ho]. intros HA. simpl.
      eapply ok_at_mono; [exact HA|reflexivity|apply len_append].
    - destruct HU as (Hc & Hb & HU). split.
      + intros (_ & s1 & Ef & Et & Hl). exists stamp. split; [reflexivity|].
        exists s1. simpl. rewrite upd_other by apply backup_ne. rewrite upd_same.
        split; [congruence|]. split; assumption.
      + intros Ho. left. intros q f s1 E. simpl in E. unfold upd in E.
        destruct (path_eqb q p); [discriminate|]. destruct (path_eqb q (backup p stamp)).
        * injection E as ->. exfalso. apply Hc. exact (Ho _ _ _ H0).
        * exact (Ho _ _ _ E).
    - split; [|intros Ho; left; exact Ho]. intros (_ & s1 & Ef & _). congruence.
    - split.
      + intros (c & HA). exists c. eapply ok_at_mono; [exact HA| |reflexivity].
        simpl. now rewrite upd_other by apply backup_ne.
      + intros Ho. left. intros q f s1 E. simpl in E. unfold upd in E.
        destruct (path_eqb q p); [discriminate|]. exact (Ho _ _ _ E).
    - destruct HU as (Hc & Hb & ->). destruct HI as (_ & _ & Hr). rewrite app_nil_r in Hr.
      pose proof (save_ok p d s Hb Hr) as Hok.
      destruct ex; simpl.
      + assert (HE : exists q, ok_at (append_hist {| d_files := upd (d_files d) p (Some (Complete (p_ext p) s)); d_hist := d_hist d |} []) q).
        { exists p. eapply ok_at_mono; [exact Hok|reflexivity|apply len_append]. }
        split; auto.
      + split; auto.
    - split; [|intros Ho; left; exact Ho]. simpl.
      destruct pc; eauto; (intros [c HA]; eauto).
    - destruct Hlab as [Hb Hc].
      destruct (Anchor_resume_Up q lim d Hb Hc HS) as [(d' & -> & Ef & Eh)|HA]; [|split; auto].
      split.
      + intros [q' HA]. exists q'. eapply ok_at_mono; [exact HA|now rewrite Ef|now rewrite Eh].
      + intros Ho. left. unfold only_case in *. simpl in *. now rewrite Ef.
    - destruct Hlab as [Hb Hc].
      destruct (Anchor_resume_Up q lim d Hb Hc HS) as [(d' & -> & Ef & Eh)|HA]; [|split; auto].
      split.
      + intros [q' HA]. exists q'. eapply ok_at_mono; [exact HA|now rewrite Ef|now rewrite Eh].
      + intros Ho. left. unfold only_case in *. simpl in *. now rewrite Ef.
  Qed.

  Lemma snap_label_ok l : snap_label l -> label_ok l.
  Proof. destruct l; simpl; auto. intros []; now left. Qed.

  Lemma Anchor_steps ls m m' : Forall snap_label ls -> steps ls m m' -> Inv m -> Side m ->
    Inv m' /\ Side m' /\ (Anchor m -> Anchor m') /\ (only_case m \/ Anchor m -> only_case m' \/ Anchor m').
  Proof.
    intros Hl Hs HI HS. induction Hs as [m|ls l m m1 m2 Hs IHHs Hst]; [auto|].
    apply Forall_app in Hl as [Hl1 Hl2]. apply Forall_inv in Hl2.
    destruct (IHHs Hl1 HI HS) as (HI1 & HS1 & HA1 & HO1).
    split; [eapply Inv_step; eauto using snap_label_ok|].
    split; [eapply Side_step; eauto|].
    destruct (Anchor_step _ _ _ Hl2 Hst HI1 HS1) as [HA2 HO2].
    split; [auto|]. intros Ho. destruct (HO1 Ho) as [?|?]; auto.
  Qed.

  Lemma ok_at_resume d q : ok_at d q -> forall lim,
    exists s d', resume q lim d = Up q lim s [] PLoop d' /\ (i_time s =? n0) = false.
  Proof.
    intros (Hb & s & Ef & Et & Hl) lim. unfold Machine.resume, Machine.load.
    rewrite Ef, Hb, (boot_started _ Et). unfold open_history. fold (hist_of d).
    destruct (N.ltb_spec (N.of_nat (length (hist_of d))) (expected_n_bytes s)); [lia|].
    eexists _, _. split; [reflexivity|assumption].
  Qed.

  Lemma Anchor_disk m : Anchor m -> exists q, ok_at (disk_of m) q.
  Proof.
    destruct m as [p lim s pend pc d|d|d]; simpl; auto.
    destruct pc; eauto; (intros [c HA]; eauto).
  Qed.
End MachineProofs.

Lemma start_Up {F : Type} `{Num F} phys n_particles init_phys evolution_on table_ends json_roundtrip
  case p lim (d : disk (F:=F) phys) p' lim' s pend pc d' :
  start phys n_particles init_phys evolution_on table_ends json_roundtrip case p lim d
    = Up p' lim' s pend pc d' ->
  p' = p /\ lim' = lim /\ pend = [] /\ pc = PLoop /\ expected_n_bytes phys n_particles s = 0%N
  /\ d_files d' = d_files d /\ d_hist d' = Some [] /\ d_files d p = None /\ d_hist d = None
  /\ exists s1, load phys json_roundtrip (d_files d) case = Some s1
       /\ boot phys init_phys evolution_on table_ends s1 = Some s.
Proof.
  unfold start. destruct (load _ _ _ _) as [s1|] eqn:El; [|discriminate].
  destruct (boot _ _ _ _ _) as [s2|] eqn:Eb; [|discriminate].
  destruct (d_files d p) eqn:Ep; [discriminate|]. destruct (d_hist d) eqn:Eh; [discriminate|].
  unfold open_history. rewrite Eh. simpl.
  destruct (N.ltb_spec 0 (expected_n_bytes phys n_particles s2)); [discriminate|].
  intros [= <- <- <- <- <- <-]. simpl. rewrite firstn_nil.
  repeat split; auto; try lia. exists s1; auto.
Qed.
