From Coq Require Import List ZArith NArith Bool Lia.
From Verif Require Import Base.Num Model.History Model.Run Model.Machine
  Spec.HistorySpec Spec.RunSpec Proofs.HistoryProofs Proofs.MachineProofs.
Import ListNotations.

Section MachineTheorems.
  Context {F : Type} `{Num F}.
  Local Open Scope num_scope.
  Variable phys : Type.
  Variable n_particles : nat.
  Variable record_of : phys -> F -> F -> nat -> hrecord.
  Variable observe : phys -> F -> phys.
  Variable lf_advance : phys -> F -> F -> F -> phys.
  Variable wh_advance : phys -> F -> F -> phys.
  Variable ias_advance : phys -> F -> F -> phys * F * F.
  Variable init_phys : phys -> phys.
  Variable evolution_on : phys -> bool.
  Variable table_ends : phys -> list F.
  Variable hash_of : integ (F:=F) phys -> N.
  Variable json_roundtrip : integ (F:=F) phys -> option (integ (F:=F) phys).

  Notation state := (integ (F:=F) phys).
  Notation iterate := (iterate phys n_particles record_of observe lf_advance wh_advance ias_advance).
  Notation boot := (boot phys init_phys evolution_on table_ends).
  Notation load := (load phys json_roundtrip).
  Notation step := (step phys n_particles record_of observe lf_advance wh_advance ias_advance
                      init_phys evolution_on table_ends hash_of json_roundtrip).
  Notation steps := (steps phys n_particles record_of observe lf_advance wh_advance ias_advance
                      init_phys evolution_on table_ends hash_of json_roundtrip).
  Notation start := (start phys n_particles init_phys evolution_on table_ends json_roundtrip).
  Notation resume := (resume phys n_particles init_phys evolution_on table_ends json_roundtrip).
  Notation expected_n_bytes := (expected_n_bytes phys n_particles).
  Notation runs := (runs iterate).
  Notation completes := (completes iterate).

  Hypothesis neg_one : (n0 <? - n1) = false.

  Variables (case p : path) (lim0 : bool) (d0 d1 : disk (F:=F) phys) (s0 : state).
  Hypothesis only_case : forall q f s, d_files d0 q = Some (Complete f s) -> q = case.
  Hypothesis started : start case p lim0 d0 = Up p lim0 s0 [] PLoop d1.
  Hypothesis clock_moves : forall n h s, runs (S n) s0 h s -> (i_time s =? n0) = false.

  Lemma case_good : forall q c, d_files d0 q = Some c ->
    good_content phys n_particles record_of observe lf_advance wh_advance ias_advance
      init_phys evolution_on table_ends json_roundtrip s0 c.
  Proof.
    intros q c E. destruct c as [|f s]; [exact I|].
    pose proof (only_case _ _ _ E) as ->.
    intros s1 s2 E1 E2.
    destruct (start_Up _ _ _ _ _ _ _ _ _ _ _ _ _ _ _ _ started) as
      (_ & _ & _ & _ & _ & _ & _ & _ & _ & s3 & El & Eb).
    unfold Machine.load in El. rewrite E in El.
    assert (s3 = s1) as ->.
    { destruct (p_ext case), f; try discriminate; congruence. }
    rewrite E2 in Eb. injection Eb as ->.
    exists [], 0%nat, s0. split; [constructor|reflexivity].
  Qed.

  Lemma start_Inv :
    allowed phys n_particles record_of observe lf_advance wh_advance ias_advance json_roundtrip s0 p ->
    Inv phys n_particles record_of observe lf_advance wh_advance ias_advance
      init_phys evolution_on table_ends json_roundtrip s0 (Up p lim0 s0 [] PLoop d1).
  Proof.
    intros Ha.
    destruct (start_Up _ _ _ _ _ _ _ _ _ _ _ _ _ _ _ _ started) as
      (_ & _ & _ & _ & Hn & Hf & Hh & _ & _ & _).
    split; [|split; [exact Ha|]].
    - intros q c E. rewrite Hf in E. eapply case_good; exact E.
    - exists 0%nat, s0. unfold hist_of. rewrite Hh. split; [constructor|reflexivity].
  Qed.

  Lemma nhist0 : expected_n_bytes s0 = 0%N.
  Proof.
    destruct (start_Up _ _ _ _ _ _ _ _ _ _ _ _ _ _ _ _ started) as (_ & _ & _ & _ & Hn & _). exact Hn.
  Qed.

  (** paths used for snapshots hold binary data, or JSON is lossless here *)
  Definition usable (q : path) : Prop :=
    p_ext q = Bin \/
    forall n h s sn, runs (S n) s0 h sn -> eqv phys s sn -> json_roundtrip s = Some s.

  Theorem resumed_equals_uninterrupted ls d :
    usable p -> (forall q, In (LResume q) ls -> usable q) ->
    steps ls (Up p lim0 s0 [] PLoop d1) (Finished d) ->
    exists h, d_hist d = Some h /\ completes s0 h.
  Proof.
    intros Hp Hl Hs.
    assert (HI : Inv phys n_particles record_of observe lf_advance wh_advance ias_advance
      init_phys evolution_on table_ends json_roundtrip s0 (Finished d)).
    { eapply Inv_steps; [exact neg_one|exact nhist0|exact clock_moves| |exact Hs|apply start_Inv; exact Hp].
      rewrite Forall_forall. intros l Hin. destruct l; simpl; auto. now apply Hl. }
    destruct HI as (_ & Hne & Hc). unfold hist_of in Hc.
    destruct (d_hist d) as [h|]; [|congruence]. exists h; auto.
  Qed.

  (** at every instant the history on disk plus the buffered bytes is a prefix of
      the uninterrupted history *)
  Theorem history_is_prefix ls m :
    usable p -> (forall q, In (LResume q) ls -> usable q) ->
    steps ls (Up p lim0 s0 [] PLoop d1) m ->
    forall h, completes s0 h -> exists r, h = match d_hist (disk_of m) with Some x => x | None => [] end ++ r.
  Proof.
    intros Hp Hl Hs h Hc.
    assert (HI : Inv phys n_particles record_of observe lf_advance wh_advance ias_advance
      init_phys evolution_on table_ends json_roundtrip s0 m).
    { eapply Inv_steps; [exact neg_one|exact nhist0|exact clock_moves| |exact Hs|apply start_Inv; exact Hp].
      rewrite Forall_forall. intros l Hin. destruct l; simpl; auto. now apply Hl. }
    assert (Hid : forall x, ideal phys n_particles record_of observe lf_advance wh_advance ias_advance s0 x ->
               exists r, h = x ++ r).
    { intros x [(n & s & Hr)|Hx].
      - destruct (runs_then_completes _ _ _ _ _ _ _ _ _ _ _ _ Hr Hc) as (h2 & -> & _). eauto.
      - rewrite (completes_det _ _ _ _ _ _ _ _ _ _ Hx Hc). exists []. now rewrite app_nil_r. }
    destruct m as [q l s pend pc d|d|d]; simpl in HI.
    - destruct HI as (_ & _ & Hr).
      assert (Hr' : reachable_state phys n_particles record_of observe lf_advance wh_advance ias_advance s0 s
                (hist_of phys d ++ pend)).
      { destruct pc; [exact Hr| | | |]; now apply reachable1_reachable. }
      apply reachable_ideal in Hr'. destruct (Hid _ Hr') as [r ->].
      exists (pend ++ r). now rewrite app_assoc.
    - destruct HI as (_ & r & Hr). destruct (Hid _ Hr) as [r' ->].
      exists (r ++ r'). now rewrite app_assoc.
    - destruct HI as (_ & _ & Hr). apply Hid. now right.
  Qed.

  (** the size law: every complete snapshot that can be resumed names a history
      no longer than the file, when it is the newest one written *)
  Theorem saved_snapshot_size ls q lim s pend ex d :
    usable p -> (forall q, In (LResume q) ls -> usable q) ->
    steps ls (Up p lim0 s0 [] PLoop d1) (Up q lim s pend (PWrite ex) d) ->
    pend = [] ->
    N.of_nat (length (match d_hist d with Some x => x | None => [] end)) = expected_n_bytes s.
  Proof.
    intros Hp Hl Hs ->.
    assert (HI : Inv phys n_particles record_of observe lf_advance wh_advance ias_advance
      init_phys evolution_on table_ends json_roundtrip s0 (Up q lim s [] (PWrite ex) d)).
    { eapply Inv_steps; [exact neg_one|exact nhist0|exact clock_moves| |exact Hs|apply start_Inv; exact Hp].
      rewrite Forall_forall. intros l Hin. destruct l; simpl; auto. now apply Hl. }
    destruct HI as (_ & _ & n & sn & Hr & He). apply runs_size in Hr. rewrite nhist0 in Hr.
    rewrite (eqv_expected _ _ _ _ He). unfold hist_of in Hr. rewrite app_nil_r in Hr. lia. Unshelve. all: assumption.
  Qed.

  (** as long as nobody resumes from an older snapshot, every complete snapshot
      on disk is covered by the history file *)
  Theorem snapshots_covered ls m :
    usable p -> forallb (fun l => negb (is_resume l)) ls = true ->
    steps ls (Up p lim0 s0 [] PLoop d1) m ->
    forall q f s, q <> case -> d_files (disk_of m) q = Some (Complete f s) ->
      (expected_n_bytes s <= N.of_nat (length (match d_hist (disk_of m) with Some x => x | None => [] end)))%N.
  Proof.
    intros Hp Hl Hs.
    assert (G : (forall q f s, q <> case -> d_files (disk_of m) q = Some (Complete f s) ->
      (expected_n_bytes s <= N.of_nat (length (match d_hist (disk_of m) with Some x => x | None => [] end)))%N) /\
      match m with Up q _ _ _ _ _ => q = p | _ => True end /\
      match m with Up _ _ _ pend (PRename _) _ | Up _ _ _ pend (PCreate _) _ | Up _ _ _ pend (PWrite _) _ => pend = [] | _ => True end).
    2: exact (proj1 G).
    assert (Hpc : p <> case).
    { intros ->. unfold Machine.start, Machine.load in started.
      destruct (d_files d0 case) as [c|]; [|discriminate].
      destruct c as [|fmt s]; [discriminate|].
      destruct (match p_ext case with Json => _ | Bin => _ end); [|discriminate].
      destruct (boot i); discriminate. }
    remember (Up p lim0 s0 [] PLoop d1) as m0. induction Hs as [|ls l m m1 m2 Hs IH Hst]; subst.
    - split; [|split; [reflexivity|exact I]]. simpl. intros q f s Hq Ef.
      destruct (start_Up _ _ _ _ _ _ _ _ _ _ _ _ _ _ _ _ started) as (_ & _ & _ & _ & _ & Hf & _).
      rewrite Hf in Ef. elim Hq. eapply only_case; exact Ef.
    - rewrite forallb_app in Hl. apply andb_prop in Hl as [Hl1 Hl2].
      specialize (IH eq_refl started Hl1) as (IH1 & IHp & IH2).
      assert (Happ : forall (d : disk (F:=F) phys) bs, (N.of_nat (length (match d_hist d with Some x => x | None => [] end)) <=
        N.of_nat (length (match d_hist (append_hist d bs) with Some x => x | None => [] end)))%N).
      { intros d bs. simpl. rewrite app_length. lia. }
      assert (Hnr : forall q, In (LResume q) ls -> usable q).
      { intros q Hin. rewrite forallb_forall in Hl1. now apply Hl1 in Hin. }
      destruct Hst; simpl in Hl2; try discriminate; simpl disk_of in *.
      + split; [intros q f s1 Hq Ef; etransitivity; [exact (IH1 q f s1 Hq Ef)|apply Happ]|split; [exact IHp|]].
        destruct pc; try exact I; now apply app_eq_nil in IH2 as [_ ->].
      + split; [|split; [first [exact IHp|exact I]|exact I]]. intros q f s1 Hq Ef. etransitivity; [exact (IH1 q f s1 Hq Ef)|apply Happ].
      + split; [exact IH1|split; [first [exact IHp|exact I]|exact I]].
      + split; [exact IH1|split; [first [exact IHp|exact I]|exact I]].
      + split; [exact IH1|split; [exact IHp|]]. now destruct trig.
      + split; [intros q f s1 Hq Ef; etransitivity; [exact (IH1 q f s1 Hq Ef)|apply Happ]|split; [exact IHp|reflexivity]].
      + split; [|split; [exact IHp|exact IH2]]. intros q f s1 Hq Ef. simpl in *. unfold upd in Ef.
        destruct (path_eqb q p0); [discriminate|].
        destruct (path_eqb q (backup p0 stamp)); [|exact (IH1 q f s1 Hq Ef)].
        injection Ef as ->.
        (* the moved file *)
        subst p0. exact (IH1 p f s1 Hpc H0).
      + split; [exact IH1|split; [exact IHp|exact IH2]].
      + split; [|split; [exact IHp|exact IH2]]. intros q f s1 Hq Ef. simpl in *. unfold upd in Ef.
        destruct (path_eqb q p0); [discriminate|]. exact (IH1 q f s1 Hq Ef).
      + assert (G : forall q f s1, q <> case -> upd (d_files d) p0 (Some (Complete (p_ext p0) s)) q = Some (Complete f s1) ->
          (expected_n_bytes s1 <= N.of_nat (length (match d_hist d with Some x => x | None => [] end)))%N).
        { intros q f s1 Hq Ef. unfold upd in Ef. destruct (path_eqb q p0); [|exact (IH1 q f s1 Hq Ef)].
          injection Ef as _ <-. rewrite (saved_snapshot_size _ _ _ _ _ _ _ Hp Hnr Hs IH2). lia. }
        destruct ex; (split; [|split; [first [exact IHp|exact I]|exact I]]); simpl; [|exact G].
        intros q f s1 Hq Ef. etransitivity; [exact (G q f s1 Hq Ef)|]. rewrite app_length. lia.
      + split; [exact IH1|split; [first [exact IHp|exact I]|exact I]].
  Qed.

  (** C04 *)
  Theorem snapshot_survives ls1 m1 ls2 m2 :
    p_ext p = Bin -> p <> case ->
    (forall q, In (LResume q) (ls1 ++ ls2) -> p_ext q = Bin /\ q <> case) ->
    steps ls1 (Up p lim0 s0 [] PLoop d1) m1 ->
    (exists q f s, q <> case /\ d_files (disk_of m1) q = Some (Complete f s)) ->
    steps ls2 m1 m2 ->
    exists q, forall lim, exists s d',
      resume q lim (disk_of m2) = Up q lim s [] PLoop d' /\ (i_time s =? n0) = false.
  Proof.
    intros Hp Hpc Hl Hs1 (q & f & s & Hq & Ef) Hs2.
    assert (HI0 : Inv phys n_particles record_of observe lf_advance wh_advance ias_advance
      init_phys evolution_on table_ends json_roundtrip s0 (Up p lim0 s0 [] PLoop d1)).
    { apply start_Inv. now left. }
    destruct (start_Up _ _ _ _ _ _ _ _ _ _ _ _ _ _ _ _ started) as
      (_ & _ & _ & _ & _ & Hf & _).
    assert (HS0 : Side phys case (Up p lim0 s0 [] PLoop d1)).
    { split; [|auto]. simpl. rewrite Hf. intros q' f' s' Hn E. now apply only_case in E. }
    assert (HO : MachineProofs.only_case phys case (Up p lim0 s0 [] PLoop d1)).
    { intros q' f' s'. simpl. rewrite Hf. apply only_case. }
    assert (Hlab : forall ls', (forall q, In (LResume q) ls' -> p_ext q = Bin /\ q <> case) ->
              Forall (snap_label case) ls').
    { intros ls' Hl'. rewrite Forall_forall. intros l Hin. destruct l; simpl; auto. }
    destruct (Anchor_steps phys n_particles record_of observe lf_advance wh_advance ias_advance
       init_phys evolution_on table_ends hash_of json_roundtrip neg_one s0 nhist0 clock_moves case ls1 _ _
       (Hlab ls1 ltac:(intros; apply Hl; apply in_or_app; auto)) Hs1 HI0 HS0) as (HI1 & HS1 & _ & HO1).
    destruct (HO1 (or_introl HO)) as [Hoc|HA1]; [exfalso; apply Hq; exact (Hoc _ _ _ Ef)|].
    destruct (Anchor_steps phys n_particles record_of observe lf_advance wh_advance ias_advance
       init_phys evolution_on table_ends hash_of json_roundtrip neg_one s0 nhist0 clock_moves case ls2 _ _
       (Hlab ls2 ltac:(intros; apply Hl; apply in_or_app; auto)) Hs2 HI1 HS1) as (HI2 & HS2 & HA2 & _).
    specialize (HA2 HA1). apply Anchor_disk in HA2 as [q' Hok].
    exists q'. exact (ok_at_resume phys n_particles record_of observe lf_advance wh_advance ias_advance
       init_phys evolution_on table_ends hash_of json_roundtrip neg_one s0 nhist0 clock_moves _ _ Hok).
  Qed.
End MachineTheorems.

(** ** C03: start and resume on an arbitrary disk *)
Section StartResume.
  Context {F : Type} `{Num F}.
  Variable phys : Type.
  Variable n_particles : nat.
  Variable init_phys : phys -> phys.
  Variable evolution_on : phys -> bool.
  Variable table_ends : phys -> list F.
  Variable json_roundtrip : integ (F:=F) phys -> option (integ (F:=F) phys).
  Notation start := (start phys n_particles init_phys evolution_on table_ends json_roundtrip).
  Notation resume := (resume phys n_particles init_phys evolution_on table_ends json_roundtrip).

  Theorem start_preserves case p lim (d : disk (F:=F) phys) :
    (d_files d p <> None \/ d_hist d <> None -> start case p lim d = Down d) /\
    d_files (disk_of (start case p lim d)) = d_files d /\
    (forall h, d_hist d = Some h -> d_hist (disk_of (start case p lim d)) = Some h).
  Proof.
    unfold Machine.start.
    destruct (Machine.load _ _ _ _) as [s1|]; [|simpl; repeat split; auto].
    destruct (Machine.boot _ _ _ _ _) as [s|]; [|simpl; repeat split; auto].
    destruct (d_files d p); [simpl; repeat split; auto|].
    destruct (d_hist d) as [h|] eqn:Eh; [simpl; rewrite Eh; repeat split; auto|].
    unfold open_history. rewrite Eh.
    destruct (N.of_nat (length []) <? expected_n_bytes phys n_particles s)%N; simpl; (split; [intros [?|?]; congruence|]; split; [reflexivity|discriminate]).
  Qed.

  Theorem resume_history p lim (d : disk (F:=F) phys) h :
    d_hist d = Some h ->
    match resume p lim d with
    | Up p' lim' s pend pc d' =>
      (* accepted: exactly the announced prefix is kept and nothing is pending *)
      N.of_nat (length h) >= expected_n_bytes phys n_particles s /\
      (exists h', d_hist d' = Some h' /\ N.of_nat (length h') = expected_n_bytes phys n_particles s
                  /\ exists cut, h = h' ++ cut) /\ pend = [] /\ d_files d' = d_files d
    | Down d' => (* refused: nothing is lost *)
      d_hist d' = Some h /\ d_files d' = d_files d
    | Finished _ => False
    end%N.
  Proof.
    intros Eh. unfold Machine.resume.
    destruct (Machine.load _ _ _ _) as [s1|]; [|auto].
    destruct (Machine.boot _ _ _ _ _) as [s|]; [|auto].
    unfold open_history. rewrite Eh.
    destruct (N.ltb_spec (N.of_nat (length h)) (expected_n_bytes phys n_particles s)); simpl.
    - auto.
    - split; [lia|]. split; [|auto]. eexists. split; [reflexivity|]. rewrite firstn_length.
      split; [lia|]. eexists. symmetry. apply firstn_skipn.
  Qed.

  Theorem resume_refuses_short p lim (d : disk (F:=F) phys) s1 s :
    load phys json_roundtrip (d_files d) p = Some s1 ->
    boot phys init_phys evolution_on table_ends s1 = Some s ->
    (N.of_nat (length (match d_hist d with Some h => h | None => [] end))
       < expected_n_bytes phys n_particles s)%N ->
    exists d', resume p lim d = Down d'.
  Proof.
    intros El Eb Hl. unfold Machine.resume. rewrite El, Eb. unfold open_history.
    destruct (N.ltb_spec (N.of_nat (length (match d_hist d with Some h => h | None => [] end)))
                (expected_n_bytes phys n_particles s)); [|lia].
    eexists; reflexivity.
  Qed.
End StartResume.

(** ** C06: the wall-clock limit *)
Section Limit.
  Context {F : Type} `{Num F}.
  Variable phys : Type.
  Variable n_particles : nat.
  Variable record_of : phys -> F -> F -> nat -> hrecord.
  Variable observe : phys -> F -> phys.
  Variable lf_advance : phys -> F -> F -> F -> phys.
  Variable wh_advance : phys -> F -> F -> phys.
  Variable ias_advance : phys -> F -> F -> phys * F * F.
  Variable init_phys : phys -> phys.
  Variable evolution_on : phys -> bool.
  Variable table_ends : phys -> list F.
  Variable hash_of : integ (F:=F) phys -> N.
  Variable json_roundtrip : integ (F:=F) phys -> option (integ (F:=F) phys).
  Notation step := (step phys n_particles record_of observe lf_advance wh_advance ias_advance
                      init_phys evolution_on table_ends hash_of json_roundtrip).
  Notation steps := (steps phys n_particles record_of observe lf_advance wh_advance ias_advance
                      init_phys evolution_on table_ends hash_of json_roundtrip).

  (** with a limit, as long as the limit is not reached no snapshot is written *)
  Theorem limit_disables_periodic p s pend d ls p' lim' s' pend' d' :
    forallb tau ls = true ->
    steps ls (Up p true s pend PLoop d) (Up p' lim' s' pend' PLoop d') ->
    d_files d' = d_files d /\ lim' = true.
  Proof.
    intros Hl Hs.
    assert (G : forall m, steps ls (Up p true s pend PLoop d) m ->
      match m with
      | Up _ l2 _ _ PLoop d2 => d_files d2 = d_files d /\ l2 = true
      | Up _ l2 _ _ (PSave ex) _ | Up _ l2 _ _ (PRename ex) _
      | Up _ l2 _ _ (PCreate ex) _ | Up _ l2 _ _ (PWrite ex) _ => ex = true /\ l2 = true
      | _ => True end).
    { clear Hs. remember (Up p true s pend PLoop d) as m0. intros m Hs.
      induction Hs as [|ls l m m1 m2 Hs IH Hst]; subst.
      - auto.
      - rewrite forallb_app in Hl. apply andb_prop in Hl as [Hl1 Hl2].
        specialize (IH Hl1 eq_refl). destruct Hst; simpl in Hl2; try discriminate; auto.
        + destruct IH; discriminate.
        + destruct IH as [-> ->]. exact I. }
    exact (G _ Hs).
  Qed.

  (** when the limit is reached, the state of the last step is on disk and the
      history is complete when the program exits *)
  Theorem limit_saves p s pend d ls d' :
    forallb tau ls = true ->
    steps ls (Up p true s pend (PSave true) d) (Down d') ->
    exists s', d_files d' p = Some (Complete (p_ext p) s') /\ eqv phys s' s /\
      hist_of phys d' = hist_of phys d ++ pend.
  Proof.
    intros Hl Hs.
    set (G := fun m : mstate (F:=F) phys => match m with
      | Up p2 l2 s2 pend2 pc d2 => p2 = p /\ l2 = true /\ eqv phys s2 s /\
          hist_of phys d2 ++ pend2 = hist_of phys d ++ pend /\
          match pc with PLoop => False | PSave ex | PRename ex | PCreate ex | PWrite ex => ex = true end
      | Down d2 => exists s', d_files d2 p = Some (Complete (p_ext p) s') /\ eqv phys s' s /\
          hist_of phys d2 = hist_of phys d ++ pend
      | Finished _ => False end).
    assert (HG : forall m, steps ls (Up p true s pend (PSave true) d) m -> G m).
    { clear Hs. remember (Up p true s pend (PSave true) d) as m0. intros m Hs.
      induction Hs as [|ls l m m1 m2 Hs IH Hst]; subst.
      - simpl. repeat split; auto.
      - rewrite forallb_app in Hl. apply andb_prop in Hl as [Hl1 Hl2].
        specialize (IH Hl1 eq_refl). destruct Hst; simpl in Hl2; try discriminate; simpl in IH;
          try (destruct IH as (? & ? & He & Hh & Hpc)); subst; try contradiction.
        all: simpl; repeat split; auto.
        + rewrite <- Hh. unfold hist_of; simpl. now rewrite <- app_assoc.
        + rewrite app_nil_r. exact Hh.
        + eexists. unfold upd. rewrite path_eqb_refl. split; [reflexivity|]. split; auto. }
    exact (HG _ Hs).
  Qed.
End Limit.
