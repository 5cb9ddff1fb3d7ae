From Coq Require Import List ZArith NArith Bool Lia Reals Lra.
From Verif Require Import Base.Num Model.History Model.Run Model.Machine Spec.HistorySpec
  Spec.RunSpec Spec.ClockSpec Proofs.NumLemmas Proofs.HistoryProofs Proofs.MachineProofs Proofs.MachineTheorems.
Import ListNotations.
Open Scope R_scope.

Lemma neg_one_R : ((n0 : R) <? - n1)%num = false.
Proof. cbn. apply Rltb_false. lra. Qed.

Section ClockProofs.
  Variable phys : Type.
  Variable n_particles : nat.
  Variable record_of : phys -> R -> R -> nat -> hrecord.
  Variable observe : phys -> R -> phys.
  Variable lf_advance : phys -> R -> R -> R -> phys.
  Variable wh_advance : phys -> R -> R -> phys.
  Variable ias_advance : phys -> R -> R -> phys * R * R.
  Notation state := (integ (F:=R) phys).
  Notation iterate := (iterate phys n_particles record_of observe lf_advance wh_advance ias_advance).
  Notation runs := (runs iterate).
  Notation completes := (completes iterate).

  Lemma iterate_fixed s s' out r : fixed_step s -> iterate s = (s', out, r) ->
    fixed_step s' /\ i_time s' = i_time s + i_dt s /\ i_dt s' = i_dt s /\
    i_limit s' = i_limit s /\ i_hist_period s' = i_hist_period s /\ i_rec_period s' = i_rec_period s /\
    i_last_rec s' = i_last_rec s /\
    (r = Completed <-> i_limit s < i_time s' + i_dt s') /\
    (forall trig, r = Ok trig -> trig = (first_trigger phys s || rec_trigger phys s)%bool).
  Proof.
    intros (Hk & Hh & Hd). unfold Run.iterate, advance.
    destruct (i_kind s) eqn:Ek; [| |congruence]; intros [= <- <- <-]; unfold fixed_step; simpl; num_simpl.
    - rewrite Hh. split; [repeat split; auto; congruence|]. split; [lra|].
      repeat (split; [reflexivity|]). split.
      + destruct (Rltb_spec (i_limit s) (i_time s + i_dt s / 2 + i_dt s / 2 + i_dt s)); split; intros; auto; try discriminate; contradiction.
      + intros trig. destruct (Rltb _ _); [discriminate|]. now intros [= <-].
    - split; [repeat split; auto; congruence|]. split; [lra|].
      repeat (split; [reflexivity|]). split.
      + destruct (Rltb_spec (i_limit s) (i_time s + i_dt s + i_dt s)); split; intros; auto; try discriminate; contradiction.
      + intros trig. destruct (Rltb _ _); [discriminate|]. now intros [= <-].
  Qed.

  Lemma runs_clock n s0 h s : fixed_step s0 -> runs n s0 h s ->
    fixed_step s /\ i_time s = i_time s0 + INR n * i_dt s0 /\ i_dt s = i_dt s0 /\ i_limit s = i_limit s0
    /\ i_hist_period s = i_hist_period s0 /\ i_rec_period s = i_rec_period s0
    /\ ((1 <= n)%nat -> i_time s + i_dt s <= i_limit s).
  Proof.
    intros Hf Hr. induction Hr as [s|n s h s1 s2 o trig Hr IH Hi].
    - repeat split; auto; try apply Hf. { simpl; lra. } intros; lia.
    - destruct (IH Hf) as (Hf1 & Ht & Hd & Hl & Hp & Hrp & _).
      destruct (iterate_fixed _ _ _ _ Hf1 Hi) as (Hf2 & Ht2 & Hd2 & Hl2 & Hp2 & Hrp2 & _ & Hc & _).
      split; [assumption|]. split; [rewrite Ht2, Ht, Hd, S_INR; lra|].
      repeat (split; [congruence|]).
      intros _. rewrite Hl2. destruct (Rle_lt_dec (i_time s2 + i_dt s2) (i_limit s1)); auto.
      apply Hc in r. discriminate.
  Qed.

  Lemma clock_moves_R s0 : fixed_step s0 -> 0 <= i_time s0 ->
    forall n h s, runs (S n) s0 h s -> (i_time s =? n0)%num = false.
  Proof.
    intros Hf H0 n h s Hr. apply runs_clock in Hr as (_ & Ht & _); [|assumption].
    cbn. apply Reqb_false. destruct Hf as (_ & _ & Hd).
    pose proof (pos_INR n). rewrite S_INR in Ht. nra.
  Qed.

  (** a run either continues or has completed *)
  Lemma runs_or_completes s0 n :
    (exists h s, runs n s0 h s) \/
    (exists k h s s' out, (k < n)%nat /\ runs k s0 h s /\ iterate s = (s', out, Completed)).
  Proof.
    induction n as [|n [(h & s & Hr)|(k & h & s & s' & out & Hk & Hr & Hi)]].
    - left. exists [], s0. constructor.
    - destruct (iterate s) as [[s' out] [|trig]] eqn:E.
      + right. exists n, h, s, s', out. auto.
      + left. exists (h ++ out), s'. econstructor; eassumption.
    - right. exists k, h, s, s', out. auto.
  Qed.

  Theorem fixed_run_stops s0 : fixed_step s0 -> i_time s0 = 0 ->
    exists k h s s' out, runs k s0 h s /\ iterate s = (s', out, Completed) /\
      completes s0 (h ++ out) /\
      i_time s' = INR (S k) * i_dt s0 /\
      i_limit s0 < INR (S k) * i_dt s0 + i_dt s0 /\
      (i_dt s0 <= i_limit s0 -> INR (S k) * i_dt s0 <= i_limit s0) /\
      (i_limit s0 < i_dt s0 -> k = 0%nat).
  Proof.
    intros Hf H0. pose proof Hf as (_ & _ & Hd).
    destruct (archimed (i_limit s0 / i_dt s0)) as [Ha _].
    set (z := up (i_limit s0 / i_dt s0)) in *.
    set (N := S (Z.to_nat z)).
    assert (HN : i_limit s0 < INR N * i_dt s0).
    { apply Rmult_lt_compat_r with (r := i_dt s0) in Ha; [|assumption].
      replace (i_limit s0 / i_dt s0 * i_dt s0) with (i_limit s0) in Ha by (field; lra).
      eapply Rlt_le_trans; [exact Ha|]. apply Rmult_le_compat_r; [lra|].
      subst N. rewrite S_INR. pose proof (pos_INR (Z.to_nat z)) as Hp.
      destruct (Z.le_gt_cases 0 z).
      - rewrite INR_IZR_INZ, Z2Nat.id by assumption. lra.
      - apply Rle_trans with 0; [apply IZR_le; lia|]. lra. }
    assert (HN1 : (1 <= N)%nat) by (subst N; lia). clearbody N.
    destruct (runs_or_completes s0 N) as [(h & s & Hr)|(k & h & s & s' & out & Hk & Hr & Hi)].
    - exfalso. apply runs_clock in Hr as (_ & Ht & Hd' & Hl & _ & _ & Hle); [|assumption].
      specialize (Hle HN1). rewrite Ht, Hl, Hd', H0 in Hle. lra.
    - exists k, h, s, s', out.
      pose proof (runs_clock _ _ _ _ Hf Hr) as (Hf1 & Ht & Hd' & Hl & _ & _ & Hle).
      pose proof (iterate_fixed _ _ _ _ Hf1 Hi) as (Hf2 & Ht2 & Hd2 & Hl2 & _ & _ & _ & Hc & _).
      destruct Hc as [Hc _]. specialize (Hc eq_refl).
      assert (Ht' : i_time s' = INR (S k) * i_dt s0) by (rewrite Ht2, Ht, Hd', S_INR, H0; lra).
      split; [assumption|]. split; [assumption|]. split; [eapply runs_completes; eassumption|].
      split; [assumption|]. split; [rewrite <- Ht', <- Hl, <- Hd', <- Hd2; exact Hc|].
      split.
      + intros Hge. destruct k as [|k].
        * simpl. lra.
        * specialize (Hle ltac:(lia)). rewrite <- Ht', Ht2, <- Hl. exact Hle.
      + intros Hlt. destruct k as [|k]; [reflexivity|exfalso].
        specialize (Hle ltac:(lia)). rewrite Ht, Hd', H0, Hl, S_INR in Hle.
        pose proof (pos_INR k). nra.
  Qed.

  (** ** C09 *)
  Lemma iterate_hist s s' out r : fixed_step s -> iterate s = (s', out, r) ->
    let due := (first_trigger phys s || hist_trigger phys s)%bool in
    i_nhist s' = (if due then i_nhist s + 1 else i_nhist s)%N /\
    i_last_hist s' = (if due then (if first_trigger phys s then 0 else i_last_hist s + i_hist_period s) else i_last_hist s) /\
    out = (if due then snapshot_bytes phys n_particles record_of (observe (i_phys s) (i_time s)) (i_time s) (i_dt s) else []).
  Proof.
    intros (Hk & _). unfold Run.iterate, next_last_hist.
    destruct (advance _ _ _ _ _ _) as [[p t] dt]. intros [= <- <- _]. simpl.
    split; [reflexivity|]. split.
    - destruct (i_kind s); try congruence;
      destruct (Rltb (i_last_hist s) 0); destruct (Rleb _ _); reflexivity.
    - destruct (_ || _)%bool; reflexivity.
  Qed.

  Lemma sampling_invariant n s0 h s : fixed_step s0 -> fresh s0 -> i_dt s0 <= i_hist_period s0 ->
    runs n s0 h s ->
    (n = 0%nat /\ s = s0) \/
    (1 <= n)%nat /\ exists j, i_last_hist s = INR j * i_hist_period s0 /\ i_nhist s = N.of_nat (S j) /\
      INR j * i_hist_period s0 <= (INR n - 1) * i_dt s0 < (INR j + 1) * i_hist_period s0.
  Proof.
    intros Hf Hfr HP Hr. induction Hr as [s0|n s0 h s1 s2 o trig Hr IH Hi]; [left; auto|right].
    specialize (IH Hf Hfr HP).
    pose proof (runs_clock _ _ _ _ Hf Hr) as (Hf1 & Ht & Hd & _ & Hp & _ & _).
    destruct (iterate_hist _ _ _ _ Hf1 Hi) as (Hn & Hlh & _).
    destruct Hfr as (H0 & Hm1 & _ & Hn0).
    destruct Hf as (_ & _ & Hdpos).
    split; [lia|]. rewrite S_INR. replace (INR n + 1 - 1) with (INR n) by ring.
    unfold first_trigger, hist_trigger in *. num_simpl.
    destruct IH as [(-> & ->)|(Hn1 & j & Hlj & Hnj & Hj)].
    - rewrite Hm1 in *. destruct (Rltb_spec (-1) 0); [|lra]. simpl in *.
      exists 0%nat. rewrite Hlh, Hn, Hn0. simpl. split; [lra|]. split; [reflexivity|]. lra.
    - rewrite Hlj, Hp, Ht, H0 in *.
      pose proof (pos_INR j).
      destruct (Rltb_spec (INR j * i_hist_period s0) 0); [nra|].
      destruct (Rleb_spec (INR j * i_hist_period s0 + i_hist_period s0) (0 + INR n * i_dt s0)); cbn [orb] in *.
      + exists (S j). rewrite Hlh, Hn, Hnj, S_INR. split; [ring|]. split; [lia|]. lra.
      + exists j. rewrite Hlh, Hn, Hnj. split; [reflexivity|]. split; [reflexivity|]. lra.
  Qed.

  Theorem history_sampling n s0 h s s' out r :
    fixed_step s0 -> fresh s0 -> i_dt s0 <= i_hist_period s0 ->
    runs n s0 h s -> iterate s = (s', out, r) ->
    (sample_due (i_dt s0) (i_hist_period s0) n ->
       out = snapshot_bytes phys n_particles record_of
               (observe (i_phys s) (INR n * i_dt s0)) (INR n * i_dt s0) (i_dt s0)
       /\ i_nhist s' = (i_nhist s + 1)%N) /\
    (~ sample_due (i_dt s0) (i_hist_period s0) n -> out = [] /\ i_nhist s' = i_nhist s).
  Proof.
    intros Hf Hfr HP Hr Hi.
    pose proof (runs_clock _ _ _ _ Hf Hr) as (Hf1 & Ht & Hd & _ & Hp & _ & _).
    destruct (iterate_hist _ _ _ _ Hf1 Hi) as (Hn & _ & Hout).
    pose proof (sampling_invariant _ _ _ _ Hf Hfr HP Hr) as IH.
    destruct Hfr as (H0 & Hm1 & _ & Hn0). destruct Hf as (_ & _ & Hdpos).
    replace (i_time s) with (INR n * i_dt s0) in Hout by lra. rewrite Hd in Hout.
    unfold first_trigger, hist_trigger in *. num_simpl.
    assert (Hdue : sample_due (i_dt s0) (i_hist_period s0) n <->
       (Rltb (i_last_hist s) 0 || Rleb (i_last_hist s + i_hist_period s) (i_time s))%bool = true).
    { destruct IH as [(-> & ->)|(Hn1 & j & Hlj & Hnj & Hj)].
      - rewrite Hm1. destruct (Rltb_spec (-1) 0); [|lra]. simpl. split; auto. intros _. now left.
      - rewrite Hlj, Hp, Ht, H0. pose proof (pos_INR j).
        destruct (Rltb_spec (INR j * i_hist_period s0) 0); [nra|].
        destruct (Rleb_spec (INR j * i_hist_period s0 + i_hist_period s0) (0 + INR n * i_dt s0)); cbn [orb].
        + split; auto. intros _. right. exists (S j). split; [lia|]. rewrite S_INR. lra.
        + split; [|discriminate]. intros [->|(k & Hk & Hlo & Hhi)]; [lia|exfalso].
          destruct (Nat.le_gt_cases k j) as [Hkj|Hkj].
          * apply le_INR in Hkj. nra.
          * assert (S j <= k)%nat as Hkj' by lia. apply le_INR in Hkj'. rewrite S_INR in Hkj'. nra. }
    split; intros Hs.
    - apply Hdue in Hs. rewrite Hs in *. auto.
    - destruct (_ || _)%bool; [exfalso; apply Hs; now apply Hdue|]. auto.
  Qed.

End ClockProofs.

  (** each period is sampled exactly once, at most one step late *)
  Theorem sampling_error dt P k : 0 < dt -> dt <= P -> (1 <= k)%nat ->
    exists n, sample_due dt P n /\ INR k * P <= INR n * dt < INR k * P + dt /\
      forall m, (INR m - 1) * dt < INR k * P <= INR m * dt -> m = n.
  Proof.
    intros Hd HP Hk.
    assert (HkP : 0 < INR k * P).
    { apply Rmult_lt_0_compat; [apply lt_0_INR; lia|lra]. }
    destruct (archimed (INR k * P / dt)) as [Ha Hb].
    set (q := INR k * P / dt) in *.
    assert (Hq : INR k * P = q * dt) by (unfold q; field; lra).
    assert (Hq0 : 0 < q) by (unfold q; apply Rdiv_lt_0_compat; lra).
    (* the least integer above or equal q *)
    set (z := up q).
    assert (Hz : (0 < z)%Z) by (apply lt_IZR; unfold z; lra).
    assert (Hex : exists n : nat, (INR n - 1) * dt < q * dt <= INR n * dt).
    { destruct (Req_dec (IZR z - 1) q) as [E|E].
      - exists (Z.to_nat (z - 1)). rewrite INR_IZR_INZ, Z2Nat.id by lia. rewrite minus_IZR. simpl.
        split; nra.
      - exists (Z.to_nat z). rewrite INR_IZR_INZ, Z2Nat.id by lia. unfold z in *. split; nra. }
    destruct Hex as [n [Hlo Hhi]]. exists n. rewrite Hq.
    split; [right; exists k; split; [assumption|rewrite Hq; lra]|].
    split; [nra|]. intros m [Hm1 Hm2].
    assert (INR m - 1 < INR n) by nra. assert (INR n - 1 < INR m) by nra.
    apply INR_eq. destruct (Nat.lt_trichotomy m n) as [Hl|[->|Hl]]; auto.
    - apply le_INR in Hl. rewrite S_INR in Hl. lra.
    - apply le_INR in Hl. rewrite S_INR in Hl. lra.
  Qed.
