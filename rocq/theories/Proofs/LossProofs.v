(** Bounded loss of work between periodic recovery snapshots (fixed-step runs) *)
From Coq Require Import List ZArith NArith Bool Lia Reals Lra.
From Verif Require Import Base.Num Model.History Model.Run Model.Machine
  Spec.RunSpec Spec.ClockSpec Proofs.NumLemmas Proofs.MachineProofs Proofs.MachineTheorems Proofs.ClockProofs.
Import ListNotations.
Open Scope R_scope.

Section Loss.
  Variable phys : Type.
  Variable n_particles : nat.
  Variable record_of : phys -> R -> R -> nat -> hrecord.
  Variable observe : phys -> R -> phys.
  Variable lf_advance : phys -> R -> R -> R -> phys.
  Variable wh_advance : phys -> R -> R -> phys.
  Variable ias_advance : phys -> R -> R -> phys * R * R.
  Variable init_phys : phys -> phys.
  Variable evolution_on : phys -> bool.
  Variable table_ends : phys -> list R.
  Variable hash_of : integ (F:=R) phys -> N.
  Variable json_roundtrip : integ (F:=R) phys -> option (integ (F:=R) phys).
  Notation state := (integ (F:=R) phys).
  Notation iterate := (iterate phys n_particles record_of observe lf_advance wh_advance ias_advance).
  Notation step := (step phys n_particles record_of observe lf_advance wh_advance ias_advance
                      init_phys evolution_on table_ends hash_of json_roundtrip).
  Notation steps := (steps phys n_particles record_of observe lf_advance wh_advance ias_advance
                      init_phys evolution_on table_ends hash_of json_roundtrip).
  Notation resume := (resume phys n_particles init_phys evolution_on table_ends json_roundtrip).

  Definition regular (s : state) : Prop := fixed_step s /\ 0 <= i_rec_period s /\ 0 <= i_time s.
  Definition saved (s : state) : Prop := regular s /\ i_last_rec s = i_time s /\ i_time s <> 0.

  (** a complete snapshot of this process's path is at most one period and one
      step old *)
  Definition recent (s : state) (d : disk (F:=R) phys) (p : path) : Prop :=
    exists s1, d_files d p = Some (Complete (p_ext p) s1) /\ i_time s1 = i_last_rec s /\
      i_time s - i_time s1 < i_rec_period s + i_dt s.

  Definition LInv (case : path) (m : mstate (F:=R) phys) : Prop :=
    (forall q f s, q <> case -> d_files (disk_of m) q = Some (Complete f s) -> saved s /\ f = Bin) /\
    match m with
    | Up p lim s pend pc d =>
      p <> case /\ p_ext p = Bin /\ regular s /\
      match pc with
      | PLoop => lim = false -> first_pending s \/ recent s d p
      | PSave _ => 0 < i_time s
      | _ => saved s
      end
    | _ => True
    end.

  Lemma mark_saved s : regular s -> 0 < i_time s -> saved (mark_recovery phys hash_of s).
  Proof. intros (Hf & Hp & Ht) H0. unfold mark_recovery. repeat split; simpl; auto; try apply Hf. lra. Qed.

  Lemma regular_iterate s s' out r : regular s -> iterate s = (s', out, r) -> regular s' /\ 0 < i_time s'.
  Proof.
    intros (Hf & Hp & Ht) Hi.
    destruct (iterate_fixed _ _ _ _ _ _ _ _ _ _ _ Hf Hi) as (Hf2 & Ht2 & _ & _ & _ & Hr & _).
    destruct Hf as (_ & _ & Hd). split; [split; [assumption|]; split|]; try rewrite Hr; lra.
  Qed.

  Lemma LInv_resume case q lim d : p_ext q = Bin -> q <> case ->
    (forall q f s, q <> case -> d_files d q = Some (Complete f s) -> saved s /\ f = Bin) ->
    LInv case (resume q lim d).
  Proof.
    intros Hb Hc HF.
    destruct (resume_cases phys n_particles init_phys evolution_on table_ends json_roundtrip
      q lim d) as [(d' & -> & Ef & _)|(s1 & s & d' & -> & Ef & El & Eb & _)].
    - split; simpl; [rewrite Ef; exact HF|exact I].
    - apply load_bin in El; [|assumption].
      destruct (HF _ _ _ Hc El) as [(Hreg & Hlr & Ht0) _].
      rewrite boot_started in Eb; [|exact neg_one_R|apply Reqb_false; exact Ht0].
      injection Eb as <-.
      split; simpl; [rewrite Ef; exact HF|].
      split; [assumption|]. split; [assumption|]. split; [assumption|].
      intros _. right. exists s1. rewrite Ef, Hb. split; [assumption|]. split; [congruence|].
      destruct Hreg as ((_ & _ & Hd) & Hp & _). lra.
  Qed.

  Lemma LInv_step case l m m' : snap_label case l -> step l m m' -> LInv case m -> LInv case m'.
  Proof.
    intros Hlab Hst (HF & HM). destruct Hst; simpl in HF, HM.
    - split; [exact HF|]. exact HM.
    - split; [exact HF|exact I].
    - destruct HM as (Hc & Hb & Hr & HM). destruct (regular_iterate _ _ _ _ Hr H) as [Hr' Ht'].
      split; [exact HF|]. repeat split; auto; try apply Hr'. discriminate.
    - destruct HM as (Hc & Hb & Hr & HM). destruct (regular_iterate _ _ _ _ Hr H) as [Hr' Ht'].
      split; [exact HF|]. repeat split; auto; apply Hr'.
    - destruct HM as (Hc & Hb & Hr & HM). destruct (regular_iterate _ _ _ _ Hr H) as [Hr' Ht'].
      split; [exact HF|]. simpl. split; [assumption|]. split; [assumption|]. split; [assumption|].
      destruct (iterate_fixed _ _ _ _ _ _ _ _ _ _ _ (proj1 Hr) H) as (_ & Ht2 & Hd2 & _ & _ & Hrp & Hlr & _ & Htr).
      rewrite (Htr _ eq_refl). unfold first_trigger, rec_trigger. num_simpl.
      destruct (Rltb_spec (i_last_hist s) 0); [exact Ht'|].
      destruct (Rleb_spec (i_last_rec s + i_rec_period s) (i_time s)); [exact Ht'|].
      simpl. intros _. right. destruct (HM eq_refl) as [Hfp|(s1 & Ef & Et & Hlt)]; [unfold first_pending in Hfp; lra|].
      exists s1. split; [assumption|]. split; [congruence|]. rewrite Ht2, Et, Hrp, Hd2. lra.
    - destruct HM as (Hc & Hb & Hr & HM). split; [exact HF|].
      pose proof (mark_saved s Hr HM) as Hs. repeat split; auto; apply Hs.
    - destruct HM as (Hc & Hb & Hr & HM). split; [|repeat split; auto; try apply Hr; apply HM].
      intros q f s1 Hq E. simpl in E. unfold upd in E.
      destruct (path_eqb q p); [discriminate|]. destruct (path_eqb q (backup p stamp)).
      + injection E as ->. exact (HF _ _ _ Hc H).
      + exact (HF _ _ _ Hq E).
    - split; [exact HF|exact HM].
    - destruct HM as (Hc & Hb & Hr & HM). split; [|repeat split; auto; try apply Hr; apply HM].
      intros q f s1 Hq E. simpl in E. unfold upd in E.
      destruct (path_eqb q p); [discriminate|]. exact (HF _ _ _ Hq E).
    - destruct HM as (Hc & Hb & Hr & HM).
      assert (HF' : forall q f s1, q <> case -> upd (d_files d) p (Some (Complete (p_ext p) s)) q = Some (Complete f s1) ->
                saved s1 /\ f = Bin).
      { intros q f s1 Hq E. unfold upd in E. destruct (path_eqb q p); [|exact (HF _ _ _ Hq E)].
        injection E as <- <-. auto. }
      destruct ex; simpl; split; simpl; auto.
      split; [assumption|]. split; [assumption|]. split; [assumption|].
      intros _. right. exists s. simpl. unfold upd. rewrite path_eqb_refl. split; [reflexivity|].
      destruct HM as (_ & Hlr & _). split; [congruence|]. destruct Hr as ((_ & _ & Hd) & Hp & _). lra.
    - split; [exact HF|exact I].
    - destruct Hlab. now apply LInv_resume.
    - destruct Hlab. now apply LInv_resume.
  Qed.

  Lemma LInv_steps case ls m m' : Forall (snap_label case) ls -> steps ls m m' -> LInv case m -> LInv case m'.
  Proof.
    intros Hl Hs HI. induction Hs as [m|ls l m m1 m2 Hs IH Hst]; auto.
    apply Forall_app in Hl as [Hl1 Hl2]. apply Forall_inv in Hl2.
    eapply LInv_step; eauto.
  Qed.

  Theorem bounded_loss case p lim0 (d0 d1 : disk (F:=R) phys) s0 ls q s pend d :
    (forall q f s, d_files d0 q = Some (Complete f s) -> q = case) ->
    start phys n_particles init_phys evolution_on table_ends json_roundtrip case p lim0 d0
      = Up p lim0 s0 [] PLoop d1 ->
    p_ext p = Bin -> p <> case ->
    fixed_step s0 -> fresh s0 -> 0 <= i_rec_period s0 ->
    (forall q, In (LResume q) ls -> p_ext q = Bin /\ q <> case) ->
    steps ls (Up p lim0 s0 [] PLoop d1) (Up q false s pend PLoop d) ->
    first_pending s \/
    exists s1, d_files d q = Some (Complete Bin s1) /\
      i_time s - i_time s1 < i_rec_period s + i_dt s.
  Proof.
    intros Hoc Hst Hb Hc Hf Hfr Hrp Hl Hs.
    destruct (start_Up _ _ _ _ _ _ _ _ _ _ _ _ _ _ _ _ Hst) as
      (_ & _ & _ & _ & _ & Hfiles & _).
    destruct Hfr as (Ht & Hlh & _).
    assert (HI : LInv case (Up q false s pend PLoop d)).
    { eapply LInv_steps; [|exact Hs|].
      - rewrite Forall_forall. intros l Hin. destruct l; simpl; auto.
      - split; simpl.
        + rewrite Hfiles. intros q' f' s' Hn E. now apply Hoc in E.
        + repeat split; auto; try apply Hf; try lra. intros _. left. unfold first_pending. lra. }
    destruct HI as (_ & _ & Hq & _ & HM). destruct (HM eq_refl) as [?|(s1 & Ef & _ & Hlt)]; [left; assumption|right].
    exists s1. rewrite Hq in Ef. auto.
  Qed.
End Loss.
