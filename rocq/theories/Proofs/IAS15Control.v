(** * Step size control and retries *)
From Coq Require Import Reals List Bool Lra Lia Arith.
From Verif Require Import Base.Num Base.Result Base.Trans Base.Vec Model.Constants Model.Particle Model.Host
  Model.Creep Model.Relativity Model.Universe Model.WHFast Model.IAS15
  Spec.EffectsSpec Spec.UniverseSpec Spec.IAS15Spec Proofs.NumLemmas Proofs.VecLemmas
  Proofs.FrameProofs Proofs.EffectSums Proofs.WHFastStep Proofs.IAS15Poly Proofs.IAS15Step.
Import ListNotations.

Section Any.
  Context {F : Type} `{Num F}.
  Local Open Scope num_scope.
  Lemma decide_reject (dt err n : F) : decide dt err = Reject n <-> n = proposed dt err /\ (nabs (n / dt) <? SAFETY_FACTOR) = true.
  Proof.
    unfold decide. destruct (nabs (proposed dt err / dt) <? SAFETY_FACTOR) eqn:E.
    - split; [intro X; injection X as <-; auto|]. intros (-> & _). reflexivity.
    - split; [destruct (_ && _); intro X; discriminate X|]. intros (-> & X). rewrite E in X. discriminate X.
  Qed.
  Lemma decide_accept (dt err n : F) : decide dt err = Accept n ->
    (nabs (proposed dt err / dt) <? SAFETY_FACTOR) = false /\
    (n = dt / SAFETY_FACTOR \/ n = proposed dt err /\ (nabs (n / dt) >? n1) && (n / dt >? n1 / SAFETY_FACTOR) = false).
  Proof.
    unfold decide. destruct (nabs (proposed dt err / dt) <? SAFETY_FACTOR) eqn:E; [intro X; discriminate X|].
    destruct (_ && _) eqn:E2; intro X; injection X as <-; auto.
  Qed.
End Any.

Section Reals.
  Open Scope R_scope.
  Lemma safety : (SAFETY_FACTOR : R) = 1 / 4. Proof. unfold SAFETY_FACTOR. nums. lra. Qed.
  Lemma proposed_real (dt err : R) : proposed dt err = if Reqb err 0 then dt * 4 else sqrt7 (/ 1000000 / err) * dt.
  Proof.
    unfold proposed, INTEGRATOR_MIN_DT, INTEGRATOR_MAX_DT. change (@n0 R NumR) with 0. change (@nltb R NumR) with Rltb. change (@nabs R NumR) with Rabs.
    replace (Rltb 0 0) with false by (unfold Rltb; destruct (Rlt_dec 0 0); [lra|reflexivity]). cbn [andb].
    match goal with |- (if Rltb (Rabs ?x) 0 then _ else _) = _ => replace (Rltb (Rabs x) 0) with false
      by (unfold Rltb; destruct (Rlt_dec (Rabs x) 0); [pose proof (Rabs_pos x); lra|reflexivity]) end.
    change (nnormal err) with (negb (Reqb err 0)). destruct (Reqb err 0); cbn [negb].
    - rewrite safety. nums. field.
    - unfold INTEGRATOR_EPSILON. nums. replace (1 / 1000000) with (/ 1000000) by lra. reflexivity.
  Qed.
  Lemma Rltb_true x y : Rltb x y = true -> x < y. Proof. unfold Rltb. destruct (Rlt_dec x y); [auto|discriminate]. Qed.
  Lemma Rltb_false x y : Rltb x y = false -> y <= x. Proof. unfold Rltb. destruct (Rlt_dec x y); [discriminate|lra]. Qed.
  Lemma ratio_lt n dt c : dt <> 0 -> Rabs (n / dt) < c -> Rabs n < c * Rabs dt.
  Proof.
    intros Hd E. unfold Rdiv in E. rewrite Rabs_mult, Rabs_inv in E. pose proof (Rabs_pos_lt dt Hd) as P.
    apply (Rmult_lt_compat_r (Rabs dt)) in E; [|exact P]. rewrite Rmult_assoc, Rinv_l, Rmult_1_r in E by lra. exact E.
  Qed.
  Lemma ratio_le n dt c : dt <> 0 -> Rabs (n / dt) <= c -> Rabs n <= c * Rabs dt.
  Proof.
    intros Hd E. unfold Rdiv in E. rewrite Rabs_mult, Rabs_inv in E. pose proof (Rabs_pos_lt dt Hd) as P.
    apply (Rmult_le_compat_r (Rabs dt)) in E; [|lra]. rewrite Rmult_assoc, Rinv_l, Rmult_1_r in E by lra. exact E.
  Qed.
  Lemma ratio_ge n dt c : dt <> 0 -> c <= Rabs (n / dt) -> c * Rabs dt <= Rabs n.
  Proof.
    intros Hd E. unfold Rdiv in E. rewrite Rabs_mult, Rabs_inv in E. pose proof (Rabs_pos_lt dt Hd) as P.
    apply (Rmult_le_compat_r (Rabs dt)) in E; [|lra]. rewrite Rmult_assoc, Rinv_l, Rmult_1_r in E by lra. exact E.
  Qed.
  Lemma rejected_smaller (dt err n : R) : dt <> 0 -> decide dt err = Reject n -> n = proposed dt err /\ Rabs n < 1 / 4 * Rabs dt.
  Proof.
    intros Hd E. apply decide_reject in E. destruct E as (En & E). split; [exact En|].
    rewrite safety in E. apply Rltb_true in E. now apply ratio_lt.
  Qed.
  Lemma proposed_same_sign (dt err : R) : dt <> 0 -> 0 <= err -> 0 < proposed dt err / dt.
  Proof.
    intros Hd He. rewrite proposed_real. unfold Reqb. destruct (Req_EM_T err 0) as [E0|E0].
    - replace (dt * 4 / dt) with 4 by (field; auto). lra.
    - assert (P : 0 < sqrt7 (/ 1000000 / err)).
      { eapply Rlt_le_trans; [|apply sqrt7_far]; [apply pow_lt; lra|]. apply Rdiv_lt_0_compat; lra. }
      revert P. generalize (sqrt7 (/ 1000000 / err)) as q. intros q P. replace (q * dt / dt) with q by (field; auto). exact P.
  Qed.
  Lemma accepted_bounded (dt err n : R) : dt <> 0 -> 0 <= err -> decide dt err = Accept n ->
    Rabs n <= 4 * Rabs dt /\ 1 / 4 * Rabs dt <= Rabs n /\ 0 < n / dt /\ n / dt = Rmin 4 (proposed dt err / dt).
  Proof.
    intros Hd He E. pose proof (proposed_same_sign dt err Hd He) as P. unfold decide in E.
    rewrite !safety in E. change (@ndiv R NumR) with Rdiv in E. change (@nabs R NumR) with Rabs in E. change (@nltb R NumR) with Rltb in E. change (@n1 R NumR) with 1 in E.
    destruct (Rltb (Rabs (proposed dt err / dt)) (1 / 4)) eqn:E1; [discriminate E|]. apply Rltb_false in E1.
    pose proof (Rabs_pos_lt dt Hd) as Pd.
    destruct (Rltb 1 (Rabs (proposed dt err / dt)) && Rltb (1 / (1 / 4)) (proposed dt err / dt)) eqn:E2; injection E as <-.
    - apply andb_prop in E2. destruct E2 as (_ & E2). apply Rltb_true in E2.
      replace (dt / (1 / 4)) with (4 * dt) by field. rewrite Rabs_mult, (Rabs_pos_eq 4) by lra.
      replace (4 * dt / dt) with 4 by (field; auto). split; [lra|]. split; [lra|]. split; [lra|]. rewrite Rmin_left; lra.
    - assert (Q : proposed dt err / dt <= 4).
      { apply andb_false_iff in E2. rewrite (Rabs_pos_eq (proposed dt err / dt)) in E2 by lra. destruct E2 as [E2|E2]; apply Rltb_false in E2; lra. }
      split; [apply ratio_le; [auto|rewrite Rabs_pos_eq; lra]|]. split; [now apply ratio_ge|]. split; [exact P|]. rewrite Rmin_right; lra.
  Qed.

  (** the error estimate is never negative *)
  Definition nonneg4 (m : R * R * R * R) : Prop := 0 <= fst (fst (fst m)) /\ 0 <= snd (fst (fst m)) /\ 0 <= snd (fst m) /\ 0 <= snd m.
  Lemma component_nonneg spin m (c : line (F := R) * line (F := R)) : nonneg4 m -> nonneg4 (error_component spin m c).
  Proof.
    destruct m as [[[a b] s] d]. intros (A & B & C & D). cbn [fst snd] in *. unfold error_component, nonneg4.
    assert (U : forall (x old : R) (t : bool), 0 <= old -> 0 <= (if t then Rabs x else old)) by (intros x old [|] ?; [apply Rabs_pos|assumption]).
    change (@nabs R NumR) with Rabs. destruct spin; cbn [fst snd]; repeat split; auto.
  Qed.
  Lemma error_nonneg spin dt l ws : 0 <= integrator_error (F := R) spin dt l ws.
  Proof.
    unfold integrator_error.
    assert (G : forall k m, nonneg4 m -> nonneg4 (fold_left (error_body spin dt) k m)).
    { induction k as [|[p w] k IH]; intros m Hm; [exact Hm|]. cbn [fold_left]. apply IH. unfold error_body.
      destruct (_ && _); [exact Hm|]. revert m Hm. generalize (combine (axes (w_a w)) (axes (w_s w))). clear.
      induction l as [|c l IH]; intros m Hm; [exact Hm|]. cbn [fold_left]. apply IH. now apply component_nonneg. }
    specialize (G (combine l ws) (n0, n0, n0, n0)).
    destruct (fold_left (error_body spin dt) (combine l ws) (n0, n0, n0, n0)) as [[[a b] s] d].
    destruct G as (A & B & C & D); [repeat split; cbn; lra|]. cbn [fst snd] in *.
    assert (La : forall x y : R, 0 <= x -> 0 <= y -> 0 <= larger x y) by (intros; unfold larger; destruct (nltb _ _); assumption).
    change (0 <= larger b d / larger a s). unfold Rdiv. apply Rmult_le_pos; [now apply La|].
    destruct (Rle_lt_or_eq_dec 0 (larger a s) (La _ _ A C)) as [X|X]; [left; now apply Rinv_0_lt_compat|]. rewrite <- X, Rinv_0. lra.
  Qed.
End Reals.

(** ** Retries *)
Section Retries.
  Context {F : Type} `{Num F} `{Trans F} `{Floor F} `{Fuel}.
  Lemma retries_same k s s1 : shaped s -> retries k s s1 ->
    map moves (u_particles (ia_u s1)) = map moves (u_particles (ia_u s)) /\
    map p_iacc (u_particles (ia_u s1)) = map p_iacc (u_particles (ia_u s)) /\
    ia_t s1 = ia_t s /\ ia_last s1 = ia_last s /\ stays (ia_u s) (ia_u s1) /\ shaped s1 /\
    map (fun k => (k_csx k, k_csv k, k_css k)) (ia_tracks s1) = map (fun k => (k_csx k, k_csv k, k_css k)) (ia_tracks s).
  Proof.
    intros Sh Hr. induction Hr as [s|k s s1 s2 E Hr IH].
    - split; [reflexivity|]. split; [reflexivity|]. split; [reflexivity|]. split; [reflexivity|]. split; [apply stays_refl|]. auto.
    - destruct (rejected _ _ Sh E) as (A1 & A2 & A3 & A4 & A5 & A6 & A7 & _). destruct (IH A6) as (B1 & B2 & B3 & B4 & B5 & B6 & B7).
      split; [congruence|]. split; [congruence|]. split; [congruence|]. split; [congruence|]. split; [eapply stays_trans; eauto|]. split; [exact B6|congruence].
  Qed.
  Lemma passes_retries n : forall s s', passes n s = Ok s' -> exists k s1, (k < n)%nat /\ retries k s s1 /\ attempt s1 = Ok (inr s').
  Proof.
    induction n as [|n IH]; intros s s' E; [discriminate E|]. cbn [passes] in E.
    destruct (attempt s) as [[s1|s1]|] eqn:E1; cbn [rbind] in E; try discriminate E.
    - destruct (IH _ _ E) as (k & s2 & L & Hr & Ea). exists (S k), s2. split; [lia|]. split; [eapply retry_S; eauto|exact Ea].
    - injection E as <-. exists O, s. split; [lia|]. split; [constructor|exact E1].
  Qed.
End Retries.
Section RetriesR.
  Open Scope R_scope.
  Context `{Trans R} `{Floor R} `{Fuel}.
  Lemma retries_shrink k (s s1 : ias (F := R)) : shaped s -> ia_dt s <> 0 -> retries k s s1 -> ia_dt s1 <> 0 /\ Rabs (ia_dt s1) <= (1 / 4) ^ k * Rabs (ia_dt s).
  Proof.
    intros Sh Hd Hr. induction Hr as [s|k s s1 s2 E Hr IH]; [split; [auto|cbn; lra]|].
    destruct (rejected _ _ Sh E) as (_ & _ & _ & _ & _ & A6 & _ & _).
    destruct (attempt_inv _ _ E) as (st & o & _ & new & Ed & Es).
    assert (En : ia_dt s1 = new) by (rewrite Es; reflexivity). rewrite <- En in Ed.
    pose proof (error_nonneg (integrate_spin (ia_u s)) (ia_dt s) (u_particles (fst st)) (snd st)) as He.
    destruct (rejected_smaller _ _ _ Hd Ed) as (Ep & Hs).
    assert (Hd1 : ia_dt s1 <> 0).
    { intro Z. pose proof (proposed_same_sign (ia_dt s) _ Hd He) as P. rewrite <- Ep, Z in P. unfold Rdiv in P. rewrite Rmult_0_l in P. lra. }
    destruct (IH A6 Hd1) as (D2 & Hb). split; [exact D2|]. eapply Rle_trans; [exact Hb|].
    assert (0 <= (1 / 4) ^ k) by (apply pow_le; lra). cbn [pow].
    replace (1 / 4 * (1 / 4) ^ k * Rabs (ia_dt s)) with ((1 / 4) ^ k * (1 / 4 * Rabs (ia_dt s))) by ring.
    apply Rmult_le_compat_l; [assumption|]. lra.
  Qed.
  Theorem step_control n (s s' : ias (F := R)) : shaped s -> ia_dt s <> 0 -> passes n s = Ok s' ->
    ia_t s' = ia_t s + ia_last s' /\ Rabs (ia_dt s') <= 4 * Rabs (ia_last s') /\ 1 / 4 * Rabs (ia_last s') <= Rabs (ia_dt s') /\
    exists k s1, (k < n)%nat /\ retries k s s1 /\ attempt s1 = Ok (inr s') /\ ia_last s' = ia_dt s1 /\
      Rabs (ia_last s') <= (1 / 4) ^ k * Rabs (ia_dt s).
  Proof.
    intros Sh Hd E. destruct (passes_retries _ _ _ E) as (k & s1 & L & Hr & Ea).
    destruct (retries_same _ _ _ Sh Hr) as (_ & _ & At & _ & _ & Sh1 & _). destruct (retries_shrink _ _ _ Sh Hd Hr) as (Hd1 & Hb).
    destruct (accepted_frame _ _ Sh1 Ea) as (Et & El & _ & _ & _ & _).
    destruct (attempt_inv _ _ Ea) as (st & o & _ & new & Ed & Es).
    assert (En : ia_dt s' = new) by (rewrite Es; reflexivity). rewrite <- En in Ed.
    destruct (accepted_bounded _ _ _ Hd1 (error_nonneg _ _ _ _) Ed) as (B1 & B2 & _).
    rewrite El. split; [rewrite Et, At; reflexivity|]. split; [exact B1|]. split; [exact B2|].
    exists k, s1. auto.
  Qed.
End RetriesR.
