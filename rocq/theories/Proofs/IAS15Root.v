(** * The seventh root is not reached; IAS15 and the spin *)
From Coq Require Import Reals List Bool Lra Lia Arith.
From Verif Require Import Base.Num Base.Result Base.Trans Base.Vec Model.Constants Model.Particle Model.Host
  Model.Creep Model.Relativity Model.Universe Model.WHFast Model.IAS15
  Spec.EffectsSpec Spec.UniverseSpec Spec.IAS15Spec Proofs.NumLemmas Proofs.VecLemmas
  Proofs.FrameProofs Proofs.EffectSums Proofs.WHFastStep Proofs.IAS15Poly Proofs.IAS15Step Proofs.IAS15Control.
Import ListNotations.
Open Scope R_scope.

(** the iterates never fall faster than by one seventh *)
Lemma newton7_slow a n : 0 < a -> (6 / 7) ^ n * ((6 + a) / 7) <= newton7 a (S n).
Proof.
  intro Ha. unfold newton7. induction n as [|n IH].
  - cbn [repeat_n pow]. rewrite next_eq by lra. lra.
  - rewrite repeat_S. change ((6 / 7) ^ S n) with (6 / 7 * (6 / 7) ^ n).
    assert (P : 0 < (6 / 7) ^ n) by (apply pow_lt; lra).
    revert IH P. generalize (repeat_n (S n) (sqrt7_next a) 1) ((6 / 7) ^ n). intros x y IH P.
    assert (Q : 0 < y * ((6 + a) / 7)) by (apply Rmult_lt_0_compat; lra).
    rewrite next_eq by lra.
    assert (0 < x ^ 6) by (apply pow_lt; lra).
    assert (0 < a / x ^ 6) by (apply Rdiv_lt_0_compat; lra). lra.
Qed.
Lemma sqrt7_above a r : 0 < r -> r ^ 7 = a -> 0 < sqrt7 a /\ r <= sqrt7 a.
Proof.
  intros Hr <-. rewrite sqrt7_newton. destruct (newton7_pos r 20 Hr) as (P & Q). split; [exact P|]. apply Q. discriminate.
Qed.
(** a step that should grow threefold grows fourfold *)
Lemma sqrt7_2187 : 16 < sqrt7 (3 ^ 7).
Proof.
  rewrite sqrt7_newton. eapply Rlt_le_trans; [|apply (newton7_slow (3 ^ 7) 19); lra]. lra.
Qed.
Lemma clipped (dt err q : R) : proposed dt err / dt = q -> 4 < q -> decide dt err = Accept (dt / SAFETY_FACTOR)%num.
Proof.
  intros Ep Q. unfold decide. change (@ndiv R NumR) with Rdiv. change (@nabs R NumR) with Rabs. change (@nltb R NumR) with Rltb. change (@n1 R NumR) with 1.
  rewrite Ep, safety. rewrite Rabs_pos_eq by lra. unfold Rltb.
  destruct (Rlt_dec q (1 / 4)); [lra|]. destruct (Rlt_dec 1 q); [|lra]. destruct (Rlt_dec (1 / (1 / 4)) q); [|lra]. reflexivity.
Qed.
Lemma proposed_ratio (dt err : R) : dt <> 0 -> err <> 0 -> proposed dt err / dt = sqrt7 (/ 1000000 / err).
Proof.
  intros Hd He. assert (K : forall q, q * dt / dt = q) by (intro; field; exact Hd).
  rewrite proposed_real. rewrite (proj2 (Reqb_false err 0) He). apply K.
Qed.
Lemma too_long (dt : R) : dt <> 0 -> exists err, / 1000000 / err = 3 ^ 7 /\ decide dt err = Accept (4 * dt).
Proof.
  intro Hd. assert (Ee : exists err, err <> 0 /\ / 1000000 / err = 3 ^ 7) by (exists (/ 1000000 / 3 ^ 7); split; [lra|field]).
  destruct Ee as (err & He & Ee). exists err. split; [exact Ee|].
  assert (S4 : (dt / SAFETY_FACTOR)%num = 4 * dt) by (rewrite safety; change (@ndiv R NumR) with Rdiv; field). rewrite <- S4.
  apply (clipped dt err _ eq_refl). rewrite (proposed_ratio dt err Hd He), Ee. pose proof sqrt7_2187 as Q. eapply Rlt_trans; [|exact Q]. lra.
Qed.
Lemma sqrt7_small : 4 * (1 / 100) < sqrt7 ((1 / 100) ^ 7).
Proof. eapply Rlt_le_trans; [|apply sqrt7_far; apply pow_lt; lra]. lra. Qed.

(** ** The spin *)
Section Spin.
  Context {F : Type} `{Num F} `{Trans F} `{Floor F} `{Fuel}.
  Lemma steps_keep_L n : forall s s' : ias (F := F), shaped s -> integrate_spin (ia_u s) = false -> ias_steps n s = Ok s' ->
    map p_L (u_particles (ia_u s')) = map p_L (u_particles (ia_u s)).
  Proof.
    induction n as [|n IH]; intros s s' Sh Hs E; cbn [ias_steps] in E; [injection E as <-; reflexivity|].
    destruct (ias_step s) as [s1|] eqn:E1; [|discriminate E]. cbn [rbind] in E. unfold ias_step in E1.
    destruct (evaluate (ia_t s) (ia_u s)) as [u|] eqn:Ee; [|discriminate E1]. cbn [rbind] in E1.
    destruct (L_blind (u_effects (ia_u s))) as [B _ _ Ba _].
    destruct (evaluate_view p_L _ _ _ B Ba (proj2 Sh) Ee) as (V & St).
    destruct (evaluate_len _ _ _ (proj2 Sh) Ee) as (Ll & _).
    assert (Sh1 : shaped (Ias u (ia_tracks s) (ia_t s) (ia_dt s) (ia_last s) (ia_exceeded s))).
    { destruct Sh as (A & C). split; cbn [ia_tracks ia_u]; [congruence|]. destruct St as (_ & _ & _ & ->). congruence. }
    assert (Hs1 : integrate_spin u = false) by (unfold integrate_spin in *; destruct St as (-> & _ & -> & _); exact Hs).
    assert (Bi : blind_ias (integrate_spin u) (u_effects u) (p_L : particle F -> vec F)) by (rewrite Hs1; apply L_blind).
    destruct (passes_view (p_L : particle F -> vec F) _ _ _ Sh1 Bi (fun _ _ => eq_refl) E1) as (V2 & St2 & Sh2).
    cbn [ia_u] in V2, St2. rewrite (IH s1 s' Sh2); [congruence| |exact E].
    unfold integrate_spin in *. destruct St2 as (-> & _ & -> & _). exact Hs1.
  Qed.
End Spin.

(** ** Binary64: an error estimate that is not a normal number *)
Lemma f64_abs_not_negative (x : f64) : nltb (nabs x) (n0 : f64) = false.
Proof. destruct x as [s|s| |s m e]; reflexivity. Qed.
Lemma proposed_not_normal (dt err : f64) : nnormal err = false -> proposed dt err = ndiv dt SAFETY_FACTOR.
Proof.
  intro E. unfold proposed. rewrite E. cbv zeta. unfold INTEGRATOR_MIN_DT, INTEGRATOR_MAX_DT. rewrite f64_abs_not_negative.
  assert (Z : nltb (n0 : f64) (n0 : f64) = false) by reflexivity. rewrite Z. reflexivity.
Qed.
