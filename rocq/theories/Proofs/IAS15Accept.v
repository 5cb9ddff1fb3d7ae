(** * An accepted step *)
From Coq Require Import Reals List Bool Lra Lia Arith.
From Verif Require Import Base.Num Base.Result Base.Trans Base.Vec Model.Constants Model.Particle Model.Host
  Model.Creep Model.Relativity Model.Universe Model.WHFast Model.IAS15
  Spec.EffectsSpec Spec.UniverseSpec Spec.IAS15Spec Proofs.NumLemmas Proofs.VecLemmas
  Proofs.FrameProofs Proofs.EffectSums Proofs.WHFastStep Proofs.IAS15Poly Proofs.IAS15Fit Proofs.IAS15Pass Proofs.IAS15Step.
Import ListNotations.
Open Scope R_scope.
Local Notation co := (coeffs (F := R)).

(** the divided differences are not much larger than the coefficients *)
Lemma g_bound (g : co) : magnitude g <= 21 * magnitude (b_of_g g).
Proof.
  destruct g as [g0 g1 g2 g3 g4 g5 g6].
  remember (b_of_g (Co g0 g1 g2 g3 g4 g5 g6)) as y eqn:E. destruct y as [y0 y1 y2 y3 y4 y5 y6].
  revert E. unfold b_of_g. rows. cbn [q0 q1 q2 q3 q4 q5 q6]. nums. intro E. injection E as E0 E1 E2 E3 E4 E5 E6.
  unfold magnitude. cbn [q0 q1 q2 q3 q4 q5 q6].
  pose proof (abs_bounds y0) as H0; pose proof (abs_bounds y1) as H1; pose proof (abs_bounds y2) as H2; pose proof (abs_bounds y3) as H3;
    pose proof (abs_bounds y4) as H4; pose proof (abs_bounds y5) as H5; pose proof (abs_bounds y6) as H6.
  pose proof (Rabs_pos y0); pose proof (Rabs_pos y1); pose proof (Rabs_pos y2); pose proof (Rabs_pos y3); pose proof (Rabs_pos y4); pose proof (Rabs_pos y5); pose proof (Rabs_pos y6).
  set (Y := Rabs y0 + Rabs y1 + Rabs y2 + Rabs y3 + Rabs y4 + Rabs y5 + Rabs y6).
  assert (G6 : Rabs g6 <= 3 * Y) by (unfold Y; apply Rabs_le; lra).
  assert (G5 : Rabs g5 <= 3 * Y) by (unfold Y; apply Rabs_le; lra).
  assert (G4 : Rabs g4 <= 3 * Y) by (unfold Y; apply Rabs_le; lra).
  assert (G3 : Rabs g3 <= 3 * Y) by (unfold Y; apply Rabs_le; lra).
  assert (G2 : Rabs g2 <= 3 * Y) by (unfold Y; apply Rabs_le; lra).
  assert (G1 : Rabs g1 <= 3 * Y) by (unfold Y; apply Rabs_le; lra).
  assert (G0 : Rabs g0 <= 3 * Y) by (unfold Y; apply Rabs_le; lra).
  lra.
Qed.
Lemma magnitude_nonneg (b : co) : 0 <= magnitude b.
Proof.
  destruct b as [b0 b1 b2 b3 b4 b5 b6]. unfold magnitude. cbn [q0 q1 q2 q3 q4 q5 q6].
  pose proof (Rabs_pos b0); pose proof (Rabs_pos b1); pose proof (Rabs_pos b2); pose proof (Rabs_pos b3); pose proof (Rabs_pos b4); pose proof (Rabs_pos b5); pose proof (Rabs_pos b6). lra.
Qed.
Lemma magnitude_sub (a b : co) : magnitude (co_sub a b) <= magnitude a + magnitude b.
Proof.
  destruct a as [a0 a1 a2 a3 a4 a5 a6], b as [b0 b1 b2 b3 b4 b5 b6]. unfold magnitude, co_sub, co_map2. cbn [q0 q1 q2 q3 q4 q5 q6].
  assert (T : forall x y, Rabs (x - y) <= Rabs x + Rabs y) by (intros x y; unfold Rminus; rewrite <- (Rabs_Ropp y); apply Rabs_triang).
  pose proof (T a0 b0); pose proof (T a1 b1); pose proof (T a2 b2); pose proof (T a3 b3); pose proof (T a4 b4); pose proof (T a5 b5); pose proof (T a6 b6). lra.
Qed.
Lemma interpolation_b b a0 ats l : consistent b l ->
  let l' := line_pass a0 (seq 1 7) ats l in
  forall n, (1 <= n <= 7)%nat -> Rabs (accel a0 (l_b l') (node n) - ats n) <= table_error * (magnitude (l_b l') + magnitude b).
Proof.
  intros C l' n Hn. destruct (interpolation b a0 ats l C) as (C' & I). fold l' in C', I. eapply Rle_trans; [apply I; exact Hn|].
  destruct C' as (_ & Eb). pose proof (g_bound (l_g l')) as Hg. pose proof (defect_small b) as Hd.
  assert (Ey : b_of_g (l_g l') = co_sub (l_b l') (defect b)).
  { rewrite Eb. destruct (b_of_g (l_g l')) as [y0 y1 y2 y3 y4 y5 y6], (defect b) as [e0 e1 e2 e3 e4 e5 e6].
    unfold co_sub, co_add, co_map2. cbn [q0 q1 q2 q3 q4 q5 q6]. f_equal; ring. }
  rewrite Ey in Hg. pose proof (magnitude_sub (l_b l') (defect b)) as Hm.
  pose proof (magnitude_nonneg b) as P1. pose proof (magnitude_nonneg (l_b l')) as P2.
  revert Hg Hd Hm P1 P2. generalize (magnitude (l_g l')) (magnitude b) (magnitude (l_b l')) (magnitude (defect b)) (magnitude (co_sub (l_b l') (defect b))).
  intros. unfold tiny, table_error in *. lra.
Qed.

Section Accept.
  Context `{Trans R} `{Floor R} `{Fuel}.
  Local Notation st := (universe R * list (work (F := R)))%type.

  Definition good (w : work (F := R)) : Prop := forall x, axis x ->
    consistent (m_b (x _ (k_a (w_track w)))) (x _ (w_a w)) /\ consistent (m_b (x _ (k_s (w_track w)))) (x _ (w_s w)).
  Lemma start_good k p : good (work_start k p).
  Proof. intros x Hx. unfold work_start. cbn [w_track w_a w_s]. rewrite !(axis_each _ _ Hx). split; apply start_consistent. Qed.
  Lemma fit_good spin n w p : (1 <= n <= 7)%nat -> good w -> good (fit spin n w p).
  Proof.
    intros Hn G x Hx. destruct (G x Hx) as (A & B). unfold fit. cbn [w_track w_a w_s]. rewrite !(axis_each _ _ Hx).
    split; [now apply update_consistent|]. destruct spin; [|exact B]. rewrite (axis_each _ _ Hx). now apply update_consistent.
  Qed.
  Lemma zip2_forall {A B C} (P : A -> Prop) (Q : C -> Prop) (f : A -> B -> C) a b : Forall P a -> (forall x y, P x -> Q (f x y)) -> Forall Q (zip2 f a b).
  Proof.
    intros Ha Hf. revert b. unfold zip2. induction Ha as [|x a Px Ha IH]; intros [|y b]; cbn [combine map]; constructor; auto.
  Qed.
  Lemma node_good spin t dt s n s' : (1 <= n <= 7)%nat -> fits s -> node_step spin t dt s n = Ok s' -> Forall good (snd s) -> Forall good (snd s').
  Proof.
    intros Hn Hf E G. destruct (node_step_inv _ _ _ _ _ _ Hf E) as (_ & -> & _). eapply zip2_forall; [exact G|]. intros w p Gw. now apply fit_good.
  Qed.
  Lemma nodes_good spin t dt ns : Forall (fun n => (1 <= n <= 7)%nat) ns -> forall s s', fits s -> rfold (node_step spin t dt) ns s = Ok s' -> Forall good (snd s) -> Forall good (snd s').
  Proof.
    induction ns as [|n ns IH]; intros Hn s s' Hf E G; cbn [rfold] in E; [injection E as <-; exact G|].
    inversion_clear Hn. destruct (node_step spin t dt s n) as [s1|] eqn:E1; [|discriminate E]. cbn [rbind] in E.
    eapply IH; [assumption| |exact E|]; [|eapply node_good; eauto]. exact (mv_fits _ _ _ (node_moved _ _ _ _ _ _ Hf E1)).
  Qed.
  Lemma chain_good spin t dt s s' : fits s -> chain spin t dt s s' -> Forall good (snd s) -> Forall good (snd s').
  Proof.
    intros Hf C G. induction C as [|s1 s2 C IH E]; [exact G|]. eapply nodes_good; [apply seq_range| |exact E|exact IH].
    exact (mv_fits _ _ _ (chain_moved _ _ _ _ _ Hf C)).
  Qed.
  Lemma begin_good (s : ias (F := R)) : Forall good (snd (begin s)).
  Proof. cbn [begin snd]. eapply (zip2_forall (fun _ => True)); [apply Forall_forall; auto|]. intros k p _. apply start_good. Qed.

  (** there is at least one pass *)
  Lemma chain_last spin t dt s s1 s' : chain spin t dt s s1 -> chain spin t dt s1 s' -> (s' = s1 \/ exists s2, chain spin t dt s s2 /\ rfold (node_step spin t dt) (seq 1 7) s2 = Ok s').
  Proof.
    intros C0 C. induction C as [|s2 s3 C IH E]; [now left|]. right. exists s2. split; [|exact E].
    destruct IH as [->|(s4 & C4 & E4)]; [exact C0|]. eapply chain_S; eauto.
  Qed.
  Lemma last_pass spin t dt s s' o : corrector 12 0 spin t dt (nlit (10 ^ 300) 1) (nlit 2 1) s = Ok (s', o) ->
    exists s1, chain spin t dt s s1 /\ rfold (node_step spin t dt) (seq 1 7) s1 = Ok s'.
  Proof.
    change 12%nat with (S 11). generalize 11%nat as n. intros n E. cbn [corrector] in E.
    assert (Z : nltb (nlit (10 ^ 300) 1 : R) (nlit 1 10000000000000000) = false).
    { change (Rltb (IZR (10 ^ 300) / 1) (1 / 10000000000000000) = false). unfold Rltb. destruct (Rlt_dec _ _) as [X|X]; [exfalso|reflexivity].
      assert (1 <= IZR (10 ^ 300)) by (apply IZR_le; apply Z.leb_le; vm_compute; reflexivity). lra. }
    rewrite Z in E. cbn [Nat.ltb Nat.leb andb] in E.
    destruct (rfold (node_step spin t dt) (seq 1 7) s) as [s1|] eqn:E1; [|discriminate E]. cbn [rbind] in E. apply corrector_chain in E.
    assert (C1 : chain spin t dt s s1) by (eapply chain_S; [apply chain_0|exact E1]).
    destruct (chain_last _ _ _ _ _ _ C1 E) as [->|X]; [|exact X]. exists s. split; [apply chain_0|exact E1].
  Qed.

  (** the states between the nodes *)
  Lemma trace spin t dt k : forall n s s', rfold (node_step spin t dt) (seq n k) s = Ok s' ->
    exists tr : nat -> st, tr n = s /\ tr (n + k)%nat = s' /\ forall m, (n <= m < n + k)%nat -> node_step spin t dt (tr m) m = Ok (tr (S m)).
  Proof.
    induction k as [|k IH]; intros n s s' E.
    - injection E as <-. exists (fun _ => s). split; [reflexivity|]. split; [reflexivity|]. intros; lia.
    - cbn [seq rfold] in E. destruct (node_step spin t dt s n) as [s1|] eqn:E1; [|discriminate E]. cbn [rbind] in E.
      destruct (IH _ _ _ E) as (tr & T1 & T2 & T3).
      exists (fun m => if Nat.eqb m n then s else tr m). rewrite Nat.eqb_refl. split; [reflexivity|]. split.
      + replace (n + S k =? n)%nat with false by (symmetry; apply Nat.eqb_neq; lia). replace (n + S k)%nat with (S n + k)%nat by lia. exact T2.
      + intros m Hm. replace (S m =? n)%nat with false by (symmetry; apply Nat.eqb_neq; lia).
        destruct (Nat.eqb_spec m n) as [->|D]; [rewrite T1; exact E1|]. apply T3. lia.
  Qed.
  Lemma trace_fits spin t dt (tr : nat -> st) n k : fits (tr n) -> (forall m, (n <= m < n + k)%nat -> node_step spin t dt (tr m) m = Ok (tr (S m))) ->
    forall m, (n <= m <= n + k)%nat -> fits (tr m) /\ map frozen (snd (tr m)) = map frozen (snd (tr n)).
  Proof.
    intros Hf T m Hm. replace m with (n + (m - n))%nat by lia. assert (Hj : (m - n <= k)%nat) by lia. revert Hj. generalize (m - n)%nat. clear m Hm.
    induction n0 as [|j IH]; intro Hj; [rewrite Nat.add_0_r; auto|].
    destruct IH as (I1 & I2); [lia|]. pose proof (node_moved _ _ _ _ _ _ I1 (T (n + j)%nat ltac:(lia))) as [M1 _ _ M4 _].
    replace (n + S j)%nat with (S (n + j)) by lia. split; [exact M1|congruence].
  Qed.
  Lemma nth_zip2 {A B C} (f : A -> B -> C) a b i x y : nth_error a i = Some x -> nth_error b i = Some y -> nth_error (zip2 f a b) i = Some (f x y).
  Proof. intros E1 E2. rewrite zip2_nth, E1, E2. reflexivity. Qed.
  Lemma frozen_nth (a b : list (work (F := R))) i w : map frozen a = map frozen b -> nth_error a i = Some w -> exists w', nth_error b i = Some w' /\ frozen w' = frozen w.
  Proof.
    intros E Ew. assert (X : nth_error (map frozen b) i = Some (frozen w)) by (rewrite <- E, nth_error_map, Ew; reflexivity).
    rewrite nth_error_map in X. destruct (nth_error b i) as [w'|]; [|discriminate X]. exists w'. split; [reflexivity|]. cbn [option_map] in X. now apply some_eq in X.
  Qed.
  Lemma fits_nth (s : st) i w : fits s -> nth_error (snd s) i = Some w -> exists p, nth_error (u_particles (fst s)) i = Some p.
  Proof.
    intros (L & _) E. assert (i < length (u_particles (fst s)))%nat by (rewrite <- L; apply nth_error_Some; congruence).
    destruct (nth_error (u_particles (fst s)) i) eqn:E2; [eauto|]. apply nth_error_None in E2. lia.
  Qed.
  Lemma fits_nth_r (s : st) i p : fits s -> nth_error (u_particles (fst s)) i = Some p -> exists w, nth_error (snd s) i = Some w.
  Proof.
    intros (L & _) E. assert (i < length (snd s))%nat by (rewrite L; apply nth_error_Some; congruence).
    destruct (nth_error (snd s) i) eqn:E2; [eauto|]. apply nth_error_None in E2. lia.
  Qed.
  (** lines of one body and axis along the trace *)
  Lemma trace_line spin t dt (tr : nat -> st) i w1 x : axis x -> fits (tr 1%nat) ->
    (forall m, (1 <= m < 8)%nat -> node_step spin t dt (tr m) m = Ok (tr (S m))) -> nth_error (snd (tr 1%nat)) i = Some w1 ->
    let body m := nth_error (u_particles (fst (tr (S m)))) i in
    let acc m := match body m with Some p => x _ (p_iacc p) | None => 0 end in
    let tor m := match body m with Some p => x _ (p_dL p) | None => 0 end in
    forall k, (k <= 7)%nat -> exists w, nth_error (snd (tr (S k))) i = Some w /\ frozen w = frozen w1 /\
      x _ (w_a w) = line_pass (x _ (w_a0 w1)) (seq 1 k) acc (x _ (w_a w1)) /\
      (if spin then x _ (w_s w) = line_pass (x _ (w_dL0 w1)) (seq 1 k) tor (x _ (w_s w1)) else w_s w = w_s w1).
  Proof.
    intros Hx Hf T E1 body acc tor. induction k as [|k IH]; intro Hk.
    - exists w1. split; [exact E1|]. split; [reflexivity|]. split; [reflexivity|]. destruct spin; reflexivity.
    - destruct IH as (w & Ew & Fw & Ea & Es); [lia|].
      destruct (trace_fits spin t dt tr 1 7 Hf T (S k) ltac:(lia)) as (Fk & _). destruct (trace_fits spin t dt tr 1 7 Hf T (S (S k)) ltac:(lia)) as (Fk' & _).
      destruct (node_step_inv _ _ _ _ _ _ Fk (T (S k) ltac:(lia))) as (_ & Ez & _ & _ & Ll & _).
      assert (Lw : exists w', nth_error (snd (tr (S (S k)))) i = Some w').
      { destruct (nth_error (snd (tr (S (S k)))) i) eqn:X; [eauto|]. apply nth_error_None in X. rewrite Ll in X. apply nth_error_None in X. congruence. }
      destruct Lw as (w' & Ew'). destruct (fits_nth _ _ _ Fk' Ew') as (p & Ep).
      rewrite Ez, (nth_zip2 _ _ _ _ _ _ Ew Ep). eexists. split; [reflexivity|]. split; [exact Fw|].
      assert (Fa : w_a0 w = w_a0 w1 /\ w_dL0 w = w_dL0 w1) by (unfold frozen in Fw; injection Fw; auto). destruct Fa as (Fa & Fd).
      rewrite seq_S. unfold line_pass in *. rewrite !fold_left_app. cbn [fold_left fit w_a w_s Nat.add]. rewrite (axis_each _ _ Hx), Fa, Ea.
      assert (Eb : body (S k) = Some p) by exact Ep. split.
      + unfold acc at 2. rewrite Eb. reflexivity.
      + destruct spin; [|exact Es]. rewrite (axis_each _ _ Hx), Fd, Es. unfold tor at 2. rewrite Eb. reflexivity.
  Qed.

  Lemma vzero_axis x : axis x -> x _ (vzero : vec R) = 0. Proof. intros [-> | [-> | ->]]; reflexivity. Qed.
  Lemma travels_x dt c x0 v0 a0 b : c = 0 -> travels dt x0 v0 a0 b 1 (fst (final_x dt c x0 v0 a0 b)) (fst (final_v dt c v0 a0 b)).
  Proof.
    intros ->. exists (Xp dt x0 v0 a0 b), (Vp dt v0 a0 b). split; [apply motion_exists|]. rewrite final_x_eq, final_v_eq. cbn [fst]. split; ring.
  Qed.
  Lemma turns_L dt c L0 t0 b : c = 0 -> turns dt L0 t0 b 1 (fst (final_v dt c L0 t0 b)).
  Proof.
    intros ->. exists (Vp dt L0 t0 b). destruct (motion_exists dt 0 L0 t0 b) as [_ A _ B]. split; [exact A|]. split; [exact B|]. rewrite final_v_eq. cbn [fst]. ring.
  Qed.
  Lemma travels_at dt h c x0 v0 a0 b : c = 0 -> travels dt x0 v0 a0 b h (predict_x h dt c x0 v0 a0 b) (predict_v h dt c v0 a0 b).
  Proof.
    intros ->. exists (Xp dt x0 v0 a0 b), (Vp dt v0 a0 b). split; [apply motion_exists|]. rewrite predict_x_eq, predict_v_eq. split; ring.
  Qed.
  Lemma turns_at dt h c L0 t0 b : c = 0 -> turns dt L0 t0 b h (predict_v h dt c L0 t0 b).
  Proof.
    intros ->. exists (Vp dt L0 t0 b). destruct (motion_exists dt 0 L0 t0 b) as [_ A _ B]. split; [exact A|]. split; [exact B|]. rewrite predict_v_eq. ring.
  Qed.

  (** what the work record of body [i] is *)
  Lemma begin_nth (s : ias (F := R)) i w : shaped s -> nth_error (snd (begin s)) i = Some w -> exists k p, nth_error (ia_tracks s) i = Some k /\
    nth_error (u_particles (ia_u s)) i = Some p /\ w = work_start k p.
  Proof.
    intros Sh E. cbn [begin snd] in E. rewrite zip2_nth in E. destruct (nth_error (ia_tracks s) i) as [k|] eqn:Ek; [|discriminate E].
    destruct (nth_error (u_particles (ia_u s)) i) as [p|] eqn:Ep; [|discriminate E]. injection E as <-. eauto.
  Qed.
  Lemma rested_nth (s : ias (F := R)) i k : rested s -> nth_error (ia_tracks s) i = Some k -> k_csx k = vzero /\ k_csv k = vzero /\ k_css k = vzero.
  Proof. intros Hr E. apply nth_error_In in E. unfold rested in Hr. rewrite Forall_forall in Hr. now apply Hr. Qed.

  Lemma predict_twice (q : R) m : predict_memory q (predict_memory q m) = predict_memory q m.
  Proof. unfold predict_memory. destruct (nltb (nlit 20 1) q); reflexivity. Qed.

  Theorem accepted_motion (s s' : ias (F := R)) : shaped s -> rested s -> attempt s = Ok (inr s') ->
    rested s' /\ forall i p k, nth_error (u_particles (ia_u s)) i = Some p -> nth_error (ia_tracks s) i = Some k -> exists p' k',
      nth_error (u_particles (ia_u s')) i = Some p' /\ nth_error (ia_tracks s') i = Some k' /\ forall x, axis x ->
        travels (ia_dt s) (x _ (p_ipos p)) (x _ (p_ivel p)) (x _ (p_iacc p)) (m_br (x _ (k_a k'))) 1 (x _ (p_ipos p')) (x _ (p_ivel p')) /\
        (if integrate_spin (ia_u s) then turns (ia_dt s) (x _ (p_L p)) (x _ (p_dL p)) (m_br (x _ (k_s k'))) 1 (x _ (p_L p')) else p_L p' = p_L p) /\
        m_er (x _ (k_a k')) = m_e (x _ (k_a k)) /\
        x _ (k_a k') = predict_memory (ia_dt s' / ia_dt s) (x _ (k_a k')).
  Proof.
    intros Sh Hr Ea. pose proof Ea as Ea0. destruct (attempt_inv _ _ Ea) as (s1 & o & E1 & new & Ed & Es). cbv zeta in E1, Ed, Es.
    apply corrector_chain in E1. pose proof (begin_fits _ Sh) as Hf. pose proof (chain_moved _ _ _ _ _ Hf E1) as [F1 St Ll Fr Vw].
    set (spin := integrate_spin (ia_u s)) in *. cbn [begin fst] in St, Vw.
    assert (Cs : forall i w, nth_error (snd s1) i = Some w -> exists k p, nth_error (ia_tracks s) i = Some k /\ nth_error (u_particles (ia_u s)) i = Some p /\ frozen w = frozen (work_start k p)).
    { intros i w Ew. destruct (frozen_nth _ _ _ _ Fr Ew) as (w0 & E0 & Ef). destruct (begin_nth _ _ _ Sh E0) as (k & p & Ek & Ep & ->). exists k, p. auto. }
    assert (Fz : forall (k : track (F := R)) (p : particle R) (w : work (F := R)), frozen w = frozen (work_start k p) -> w_x0 w = p_ipos p /\ w_v0 w = p_ivel p /\ w_a0 w = p_iacc p /\ w_L0 w = p_L p /\ w_dL0 w = p_dL p /\ w_track w = k).
    { intros k p w X. unfold frozen in X. cbn [work_start w_x0 w_v0 w_a0 w_L0 w_dL0 w_track] in X. injection X; intros; repeat split; assumption. }
    split.
    - unfold rested. rewrite Es. cbn [ia_tracks]. rewrite map_map. apply Forall_forall. intros k' Hk'. apply in_map_iff in Hk'. destruct Hk' as (w & <- & Hw).
      apply In_nth_error in Hw. destruct Hw as (i & Hw). destruct (Cs _ _ Hw) as (k & p & Ek & Ep & X). apply Fz in X.
      destruct X as (_ & _ & _ & _ & _ & Xk). destruct (rested_nth _ _ _ Hr Ek) as (_ & _ & R3).
      unfold predict_track, finish_track, seconds, final_xs, final_vs, final_Ls. cbn [k_csx k_csv k_css].
      split; [|split].
      + apply each_eq. intros x Hx. rewrite !(axis_each _ _ Hx), final_x_eq. cbn [snd]. now rewrite vzero_axis.
      + apply each_eq. intros x Hx. rewrite !(axis_each _ _ Hx), final_v_eq. cbn [snd]. now rewrite vzero_axis.
      + destruct spin; [|cbn [keep_b k_css]; rewrite Xk; exact R3].
        apply each_eq. intros x Hx. rewrite !(axis_each _ _ Hx), final_v_eq. cbn [snd]. now rewrite vzero_axis.
    - intros i p k Ep Ek.
      assert (Lw : exists w, nth_error (snd s1) i = Some w).
      { destruct (nth_error (snd s1) i) eqn:X; [eauto|]. apply nth_error_None in X. rewrite Ll in X. apply nth_error_None in X.
        cbn [begin snd] in X. now rewrite (nth_zip2 _ _ _ _ _ _ Ek Ep) in X. }
      destruct Lw as (w & Ew). destruct (Cs _ _ Ew) as (k2 & p2 & Ek2 & Ep2 & X). assert (k2 = k) by congruence. assert (p2 = p) by congruence. subst k2 p2.
      apply Fz in X. destruct X as (X1 & X2 & X3 & X4 & X5 & X6). destruct (fits_nth _ _ _ F1 Ew) as (p1 & Ep1).
      destruct (rested_nth _ _ _ Hr Ek) as (R1 & R2 & R3).
      exists (finish spin (ia_dt s) w p1), (predict_track spin (new / ia_dt s) (finish_track spin (ia_dt s) w)).
      assert (Dt : ia_dt s' = new) by (rewrite Es; reflexivity).
      split; [rewrite Es; cbn [ia_u u_particles set_particles]; now apply nth_zip2|].
      split; [rewrite Es; cbn [ia_tracks]; rewrite map_map, nth_error_map, Ew; reflexivity|].
      intros x Hx. rewrite Dt. unfold predict_track, finish_track. cbn [k_a k_s]. rewrite !(axis_each _ _ Hx).
      assert (Eb : forall q m, m_br (predict_memory (F := R) q m) = m_br m) by (intros q m; unfold predict_memory; destruct (nltb _ _); reflexivity).
      assert (Ee : forall q m, m_er (predict_memory (F := R) q m) = m_er m) by (intros q m; unfold predict_memory; destruct (nltb _ _); reflexivity).
      split; [|split; [|split]].
      + rewrite Eb. cbn [keep_b k_a]. rewrite !(axis_each _ _ Hx). unfold remember, store. cbn [m_br m_b].
        unfold finish. assert (PX : forall q : particle R, p_ipos (if spin then set_p_L (firsts (final_Ls (ia_dt s) w)) q else q) = p_ipos q) by (intro; destruct spin; reflexivity).
        assert (PV : forall q : particle R, p_ivel (if spin then set_p_L (firsts (final_Ls (ia_dt s) w)) q else q) = p_ivel q) by (intro; destruct spin; reflexivity).
        rewrite PX, PV. cbn [p_ipos p_ivel set_p_ivel set_p_ipos]. unfold firsts, final_xs, final_vs. rewrite !(axis_each _ _ Hx).
        rewrite X1, X2, X3, X6, R1, R2, vzero_axis by exact Hx. now apply travels_x.
      + destruct spin eqn:Esp.
        * rewrite (axis_each _ _ Hx), Eb. cbn [keep_b k_s]. rewrite !(axis_each _ _ Hx). unfold remember, store. cbn [m_br m_b].
          unfold finish. cbn [p_L set_p_L]. unfold firsts, final_Ls. rewrite !(axis_each _ _ Hx). rewrite X4, X5, X6, R3, vzero_axis by exact Hx. now apply turns_L.
        * unfold finish. cbn [p_L set_p_ivel set_p_ipos].
          assert (EL : map p_L (u_particles (fst s1)) = map p_L (u_particles (ia_u s))) by (apply (Vw _ p_L); apply L_blind).
          assert (Y : nth_error (map p_L (u_particles (fst s1))) i = nth_error (map p_L (u_particles (ia_u s))) i) by (now rewrite EL).
          rewrite !nth_error_map, Ep, Ep1 in Y. now apply some_eq in Y.
      + rewrite Ee. cbn [keep_b k_a]. rewrite !(axis_each _ _ Hx). unfold remember, store. cbn [m_er m_e]. now rewrite X6.
      + symmetry. apply predict_twice.
  Qed.

  Theorem accepted_nodes (s s' : ias (F := R)) : shaped s -> rested s -> attempt s = Ok (inr s') ->
    exists us : nat -> universe R, forall n, (1 <= n <= 7)%nat ->
      (exists u0, evaluate (ia_t s + ia_dt s * node n) u0 = Ok (us n) /\
        forall i p, nth_error (u_particles (ia_u s)) i = Some p -> exists p0 ca cs, nth_error (u_particles u0) i = Some p0 /\ forall x, axis x ->
          travels (ia_dt s) (x _ (p_ipos p)) (x _ (p_ivel p)) (x _ (p_iacc p)) (x _ ca) (node n) (x _ (p_ipos p0)) (x _ (p_ivel p0)) /\
          (integrate_spin (ia_u s) = true -> turns (ia_dt s) (x _ (p_L p)) (x _ (p_dL p)) (x _ cs) (node n) (x _ (p_L p0)))) /\
      (forall i p k k', nth_error (u_particles (ia_u s)) i = Some p -> nth_error (ia_tracks s) i = Some k -> nth_error (ia_tracks s') i = Some k' ->
        exists q, nth_error (u_particles (us n)) i = Some q /\ forall x, axis x ->
          Rabs (accel (x _ (p_iacc p)) (m_br (x _ (k_a k'))) (node n) - x _ (p_iacc q)) <=
            table_error * (magnitude (m_br (x _ (k_a k'))) + magnitude (m_b (x _ (k_a k)))) /\
          (integrate_spin (ia_u s) = true -> Rabs (accel (x _ (p_dL p)) (m_br (x _ (k_s k'))) (node n) - x _ (p_dL q)) <=
            table_error * (magnitude (m_br (x _ (k_s k'))) + magnitude (m_b (x _ (k_s k)))))).
  Proof.
    intros Sh Hr Ea. destruct (attempt_inv _ _ Ea) as (s1 & o & E1 & new & Ed & Es). cbv zeta in E1, Ed, Es.
    set (spin := integrate_spin (ia_u s)) in *.
    destruct (last_pass _ _ _ _ _ _ E1) as (s2 & C2 & E2). pose proof (begin_fits _ Sh) as Hf.
    pose proof (chain_moved _ _ _ _ _ Hf C2) as [F2 _ Ll2 Fr2 _]. pose proof (chain_good _ _ _ _ _ Hf C2 (begin_good s)) as G2.
    destruct (trace _ _ _ _ _ _ _ E2) as (tr & T1 & T2 & T3). change (1 + 7)%nat with 8%nat in *. rewrite <- T1 in *. 
    assert (Fz : forall (k : track (F := R)) (p : particle R) (w : work (F := R)), frozen w = frozen (work_start k p) -> w_x0 w = p_ipos p /\ w_v0 w = p_ivel p /\ w_a0 w = p_iacc p /\ w_L0 w = p_L p /\ w_dL0 w = p_dL p /\ w_track w = k).
    { intros k p w X. unfold frozen in X. cbn [work_start w_x0 w_v0 w_a0 w_L0 w_dL0 w_track] in X. injection X; intros; repeat split; assumption. }
    exists (fun n => fst (tr (S n))). intros n Hn. split.
    - destruct (trace_fits _ _ _ tr 1 7 F2 T3 n ltac:(lia)) as (Fn & Frn).
      destruct (node_step_inv _ _ _ _ _ _ Fn (T3 n ltac:(lia))) as (Ee & _). exists (placed spin (ia_dt s) n (tr n)). split; [exact Ee|].
      intros i p Ep. destruct (fits_nth_r (begin s) i p Hf Ep) as (w0 & E0). destruct (begin_nth _ _ _ Sh E0) as (k & p' & Ek & Ep' & Ew0).
      assert (p' = p) by congruence. subst p' w0.
      assert (FF : map frozen (snd (begin s)) = map frozen (snd (tr n))) by congruence.
      destruct (frozen_nth _ _ _ _ FF E0) as (w & Ew & X). apply Fz in X. destruct X as (X1 & X2 & X3 & X4 & X5 & X6).
      destruct (fits_nth _ _ _ Fn Ew) as (p1 & Ep1). destruct (rested_nth _ _ _ Hr Ek) as (R1 & R2 & R3).
      exists (place spin (node n) (ia_dt s) w p1), (each (fun x => l_b (x _ (w_a w)))), (each (fun x => l_b (x _ (w_s w)))).
      split; [cbn [placed u_particles set_particles]; now apply nth_zip2|].
      intros x Hx. rewrite !(axis_each _ _ Hx). split.
      + unfold place. match goal with |- travels _ _ _ _ _ _ (x _ (p_ipos (if spin then set_p_L ?l ?q else ?q))) _ =>
          replace (p_ipos (if spin then set_p_L l q else q)) with (p_ipos q) by (destruct spin; reflexivity);
          replace (p_ivel (if spin then set_p_L l q else q)) with (p_ivel q) by (destruct spin; reflexivity) end.
        cbn [p_ipos p_ivel set_p_ivel set_p_ipos]. rewrite !(axis_each _ _ Hx), X1, X2, X3, X6, R1, R2, vzero_axis by exact Hx. now apply travels_at.
      + intro Esp. rewrite Esp. unfold place. cbn [p_L set_p_L]. rewrite !(axis_each _ _ Hx), X4, X5, X6, R3, vzero_axis by exact Hx. now apply turns_at.
    - intros i p k k' Ep Ek Ek'. destruct (fits_nth_r (begin s) i p Hf Ep) as (w0 & E0). destruct (begin_nth _ _ _ Sh E0) as (k0 & p' & Ek0 & Ep' & Ew0).
      assert (p' = p) by congruence. assert (k0 = k) by congruence. subst p' k0 w0.
      destruct (frozen_nth _ _ _ _ (eq_sym Fr2) E0) as (w1 & Ew1 & X). apply Fz in X. destruct X as (X1 & X2 & X3 & X4 & X5 & X6).
      destruct (trace_fits _ _ _ tr 1 7 F2 T3 (S n) ltac:(lia)) as (Fn & Frn).
      assert (Gw : good w1) by (rewrite Forall_forall in G2; apply G2; eapply nth_error_In; exact Ew1).
      destruct (frozen_nth _ _ _ _ (eq_sym Frn) Ew1) as (wn & Ewn & _). destruct (fits_nth _ _ _ Fn Ewn) as (q & Eq). exists q. split; [exact Eq|].
      intros x Hx. destruct (Gw x Hx) as (Ga & Gs). rewrite X6 in Ga, Gs.
      destruct (trace_line spin (ia_t s) (ia_dt s) tr i w1 x Hx F2 T3 Ew1 7 (le_n 7)) as (w & Ew & Fw & La & Ls).
      assert (K : k' = predict_track spin (new / ia_dt s) (finish_track spin (ia_dt s) w)).
      { rewrite Es in Ek'. cbn [ia_tracks] in Ek'. rewrite T2 in Ew. rewrite map_map, nth_error_map, Ew in Ek'. cbn [option_map] in Ek'. now apply some_eq in Ek'. }
      assert (Eb : forall q m, m_br (predict_memory (F := R) q m) = m_br m) by (intros q' m; unfold predict_memory; destruct (nltb _ _); reflexivity).
      assert (KA : m_br (x _ (k_a k')) = l_b (x _ (w_a w))).
      { rewrite K. unfold predict_track, finish_track, keep_b. cbn [k_a]. rewrite !(axis_each _ _ Hx), Eb. reflexivity. }
      rewrite KA, La, X3. split.
      + pose proof (interpolation_b _ (x _ (p_iacc p)) (fun m => match nth_error (u_particles (fst (tr (S m)))) i with Some p => x _ (p_iacc p) | None => 0 end) _ Ga n Hn) as I.
        cbv zeta beta in I. rewrite Eq in I. exact I.
      + intro Esp. assert (KS : m_br (x _ (k_s k')) = l_b (x _ (w_s w))).
        { rewrite K. unfold predict_track, finish_track, keep_b. rewrite Esp. cbn [k_s]. rewrite !(axis_each _ _ Hx), Eb. reflexivity. }
        rewrite Esp in Ls. rewrite KS, Ls, X5.
        pose proof (interpolation_b _ (x _ (p_dL p)) (fun m => match nth_error (u_particles (fst (tr (S m)))) i with Some p => x _ (p_dL p) | None => 0 end) _ Gs n Hn) as I.
        cbv zeta beta in I. rewrite Eq in I. exact I.
  Qed.
End Accept.
