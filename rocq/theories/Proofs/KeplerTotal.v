(** * The Kepler solver returns (C64) *)
From Coq Require Import Reals List Bool Lra Lia Arith.
From Verif Require Import Base.Num Base.Result Base.Trans Base.Vec Model.Constants Model.Particle Model.Creep Model.Universe Model.WHFast
  Spec.WHFastSpec Spec.SplittingSpec Proofs.NumLemmas Proofs.VecLemmas Proofs.StumpffProofs.
Import ListNotations.
Open Scope R_scope.

Lemma settles_ret {A} (r : res A) : settles (fun _ => r) r.
Proof. exists O. reflexivity. Qed.
Lemma settles_bind {A B} (f : Fuel -> res A) (g : Fuel -> A -> res B) a r : settles f (Ok a) -> settles (fun i => g i a) r ->
  settles (fun i => rbind (f i) (g i)) r.
Proof.
  intros (N1 & E1) (N2 & E2). exists (Nat.max N1 N2). intros n L. rewrite E1 by lia. cbn [rbind]. apply E2. lia.
Qed.
Lemma returns_ret {A} (a : A) : returns (fun _ => Ok a).
Proof. exists a. apply settles_ret. Qed.
Lemma returns_bind {A B} (f : Fuel -> res A) (g : Fuel -> A -> res B) : returns f -> (forall a, settles f (Ok a) -> returns (fun i => g i a)) ->
  returns (fun i => rbind (f i) (g i)).
Proof. intros (a & E) X. destruct (X a E) as (b & Eb). exists b. eapply settles_bind; eauto. Qed.
Lemma settles_ext {A} (f g : Fuel -> res A) r : (forall i, f i = g i) -> settles f r -> settles g r.
Proof. intros E (N & X). exists N. intros n L. rewrite <- E. now apply X. Qed.

Lemma quarter_total (n : nat) : forall (z : R) k, Rabs z <= 4 ^ n -> exists r, forall m, quarter (n + 3 + m) z k = Some r.
Proof.
  assert (B : forall i (z : R) k, Rabs z <= 1/10 -> quarter (S i) z k = Some (z, k)).
  { intros i z k Z. cbn [quarter]. num_simpl. rewrite (proj2 (Rltb_false _ _)) by exact Z. reflexivity. }
  assert (S1 : forall i (z : R) k, (forall k', exists r, forall m, quarter (i + m) (z / 4) k' = Some r) -> exists r, forall m, quarter (S i + m) z k = Some r).
  { intros i z k IH. destruct (Rle_dec (Rabs z) (1/10)) as [Z|Z].
    - exists (z, k). intro m. now apply B.
    - destruct (IH (S k)) as (r & E). exists r. intro m. cbn [Nat.add quarter]. num_simpl. rewrite (proj2 (Rltb_true _ _)) by (apply Rnot_le_lt; exact Z). replace (z / (4 / 1)) with (z / 4) by field. apply E. }
  assert (Q : forall z, Rabs (z / 4) = Rabs z / 4).
  { intro z. unfold Rdiv. rewrite Rabs_mult, (Rabs_pos_eq (/ 4)) by lra. reflexivity. }
  induction n as [|n IH]; intros z k Z.
  - cbn [pow] in Z. change (0 + 3)%nat with 3%nat. apply S1. intro k1. apply S1. intro k2. exists (z / 4 / 4, k2). intro m. apply B. rewrite !Q. lra.
  - cbn [Nat.add]. apply S1. intro k1. apply IH. rewrite Q. cbn [pow] in Z. lra.
Qed.
Lemma stumpff_total (z : R) : exists c, settles (fun i => stumpff_cs3 (H2 := i) z) (Ok c).
Proof.
  destruct (Pow_x_infinity 4) with (b := Rabs z) as (n & Hn); [rewrite Rabs_pos_eq; lra|].
  destruct (quarter_total n z 0) as ([z' k] & E).
  { specialize (Hn n (le_n _)). rewrite Rabs_pos_eq in Hn by (apply pow_le; lra). lra. }
  exists (doubles k (stumpff_small z')). exists (n + 3)%nat. intros m L. unfold stumpff_cs3. cbn [fuel].
  replace m with (n + 3 + (m - (n + 3)))%nat by lia. now rewrite E.
Qed.
Lemma stiefel_total (b x : R) : returns (fun i => stiefel_gs3 (H2 := i) b x).
Proof. unfold stiefel_gs3. cbn zeta. apply returns_bind; [apply stumpff_total|]. intros c _. apply returns_ret. Qed.
Lemma newton_total (k : kepler R) n : forall x o g, returns (fun i => WHFast.newton (H2 := i) n k x o g).
Proof.
  induction n as [|n IH]; intros x o g; cbn [WHFast.newton]; [apply returns_ret|].
  apply returns_bind; [apply stiefel_total|]. intros g' _. cbn zeta. destruct (_ || _)%bool; [apply returns_ret|apply IH].
Qed.
Lemma quartic_total (k : kepler R) n : forall x seen g, returns (fun i => quartic (H2 := i) n k x seen g).
Proof.
  induction n as [|n IH]; intros x seen g; cbn [quartic]; [apply returns_ret|].
  apply returns_bind; [apply stiefel_total|]. intros g' _. cbn zeta. destruct (existsb _ _); [apply returns_ret|apply IH].
Qed.

(** ** Bisection *)
(** what bisection evaluates *)
Definition excess (k : kepler R) (x : R) (g : stumpff R) : R := k_r0 k * x + k_eta0 k * cs2 g + k_zeta0 k * cs3 g - k_dt k.
Definition narrowed (k : kepler R) (lo hi x : R) (g : stumpff R) : R * R := if Rleb 0 (excess k x g) then (lo, x) else (x, hi).
Definition close (b : R * R) : bool := Rleb (Rabs (snd b - fst b) / snd b) (1 / 10 ^ 15).
Lemma bisection_S (i : Fuel) n (k : kepler R) lo hi x g : stiefel_gs3 (H2 := i) (k_beta k) x = Ok g -> bisection (H2 := i) (S n) k lo hi x
  = let b := narrowed k lo hi x g in if close b then Ok g else bisection (H2 := i) n k (fst b) (snd b) ((snd b + fst b) / 2).
Proof.
  intro E. cbn [bisection]. rewrite E. cbn [rbind]. cbn zeta. unfold narrowed, close. fold (excess k x g). num_simpl.
  replace (1 / 10 ^ 15) with (1 / 1000000000000000) by (f_equal; lra).
  replace (2 / 1) with 2 by field. unfold excess. destruct (Rleb 0 (_ - k_dt k)); cbn [fst snd]; reflexivity.
Qed.
Lemma bisection_more (i : Fuel) n m (k : kepler R) : forall lo hi x g, bisection (H2 := i) n k lo hi x = Ok g -> bisection (H2 := i) (n + m) k lo hi x = Ok g.
Proof.
  induction n as [|n IH]; intros lo hi x g E; [discriminate E|]. cbn [Nat.add].
  destruct (stiefel_gs3 (H2 := i) (k_beta k) x) as [g0|] eqn:S0; [|cbn [bisection] in E; rewrite S0 in E; discriminate E].
  rewrite (bisection_S i n k lo hi x g0 S0) in E. rewrite (bisection_S i (n + m) k lo hi x g0 S0). cbn zeta in *. destruct (close _); [exact E|]. apply IH, E.
Qed.
Definition halts (k : kepler R) (lo hi x : R) : Prop := exists n, returns (fun i => bisection (H2 := i) n k lo hi x).
Lemma halts_fuel k lo hi x : halts k lo hi x -> returns (fun i => bisection (H2 := i) (@fuel i) k lo hi x).
Proof.
  intros (n & g & N & E). exists g, (Nat.max n N). intros m L. cbn [fuel]. pose proof (bisection_more _ n (m - n) k lo hi x g (E m ltac:(lia))) as X. replace (n + (m - n))%nat with m in X by lia. exact X.
Qed.
Lemma halts_step k lo hi x : (forall g, settles (fun i => stiefel_gs3 (H2 := i) (k_beta k) x) (Ok g) ->
    let b := narrowed k lo hi x g in close b = true \/ halts k (fst b) (snd b) ((snd b + fst b) / 2)) -> halts k lo hi x.
Proof.
  intro X. destruct (stiefel_total (k_beta k) x) as (g & N & E). specialize (X g (ex_intro _ N E)). cbn zeta in X. destruct X as [C|(n & g' & N' & E')].
  - exists 1%nat, g, N. intros n L. rewrite (bisection_S _ 0 k lo hi x g (E n L)). cbn zeta. now rewrite C.
  - destruct (close (narrowed k lo hi x g)) eqn:C.
    + exists 1%nat, g, N. intros m L. rewrite (bisection_S _ 0 k lo hi x g (E m L)). cbn zeta. now rewrite C.
    + exists (S n), g', (Nat.max N N'). intros m L. rewrite (bisection_S _ n k lo hi x g) by (apply E; lia). cbn zeta. rewrite C. apply E'. lia.
Qed.
Definition tiny : R := 1 / 10 ^ 15.
Lemma tiny_pos : 0 < tiny. Proof. unfold tiny. lra. Qed.
Lemma close_of lo hi d : 0 < d <= hi -> Rabs (hi - lo) <= tiny * d -> close (lo, hi) = true.
Proof.
  intros (D & Dh) B. unfold close. cbn [fst snd]. apply Rleb_true. fold tiny. pose proof tiny_pos.
  apply (Rmult_le_reg_r hi); [lra|]. unfold Rdiv. rewrite Rmult_assoc, Rinv_l, Rmult_1_r by lra. nra.
Qed.
(** both bounds positive *)
Lemma halts_positive k d j : forall lo hi, 0 < d -> d <= lo -> d <= hi -> Rabs (hi - lo) <= 2 ^ j * (2 * (tiny * d)) -> halts k lo hi ((hi + lo) / 2).
Proof.
  induction j as [|j IH]; intros lo hi D L1 L2 W; apply halts_step; intros g _; cbn zeta.
  all: assert (Q : forall a b, Rabs (a - b) <= 1/2 * Rabs (hi - lo) -> 0 <= 1/2 * Rabs (hi - lo)) by (intros; pose proof (Rabs_pos (hi - lo)); lra).
  all: assert (W1 : Rabs ((hi + lo) / 2 - lo) = Rabs (hi - lo) / 2) by (replace ((hi + lo) / 2 - lo) with ((hi - lo) * / 2) by field; rewrite Rabs_mult, (Rabs_pos_eq (/ 2)) by lra; reflexivity).
  all: assert (W2 : Rabs (hi - (hi + lo) / 2) = Rabs (hi - lo) / 2) by (replace (hi - (hi + lo) / 2) with ((hi - lo) * / 2) by field; rewrite Rabs_mult, (Rabs_pos_eq (/ 2)) by lra; reflexivity).
  - left. unfold narrowed. cbn [pow] in W. destruct (Rleb _ _); apply (close_of _ _ d); lra.
  - right. unfold narrowed. cbn [pow] in W. destruct (Rleb _ _); cbn [fst snd]; apply IH; lra.
Qed.
Lemma halts_both k lo hi : 0 < lo -> 0 < hi -> halts k lo hi ((hi + lo) / 2).
Proof.
  intros L1 L2. set (d := Rmin lo hi). assert (D : 0 < d) by (now apply Rmin_glb_lt).
  pose proof tiny_pos. assert (P : 0 < 2 * (tiny * d)) by nra.
  destruct (Pow_x_infinity 2) with (b := Rabs (hi - lo) / (2 * (tiny * d))) as (j & Hj); [rewrite Rabs_pos_eq; lra|].
  apply (halts_positive k d j); [exact D|apply Rmin_l|apply Rmin_r|]. specialize (Hj j (le_n _)). rewrite Rabs_pos_eq in Hj by (apply pow_le; lra).
  apply Rge_le in Hj. apply (Rmult_le_compat_r (2 * (tiny * d))) in Hj; [|lra]. unfold Rdiv in Hj. rewrite Rmult_assoc, Rinv_l, Rmult_1_r in Hj by lra. exact Hj.
Qed.
(** the lower bound is zero, and the excess is negative near it *)
Definition negative_near (k : kepler R) (e : R) : Prop :=
  forall x g, 0 < x < e -> settles (fun i => stiefel_gs3 (H2 := i) (k_beta k) x) (Ok g) -> excess k x g < 0.
Lemma halts_zero k e j : forall hi, negative_near k e -> 0 < hi -> hi / 2 < 2 ^ j * e -> halts k 0 hi ((hi + 0) / 2).
Proof.
  induction j as [|j IH]; intros hi Ng Hp B; apply halts_step; intros g Sg; cbn zeta; right; unfold narrowed; destruct (Rleb_spec 0 (excess k ((hi + 0) / 2) g)) as [P|P]; cbn [fst snd].
  - exfalso. cbn [pow] in B. specialize (Ng ((hi + 0) / 2) g ltac:(lra) Sg). lra.
  - apply halts_both; lra.
  - apply IH; [exact Ng|lra|]. cbn [pow] in B. lra.
  - apply halts_both; lra.
Qed.
Lemma halts_from_zero k e hi : 0 < e -> negative_near k e -> 0 < hi -> halts k 0 hi ((hi + 0) / 2).
Proof.
  intros E Ng Hp. destruct (Pow_x_infinity 2) with (b := (hi / 2 + 1) / e) as (j & Hj); [rewrite Rabs_pos_eq; lra|].
  apply (halts_zero k e j); auto. specialize (Hj j (le_n _)). rewrite Rabs_pos_eq in Hj by (apply pow_le; lra). apply Rge_le in Hj.
  apply (Rmult_le_compat_r e) in Hj; [|lra]. unfold Rdiv in Hj at 1. rewrite Rmult_assoc, Rinv_l, Rmult_1_r in Hj by lra. lra.
Qed.

(** the series near zero *)
Lemma base_bound (z : R) : Rabs z <= 1/10 -> Rabs (fst (stumpff_base z)) <= 1 /\ Rabs (snd (stumpff_base z)) <= 1.
Proof.
  intro Z. unfold stumpff_base.
  assert (St : forall l c, Forall (fun np => (3 <= np <= 13)%nat) l -> Rabs (fst c) <= 1 /\ Rabs (snd c) <= 1 ->
    let r := fold_left (fun c np => (nsub (inv_factorial np) (nmul z (fst c)), nsub (inv_factorial (np - 1)) (nmul z (snd c)))) l c in
    Rabs (fst r) <= 1 /\ Rabs (snd r) <= 1).
  { assert (Fb : forall n, (2 <= n <= 13)%nat -> Rabs (inv_factorial n) <= 1/2).
    { intros n Hn. unfold inv_factorial. do 14 (destruct n as [|n]; [try lia; cbn [nth]; num_simpl; rewrite Rabs_pos_eq; lra|]). lia. }
    assert (Ab : forall f c, Rabs f <= 1/2 -> Rabs c <= 1 -> Rabs (f - z * c) <= 1).
    { intros f c F1 C1. unfold Rminus. eapply Rle_trans; [apply Rabs_triang|]. rewrite Rabs_Ropp, Rabs_mult. pose proof (Rabs_pos z). pose proof (Rabs_pos c). nra. }
    induction l as [|np l IH]; intros c Fl (C1 & C2); cbn [fold_left]; [auto|]. inversion Fl as [|? ? N1 N2]; subst. apply IH; [exact N2|]. cbn [fst snd].
    split; apply Ab; auto; apply Fb; lia. }
  apply (St [11%nat; 9%nat; 7%nat; 5%nat; 3%nat]); [repeat constructor; lia|]. cbn [fst snd]. unfold inv_factorial. cbn [nth]. num_simpl.
  rewrite !Rabs_pos_eq; lra.
Qed.
Lemma stumpff_near (z : R) : Rabs z <= 1/10 -> forall (i : Fuel), (1 <= @fuel i)%nat -> stumpff_cs3 (H2 := i) z = Ok (stumpff_small z).
Proof.
  intros Z i L. unfold stumpff_cs3. destruct (@fuel i) as [|n]; [lia|]. cbn [quarter]. num_simpl. rewrite (proj2 (Rltb_false _ _)) by exact Z. reflexivity.
Qed.
Lemma near_negative k : 0 < k_dt k -> exists e, 0 < e /\ negative_near k e.
Proof.
  intro T. set (s := Rabs (k_r0 k) + Rabs (k_eta0 k) + Rabs (k_zeta0 k) + 1).
  pose proof (Rabs_pos (k_r0 k)). pose proof (Rabs_pos (k_eta0 k)). pose proof (Rabs_pos (k_zeta0 k)). pose proof (Rabs_pos (k_beta k)) as Bp.
  assert (Sp : 1 <= s) by (unfold s; lra). set (e := Rmin (Rmin 1 (k_dt k / s)) (1 / (10 * (Rabs (k_beta k) + 1)))).
  exists e. split.
  { unfold e. repeat apply Rmin_glb_lt; [lra|apply Rdiv_lt_0_compat; lra|apply Rdiv_lt_0_compat; lra]. }
  intros x g (X0 & Xe) (N & E).
  assert (X1 : x < 1) by (eapply Rlt_le_trans; [exact Xe|]; unfold e; eapply Rle_trans; [apply Rmin_l|apply Rmin_l]).
  assert (X2 : x < k_dt k / s) by (eapply Rlt_le_trans; [exact Xe|]; unfold e; eapply Rle_trans; [apply Rmin_l|apply Rmin_r]).
  assert (X3 : x < 1 / (10 * (Rabs (k_beta k) + 1))) by (eapply Rlt_le_trans; [exact Xe|]; apply Rmin_r).
  assert (Sq : npow x 2 = x * x) by (cbn [npow]; num_simpl; ring).
  assert (Z : Rabs (k_beta k * npow x 2) <= 1/10).
  { rewrite Sq, Rabs_mult, (Rabs_pos_eq (x * x)) by nra.
    apply (Rmult_lt_compat_r (10 * (Rabs (k_beta k) + 1))) in X3; [|lra]. unfold Rdiv in X3. rewrite Rmult_assoc, Rinv_l in X3 by lra. nra. }
  specialize (E (Nat.max N 1) ltac:(lia)). unfold stiefel_gs3 in E. cbn zeta in E. rewrite stumpff_near in E by (try exact Z; cbn [fuel]; lia).
  destruct (base_bound _ Z) as (B1 & B2).
  assert (C : cs2 (stumpff_small (k_beta k * npow x 2)) = snd (stumpff_base (k_beta k * npow x 2)) /\ cs3 (stumpff_small (k_beta k * npow x 2)) = fst (stumpff_base (k_beta k * npow x 2))).
  { unfold stumpff_small. destruct (stumpff_base _). auto. }
  revert C B1 B2 E. generalize (fst (stumpff_base (k_beta k * npow x 2))) (snd (stumpff_base (k_beta k * npow x 2))). change (nmul (k_beta k) (npow x 2)) with (k_beta k * npow x 2).
  generalize (stumpff_small (k_beta k * npow x 2)). rewrite Sq. intros c co ce (C2 & C3) B1 B2 E.
  cbn [rbind] in E. injection E as <-. unfold excess. cbn [cs2 cs3]. rewrite C2, C3. num_simpl.
  assert (P2 : 0 <= x * x <= x) by nra. assert (P3 : 0 <= x * x * x <= x) by nra.
  assert (M : forall a b p, Rabs b <= 1 -> 0 <= p <= x -> a * (b * p) <= Rabs a * x).
  { intros a b p Hb Hp. eapply Rle_trans; [apply Rle_abs|]. rewrite !Rabs_mult, (Rabs_pos_eq p) by lra. apply Rmult_le_compat_l; [apply Rabs_pos|]. pose proof (Rabs_pos b). nra. }
  pose proof (M (k_eta0 k) ce _ B2 P2). pose proof (M (k_zeta0 k) co _ B1 P3). pose proof (Rle_abs (k_r0 k)).
  apply (Rmult_lt_compat_r s) in X2; [|lra]. unfold Rdiv in X2. rewrite Rmult_assoc, Rinv_l, Rmult_1_r in X2 by lra.
  assert (x * s = Rabs (k_r0 k) * x + Rabs (k_eta0 k) * x + Rabs (k_zeta0 k) * x + x) by (unfold s; ring). nra.
Qed.

(** ** The bounds of the bisection *)
Lemma inv_zero a : a / 0 = 0.
Proof. unfold Rdiv. rewrite Rinv_0. ring. Qed.
Lemma halts_degenerate k lo : 0 <= lo -> halts k lo 0 ((0 + lo) / 2).
Proof.
  intro L. apply halts_step. intros g _. cbn zeta. unfold narrowed. destruct (Rleb _ _); cbn [fst snd].
  - destruct L as [L| <-]; [right; apply halts_both; lra|]. left. unfold close. cbn [fst snd]. apply Rleb_true. fold tiny.
    replace ((0 + 0) / 2) with 0 by field. rewrite inv_zero. pose proof tiny_pos. lra.
  - left. unfold close. cbn [fst snd]. apply Rleb_true. fold tiny. rewrite inv_zero. pose proof tiny_pos. lra.
Qed.
Lemma cross_form (x v : vec R) : norm2 x * norm2 v - vdot x v * vdot x v = norm2 (vcross x v).
Proof. vunfold. ring. Qed.
Section Bounds.
  Variables (mu dt : R) (x v : vec R).
  Hypotheses (Mu : 0 < mu) (T : 0 < dt).
  Let k := kepler_setup mu dt x v.
  Lemma bounds_halt : let b := bisection_bounds (F := R) k in halts k (fst b) (snd b) ((snd b + fst b) / 2).
  Proof.
    cbn zeta. unfold bisection_bounds. num_simpl. destruct (Rltb_spec 0 (k_beta k)) as [B|B]; cbn [fst snd].
    - change (@tpi R TransR) with PI. change (@nfloor R FloorR) with (fun x => IZR (Int_part x)). cbv beta.
      set (w := sqrt (k_beta k)). assert (W : 0 < w) by (apply sqrt_lt_R0; exact B). pose proof PI_RGT_0 as Pi.
      set (X := 2 / 1 * PI / w). assert (Xp : 0 < X) by (unfold X; apply Rdiv_lt_0_compat; lra).
      set (f := k_dt k * _). assert (Fp : 0 < f).
      { unfold f. change (k_dt k) with dt. change (k_mu k) with mu. apply Rmult_lt_0_compat; [exact T|]. apply Rdiv_lt_0_compat; [nra|]. nra. }
      pose proof (base_Int_part f) as (_ & I). assert (Iz : (-1 < Int_part f)%Z) by (apply lt_IZR; lra).
      destruct (Z.eq_dec (Int_part f) 0) as [E|E].
      + rewrite E, Rmult_0_r. rewrite Rplus_0_l.
        destruct (near_negative k T) as (e & E0 & Ng). apply (halts_from_zero k e); auto.
      + assert (1 <= IZR (Int_part f)) by (apply IZR_le; lia). apply halts_both; nra.
    - set (h2 := k_r0 k * k_r0 k * k_v2 k - k_eta0 k * k_eta0 k).
      assert (Hh : 0 <= h2).
      { unfold h2. change (k_r0 k) with (sqrt (norm2 x)). change (k_v2 k) with (norm2 v). change (k_eta0 k) with (vdot x v).
        rewrite sqrt_sqrt by apply norm2_nonneg. rewrite cross_form. apply norm2_nonneg. }
      assert (R0 : 0 <= k_r0 k) by (unfold k, kepler_setup; cbn [k_r0]; apply sqrt_pos).
      change (k_dt k) with dt. change (k_mu k) with mu.
      destruct Hh as [Hh|Hh].
      + set (D := sqrt (1 - h2 * k_beta k / (mu * mu))). assert (Dp : 0 <= D) by apply sqrt_pos.
        assert (Q : 0 < h2 / mu / (1 + D)) by (apply Rdiv_lt_0_compat; [apply Rdiv_lt_0_compat; assumption|lra]).
        apply halts_both; [|apply Rdiv_lt_0_compat; assumption].
        apply Rdiv_lt_0_compat; [lra|]. apply Rplus_lt_le_0_compat.
        * apply Rdiv_lt_0_compat; [apply sqrt_lt_R0; exact Hh|exact Q].
        * unfold Rdiv. apply Rmult_le_pos; [exact R0|]. left. now apply Rinv_0_lt_compat.
      + rewrite <- Hh. replace (0 / mu / (1 + sqrt (1 - 0 * k_beta k / (mu * mu)))) with 0 by (unfold Rdiv; ring).
        rewrite !inv_zero, Rplus_0_l. apply halts_degenerate. destruct R0 as [R0|R0].
        * left. repeat apply Rdiv_lt_0_compat; lra.
        * rewrite <- R0. replace (0 / dt) with 0 by (unfold Rdiv; ring). rewrite inv_zero. lra.
  Qed.
  Lemma solve_total : returns (fun i => solve_kepler (F := R) (H2 := i) k).
  Proof.
    unfold solve_kepler. cbn zeta. apply returns_bind; [apply stiefel_total|]. intros g0 _.
    apply returns_bind.
    { destruct (_ && _)%bool.
      - apply returns_bind; [apply quartic_total|]. intros r _. apply returns_ret.
      - apply newton_total. }
    intros [[cv g] ri] _. apply returns_bind.
    - destruct cv; [apply returns_ret|]. pose proof bounds_halt as Hb. cbn zeta in Hb. destruct (bisection_bounds k) as [lo hi]. cbn [fst snd] in Hb.
      apply returns_bind.
      + apply halts_fuel in Hb. num_simpl. replace (2 / 1) with 2 by field. exact Hb.
      + intros g' _. apply returns_ret.
    - intros [g' ri'] _. apply returns_ret.
  Qed.
End Bounds.
Theorem kepler_total mu dt (a : alternative R) : 0 < mu -> 0 < dt -> returns (fun i => kepler_step (H2 := i) mu dt a).
Proof.
  intros Mu T. unfold kepler_step. cbn zeta. apply returns_bind; [now apply solve_total|].
  intros r _. destruct (kepler_drift _ _ _ _ _). apply returns_ret.
Qed.

(** ** What bisection returns *)
Theorem bisection_brackets (i : Fuel) n (k : kepler R) : forall lo hi x g, bisection (H2 := i) n k lo hi x = Ok g ->
  exists lo' hi' x', stiefel_gs3 (k_beta k) x' = Ok g /\ (x' = lo' \/ x' = hi')
    /\ Rabs (hi' - lo') / hi' <= tiny
    /\ (lo' = lo \/ exists gl, stiefel_gs3 (k_beta k) lo' = Ok gl /\ excess k lo' gl < 0)
    /\ (hi' = hi \/ exists gh, stiefel_gs3 (k_beta k) hi' = Ok gh /\ 0 <= excess k hi' gh)
    /\ (x = (hi + lo) / 2 -> lo <= hi -> lo <= lo' /\ lo' <= hi' /\ hi' <= hi).
Proof.
  induction n as [|n IH]; intros lo hi x g E; [discriminate E|].
  destruct (stiefel_gs3 (H2 := i) (k_beta k) x) as [g0|] eqn:S0; [|cbn [bisection] in E; rewrite S0 in E; discriminate E].
  rewrite (bisection_S i n k lo hi x g0 S0) in E. cbn zeta in E. unfold narrowed in E.
  destruct (Rleb_spec 0 (excess k x g0)) as [P|P]; cbn [fst snd] in E.
  - destruct (close (lo, x)) eqn:C.
    + injection E as <-. apply Rleb_true in C. cbn [fst snd] in C. exists lo, x, x. split; [exact S0|]. split; [now right|]. split; [exact C|].
      split; [now left|]. split; [right; eauto|]. intros; lra.
    + apply IH in E as (lo' & hi' & x' & A & B & D & L & Hh & W). exists lo', hi', x'. repeat split; auto.
      * destruct Hh as [-> |Hh]; [right; eauto|now right].
      * intros. apply W; lra.
      * apply W; lra.
      * destruct W as (_ & _ & W); lra.
  - destruct (close (x, hi)) eqn:C.
    + injection E as <-. apply Rleb_true in C. cbn [fst snd] in C. exists x, hi, x. split; [exact S0|]. split; [now left|]. split; [exact C|].
      split; [right; exists g0; split; [exact S0|lra]|]. split; [now left|]. intros; lra.
    + apply IH in E as (lo' & hi' & x' & A & B & D & L & Hh & W). exists lo', hi', x'. repeat split; auto.
      * destruct L as [-> |L]; [right; exists g0; split; [exact S0|lra]|now right].
      * destruct W as (W & _ & _); lra.
      * apply W; lra.
      * apply W; lra.
Qed.
