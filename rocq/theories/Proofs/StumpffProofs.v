(** * The Stumpff and Stiefel functions of WHFast (C18): size of the defects of their identities *)
From Coq Require Import Reals ZArith List Bool Lra Lia Psatz.
From Verif Require Import Base.Num Base.Result Base.Trans Base.Vec Model.Creep Model.WHFast Spec.WHFastSpec Proofs.NumLemmas.
Import ListNotations.
Open Scope R_scope.

Lemma Rabs_between a b : Rabs a <= b <-> - b <= a <= b.
Proof. split; [unfold Rabs; destruct (Rcase_abs a); lra|apply Rabs_le]. Qed.
(** defects at argument [z] *)
Definition q0 (z : R) (c : stumpff R) : R := cs0 c ^ 2 + z * cs1 c ^ 2 - 1.
Definition d0 (z : R) (c : stumpff R) : R := cs0 c + z * cs2 c - 1.
Definition d1 (z : R) (c : stumpff R) : R := cs1 c + z * cs3 c - 1.
Definition bd (z : R) (c : stumpff R) : R := cs1 c ^ 2 - 2 * cs2 c + z * cs2 c ^ 2.

Lemma bd_eq z c : z * bd z c = q0 z c + d0 z c ^ 2 - 2 * d0 z c * cs0 c.
Proof. unfold bd, q0, d0. ring. Qed.
Lemma double_eq (c : stumpff R) : double c = Cs (2 * cs0 c * cs0 c - 1) (cs0 c * cs1 c) (cs1 c * cs1 c / 2) ((cs2 c + cs0 c * cs3 c) / 4).
Proof. unfold double. num_simpl. f_equal; unfold nlit; cbn; lra. Qed.
Lemma cs0_double (c : stumpff R) : cs0 (double c) = 2 * cs0 c ^ 2 - 1.
Proof. rewrite double_eq. cbn [cs0]. ring. Qed.
Lemma q0_double z c : q0 (4 * z) (double c) = 4 * cs0 c ^ 2 * q0 z c.
Proof. rewrite double_eq. unfold q0. cbn [cs0 cs1 cs2 cs3]. ring. Qed.
Lemma d0_double z c : d0 (4 * z) (double c) = 2 * q0 z c.
Proof. rewrite double_eq. unfold d0, q0. cbn [cs0 cs1 cs2 cs3]. field. Qed.
Lemma d1_double z c : d1 (4 * z) (double c) = d0 z c + cs0 c * d1 z c.
Proof. rewrite double_eq. unfold d0, d1. cbn [cs0 cs1 cs2 cs3]. field. Qed.

(** without doubling *)
Definition qq (z : R) : R :=
  1/43589145600 - z/99632332800 + z^2/1345036492800 - z^3/44834549760000 + z^4/2761808265216000
  - z^5/271159356948480000 + z^6/38775788043632640000.
Lemma small_eq (z : R) : stumpff_small z = 
  let co := 1/6 - z * (1/120 - z * (1/5040 - z * (1/362880 - z * (1/39916800 - z * (1/6227020800))))) in
  let ce := 1/2 - z * (1/24 - z * (1/720 - z * (1/40320 - z * (1/3628800 - z * (1/479001600))))) in
  Cs (1 - z * ce) (1 - z * co) ce co.
Proof. unfold stumpff_small, stumpff_base, inv_factorial. cbn [fold_left fst snd nth Nat.sub]. unfold nlit. cbn. cbn zeta. f_equal; lra. Qed.
Lemma q0_small z : q0 z (stumpff_small z) = z ^ 7 * qq z.
Proof. rewrite small_eq. unfold q0, qq. cbn [cs0 cs1 cs2 cs3]. field. Qed.
Lemma d0_small z : d0 z (stumpff_small z) = 0.
Proof. rewrite small_eq. unfold d0. cbn [cs0 cs1 cs2 cs3]. ring. Qed.
Lemma d1_small z : d1 z (stumpff_small z) = 0.
Proof. rewrite small_eq. unfold d1. cbn [cs0 cs1 cs2 cs3]. ring. Qed.
Lemma bd_small z : bd z (stumpff_small z) = z ^ 6 * qq z.
Proof. rewrite small_eq. unfold bd, qq. cbn [cs0 cs1 cs2 cs3]. field. Qed.

Lemma pow_small z n : Rabs z <= 1/10 -> Rabs (z ^ n) <= (1/10) ^ n.
Proof. intro B. rewrite <- RPow_abs. apply pow_incr. split; [apply Rabs_pos|exact B]. Qed.
Lemma qq_bound z : Rabs z <= 1/10 -> Rabs (qq z) <= 24/10^12.
Proof.
  intro B. unfold qq.
  pose proof (pow_small z 2 B) as P2. pose proof (pow_small z 3 B) as P3. pose proof (pow_small z 4 B) as P4.
  pose proof (pow_small z 5 B) as P5. pose proof (pow_small z 6 B) as P6.
  apply Rabs_between in B, P2, P3, P4, P5, P6. 
  generalize dependent (z ^ 2). generalize dependent (z ^ 3). generalize dependent (z ^ 4). generalize dependent (z ^ 5). generalize dependent (z ^ 6).
  intros. apply Rabs_between. split; lra.
Qed.
Definition eps : R := 24/10^19.
Lemma q0_small_bound z : Rabs z <= 1/10 -> Rabs (q0 z (stumpff_small z)) <= eps.
Proof.
  intro B. rewrite q0_small, Rabs_mult. pose proof (pow_small z 7 B). pose proof (qq_bound z B).
  apply Rle_trans with ((1/10) ^ 7 * (24/10^12)); [|unfold eps; lra].
  apply Rmult_le_compat; auto using Rabs_pos.
Qed.
Lemma bd_small_bound z : Rabs z <= 1/10 -> Rabs (bd z (stumpff_small z)) <= 1/10^16.
Proof.
  intro B. rewrite bd_small, Rabs_mult. pose proof (pow_small z 6 B). pose proof (qq_bound z B).
  apply Rle_trans with ((1/10) ^ 6 * (24/10^12)); [|lra].
  apply Rmult_le_compat; auto using Rabs_pos.
Qed.
Lemma cs0_small_ge z : Rabs z <= 1/10 -> z <= 0 -> 1 <= cs0 (stumpff_small z).
Proof.
  intros B N. rewrite small_eq. cbn [cs0].
  pose proof (pow_small z 2 B) as P2. pose proof (pow_small z 3 B) as P3. pose proof (pow_small z 4 B) as P4.
  pose proof (pow_small z 5 B) as P5.
  set (ce := 1 / 2 - _).
  assert (C : 0 <= ce).
  { replace ce with (1/2 - z/24 + z^2/720 - z^3/40320 + z^4/3628800 - z^5/479001600) by (unfold ce; field).
    clear ce. apply Rabs_between in B, P2, P3, P4, P5. 
    generalize dependent (z ^ 2). generalize dependent (z ^ 3). generalize dependent (z ^ 4). generalize dependent (z ^ 5).
    intros. lra. }
  clearbody ce. nra.
Qed.

(** doubling, elliptic case *)
Definition inv_e (y z : R) (c : stumpff R) : Prop :=
  Rabs (q0 z c) * (1 - y/3) <= y /\ Rabs (d0 z c) <= 3/4 * y /\ Rabs (d1 z c) <= 3/10 * y.
Lemma q0_le y z c : 0 <= y <= 2/5 -> inv_e y z c -> Rabs (q0 z c) <= 15/13 * y.
Proof. intros Y (Q & _). pose proof (Rabs_pos (q0 z c)). nra. Qed.
Lemma cs0_le z c e : 0 <= z -> Rabs (q0 z c) <= e -> cs0 c ^ 2 <= 1 + e.
Proof.
  intros Z Q. pose proof (Rle_abs (q0 z c)). assert (P : 0 <= z * cs1 c ^ 2) by (apply Rmult_le_pos; [exact Z|apply pow2_ge_0]).
  unfold q0 in *. lra.
Qed.
Lemma abs_le_sq a b : 0 <= b -> a ^ 2 <= b ^ 2 -> Rabs a <= b.
Proof. intros B L. rewrite <- (Rabs_pos_eq b B). apply Rsqr_le_abs_0. unfold Rsqr. lra. Qed.
Lemma step_e y z c : 0 <= y <= 1/10 -> 0 <= z -> inv_e y z c -> inv_e (4 * y) (4 * z) (double c).
Proof.
  intros Y Z I. pose proof (q0_le y z c ltac:(lra) I) as Q. destruct I as (I0 & I1 & I2).
  pose proof (cs0_le z c _ Z Q) as C. pose proof (cs0_le z c _ Z (Rle_refl _)) as C'.
  assert (CA : Rabs (cs0 c) <= 11/10) by (apply abs_le_sq; lra).
  pose proof (Rabs_pos (q0 z c)) as QP. pose proof (pow2_ge_0 (cs0 c)) as CP. 
  unfold inv_e. rewrite q0_double, d0_double, d1_double. split; [|split].
  - rewrite !Rabs_mult. rewrite (Rabs_pos_eq 4) by lra. rewrite (Rabs_pos_eq (cs0 c ^ 2)) by exact CP.
    set (q := Rabs (q0 z c)) in *. clearbody q.
    apply Rle_trans with (4 * (1 + q) * q * (1 - 4 * y / 3)).
    { apply Rmult_le_compat_r; [lra|]. apply Rmult_le_compat_r; [exact QP|]. lra. }
    assert (W : 0 < 1 - y/3) by lra.
    apply (Rmult_le_reg_r ((1 - y/3) ^ 2)); [apply pow_lt; exact W|].
    apply Rle_trans with (4 * ((1 - y/3 + y) * y * (1 - 4 * y / 3))).
    + replace (4 * (1 + q) * q * (1 - 4 * y / 3) * (1 - y / 3) ^ 2) with (4 * (((1 - y/3) + q * (1 - y/3)) * (q * (1 - y/3)) * (1 - 4 * y / 3))) by field.
      apply Rmult_le_compat_l; [lra|]. apply Rmult_le_compat_r; [lra|].
      apply Rmult_le_compat; try lra; nra.
    + nra.
  - rewrite Rabs_mult, (Rabs_pos_eq 2) by lra. lra.
  - eapply Rle_trans; [apply Rabs_triang|]. rewrite Rabs_mult. pose proof (Rabs_pos (cs0 c)). pose proof (Rabs_pos (d1 z c)).
    assert (Rabs (cs0 c) * Rabs (d1 z c) <= 11/10 * (3/10 * y)) by (apply Rmult_le_compat; assumption). lra.
Qed.
(** doubling, hyperbolic case *)
Definition inv_h (y z : R) (c : stumpff R) : Prop :=
  1 <= cs0 c /\ Rabs (q0 z c) <= y * cs0 c ^ 2 /\ Rabs (d0 z c) <= 1/2 * y * cs0 c /\ Rabs (d1 z c) <= 1/6 * y * cs0 c.
Lemma step_h y z c : 0 <= y -> inv_h y z c -> inv_h (4 * y) (4 * z) (double c).
Proof.
  intros Y (C & I0 & I1 & I2). unfold inv_h. rewrite q0_double, d0_double, d1_double, cs0_double.
  set (k := cs0 c) in *. assert (K : 1 <= k ^ 2) by nra. assert (KL : k ^ 2 <= 2 * k ^ 2 - 1) by lra. assert (KK : k <= k ^ 2) by nra.
  split; [lra|]. split; [|split].
  - rewrite !Rabs_mult. rewrite (Rabs_pos_eq 4) by lra. rewrite (Rabs_pos_eq (k ^ 2)) by lra.
    apply Rle_trans with (4 * k ^ 2 * (y * k ^ 2)); [apply Rmult_le_compat_l; lra|].
    replace (4 * k ^ 2 * (y * k ^ 2)) with (4 * y * (k ^ 2) ^ 2) by ring. apply Rmult_le_compat_l; [lra|]. apply pow_incr. lra.
  - rewrite Rabs_mult, (Rabs_pos_eq 2) by lra.
    assert (y * k ^ 2 <= y * (2 * k ^ 2 - 1)) by (apply Rmult_le_compat_l; lra). lra.
  - eapply Rle_trans; [apply Rabs_triang|]. rewrite Rabs_mult, (Rabs_pos_eq k) by lra.
    assert (k * Rabs (d1 z c) <= k * (1/6 * y * k)) by (apply Rmult_le_compat_l; lra).
    assert (y * k <= y * k ^ 2) by (apply Rmult_le_compat_l; lra).
    assert (y * k ^ 2 <= y * (2 * k ^ 2 - 1)) by (apply Rmult_le_compat_l; lra).
    replace (k * (1 / 6 * y * k)) with (1/6 * (y * k ^ 2)) in H by ring. lra.
Qed.
Lemma doubles_e n : forall y z c, 0 <= y -> 4 ^ n * y <= 2/5 -> 0 <= z -> inv_e y z c -> inv_e (4 ^ n * y) (4 ^ n * z) (doubles n c).
Proof.
  induction n as [|n IH]; intros y z c Y B Z I.
  - cbn [doubles pow]. rewrite !Rmult_1_l. exact I.
  - cbn [doubles]. replace (4 ^ S n * y) with (4 ^ n * (4 * y)) in * by (cbn; ring). replace (4 ^ S n * z) with (4 ^ n * (4 * z)) by (cbn; ring).
    assert (1 <= 4 ^ n) by (apply pow_R1_Rle; lra).
    apply IH; try lra. apply step_e; auto. split; [exact Y|]. nra.
Qed.
Lemma doubles_h n : forall y z c, 0 <= y -> inv_h y z c -> inv_h (4 ^ n * y) (4 ^ n * z) (doubles n c).
Proof.
  induction n as [|n IH]; intros y z c Y I.
  - cbn [doubles pow]. rewrite !Rmult_1_l. exact I.
  - cbn [doubles]. replace (4 ^ S n * y) with (4 ^ n * (4 * y)) by (cbn; ring). replace (4 ^ S n * z) with (4 ^ n * (4 * z)) by (cbn; ring).
    apply IH; [lra|]. apply step_h; auto.
Qed.
Lemma quarter_spec n : forall z k z' k', quarter n z k = Some (z', k') ->
  exists j, k' = (k + j)%nat /\ z = 4 ^ j * z' /\ Rabs z' <= 1/10 /\ (j = 0%nat \/ 4 ^ j <= 40 * Rabs z).
Proof.
  induction n as [|n IH]; intros z k z' k'; [discriminate|]. cbn [quarter]. num_simpl.
  destruct (Rltb_spec (1 / 10) (Rabs z)) as [L|L]; intro E.
  - apply IH in E. destruct E as (j & -> & Ez & B & J). exists (S j). split; [lia|].
    replace (z / (4 / 1)) with (z / 4) in * by field. assert (E4 : z = 4 * (z / 4)) by field.
    split; [transitivity (4 * (z / 4)); [exact E4|rewrite Ez; cbn; ring]|]. split; [exact B|]. right.
    assert (RA : Rabs z = 4 * Rabs (z / 4)) by (rewrite E4 at 1; rewrite Rabs_mult, (Rabs_pos_eq 4) by lra; reflexivity).
    destruct J as [->|J]; cbn [pow]; lra.
  - injection E as <- <-. exists 0%nat. split; [lia|]. split; [cbn; ring|]. split; [lra|now left].
Qed.

(** the defects of the Stumpff functions of the code *)
Lemma stumpff_defects {fu : Fuel} (z : R) c : stumpff_cs3 z = Ok c -> Rabs z <= 10 ^ 15 ->
  Rabs (bd z c) <= 4/10^16 * (1 + cs0 c ^ 2) /\ Rabs (d1 z c) <= 3/10^17 * Rabs z * (1 + Rabs (cs0 c)).
Proof.
  unfold stumpff_cs3. destruct (quarter fuel z 0) as [[z' k]|] eqn:E; [|discriminate]. intros X B. injection X as <-.
  apply quarter_spec in E. destruct E as (j & -> & Ez & Bz & J). cbn [Nat.add].
  destruct J as [->|J].
  { cbn [pow] in Ez. rewrite Rmult_1_l in Ez. subst z'. cbn [doubles]. rewrite d1_small, Rabs_R0. split.
    - eapply Rle_trans; [apply bd_small_bound; exact Bz|]. pose proof (pow2_ge_0 (cs0 (stumpff_small z))). lra.
    - pose proof (Rabs_pos z). pose proof (Rabs_pos (cs0 (stumpff_small z))). nra. }
  pose proof (pow_lt 4 j ltac:(lra)) as J0.
  assert (EP : 0 <= eps) by (unfold eps; lra). 
  assert (YZ : 4 ^ j * eps <= 96/10^18 * Rabs z) by (unfold eps; lra).
  assert (Y0 : 0 <= 4 ^ j * eps) by (apply Rmult_le_pos; lra).
  assert (ZP : 0 < Rabs z) by lra.
  destruct (Rle_dec 0 z') as [Z|Z].
  - assert (I : inv_e eps z' (stumpff_small z')).
    { split; [|rewrite d0_small, d1_small, Rabs_R0; lra]. pose proof (q0_small_bound z' Bz) as Q. pose proof (Rabs_pos (q0 z' (stumpff_small z'))). nra. }
    apply (doubles_e j) in I; [|lra..]. rewrite <- Ez in I.
    set (c := doubles j (stumpff_small z')) in *. clearbody c. set (y := 4 ^ j * eps) in *. clearbody y.
    assert (Y1 : y <= 2/5) by lra.
    pose proof (q0_le y z c ltac:(lra) I) as Q. destruct I as (_ & I1 & I2).
    assert (Zp : 0 <= z) by (rewrite Ez; nra).
    pose proof (cs0_le z c _ Zp Q) as C. assert (CA : Rabs (cs0 c) <= 5/4) by (apply abs_le_sq; lra).
    split.
    + apply (Rmult_le_reg_l (Rabs z)); [exact ZP|]. rewrite <- Rabs_mult, bd_eq.
      apply Rle_trans with (33/10 * y).
      * unfold Rminus. eapply Rle_trans; [apply Rabs_triang|]. eapply Rle_trans; [apply Rplus_le_compat_r; apply Rabs_triang|].
        rewrite Rabs_Ropp, !Rabs_mult, (Rabs_pos_eq 2) by lra. rewrite <- RPow_abs.
        pose proof (Rabs_pos (d0 z c)). pose proof (Rabs_pos (cs0 c)).
        assert (Rabs (d0 z c) ^ 2 <= (3/4 * y) ^ 2) by (apply pow_incr; lra).
        assert (Rabs (d0 z c) * Rabs (cs0 c) <= 3/4 * y * (5/4)) by (apply Rmult_le_compat; lra).
        assert ((3 / 4 * y) ^ 2 <= 9/16 * (2/5) * y) by nra. lra.
      * pose proof (pow2_ge_0 (cs0 c)). nra.
    + pose proof (Rabs_pos (cs0 c)). assert (3/10 * y <= 3/10^17 * Rabs z) by lra. nra.
  - assert (I : inv_h eps z' (stumpff_small z')).
    { pose proof (cs0_small_ge z' Bz ltac:(lra)) as C. split; [exact C|]. rewrite d0_small, d1_small, Rabs_R0. 
      pose proof (q0_small_bound z' Bz) as Q. assert (1 <= cs0 (stumpff_small z') ^ 2) by nra. split; [nra|]. split; nra. }
    apply (doubles_h j) in I; [|lra]. rewrite <- Ez in I.
    set (c := doubles j (stumpff_small z')) in *. clearbody c. set (y := 4 ^ j * eps) in *. clearbody y.
    assert (Y1 : y <= 2/5) by lra. destruct I as (C & Q & I1 & I2).
    rewrite (Rabs_pos_eq (cs0 c)) in * by lra. assert (C2 : 1 <= cs0 c ^ 2) by nra.
    split.
    + apply (Rmult_le_reg_l (Rabs z)); [exact ZP|]. rewrite <- Rabs_mult, bd_eq.
      apply Rle_trans with (22/10 * y * cs0 c ^ 2).
      * unfold Rminus. eapply Rle_trans; [apply Rabs_triang|]. eapply Rle_trans; [apply Rplus_le_compat_r; apply Rabs_triang|].
        rewrite Rabs_Ropp, !Rabs_mult, (Rabs_pos_eq 2) by lra. rewrite <- RPow_abs. rewrite (Rabs_pos_eq (cs0 c)) by lra.
        pose proof (Rabs_pos (d0 z c)).
        assert (Rabs (d0 z c) ^ 2 <= (1/2 * y * cs0 c) ^ 2) by (apply pow_incr; lra).
        assert (Rabs (d0 z c) * cs0 c <= 1/2 * y * cs0 c * cs0 c) by (apply Rmult_le_compat_r; lra).
        assert ((1/2 * y * cs0 c) ^ 2 <= 1/10 * (y * cs0 c ^ 2)). { replace ((1/2 * y * cs0 c) ^ 2) with (1/4 * y * (y * cs0 c ^ 2)) by field. apply Rmult_le_compat_r; nra. }
        assert (0 <= y * cs0 c ^ 2) by (apply Rmult_le_pos; lra). lra.
      * assert (22/10 * y <= 4/10^16 * Rabs z) by lra. nra.
    + assert (1/6 * y <= 3/10^17 * Rabs z) by lra. nra.
Qed.

Lemma stiefel_defects {fu : Fuel} (beta s : R) g : stiefel_gs3 beta s = Ok g -> Rabs (beta * s ^ 2) <= 10 ^ 15 ->
  Rabs (cs1 g ^ 2 - 2 * cs2 g + beta * cs2 g ^ 2) <= 4/10^16 * s ^ 2 * (1 + cs0 g ^ 2)
  /\ Rabs (cs1 g + beta * cs3 g - s) <= 3/10^17 * Rabs beta * Rabs s ^ 3 * (1 + Rabs (cs0 g)).
Proof.
  unfold stiefel_gs3. intro E. cbn zeta in E. cbn [npow] in E. num_simpl. destruct (stumpff_cs3 _) as [c|] eqn:X; [|discriminate]. cbn [rbind] in E. injection E as <-. intro B.
  replace (s * s) with (s ^ 2) in * by ring.
  destruct (stumpff_defects _ c X B) as (H1 & H2). cbn [cs0 cs1 cs2 cs3].
  split.
  - replace ((cs1 c * s) ^ 2 - 2 * (cs2 c * s ^ 2) + beta * (cs2 c * s ^ 2) ^ 2) with (s ^ 2 * bd (beta * s ^ 2) c) by (unfold bd; ring).
    rewrite Rabs_mult, (Rabs_pos_eq (s ^ 2)) by apply pow2_ge_0.
    replace (4/10^16 * s ^ 2 * (1 + cs0 c ^ 2)) with (s ^ 2 * (4/10^16 * (1 + cs0 c ^ 2))) by ring.
    apply Rmult_le_compat_l; [apply pow2_ge_0|exact H1].
  - replace (cs1 c * s + beta * (cs3 c * (s ^ 2 * s)) - s) with (s * d1 (beta * s ^ 2) c) by (unfold d1; ring).
    rewrite Rabs_mult. rewrite Rabs_mult in H2. rewrite <- RPow_abs in H2.
    replace (3/10^17 * Rabs beta * Rabs s ^ 3 * (1 + Rabs (cs0 c))) with (Rabs s * (3/10^17 * (Rabs beta * Rabs s ^ 2) * (1 + Rabs (cs0 c)))) by ring.
    apply Rmult_le_compat_l; [apply Rabs_pos|exact H2].
Qed.
