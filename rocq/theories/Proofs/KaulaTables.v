(** * The inclination and eccentricity tables of the Kaula model *)
From Coq Require Import Reals List Lra Lia Psatz Bool.
From Verif Require Import Base.Num Base.Trans Model.Kaula Spec.KaulaSpec Proofs.NumLemmas.
Import ListNotations.
Open Scope R_scope.

(** ** Legendre's polynomials *)
Lemma legendre_derivative l m z :
  (l = 2 \/ l = 3)%nat -> (m <= l)%nat ->
  derivable_pt_lim (legendre l m) z (legendre l (S m) z).
Proof.
  intros Hl Hm.
  assert (D : forall f g, (forall x, f x = g x) -> forall x d, derivable_pt_lim f x d -> derivable_pt_lim g x d).
  { intros f g E x d H eps He. destruct (H eps He) as [dd Hd]. exists dd. intros h Hh Hb.
    rewrite <- !E. exact (Hd h Hh Hb). }
  assert (P : forall a b c d x,
    derivable_pt_lim (fun z => a * z ^ 3 + b * z ^ 2 + c * z + d) x (3 * a * x ^ 2 + 2 * b * x + c)).
  { intros. replace (3 * a * x ^ 2 + 2 * b * x + c)
      with (a * (INR 3 * x ^ 2) + b * (INR 2 * x ^ 1) + c * 1 + 0) by (simpl; ring).
    apply (derivable_pt_lim_plus (fun z => a * z ^ 3 + b * z ^ 2 + c * z) (fct_cte d)).
    - apply (derivable_pt_lim_plus (fun z => a * z ^ 3 + b * z ^ 2) (fun z => c * z)).
      + apply (derivable_pt_lim_plus (fun z => a * z ^ 3) (fun z => b * z ^ 2)).
        * apply (derivable_pt_lim_scal (fun z => z ^ 3)). apply (derivable_pt_lim_pow x 3).
        * apply (derivable_pt_lim_scal (fun z => z ^ 2)). apply (derivable_pt_lim_pow x 2).
      + apply (derivable_pt_lim_scal id). apply derivable_pt_lim_id.
    - apply derivable_pt_lim_const. }
  destruct Hl; subst l;
    (destruct m as [|[|[|[|m]]]]; [| | | |lia]);
    try (exfalso; lia).
  - eapply D; [|replace (legendre 2 1 z) with (3 * 0 * z ^ 2 + 2 * (3/2) * z + 0) by (simpl; lra);
      apply (P 0 (3/2) 0 (-1/2))]. intros; unfold legendre; lra.
  - eapply D; [|replace (legendre 2 2 z) with (3 * 0 * z ^ 2 + 2 * 0 * z + 3) by (simpl; lra);
      apply (P 0 0 3 0)]. intros; unfold legendre; lra.
  - eapply D; [|replace (legendre 2 3 z) with (3 * 0 * z ^ 2 + 2 * 0 * z + 0) by (simpl; lra);
      apply (P 0 0 0 3)]. intros; unfold legendre; lra.
  - eapply D; [|replace (legendre 3 1 z) with (3 * (5/2) * z ^ 2 + 2 * 0 * z + (-3/2)) by (simpl; lra);
      apply (P (5/2) 0 (-3/2) 0)]. intros; unfold legendre; lra.
  - eapply D; [|replace (legendre 3 2 z) with (3 * 0 * z ^ 2 + 2 * (15/2) * z + 0) by (simpl; lra);
      apply (P 0 (15/2) 0 (-3/2))]. intros; unfold legendre; lra.
  - eapply D; [|replace (legendre 3 3 z) with (3 * 0 * z ^ 2 + 2 * 0 * z + 15) by (simpl; lra);
      apply (P 0 0 15 0)]. intros; unfold legendre; lra.
  - eapply D; [|replace (legendre 3 4 z) with (3 * 0 * z ^ 2 + 2 * 0 * z + 0) by (simpl; lra);
      apply (P 0 0 0 15)]. intros; unfold legendre; lra.
Qed.

(** Legendre's equation, and the value 1 at the pole *)
Lemma legendre_equation l z :
  (l = 2 \/ l = 3)%nat ->
  (1 - z ^ 2) * legendre l 2 z - 2 * z * legendre l 1 z + INR l * (INR l + 1) * legendre l 0 z = 0
  /\ legendre l 0 1 = 1.
Proof. intros [-> | ->]; unfold legendre; simpl; split; lra. Qed.

(** ** Inclination functions *)
Section Angles.
Variables i u : R.
Let C := cos u. Let S := sin u. Let c := cos i. Let s := sin i.

Lemma pyth x : sin x * sin x = 1 - cos x * cos x.
Proof. generalize (sin2_cos2 x). unfold Rsqr. lra. Qed.

Lemma cos_m1 : cos ((2 - 2 * 2) * u) = 2 * C * C - 1.
Proof. replace ((2 - 2 * 2) * u) with (- (2 * u)) by ring. rewrite cos_neg, cos_2a_cos. reflexivity. Qed.
Lemma sin_m1 : sin ((2 - 2 * 2) * u) = - (2 * S * C).
Proof. replace ((2 - 2 * 2) * u) with (- (2 * u)) by ring. rewrite sin_neg, sin_2a. reflexivity. Qed.
Lemma cos_2 : cos ((2 - 2 * 0) * u) = 2 * C * C - 1.
Proof. replace ((2 - 2 * 0) * u) with (2 * u) by ring. rewrite cos_2a_cos. reflexivity. Qed.
Lemma sin_2 : sin ((2 - 2 * 0) * u) = 2 * S * C.
Proof. replace ((2 - 2 * 0) * u) with (2 * u) by ring. rewrite sin_2a. reflexivity. Qed.
Lemma cos_0' : cos ((2 - 2 * 1) * u) = 1.
Proof. replace ((2 - 2 * 1) * u) with 0 by ring. apply cos_0. Qed.
Lemma sin_0' : sin ((2 - 2 * 1) * u) = 0.
Proof. replace ((2 - 2 * 1) * u) with 0 by ring. apply sin_0. Qed.

End Angles.

Ltac poly_trig i u :=
  generalize (pyth u) (pyth i);
  generalize (sin u) (cos u) (sin i) (cos i);
  let S := fresh "S" in let C := fresh "C" in let s := fresh "s" in let c := fresh "c" in
  intros S C s c Hu Hi.

Ltac open_expands :=
  unfold expands, harmonic, direction; cbn [power legendre series Nat.even Nat.sub length];
  num_simpl; cbn [npow tsin tcos TransR INR]; num_simpl;
  repeat match goal with |- context [1 + 1 + 1] => replace (1 + 1 + 1) with 3 by ring
                       | |- context [1 + 1] => replace (1 + 1) with 2 by ring end.

Ltac angles2 :=
  rewrite ?cos_2, ?sin_2, ?cos_0', ?sin_0', ?cos_m1, ?sin_m1.

Lemma f20_expands i u : expands 2 0 (inclination_f_20p (F := R) i) i u.
Proof.
  unfold inclination_f_20p. open_expands. split; [reflexivity|]. angles2.
  poly_trig i u. f_equal; field [Hu Hi].
Qed.
Lemma f21_expands i u : expands 2 1 (inclination_f_21p (F := R) i) i u.
Proof.
  unfold inclination_f_21p. open_expands. split; [reflexivity|]. angles2.
  poly_trig i u. f_equal; field [Hu Hi].
Qed.
Lemma f22_expands i u : expands 2 2 (inclination_f_22p (F := R) i) i u.
Proof.
  unfold inclination_f_22p. open_expands. split; [reflexivity|]. angles2.
  poly_trig i u. f_equal; field [Hu Hi].
Qed.

(** *** Degree 3 *)
Lemma cos_3a u : cos (3 * u) = 4 * cos u * cos u * cos u - 3 * cos u.
Proof.
  replace (3 * u) with (2 * u + u) by ring. rewrite cos_plus, cos_2a_cos, sin_2a.
  generalize (pyth u); generalize (sin u) (cos u); intros S C Hu. ring [Hu].
Qed.
Lemma sin_3a u : sin (3 * u) = sin u * (4 * cos u * cos u - 1).
Proof.
  replace (3 * u) with (2 * u + u) by ring. rewrite sin_plus, cos_2a_cos, sin_2a. ring.
Qed.
Lemma angle3 u :
  cos ((3 - 2 * 0) * u) = cos (3 * u) /\ sin ((3 - 2 * 0) * u) = sin (3 * u) /\
  cos ((3 - 2 * 1) * u) = cos u /\ sin ((3 - 2 * 1) * u) = sin u /\
  cos ((3 - 2 * 2) * u) = cos u /\ sin ((3 - 2 * 2) * u) = - sin u /\
  cos ((3 - 2 * 3) * u) = cos (3 * u) /\ sin ((3 - 2 * 3) * u) = - sin (3 * u).
Proof.
  replace ((3 - 2 * 0) * u) with (3 * u) by ring.
  replace ((3 - 2 * 1) * u) with u by ring.
  replace ((3 - 2 * 2) * u) with (- u) by ring.
  replace ((3 - 2 * 3) * u) with (- (3 * u)) by ring.
  rewrite !cos_neg, !sin_neg. repeat split.
Qed.
Ltac angles3 u :=
  let E := fresh in
  pose proof (angle3 u) as E;
  destruct E as (E1 & E2 & E3 & E4 & E5 & E6 & E7 & E8);
  rewrite ?E1, ?E2, ?E3, ?E4, ?E5, ?E6, ?E7, ?E8; clear E1 E2 E3 E4 E5 E6 E7 E8.

Lemma right_expands m i u : (m <= 3)%nat -> expands 3 m (right_f_3 m i) i u.
Proof.
  intros Hm. destruct m as [|[|[|[|m]]]]; [| | | |lia]; unfold right_f_3; open_expands;
    (split; [reflexivity|]); angles3 u; rewrite ?cos_3a, ?sin_3a;
    poly_trig i u; f_equal; field [Hu Hi].
Qed.

(** the expansion determines the four functions *)
Lemma expansion_unique m i a0 a1 a2 a3 b0 b1 b2 b3 :
  (forall u, expands 3 m [a0; a1; a2; a3] i u) -> (forall u, expands 3 m [b0; b1; b2; b3] i u) ->
  a0 = b0 /\ a1 = b1 /\ a2 = b2 /\ a3 = b3.
Proof.
  intros Ha Hb.
  assert (K : forall u,
    a0 * cos (3 * u) + a1 * cos u + a2 * cos u + a3 * cos (3 * u)
      = b0 * cos (3 * u) + b1 * cos u + b2 * cos u + b3 * cos (3 * u) /\
    a0 * sin (3 * u) + a1 * sin u - a2 * sin u - a3 * sin (3 * u)
      = b0 * sin (3 * u) + b1 * sin u - b2 * sin u - b3 * sin (3 * u)).
  { intros u. destruct (Ha u) as [_ Ea], (Hb u) as [_ Eb]. rewrite Ea in Eb. clear Ea Ha Hb.
    revert Eb. cbn [series INR].
    replace (1 + 1 + 1) with 3 by ring. replace (1 + 1) with 2 by ring. angles3 u.
    destruct (Nat.even (3 - m)); intros Eb; injection Eb; intros; split; lra. }
  destruct (K 0) as [K1 _]. destruct (K (PI / 3)) as [K2 _].
  destruct (K (PI / 2)) as [_ K3]. destruct (K (PI / 6)) as [_ K4].
  replace (3 * (PI / 3)) with PI in K2 by field.
  replace (3 * (PI / 2)) with (3 * (PI / 2)) in K3 by field.
  replace (3 * (PI / 6)) with (PI / 2) in K4 by field.
  rewrite cos_PI, cos_PI3 in K2. replace (3 * 0) with 0 in K1 by ring. rewrite !cos_0 in K1.
  rewrite sin_3PI2, sin_PI2 in K3. rewrite sin_PI2, sin_PI6 in K4.
  repeat split; lra.
Qed.

Lemma list4 (a b c d a' b' c' d' : R) :
  a = a' -> b = b' -> c = c' -> d = d' -> [a; b; c; d] = [a'; b'; c'; d'].
Proof. intros -> -> -> ->. reflexivity. Qed.

(** where the tables of the program are right *)
Lemma f30_right i : (forall u, expands 3 0 (inclination_f_30p (F := R) i) i u) <-> sin i = 0.
Proof.
  split.
  - intros Hx. pose proof (fun u => right_expands 0 i u ltac:(lia)) as Hr. unfold right_f_3 in Hr.
    unfold inclination_f_30p in Hx.
    destruct (expansion_unique _ _ _ _ _ _ _ _ _ _ Hx Hr) as (_ & E & _).
    revert E. num_simpl. cbn [npow tsin TransR]. num_simpl. generalize (sin i). intros s E.
    assert (Q : s * (s * s) = 0) by lra.
    destruct (Rmult_integral _ _ Q) as [|Q']; [assumption|].
    destruct (Rmult_integral _ _ Q'); assumption.
  - intros Hs u. pose proof (right_expands 0 i u ltac:(lia)) as Hr.
    replace (inclination_f_30p (F := R) i) with (right_f_3 0 i); [exact Hr|].
    unfold right_f_3, inclination_f_30p. num_simpl. cbn [npow tsin TransR]. num_simpl. rewrite Hs.
    apply list4; lra.
Qed.
Lemma f31_right i : (forall u, expands 3 1 (inclination_f_31p (F := R) i) i u) <-> cos i = 0.
Proof.
  split.
  - intros Hx. pose proof (fun u => right_expands 1 i u ltac:(lia)) as Hr. unfold right_f_3 in Hr.
    unfold inclination_f_31p in Hx.
    destruct (expansion_unique _ _ _ _ _ _ _ _ _ _ Hx Hr) as (_ & E & _).
    revert E. num_simpl. cbn [npow tsin tcos TransR]. num_simpl. generalize (sin i) (cos i). intros s c E.
    lra.
  - intros Hs u. pose proof (right_expands 1 i u ltac:(lia)) as Hr.
    replace (inclination_f_31p (F := R) i) with (right_f_3 1 i); [exact Hr|].
    unfold right_f_3, inclination_f_31p. num_simpl. cbn [npow tsin tcos TransR]. num_simpl. rewrite Hs.
    apply list4; lra.
Qed.
Lemma f32_right i :
  (forall u, expands 3 2 (inclination_f_32p (F := R) i) i u) <-> sin i = 0 \/ sin i = 1.
Proof.
  split.
  - intros Hx. pose proof (fun u => right_expands 2 i u ltac:(lia)) as Hr. unfold right_f_3 in Hr.
    unfold inclination_f_32p in Hx.
    destruct (expansion_unique _ _ _ _ _ _ _ _ _ _ Hx Hr) as (E0 & _ & _ & E3).
    revert E0 E3. num_simpl. cbn [npow tsin tcos TransR]. num_simpl.
    generalize (sin i) (cos i). intros s c E0 E3.
    assert (Q : (s * (s - 1)) * ((1 + c) * (1 + c)) = 0) by lra.
    assert (Q' : (s * (s - 1)) * ((1 - c) * (1 - c)) = 0) by lra.
    assert (Q2 : s * (s - 1) = 0).
    { destruct (Rmult_integral _ _ Q) as [|A]; [assumption|].
      destruct (Rmult_integral _ _ Q') as [|B]; [assumption|]. exfalso. nra. }
    destruct (Rmult_integral _ _ Q2); [left; assumption|right; lra].
  - intros Hs u. pose proof (right_expands 2 i u ltac:(lia)) as Hr.
    replace (inclination_f_32p (F := R) i) with (right_f_3 2 i); [exact Hr|].
    unfold right_f_3, inclination_f_32p. num_simpl. cbn [npow tsin tcos TransR]. num_simpl.
    destruct Hs as [-> | ->]; apply list4; lra.
Qed.
Lemma f33_right i : (forall u, expands 3 3 (inclination_f_33p (F := R) i) i u) <-> sin i = 0.
Proof.
  split.
  - intros Hx. pose proof (fun u => right_expands 3 i u ltac:(lia)) as Hr. unfold right_f_3 in Hr.
    unfold inclination_f_33p in Hx.
    destruct (expansion_unique _ _ _ _ _ _ _ _ _ _ Hx Hr) as (_ & E1 & E2 & _).
    revert E1 E2. num_simpl. cbn [npow tsin tcos TransR]. num_simpl.
    generalize (sin i) (cos i). intros s c E1 E2.
    assert (Q : s * s = 0) by lra. destruct (Rmult_integral _ _ Q); assumption.
  - intros Hs u. pose proof (right_expands 3 i u ltac:(lia)) as Hr.
    replace (inclination_f_33p (F := R) i) with (right_f_3 3 i); [exact Hr|].
    unfold right_f_3, inclination_f_33p. num_simpl. cbn [npow tsin tcos TransR]. num_simpl. rewrite Hs.
    apply list4; lra.
Qed.

(** ** Eccentricity functions *)
Ltac open_g f :=
  unfold f; num_simpl; cbn [npow tpow TransR]; num_simpl.

(** truncations of the exact values *)
Lemma geometric3 e : 0 < e <= 1 / 2 ->
  Rabs (1 + 3*e + 6*e^2 + 10*e^3 + 15*e^4 + 21*e^5 + 28*e^6 + 36*e^7 - / (1 - e) ^ 3) <= 1000 * e ^ 8.
Proof.
  intros He.
  assert (P : 0 < (1 - e) ^ 3) by (apply pow_lt; lra).
  replace (1 + 3*e + 6*e^2 + 10*e^3 + 15*e^4 + 21*e^5 + 28*e^6 + 36*e^7 - / (1 - e) ^ 3)
    with (- ((45 - 80 * e + 36 * e ^ 2) * / (1 - e) ^ 3 * e ^ 8)) by (field; lra).
  rewrite Rabs_Ropp, !Rabs_mult.
  rewrite (Rabs_right (e ^ 8)) by (apply Rle_ge, pow_le; lra).
  apply Rmult_le_compat_r; [apply pow_le; lra|].
  assert (Q : 0 < / (1 - e) ^ 3 <= 8).
  { split; [apply Rinv_0_lt_compat; assumption|].
    replace 8 with (/ (1 / 2) ^ 3) by field. apply Rinv_le_contravar; [lra|].
    apply pow_incr. lra. }
  rewrite (Rabs_right (/ _)) by lra.
  assert (A : Rabs (45 - 80 * e + 36 * e ^ 2) <= 100) by (apply Rabs_le; nra).
  assert (0 <= Rabs (45 - 80 * e + 36 * e ^ 2)) by apply Rabs_pos. nra.
Qed.
Lemma geometric3a e : 0 < e <= 1 / 2 ->
  Rabs (1 - 3*e + 6*e^2 - 10*e^3 + 15*e^4 - 21*e^5 + 28*e^6 - 36*e^7 - / (1 + e) ^ 3) <= 1000 * e ^ 8.
Proof.
  intros He.
  assert (P : 1 <= (1 + e) ^ 3) by (apply pow_R1_Rle; lra).
  replace (1 - 3*e + 6*e^2 - 10*e^3 + 15*e^4 - 21*e^5 + 28*e^6 - 36*e^7 - / (1 + e) ^ 3)
    with (- ((45 + 80 * e + 36 * e ^ 2) * / (1 + e) ^ 3 * e ^ 8)) by (field; lra).
  rewrite Rabs_Ropp, !Rabs_mult.
  rewrite (Rabs_right (e ^ 8)) by (apply Rle_ge, pow_le; lra).
  apply Rmult_le_compat_r; [apply pow_le; lra|].
  assert (Q : 0 < / (1 + e) ^ 3 <= 1).
  { split; [apply Rinv_0_lt_compat; lra|]. rewrite <- Rinv_1. apply Rinv_le_contravar; lra. }
  rewrite (Rabs_right (/ _)) by lra.
  assert (A : Rabs (45 + 80 * e + 36 * e ^ 2) <= 100) by (apply Rabs_le; nra).
  assert (0 <= Rabs (45 + 80 * e + 36 * e ^ 2)) by apply Rabs_pos. nra.
Qed.
Lemma geometric4 e : 0 < e <= 1 / 2 ->
  Rabs (1 + 4*e + 10*e^2 + 20*e^3 + 35*e^4 + 56*e^5 + 84*e^6 + 120*e^7 - / (1 - e) ^ 4) <= 10000 * e ^ 8.
Proof.
  intros He.
  assert (P : 0 < (1 - e) ^ 4) by (apply pow_lt; lra).
  replace (1 + 4*e + 10*e^2 + 20*e^3 + 35*e^4 + 56*e^5 + 84*e^6 + 120*e^7 - / (1 - e) ^ 4)
    with (- ((165 - 440 * e + 396 * e ^ 2 - 120 * e ^ 3) * / (1 - e) ^ 4 * e ^ 8)) by (field; lra).
  rewrite Rabs_Ropp, !Rabs_mult.
  rewrite (Rabs_right (e ^ 8)) by (apply Rle_ge, pow_le; lra).
  apply Rmult_le_compat_r; [apply pow_le; lra|].
  assert (Q : 0 < / (1 - e) ^ 4 <= 16).
  { split; [apply Rinv_0_lt_compat; assumption|].
    replace 16 with (/ (1 / 2) ^ 4) by field. apply Rinv_le_contravar; [lra|].
    apply pow_incr. lra. }
  rewrite (Rabs_right (/ _)) by lra.
  assert (A : Rabs (165 - 440 * e + 396 * e ^ 2 - 120 * e ^ 3) <= 600).
  { assert (0 <= e ^ 2 <= 1) by nra. assert (0 <= e ^ 3 <= 1) by nra. apply Rabs_le; lra. }
  assert (0 <= Rabs (165 - 440 * e + 396 * e ^ 2 - 120 * e ^ 3)) by apply Rabs_pos. nra.
Qed.
Lemma geometric4a e : 0 < e <= 1 / 2 ->
  Rabs (1 - 4*e + 10*e^2 - 20*e^3 + 35*e^4 - 56*e^5 + 84*e^6 - 120*e^7 - / (1 + e) ^ 4) <= 10000 * e ^ 8.
Proof.
  intros He.
  assert (P : 1 <= (1 + e) ^ 4) by (apply pow_R1_Rle; lra).
  replace (1 - 4*e + 10*e^2 - 20*e^3 + 35*e^4 - 56*e^5 + 84*e^6 - 120*e^7 - / (1 + e) ^ 4)
    with (- ((165 + 440 * e + 396 * e ^ 2 + 120 * e ^ 3) * / (1 + e) ^ 4 * e ^ 8)) by (field; lra).
  rewrite Rabs_Ropp, !Rabs_mult.
  rewrite (Rabs_right (e ^ 8)) by (apply Rle_ge, pow_le; lra).
  apply Rmult_le_compat_r; [apply pow_le; lra|].
  assert (Q : 0 < / (1 + e) ^ 4 <= 1).
  { split; [apply Rinv_0_lt_compat; lra|]. rewrite <- Rinv_1. apply Rinv_le_contravar; lra. }
  rewrite (Rabs_right (/ _)) by lra.
  assert (A : Rabs (165 + 440 * e + 396 * e ^ 2 + 120 * e ^ 3) <= 1200).
  { assert (0 <= e ^ 2 <= 1) by nra. assert (0 <= e ^ 3 <= 1) by nra. apply Rabs_le; lra. }
  assert (0 <= Rabs (165 + 440 * e + 396 * e ^ 2 + 120 * e ^ 3)) by apply Rabs_pos. nra.
Qed.

(** [powf] with a half-integer exponent *)
Lemma powf_half x n : 0 < x -> Rpowf x (- INR n / 2) = / sqrt (x ^ n).
Proof.
  intros Hx. unfold Rpowf. destruct (Rlt_dec 0 x); [|contradiction].
  replace (- INR n / 2) with (- (INR n * / 2)) by (unfold Rdiv; ring).
  rewrite Rpower_Ropp. f_equal. rewrite <- Rpower_mult, Rpower_pow by assumption.
  apply Rpower_sqrt. apply pow_lt; assumption.
Qed.
(** (1-x)^(-3/2) and its truncation *)
Lemma powf_three_halves x : 0 < x <= 1 / 4 ->
  Rabs (1 + 3/2 * x + 15/8 * x^2 + 35/16 * x^3 - Rpowf (1 - x) (-3 / 2)) <= 36 * x ^ 4.
Proof.
  intros Hx. replace (-3 / 2) with (- INR 3 / 2) by (simpl; lra).
  rewrite powf_half by lra.
  assert (P : 0 < (1 - x) ^ 3) by (apply pow_lt; lra).
  set (B := / sqrt ((1 - x) ^ 3)). set (A := 1 + 3/2 * x + 15/8 * x^2 + 35/16 * x^3).
  assert (HB : B * B = / (1 - x) ^ 3).
  { unfold B. rewrite <- Rinv_mult, sqrt_sqrt by lra. reflexivity. }
  assert (B0 : 0 < B) by (apply Rinv_0_lt_compat, sqrt_lt_R0; assumption).
  assert (HA : 1 <= A) by (unfold A; nra).
  assert (E : A - B = (A * A - B * B) * / (A + B)) by (field; lra).
  rewrite E, HB.
  replace (A * A - / (1 - x) ^ 3)
    with ((-315/64 + 63/32 * x + 105/256 * x^2 + 45/256 * x^3 + 1575/256 * x^4 - 1225/256 * x^5)
          * / (1 - x) ^ 3 * x ^ 4) by (unfold A; field; lra).
  replace (_ * / (1 - x) ^ 3 * x ^ 4 * / (A + B))
    with ((-315/64 + 63/32 * x + 105/256 * x^2 + 45/256 * x^3 + 1575/256 * x^4 - 1225/256 * x^5)
          * (/ (1 - x) ^ 3 * / (A + B)) * x ^ 4) by ring.
  rewrite !Rabs_mult, (Rabs_right (x ^ 4)) by (apply Rle_ge, pow_le; lra).
  apply Rmult_le_compat_r; [apply pow_le; lra|].
  assert (Q : 0 < / (1 - x) ^ 3 <= 3).
  { split; [apply Rinv_0_lt_compat; assumption|].
    apply Rle_trans with (/ (3 / 4) ^ 3); [|lra]. apply Rinv_le_contravar; [lra|].
    apply pow_incr. lra. }
  assert (Q2 : 0 < / (A + B) <= 1).
  { split; [apply Rinv_0_lt_compat; lra|]. rewrite <- Rinv_1. apply Rinv_le_contravar; lra. }
  rewrite (Rabs_right (/ (1 - x) ^ 3)), (Rabs_right (/ (A + B))) by lra.
  assert (Hp : Rabs (-315/64 + 63/32 * x + 105/256 * x^2 + 45/256 * x^3 + 1575/256 * x^4 - 1225/256 * x^5) <= 12).
  { assert (0 <= x ^ 2 <= 1/4) by nra. assert (0 <= x ^ 3 <= 1/4) by nra.
    assert (0 <= x ^ 4 <= 1/4) by nra. assert (0 <= x ^ 5 <= 1/4) by nra. apply Rabs_le; lra. }
  assert (0 <= Rabs (-315/64 + 63/32 * x + 105/256 * x^2 + 45/256 * x^3 + 1575/256 * x^4 - 1225/256 * x^5))
    by apply Rabs_pos.
  assert (0 <= / (1 - x) ^ 3 * / (A + B) <= 3) by nra. nra.
Qed.
Lemma powf_five_halves x : 0 < x <= 1 / 4 -> Rabs (Rpowf (1 - x) (-5 / 2) - 1) <= 25 * x.
Proof.
  intros Hx. replace (-5 / 2) with (- INR 5 / 2) by (simpl; lra).
  rewrite powf_half by lra.
  assert (P : 0 < (1 - x) ^ 5) by (apply pow_lt; lra).
  set (B := / sqrt ((1 - x) ^ 5)).
  assert (HB : B * B = / (1 - x) ^ 5).
  { unfold B. rewrite <- Rinv_mult, sqrt_sqrt by lra. reflexivity. }
  assert (B0 : 0 < B) by (apply Rinv_0_lt_compat, sqrt_lt_R0; assumption).
  assert (E : B - 1 = (B * B - 1) * / (B + 1)) by (field; lra).
  rewrite E, HB.
  replace (/ (1 - x) ^ 5 - 1)
    with ((5 - 10 * x + 10 * x^2 - 5 * x^3 + x^4) * / (1 - x) ^ 5 * x) by (field; lra).
  replace (_ * / (1 - x) ^ 5 * x * / (B + 1))
    with ((5 - 10 * x + 10 * x^2 - 5 * x^3 + x^4) * (/ (1 - x) ^ 5 * / (B + 1)) * x) by ring.
  rewrite !Rabs_mult, (Rabs_right x) by lra.
  apply Rmult_le_compat_r; [lra|].
  assert (Q : 0 < / (1 - x) ^ 5 <= 4.3).
  { split; [apply Rinv_0_lt_compat; assumption|].
    apply Rle_trans with (/ (3 / 4) ^ 5); [|lra]. apply Rinv_le_contravar; [lra|].
    apply pow_incr. lra. }
  assert (Q2 : 0 < / (B + 1) <= 1).
  { split; [apply Rinv_0_lt_compat; lra|]. rewrite <- Rinv_1. apply Rinv_le_contravar; lra. }
  rewrite (Rabs_right (/ (1 - x) ^ 5)), (Rabs_right (/ (B + 1))) by lra.
  assert (Hp : Rabs (5 - 10 * x + 10 * x^2 - 5 * x^3 + x^4) <= 5).
  { assert (0 <= x ^ 2 <= x / 4) by nra. assert (0 <= x ^ 3 <= x / 4) by nra.
    assert (0 <= x ^ 4 <= x / 4) by nra. apply Rabs_le; lra. }
  assert (0 <= Rabs (5 - 10 * x + 10 * x^2 - 5 * x^3 + x^4)) by apply Rabs_pos.
  assert (0 <= / (1 - x) ^ 5 * / (B + 1) <= 4.3) by nra. nra.
Qed.

(** *** The rows *)
Definition row (G : R -> list (list R)) (p : nat) (e : R) : list R := nth p (G e) [].

(** the separately coded rows for coplanar orbits are the same *)
Lemma g20_row e : eccentricity_g_20q (F := R) e = row eccentricity_g_2pq 0 e.
Proof. reflexivity. Qed.
Lemma g21_row e : eccentricity_g_21q (F := R) e = row eccentricity_g_2pq 1 e.
Proof. reflexivity. Qed.
Lemma g22_row e : row (eccentricity_g_2pq (F := R)) 2 e = rev (row eccentricity_g_2pq 0 e).
Proof. reflexivity. Qed.
Lemma g32_row e : row (eccentricity_g_3pq (F := R)) 2 e = rev (row eccentricity_g_3pq 1 e).
Proof. reflexivity. Qed.
Lemma g33_row e : row (eccentricity_g_3pq (F := R)) 3 e = rev (row eccentricity_g_3pq 0 e).
Proof. reflexivity. Qed.

Ltac open_row :=
  unfold row, total, alternating, eccentricity_g_2pq, eccentricity_g_3pq;
  cbn [nth series rev app]; num_simpl; cbn [npow tpow TransR pow]; num_simpl.

Lemma half3 : - (3 / 1) / (2 / 1) = -3 / 2. Proof. lra. Qed.
Lemma half5 : - (5 / 1) / (2 / 1) = -5 / 2. Proof. lra. Qed.

Definition T3 (e : R) := 1 + 3*e + 6*e^2 + 10*e^3 + 15*e^4 + 21*e^5 + 28*e^6 + 36*e^7.
Definition T4 (e : R) := 1 + 4*e + 10*e^2 + 20*e^3 + 35*e^4 + 56*e^5 + 84*e^6 + 120*e^7.
Definition W3 (x : R) := 1 + 3/2 * x + 15/8 * x^2 + 35/16 * x^3.

Lemma g20_total e : total (row (eccentricity_g_2pq (F := R)) 0 e) = T3 e + 575/48 * e^4.
Proof. open_row. unfold T3. field. Qed.
Lemma g20_alternating e :
  alternating (row (eccentricity_g_2pq (F := R)) 0 e) = T3 (- e) + 575/48 * e^4.
Proof. open_row. unfold T3. field. Qed.
Lemma g21_total e :
  total (row (eccentricity_g_2pq (F := R)) 1 e) = T3 e - W3 (e * e) + Rpowf (1 - e * e) (-3 / 2).
Proof. open_row. rewrite half3. generalize (Rpowf (1 - e * e) (-3 / 2)). intros w. unfold T3, W3. field. Qed.
Lemma g21_alternating e :
  alternating (row (eccentricity_g_2pq (F := R)) 1 e) = T3 (- e) - W3 (e * e) + Rpowf (1 - e * e) (-3 / 2).
Proof. open_row. rewrite half3. generalize (Rpowf (1 - e * e) (-3 / 2)). intros w. unfold T3, W3. field. Qed.
Lemma g30_total e : total (row (eccentricity_g_3pq (F := R)) 0 e) = T4 e.
Proof. open_row. unfold T4. field. Qed.
Lemma g30_alternating e : alternating (row (eccentricity_g_3pq (F := R)) 0 e) = T4 (- e).
Proof. open_row. unfold T4. field. Qed.
Lemma g31_total e :
  total (row (eccentricity_g_3pq (F := R)) 1 e) = 
    T4 e - 3/2 * e^2 + e * (Rpowf (1 - e * e) (-5 / 2) - 1)
    + e^3 * (335/12 - 5/2 + 6637/96 * e - (1973/240 + 35/8) * e^2 - 43726945/709632 * e^3
             + (863839/20160 - 105/16) * e^4).
Proof.
  open_row. rewrite half5. generalize (Rpowf (1 - e * e) (-5 / 2)). intros w. unfold T4. field.
Qed.

Lemma g21_pericentre : at_pericentre 2 (row (eccentricity_g_2pq (F := R)) 1).
Proof.
  exists 1036. intros e He. rewrite g21_total.
  pose proof (geometric3 e He) as A.
  pose proof (powf_three_halves (e * e) ltac:(nra)) as B.
  fold (T3 e) in A. fold (W3 (e * e)) in B.
  replace ((e * e) ^ 4) with (e ^ 8) in B by ring.
  replace (T3 e - W3 (e * e) + Rpowf (1 - e * e) (-3 / 2) - / (1 - e) ^ 3)
    with ((T3 e - / (1 - e) ^ 3) - (W3 (e * e) - Rpowf (1 - e * e) (-3 / 2))) by ring.
  eapply Rle_trans; [apply Rabs_triang|]. rewrite Rabs_Ropp. lra.
Qed.
Lemma g21_apocentre : at_apocentre 2 (row (eccentricity_g_2pq (F := R)) 1).
Proof.
  exists 1036. intros e He. rewrite g21_alternating.
  pose proof (geometric3a e He) as A.
  pose proof (powf_three_halves (e * e) ltac:(nra)) as B.
  fold (W3 (e * e)) in B.
  replace ((e * e) ^ 4) with (e ^ 8) in B by ring.
  replace (1 - 3*e + 6*e^2 - 10*e^3 + 15*e^4 - 21*e^5 + 28*e^6 - 36*e^7) with (T3 (- e)) in A
    by (unfold T3; ring).
  replace (T3 (- e) - W3 (e * e) + Rpowf (1 - e * e) (-3 / 2) - / (1 + e) ^ 3)
    with ((T3 (- e) - / (1 + e) ^ 3) - (W3 (e * e) - Rpowf (1 - e * e) (-3 / 2))) by ring.
  eapply Rle_trans; [apply Rabs_triang|]. rewrite Rabs_Ropp. lra.
Qed.
Lemma g30_pericentre : at_pericentre 3 (row (eccentricity_g_3pq (F := R)) 0).
Proof. exists 10000. intros e He. rewrite g30_total. exact (geometric4 e He). Qed.
Lemma g30_apocentre : at_apocentre 3 (row (eccentricity_g_3pq (F := R)) 0).
Proof.
  exists 10000. intros e He. rewrite g30_alternating. pose proof (geometric4a e He) as A.
  replace (1 - 4*e + 10*e^2 - 20*e^3 + 35*e^4 - 56*e^5 + 84*e^6 - 120*e^7) with (T4 (- e)) in A
    by (unfold T4; ring). exact A.
Qed.

(** reversing a row of fifteen changes neither sum *)
Lemma total_rev a b c d e f g h i j k l m n o :
  total (rev [a;b;c;d;e;f;g;h;i;j;k;l;m;n;o]) = total [a;b;c;d;e;f;g;h;i;j;k;l;m;n;o].
Proof. unfold total. cbn [rev app series]. ring. Qed.
Lemma alternating_rev a b c d e f g h i j k l m n o :
  alternating (rev [a;b;c;d;e;f;g;h;i;j;k;l;m;n;o]) = alternating [a;b;c;d;e;f;g;h;i;j;k;l;m;n;o].
Proof. unfold alternating. cbn [rev app series pow]. ring. Qed.
Lemma g33_pericentre : at_pericentre 3 (row (eccentricity_g_3pq (F := R)) 3).
Proof.
  destruct g30_pericentre as [C HC]. exists C. intros e He. specialize (HC e He).
  rewrite g33_row. unfold row, eccentricity_g_3pq in *. cbn [nth] in *. rewrite total_rev. exact HC.
Qed.
Lemma g33_apocentre : at_apocentre 3 (row (eccentricity_g_3pq (F := R)) 3).
Proof.
  destruct g30_apocentre as [C HC]. exists C. intros e He. specialize (HC e He).
  rewrite g33_row. unfold row, eccentricity_g_3pq in *. cbn [nth] in *. rewrite alternating_rev. exact HC.
Qed.

(** *** The wrong rows *)
Lemma order_gap f g k c C : (k < 8)%nat ->
  (forall e, 0 < e <= 1/2 -> Rabs (f e - g e - c * e ^ k) <= C * e ^ S k) ->
  same_to_order 8 f g -> c = 0.
Proof.
  intros Hk Hf [D HD]. destruct (Req_dec c 0) as [|Hc]; [assumption|exfalso].
  assert (HC : 0 <= C).
  { specialize (Hf (1/2) ltac:(lra)). pose proof (Rabs_pos (f (1/2) - g (1/2) - c * (1/2) ^ k)) as P.
    assert (0 < (1/2) ^ S k) by (apply pow_lt; lra). nra. }
  assert (HD0 : 0 <= D).
  { specialize (HD (1/2) ltac:(lra)). pose proof (Rabs_pos (f (1/2) - g (1/2))) as P.
    assert (0 < (1/2) ^ 8) by (apply pow_lt; lra). nra. }
  assert (Bnd : forall e, 0 < e <= 1/2 -> Rabs c <= (C + D) * e).
  { intros e He. specialize (Hf e He). specialize (HD e He).
    assert (Pk : 0 < e ^ k) by (apply pow_lt; lra).
    assert (E8 : e ^ 8 <= e ^ S k).
    { replace 8%nat with (S k + (7 - k))%nat by lia. rewrite pow_add.
      assert (e ^ (7 - k) <= 1).
      { rewrite <- (pow1 (7 - k)). apply pow_incr. lra. }
      assert (0 < e ^ S k) by (apply pow_lt; lra). nra. }
    assert (T : Rabs (c * e ^ k) <= (C + D) * e ^ S k).
    { replace (c * e ^ k) with ((f e - g e) - (f e - g e - c * e ^ k)) by ring.
      eapply Rle_trans; [apply Rabs_triang|]. rewrite Rabs_Ropp. nra. }
    rewrite Rabs_mult, (Rabs_right (e ^ k)) in T by lra. simpl in T.
    apply (Rmult_le_reg_r (e ^ k)); [assumption|]. lra. }
  pose proof (Rabs_pos_lt c Hc) as Pc.
  set (e := Rmin (1/2) (Rabs c / (2 * (C + D + 1)))).
  assert (He0 : 0 < Rabs c / (2 * (C + D + 1))) by (apply Rdiv_lt_0_compat; lra).
  assert (He : 0 < e <= 1/2).
  { unfold e. split; [apply Rmin_glb_lt; lra|apply Rmin_l]. }
  specialize (Bnd e He).
  assert (e <= Rabs c / (2 * (C + D + 1))) by apply Rmin_r.
  assert ((C + D) * e <= (C + D) * (Rabs c / (2 * (C + D + 1)))) by (apply Rmult_le_compat_l; lra).
  assert ((C + D) * (Rabs c / (2 * (C + D + 1))) < Rabs c).
  { apply Rle_lt_trans with ((C + D + 1) * (Rabs c / (2 * (C + D + 1)))).
    - apply Rmult_le_compat_r; lra.
    - replace ((C + D + 1) * (Rabs c / (2 * (C + D + 1)))) with (Rabs c / 2) by (field; lra). lra. }
  lra.
Qed.

Lemma g20_pericentre_error e : 0 < e <= 1/2 ->
  Rabs (total (row (eccentricity_g_2pq (F := R)) 0 e) - / (1 - e) ^ 3 - 575/48 * e ^ 4) <= 1000 * e ^ 8.
Proof.
  intros He. rewrite g20_total.
  replace (T3 e + 575 / 48 * e ^ 4 - / (1 - e) ^ 3 - 575 / 48 * e ^ 4) with (T3 e - / (1 - e) ^ 3) by ring.
  exact (geometric3 e He).
Qed.
Lemma pow8_le e k : 0 < e <= 1/2 -> (k <= 8)%nat -> e ^ 8 <= e ^ k.
Proof.
  intros He Hk. replace 8%nat with (k + (8 - k))%nat by lia. rewrite pow_add.
  assert (e ^ (8 - k) <= 1) by (rewrite <- (pow1 (8 - k)); apply pow_incr; lra).
  assert (0 < e ^ k) by (apply pow_lt; lra). nra.
Qed.
Lemma g20_not_pericentre : ~ at_pericentre 2 (row (eccentricity_g_2pq (F := R)) 0).
Proof.
  intros K. enough (575/48 = 0) by lra.
  apply (order_gap _ _ 4 (575/48) 1000 ltac:(lia)) in K; [exact K|].
  intros e He. eapply Rle_trans; [exact (g20_pericentre_error e He)|].
  pose proof (pow8_le e 5 He ltac:(lia)). lra.
Qed.
Lemma g31_pericentre_error e : 0 < e <= 1/2 ->
  Rabs (total (row (eccentricity_g_3pq (F := R)) 1 e) - / (1 - e) ^ 4 - -3/2 * e ^ 2) <= 20000 * e ^ 3.
Proof.
  intros He. rewrite g31_total.
  pose proof (geometric4 e He) as A. fold (T4 e) in A.
  pose proof (powf_five_halves (e * e) ltac:(nra)) as B.
  pose proof (pow8_le e 3 He ltac:(lia)).
  set (Pl := 335/12 - 5/2 + 6637/96 * e - (1973/240 + 35/8) * e^2 - 43726945/709632 * e^3
             + (863839/20160 - 105/16) * e^4).
  assert (HP : Rabs Pl <= 1000).
  { assert (0 <= e ^ 2 <= 1) by nra. assert (0 <= e ^ 3 <= 1) by nra. assert (0 <= e ^ 4 <= 1) by nra.
    unfold Pl. apply Rabs_le. lra. }
  set (w := Rpowf (1 - e * e) (-5 / 2)) in *.
  replace (T4 e - 3 / 2 * e ^ 2 + e * (w - 1) + e ^ 3 * Pl - / (1 - e) ^ 4 - -3 / 2 * e ^ 2)
    with ((T4 e - / (1 - e) ^ 4) + e * (w - 1) + e ^ 3 * Pl) by (field; lra).
  assert (P3 : 0 < e ^ 3) by (apply pow_lt; lra).
  eapply Rle_trans; [apply Rabs_triang|].
  rewrite (Rabs_mult (e ^ 3)), (Rabs_right (e ^ 3)) by lra.
  assert (Rabs (T4 e - / (1 - e) ^ 4 + e * (w - 1)) <= 10000 * e ^ 8 + 25 * e ^ 3).
  { eapply Rle_trans; [apply Rabs_triang|]. rewrite (Rabs_mult e), (Rabs_right e) by lra.
    replace (25 * e ^ 3) with (e * (25 * (e * e))) by ring.
    apply Rplus_le_compat; [exact A|]. apply Rmult_le_compat_l; [lra|exact B]. }
  nra.
Qed.
Lemma g31_not_pericentre : ~ at_pericentre 3 (row (eccentricity_g_3pq (F := R)) 1).
Proof.
  intros K. enough (-3/2 = 0) by lra.
  apply (order_gap _ _ 2 (-3/2) 20000 ltac:(lia)) in K; [exact K|].
  exact g31_pericentre_error.
Qed.
