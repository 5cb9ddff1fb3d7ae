(** Circular orbits at an obliquity of 60 degrees: the remembered force is not the mean force *)
From Coq Require Import Reals List Lra Lia Bool Arith ZArith.
From Verif Require Import Base.Num Base.Trans Base.Vec Model.Constants Model.Particle Model.Kaula Spec.KaulaMeanSpec
  Proofs.NumLemmas Proofs.KaulaTables Proofs.KaulaForce Proofs.KaulaSeries Proofs.KaulaBranches Proofs.KaulaMean.
Import ListNotations.
Open Scope R_scope.

(** a fast rotator on a circle: one orbit in the time of three turns *)
Definition tilted : orbit (F := R) := Orbit 1 0 0 0 0 1 (PI / 3) 3.

Lemma love_elastic ce m p q : love tilted (one_point 1 0) ce m p q = (-1, 0).
Proof.
  unfold love, kaula_numbers, one_point. cbn [kl_freq kl_re kl_im length nth Nat.sub]. num_simpl.
  destruct (Rltb _ 0); destruct ce; cbn [andb negb];
    (destruct (Rleb _ 0) eqn:E; [|apply Rleb_false in E; rewrite (proj2 (Rleb_true _ _)) by lra]); f_equal; ring.
Qed.
Lemma love_behind m p q : sigma_2mpq m p q 3 1 < 0 -> love tilted (one_point 0 1) false m p q = (0, -1).
Proof.
  intros S. unfold love, kaula_numbers, one_point. cbn [kl_freq kl_re kl_im length nth Nat.sub ob_spin ob_freq tilted]. num_simpl.
  rewrite (proj2 (Rltb_true _ _)) by exact S. cbn [andb negb].
  (destruct (Rleb _ 0) eqn:E; [|apply Rleb_false in E; rewrite (proj2 (Rleb_true _ _)) by lra]); f_equal; ring.
Qed.
Lemma list3 (a b c a' b' c' : R) : a = a' -> b = b' -> c = c' -> [a; b; c] = [a'; b'; c'].
Proof. intros -> -> ->. reflexivity. Qed.
Ltac LL := first [apply list4 | apply list3].
Lemma f20_tilted : inclination_f_20p (F := R) (PI / 3) = [- (9/32); 1/16; - (9/32)].
Proof.
  unfold inclination_f_20p. unfold tsin; simpl. rewrite sin_PI3. num_simpl.
  assert (S := sqrt_sqrt 3 ltac:(lra)). LL; lra.
Qed.
Lemma f21_tilted : inclination_f_21p (F := R) (PI / 3) = [9/16 * sqrt 3; - (3/8) * sqrt 3; - (3/16) * sqrt 3].
Proof. unfold inclination_f_21p. unfold tsin, tcos; simpl. rewrite sin_PI3, cos_PI3. num_simpl. LL; lra. Qed.
Lemma f22_tilted : inclination_f_22p (F := R) (PI / 3) = [27/16; 9/8; 3/16].
Proof.
  unfold inclination_f_22p. unfold tsin, tcos; simpl. rewrite sin_PI3, cos_PI3. num_simpl.
  assert (S := sqrt_sqrt 3 ltac:(lra)). LL; lra.
Qed.
Lemma f33_tilted : inclination_f_33p (F := R) (PI / 3) = [405/64; 27/4; 9/4; 15/64].
Proof.
  unfold inclination_f_33p. unfold tsin, tcos; simpl. rewrite sin_PI3, cos_PI3. num_simpl.
  assert (S := sqrt_sqrt 3 ltac:(lra)).
  LL; lra.
Qed.
Lemma f31_tilted : inclination_f_31p (F := R) (PI / 3) = [- (225/128); - (15/128); 3/128; 45/128].
Proof.
  unfold inclination_f_31p. unfold tsin, tcos; simpl. rewrite sin_PI3, cos_PI3. num_simpl.
  assert (S := sqrt_sqrt 3 ltac:(lra)). LL; lra.
Qed.
Lemma order_tilted : series_order (ob_e tilted) = 2%nat.
Proof. apply order_zero. Qed.
Lemma G2_tilted p q : (p < 3)%nat -> G2 tilted p q = nth q [0; 0; 1; 0; 0] 0.
Proof. intros Hp. unfold G2. rewrite order_tilted. change (ob_e tilted) with 0. rewrite g2_zero by exact Hp. reflexivity. Qed.
Lemma G3_tilted p q : (p < 4)%nat -> G3 tilted p q = nth q [0; 0; 1; 0; 0] 0.
Proof. intros Hp. unfold G3. rewrite order_tilted. change (ob_e tilted) with 0. rewrite g3_zero by exact Hp. reflexivity. Qed.
Lemma width_tilted : width tilted = 5%nat.
Proof. unfold width. rewrite order_tilted. reflexivity. Qed.
Lemma sum_middle (f : nat -> R) : f 0%nat = 0 -> f 1%nat = 0 -> f 3%nat = 0 -> f 4%nat = 0 -> sum_to 5 f = f 2%nat.
Proof. intros. cbn [sum_to]. lra. Qed.

Lemma normal_tilted ce : normal_constant tilted (one_point 1 0) ce = 33 * sqrt 3 / 256.
Proof.
  unfold normal_constant. rewrite width_tilted. cbn [sum_to]. unfold K. rewrite !love_elastic.
  cbn [Nat.sub]. rewrite !G2_tilted by lia. unfold F2. change (ob_obliquity tilted) with (PI / 3).
  rewrite f20_tilted, f21_tilted, f22_tilted. change (ob_node tilted) with 0. cbn [nth].
  unfold turned_re. cbn [fst snd]. rewrite Ropp_0, cos_0, sin_0. field.
Qed.

(** the sum of the functions F_21p vanishes, so nothing of the normal force is remembered *)
Lemma middle c : esum (F := R) [0; 0; 1; 0; 0] (fun _ g => g * c) = c.
Proof. rewrite five. ring. Qed.
Lemma normal_remembered ce : normal_m0 tilted (one_point 1 0) ce true = 0
  /\ normal_m1 tilted (one_point 1 0) ce true = 0 /\ normal_m2 tilted (one_point 1 0) ce true = 0.
Proof.
  split; [|split].
  - unfold normal_m0. rewrite order_tilted. change (ob_obliquity tilted) with (PI / 3). change (ob_e tilted) with 0.
    rewrite f20_tilted, f21_tilted, three, !g2_zero by lia. num_simpl. rewrite !five, !love_elastic, !three, !g2_zero, !five by lia. field.
  - unfold normal_m1. rewrite order_tilted. change (ob_obliquity tilted) with (PI / 3). change (ob_e tilted) with 0.
    rewrite f20_tilted, f21_tilted, f22_tilted, three, !g2_zero by lia. num_simpl. rewrite !five, !love_elastic.
    cbn [combine]. generalize (1/2). intros h. rewrite !esum_isum. cbn [isum fst snd]. rewrite !g2_zero by lia. cbn [isum]. field.
  - unfold normal_m2. rewrite order_tilted. change (ob_obliquity tilted) with (PI / 3). change (ob_e tilted) with 0.
    rewrite f21_tilted, f22_tilted, three, !g2_zero by lia. num_simpl. rewrite !five, !love_elastic, !three, !g2_zero, !five by lia. field.
Qed.
Lemma behind m p : (p < 3)%nat -> m = 1 \/ m = 2 / 1 \/ m = 2 -> love tilted (one_point 0 1) false m (nofnat p) (offset 2 2) = (0, -1).
Proof.
  intros Hp Hm. apply love_behind. unfold sigma_2mpq, offset. rewrite !nofnat_R. num_simpl.
  destruct p as [|[|[|p]]]; [..|lia]; cbn [INR]; destruct Hm as [->|[->| ->]]; lra.
Qed.
Lemma orthogonal_tilted : orthogonal_constant tilted (one_point 0 1) false = 0.
Proof.
  unfold orthogonal_constant. rewrite width_tilted.
  assert (Z : forall (f : nat -> nat -> R), sum_to 3 (fun p => sum_to 5 (fun q => f p q)) = 0 ->
    forall c, c * sum_to 3 (fun p => sum_to 5 (fun q => f p q)) = 0) by (intros f -> c; ring).
  rewrite (Z (fun p q => _)), (Z (fun p q => _)); [ring|..];
    cbn [sum_to]; rewrite !G2_tilted by lia; rewrite !G3_tilted by lia; cbn [nth]; ring.
Qed.
(** one of the two orders: every entry of the tables counts *)
Lemma orthogonal_remembered m f0 f1 f2 a0 a1 a2 a3 b0 b1 b2 b3 weigh c1 c2 : m = 1 \/ m = 2 / 1 \/ m = 2 ->
  (forall a b, weigh a b = c1 * a + c2 * b) ->
  orthogonal_sum (F := R) m [f0; f1; f2] [a0; a1; a2; a3] [b0; b1; b2; b3] weigh tilted (one_point 0 1) false true
  = (f0 + f1 + f2) * (c1 * (a0 + a1 + a2 + a3) + c2 * (b0 + b1 + b2 + b3)).
Proof.
  intros Hm W. unfold orthogonal_sum. rewrite order_tilted. change (ob_e tilted) with 0.
  rewrite three, !g2_zero by lia. num_simpl. rewrite !five.
  rewrite !behind by (lia || exact Hm).
  assert (E : forall k, (k < 4)%nat -> efold (fun (acc : R) (_ : nat) g => acc - g * -1) (window 2 (nth k (eccentricity_g_3pq (F := R) 0) [])) 0 = 1).
  { intros k Hk. rewrite g3_zero by exact Hk. unfold efold. cbn [length seq combine fold_left fst snd]. ring. }
  repeat match goal with |- context [love tilted (one_point 0 1) false m ?p ?q] => destruct (love tilted (one_point 0 1) false m p q) end.
  rewrite !W. cbn [combine]. rewrite !four. cbn [fst snd]. rewrite !E by lia. ring.
Qed.
Lemma third : sqrt 3 <> 0.
Proof. apply Rgt_not_eq, sqrt_lt_R0. lra. Qed.
Lemma normal_witness : let f := fun o => normal_inclined (F := R) unit_star unit_star o false (one_point 1 0) in
  snd (f tilted) = 0 /\ mean2 (fun x w => fst (f (at_angles tilted x w))) (G * (33 * sqrt 3 / 256)).
Proof.
  intros f. split.
  - unfold f, normal_inclined. cbn [snd]. destruct (normal_remembered false) as (-> & -> & ->). num_simpl. ring.
  - replace (G * (33 * sqrt 3 / 256)) with
      ((G * npow (p_mass unit_star) 2 * npow (p_radius unit_star) 5) / (npow (ob_a tilted) 6 * p_hdist unit_star) * normal_constant tilted (one_point 1 0) false).
    + apply (normal_inclined_mean unit_star unit_star tilted false (one_point 1 0)).
    + rewrite normal_tilted. cbn. num_simpl. field.
Qed.
Lemma orthogonal_witness : let f := fun o => orthogonal_inclined (F := R) unit_star unit_star o false (one_point 0 1) in
  snd (f tilted) = G * (1005 / (256 * sqrt 6)) /\ mean2 (fun x w => fst (f (at_angles tilted x w))) 0.
Proof.
  intros f. split.
  - unfold f, orthogonal_inclined, orthogonal_3d. cbn [snd]. change (ob_obliquity tilted) with (PI / 3).
    rewrite f21_tilted, f22_tilted, f31_tilted, f33_tilted. num_simpl.
    assert (S6 : sqrt 6 <> 0) by (apply Rgt_not_eq, sqrt_lt_R0; lra).
    assert (S15 : sqrt 15 <> 0) by (apply Rgt_not_eq, sqrt_lt_R0; lra).
    replace (6 / 1) with 6 by field. replace (15 / 1) with 15 by field.
    unfold inclination_f_32p, inclination_f_30p. cbv zeta.
    rewrite (orthogonal_remembered 1 _ _ _ _ _ _ _ _ _ _ _ _ (1 / 6) 1), (orthogonal_remembered (2 / 1) _ _ _ _ _ _ _ _ _ _ _ _ 1 2);
      [..|right; left; reflexivity|intros; field|left; reflexivity|intros; field].
    unfold raised_by. cbn [ob_a tilted]. change (p_mass unit_star) with 1. change (p_radius unit_star) with 1. cbn [npow]. num_simpl.
    match goal with |- _ * (?a / ?b * (?s * ?t) + _) = _ => replace s with 0 by field; generalize t end. intros t.
    field. split; assumption.
  - replace 0 with (- raised_by (F := R) unit_star unit_star false / npow (ob_a tilted) 7 * orthogonal_constant tilted (one_point 0 1) false)
      by (rewrite orthogonal_tilted; ring).
    apply (orthogonal_inclined_mean unit_star unit_star tilted false (one_point 0 1)).
Qed.
