(** * The corrected polynomial takes the accelerations computed at the nodes *)
From Coq Require Import Reals Lra Psatz List Bool ZArith Arith Lia QArith Qreals.
From Verif Require Import Base.Num Base.Result Base.Trans Base.Vec Model.Particle Model.Universe Model.WHFast Model.IAS15
  Spec.IAS15Spec Proofs.NumLemmas Proofs.IAS15Poly.
Import ListNotations.
Close Scope Q_scope.
Open Scope R_scope.

Local Notation co := (coeffs (F := R)).
Definition cr (n i : nat) : R := nth i (c_row n) 0.
(** the polynomial of divided differences [g], in powers of the time *)
Definition b_of_g (g : co) : co :=
  Co (q0 g + cr 2 0 * q1 g + cr 3 0 * q2 g + cr 4 0 * q3 g + cr 5 0 * q4 g + cr 6 0 * q5 g + cr 7 0 * q6 g)
     (q1 g + cr 3 1 * q2 g + cr 4 1 * q3 g + cr 5 1 * q4 g + cr 6 1 * q5 g + cr 7 1 * q6 g)
     (q2 g + cr 4 2 * q3 g + cr 5 2 * q4 g + cr 6 2 * q5 g + cr 7 2 * q6 g)
     (q3 g + cr 5 3 * q4 g + cr 6 3 * q5 g + cr 7 3 * q6 g)
     (q4 g + cr 6 4 * q5 g + cr 7 4 * q6 g)
     (q5 g + cr 7 5 * q6 g)
     (q6 g).
Definition co_add (a b : co) : co := co_map2 Rplus a b.
Definition co_sub (a b : co) : co := co_map2 Rminus a b.
Definition defect (b : co) : co := co_sub b (b_of_g (g_of_b b)).
(** what holds of a component during the iterations started with [b] *)
Definition consistent (b : co) (l : line (F := R)) : Prop :=
  l_csb l = co_zero /\ l_b l = co_add (b_of_g (l_g l)) (defect b).
Lemma start_consistent b : consistent b (line_start b).
Proof.
  split; [reflexivity|]. unfold defect. cbn [line_start l_b l_g]. generalize (b_of_g (g_of_b b)). intros [g0 g1 g2 g3 g4 g5 g6].
  destruct b as [b0 b1 b2 b3 b4 b5 b6]. unfold co_add, co_sub, co_map2. cbn [q0 q1 q2 q3 q4 q5 q6]. f_equal; ring.
Qed.
Lemma gk_eq (a0 a : R) : fst (let r := add_cs a n0 (nopp a0) in add_cs (fst r) (snd r) n0) = a - a0.
Proof. cbv zeta. rewrite !add_cs_eq. cbn [fst snd]. nums. ring. Qed.
Ltac rows := cbv [spacings c_row cr nth].
Lemma update_consistent b n a0 a l : (1 <= n <= 7)%nat -> consistent b l -> consistent b (line_update n a0 a l).
Proof.
  intros Hn (Hc & Hb). unfold consistent, line_update. rewrite gk_eq. cbv zeta. cbn [l_b l_csb l_g].
  rewrite Hc. destruct l as [lb lc lg la lt]. cbn [l_b l_g] in *. subst lb.
  generalize (defect b). intros [e0 e1 e2 e3 e4 e5 e6]. destruct lg as [g0 g1 g2 g3 g4 g5 g6].
  generalize (a - a0). intro gk.
  destruct n as [|n]; [lia|].
  unfold b_of_g, co_add, co_map2, co_zero, cr, co_list, list_co. cbn [q0 q1 q2 q3 q4 q5 q6 co_list].
  do 7 (destruct n as [|n]; [match goal with |- context [divided ?x ?y ?z] => generalize (divided x y z); intro new end;
    cbn [Nat.sub nth c_row map app bump fst snd list_co set_nth];
    rewrite !add_cs_eq; cbn [fst snd list_co nth q0 q1 q2 q3 q4 q5 q6]; split; nums; f_equal; field|]).
  lia.
Qed.

Definition spacing (n i : nat) : R := nth i (spacings n) 0.
(** the value at node [n] of the divided differences, with the distances of the tables *)
Definition nested (n : nat) (a0 : R) (g : co) : R :=
  let s := spacing n in
  a0 + match n with
       | 1%nat => s 0%nat * q0 g
       | 2%nat => s 0%nat * (q0 g + s 1%nat * q1 g)
       | 3%nat => s 0%nat * (q0 g + s 1%nat * (q1 g + s 2%nat * q2 g))
       | 4%nat => s 0%nat * (q0 g + s 1%nat * (q1 g + s 2%nat * (q2 g + s 3%nat * q3 g)))
       | 5%nat => s 0%nat * (q0 g + s 1%nat * (q1 g + s 2%nat * (q2 g + s 3%nat * (q3 g + s 4%nat * q4 g))))
       | 6%nat => s 0%nat * (q0 g + s 1%nat * (q1 g + s 2%nat * (q2 g + s 3%nat * (q3 g + s 4%nat * (q4 g + s 5%nat * q5 g)))))
       | _ => s 0%nat * (q0 g + s 1%nat * (q1 g + s 2%nat * (q2 g + s 3%nat * (q3 g + s 4%nat * (q4 g + s 5%nat * (q5 g + s 6%nat * q6 g))))))
       end.
Lemma lit_nonzero z p : z <> 0%Z -> (nlit z p : R) <> 0.
Proof. intro Hz. nums. apply Rmult_integral_contrapositive_currified; [now apply not_0_IZR|]. apply Rinv_neq_0_compat. now apply not_0_IZR. Qed.
Lemma update_value n a0 a l : (1 <= n <= 7)%nat -> nested n a0 (l_g (line_update n a0 a l)) = a.
Proof.
  intros Hn. unfold line_update. rewrite gk_eq. cbv zeta. cbn [l_g]. destruct (l_g l) as [g0 g1 g2 g3 g4 g5 g6].
  unfold nested, spacing, co_list, list_co.
  destruct n as [|n]; [lia|].
  do 7 (destruct n as [|n]; [
    cbn [Nat.sub nth spacings divided combine fold_left fst snd set_nth q0 q1 q2 q3 q4 q5 q6];
    repeat match goal with |- context [@nlit R NumR ?z ?p] => let x := fresh "s" in let Hx := fresh "Hs" in
      assert (Hx : (@nlit R NumR z p) <> 0) by (apply lit_nonzero; discriminate);
      set (x := @nlit R NumR z p) in *; clearbody x end;
    nums; field; repeat split; assumption|]).
  lia.
Qed.
(** the coefficients before the one that is fitted stay *)
Lemma update_keeps n a0 a l m : (1 <= n <= 7)%nat -> (1 <= m < n)%nat -> nested m a0 (l_g (line_update n a0 a l)) = nested m a0 (l_g l).
Proof.
  intros Hn Hm. unfold line_update. cbv zeta. cbn [l_g]. destruct (l_g l) as [g0 g1 g2 g3 g4 g5 g6].
  match goal with |- context [divided ?x ?y ?z] => generalize (divided x y z); intro new end.
  unfold nested, co_list, list_co.
  destruct n as [|n]; [lia|]. destruct m as [|m]; [lia|].
  do 7 (destruct n as [|n]; [do 7 (destruct m as [|m]; [try lia; reflexivity|]); lia|]). lia.
Qed.
Definition tiny : R := 1 / 10 ^ 21.
Lemma abs_bounds (x : R) : - Rabs x <= x <= Rabs x.
Proof. split_Rabs; lra. Qed.
Ltac bounded := apply Rabs_le; split; lra.
Lemma defect_small (b : co) : magnitude (defect b) <= tiny * magnitude b.
Proof.
  assert (G : let e := defect b in let t := tiny / 7 * magnitude b in
    Rabs (q0 e) <= t /\ Rabs (q1 e) <= t /\ Rabs (q2 e) <= t /\ Rabs (q3 e) <= t /\ Rabs (q4 e) <= t /\ Rabs (q5 e) <= t /\ Rabs (q6 e) <= t).
  { destruct b as [b0 b1 b2 b3 b4 b5 b6]. unfold defect, co_sub, co_map2, b_of_g, g_of_b, magnitude, d, tiny.
    rows. cbv [d_row]. cbn [q0 q1 q2 q3 q4 q5 q6]. nums.
    pose proof (abs_bounds b0) as H0; pose proof (abs_bounds b1) as H1; pose proof (abs_bounds b2) as H2; pose proof (abs_bounds b3) as H3;
      pose proof (abs_bounds b4) as H4; pose proof (abs_bounds b5) as H5; pose proof (abs_bounds b6) as H6.
    revert H0 H1 H2 H3 H4 H5 H6.
    generalize (Rabs b0) (Rabs b1) (Rabs b2) (Rabs b3) (Rabs b4) (Rabs b5) (Rabs b6). intros.
    split; [bounded|]. split; [bounded|]. split; [bounded|]. split; [bounded|]. split; [bounded|]. split; bounded. }
  cbv zeta in G. unfold magnitude at 1. unfold tiny in *. lra.
Qed.
(** ** The value at a node, coefficient by coefficient *)
Definition basis (k : nat) (t : R) : R :=
  let c := cr (S k) in
  match k with
  | 0%nat => t
  | 1%nat => t * (c 0%nat + t)
  | 2%nat => t * (c 0%nat + t * (c 1%nat + t))
  | 3%nat => t * (c 0%nat + t * (c 1%nat + t * (c 2%nat + t)))
  | 4%nat => t * (c 0%nat + t * (c 1%nat + t * (c 2%nat + t * (c 3%nat + t))))
  | 5%nat => t * (c 0%nat + t * (c 1%nat + t * (c 2%nat + t * (c 3%nat + t * (c 4%nat + t)))))
  | _ => t * (c 0%nat + t * (c 1%nat + t * (c 2%nat + t * (c 3%nat + t * (c 4%nat + t * (c 5%nat + t))))))
  end.
Fixpoint distances (n k : nat) : R := match k with O => spacing n 0 | S k' => distances n k' * spacing n k end.
Definition product (n k : nat) : R := if Nat.ltb k n then distances n k else 0.
Lemma accel_basis a0 (g : co) t : accel a0 (b_of_g g) t = a0 + q0 g * basis 0 t + q1 g * basis 1 t + q2 g * basis 2 t
  + q3 g * basis 3 t + q4 g * basis 4 t + q5 g * basis 5 t + q6 g * basis 6 t.
Proof.
  unfold accel, b_of_g, basis. cbn [q0 q1 q2 q3 q4 q5 q6].
  repeat match goal with |- context [cr ?i ?j] => generalize (cr i j); intro end. ring.
Qed.
Lemma nested_product n a0 (g : co) : (1 <= n <= 7)%nat -> nested n a0 g = a0 + q0 g * product n 0 + q1 g * product n 1 + q2 g * product n 2
  + q3 g * product n 3 + q4 g * product n 4 + q5 g * product n 5 + q6 g * product n 6.
Proof.
  intro Hn. unfold nested. cbv zeta. destruct n as [|n]; [lia|].
  do 7 (destruct n as [|n]; [unfold product; cbn [Nat.ltb Nat.leb distances];
    repeat match goal with |- context [spacing ?i ?j] => generalize (spacing i j); intro end; ring|]). lia.
Qed.
(** closed rational expressions are compared in [Q] *)
Ltac to_q e :=
  match e with
  | ?a + ?b => let x := to_q a in let y := to_q b in constr:(Qplus x y)
  | ?a - ?b => let x := to_q a in let y := to_q b in constr:(Qminus x y)
  | ?a * ?b => let x := to_q a in let y := to_q b in constr:(Qmult x y)
  | IZR ?z / IZR (Zpos ?p) => constr:(Qmake z p)
  end.
Lemma q_close (q e : Q) (x : R) : x = Q2R q -> Qle_bool (Qopp e) q = true -> Qle_bool q e = true -> Rabs x <= Q2R e.
Proof.
  intros -> A B. apply Rabs_le. split.
  - rewrite <- Q2R_opp. apply Qle_Rle, Qle_bool_iff, A.
  - apply Qle_Rle, Qle_bool_iff, B.
Qed.
Ltac in_q := match goal with |- Rabs ?x <= _ => let q := to_q x in apply (q_close q);
  [repeat (rewrite Q2R_plus || rewrite Q2R_minus || rewrite Q2R_mult); reflexivity
  |vm_compute; reflexivity|vm_compute; reflexivity] end.
Definition tiny_q : Q := Qmake 1 1000000000000000000000.
Lemma tiny_q_eq : Q2R tiny_q = tiny.
Proof. unfold Q2R, tiny_q, tiny. cbn [Qnum Qden]. lra. Qed.
Lemma basis_close n k : (1 <= n <= 7)%nat -> (k <= 6)%nat -> Rabs (basis k (node n) - product n k) <= tiny.
Proof.
  intros Hn Hk. rewrite <- tiny_q_eq. unfold product. destruct n as [|n]; [lia|].
  do 7 (destruct n as [|n]; [do 7 (destruct k as [|k]; [
    cbn [Nat.ltb Nat.leb distances]; cbv [basis cr spacing node spacings c_row nth]; nums; rewrite ?Rminus_0_r; in_q|]); lia|]). lia.
Qed.
Lemma weighted (g e t : R) : Rabs e <= t -> - (t * Rabs g) <= g * e <= t * Rabs g.
Proof.
  intros H. assert (A : Rabs (g * e) <= t * Rabs g) by (rewrite Rabs_mult; pose proof (Rabs_pos g); nra).
  pose proof (abs_bounds (g * e)). lra.
Qed.
Lemma node_value n a0 (g : co) : (1 <= n <= 7)%nat -> Rabs (accel a0 (b_of_g g) (node n) - nested n a0 g) <= tiny * magnitude g.
Proof.
  intro Hn. rewrite accel_basis, nested_product by exact Hn. unfold magnitude.
  pose proof (weighted (q0 g) _ _ (basis_close n 0 Hn ltac:(lia))). pose proof (weighted (q1 g) _ _ (basis_close n 1 Hn ltac:(lia))).
  pose proof (weighted (q2 g) _ _ (basis_close n 2 Hn ltac:(lia))). pose proof (weighted (q3 g) _ _ (basis_close n 3 Hn ltac:(lia))).
  pose proof (weighted (q4 g) _ _ (basis_close n 4 Hn ltac:(lia))). pose proof (weighted (q5 g) _ _ (basis_close n 5 Hn ltac:(lia))).
  pose proof (weighted (q6 g) _ _ (basis_close n 6 Hn ltac:(lia))).
  apply Rabs_le. generalize dependent tiny. intros t. split; lra.
Qed.
