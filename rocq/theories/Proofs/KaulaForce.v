(** * The branches of the Kaula force *)
From Coq Require Import Reals List Lra Lia Bool Arith ZArith.
From Verif Require Import Base.Num Base.Result Base.Trans Base.Vec Model.Constants Model.Particle Model.Tools Model.Kaula
  Spec.KaulaSpec Proofs.NumLemmas Proofs.KaulaTables.
Import ListNotations.
Open Scope R_scope.

(** ** Indexed sums *)
Section Sums.
Context {A : Type}.

(** the same sum, with the index carried along *)
Fixpoint isum (k : nat) (l : list A) (f : nat -> A -> R) : R :=
  match l with [] => 0 | x :: l => f k x + isum (S k) l f end.

Lemma efold_from {B : Type} (step : B -> nat -> A -> B) l : forall k acc,
  fold_left (fun acc ix => step acc (fst ix) (snd ix)) (combine (seq k (length l)) l) acc
  = (fix go k l acc := match l with [] => acc | x :: l => go (S k) l (step acc k x) end) k l acc.
Proof. induction l as [|x l IH]; intros k acc; simpl; [reflexivity|apply IH]. Qed.

Lemma esum_isum (l : list A) f : esum (F := R) l f = isum 0 l f.
Proof.
  unfold esum, efold. rewrite (efold_from (fun acc i x => nadd acc (f i x))).
  assert (G : forall l k acc,
    (fix go k (l : list A) acc := match l with [] => acc | x :: l => go (S k) l (nadd acc (f k x)) end) k l acc
    = acc + isum k l f).
  { clear l. induction l as [|x l IH]; intros k acc; simpl; [ring|]. rewrite IH. simpl. ring. }
  rewrite G. num_simpl. ring.
Qed.

Lemma isum_ext k (l : list A) f g :
  (forall i x, nth_error l i = Some x -> f (k + i)%nat x = g (k + i)%nat x) -> isum k l f = isum k l g.
Proof.
  revert k. induction l as [|x l IH]; intros k E; simpl; [reflexivity|]. f_equal.
  - specialize (E 0%nat x eq_refl). rewrite Nat.add_0_r in E. exact E.
  - apply IH. intros i y Hy. replace (S k + i)%nat with (k + S i)%nat by lia. apply E. exact Hy.
Qed.
Lemma esum_ext (l : list A) (f g : nat -> A -> R) :
  (forall i x, nth_error l i = Some x -> f i x = g i x) -> esum (F := R) l f = esum l g.
Proof. intros E. rewrite !esum_isum. apply isum_ext. exact E. Qed.
Lemma isum_scal k l c f : isum k l (fun i x => c * f i x) = c * isum k l f.
Proof. revert k. induction l as [|x l IH]; intros k; simpl; [ring|rewrite IH; ring]. Qed.
Lemma esum_scal (l : list A) c f : esum (F := R) l (fun i x => c * f i x) = c * esum l f.
Proof. rewrite !esum_isum. apply isum_scal. Qed.
Lemma isum_plus k l f g : isum k l (fun i x => f i x + g i x) = isum k l f + isum k l g.
Proof. revert k. induction l as [|x l IH]; intros k; simpl; [ring|rewrite IH; ring]. Qed.
Lemma esum_plus (l : list A) f g : esum (F := R) l (fun i x => f i x + g i x) = esum l f + esum l g.
Proof. rewrite !esum_isum. apply isum_plus. Qed.

(** two accumulators are two sums *)
Lemma efold_pair (l : list A) (f g : nat -> A -> R) (step : R * R -> nat -> A -> R * R) :
  (forall acc i x, step acc i x = (fst acc + f i x, snd acc + g i x)) ->
  efold step l (0, 0) = (esum (F := R) l f, esum (F := R) l g).
Proof.
  intros E. rewrite !esum_isum. unfold efold. rewrite (efold_from step).
  assert (G : forall l k acc,
    (fix go k (l : list A) acc := match l with [] => acc | x :: l => go (S k) l (step acc k x) end) k l acc
    = (fst acc + isum k l f, snd acc + isum k l g)).
  { clear l. induction l as [|x l IH]; intros k [a b]; simpl; [rewrite !Rplus_0_r; reflexivity|].
    rewrite IH, E. simpl. f_equal; ring. }
  rewrite G. simpl. f_equal; ring.
Qed.
(** adding only the term of index [q] *)
Lemma efold_only (l : list A) q (f : A -> R) x : nth_error l q = Some x ->
  efold (fun acc j y => if Nat.eqb q j then acc + f y else acc) l 0 = f x.
Proof.
  intros Hx. unfold efold. rewrite (efold_from (fun acc j y => if Nat.eqb q j then acc + f y else acc)).
  assert (G : forall l k acc,
    (fix go k (l : list A) acc := match l with [] => acc
       | x :: l => go (S k) l (if Nat.eqb q k then acc + f x else acc) end) k l acc
    = acc + isum k l (fun j y => if Nat.eqb q j then f y else 0)).
  { clear l Hx. induction l as [|y l IH]; intros k acc; simpl; [ring|]. rewrite IH. destruct (Nat.eqb q k); ring. }
  rewrite G, Rplus_0_l.
  assert (H0 : forall l k, (q < k)%nat -> isum k l (fun j y => if Nat.eqb q j then f y else 0) = 0).
  { clear. induction l as [|y l IH]; intros k Hk; simpl; [reflexivity|].
    destruct (Nat.eqb_spec q k); [lia|]. rewrite IH by lia. ring. }
  assert (G2 : forall l k i, nth_error l i = Some x -> q = (k + i)%nat ->
     isum k l (fun j y => if Nat.eqb q j then f y else 0) = f x).
  { clear l Hx G. induction l as [|y l IH]; intros k i Hx E; [destruct i; discriminate|].
    simpl. destruct i as [|i].
    - injection Hx as ->. destruct (Nat.eqb_spec q k); [|lia]. rewrite H0 by lia. ring.
    - destruct (Nat.eqb_spec q k); [lia|]. rewrite (IH (S k) i Hx) by lia. ring. }
  apply (G2 l 0%nat q Hx). lia.
Qed.
End Sums.

Lemma isum_map {A B : Type} (h : A -> B) (l : list A) f : forall k,
  isum k (map h l) f = isum k l (fun i x => f i (h x)).
Proof. induction l as [|x l IH]; intros k; simpl; [reflexivity|]. rewrite IH. reflexivity. Qed.
Lemma esum_map {A B : Type} (h : A -> B) (l : list A) f :
  esum (F := R) (map h l) f = esum l (fun i x => f i (h x)).
Proof. rewrite !esum_isum. apply isum_map. Qed.
Lemma window_map {A B : Type} (h : A -> B) n (l : list A) : window n (map h l) = map h (window n l).
Proof. unfold window. rewrite skipn_map, firstn_map. reflexivity. Qed.
Lemma combine_fst {A B : Type} (a : list A) (b : list B) :
  length a = length b -> map fst (combine a b) = a.
Proof. revert b. induction a as [|x a IH]; intros [|y b] E; simpl in *; try discriminate; [reflexivity|].
  f_equal. apply IH. lia. Qed.
Lemma combine_snd {A B : Type} (a : list A) (b : list B) :
  length a = length b -> map snd (combine a b) = b.
Proof. revert b. induction a as [|x a IH]; intros [|y b] E; simpl in *; try discriminate; [reflexivity|].
  f_equal. apply IH. lia. Qed.
Lemma nofnat_R n : nofnat (F := R) n = INR n.
Proof. unfold nofnat. num_simpl. rewrite INR_IZR_INZ. field. Qed.

(** ** Each branch is linear in its constant *)
Lemma radial_circular_scale k c o par ce :
  radial_circular (F := R) (k * c) o par ce
  = (k * fst (radial_circular c o par ce), k * snd (radial_circular c o par ce)).
Proof.
  unfold radial_circular. destruct (love o par ce n0 n1 n0), (love o par ce _ n0 n0).
  simpl. f_equal; ring.
Qed.
Lemma radial_eccentric_scale k c o par ce :
  radial_eccentric (F := R) (k * c) o par ce
  = (k * fst (radial_eccentric c o par ce), k * snd (radial_eccentric c o par ce)).
Proof.
  unfold radial_eccentric. match goal with |- context [efold ?s ?l ?a] => destruct (efold s l a) end.
  simpl. f_equal; ring.
Qed.
Lemma radial_3d_scale k c o par ce :
  radial_3d (F := R) (k * c) o par ce
  = (k * fst (radial_3d c o par ce), k * snd (radial_3d c o par ce)).
Proof. unfold radial_3d. cbn [fst snd]. num_simpl. f_equal; ring. Qed.
Lemma orthogonal_circular_scale k c o par ce :
  orthogonal_circular (F := R) (k * c) o par ce
  = (k * fst (orthogonal_circular c o par ce), k * snd (orthogonal_circular c o par ce)).
Proof.
  unfold orthogonal_circular. destruct (love o par ce _ n0 n0). simpl. f_equal; ring.
Qed.
Lemma orthogonal_eccentric_scale k c o par ce :
  orthogonal_eccentric (F := R) (k * c) o par ce
  = (k * fst (orthogonal_eccentric c o par ce), k * snd (orthogonal_eccentric c o par ce)).
Proof. unfold orthogonal_eccentric. cbn [fst snd]. num_simpl. f_equal; ring. Qed.
Lemma orthogonal_3d_scale k c o par ce :
  orthogonal_3d (F := R) (k * c) o par ce
  = (k * fst (orthogonal_3d c o par ce), k * snd (orthogonal_3d c o par ce)).
Proof. unfold orthogonal_3d. cbn [fst snd]. num_simpl. f_equal; ring. Qed.

(** ** The eccentric coplanar radial force as two plain sums *)
Definition planar_term (o : orbit) par ce (m p : R) (g : list R) : R :=
  let n := series_order (ob_e o) in
  esum (window n g) (fun q gq =>
    let k := love o par ce m p (offset n q) in
    gq * esum (window n g) (fun j gj =>
      let a := alpha_pqkj 0 (offset n q) 0 (offset n j) (ob_m o) (ob_omega o) in
      gj * (cos a * fst k - sin a * snd k))).
Definition planar_secular (o : orbit) par ce (m p : R) (g : list R) : R :=
  let n := series_order (ob_e o) in
  esum (window n g) (fun q gq => gq * (gq * fst (love o par ce m p (offset n q)))).

Lemma g20_length e : length (eccentricity_g_20q (F := R) e) = 15%nat.
Proof. reflexivity. Qed.
Lemma g21_length e : length (eccentricity_g_21q (F := R) e) = 15%nat.
Proof. reflexivity. Qed.
Lemma window_fst n e : map fst (window n (combine (eccentricity_g_20q (F := R) e) (eccentricity_g_21q e)))
  = window n (eccentricity_g_20q e).
Proof. rewrite <- window_map, combine_fst; [reflexivity|]. rewrite g20_length, g21_length. reflexivity. Qed.
Lemma window_snd n e : map snd (window n (combine (eccentricity_g_20q (F := R) e) (eccentricity_g_21q e)))
  = window n (eccentricity_g_21q e).
Proof. rewrite <- window_map, combine_snd; [reflexivity|]. rewrite g20_length, g21_length. reflexivity. Qed.

Lemma radial_eccentric_sums c o par ce :
  radial_eccentric (F := R) c o par ce
  = (c * (3/4 * planar_term o par ce 0 1 (eccentricity_g_21q (ob_e o))
          + 9/4 * planar_term o par ce (2/1) 0 (eccentricity_g_20q (ob_e o))),
     c * (3/4 * planar_secular o par ce 0 1 (eccentricity_g_21q (ob_e o))
          + 9/4 * planar_secular o par ce (2/1) 0 (eccentricity_g_20q (ob_e o)))).
Proof.
  unfold radial_eccentric, planar_term, planar_secular.
  set (n := series_order (ob_e o)).
  rewrite <- !(window_fst n (ob_e o)), <- !(window_snd n (ob_e o)).
  set (g := window n (combine (eccentricity_g_20q (ob_e o)) (eccentricity_g_21q (ob_e o)))).
  rewrite !esum_map. num_simpl.
  match goal with |- context [efold ?s g (0, 0)] => set (step := s) end.
  pose (f1 := fun q (x : R * R) =>
    3/4 * (snd x * esum (map snd g) (fun j gj =>
      let a := alpha_pqkj 0 (offset n q) 0 (offset n j) (ob_m o) (ob_omega o) in
      gj * (cos a * fst (love o par ce 0 1 (offset n q)) - sin a * snd (love o par ce 0 1 (offset n q)))))
    + 9/4 * (fst x * esum (map fst g) (fun j gj =>
      let a := alpha_pqkj 0 (offset n q) 0 (offset n j) (ob_m o) (ob_omega o) in
      gj * (cos a * fst (love o par ce (2/1) 0 (offset n q)) - sin a * snd (love o par ce (2/1) 0 (offset n q)))))).
  pose (only := fun q (f : R * R -> R) => efold (fun acc j y => if Nat.eqb q j then acc + f y else acc) g 0).
  pose (f2 := fun q (x : R * R) =>
    3/4 * (snd x * only q (fun y => snd y * fst (love o par ce 0 1 (offset n q))))
    + 9/4 * (fst x * only q (fun y => fst y * fst (love o par ce (2/1) 0 (offset n q))))).
  rewrite (efold_pair g f1 f2).
  2:{ intros acc q [x y]. unfold step, f1, f2, only.
      destruct (love o par ce 0 1 (offset n q)) as [r1 i1].
      destruct (love o par ce (2/1) 0 (offset n q)) as [r2 i2].
      rewrite !esum_map. cbn [fst snd]. unfold tcos, tsin; simpl. f_equal; field. }
  f_equal; f_equal.
  - unfold f1. rewrite esum_plus, !esum_scal. reflexivity.
  - rewrite <- !esum_scal, <- esum_plus. apply esum_ext. intros q x Hx.
    unfold f2, only. rewrite !(efold_only g q _ x Hx). reflexivity.
Qed.

(** ** The formulas for inclined orbits at zero obliquity *)
Lemma three (a b c : R) f : esum (F := R) [a; b; c] f = f 0%nat a + f 1%nat b + f 2%nat c.
Proof. rewrite esum_isum. simpl. ring. Qed.
Lemma f20_zero : inclination_f_20p (F := R) 0 = [0; - (1/2); 0].
Proof. unfold inclination_f_20p. unfold tsin; simpl. rewrite sin_0. num_simpl. repeat f_equal; field. Qed.
Lemma f21_zero : inclination_f_21p (F := R) 0 = [0; 0; 0].
Proof. unfold inclination_f_21p. unfold tsin, tcos; simpl. rewrite sin_0, cos_0. num_simpl. repeat f_equal; field. Qed.
Lemma f22_zero : inclination_f_22p (F := R) 0 = [3; 0; 0].
Proof. unfold inclination_f_22p. unfold tsin, tcos; simpl. rewrite sin_0, cos_0. num_simpl. repeat f_equal; field. Qed.
Lemma g2_rows e : eccentricity_g_20q (F := R) e = nth 0 (eccentricity_g_2pq e) []
  /\ eccentricity_g_21q (F := R) e = nth 1 (eccentricity_g_2pq e) [].
Proof. split; reflexivity. Qed.

Lemma alpha_shift (p q j m w : R) : alpha_pqkj p q p j m w = alpha_pqkj 0 q 0 j m w.
Proof. unfold alpha_pqkj. num_simpl. ring. Qed.

Lemma radial_sum_m0 o par ce :
  radial_sum (F := R) 0 [0; - (1/2); 0] o par ce = 1/4 * planar_term o par ce 0 1 (eccentricity_g_21q (ob_e o)).
Proof.
  unfold radial_sum, planar_term. set (n := series_order (ob_e o)).
  rewrite three. cbv beta. num_simpl. rewrite <- (proj2 (g2_rows (ob_e o))).
  set (g := window n (eccentricity_g_21q (ob_e o))).
  transitivity (- (1/2) * esum (F := R) g (fun q gq => - (1/2) * (gq * esum (F := R) g (fun j gj =>
      let a := alpha_pqkj 0 (offset n q) 0 (offset n j) (ob_m o) (ob_omega o) in
      gj * (cos a * fst (love o par ce 0 1 (offset n q)) - sin a * snd (love o par ce 0 1 (offset n q))))))).
  - rewrite !Rmult_0_l, Rplus_0_l, Rplus_0_r. f_equal. apply esum_ext. intros q gq _.
    replace (nofnat (F := R) 1) with 1 by (rewrite nofnat_R; reflexivity).
    destruct (love o par ce 0 1 (offset n q)) as [re im]. rewrite three. cbn [fst snd].
    rewrite !Rmult_0_l, Rplus_0_l, Rplus_0_r.
    rewrite <- (proj2 (g2_rows (ob_e o))). fold g.
    replace (nofnat (F := R) 1) with 1 by (rewrite nofnat_R; reflexivity).
    rewrite (esum_ext g _ (fun j gj =>
      gj * (cos (alpha_pqkj 0 (offset n q) 0 (offset n j) (ob_m o) (ob_omega o)) * re
            - sin (alpha_pqkj 0 (offset n q) 0 (offset n j) (ob_m o) (ob_omega o)) * im))).
    2:{ intros j gj _. rewrite alpha_shift. reflexivity. }
    cbv zeta. num_simpl. ring.
  - rewrite esum_scal. num_simpl. cbv zeta. field.
Qed.
Lemma radial_sum_m2 o par ce :
  radial_sum (F := R) (2/1) [3; 0; 0] o par ce = 9 * planar_term o par ce (2/1) 0 (eccentricity_g_20q (ob_e o)).
Proof.
  unfold radial_sum, planar_term. set (n := series_order (ob_e o)).
  rewrite three. cbv beta. num_simpl. rewrite <- (proj1 (g2_rows (ob_e o))).
  set (g := window n (eccentricity_g_20q (ob_e o))).
  transitivity (3 * esum (F := R) g (fun q gq => 3 * (gq * esum (F := R) g (fun j gj =>
      let a := alpha_pqkj 0 (offset n q) 0 (offset n j) (ob_m o) (ob_omega o) in
      gj * (cos a * fst (love o par ce (2/1) 0 (offset n q)) - sin a * snd (love o par ce (2/1) 0 (offset n q))))))).
  - rewrite !Rmult_0_l, !Rplus_0_r. f_equal. apply esum_ext. intros q gq _.
    replace (nofnat (F := R) 0) with 0 by (rewrite nofnat_R; reflexivity).
    destruct (love o par ce (2/1) 0 (offset n q)) as [re im]. rewrite three. cbn [fst snd].
    rewrite !Rmult_0_l, !Rplus_0_r.
    rewrite <- (proj1 (g2_rows (ob_e o))). fold g.
    replace (nofnat (F := R) 0) with 0 by (rewrite nofnat_R; reflexivity).
    cbv zeta. num_simpl. change (@tcos R _) with cos. change (@tsin R _) with sin. ring.
  - rewrite esum_scal. num_simpl. cbv zeta. field.
Qed.
Lemma radial_sum_zero m o par ce : radial_sum (F := R) m [0; 0; 0] o par ce = 0.
Proof. unfold radial_sum. rewrite three. num_simpl. ring. Qed.
Lemma radial_secular_zero m o par ce : radial_sum_secular (F := R) m [0; 0; 0] o par ce = 0.
Proof. unfold radial_sum_secular. rewrite three. num_simpl. simpl. num_simpl. ring. Qed.
Lemma radial_secular_m0 o par ce :
  radial_sum_secular (F := R) 0 [0; - (1/2); 0] o par ce = 1/4 * planar_secular o par ce 0 1 (eccentricity_g_21q (ob_e o)).
Proof.
  unfold radial_sum_secular, planar_secular. set (n := series_order (ob_e o)).
  rewrite three. cbv beta. num_simpl. rewrite <- (proj2 (g2_rows (ob_e o))).
  set (g := window n (eccentricity_g_21q (ob_e o))).
  rewrite (esum_ext g _ (fun q gq => gq * (gq * fst (love o par ce 0 1 (offset n q))))).
  - simpl. num_simpl. field.
  - intros q gq _. replace (nofnat (F := R) 1) with 1 by (rewrite nofnat_R; reflexivity).
    destruct (love o par ce 0 1 (offset n q)) as [re im]. simpl. num_simpl. ring.
Qed.
Lemma radial_secular_m2 o par ce :
  radial_sum_secular (F := R) (2/1) [3; 0; 0] o par ce = 9 * planar_secular o par ce (2/1) 0 (eccentricity_g_20q (ob_e o)).
Proof.
  unfold radial_sum_secular, planar_secular. set (n := series_order (ob_e o)).
  rewrite three. cbv beta. num_simpl. rewrite <- (proj1 (g2_rows (ob_e o))).
  set (g := window n (eccentricity_g_20q (ob_e o))).
  rewrite (esum_ext g _ (fun q gq => gq * (gq * fst (love o par ce (2/1) 0 (offset n q))))).
  - simpl. num_simpl. field.
  - intros q gq _. replace (nofnat (F := R) 0) with 0 by (rewrite nofnat_R; reflexivity).
    destruct (love o par ce (2/1) 0 (offset n q)) as [re im]. simpl. num_simpl. ring.
Qed.

(** the sums agree; the factor 3 is in the constant of the inclined branch *)
Lemma radial_zero_obliquity c o par ce : ob_obliquity o = 0 ->
  radial_3d (F := R) (3 * c) o par ce = radial_eccentric c o par ce.
Proof.
  intros Ho. unfold radial_3d. rewrite Ho, f20_zero, f21_zero, f22_zero, radial_eccentric_sums.
  num_simpl.
  rewrite radial_sum_m0, radial_sum_zero, radial_sum_m2, radial_secular_m0, radial_secular_zero, radial_secular_m2.
  f_equal; field.
Qed.

Lemma normal_zero_obliquity o par ce s : ob_obliquity o = 0 ->
  normal_m0 (F := R) o par ce s = 0 /\ normal_m1 o par ce s = 0 /\ normal_m2 o par ce s = 0.
Proof.
  intros Ho. unfold normal_m0, normal_m1, normal_m2. rewrite Ho, f20_zero, f21_zero, f22_zero.
  assert (Z : forall l (f : nat -> R -> R), (forall q x, f q x = 0) -> esum (F := R) l f = 0).
  { intros l f Hf. rewrite esum_isum. generalize 0%nat. induction l as [|x l IH]; intros k; simpl; [reflexivity|].
    rewrite Hf, IH. ring. }
  repeat split.
  - rewrite three. rewrite !Z; [num_simpl; ring|..];
      intros q x; destruct (love o par ce _ _ _); rewrite three; num_simpl; ring.
  - rewrite three. num_simpl. ring.
  - rewrite three. rewrite !Z; [num_simpl; ring|..];
      intros q x; destruct (love o par ce _ _ _); rewrite three; num_simpl; ring.
Qed.

(** ** Limits for small eccentricity *)
Lemma tends_const L : tends (fun _ => L) L.
Proof. intros eps He. exists 1. split; [lra|]. intros e _. unfold Rminus. rewrite Rplus_opp_r, Rabs_R0. exact He. Qed.
Lemma tends_id : tends (fun e => e) 0.
Proof. intros eps He. exists eps. split; [exact He|]. intros e H. rewrite Rminus_0_r, Rabs_right; lra. Qed.
Lemma tends_plus f g L M : tends f L -> tends g M -> tends (fun e => f e + g e) (L + M).
Proof.
  intros A B eps He. destruct (A (eps / 2)) as [d1 [H1 A1]]; [lra|]. destruct (B (eps / 2)) as [d2 [H2 B2]]; [lra|].
  exists (Rmin d1 d2). split; [apply Rmin_pos; assumption|]. intros e H.
  specialize (A1 e ltac:(pose proof (Rmin_l d1 d2); lra)). specialize (B2 e ltac:(pose proof (Rmin_r d1 d2); lra)).
  replace (f e + g e - (L + M)) with ((f e - L) + (g e - M)) by ring.
  eapply Rle_lt_trans; [apply Rabs_triang|]. lra.
Qed.
Lemma tends_mult f g L M : tends f L -> tends g M -> tends (fun e => f e * g e) (L * M).
Proof.
  intros A B eps He.
  assert (PL := Rabs_pos L). assert (PM := Rabs_pos M).
  set (k := Rmin 1 (eps / (Rabs L + Rabs M + 1 + 1))).
  assert (Hk : 0 < k) by (apply Rmin_pos; [lra|apply Rdiv_lt_0_compat; lra]).
  destruct (A k Hk) as [d1 [H1 A1]]. destruct (B k Hk) as [d2 [H2 B2]].
  exists (Rmin d1 d2). split; [apply Rmin_pos; assumption|]. intros e H.
  specialize (A1 e ltac:(pose proof (Rmin_l d1 d2); lra)). specialize (B2 e ltac:(pose proof (Rmin_r d1 d2); lra)).
  replace (f e * g e - L * M) with ((f e - L) * (g e - M) + ((f e - L) * M + L * (g e - M))) by ring.
  eapply Rle_lt_trans; [apply Rabs_triang|].
  eapply Rle_lt_trans; [apply Rplus_le_compat_l, Rabs_triang|]. rewrite !Rabs_mult.
  pose proof (Rabs_pos (f e - L)). pose proof (Rabs_pos (g e - M)).
  assert (K1 : k <= 1) by apply Rmin_l.
  assert (K2 : k * (Rabs L + Rabs M + 1 + 1) <= eps).
  { pose proof (Rmin_r 1 (eps / (Rabs L + Rabs M + 1 + 1))) as Q. fold k in Q.
    apply (Rmult_le_compat_r (Rabs L + Rabs M + 1 + 1)) in Q; [|lra].
    replace (eps / (Rabs L + Rabs M + 1 + 1) * (Rabs L + Rabs M + 1 + 1)) with eps in Q by (field; lra). exact Q. }
  nra.
Qed.
Lemma tends_ext f g L : (exists d, 0 < d /\ forall e, 0 < e < d -> f e = g e) -> tends f L -> tends g L.
Proof.
  intros [d [Hd E]] A eps He. destruct (A eps He) as [d1 [H1 A1]].
  exists (Rmin d d1). split; [apply Rmin_pos; assumption|]. intros e H.
  rewrite <- E by (pose proof (Rmin_l d d1); lra). apply A1. pose proof (Rmin_r d d1); lra.
Qed.
Lemma tends_unique f L M : tends f L -> tends f M -> L = M.
Proof.
  intros A B. destruct (Req_dec L M) as [|N]; [assumption|exfalso].
  assert (P : 0 < Rabs (L - M)) by (apply Rabs_pos_lt; lra).
  destruct (A (Rabs (L - M) / 2)) as [d1 [H1 A1]]; [lra|]. destruct (B (Rabs (L - M) / 2)) as [d2 [H2 B2]]; [lra|].
  assert (Hm : 0 < Rmin d1 d2) by (apply Rmin_pos; assumption).
  pose proof (Rmin_l d1 d2). pose proof (Rmin_r d1 d2).
  specialize (A1 (Rmin d1 d2 / 2) ltac:(lra)). specialize (B2 (Rmin d1 d2 / 2) ltac:(lra)).
  set (v := f (Rmin d1 d2 / 2)) in *.
  assert (Rabs (L - M) <= Rabs (v - L) + Rabs (v - M)).
  { replace (L - M) with ((v - M) + - (v - L)) by ring. eapply Rle_trans; [apply Rabs_triang|]. rewrite Rabs_Ropp. lra. }
  lra.
Qed.
Lemma tends_isum (l : list (R -> R)) (c : nat -> R) (L : list R) : forall k,
  Forall2 tends l L ->
  tends (fun e => isum k (map (fun g => g e) l) (fun q g => g * c q)) (isum k L (fun q g => g * c q)).
Proof.
  intros k HL. revert k. induction HL; intros k; simpl; [apply tends_const|].
  apply tends_plus; [apply tends_mult; [assumption|apply tends_const]|apply IHHL].
Qed.

Lemma tends_isum2 (l : list (R -> R)) (L : list R) (c : nat -> R -> R) (C : nat -> R) : forall k,
  Forall2 tends l L -> (forall q, tends (c q) (C q)) ->
  tends (fun e => isum k (map (fun g => g e) l) (fun q g => g * c q e)) (isum k L (fun q g => g * C q)).
Proof.
  intros k HL Hc. revert k. induction HL; intros k; simpl; [apply tends_const|].
  apply tends_plus; [apply tends_mult; [assumption|apply Hc]|apply IHHL].
Qed.

Definition with_eccentricity (e : R) (o : orbit) : orbit :=
  Orbit (ob_a o) e (ob_m o) (ob_omega o) (ob_node o) (ob_freq o) (ob_obliquity o) (ob_spin o).

Lemma order_small e : 0 < e < 1 / 10 -> series_order (F := R) e = 2%nat.
Proof.
  intros He. unfold series_order. num_simpl.
  repeat (match goal with |- context [Rltb ?a ?b] => rewrite (proj2 (Rltb_false a b)) by lra end).
  rewrite (proj2 (Rleb_true _ _)) by lra. reflexivity.
Qed.

(** five functions tending to 0, 0, 1, 0, 0 *)
Definition limits (g : R -> list R) : Prop :=
  exists l : list (R -> R), Forall2 tends l [0; 0; 1; 0; 0]
    /\ forall e, 0 < e < 1 / 10 -> window 2 (g e) = map (fun h => h e) l.

Lemma tends_opp f L : tends f L -> tends (fun e => - f e) (- L).
Proof.
  intros A eps He. destruct (A eps He) as [d [Hd A1]]. exists d. split; [exact Hd|]. intros e H.
  replace (- f e - - L) with (- (f e - L)) by ring. rewrite Rabs_Ropp. apply A1, H.
Qed.
Ltac tend := repeat first [apply tends_const | apply tends_id | apply tends_opp | apply tends_plus | apply tends_mult].
Lemma tends_to f L M : tends f L -> L = M -> tends f M.
Proof. intros H <-. exact H. Qed.

Lemma limits_g20 : limits (eccentricity_g_20q (F := R)).
Proof.
  exists [ fun e => nth 5 (eccentricity_g_20q e) 0; fun e => nth 6 (eccentricity_g_20q e) 0;
           fun e => nth 7 (eccentricity_g_20q e) 0; fun e => nth 8 (eccentricity_g_20q e) 0;
           fun e => nth 9 (eccentricity_g_20q e) 0 ].
  split; [|reflexivity].
  repeat constructor; unfold eccentricity_g_20q; cbn [nth]; num_simpl; unfold Rminus;
    (eapply tends_to; [tend|]); try ring.
Qed.
Lemma tends_powf : tends (fun e => Rpowf (1 - e * e) (-3 / 2)) 1.
Proof.
  intros eps He. exists (Rmin (1/2) (eps / 100)). split; [apply Rmin_pos; lra|]. intros e H.
  pose proof (Rmin_l (1/2) (eps / 100)). pose proof (Rmin_r (1/2) (eps / 100)).
  pose proof (powf_three_halves (e * e) ltac:(nra)) as B. pose proof (Rle_trans _ _ _ (Rle_abs _) B) as B1. rewrite <- Rabs_Ropp in B. pose proof (Rle_trans _ _ _ (Rle_abs _) B) as B2. clear B.
  set (x := e * e) in *. assert (X : 0 < x <= e / 2) by (unfold x; nra).
  assert (X4 : x ^ 4 <= x) by (simpl; assert (x <= 1/4) by lra; assert (x * x <= 1) by nra; assert (x * (x * x) <= 1) by nra; nra).
  assert (X3 : x ^ 3 <= x) by (simpl; assert (x <= 1/4) by lra; assert (x * x <= 1) by nra; nra).
  assert (X2 : x ^ 2 <= x) by (simpl; nra).
  assert (0 <= x ^ 2 /\ 0 <= x ^ 3 /\ 0 <= x ^ 4) as (P2 & P3 & P4) by (repeat split; apply pow_le; lra).
  apply Rabs_def1; lra.
Qed.
Lemma limits_g21 : limits (eccentricity_g_21q (F := R)).
Proof.
  exists [ fun e => nth 5 (eccentricity_g_21q e) 0; fun e => nth 6 (eccentricity_g_21q e) 0;
           fun e => nth 7 (eccentricity_g_21q e) 0; fun e => nth 8 (eccentricity_g_21q e) 0;
           fun e => nth 9 (eccentricity_g_21q e) 0 ].
  split; [|reflexivity].
  repeat constructor; unfold eccentricity_g_21q; cbn [nth]; num_simpl; unfold tpow; simpl;
    rewrite ?half3; try exact tends_powf; unfold Rminus;
    (eapply tends_to; [tend|]); try ring.
Qed.

Lemma offset_mid : offset (F := R) 2 2 = 0.
Proof. unfold offset. num_simpl. ring. Qed.

Lemma planar_limit o par ce m p g : limits g ->
  tends (fun e => planar_term (with_eccentricity e o) par ce m p (g e)) (fst (love o par ce m p 0)).
Proof.
  intros [l [HL E]].
  pose (c := fun q j => let k := love o par ce m p (offset 2 q) in
      let a := alpha_pqkj 0 (offset 2 q) 0 (offset 2 j) (ob_m o) (ob_omega o) in
      cos a * fst k - sin a * snd k).
  apply tends_ext with (f := fun e => isum 0 (map (fun h => h e) l)
    (fun q gq => gq * isum 0 (map (fun h => h e) l) (fun j gj => gj * c q j))).
  - exists (1/10). split; [lra|]. intros e He.
    unfold planar_term. cbn [ob_e with_eccentricity ob_m ob_omega]. rewrite (order_small e He), (E e He), esum_isum.
    apply isum_ext. intros q x _. cbv zeta. rewrite esum_isum. reflexivity.
  - eapply tends_to.
    + apply (tends_isum2 l [0; 0; 1; 0; 0] (fun q e => isum 0 (map (fun h => h e) l) (fun j gj => gj * c q j)) 
        (fun q => isum 0 [0; 0; 1; 0; 0] (fun j gj => gj * c q j)) 0 HL).
      intros q. apply tends_isum. exact HL.
    + simpl. unfold c. rewrite offset_mid.
      replace (alpha_pqkj 0 0 0 0 (ob_m o) (ob_omega o)) with 0 by (unfold alpha_pqkj; num_simpl; ring).
      rewrite cos_0, sin_0. cbv zeta. ring.
Qed.
Lemma secular_limit o par ce m p g : limits g ->
  tends (fun e => planar_secular (with_eccentricity e o) par ce m p (g e)) (fst (love o par ce m p 0)).
Proof.
  intros [l [HL E]].
  pose (c := fun q => fst (love o par ce m p (offset 2 q))).
  apply tends_ext with (f := fun e => isum 0 (map (fun h => h e) l) (fun q g => g * (g * c q))).
  - exists (1/10). split; [lra|]. intros e He.
    unfold planar_secular. cbn [ob_e with_eccentricity]. rewrite (order_small e He), (E e He), esum_isum. reflexivity.
  -
    eapply tends_to.
    + assert (G : forall l L k, Forall2 tends l L ->
        tends (fun e => isum k (map (fun h => h e) l) (fun q g => g * (g * c q))) (isum k L (fun q g => g * (g * c q)))).
      { clear. intros l L k H. revert k. induction H; intros k; simpl; [apply tends_const|].
        apply tends_plus; [repeat apply tends_mult; try assumption; apply tends_const|apply IHForall2]. }
      apply (G l [0; 0; 1; 0; 0] 0%nat HL).
    + simpl. unfold c. rewrite offset_mid. ring.
Qed.

(** the limit of the eccentric branch *)
Lemma radial_limit c o par ce :
  tends (fun e => fst (radial_eccentric c (with_eccentricity e o) par ce))
    (c * (3/4 * fst (love o par ce 0 1 0) + 9/4 * fst (love o par ce (2/1) 0 0)))
  /\ tends (fun e => snd (radial_eccentric c (with_eccentricity e o) par ce))
    (c * (3/4 * fst (love o par ce 0 1 0) + 9/4 * fst (love o par ce (2/1) 0 0))).
Proof.
  split.
  - apply tends_ext with (f := fun e => c * (3/4 * planar_term (with_eccentricity e o) par ce 0 1 (eccentricity_g_21q e)
          + 9/4 * planar_term (with_eccentricity e o) par ce (2/1) 0 (eccentricity_g_20q e))).
    { exists 1. split; [lra|]. intros e _. rewrite radial_eccentric_sums. reflexivity. }
    apply tends_mult; [apply tends_const|]. apply tends_plus; (apply tends_mult; [apply tends_const|]).
    + apply (planar_limit o par ce 0 1 _ limits_g21).
    + apply (planar_limit o par ce (2/1) 0 _ limits_g20).
  - apply tends_ext with (f := fun e => c * (3/4 * planar_secular (with_eccentricity e o) par ce 0 1 (eccentricity_g_21q e)
          + 9/4 * planar_secular (with_eccentricity e o) par ce (2/1) 0 (eccentricity_g_20q e))).
    { exists 1. split; [lra|]. intros e _. rewrite radial_eccentric_sums. reflexivity. }
    apply tends_mult; [apply tends_const|]. apply tends_plus; (apply tends_mult; [apply tends_const|]).
    + apply (secular_limit o par ce 0 1 _ limits_g21).
    + apply (secular_limit o par ce (2/1) 0 _ limits_g20).
Qed.
Lemma radial_circular_value c o par ce :
  radial_circular (F := R) c o par ce
  = (c * (3/4 * fst (love o par ce 0 1 0) + 9/4 * snd (love o par ce (2/1) 0 0)),
     c * (3/4 * fst (love o par ce 0 1 0) + 9/4 * snd (love o par ce (2/1) 0 0))).
Proof.
  unfold radial_circular. num_simpl. destruct (love o par ce 0 1 0), (love o par ce (2/1) 0 0). cbn [fst snd].
  f_equal; field.
Qed.
(** the circular branch is the limit exactly when the two parts of the Love number coincide *)
Lemma radial_circular_limit c o par ce : c <> 0 ->
  (tends (fun e => fst (radial_eccentric c (with_eccentricity e o) par ce)) (fst (radial_circular c o par ce))
   <-> fst (love o par ce (2/1) 0 0) = snd (love o par ce (2/1) 0 0)).
Proof.
  intros Hc. rewrite radial_circular_value. cbn [fst].
  pose proof (proj1 (radial_limit c o par ce)) as L. split.
  - intros T. pose proof (tends_unique _ _ _ L T) as E. apply Rmult_eq_reg_l in E; [lra|exact Hc].
  - intros E. rewrite <- E. exact L.
Qed.

(** the orthogonal component *)
Lemma orthogonal_limit c o par ce :
  tends (fun e => fst (orthogonal_eccentric c (with_eccentricity e o) par ce)) (fst (orthogonal_circular c o par ce))
  /\ tends (fun e => snd (orthogonal_eccentric c (with_eccentricity e o) par ce)) (snd (orthogonal_circular c o par ce)).
Proof.
  destruct limits_g20 as [l [HL E]].
  assert (V : orthogonal_circular c o par ce
    = (c * (3/2 * snd (love o par ce (2/1) 0 0)), c * (3/2 * snd (love o par ce (2/1) 0 0)))).
  { unfold orthogonal_circular. num_simpl. destruct (love o par ce (2/1) 0 0). cbn [snd]. f_equal; field. }
  rewrite V. cbn [fst snd]. split.
  - pose (k := fun q j => let k := love o par ce (2/1) 0 (offset 2 q) in
      let a := alpha_pqkj 0 (offset 2 q) 0 (offset 2 j) (ob_m o) (ob_omega o) in
      sin a * fst k + cos a * snd k).
    eapply tends_ext with (f := fun e => c * isum 0 (map (fun h => h e) l)
       (fun q gq => gq * (3/2 * isum 0 (map (fun h => h e) l) (fun j gj => gj * k q j)))).
    + exists (1/10). split; [lra|]. intros e He. unfold orthogonal_eccentric. cbn [ob_e with_eccentricity ob_m ob_omega fst].
      rewrite (order_small e He), (E e He), esum_isum. num_simpl. f_equal.
      apply isum_ext. intros q x _. cbn [plus]. unfold k.
      change (love (with_eccentricity e o)) with (love o).
      destruct (love o par ce (2/1) 0 (offset 2 q)) as [re im]. rewrite esum_isum.
      change (@tcos R _) with cos. change (@tsin R _) with sin. cbn [fst snd]. cbv zeta. field.
    + apply tends_mult; [apply tends_const|]. eapply tends_to.
      * apply (tends_isum2 l [0; 0; 1; 0; 0] (fun q e => 3/2 * isum 0 (map (fun h => h e) l) (fun j gj => gj * k q j)) 
        (fun q => 3/2 * isum 0 [0; 0; 1; 0; 0] (fun j gj => gj * k q j)) 0 HL).
        intros q. apply tends_mult; [apply tends_const|]. apply tends_isum. exact HL.
      * simpl. unfold k. rewrite offset_mid.
        replace (alpha_pqkj 0 0 0 0 (ob_m o) (ob_omega o)) with 0 by (unfold alpha_pqkj; num_simpl; ring).
        rewrite cos_0, sin_0. cbv zeta. field.
  - pose (k := fun q => 3/2 * snd (love o par ce (2/1) 0 (offset 2 q))).
    eapply tends_ext with (f := fun e => c * isum 0 (map (fun h => h e) l) (fun q gq => gq * (gq * k q))).
    + exists (1/10). split; [lra|]. intros e He. unfold orthogonal_eccentric. cbn [ob_e with_eccentricity ob_m ob_omega snd].
      rewrite (order_small e He), (E e He), esum_isum. num_simpl. f_equal.
      apply isum_ext. intros q x Hx. cbn [plus]. unfold k.
      change (love (with_eccentricity e o)) with (love o).
      destruct (love o par ce (2/1) 0 (offset 2 q)) as [re im].
      rewrite (efold_only _ q (fun y => y * im) x Hx). cbn [snd]. field.
    + apply tends_mult; [apply tends_const|]. eapply tends_to.
      * assert (G : forall l L k0, Forall2 tends l L ->
        tends (fun e => isum k0 (map (fun h => h e) l) (fun q g => g * (g * k q))) (isum k0 L (fun q g => g * (g * k q)))).
        { clear. intros l L k0 H. revert k0. induction H; intros k0; simpl; [apply tends_const|].
          apply tends_plus; [repeat apply tends_mult; try assumption; apply tends_const|apply IHForall2]. }
        apply (G l [0; 0; 1; 0; 0] 0%nat HL).
      * simpl. unfold k. rewrite offset_mid. field.
Qed.
