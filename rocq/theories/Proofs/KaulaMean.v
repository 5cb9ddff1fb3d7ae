(** Mean values of the Kaula force over the mean anomaly and the argument of pericentre *)
From Coq Require Import Reals List Lra Lia Bool Arith ZArith.
From Verif Require Import Base.Num Base.Trans Base.Vec Model.Constants Model.Particle Model.Tools Model.Kaula Spec.KaulaMeanSpec
  Proofs.NumLemmas Proofs.KaulaForce Proofs.KaulaSeries.
Import ListNotations.
Open Scope R_scope.

(** ** Means *)
Lemma lim_linear c d x : derivable_pt_lim (fun y => c * y + d) x c.
Proof.
  intros eps He. exists (mkposreal 1 Rlt_0_1). intros h Hh _. cbv beta.
  replace ((c * (x + h) + d - (c * x + d)) / h - c) with 0 by (field; exact Hh). rewrite Rabs_R0. exact He.
Qed.
Lemma mean_ext f g m : (forall x, f x = g x) -> mean f m -> mean g m.
Proof. intros E (A & HA & H). exists A. split; [|exact H]. intros x. rewrite <- E. apply HA. Qed.
Lemma mean_const c : mean (fun _ => c) c.
Proof.
  exists (fun x => c * x + 0). split; [|ring]. intros x. apply lim_linear.
Qed.
Lemma mean_plus f g a b : mean f a -> mean g b -> mean (fun x => f x + g x) (a + b).
Proof.
  intros (A & HA & EA) (B & HB & EB). exists (fun x => A x + B x). split.
  - intros x. apply (derivable_pt_lim_plus A B); auto.
  - lra.
Qed.
Lemma mean_scal c f a : mean f a -> mean (fun x => c * f x) (c * a).
Proof.
  intros (A & HA & EA). exists (fun x => c * A x). split.
  - intros x. apply (derivable_pt_lim_scal A); auto.
  - replace (c * A (2 * PI) - c * A 0) with (c * (A (2 * PI) - A 0)) by ring. rewrite EA. ring.
Qed.
Lemma mean_unique f a b : mean f a -> mean f b -> a = b.
Proof.
  intros (A & HA & EA) (B & HB & EB).
  assert (D : forall x, derivable_pt_lim (fun x => A x - B x) x 0).
  { intros x. replace 0 with (f x - f x) by ring. apply (derivable_pt_lim_minus A B); auto. }
  assert (pr : derivable (fun x => A x - B x)) by (intros x; exists 0; apply D).
  assert (C := null_derivative_1 _ pr (fun x => derive_pt_eq_0 _ _ _ (pr x) (D x))).
  specialize (C (2 * PI) 0). cbv beta in C. pose proof PI_RGT_0.
  apply (Rmult_eq_reg_l (2 * PI)); lra.
Qed.
Lemma mean2_ext f g m : (forall x w, f x w = g x w) -> mean2 f m -> mean2 g m.
Proof. intros E (h & Hh & H). exists h. split; [|exact H]. intros w. apply (mean_ext (fun x => f x w)); auto. Qed.
Lemma mean2_const c : mean2 (fun _ _ => c) c.
Proof. exists (fun _ => c). split; [intros; apply mean_const|apply mean_const]. Qed.
Lemma mean2_plus f g a b : mean2 f a -> mean2 g b -> mean2 (fun x w => f x w + g x w) (a + b).
Proof.
  intros (h & Hh & H) (k & Hk & K). exists (fun w => h w + k w).
  split; [intros w; apply mean_plus; auto|apply mean_plus; auto].
Qed.
Lemma mean2_scal c f a : mean2 f a -> mean2 (fun x w => c * f x w) (c * a).
Proof. intros (h & Hh & H). exists (fun w => c * h w). split; [intros w; apply mean_scal; auto|apply mean_scal; auto]. Qed.
Lemma mean2_unique f a b : mean2 f a -> mean2 f b -> a = b.
Proof.
  intros (h & Hh & H) (k & Hk & K). apply (mean_unique h); [exact H|].
  apply (mean_ext k); [|exact K]. intros w. apply (mean_unique (fun x => f x w)); auto.
Qed.

(** ** One term *)
Lemma turn_Z z x : cos (x + 2 * IZR z * PI) = cos x /\ sin (x + 2 * IZR z * PI) = sin x.
Proof.
  destruct (Z_le_dec 0 z) as [Hz|Hz].
  - rewrite <- (Z2Nat.id z Hz), <- INR_IZR_INZ. split; [apply cos_period|apply sin_period].
  - assert (E : IZR z = - INR (Z.to_nat (- z))).
    { rewrite INR_IZR_INZ, Z2Nat.id by lia. rewrite opp_IZR. ring. }
    rewrite E. set (k := Z.to_nat (- z)).
    rewrite <- (cos_period (x + 2 * - INR k * PI) k), <- (sin_period (x + 2 * - INR k * PI) k).
    split; f_equal; ring.
Qed.
Lemma mean_turned (z : Z) d c :
  mean (fun x => turned_re (IZR z * x + d) c) (if Z.eqb z 0 then turned_re d c else 0).
Proof.
  destruct c as [re im]. destruct (Z.eqb_spec z 0) as [->|Hz].
  - apply (mean_ext (fun _ => turned_re d (re, im))); [|apply mean_const]. intros x. f_equal. ring.
  - assert (Hr : IZR z <> 0) by (apply IZR_neq; exact Hz).
    exists (fun x => / IZR z * (re * sin (IZR z * x + d) + im * cos (IZR z * x + d))). split.
    + intros x.
      assert (L : derivable_pt_lim (fun y => IZR z * y + d) x (IZR z)).
      { apply lim_linear. }
      replace (turned_re (IZR z * x + d) (re, im))
        with (/ IZR z * (re * (cos (IZR z * x + d) * IZR z) + im * (- sin (IZR z * x + d) * IZR z)))
        by (unfold turned_re; cbn [fst snd]; field; exact Hr).
      apply (derivable_pt_lim_scal (fun y => re * sin (IZR z * y + d) + im * cos (IZR z * y + d))).
      apply (derivable_pt_lim_plus (fun y => re * sin (IZR z * y + d)) (fun y => im * cos (IZR z * y + d))).
      * apply (derivable_pt_lim_scal (fun y => sin (IZR z * y + d))).
        apply (derivable_pt_lim_comp (fun y => IZR z * y + d) sin); [exact L|apply derivable_pt_lim_sin].
      * apply (derivable_pt_lim_scal (fun y => cos (IZR z * y + d))).
        apply (derivable_pt_lim_comp (fun y => IZR z * y + d) cos); [exact L|apply derivable_pt_lim_cos].
    + replace (IZR z * (2 * PI) + d) with (d + 2 * IZR z * PI) by ring.
      destruct (turn_Z z d) as [-> ->]. replace (IZR z * 0 + d) with d by ring. ring.
Qed.
Lemma mean2_turned (z1 z2 : Z) d c :
  mean2 (fun x w => turned_re (IZR z1 * x + IZR z2 * w + d) c)
    (if Z.eqb z1 0 && Z.eqb z2 0 then turned_re d c else 0).
Proof.
  exists (fun w => if Z.eqb z1 0 then turned_re (IZR z2 * w + d) c else 0). split.
  - intros w. apply (mean_ext (fun x => turned_re (IZR z1 * x + (IZR z2 * w + d)) c)).
    + intros x. f_equal. ring.
    + apply mean_turned.
  - destruct (Z.eqb z1 0); [apply mean_turned|apply mean_const].
Qed.

(** ** Sums *)
Lemma isum_sum_to {A} (d : A) l : forall k f,
  isum k l f = sum_to (length l) (fun i => f (k + i)%nat (nth i l d)).
Proof.
  assert (S1 : forall n f, sum_to (S n) f = f 0%nat + sum_to n (fun i => f (S i))).
  { induction n as [|n IH]; intros f; [simpl; ring|]. cbn [sum_to] in *. rewrite IH. ring. }
  induction l as [|x l IH]; intros k f; [reflexivity|].
  cbn [isum length]. rewrite S1, IH. cbn [nth]. rewrite Nat.add_0_r. f_equal.
  generalize (length l). intros n.
  induction n as [|n IHn]; [reflexivity|]. cbn [sum_to]. rewrite IHn. do 2 f_equal. lia.
Qed.
Lemma esum_sum_to {A} (d : A) l f : esum (F := R) l f = sum_to (length l) (fun i => f i (nth i l d)).
Proof. rewrite esum_isum, (isum_sum_to d). reflexivity. Qed.
Lemma sum_to_ext n f g : (forall i, (i < n)%nat -> f i = g i) -> sum_to n f = sum_to n g.
Proof. intros E. induction n as [|n IH]; [reflexivity|]. simpl. rewrite IH, E; auto. Qed.
Lemma sum_to_scal n c f : sum_to n (fun i => c * f i) = c * sum_to n f.
Proof. induction n as [|n IH]; simpl; [ring|]. rewrite IH. ring. Qed.
Lemma sum_to_plus n f g : sum_to n (fun i => f i + g i) = sum_to n f + sum_to n g.
Proof. induction n as [|n IH]; simpl; [ring|]. rewrite IH. ring. Qed.
Lemma sum_lin n c d f g h : (forall i, (i < n)%nat -> f i = c * g i + d * h i) ->
  sum_to n f = c * sum_to n g + d * sum_to n h.
Proof. intros E. rewrite <- !sum_to_scal, <- sum_to_plus. apply sum_to_ext. exact E. Qed.
Lemma mul_lin a c d x y z : x = c * y + d * z -> a * x = c * (a * y) + d * (a * z).
Proof. intros ->. ring. Qed.
Lemma sum_to_zero n : sum_to n (fun _ => 0) = 0.
Proof. induction n as [|n IH]; simpl; [ring|]. rewrite IH. ring. Qed.
Lemma sum_to_one n (test : nat -> bool) a f : (forall i, (i < n)%nat -> test i = Nat.eqb i a) ->
  sum_to n (fun i => if test i then f i else 0) = if Nat.ltb a n then f a else 0.
Proof.
  induction n as [|n IH]; intros T; [reflexivity|]. simpl. rewrite IH by (intros; apply T; lia). rewrite T by lia.
  destruct (Nat.ltb_spec a n), (Nat.ltb_spec a (S n)), (Nat.eqb_spec n a); subst; try lia; ring.
Qed.
Lemma mean2_sum_to n (f : nat -> R -> R -> R) m : (forall i, (i < n)%nat -> mean2 (f i) (m i)) ->
  mean2 (fun x w => sum_to n (fun i => f i x w)) (sum_to n m).
Proof.
  intros Hf. induction n as [|n IH]; [apply (mean2_const 0)|]. cbn [sum_to].
  apply mean2_plus; [apply IH; intros; apply Hf; lia|apply Hf; lia].
Qed.
Lemma mean_sum_to n (f : nat -> R -> R) m : (forall i, (i < n)%nat -> mean (f i) (m i)) ->
  mean (fun x => sum_to n (fun i => f i x)) (sum_to n m).
Proof.
  intros Hf. induction n as [|n IH]; [apply (mean_const 0)|]. cbn [sum_to].
  apply mean_plus; [apply IH; intros; apply Hf; lia|apply Hf; lia].
Qed.

(** ** Fourfold sums *)
Definition quad (n N K : nat) (a : nat -> R) (g : nat -> nat -> R) (b : nat -> R) (h : nat -> nat -> R)
    (t : nat -> nat -> nat -> nat -> R) : R :=
  sum_to n (fun p => a p * sum_to N (fun q => g p q * sum_to K (fun k => b k * sum_to N (fun j => h k j * t p q k j)))).
Lemma quad_mean n N K a g b h (t : nat -> nat -> nat -> nat -> R -> R -> R) u :
  (forall p q k j, (p < n)%nat -> (q < N)%nat -> (k < K)%nat -> (j < N)%nat -> mean2 (t p q k j) (u p q k j)) ->
  mean2 (fun x w => quad n N K a g b h (fun p q k j => t p q k j x w)) (quad n N K a g b h u).
Proof.
  intros Ht. unfold quad.
  apply (mean2_sum_to n (fun p x w => a p * sum_to N (fun q => g p q * sum_to K (fun k => b k * sum_to N (fun j => h k j * t p q k j x w))))).
  intros p Hp. apply (mean2_scal (a p) (fun x w => sum_to N (fun q => g p q * sum_to K (fun k => b k * sum_to N (fun j => h k j * t p q k j x w))))).
  apply (mean2_sum_to N (fun q x w => g p q * sum_to K (fun k => b k * sum_to N (fun j => h k j * t p q k j x w)))).
  intros q Hq. apply (mean2_scal (g p q) (fun x w => sum_to K (fun k => b k * sum_to N (fun j => h k j * t p q k j x w)))).
  apply (mean2_sum_to K (fun k x w => b k * sum_to N (fun j => h k j * t p q k j x w))).
  intros k Hk. apply (mean2_scal (b k) (fun x w => sum_to N (fun j => h k j * t p q k j x w))).
  apply (mean2_sum_to N (fun j x w => h k j * t p q k j x w)).
  intros j Hj. apply (mean2_scal (h k j) (t p q k j)). auto.
Qed.
Lemma quad_ext n N K a g b h t u :
  (forall p q k j, (p < n)%nat -> (q < N)%nat -> (k < K)%nat -> (j < N)%nat -> t p q k j = u p q k j) ->
  quad n N K a g b h t = quad n N K a g b h u.
Proof.
  intros E. unfold quad. apply sum_to_ext. intros p Hp. f_equal. apply sum_to_ext. intros q Hq. f_equal.
  apply sum_to_ext. intros k Hk. f_equal. apply sum_to_ext. intros j Hj. f_equal. auto.
Qed.
(** only one [k] and one [j] for each [p] and [q] *)
Lemma quad_pick n N K a g b h (test : nat -> nat -> nat -> nat -> bool) u kk jj :
  (forall p q k j, (p < n)%nat -> (q < N)%nat -> (k < K)%nat -> (j < N)%nat ->
     test p q k j = (Nat.eqb k (kk p) && Nat.eqb j (jj q))%bool) ->
  (forall p, (p < n)%nat -> (kk p < K)%nat) -> (forall k q, (N <= jj q)%nat -> h k (jj q) = 0) ->
  quad n N K a g b h (fun p q k j => if test p q k j then u p q else 0)
  = sum_to n (fun p => sum_to N (fun q => a p * b (kk p) * (g p q * h (kk p) (jj q)) * u p q)).
Proof.
  intros T Hk Hj. unfold quad. apply sum_to_ext. intros p Hp. rewrite <- sum_to_scal.
  apply sum_to_ext. intros q Hq.
  rewrite (sum_to_ext K _ (fun k => if Nat.eqb k (kk p) then b k * (h k (jj q) * u p q) else 0)).
  - rewrite (sum_to_one K _ (kk p)) by reflexivity.
    destruct (Nat.ltb_spec (kk p) K); [ring|]. specialize (Hk p Hp). lia.
  - intros k Hlk.
    rewrite (sum_to_ext N _ (fun j => if Nat.eqb j (jj q) then (if Nat.eqb k (kk p) then h k j * u p q else 0) else 0)).
    + rewrite (sum_to_one N _ (jj q)) by reflexivity.
      destruct (Nat.eqb k (kk p)); destruct (Nat.ltb_spec (jj q) N); try ring. rewrite Hj by assumption. ring.
    + intros j Hlj. rewrite T by assumption. destruct (Nat.eqb k (kk p)), (Nat.eqb j (jj q)); simpl; ring.
Qed.

(** ** The tables *)
Lemma order_small e : (series_order (F := R) e <= 7)%nat.
Proof. destruct (order_cases e) as [[_ ->]|[[_ ->]|[[_ ->]|[[_ ->]|[[_ ->]|[_ ->]]]]]]; lia. Qed.
Lemma width_2 e p n : (n <= 7)%nat -> (p < 3)%nat -> length (window n (nth p (eccentricity_g_2pq (F := R) e) [])) = (2 * n + 1)%nat.
Proof. intros Hn Hp. apply (window_nth n _ 0); [exact Hn|]. destruct p as [|[|[|p]]]; [reflexivity..|lia]. Qed.
Lemma width_3 e p n : (n <= 7)%nat -> (p < 4)%nat -> length (window n (nth p (eccentricity_g_3pq (F := R) e) [])) = (2 * n + 1)%nat.
Proof. intros Hn Hp. apply (window_nth n _ 0); [exact Hn|]. destruct p as [|[|[|[|p]]]]; [reflexivity..|lia]. Qed.
Lemma outside o k q : (width o <= q)%nat -> G2 o k q = 0 /\ G3 o k q = 0.
Proof.
  intros Hq. unfold width in Hq. split; apply nth_overflow; unfold window; rewrite firstn_length; lia.
Qed.
Lemma nofnat_Z k : nofnat (F := R) k = IZR (Z.of_nat k).
Proof. rewrite nofnat_R. apply INR_IZR_INZ. Qed.

(** ** The force as fourfold sums *)
Section Force.
Variables (o : orbit (F := R)) (par : kaula_params R) (ce : bool).
Let n := series_order (ob_e o).
Local Notation N := (width o).
Local Notation G2 := (G2 o).
Local Notation G3 := (G3 o).
Local Notation L := (K o par ce).
Local Notation F20 := (fun p => nth p (inclination_f_20p (F := R) (ob_obliquity o)) 0).
Local Notation F21 := (fun p => nth p (inclination_f_21p (F := R) (ob_obliquity o)) 0).
Local Notation F22 := (fun p => nth p (inclination_f_22p (F := R) (ob_obliquity o)) 0).

Lemma love_at x w : love (at_angles o x w) par ce = love o par ce.
Proof. reflexivity. Qed.
Lemma small : (n <= 7)%nat.
Proof. apply order_small. Qed.

Ltac zs := rewrite ?nofnat_Z; unfold offset; rewrite ?nofnat_Z; num_simpl;
  rewrite ?minus_IZR, ?plus_IZR, ?mult_IZR, ?minus_IZR, ?plus_IZR, ?mult_IZR, ?minus_IZR, ?plus_IZR, ?mult_IZR, ?minus_IZR, ?plus_IZR, ?mult_IZR.

Definition zeta_1 (p q k j : nat) : Z := (2 * Z.of_nat k - 2 * Z.of_nat p + Z.of_nat q - Z.of_nat j)%Z.
Definition zeta_2 (p k : nat) : Z := (2 * (Z.of_nat k - Z.of_nat p))%Z.

Lemma radial_quad m f x w : length f = 3%nat ->
  radial_sum (F := R) m f (at_angles o x w) par ce
  = quad 3 N 3 (fun p => nth p f 0) G2 (fun k => nth k f 0) G2 (fun p q k j =>
      turned_re (IZR (- zeta_1 p q k j) * x + IZR (- zeta_2 p k) * w + 0) (L m p q)).
Proof.
  intros Hf. unfold radial_sum. cbn [ob_e ob_m ob_omega at_angles]. fold n. rewrite love_at.
  rewrite (esum_sum_to 0), Hf. unfold quad. apply sum_to_ext. intros p Hp. num_simpl. f_equal.
  rewrite (esum_sum_to 0), width_2 by (apply small || exact Hp). apply sum_to_ext. intros q Hq.
  unfold K; fold n. destruct (love o par ce m (nofnat p) (offset n q)) as [re im]. cbn [fst snd]. f_equal.
  rewrite (esum_sum_to 0), Hf. apply sum_to_ext. intros k Hk. f_equal.
  rewrite (esum_sum_to 0), width_2 by (apply small || exact Hk). apply sum_to_ext. intros j Hj. f_equal.
  unfold turned_re. change (@tcos R _) with cos. change (@tsin R _) with sin.
  assert (E : alpha_pqkj (F := R) (nofnat p) (offset n q) (nofnat k) (offset n j) x w
    = IZR (- zeta_1 p q k j) * x + IZR (- zeta_2 p k) * w + 0).
  { unfold alpha_pqkj, zeta_1, zeta_2. rewrite !opp_IZR. zs. field. }
  rewrite E. reflexivity.
Qed.
Lemma phase_1 p q k j x w : phase_alpha_1 (F := R) (nofnat p) (offset n q) (nofnat k) (offset n j) x 0 w (ob_node o) 0
  = IZR (zeta_1 p q k j) * x + IZR (zeta_2 p k) * w + - ob_node o.
Proof. unfold phase_alpha_1, zeta_1, zeta_2. zs. field. Qed.
Lemma phase_2 p q k j x w : phase_alpha_2 (F := R) (nofnat p) (offset n q) (nofnat k) (offset n j) x 0 w (ob_node o) 0
  = IZR (zeta_1 p q k j) * x + IZR (zeta_2 p k) * w + ob_node o.
Proof. unfold phase_alpha_2, zeta_1, zeta_2. zs. field. Qed.
Definition zeta_b1 (p q k j : nat) : Z := (4 - 2 * Z.of_nat p - 2 * Z.of_nat k + Z.of_nat q - Z.of_nat j)%Z.
Definition zeta_b2 (p k : nat) : Z := (4 - 2 * (Z.of_nat k + Z.of_nat p))%Z.
Lemma phase_b p q k j x w : phase_beta (F := R) (nofnat p) (offset n q) (nofnat k) (offset n j) x 0 w (ob_node o) 0
  = IZR (zeta_b1 p q k j) * x + IZR (zeta_b2 p k) * w + - ob_node o.
Proof. unfold phase_beta, zeta_b1, zeta_b2. zs. field. Qed.
Definition zeta_31 (p q k j : nat) : Z := (2 * Z.of_nat k - 2 * Z.of_nat p + Z.of_nat q - Z.of_nat j - 1)%Z.
Definition zeta_32 (p k : nat) : Z := (2 * (Z.of_nat k - Z.of_nat p - 1))%Z.
Lemma phase_3 p q k j x w : phase_alpha_3 (F := R) (nofnat p) (offset n q) (nofnat k) (offset n j) x 0 w (ob_node o) 0
  = IZR (zeta_31 p q k j) * x + IZR (zeta_32 p k) * w + - ob_node o.
Proof. unfold phase_alpha_3, zeta_31, zeta_32. zs. field. Qed.
Lemma phase_4 p q k j x w : phase_alpha_4 (F := R) (nofnat p) (offset n q) (nofnat k) (offset n j) x 0 w (ob_node o) 0
  = IZR (zeta_31 p q k j) * x + IZR (zeta_32 p k) * w + ob_node o.
Proof. unfold phase_alpha_4, zeta_31, zeta_32. zs. field. Qed.

Lemma normal_0_quad x w :
  normal_m0 (F := R) (at_angles o x w) par ce false
  = 1/2 * quad 3 N 3 F20 G2 F21 G2 (fun p q k j =>
      turned_re (IZR (zeta_1 p q k j) * x + IZR (zeta_2 p k) * w + - ob_node o) (L 0 p q))
  + 3/2 * quad 3 N 3 F20 G2 F21 G2 (fun p q k j =>
      turned_re (IZR (zeta_b1 p q k j) * x + IZR (zeta_b2 p k) * w + - ob_node o) (L 0 p q)).
Proof.
  unfold normal_m0. cbn [ob_e ob_m ob_omega ob_node ob_obliquity at_angles]. fold n. rewrite love_at.
  rewrite (esum_sum_to 0). change (length (inclination_f_20p (ob_obliquity o))) with 3%nat. unfold quad.
  apply sum_lin. intros p Hp. num_simpl. apply mul_lin.
  rewrite (esum_sum_to 0), width_2 by (apply small || exact Hp). apply sum_lin. intros q Hq.
  unfold K; fold n. destruct (love o par ce 0 (nofnat p) (offset n q)) as [re im]. cbn [fst snd]. apply mul_lin.
  rewrite (esum_sum_to 0). change (length (inclination_f_21p (ob_obliquity o))) with 3%nat. apply sum_lin. intros k Hk. apply mul_lin.
  rewrite (esum_sum_to 0), width_2 by (apply small || exact Hk). apply sum_lin. intros j Hj. apply mul_lin.
  rewrite phase_1, phase_b. unfold turned_re, KaulaMeanSpec.G2; fold n. cbn [fst snd]. change (@tcos R _) with cos. change (@tsin R _) with sin. ring.
Qed.
Lemma normal_1_quad x w :
  normal_m1 (F := R) (at_angles o x w) par ce false
  = 1/2 * quad 3 N 3 F21 G2 F22 G2 (fun p q k j =>
      turned_re (IZR (zeta_1 p q k j) * x + IZR (zeta_2 p k) * w + - ob_node o) (L 1 p q))
  + - (3) * quad 3 N 3 F21 G2 F20 G2 (fun p q k j =>
      turned_re (IZR (zeta_1 p q k j) * x + IZR (zeta_2 p k) * w + ob_node o) (L 1 p q)).
Proof.
  unfold normal_m1. cbn [ob_e ob_m ob_omega ob_node ob_obliquity at_angles]. fold n. rewrite love_at.
  rewrite (esum_sum_to 0). change (length (inclination_f_21p (ob_obliquity o))) with 3%nat. unfold quad.
  apply sum_lin. intros p Hp. num_simpl. apply mul_lin.
  rewrite (esum_sum_to 0), width_2 by (apply small || exact Hp). apply sum_lin. intros q Hq.
  unfold K; fold n. destruct (love o par ce 1 (nofnat p) (offset n q)) as [re im]. cbn [fst snd]. apply mul_lin.
  match goal with |- _ * ?a - _ * ?b = _ * ?c + _ * ?d => assert (E : a = c /\ b = d); [|destruct E as [-> ->]; field] end.
  split; rewrite (esum_sum_to (0, 0));
    change (length (combine (inclination_f_22p (ob_obliquity o)) (inclination_f_20p (ob_obliquity o)))) with 3%nat;
    apply sum_to_ext; intros k Hk; rewrite combine_nth by reflexivity; cbn [fst snd]; f_equal;
    rewrite (esum_sum_to 0), width_2 by (apply small || exact Hk); apply sum_to_ext; intros j Hj;
    rewrite ?phase_1, ?phase_2; reflexivity.
Qed.
Lemma normal_2_quad x w :
  normal_m2 (F := R) (at_angles o x w) par ce false
  = quad 3 N 3 F22 G2 F21 G2 (fun p q k j =>
      turned_re (IZR (zeta_1 p q k j) * x + IZR (zeta_2 p k) * w + ob_node o) (L (2/1) p q)).
Proof.
  unfold normal_m2. cbn [ob_e ob_m ob_omega ob_node ob_obliquity at_angles]. fold n. rewrite love_at.
  rewrite (esum_sum_to 0). change (length (inclination_f_22p (ob_obliquity o))) with 3%nat. unfold quad.
  apply sum_to_ext. intros p Hp. num_simpl. f_equal.
  rewrite (esum_sum_to 0), width_2 by (apply small || exact Hp). apply sum_to_ext. intros q Hq.
  unfold K; fold n. destruct (love o par ce (2/1) (nofnat p) (offset n q)) as [re im]. cbn [fst snd]. f_equal.
  rewrite (esum_sum_to 0). change (length (inclination_f_21p (ob_obliquity o))) with 3%nat. apply sum_to_ext. intros k Hk. f_equal.
  rewrite (esum_sum_to 0), width_2 by (apply small || exact Hk). apply sum_to_ext. intros j Hj.
  rewrite phase_2. reflexivity.
Qed.
Lemma efold_sin (t : nat -> R) re im (l : list R) :
  efold (fun acc j g => acc + g * (tsin (t j) * re - tcos (t j) * im)) l 0
  = sum_to (length l) (fun j => nth j l 0 * (sin (t j) * re - cos (t j) * im)).
Proof. apply (esum_sum_to 0 l (fun j g => g * (sin (t j) * re - cos (t j) * im))). Qed.
Lemma orthogonal_quad m f fa fb weigh c1 c2 x w : (forall a b, weigh a b = c1 * a + c2 * b) ->
  length f = 3%nat -> length fa = 4%nat -> length fb = 4%nat ->
  orthogonal_sum (F := R) m f fa fb weigh (at_angles o x w) par ce false
  = c1 * quad 3 N 4 (fun p => nth p f 0) G2 (fun k => nth k fa 0) G3 (fun p q k j =>
      turned_re (IZR (zeta_31 p q k j) * x + IZR (zeta_32 p k) * w + - ob_node o) (- snd (L m p q), - fst (L m p q)))
  + c2 * quad 3 N 4 (fun p => nth p f 0) G2 (fun k => nth k fb 0) G3 (fun p q k j =>
      turned_re (IZR (zeta_31 p q k j) * x + IZR (zeta_32 p k) * w + ob_node o) (- snd (L m p q), - fst (L m p q))).
Proof.
  intros W Hf Ha Hb.
  unfold orthogonal_sum. cbn [ob_e ob_m ob_omega ob_node ob_obliquity at_angles]. fold n. rewrite love_at.
  rewrite (esum_sum_to 0), Hf. unfold quad.
  apply sum_lin. intros p Hp. num_simpl. apply mul_lin.
  rewrite (esum_sum_to 0), width_2 by (apply small || exact Hp). apply sum_lin. intros q Hq.
  unfold K; fold n. destruct (love o par ce m (nofnat p) (offset n q)) as [re im]. cbn [fst snd]. apply mul_lin.
  rewrite W.
  match goal with |- _ * ?a + _ * ?b = _ * ?c + _ * ?d => assert (E : a = c /\ b = d); [|destruct E as [-> ->]; reflexivity] end.
  split; rewrite (esum_sum_to (0, 0)), combine_length, Ha, Hb; cbn [Nat.min];
    apply sum_to_ext; intros k Hk; rewrite combine_nth by congruence; cbn [fst snd]; f_equal;
    rewrite efold_sin, width_3 by (apply small || exact Hk); apply sum_to_ext; intros j Hj; f_equal;
    rewrite ?phase_3, ?phase_4; unfold turned_re; cbn [fst snd]; ring.
Qed.

(** ** Their means *)
Lemma one_mean K f h b HH z1 z2 d c kk jj :
  (forall p q k j, (p < 3)%nat -> (q < N)%nat -> (k < K)%nat -> (j < N)%nat ->
     (Z.eqb (z1 p q k j) 0 && Z.eqb (z2 p k) 0)%bool = (Nat.eqb k (kk p) && Nat.eqb j (jj q))%bool) ->
  (forall p, (p < 3)%nat -> (kk p < K)%nat) -> (forall k q, (N <= jj q)%nat -> HH k (jj q) = 0) ->
  mean2 (fun x w => quad 3 N K f h b HH (fun p q k j =>
      turned_re (IZR (z1 p q k j) * x + IZR (z2 p k) * w + d) (c p q)))
    (sum_to 3 (fun p => sum_to N (fun q => f p * b (kk p) * (h p q * HH (kk p) (jj q)) * turned_re d (c p q)))).
Proof.
  intros T Hk Hj. rewrite <- (quad_pick 3 N K f h b HH _ (fun p q => turned_re d (c p q)) kk jj T Hk Hj).
  apply (quad_mean 3 N K f h b HH (fun p q k j x w => turned_re (IZR (z1 p q k j) * x + IZR (z2 p k) * w + d) (c p q))).
  intros. apply mean2_turned.
Qed.
Ltac decide_terms :=
  intros; unfold zeta_1, zeta_2, zeta_b1, zeta_b2, zeta_31, zeta_32;
  repeat match goal with
  | |- context [Z.eqb ?a ?b] => destruct (Z.eqb_spec a b)
  | |- context [Nat.eqb ?a ?b] => destruct (Nat.eqb_spec a b)
  end; try reflexivity; exfalso; lia.

Lemma radial_mean m f : length f = 3%nat ->
  mean2 (fun x w => radial_sum (F := R) m f (at_angles o x w) par ce) (radial_sum_secular (F := R) m f o par ce).
Proof.
  intros Hf.
  apply (mean2_ext (fun x w => quad 3 N 3 (fun p => nth p f 0) G2 (fun k => nth k f 0) G2 (fun p q k j =>
      turned_re (IZR (- zeta_1 p q k j) * x + IZR (- zeta_2 p k) * w + 0) (L m p q)))).
  { intros x w. symmetry. apply radial_quad. exact Hf. }
  assert (E : radial_sum_secular (F := R) m f o par ce
    = sum_to 3 (fun p => sum_to N (fun q => nth p f 0 * nth p f 0 * (G2 p q * G2 p q) * turned_re 0 (L m p q)))).
  { unfold radial_sum_secular. fold n. rewrite (esum_sum_to 0), Hf. apply sum_to_ext. intros p Hp.
    rewrite (esum_sum_to 0), width_2 by (apply small || exact Hp). rewrite <- sum_to_scal. apply sum_to_ext. intros q Hq.
    unfold K; fold n. destruct (love o par ce m (nofnat p) (offset n q)) as [re im]. cbn [fst snd].
    unfold turned_re. cbn [fst snd]. rewrite cos_0, sin_0. unfold KaulaMeanSpec.G2; fold n. cbn [npow]. num_simpl. ring. }
  rewrite E.
  apply (one_mean 3 (fun p => nth p f 0) G2 (fun k => nth k f 0) G2 (fun p q k j => (- zeta_1 p q k j)%Z) (fun p k => (- zeta_2 p k)%Z)
    0 (fun p q => L m p q) (fun p => p) (fun q => q)).
  - decide_terms.
  - auto.
  - intros k q Hq. apply (outside o k q Hq).
Qed.
Definition normal_0_mean : R :=
  sum_to 3 (fun p => sum_to N (fun q => F20 p * (1/2 * F21 p * G2 p q + 3/2 * F21 (2 - p)%nat * G2 (2 - p)%nat q) * G2 p q
    * turned_re (- ob_node o) (L 0 p q))).
Definition normal_1_mean : R :=
  sum_to 3 (fun p => sum_to N (fun q => F21 p * (1/2 * F22 p * turned_re (- ob_node o) (L 1 p q)
    - 3 * F20 p * turned_re (ob_node o) (L 1 p q)) * G2 p q ^ 2)).
Definition normal_2_mean : R :=
  sum_to 3 (fun p => sum_to N (fun q => F22 p * F21 p * G2 p q ^ 2 * turned_re (ob_node o) (L (2/1) p q))).
Lemma two_sums n1 n2 c d f g : c * sum_to n1 (fun p => sum_to n2 (fun q => f p q)) + d * sum_to n1 (fun p => sum_to n2 (fun q => g p q))
  = sum_to n1 (fun p => sum_to n2 (fun q => c * f p q + d * g p q)).
Proof.
  symmetry. apply sum_lin. intros p _. apply sum_lin. intros q _. reflexivity.
Qed.
Lemma normal_0 : mean2 (fun x w => normal_m0 (F := R) (at_angles o x w) par ce false) normal_0_mean.
Proof.
  eapply mean2_ext; [intros x w; symmetry; apply normal_0_quad|].
  replace normal_0_mean with
    (1/2 * sum_to 3 (fun p => sum_to N (fun q => F20 p * F21 p * (G2 p q * G2 p q) * turned_re (- ob_node o) (L 0 p q)))
     + 3/2 * sum_to 3 (fun p => sum_to N (fun q => F20 p * F21 (2 - p)%nat * (G2 p q * G2 (2 - p)%nat q) * turned_re (- ob_node o) (L 0 p q))))
    by (rewrite two_sums; apply sum_to_ext; intros p _; apply sum_to_ext; intros q _; ring).
  apply mean2_plus; apply mean2_scal.
  - apply (one_mean 3 F20 G2 F21 G2 zeta_1 zeta_2 (- ob_node o) (fun p q => L 0 p q) (fun p => p) (fun q => q));
      [decide_terms|auto|intros k q Hq; apply (outside o k _ Hq)].
  - apply (one_mean 3 F20 G2 F21 G2 zeta_b1 zeta_b2 (- ob_node o) (fun p q => L 0 p q) (fun p => (2 - p)%nat) (fun q => q));
      [decide_terms|intros; lia|intros k q Hq; apply (outside o k _ Hq)].
Qed.
Lemma normal_1 : mean2 (fun x w => normal_m1 (F := R) (at_angles o x w) par ce false) normal_1_mean.
Proof.
  eapply mean2_ext; [intros x w; symmetry; apply normal_1_quad|].
  replace normal_1_mean with
    (1/2 * sum_to 3 (fun p => sum_to N (fun q => F21 p * F22 p * (G2 p q * G2 p q) * turned_re (- ob_node o) (L 1 p q)))
     + - (3) * sum_to 3 (fun p => sum_to N (fun q => F21 p * F20 p * (G2 p q * G2 p q) * turned_re (ob_node o) (L 1 p q))))
    by (rewrite two_sums; apply sum_to_ext; intros p _; apply sum_to_ext; intros q _; ring).
  apply mean2_plus; apply mean2_scal.
  - apply (one_mean 3 F21 G2 F22 G2 zeta_1 zeta_2 (- ob_node o) (fun p q => L 1 p q) (fun p => p) (fun q => q));
      [decide_terms|auto|intros k q Hq; apply (outside o k _ Hq)].
  - apply (one_mean 3 F21 G2 F20 G2 zeta_1 zeta_2 (ob_node o) (fun p q => L 1 p q) (fun p => p) (fun q => q));
      [decide_terms|auto|intros k q Hq; apply (outside o k _ Hq)].
Qed.
Lemma normal_2 : mean2 (fun x w => normal_m2 (F := R) (at_angles o x w) par ce false) normal_2_mean.
Proof.
  eapply mean2_ext; [intros x w; symmetry; apply normal_2_quad|].
  replace normal_2_mean with
    (sum_to 3 (fun p => sum_to N (fun q => F22 p * F21 p * (G2 p q * G2 p q) * turned_re (ob_node o) (L (2/1) p q))))
    by (apply sum_to_ext; intros p _; apply sum_to_ext; intros q _; ring).
  apply (one_mean 3 F22 G2 F21 G2 zeta_1 zeta_2 (ob_node o) (fun p q => L (2/1) p q) (fun p => p) (fun q => q));
    [decide_terms|auto|intros k q Hq; apply (outside o k _ Hq)].
Qed.
Definition orthogonal_mean (m : R) (f fa fb : list R) (c1 c2 : R) : R :=
  sum_to 3 (fun p => sum_to N (fun q => nth p f 0 * G2 p q * G3 (S p) (S q)
    * (c1 * nth (S p) fa 0 * - turned_im (ob_node o) (L m p q)
       + c2 * nth (S p) fb 0 * turned_im (ob_node o) (fst (L m p q), - snd (L m p q))))).
Lemma orthogonal_0 m f fa fb weigh c1 c2 : (forall a b, weigh a b = c1 * a + c2 * b) ->
  length f = 3%nat -> length fa = 4%nat -> length fb = 4%nat ->
  mean2 (fun x w => orthogonal_sum (F := R) m f fa fb weigh (at_angles o x w) par ce false) (orthogonal_mean m f fa fb c1 c2).
Proof.
  intros W Hf Ha Hb.
  eapply mean2_ext; [intros x w; symmetry; apply (orthogonal_quad m f fa fb weigh c1 c2); assumption|].
  replace (orthogonal_mean m f fa fb c1 c2) with
    (c1 * sum_to 3 (fun p => sum_to N (fun q => nth p f 0 * nth (S p) fa 0 * (G2 p q * G3 (S p) (S q)) * turned_re (- ob_node o) (- snd (L m p q), - fst (L m p q))))
     + c2 * sum_to 3 (fun p => sum_to N (fun q => nth p f 0 * nth (S p) fb 0 * (G2 p q * G3 (S p) (S q)) * turned_re (ob_node o) (- snd (L m p q), - fst (L m p q))))).
  2:{ rewrite two_sums. apply sum_to_ext; intros p _; apply sum_to_ext; intros q _.
      unfold turned_re, turned_im. cbn [fst snd]. rewrite cos_neg, sin_neg. ring. }
  apply mean2_plus; apply mean2_scal.
  - apply (one_mean 4 (fun p => nth p f 0) G2 (fun k => nth k fa 0) G3 zeta_31 zeta_32 (- ob_node o) (fun p q => (- snd (L m p q), - fst (L m p q))) S S);
      [decide_terms|intros; lia|intros k q Hq; apply (outside o k _ Hq)].
  - apply (one_mean 4 (fun p => nth p f 0) G2 (fun k => nth k fb 0) G3 zeta_31 zeta_32 (ob_node o) (fun p q => (- snd (L m p q), - fst (L m p q))) S S);
      [decide_terms|intros; lia|intros k q Hq; apply (outside o k _ Hq)].
Qed.
End Force.

(** ** Coplanar orbits *)
Lemma isum_only l (f : R -> R) q : (q < length l)%nat ->
  efold (fun acc j y => if Nat.eqb q j then acc + f y else acc) l 0 = f (nth q l 0).
Proof. intros Hq. apply efold_only. apply nth_error_nth'. exact Hq. Qed.
Section Planar.
Variables (o : orbit (F := R)) (par : kaula_params R) (ce : bool) (w : R).
Let n := series_order (ob_e o).
Lemma planar_mean m p g : length g = 15%nat ->
  mean (fun x => planar_term (at_angles o x w) par ce m p g) (planar_secular o par ce m p g).
Proof.
  intros Hg. destruct (window_nth n g 0 (order_small _) Hg) as [W _].
  apply (mean_ext (fun x => sum_to (2 * n + 1) (fun q => nth q (window n g) 0 * sum_to (2 * n + 1) (fun j =>
    nth j (window n g) 0 * turned_re (IZR (Z.of_nat j - Z.of_nat q) * x + 0) (love o par ce m p (offset n q)))))).
  { intros x. unfold planar_term. cbn [ob_e ob_m ob_omega at_angles]. fold n. rewrite love_at.
    rewrite (esum_sum_to 0), W. apply sum_to_ext. intros q _. f_equal. rewrite (esum_sum_to 0), W. apply sum_to_ext.
    intros j _. f_equal. unfold turned_re.
    replace (alpha_pqkj (F := R) 0 (offset n q) 0 (offset n j) x w) with (IZR (Z.of_nat j - Z.of_nat q) * x + 0); [reflexivity|].
    unfold alpha_pqkj, offset. rewrite !nofnat_Z. num_simpl. rewrite minus_IZR. field. }
  unfold planar_secular. fold n. rewrite (esum_sum_to 0), W.
  apply (mean_sum_to (2 * n + 1) (fun q x => nth q (window n g) 0 * sum_to (2 * n + 1) (fun j =>
    nth j (window n g) 0 * turned_re (IZR (Z.of_nat j - Z.of_nat q) * x + 0) (love o par ce m p (offset n q))))).
  intros q Hq. apply mean_scal.
  replace (nth q (window n g) 0 * fst (love o par ce m p (offset n q)))
    with (sum_to (2 * n + 1) (fun j => nth j (window n g) 0 * (if Z.eqb (Z.of_nat j - Z.of_nat q) 0 then turned_re 0 (love o par ce m p (offset n q)) else 0))).
  - apply (mean_sum_to (2 * n + 1) (fun j x => nth j (window n g) 0 * turned_re (IZR (Z.of_nat j - Z.of_nat q) * x + 0) (love o par ce m p (offset n q)))).
    intros j _. apply mean_scal. apply mean_turned.
  - rewrite (sum_to_ext _ _ (fun j => if Nat.eqb j q then nth j (window n g) 0 * turned_re 0 (love o par ce m p (offset n q)) else 0)).
    + rewrite (sum_to_one _ _ q) by reflexivity. destruct (Nat.ltb_spec q (2 * n + 1)); [|lia].
      unfold turned_re. rewrite cos_0, sin_0. ring.
    + intros j _. destruct (Z.eqb_spec (Z.of_nat j - Z.of_nat q) 0), (Nat.eqb_spec j q); try lia; ring.
Qed.
Lemma eccentric_mean c : mean (fun x => fst (radial_eccentric c (at_angles o x w) par ce)) (snd (radial_eccentric c o par ce)).
Proof.
  rewrite radial_eccentric_sums. cbn [snd].
  apply (mean_ext (fun x => c * (3/4 * planar_term (at_angles o x w) par ce 0 1 (eccentricity_g_21q (ob_e o))
          + 9/4 * planar_term (at_angles o x w) par ce (2/1) 0 (eccentricity_g_20q (ob_e o))))).
  { intros x. rewrite radial_eccentric_sums. reflexivity. }
  apply mean_scal, mean_plus; apply mean_scal; apply planar_mean; reflexivity.
Qed.
Lemma eccentric_orthogonal_mean c :
  mean (fun x => fst (orthogonal_eccentric c (at_angles o x w) par ce)) (snd (orthogonal_eccentric c o par ce)).
Proof.
  set (g := eccentricity_g_20q (F := R) (ob_e o)).
  assert (Hg : length g = 15%nat) by reflexivity. destruct (window_nth n g 0 (order_small _) Hg) as [W _].
  apply (mean_ext (fun x => c * (sum_to (2 * n + 1) (fun q => (nth q (window n g) 0 * (3/2)) * sum_to (2 * n + 1) (fun j =>
    nth j (window n g) 0 * turned_re (IZR (Z.of_nat j - Z.of_nat q) * x + 0)
      (snd (love o par ce (2/1) 0 (offset n q)), - fst (love o par ce (2/1) 0 (offset n q)))))))).
  { intros x. unfold orthogonal_eccentric. cbn [fst ob_e ob_m ob_omega at_angles]. fold n g. rewrite love_at. num_simpl. f_equal.
    rewrite (esum_sum_to 0), W. apply sum_to_ext. intros q _.
    destruct (love o par ce (2/1) 0 (offset n q)) as [re im]. cbn [fst snd].
    replace (3 / 1 / (2 / 1)) with (3 / 2) by field. f_equal. rewrite (esum_sum_to 0), W. apply sum_to_ext.
    intros j _. f_equal. unfold turned_re. cbn [fst snd].
    replace (alpha_pqkj (F := R) 0 (offset n q) 0 (offset n j) x w) with (IZR (Z.of_nat j - Z.of_nat q) * x + 0).
    - change (@tcos R _) with cos. change (@tsin R _) with sin. ring.
    - unfold alpha_pqkj, offset. rewrite !nofnat_Z. num_simpl. rewrite minus_IZR. field. }
  replace (snd (orthogonal_eccentric c o par ce)) with (c * sum_to (2 * n + 1) (fun q => (nth q (window n g) 0 * (3/2))
    * (nth q (window n g) 0 * snd (love o par ce (2/1) 0 (offset n q))))).
  2:{ unfold orthogonal_eccentric. cbn [snd]. fold n g. num_simpl. f_equal. rewrite (esum_sum_to 0), W. apply sum_to_ext. intros q Hq.
    destruct (love o par ce (2/1) 0 (offset n q)) as [re im]. cbn [fst snd].
    replace (3 / 1 / (2 / 1)) with (3 / 2) by field. f_equal.
    rewrite (isum_only (window n g) (fun y => y * im)) by (rewrite W; exact Hq). reflexivity. }
  apply mean_scal.
  apply (mean_sum_to (2 * n + 1) (fun q x => (nth q (window n g) 0 * (3/2)) * sum_to (2 * n + 1) (fun j =>
    nth j (window n g) 0 * turned_re (IZR (Z.of_nat j - Z.of_nat q) * x + 0)
      (snd (love o par ce (2/1) 0 (offset n q)), - fst (love o par ce (2/1) 0 (offset n q)))))).
  intros q Hq. apply mean_scal. set (cc := (snd (love o par ce (2/1) 0 (offset n q)), - fst (love o par ce (2/1) 0 (offset n q)))).
  replace (nth q (window n g) 0 * snd (love o par ce (2/1) 0 (offset n q)))
    with (sum_to (2 * n + 1) (fun j => nth j (window n g) 0 * (if Z.eqb (Z.of_nat j - Z.of_nat q) 0 then turned_re 0 cc else 0))).
  - apply (mean_sum_to (2 * n + 1) (fun j x => nth j (window n g) 0 * turned_re (IZR (Z.of_nat j - Z.of_nat q) * x + 0) cc)).
    intros j _. apply mean_scal. apply mean_turned.
  - rewrite (sum_to_ext _ _ (fun j => if Nat.eqb j q then nth j (window n g) 0 * turned_re 0 cc else 0)).
    + rewrite (sum_to_one _ _ q) by reflexivity. destruct (Nat.ltb_spec q (2 * n + 1)); [|lia].
      unfold turned_re, cc. cbn [fst snd]. rewrite cos_0, sin_0. ring.
    + intros j _. destruct (Z.eqb_spec (Z.of_nat j - Z.of_nat q) 0), (Nat.eqb_spec j q); try lia; ring.
Qed.
End Planar.

(** ** The components *)
Lemma radial_planar_mean host p o ce par w :
  mean (fun x => fst (radial_planar (F := R) host p (at_angles o x w) ce par)) (snd (radial_planar (F := R) host p o ce par)).
Proof.
  unfold radial_planar. cbn [ob_e ob_a at_angles]. destruct (ob_e o =? n0)%num; [|apply eccentric_mean].
  eapply mean_ext; [|apply mean_const]. intros x. unfold radial_circular. rewrite !love_at.
  destruct (love o par ce n0 n1 n0), (love o par ce _ n0 n0). reflexivity.
Qed.
Lemma orthogonal_planar_mean host p o ce par w :
  mean (fun x => fst (orthogonal_planar (F := R) host p (at_angles o x w) ce par)) (snd (orthogonal_planar (F := R) host p o ce par)).
Proof.
  unfold orthogonal_planar. cbn [ob_e ob_a at_angles]. destruct (ob_e o =? n0)%num; [|apply eccentric_orthogonal_mean].
  eapply mean_ext; [|apply mean_const]. intros x. unfold orthogonal_circular. rewrite !love_at.
  destruct (love o par ce _ n0 n0). reflexivity.
Qed.
Lemma mean2_const_mul c f m : mean2 f m -> mean2 (fun x w => f x w * c) (m * c).
Proof. intros H. rewrite (Rmult_comm m). apply (mean2_ext (fun x w => c * f x w)); [intros; ring|]. apply mean2_scal, H. Qed.
Lemma radial_inclined_mean host p o ce par :
  mean2 (fun x w => fst (radial_inclined (F := R) host p (at_angles o x w) ce par)) (snd (radial_inclined (F := R) host p o ce par)).
Proof.
  unfold radial_inclined, radial_3d. cbn [ob_a ob_obliquity at_angles fst snd]. num_simpl. apply mean2_const_mul.
  apply mean2_plus; [apply mean2_plus|]; [|apply mean2_scal..]; apply radial_mean; reflexivity.
Qed.
Lemma normal_inclined_mean host p o ce par :
  mean2 (fun x w => fst (normal_inclined (F := R) host p (at_angles o x w) ce par))
    ((G * (if ce then npow (p_mass p) 2 else npow (p_mass host) 2) * (if ce then npow (p_radius host) 5 else npow (p_radius p) 5))
      / (npow (ob_a o) 6 * (if ce then p_hdist host else p_hdist p)) * normal_constant o par ce).
Proof.
  unfold normal_inclined. cbn [ob_a at_angles fst snd]. num_simpl. apply mean2_scal.
  replace (normal_constant o par ce) with (normal_0_mean o par ce + 1 / (3 / 1) * normal_1_mean o par ce + - (1 / (6 / 1)) * normal_2_mean o par ce).
  - apply mean2_plus; [apply mean2_plus|]; [|apply mean2_scal..]; [apply normal_0|apply normal_1|apply normal_2].
  - unfold normal_constant, normal_2_mean. replace (2 / 1) with 2 by field.
    match goal with |- ?a + _ * ?b + _ * ?c = ?a' + _ * ?b' - _ * ?c' => change a' with a; change b' with b; change c' with c end.
    generalize (normal_0_mean o par ce) (normal_1_mean o par ce). intros u v.
    match goal with |- _ = _ + _ - _ * ?c => generalize c end. intros t. field.
Qed.
Lemma orthogonal_inclined_mean host p o ce par :
  mean2 (fun x w => fst (orthogonal_inclined (F := R) host p (at_angles o x w) ce par))
    (- raised_by (F := R) host p ce / npow (ob_a o) 7 * orthogonal_constant o par ce).
Proof.
  unfold orthogonal_inclined, orthogonal_3d. cbn [ob_a ob_obliquity at_angles fst snd]. num_simpl. apply mean2_scal.
  replace (orthogonal_constant o par ce) with
    (- (4 / 1) / sqrt (15 / 1) * orthogonal_mean o par ce 1 (inclination_f_21p (ob_obliquity o)) (inclination_f_32p (ob_obliquity o)) (inclination_f_30p (ob_obliquity o)) (1 / (6 / 1)) 1
     + - (5 / 1) / (48 / 1 * sqrt (6 / 1)) * orthogonal_mean o par ce (2 / 1) (inclination_f_22p (ob_obliquity o)) (inclination_f_33p (ob_obliquity o)) (inclination_f_31p (ob_obliquity o)) 1 (2 / 1)).
  - apply mean2_plus; apply mean2_scal; apply orthogonal_0; (reflexivity || intros; num_simpl; ring).
  - unfold orthogonal_constant, orthogonal_mean, F2, F3. 
    replace (2 / 1) with 2 by field. replace (15 / 1) with 15 by field. replace (6 / 1) with 6 by field. replace (4 / 1) with 4 by field.
    replace (5 / 1) with 5 by field. replace (48 / 1) with 48 by field. unfold Rminus.
    replace (- (5 / (48 * sqrt 6))) with (- (5) / (48 * sqrt 6)) by (unfold Rdiv; ring).
    match goal with |- _ * ?a + ?k * ?b = _ * ?c + ?d => replace (d) with (k * b); [replace a with c; [reflexivity|]|] end.
    + apply sum_to_ext; intros; apply sum_to_ext; intros. ring.
    + match goal with |- ?k * ?a = - (?l * ?b) => replace b with a; [unfold Rdiv; ring|] end.
      apply sum_to_ext; intros; apply sum_to_ext; intros. ring.
Qed.

(** ** From the elements *)
Lemma orbit_at host p els ce x w :
  kaula_orbit (F := R) host p (with_angles els x w) ce = at_angles (kaula_orbit (F := R) host p els ce) x w.
Proof. unfold kaula_orbit, with_angles, at_angles. cbn. f_equal. num_simpl. ring. Qed.
Lemma mean_mean2 f m : (forall w, mean (fun x => f x w) m) -> mean2 f m.
Proof. intros H. exists (fun _ => m). split; [exact H|apply mean_const]. Qed.
Lemma kaula_radial_mean host p els ce par :
  mean2 (fun x w => fst (kaula_radial (F := R) host p (with_angles els x w) ce par)) (snd (kaula_radial (F := R) host p els ce par)).
Proof.
  unfold kaula_radial. eapply mean2_ext; [intros x w; rewrite orbit_at; reflexivity|].
  set (o := kaula_orbit (F := R) host p els ce). cbn [ob_obliquity at_angles].
  destruct (ob_obliquity o <=? _)%num.
  - apply (mean_mean2 (fun x w => fst (radial_planar (F := R) host p (at_angles o x w) ce par))). intros w. apply radial_planar_mean.
  - apply radial_inclined_mean.
Qed.
Lemma kaula_orthogonal_mean host p els ce par w : ob_obliquity (kaula_orbit (F := R) host p els ce) <= 1 / 100000000 ->
  mean (fun x => fst (kaula_orthogonal (F := R) host p (with_angles els x w) ce par)) (snd (kaula_orthogonal (F := R) host p els ce par)).
Proof.
  intros Ho. unfold kaula_orthogonal. eapply mean_ext; [intros x; rewrite orbit_at; reflexivity|].
  set (o := kaula_orbit (F := R) host p els ce) in *. cbn [ob_obliquity at_angles]. num_simpl.
  rewrite (proj2 (Rleb_true _ _)) by exact Ho. apply orthogonal_planar_mean.
Qed.
