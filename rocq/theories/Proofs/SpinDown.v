(** The wind slows every star down along the closed form of [Spec/WindSpec.v] *)
From Coquelicot Require Import Coquelicot.
From Coq Require Import Reals Lra Psatz List Bool.
From Verif Require Import Base.Num Base.Vec Model.Constants Model.Particle Model.Wind
  Proofs.NumLemmas Proofs.VecLemmas Proofs.DiskProofs Spec.EffectsSpec Spec.DiskSpec Spec.WindSpec.
Import ListNotations.
Open Scope R_scope.

(** ** Functions with a derivative of known sign *)
Lemma mean_value (f df : R -> R) a b : a <= b -> (forall x, a <= x <= b -> is_derive f x (df x)) ->
  exists c, a <= c <= b /\ f b - f a = df c * (b - a).
Proof.
  intros Hab D. destruct (MVT_gen f a b df) as (c & Hc & E).
  - intros x Hx. apply D. rewrite Rmin_left, Rmax_right in Hx by lra. lra.
  - intros x Hx. rewrite Rmin_left, Rmax_right in Hx by lra. apply derivable_continuous_pt. exists (df x). apply is_derive_Reals, D. lra.
  - exists c. rewrite Rmin_left, Rmax_right in Hc by lra. split; [lra|exact E].
Qed.
Lemma stays (f : R -> R) a b : a <= b -> (forall x, a <= x <= b -> is_derive f x 0) -> f b = f a.
Proof. intros Hab D. destruct (mean_value f (fun _ => 0) a b Hab D) as (c & _ & E). lra. Qed.
Lemma grows (f df : R -> R) a b : a <= b -> (forall x, a <= x <= b -> is_derive f x (df x)) ->
  (forall x, a <= x <= b -> 0 <= df x) -> f a <= f b.
Proof. intros Hab D P. destruct (mean_value f df a b Hab D) as (c & Hc & E). pose proof (P c Hc). nra. Qed.

Lemma d_eq (f : R -> R) (t a b : R) : a = b -> is_derive f t a -> is_derive f t b.
Proof. now intros ->. Qed.
Lemma d_mult (f g : R -> R) (t a b : R) : is_derive f t a -> is_derive g t b -> is_derive (fun u => f u * g u) t (a * g t + f t * b).
Proof. intros A B. apply is_derive_Reals in A, B. apply is_derive_Reals. exact (derivable_pt_lim_mult f g t a b A B). Qed.
Lemma d_plus (f g : R -> R) (t a b : R) : is_derive f t a -> is_derive g t b -> is_derive (fun u => f u + g u) t (a + b).
Proof. intros A B. apply is_derive_Reals in A, B. apply is_derive_Reals. exact (derivable_pt_lim_plus f g t a b A B). Qed.
Lemma d_minus (f g : R -> R) (t a b : R) : is_derive f t a -> is_derive g t b -> is_derive (fun u => f u - g u) t (a - b).
Proof. intros A B. apply is_derive_Reals in A, B. apply is_derive_Reals. exact (derivable_pt_lim_minus f g t a b A B). Qed.
Lemma d_opp (f : R -> R) (t a : R) : is_derive f t a -> is_derive (fun u => - f u) t (- a).
Proof. intros A. apply is_derive_Reals in A. apply is_derive_Reals. exact (derivable_pt_lim_opp f t a A). Qed.

Lemma D_sqrt (q a u : R) : 0 < 1 + q * (u - a) -> is_derive (fun v => sqrt (1 + q * (v - a))) u (q / (2 * sqrt (1 + q * (u - a)))).
Proof.
  intros P. auto_derive; [exact P|]. unfold Rminus. field. apply Rgt_not_eq, sqrt_lt_R0, P.
Qed.

Section Law.
  Variables (c s : R) (x y z : R -> R).
  Hypotheses (Hc : 0 < c) (Hs : 0 < s).
  Let N t := x t * x t + y t * y t + z t * z t.
  Let k t := c * Rmin (N t) (s ^ 2).
  Hypotheses (Dx : forall t, 0 <= t -> is_derive x t (- k t * x t)) (Dy : forall t, 0 <= t -> is_derive y t (- k t * y t))
    (Dz : forall t, 0 <= t -> is_derive z t (- k t * z t)).
  Lemma N_nonneg t : 0 <= N t. Proof. unfold N. nra. Qed.
  Lemma s2 : 0 < s ^ 2. Proof. nra. Qed.
  Lemma k_bounds t : 0 <= k t <= c * s ^ 2.
  Proof.
    unfold k. pose proof (N_nonneg t). pose proof s2. pose proof (Rmin_r (N t) (s ^ 2)).
    assert (0 <= Rmin (N t) (s ^ 2)) by (apply Rmin_glb; lra). split; nra.
  Qed.
  Lemma DN t : 0 <= t -> is_derive N t (- 2 * k t * N t).
  Proof.
    intros Ht. unfold N. pose proof (Dx t Ht) as X. pose proof (Dy t Ht) as Y. pose proof (Dz t Ht) as Z.
    replace (- 2 * k t * (x t * x t + y t * y t + z t * z t))
      with (((- k t * x t) * x t + x t * (- k t * x t)) + ((- k t * y t) * y t + y t * (- k t * y t)) + ((- k t * z t) * z t + z t * (- k t * z t))) by ring.
    exact (d_plus _ _ t _ _ (d_plus _ _ t _ _ (d_mult x x t _ _ X X) (d_mult y y t _ _ Y Y)) (d_mult z z t _ _ Z Z)).
  Qed.
  (** the rate never grows, and decays no faster than above saturation *)
  Lemma N_falls a b : 0 <= a <= b -> N b <= N a.
  Proof.
    intros Hab. assert (- N a <= - N b); [|lra].
    apply (grows (fun t => - N t) (fun t => - (- 2 * k t * N t))); [lra| |].
    - intros t Ht. apply d_opp, DN. lra.
    - intros t Ht. pose proof (k_bounds t). pose proof (N_nonneg t). nra.
  Qed.
  Lemma D_exp a q t : is_derive (fun u => exp (q * (u - a))) t (q * exp (q * (t - a))).
  Proof. auto_derive; [exact I|unfold Rminus; ring]. Qed.
  Lemma N_slow a b : 0 <= a <= b -> N a <= N b * exp (2 * (c * s ^ 2) * (b - a)).
  Proof.
    intros Hab. set (q := 2 * (c * s ^ 2)).
    assert (E : N a = N a * exp (q * (a - a))) by (rewrite (Rminus_diag_eq a a eq_refl), Rmult_0_r, exp_0; ring).
    rewrite E.
    apply (grows (fun t => N t * exp (q * (t - a))) (fun t => (- 2 * k t * N t) * exp (q * (t - a)) + N t * (q * exp (q * (t - a))))); [lra| |].
    - intros t Ht. apply (d_mult N (fun t => exp (q * (t - a)))); [apply DN; lra|apply D_exp].
    - intros t Ht. pose proof (k_bounds t). pose proof (N_nonneg t). pose proof (exp_pos (q * (t - a))).
      replace (-2 * k t * N t * exp (q * (t - a)) + N t * (q * exp (q * (t - a)))) with ((q - 2 * k t) * (N t * exp (q * (t - a)))) by ring.
      apply Rmult_le_pos; [unfold q; lra|]. apply Rmult_le_pos; lra.
  Qed.
  (** above saturation *)
  Lemma saturated (f : R -> R) : (forall t, 0 <= t -> is_derive f t (- k t * f t)) ->
    forall t, 0 <= t -> s ^ 2 <= N t -> f t = exp (- (c * s ^ 2 * t)) * f 0.
  Proof.
    intros Df t Ht HN. set (q := c * s ^ 2).
    assert (E : f t * exp (q * (t - 0)) = f 0 * exp (q * (0 - 0))).
    { apply (stays (fun u => f u * exp (q * (u - 0))) 0 t Ht). intros u Hu.
      assert (Ku : k u = q). { unfold k, q. rewrite Rmin_right; [reflexivity|]. pose proof (N_falls u t). lra. }
      apply (d_eq _ _ ((- k u * f u) * exp (q * (u - 0)) + f u * (q * exp (q * (u - 0)))) 0); [rewrite Ku; ring|].
      apply (d_mult f (fun u => exp (q * (u - 0)))); [apply Df; lra|apply D_exp]. }
    rewrite !Rminus_0_r, Rmult_0_r, exp_0, Rmult_1_r in E. rewrite <- E, exp_Ropp. field. apply Rgt_not_eq, exp_pos.
  Qed.
  (** below saturation *)
  Section Below.
    Variable a : R.
    Hypotheses (Ha : 0 <= a) (Na : N a <= s ^ 2).
    Lemma k_below t : a <= t -> k t = c * N t.
    Proof. intros Ht. unfold k. rewrite Rmin_left; [reflexivity|]. pose proof (N_falls a t). lra. Qed.
    Let S t := sqrt (1 + 2 * c * N a * (t - a)).
    Lemma S_pos t : a <= t -> 0 < 1 + 2 * c * N a * (t - a).
    Proof. intros Ht. pose proof (N_nonneg a). assert (0 <= c * N a * (t - a)) by (apply Rmult_le_pos; [apply Rmult_le_pos|]; lra). lra. Qed.
    Lemma N_below t : a <= t -> N t * (1 + 2 * c * N a * (t - a)) = N a.
    Proof.
      intros Ht. destruct (Req_dec (N a) 0) as [Z|NZ].
      - pose proof (N_falls a t). pose proof (N_nonneg t). assert (N t = 0) by lra. rewrite H1, Z. ring.
      - pose proof (N_nonneg a) as Pa.
        assert (P : forall u, a <= u -> 0 < N u).
        { intros u Hu. pose proof (N_slow a u (conj Ha Hu)) as L. pose proof (exp_pos (2 * (c * s ^ 2) * (u - a))). pose proof (N_nonneg u). nra. }
        assert (E : / N t - 2 * c * t = / N a - 2 * c * a).
        { apply (stays (fun u => / N u - 2 * c * u) a t Ht). intros u Hu.
          assert (D : is_derive (fun v => / N v) u (- (- 2 * k u * N u) / (N u) ^ 2)) by (apply is_derive_inv; [apply DN; lra|apply Rgt_not_eq, P; lra]).
          apply (d_eq _ _ (- (- 2 * k u * N u) / (N u) ^ 2 - 2 * c) 0); [rewrite k_below by lra; field; apply Rgt_not_eq, P; lra|].
          apply (d_minus (fun v => / N v) (fun v => 2 * c * v)); [exact D|]. auto_derive; [exact I|ring]. }
        pose proof (P t Ht) as Pt. assert (F : / N t = / N a + 2 * c * (t - a)) by lra.
        apply (Rmult_eq_reg_l (/ N t)); [|apply Rinv_neq_0_compat; lra]. rewrite <- Rmult_assoc, Rinv_l, Rmult_1_l by lra. rewrite F. field. exact NZ.
    Qed.
    Lemma below (f : R -> R) : (forall t, 0 <= t -> is_derive f t (- k t * f t)) ->
      forall t, a <= t -> f t = / S t * f a.
    Proof.
      intros Df t Ht.
      assert (E : f t * S t = f a * S a).
      { apply (stays (fun u => f u * S u) a t Ht). intros u Hu. pose proof (S_pos u (proj1 Hu)) as Pu.
        assert (Q : 0 < S u) by now apply sqrt_lt_R0.
        assert (DS : is_derive S u (c * N a / S u)).
        { apply (d_eq _ _ (2 * c * N a / (2 * S u))); [field; lra|]. exact (D_sqrt (2 * c * N a) a u Pu). }
        assert (SS : S u * S u = 1 + 2 * c * N a * (u - a)) by (apply sqrt_sqrt; lra).
        assert (Z : (- k u * f u) * S u + f u * (c * N a / S u) = 0).
        { rewrite k_below by lra. assert (NS : N a = N u * (S u * S u)) by (rewrite SS; symmetry; apply N_below; lra).
          replace (c * N a / S u) with (c * (N u * S u)) by (rewrite NS; field; lra). ring. }
        apply (d_eq _ _ _ 0 Z). apply (d_mult f S); [apply Df; lra|exact DS]. }
      assert (Sa : S a = 1) by (unfold S; rewrite (Rminus_diag_eq a a eq_refl), Rmult_0_r, Rplus_0_r; apply sqrt_1).
      rewrite Sa, Rmult_1_r in E. rewrite <- E. field. apply Rgt_not_eq, sqrt_lt_R0, S_pos, Ht.
    Qed.
  End Below.
  (** ** The whole life *)
  Let w t := Vec (x t) (y t) (z t).
  Lemma N_norm t : norm2 (w t) = N t. Proof. unfold w, N. vunfold. num_simpl. ring. Qed.
  Lemma below_vec a t : 0 <= a -> N a <= s ^ 2 -> a <= t -> w t = skumanich c (w a) (t - a).
  Proof.
    intros Ha Na Ht. unfold skumanich. rewrite N_norm. unfold w. unfold vscale. cbn [vx vy vz]. num_simpl.
    f_equal; apply (below a Ha Na); assumption.
  Qed.
  Lemma saturated_vec t : 0 <= t -> s ^ 2 <= N t -> w t = saturated_decay c s (w 0) t.
  Proof.
    intros Ht HN. unfold saturated_decay, w, vscale. cbn [vx vy vz]. num_simpl. f_equal; apply saturated; assumption.
  Qed.
  Lemma whole_life t : 0 <= t -> w t = spin_down c s (w 0) t.
  Proof.
    intros Ht. unfold spin_down. rewrite N_norm. destruct (Rle_dec (N 0) (s ^ 2)) as [L|L].
    - rewrite (below_vec 0 t) by lra. now rewrite Rminus_0_r.
    - apply Rnot_le_lt in L. cbv zeta. set (t1 := desaturation_time c s (w 0)). pose proof s2 as P2.
      assert (L0 : 0 < N 0 / s ^ 2) by (apply Rdiv_lt_0_compat; lra).
      assert (Q : 0 < 2 * c * s ^ 2) by nra.
      assert (T1 : exp (2 * (c * s ^ 2) * t1) = N 0 / s ^ 2).
      { unfold t1, desaturation_time. rewrite N_norm. replace (2 * (c * s ^ 2) * (ln (N 0 / s ^ 2) / (2 * c * s ^ 2))) with (ln (N 0 / s ^ 2)) by (field; lra).
        now apply exp_ln. }
      assert (P1 : 0 <= t1).
      { unfold t1, desaturation_time. rewrite N_norm. apply Rmult_le_pos; [|left; now apply Rinv_0_lt_compat].
        assert (ln 1 < ln (N 0 / s ^ 2)); [|rewrite ln_1 in *; lra]. apply ln_increasing; [lra|].
        apply (Rmult_lt_reg_r (s ^ 2)); [lra|]. unfold Rdiv. rewrite Rmult_assoc, Rinv_l by lra. lra. }
      assert (Up : forall u, 0 <= u <= t1 -> s ^ 2 <= N u).
      { intros u Hu. pose proof (N_slow 0 u) as L1. rewrite Rminus_0_r in L1. specialize (L1 (conj (Rle_refl 0) (proj1 Hu))).
        assert (M : exp (2 * (c * s ^ 2) * u) <= exp (2 * (c * s ^ 2) * t1)).
        { destruct (Req_dec u t1) as [->|Ne]; [lra|]. apply Rlt_le, exp_increasing. nra. }
        rewrite T1 in M. pose proof (N_nonneg u). assert (N 0 <= N u * (N 0 / s ^ 2)) by nra.
        apply (Rmult_le_reg_r (N 0 / s ^ 2)); [exact L0|]. replace (s ^ 2 * (N 0 / s ^ 2)) with (N 0) by (field; lra). lra. }
      destruct (Rle_dec t t1) as [Lt|Gt].
      + apply saturated_vec; [lra|]. apply Up. lra.
      + assert (W1 : w t1 = saturated_decay c s (w 0) t1) by (apply saturated_vec; [lra|apply Up; lra]).
        rewrite <- W1. apply below_vec; try lra.
        rewrite <- N_norm, W1. unfold saturated_decay.
        assert (E : norm2 (vscale (exp (- (c * s ^ 2 * t1))) (w 0)) = exp (- (2 * (c * s ^ 2) * t1)) * N 0).
        { rewrite <- N_norm. replace (- (2 * (c * s ^ 2) * t1)) with (- (c * s ^ 2 * t1) + - (c * s ^ 2 * t1)) by ring. rewrite exp_plus.
          generalize (exp (- (c * s ^ 2 * t1))). intros e. unfold w. vunfold. num_simpl. ring. }
        rewrite E, exp_Ropp, T1. right. field. lra.
  Qed.
End Law.

(** ** Stars of the program *)
Definition wind_constant (p : particle R) : R := w_k_factor (p_wind p) * sqrt (p_radius p / (R_SUN * p_mass p)) / p_inertia p.
(** the angular velocity changes by the torque of the evaluations *)
Definition slowed_by_wind (p : particle R) (w : R -> vec R) : Prop :=
  forall t, 0 <= t -> vderiv w t (vscale (/ p_inertia p) (wind_dL (hd p (calculate_wind_factor (wind_initialize [spinning (w t) p]))))).
Definition windy_star (p : particle R) : Prop :=
  wind_ok p /\ w_on (p_wind p) = true /\ 0 < w_k_factor (p_wind p) /\ 0 < w_saturation (p_wind p) /\ 0 < p_radius p /\ 0 < p_inertia p.
Lemma constant_pos p : windy_star p -> 0 < wind_constant p.
Proof.
  intros ((_ & _ & Hm) & _ & Hk & _ & Hr & Hi). pose proof R_SUN_pos. unfold wind_constant.
  apply Rdiv_lt_0_compat; [|exact Hi]. apply Rmult_lt_0_compat; [exact Hk|]. apply sqrt_lt_R0, Rdiv_lt_0_compat; [exact Hr|]. now apply Rmult_lt_0_compat.
Qed.
Lemma evaluation_rate p (w : vec R) : windy_star p ->
  vscale (/ p_inertia p) (wind_dL (hd p (calculate_wind_factor (wind_initialize [spinning w p]))))
  = vscale (- (wind_constant p * Rmin (norm2 w) (w_saturation (p_wind p) ^ 2))) w.
Proof.
  intros (Hok & On & Hk & Hs & Hr & Hi). unfold calculate_wind_factor, wind_initialize. cbn [map].
  change (w_on (p_wind (spinning w p))) with (w_on (p_wind p)). rewrite On. cbn [map].
  change (w_on (p_wind (set_wind_dL vzero (spinning w p)))) with (w_on (p_wind p)). rewrite On. cbn [map hd].
  change (wind_dL (set_wind_dL ?v _)) with v. change (wind_torque (set_wind_dL vzero (spinning w p))) with (wind_torque (spinning w p)).
  rewrite (wind_formula w p Hok). unfold wind_strength, wind_constant.
  assert (E : Rmin (sqrt (norm2 w)) (w_saturation (p_wind p)) * Rmin (sqrt (norm2 w)) (w_saturation (p_wind p)) = Rmin (norm2 w) (w_saturation (p_wind p) ^ 2)).
  { pose proof (norm_sq w) as Q. pose proof (sqrt_pos (norm2 w)) as P. set (q := sqrt (norm2 w)) in *. rewrite <- Q.
    unfold Rmin. destruct (Rle_dec q (w_saturation (p_wind p))), (Rle_dec (q * q) (w_saturation (p_wind p) ^ 2)); try reflexivity; try ring; exfalso; nra. }
  rewrite E. destruct w as [a b c]. unfold vscale. cbn [vx vy vz]. num_simpl. f_equal; field; lra.
Qed.
Theorem star_spins_down p w : windy_star p -> slowed_by_wind p w ->
  forall t, 0 <= t -> w t = spin_down (wind_constant p) (w_saturation (p_wind p)) (w 0) t.
Proof.
  intros Hp Hw t Ht. pose proof (constant_pos p Hp) as Hc.
  assert (Hs : 0 < w_saturation (p_wind p)) by (destruct Hp as (_ & _ & _ & S & _); exact S).
  assert (V : forall u, w u = Vec (vx (w u)) (vy (w u)) (vz (w u))) by (intros u; now destruct (w u)).
  assert (Nw : forall u, norm2 (w u) = vx (w u) * vx (w u) + vy (w u) * vy (w u) + vz (w u) * vz (w u)) by (intros u; reflexivity).
  rewrite (V t), (V 0). apply (whole_life (wind_constant p) (w_saturation (p_wind p)) (fun u => vx (w u)) (fun u => vy (w u)) (fun u => vz (w u)) Hc Hs); [| | |exact Ht];
    intros u Hu; destruct (Hw u Hu) as (A & B & C); rewrite (evaluation_rate p (w u) Hp) in *; apply is_derive_Reals; rewrite <- Nw; assumption.
Qed.
(** below saturation the inverse square of the rate grows uniformly; above, the time to reach it *)
Lemma skumanich_norm c (w : vec R) t : 0 <= c -> 0 <= t -> w <> vzero -> / norm2 (skumanich c w t) = / norm2 w + 2 * c * t.
Proof.
  intros Hc Ht Hw. pose proof (norm2_pos w Hw) as P. unfold skumanich.
  assert (Q : 0 < 1 + 2 * c * norm2 w * t) by (assert (0 <= c * norm2 w * t) by (apply Rmult_le_pos; [apply Rmult_le_pos|]; lra); lra).
  pose proof (sqrt_sqrt _ (Rlt_le _ _ Q)) as E. pose proof (sqrt_lt_R0 _ Q) as S. set (q := sqrt _) in *.
  assert (N : norm2 (vscale (/ q) w) = norm2 w / (q * q)) by (destruct w as [a b d]; vunfold; num_simpl; field; lra).
  rewrite N, E. field. lra.
Qed.
Lemma decay_norm c s (w : vec R) : 0 < c -> 0 < s -> s ^ 2 < norm2 w -> norm2 (saturated_decay c s w (desaturation_time c s w)) = s ^ 2.
Proof.
  intros Hc Hs Hw. unfold saturated_decay, desaturation_time. assert (P : 0 < s ^ 2) by nra.
  assert (N : forall e, norm2 (vscale e w) = e * e * norm2 w) by (intros e; destruct w as [a b d]; vunfold; num_simpl; ring).
  rewrite N, <- exp_plus.
  replace (- (c * s ^ 2 * (ln (norm2 w / s ^ 2) / (2 * c * s ^ 2))) + - (c * s ^ 2 * (ln (norm2 w / s ^ 2) / (2 * c * s ^ 2)))) with (- ln (norm2 w / s ^ 2)) by (field; lra).
  rewrite exp_Ropp, exp_ln by (apply Rdiv_lt_0_compat; lra). field. lra.
Qed.
Theorem star_skumanich p w : windy_star p -> slowed_by_wind p w -> w 0 <> vzero ->
  let c := wind_constant p in let s := w_saturation (p_wind p) in
  (norm2 (w 0) <= s ^ 2 -> forall t, 0 <= t -> / norm2 (w t) = / norm2 (w 0) + 2 * c * t) /\
  (s ^ 2 < norm2 (w 0) -> forall t, desaturation_time c s (w 0) <= t -> / norm2 (w t) = / s ^ 2 + 2 * c * (t - desaturation_time c s (w 0))).
Proof.
  intros Hp Hw H0 c s. pose proof (constant_pos p Hp) as Hc. fold c in Hc.
  assert (Hs : 0 < s) by (destruct Hp as (_ & _ & _ & S & _); exact S). assert (P : 0 < s ^ 2) by nra.
  split; intros L t Ht.
  - rewrite (star_spins_down p w Hp Hw t Ht). fold c s. unfold spin_down. destruct (Rle_dec _ _); [|contradiction]. apply skumanich_norm; [lra|exact Ht|exact H0].
  - assert (P1 : 0 <= desaturation_time c s (w 0)).
    { unfold desaturation_time. apply Rmult_le_pos; [|left; apply Rinv_0_lt_compat; nra].
      assert (ln 1 < ln (norm2 (w 0) / s ^ 2)); [|rewrite ln_1 in *; lra]. apply ln_increasing; [lra|].
      apply (Rmult_lt_reg_r (s ^ 2)); [lra|]. unfold Rdiv. rewrite Rmult_assoc, Rinv_l by lra. lra. }
    rewrite (star_spins_down p w Hp Hw t) by lra. fold c s. unfold spin_down. destruct (Rle_dec _ _); [lra|]. cbv zeta.
    pose proof (decay_norm c s (w 0) Hc Hs L) as D.
    destruct (Rle_dec t (desaturation_time c s (w 0))) as [Le|Gt].
    + assert (t = desaturation_time c s (w 0)) by lra. subst t. rewrite D. ring.
    + rewrite skumanich_norm; [now rewrite D|lra|lra|]. intros Z. rewrite Z in D. unfold norm2 in D. vunfold. revert D. num_simpl. lra.
Qed.

(** ** A star that slows down *)
Lemma skumanich_solves p (w0 : vec R) : windy_star p -> norm2 w0 <= w_saturation (p_wind p) ^ 2 -> slowed_by_wind p (skumanich (wind_constant p) w0).
Proof.
  intros Hp L t Ht. pose proof (constant_pos p Hp) as Hc. rewrite (evaluation_rate p _ Hp). set (c := wind_constant p) in *.
  pose proof (norm2_nonneg w0) as P.
  assert (Q : 0 < 1 + 2 * c * norm2 w0 * (t - 0)) by (assert (0 <= c * norm2 w0 * t) by (apply Rmult_le_pos; [apply Rmult_le_pos|]; lra); lra).
  pose proof (sqrt_sqrt _ (Rlt_le _ _ Q)) as E. pose proof (sqrt_lt_R0 _ Q) as S.
  assert (N : norm2 (skumanich c w0 t) = norm2 w0 / (1 + 2 * c * norm2 w0 * (t - 0))).
  { unfold skumanich. rewrite <- E. rewrite <- (Rminus_0_r t) at 1. set (q := sqrt _) in *. clear - S. destruct w0 as [a b d]. vunfold. num_simpl. field. lra. }
  rewrite Rmin_left.
  2:{ rewrite N. apply Rle_trans with (norm2 w0); [|exact L]. apply Rle_div_l; [exact Q|]. assert (0 <= c * norm2 w0 * t) by (apply Rmult_le_pos; [apply Rmult_le_pos|]; lra). nra. }
  rewrite N.
  assert (D : forall k : R, derivable_pt_lim (fun u => / sqrt (1 + 2 * c * norm2 w0 * u) * k) t
     (- (c * (norm2 w0 / (1 + 2 * c * norm2 w0 * (t - 0)))) * (/ sqrt (1 + 2 * c * norm2 w0 * t) * k))).
  { intros k. apply is_derive_Reals. pose proof (D_sqrt (2 * c * norm2 w0) 0 t Q) as DS.
    apply (is_derive_ext (fun u => / sqrt (1 + 2 * c * norm2 w0 * (u - 0)) * k)); [intros u; now rewrite Rminus_0_r|].
    apply (d_eq _ _ (- (2 * c * norm2 w0 / (2 * sqrt (1 + 2 * c * norm2 w0 * (t - 0)))) / sqrt (1 + 2 * c * norm2 w0 * (t - 0)) ^ 2 * k + / sqrt (1 + 2 * c * norm2 w0 * (t - 0)) * 0)).
    - rewrite Rminus_0_r in *. set (q := sqrt _) in *. rewrite <- E. field. lra.
    - apply (d_mult (fun u => / sqrt (1 + 2 * c * norm2 w0 * (u - 0))) (fun _ => k)).
      + apply (is_derive_inv (fun u => sqrt (1 + 2 * c * norm2 w0 * (u - 0)))); [exact DS|lra].
      + apply is_derive_Reals, derivable_pt_lim_const. }
  unfold vderiv, skumanich, vscale. cbn [vx vy vz]. num_simpl. repeat split; apply D.
Qed.
