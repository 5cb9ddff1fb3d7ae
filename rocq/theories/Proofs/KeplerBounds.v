(** * The bounds between which the Kepler solver bisects (C64) *)
From Coq Require Import Reals List Bool Lra Lia Arith.
From Verif Require Import Base.Num Base.Result Base.Trans Base.Vec Model.Constants Model.Particle Model.Creep Model.Universe Model.WHFast
  Spec.WHFastSpec Proofs.NumLemmas Proofs.VecLemmas Proofs.StumpffProofs Proofs.KeplerProofs Proofs.KeplerTotal.
Import ListNotations.
Open Scope R_scope.

Lemma setup_beta mu dt x v : norm2 x <> 0 -> k_beta (kepler_setup mu dt x v) = orbit_beta mu x v.
Proof.
  intro N. assert (R0 : sqrt (norm2 x) <> 0) by (intro Z; apply N; rewrite <- (sqrt_sqrt (norm2 x)) by apply norm2_nonneg; rewrite Z; ring).
  unfold kepler_setup, orbit_beta. cbn [k_beta]. num_simpl. field. exact R0.
Qed.
Lemma excess_time mu dt x v s g : norm2 x <> 0 -> excess (kepler_setup mu dt x v) s g = universal_time mu x v s g - dt.
Proof.
  intro N. pose proof (setup_beta mu dt x v N) as B. unfold excess, universal_time. cbn zeta. fold (orbit_beta mu x v). rewrite <- B.
  unfold kepler_setup. cbn [k_r0 k_eta0 k_zeta0 k_beta k_dt]. num_simpl. ring.
Qed.

(** ** Ellipses *)
Section Ellipse.
  Variables (b : R) (g : R -> stumpff R).
  Hypotheses (B : 0 < b) (Fg : stiefel_functions b g).
  Let w := sqrt b.
  Let W : 0 < w. Proof. apply sqrt_lt_R0. exact B. Qed.
  Let Ww : w * w = b. Proof. apply sqrt_sqrt. lra. Qed.
  Let D0 s : derivable_pt_lim (fun s => cs0 (g s)) s (- b * cs1 (g s)). Proof. apply Fg. Qed.
  Let D1 s : derivable_pt_lim (fun s => cs1 (g s)) s (cs0 (g s)). Proof. apply Fg. Qed.
  Let Dw s : derivable_pt_lim (fun s => w * s) s w.
  Proof. apply (derive_ext (fun s => w * s) _ s (0 * s + w * 1)); [reflexivity|ring|lim]. Qed.
  Let Dc s : derivable_pt_lim (fun s => cos (w * s)) s (- sin (w * s) * w).
  Proof. apply (derivable_pt_lim_comp (fun s => w * s) cos); [apply Dw|apply derivable_pt_lim_cos]. Qed.
  Let Ds s : derivable_pt_lim (fun s => sin (w * s)) s (cos (w * s) * w).
  Proof. apply (derivable_pt_lim_comp (fun s => w * s) sin); [apply Dw|apply derivable_pt_lim_sin]. Qed.
  (** the functions are the trigonometric ones *)
  Lemma ellipse_circular s : cs0 (g s) = cos (w * s) /\ w * cs1 (g s) = sin (w * s).
  Proof.
    set (E := fun s => (cs0 (g s) - cos (w * s)) * (cs0 (g s) - cos (w * s)) + (w * cs1 (g s) - sin (w * s)) * (w * cs1 (g s) - sin (w * s))).
    assert (Z : E s = E 0).
    { apply (constant_of_derive E). intro y. unfold E. eapply derive_ext; [reflexivity| |lim]. cbn beta. rewrite <- Ww. ring. }
    assert (Z0 : E 0 = 0).
    { unfold E. rewrite (proj1 Fg). cbn [cs0 cs1]. rewrite !Rmult_0_r, cos_0, sin_0. ring. }
    rewrite Z0 in Z. unfold E in Z. assert (Q : forall p q, p * p + q * q = 0 -> p = 0 /\ q = 0) by (clear; intros p q Z; split; nra). apply Q in Z. lra.
  Qed.
  (** after [n] turns *)
  Lemma ellipse_turns (n : Z) s : s = 2 * PI / w * IZR n -> cs2 (g s) = 0 /\ cs3 (g s) = s / b.
  Proof.
    intro Es. destruct (ellipse_circular s) as (C & S). destruct (stiefel_hold b g Fg s) as (I0 & I1 & _).
    assert (A : w * s = 2 * IZR n * PI) by (rewrite Es; field; lra). rewrite A in C, S.
    assert (S0 : sin (2 * IZR n * PI) = 0).
    { apply sin_eq_0_1. exists (2 * n)%Z. rewrite mult_IZR. ring. }
    assert (C1 : cos (2 * IZR n * PI) = 1).
    { replace (2 * IZR n * PI) with (2 * (IZR n * PI)) by ring. rewrite cos_2a_sin.
      assert (X : sin (IZR n * PI) = 0) by (apply sin_eq_0_1; eauto). rewrite X. ring. }
    rewrite S0 in S. rewrite C1 in C. split; [nra|]. assert (cs1 (g s) = 0) by nra. apply (Rmult_eq_reg_l b); [|lra]. field_simplify; [lra|lra].
  Qed.
End Ellipse.

Section Bounds.
  Variables (mu dt : R) (x v : vec R) (g : R -> stumpff R).
  Let beta := orbit_beta mu x v.
  Let r0 := sqrt (norm2 x).
  Let t s := universal_time mu x v s (g s).
  Let r s := universal_radius mu x v (g s).
  Hypotheses (Mu : 0 < mu) (T : 0 < dt) (X : norm2 x <> 0) (C : vcross x v <> vzero) (Fg : stiefel_functions beta g).
  Let k := kepler_setup mu dt x v.
  Let R0 : 0 < r0.
  Proof. apply sqrt_lt_R0. pose proof (norm2_nonneg x). lra. Qed.
  Let Dt s : derivable_pt_lim t s (r s). Proof. exact (motion_time mu x v g Fg s). Qed.
  Let e s := vdot x v * cs0 (g s) + (mu - beta * r0) * cs1 (g s).
  Let Dr s : derivable_pt_lim r s (e s). Proof. exact (motion_radius mu x v g Fg s). Qed.
  Let Rp s : 0 < r s. Proof. exact (motion_positive mu x v g X C Fg s). Qed.
  Let t0 : t 0 = 0. Proof. unfold t, universal_time. rewrite (proj1 Fg). cbn [cs2 cs3]. cbn zeta. ring. Qed.
  Let r_0 : r 0 = r0. Proof. unfold r, universal_radius. rewrite (proj1 Fg). cbn [cs1 cs2]. cbn zeta. fold r0. ring. Qed.
  Lemma time_grows a b : a < b -> t a < t b.
  Proof.
    intro L. destruct (MVT_cor2 t r a b L) as (c & E & _); [intros; apply Dt|]. pose proof (Rp c). nra.
  Qed.
  Lemma time_grows_le a b : a <= b -> t a <= t b.
  Proof. intros [L| ->]; [left; now apply time_grows|right; reflexivity]. Qed.
  Lemma root_between lo hi : lo <= hi -> t lo <= dt <= t hi -> exists s, lo <= s <= hi /\ t s = dt.
  Proof.
    intros L (A & Bb). assert (Ct : continuity (fun s => t s - dt)).
    { intro y. apply derivable_continuous_pt. exists (r y). eapply derive_ext; [reflexivity| |apply (derivable_pt_lim_minus t (fun _ => dt)); [apply Dt|apply derivable_pt_lim_const]]. ring. }
    destruct (IVT_cor (fun s => t s - dt) lo hi Ct L) as (z & Hz & Ez); [nra|]. exists z. split; [exact Hz|lra].
  Qed.
  Let h2 := norm2 (vcross x v).
  Let H2 : 0 < h2.
  Proof.
    pose proof (norm2_nonneg (vcross x v)) as [P|P]; [exact P|]. exfalso. apply C. symmetry in P. now apply norm2_zero in P.
  Qed.
  (** the radial motion *)
  Lemma radial s : e s ^ 2 = 2 * mu * r s - beta * r s ^ 2 - h2.
  Proof.
    assert (Eb : beta * r0 = 2 * mu - norm2 v * r0) by (unfold beta, orbit_beta; fold r0; field; lra).
    assert (E : e s * e s - 2 * mu * r s + beta * (r s * r s) = e 0 * e 0 - 2 * mu * r 0 + beta * (r 0 * r 0)).
    { assert (De : forall y, derivable_pt_lim e y (mu - beta * r y)).
      { intro y. unfold e. destruct Fg as (_ & Gd). destruct (Gd y) as (A0 & A1 & _). eapply derive_ext; [reflexivity| |lim]. cbn beta.
        unfold r, universal_radius. cbn zeta. fold (orbit_beta mu x v). fold beta r0. destruct (stiefel_hold beta g Fg y) as (I0 & _). rewrite I0. ring. }
      apply (constant_of_derive (fun s => e s * e s - 2 * mu * r s + beta * (r s * r s))). intro y. eapply derive_ext; [reflexivity| |lim]. cbn beta. ring. }
    rewrite r_0 in E. unfold e in E at 3 4. rewrite (proj1 Fg) in E. cbn [cs0 cs1] in E.
    assert (Q : h2 = r0 * r0 * norm2 v - vdot x v * vdot x v) by (unfold h2, r0; rewrite sqrt_sqrt by apply norm2_nonneg; rewrite cross_form; reflexivity).
    assert (beta * (r0 * r0) = 2 * mu * r0 - norm2 v * (r0 * r0)) by (rewrite <- Rmult_assoc, Eb; ring). nra.
  Qed.
  Theorem bounds_bracket : let b := bisection_bounds (F := R) k in
    exists s, fst b <= s <= snd b /\ t s = dt /\ forall s', t s' = dt -> s' = s.
  Proof.
    cbn zeta.
    assert (Un : forall s, t s = dt -> forall s', t s' = dt -> s' = s).
    { intros s Es s' Es'. destruct (Rtotal_order s' s) as [L|[L|L]]; [|exact L|]; apply time_grows in L; lra. }
    cut (fst (bisection_bounds (F := R) k) <= snd (bisection_bounds (F := R) k) /\ t (fst (bisection_bounds (F := R) k)) <= dt <= t (snd (bisection_bounds (F := R) k))).
    { intros (L & Q). destruct (root_between _ _ L Q) as (s & A & Bs). exists s. auto. }
    unfold bisection_bounds. unfold k. rewrite !setup_beta by exact X. num_simpl. fold beta. 
    destruct (Rltb_spec 0 beta) as [Bp|Bp]; cbn [fst snd].
    - change (@tpi R TransR) with PI. change (@nfloor R FloorR) with (fun x => IZR (Int_part x)). cbv beta.
      set (w := sqrt beta). assert (W : 0 < w) by (apply sqrt_lt_R0; exact Bp). pose proof PI_RGT_0 as Pi. assert (Ww : w * w = beta) by (apply sqrt_sqrt; lra).
      unfold kepler_setup. cbn [k_dt k_mu].
      set (f := dt * _). set (n := Int_part f). replace (2 / 1) with 2 in * by field.
      assert (Xp : 0 < 2 * PI / w) by (apply Rdiv_lt_0_compat; lra).
      assert (Tn : forall m, t (2 * PI / w * IZR m) = mu / beta * (2 * PI / w * IZR m)).
      { intro m. destruct (ellipse_turns beta g Bp Fg m _ eq_refl) as (E2 & E3). fold w in E2, E3. unfold t, universal_time. cbn zeta. rewrite E2, E3. fold (orbit_beta mu x v). fold beta r0. field. lra. }
      assert (Ef : dt = mu / beta * (2 * PI / w * f)).
      { unfold f. field. repeat split; lra. }
      destruct (base_Int_part f) as (I1 & I2). fold n in I1, I2.
      assert (K : 0 < mu / beta * (2 * PI / w)) by (apply Rmult_lt_0_compat; [apply Rdiv_lt_0_compat; lra|exact Xp]).
      split; [lra|]. replace (2 * PI / w * IZR n + 2 * PI / w) with (2 * PI / w * IZR (n + 1)) by (rewrite plus_IZR; ring).
      rewrite !Tn, plus_IZR. rewrite <- !Rmult_assoc in *. set (K' := mu / beta * (2 * PI / w)) in *. nra.
    - unfold kepler_setup. cbn [k_dt k_mu k_r0 k_v2 k_eta0]. num_simpl. fold r0.
      replace (r0 * r0 * norm2 v - vdot x v * vdot x v) with h2 by (unfold h2, r0; rewrite sqrt_sqrt by apply norm2_nonneg; rewrite cross_form; reflexivity).
      set (D := sqrt (1 - h2 * beta / (mu * mu))).
      assert (Dd : D * D = 1 - h2 * beta / (mu * mu)).
      { apply sqrt_sqrt. assert (0 <= h2 * - beta * / (mu * mu)); [|unfold Rdiv; lra]. apply Rmult_le_pos; [nra|]. left. apply Rinv_0_lt_compat. nra. }
      assert (Dp : 0 <= D) by apply sqrt_pos. set (q := h2 / mu / (1 + D)). assert (Q : 0 < q) by (unfold q; repeat apply Rdiv_lt_0_compat; lra).
      set (h := sqrt h2). assert (Hp : 0 < h) by (apply sqrt_lt_R0; exact H2). assert (Hh : h * h = h2) by (apply sqrt_sqrt; lra).
      assert (Eq : beta * q * q - 2 * mu * q + h2 = 0).
      { assert (E1 : q * (mu * (1 + D)) = h2) by (unfold q; field; lra). assert (E2 : (D * D - 1) * (mu * mu) = - (h2 * beta)) by (rewrite Dd; field; lra).
        rewrite <- E1 at 1. apply (Rmult_eq_reg_l h2); [|lra]. rewrite Rmult_0_r.
        replace (h2 * (beta * q * q - 2 * mu * q + q * (mu * (1 + D)))) with (q * (h2 * beta * q + h2 * (mu * (D - 1)))) by ring.
        replace (h2 * beta) with (- ((D * D - 1) * (mu * mu))) by (rewrite E2; ring). rewrite <- E1. ring. }
      assert (Rq : forall s, q <= r s).
      { intro s. pose proof (radial s) as E. pose proof (Rp s). destruct (Rle_dec q (r s)) as [|N]; [assumption|]. exfalso. apply Rnot_le_lt in N. pose proof (pow2_ge_0 (e s)).
        assert (0 < mu * (q - r s)) by (apply Rmult_lt_0_compat; lra). assert (0 <= - beta * ((q - r s) * (q + r s))) by (apply Rmult_le_pos; [lra|]; apply Rmult_le_pos; lra). lra. }
      set (vq := h / q). assert (Vq : 0 < vq) by (apply Rdiv_lt_0_compat; assumption).
      assert (Ve : forall s, e s <= vq * r s).
      { intro s. pose proof (radial s) as E. pose proof (Rp s) as P. pose proof (Rq s) as Q1.
        assert (Q2 : vq * q = h) by (unfold vq; field; lra).
        destruct (Rle_dec (e s) (vq * r s)) as [|N]; [assumption|]. exfalso.
        assert (N1 : (vq * r s) ^ 2 < e s ^ 2) by (apply Rnot_le_lt in N; assert (0 < vq * r s) by nra; nra).
        assert (N2 : (vq * r s) ^ 2 * q ^ 2 < e s ^ 2 * q ^ 2) by (apply Rmult_lt_compat_r; [nra|exact N1]).
        replace ((vq * r s) ^ 2 * q ^ 2) with (h2 * r s ^ 2) in N2 by (rewrite <- Hh, <- Q2; ring). rewrite E in N2.
        replace h2 with (2 * mu * q - beta * q * q) in N2 by lra. clear - N2 P Q1 Q Mu Bp.
        assert (0 < q * r s) by nra. assert (A1 : 2 * mu * q * r s ^ 2 - 2 * mu * r s * q ^ 2 >= 0).
        { replace (2 * mu * q * r s ^ 2 - 2 * mu * r s * q ^ 2) with (2 * mu * ((q * r s) * (r s - q))) by ring. apply Rle_ge. apply Rmult_le_pos; [lra|]. apply Rmult_le_pos; lra. }
        assert (A2 : 2 * mu * q - beta * q * q > 0) by nra. nra. }
      assert (Rt : forall s, 0 <= s -> r s <= r0 + vq * t s).
      { intros s [S| <-]; [|rewrite t0, r_0; lra].
        destruct (MVT_cor2 (fun s => r s - vq * t s) (fun s => e s - vq * r s) 0 s S) as (c & E & _).
        - intros c _. pose proof (Dr c). pose proof (Dt c). eapply derive_ext; [reflexivity| |lim]. cbn beta. ring.
        - rewrite t0, r_0 in E. pose proof (Ve c). nra. }
      set (lo := 1 / (vq + r0 / dt)). assert (Lo : lo * (vq * dt + r0) = dt) by (unfold lo; field; split; nra).
      assert (Lp : 0 < lo) by (apply Rdiv_lt_0_compat; [lra|]; apply Rplus_lt_0_compat; [exact Vq|apply Rdiv_lt_0_compat; assumption]).
      assert (U1 : dt <= t (dt / q)).
      { assert (P : 0 < dt / q) by (apply Rdiv_lt_0_compat; assumption). destruct (MVT_cor2 t r 0 (dt / q) P) as (c & E & _); [intros; apply Dt|].
        rewrite t0 in E. assert (Z : dt = q * (dt / q)) by (field; lra). pose proof (Rq c). nra. }
      assert (L1 : t lo <= dt).
      { destruct (Rle_dec (t lo) dt) as [|N]; [assumption|]. exfalso. apply Rnot_le_lt in N.
        destruct (root_between 0 lo) as (s & (S0 & S1) & Es); [lra|rewrite t0; lra|].
        destruct S0 as [S0| <-]; [|rewrite t0 in Es; lra].
        destruct S1 as [S1| ->]; [|lra].
        destruct (MVT_cor2 t r 0 s S0) as (c & E & (C1 & C2)); [intros; apply Dt|]. rewrite t0, Es in E.
        pose proof (Rt c ltac:(lra)) as Rc. apply time_grows in C2. rewrite Es in C2.
        assert (Rd : r c < r0 + vq * dt) by nra. pose proof (Rp c).
        assert (r c * s <= (r0 + vq * dt) * s) by (apply Rmult_le_compat_r; lra). assert ((r0 + vq * dt) * s < (r0 + vq * dt) * lo) by (apply Rmult_lt_compat_l; lra). lra. }
      split; [|split; assumption].
      destruct (Rle_dec lo (dt / q)) as [|N]; [assumption|]. apply Rnot_le_lt in N. apply time_grows in N. lra.
  Qed.
End Bounds.
