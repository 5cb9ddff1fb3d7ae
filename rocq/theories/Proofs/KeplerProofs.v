(** * The Kepler drift of WHFast (C18) *)
From Coq Require Import Reals List Bool Lra Lia Psatz.
From Verif Require Import Base.Num Base.Result Base.Trans Base.Vec Model.Constants Model.Particle Model.Host
  Model.Creep Model.Relativity Model.Universe Model.WHFast
  Spec.EffectsSpec Spec.UniverseSpec Spec.WHFastSpec Proofs.NumLemmas Proofs.VecLemmas Proofs.StumpffProofs.
Import ListNotations.
Open Scope R_scope.

(** ** Polynomial identities *)
Section Algebra.
  Variables mu r0 eta beta s dt G0 G1 G2 G3 : R.
  Let zeta := mu - beta * r0.
  Let r := r0 + eta * G1 + zeta * G2.
  Let ff := 1 - mu * G2 / r0.
  Let gg := dt - mu * G3.
  Let fd := - mu * G1 / r0 / r.
  Let gd := 1 - mu * G2 / r.
  Hypotheses (R0 : r0 <> 0) (RR : r <> 0).

  (** defects of the identities and of Kepler's equation *)
  Let b := G1 ^ 2 - 2 * G2 + beta * G2 ^ 2.
  Let d1 := G1 + beta * G3 - s.
  Let kappa := dt - (r0 * s + eta * G2 + zeta * G3).
  Lemma wronskian_defect : ff * gd - gg * fd = 1 + mu / (r0 * r) * (r0 * b + G1 * (kappa - r0 * d1)).
  Proof.
    assert (E : kappa - r0 * d1 = gg - r0 * G1 - eta * G2).
    { unfold kappa, d1, gg, zeta. ring. }
    rewrite E. unfold ff, gd, fd, b. clearbody gg. clear E kappa d1.
    field_simplify_eq; [|auto ..]. unfold r, zeta. ring.
  Qed.

  Hypotheses (I0 : G0 = 1 - beta * G2) (I1 : G1 = s - beta * G3) (I2 : G1 ^ 2 = G2 * (1 + G0))
    (K : r0 * s + eta * G2 + zeta * G3 = dt).
  Lemma b_zero : b = 0.
  Proof. unfold b. rewrite I2, I0. ring. Qed.
  Lemma gg_eq : gg = r0 * G1 + eta * G2.
  Proof. unfold gg. rewrite <- K. unfold zeta. rewrite I1. ring. Qed.
  Lemma wronskian_one : ff * gd - gg * fd = 1.
  Proof. rewrite wronskian_defect, b_zero. unfold kappa, d1. rewrite K, I1. field. auto. Qed.
  (** [v2] is the squared speed *)
  Lemma radius_squared v2 : v2 = 2 * mu / r0 - beta ->
    ff ^ 2 * (r0 * r0) + 2 * ff * gg * eta + gg ^ 2 * v2 = r ^ 2.
  Proof.
    intro V. pose proof b_zero as B. rewrite gg_eq, V. unfold ff.
    apply Rminus_diag_uniq.
    transitivity ((r0 * (2 * mu - beta * r0) - eta ^ 2) * b).
    - unfold r, b, zeta. field. exact R0.
    - rewrite B. ring.
  Qed.
  Lemma speed_squared v2 : v2 = 2 * mu / r0 - beta ->
    fd ^ 2 * (r0 * r0) + 2 * fd * gd * eta + gd ^ 2 * v2 = 2 * mu / r - beta.
  Proof.
    intro V. pose proof b_zero as B. apply Rminus_diag_uniq. rewrite V. unfold fd, gd.
    transitivity (mu ^ 2 / r ^ 2 * b).
    - unfold b. 
      apply (Rmult_eq_reg_r (r ^ 2 * r0)); [|apply Rmult_integral_contrapositive; split; [apply pow_nonzero; exact RR|exact R0]].
      field_simplify; [|auto ..].
      unfold r, zeta. ring.
    - rewrite B. field. exact RR.
  Qed.
End Algebra.

(** ** The drift as a linear combination of position and velocity *)
Definition drift_f (mu : R) (x : vec R) (g : stumpff R) : R := 1 - mu * cs2 g / sqrt (norm2 x).
Definition drift_g (mu dt : R) (g : stumpff R) : R := dt - mu * cs3 g.
Definition drift_fd (mu : R) (x : vec R) (r : R) (g : stumpff R) : R := - mu * cs1 g / sqrt (norm2 x) / r.
Definition drift_gd (mu r : R) (g : stumpff R) : R := 1 - mu * cs2 g / r.
Definition comb (a b : R) (x v : vec R) : vec R := vadd (vscale a x) (vscale b v).

Lemma drift_linear mu dt x v g r : sqrt (norm2 x) <> 0 -> r <> 0 ->
  kepler_drift (kepler_setup mu dt x v) g (1 / r) x v
  = (comb (drift_f mu x g) (drift_g mu dt g) x v, comb (drift_fd mu x r g) (drift_gd mu r g) x v).
Proof.
  intros E Er. unfold kepler_drift, kepler_setup, comb, drift_f, drift_g, drift_fd, drift_gd.
  cbn [k_r0 k_mu k_dt nsqrt nmul nsub nopp ndiv n1 NumR]. set (r0 := sqrt (norm2 x)) in *. clearbody r0.
  f_equal; vdestruct; vunfold; f_equal; field; auto.
Qed.
Lemma norm2_comb a b x v : norm2 (comb a b x v) = a ^ 2 * norm2 x + 2 * a * b * vdot x v + b ^ 2 * norm2 v.
Proof. unfold comb. vring. Qed.
Lemma vcross_comb a b a' b' x v : vcross (comb a b x v) (comb a' b' x v) = vscale (a * b' - b * a') (vcross x v).
Proof. unfold comb. vring. Qed.
Lemma lagrange (x v : vec R) : norm2 (vcross x v) = norm2 x * norm2 v - vdot x v ^ 2.
Proof. vring. Qed.
Lemma sqrt_norm_sq (x : vec R) : sqrt (norm2 x) * sqrt (norm2 x) = norm2 x.
Proof. apply norm_sq. Qed.
Lemma sqrt_norm_nz (x : vec R) : norm2 x <> 0 -> sqrt (norm2 x) <> 0.
Proof. intros E X. apply E. rewrite <- norm_sq, X. ring. Qed.

Section Drift.
  Variables (mu dt s : R) (x v : vec R) (g : stumpff R).
  Let r0 := sqrt (norm2 x).
  Let beta := orbit_beta mu x v.
  Let r := universal_radius mu x v g.
  Hypotheses (X : norm2 x <> 0).
  Let R0 : r0 <> 0. Proof. apply sqrt_norm_nz. exact X. Qed.
  Let V2 : norm2 v = 2 * mu / r0 - beta. Proof. unfold beta, orbit_beta. fold r0. ring. Qed.
  Let RE : r = r0 + vdot x v * cs1 g + (mu - beta * r0) * cs2 g. Proof. reflexivity. Qed.

  Lemma wronskian_code : r <> 0 ->
    drift_f mu x g * drift_gd mu r g - drift_g mu dt g * drift_fd mu x r g
    = 1 + mu / (r0 * r) * (r0 * (cs1 g ^ 2 - 2 * cs2 g + beta * cs2 g ^ 2)
          + cs1 g * (dt - universal_time mu x v s g - r0 * (cs1 g + beta * cs3 g - s))).
  Proof. intro RR. apply (wronskian_defect mu r0 (vdot x v) beta s dt (cs1 g) (cs2 g) (cs3 g)); auto. Qed.

  Hypotheses (I : stiefel_identities beta s g) (K : universal_time mu x v s g = dt).
  Lemma wronskian_exact : r <> 0 -> drift_f mu x g * drift_gd mu r g - drift_g mu dt g * drift_fd mu x r g = 1.
  Proof.
    intro RR. destruct I as (I0 & I1 & I2). apply (wronskian_one mu r0 (vdot x v) beta s dt (cs0 g) (cs1 g) (cs2 g) (cs3 g)); auto.
  Qed.
  Lemma radius_exact : norm2 (comb (drift_f mu x g) (drift_g mu dt g) x v) = r ^ 2.
  Proof.
    destruct I as (I0 & I1 & I2). rewrite norm2_comb. rewrite <- (sqrt_norm_sq x). fold r0.
    apply (radius_squared mu r0 (vdot x v) beta s dt (cs0 g) (cs1 g) (cs2 g) (cs3 g)); auto.
  Qed.
  Lemma speed_exact : r <> 0 -> norm2 (comb (drift_fd mu x r g) (drift_gd mu r g) x v) = 2 * mu / r - beta.
  Proof.
    intro RR. destruct I as (I0 & I1 & I2). rewrite norm2_comb. rewrite <- (sqrt_norm_sq x). fold r0.
    apply (speed_squared mu r0 (vdot x v) beta (cs0 g) (cs1 g) (cs2 g)); auto.
  Qed.
  (** no collision without radial motion *)
  Lemma radius_nonzero : vcross x v <> vzero -> r <> 0.
  Proof.
    intros C Z. pose proof radius_exact as RX. rewrite Z in RX.
    assert (L : 0 < norm2 x * norm2 v - vdot x v ^ 2) by (rewrite <- lagrange; apply norm2_pos; exact C).
    assert (XP : 0 < norm2 x) by (pose proof (norm2_nonneg x); lra).
    set (a := drift_f mu x g) in *. set (b := drift_g mu dt g) in *. rewrite norm2_comb in RX.
    assert (E : (a * norm2 x + b * vdot x v) ^ 2 + b ^ 2 * (norm2 x * norm2 v - vdot x v ^ 2) = 0) by (transitivity (norm2 x * 0 ^ 2); [rewrite <- RX|]; ring).
    pose proof (pow2_ge_0 (a * norm2 x + b * vdot x v)) as P1. pose proof (pow2_ge_0 b) as P2.
    pose proof (Rmult_le_pos _ _ P2 (Rlt_le _ _ L)) as P3.
    assert (Eb2 : b ^ 2 = 0) by (assert (Y : b ^ 2 * (norm2 x * norm2 v - vdot x v ^ 2) = 0) by lra; apply Rmult_integral in Y; lra).
    assert (Eb : b = 0) by (apply Rsqr_0_uniq; unfold Rsqr; lra).
    assert (Ea2 : (a * norm2 x) ^ 2 = 0) by (transitivity ((a * norm2 x + b * vdot x v) ^ 2); [rewrite Eb; ring|lra]).
    assert (Ea : a = 0).
    { assert (Y : a * norm2 x = 0) by (apply Rsqr_0_uniq; unfold Rsqr; lra). apply Rmult_integral in Y. lra. }
    destruct I as (I0 & I1 & I2). unfold a, drift_f in Ea. fold r0 in Ea. unfold b in Eb.
    assert (Gb : r0 * cs1 g + vdot x v * cs2 g = 0).
    { rewrite <- Eb. unfold drift_g. rewrite <- K. unfold universal_time. fold r0. change (2 * mu / r0 - norm2 v) with beta. rewrite I1. ring. }
    assert (G2 : mu * cs2 g = r0). { apply (Rmult_eq_reg_r (/ r0)); [|apply Rinv_neq_0_compat; exact R0]. rewrite Rinv_r by exact R0. unfold Rdiv in Ea. lra. }
    assert (N : r0 * r0 = norm2 x) by apply sqrt_norm_sq.
    assert (G2n : cs2 g <> 0) by (intro Y; rewrite Y in G2; apply R0; lra).
    (* eta^2 G2 = r0^2 (2 - beta G2) *)
    assert (E1 : vdot x v ^ 2 * cs2 g ^ 2 = r0 ^ 2 * (cs2 g * (2 - beta * cs2 g))).
    { replace (vdot x v ^ 2 * cs2 g ^ 2) with ((vdot x v * cs2 g) ^ 2) by ring. replace (vdot x v * cs2 g) with (- (r0 * cs1 g)) by lra.
      replace ((- (r0 * cs1 g)) ^ 2) with (r0 ^ 2 * cs1 g ^ 2) by ring. rewrite I2, I0. ring. }
    assert (E2 : vdot x v ^ 2 * cs2 g = r0 ^ 2 * (2 - beta * cs2 g)) by (apply (Rmult_eq_reg_r (cs2 g)); [lra|exact G2n]).
    assert (E3 : r0 ^ 2 * norm2 v * cs2 g = r0 ^ 2 * (2 - beta * cs2 g)).
    { rewrite V2. unfold Rdiv. replace (r0 ^ 2 * (2 * mu * / r0 - beta) * cs2 g) with (r0 ^ 2 * (2 * (mu * cs2 g) * / r0 - beta * cs2 g)) by ring.
      rewrite G2. field. exact R0. }
    assert (E4 : vdot x v ^ 2 * cs2 g = norm2 x * norm2 v * cs2 g) by (rewrite E2, <- E3, <- N; ring).
    apply Rmult_eq_reg_r in E4; [lra|exact G2n].
  Qed.
End Drift.

(** exact drift: Wronskian, angular momentum, distance and energy *)
Lemma drift_exact mu dt s x v g : norm2 x <> 0 -> stiefel_identities (orbit_beta mu x v) s g ->
  universal_time mu x v s g = dt -> 0 < universal_radius mu x v g ->
  let '(x', v') := kepler_drift (kepler_setup mu dt x v) g (1 / universal_radius mu x v g) x v in
  (exists f h f' h', x' = vadd (vscale f x) (vscale h v) /\ v' = vadd (vscale f' x) (vscale h' v) /\ f * h' - h * f' = 1)
  /\ vcross x' v' = vcross x v /\ sqrt (norm2 x') = universal_radius mu x v g
  /\ two_body_energy mu x' v' = two_body_energy mu x v.
Proof.
  intros X I K RP. assert (RR : universal_radius mu x v g <> 0) by lra.
  rewrite drift_linear by (auto using sqrt_norm_nz).
  pose proof (wronskian_exact mu dt s x v g X I K RR) as W.
  split; [|split; [|split]].
  - do 4 eexists. split; [reflexivity|]. split; [reflexivity|]. exact W.
  - rewrite vcross_comb, W. apply vscale_1.
  - rewrite (radius_exact mu dt s x v g X I K). replace (universal_radius mu x v g ^ 2) with (Rsqr (universal_radius mu x v g)) by (unfold Rsqr; ring). apply sqrt_Rsqr. lra.
  - unfold two_body_energy. rewrite (speed_exact mu s x v g X I RR), (radius_exact mu dt s x v g X I K).
    replace (universal_radius mu x v g ^ 2) with (Rsqr (universal_radius mu x v g)) by (unfold Rsqr; ring). rewrite sqrt_Rsqr by lra.
    unfold orbit_beta. field. split; [apply sqrt_norm_nz; exact X|exact RR].
Qed.

(** ** The exact drift solves the equation of motion *)
Lemma constant_of_derive f : (forall s, derivable_pt_lim f s 0) -> forall s, f s = f 0.
Proof.
  intros D s. assert (pr : derivable f) by (intro y; exists 0; apply D).
  apply (null_derivative_1 f pr). intro y. apply derive_pt_eq_0. apply D.
Qed.
Ltac lim := match goal with
  | |- derivable_pt_lim (fun s => @?a s + @?b s) _ _ => apply (derivable_pt_lim_plus a b); lim
  | |- derivable_pt_lim (fun s => @?a s - @?b s) _ _ => apply (derivable_pt_lim_minus a b); lim
  | |- derivable_pt_lim (fun s => @?a s * @?b s) _ _ => apply (derivable_pt_lim_mult a b); lim
  | |- derivable_pt_lim (fun s => s) _ _ => apply derivable_pt_lim_id
  | |- derivable_pt_lim (fun s => ?c) _ _ => apply (derivable_pt_lim_const c)
  | _ => eauto
  end.
Lemma derive_ext f h s d e : (forall s, h s = f s) -> d = e -> derivable_pt_lim f s d -> derivable_pt_lim h s e.
Proof.
  intros E <- D eps P. destruct (D eps P) as (del & Q). exists del. intros y N A. rewrite !E. apply Q; assumption.
Qed.

Section Stiefel.
  Variables (beta : R) (g : R -> stumpff R).
  Hypothesis G : stiefel_functions beta g.
  Let D0 s : derivable_pt_lim (fun s => cs0 (g s)) s (- beta * cs1 (g s)). Proof. apply G. Qed.
  Let D1 s : derivable_pt_lim (fun s => cs1 (g s)) s (cs0 (g s)). Proof. apply G. Qed.
  Let D2 s : derivable_pt_lim (fun s => cs2 (g s)) s (cs1 (g s)). Proof. apply G. Qed.
  Let D3 s : derivable_pt_lim (fun s => cs3 (g s)) s (cs2 (g s)). Proof. apply G. Qed.

  Lemma stiefel_0 s : cs0 (g s) = 1 - beta * cs2 (g s).
  Proof.
    assert (E : cs0 (g s) + beta * cs2 (g s) = cs0 (g 0) + beta * cs2 (g 0)).
    { apply (constant_of_derive (fun s => cs0 (g s) + beta * cs2 (g s))). intro y.
      eapply derive_ext; [reflexivity| |lim]. ring. }
    rewrite (proj1 G) in E. cbn in E. lra.
  Qed.
  Lemma stiefel_1 s : cs1 (g s) = s - beta * cs3 (g s).
  Proof.
    assert (E : cs1 (g s) + beta * cs3 (g s) - s = cs1 (g 0) + beta * cs3 (g 0) - 0).
    { apply (constant_of_derive (fun s => cs1 (g s) + beta * cs3 (g s) - s)). intro y.
      eapply derive_ext; [reflexivity| |lim]. cbn beta. rewrite stiefel_0. ring. }
    rewrite (proj1 G) in E. cbn in E. lra.
  Qed.
  Lemma stiefel_2 s : cs1 (g s) ^ 2 = cs2 (g s) * (1 + cs0 (g s)).
  Proof.
    assert (E : cs1 (g s) * cs1 (g s) - cs2 (g s) * (1 + cs0 (g s)) = cs1 (g 0) * cs1 (g 0) - cs2 (g 0) * (1 + cs0 (g 0))).
    { apply (constant_of_derive (fun s => cs1 (g s) * cs1 (g s) - cs2 (g s) * (1 + cs0 (g s)))). intro y.
      eapply derive_ext; [reflexivity| |lim]. cbn beta. rewrite stiefel_0. ring. }
    rewrite (proj1 G) in E. cbn in E. lra.
  Qed.
  Lemma stiefel_hold s : stiefel_identities beta s (g s).
  Proof. split; [apply stiefel_0|split; [apply stiefel_1|apply stiefel_2]]. Qed.
End Stiefel.

Lemma vderive_comb a b s da db x v : derivable_pt_lim a s da -> derivable_pt_lim b s db ->
  vderive (fun s => comb (a s) (b s) x v) s (comb da db x v).
Proof.
  intros A B. unfold vderive, comb, vadd, vscale. cbn.
  split; [|split]; (eapply derive_ext; [reflexivity| |lim]; cbn beta; ring).
Qed.
Lemma vscale_comb k a b x v : vscale k (comb a b x v) = comb (k * a) (k * b) x v.
Proof. unfold comb. vring. Qed.

Lemma comb_10 x v : comb 1 0 x v = x.
Proof. unfold comb. vring. Qed.
Lemma comb_01 x v : comb 0 1 x v = v.
Proof. unfold comb. vring. Qed.

Section Motion.
  Variables (mu : R) (x v : vec R) (g : R -> stumpff R).
  Let beta := orbit_beta mu x v.
  Hypotheses (X : norm2 x <> 0) (C : vcross x v <> vzero) (G : stiefel_functions beta g).
  Let t s := universal_time mu x v s (g s).
  Let r s := universal_radius mu x v (g s).
  Let r0 := sqrt (norm2 x).
  Let R0 : r0 <> 0. Proof. apply sqrt_norm_nz. exact X. Qed.
  Let I s : stiefel_identities beta s (g s). Proof. apply stiefel_hold. exact G. Qed.
  Let D0 s : derivable_pt_lim (fun s => cs0 (g s)) s (- beta * cs1 (g s)). Proof. apply G. Qed.
  Let D1 s : derivable_pt_lim (fun s => cs1 (g s)) s (cs0 (g s)). Proof. apply G. Qed.
  Let D2 s : derivable_pt_lim (fun s => cs2 (g s)) s (cs1 (g s)). Proof. apply G. Qed.
  Let D3 s : derivable_pt_lim (fun s => cs3 (g s)) s (cs2 (g s)). Proof. apply G. Qed.

  Lemma motion_nonzero s : r s <> 0.
  Proof. apply (radius_nonzero mu (t s) s x v (g s) X (I s) eq_refl C). Qed.
  Lemma motion_time s : derivable_pt_lim t s (r s).
  Proof.
    unfold t, universal_time. cbn zeta. eapply derive_ext; [reflexivity| |lim]. cbn beta.
    unfold r, universal_radius. cbn zeta. ring.
  Qed.
  Lemma motion_radius s : derivable_pt_lim r s (vdot x v * cs0 (g s) + (mu - beta * r0) * cs1 (g s)).
  Proof.
    unfold r, universal_radius. cbn zeta. eapply derive_ext; [reflexivity| |lim]. cbn beta.
    unfold beta, orbit_beta, r0. ring.
  Qed.
  Lemma motion_positive s : 0 < r s.
  Proof.
    assert (P0 : 0 < r 0).
    { unfold r, universal_radius. rewrite (proj1 G). cbn [cs1 cs2]. cbn zeta. fold r0. pose proof (sqrt_pos (norm2 x)) as P. fold r0 in P.
      rewrite !Rmult_0_r, !Rplus_0_r. lra. }
    assert (Ct : continuity r).
    { intro y. apply derivable_continuous_pt. eexists. apply motion_radius. }
    destruct (Rlt_dec 0 (r s)) as [|N]; [assumption|exfalso].
    assert (M : r 0 * r s <= 0) by (replace 0 with (r 0 * 0) at 2 by ring; apply Rmult_le_compat_l; lra).
    destruct (Rle_dec 0 s) as [L|L].
    - destruct (IVT_cor r 0 s Ct L M) as (z & _ & Z). exact (motion_nonzero z Z).
    - rewrite Rmult_comm in M. destruct (IVT_cor r s 0 Ct ltac:(lra) M) as (z & _ & Z). exact (motion_nonzero z Z).
  Qed.

  Lemma motion_start : kepler_drift (kepler_setup mu (t 0) x v) (g 0) (1 / r 0) x v = (x, v).
  Proof.
    assert (T0 : t 0 = 0) by (unfold t, universal_time; rewrite (proj1 G); cbn; ring).
    rewrite drift_linear by (auto using sqrt_norm_nz, motion_nonzero). rewrite T0, (proj1 G).
    unfold drift_f, drift_g, drift_fd, drift_gd. cbn [cs0 cs1 cs2 cs3]. unfold Rdiv.
    transitivity (comb 1 0 x v, comb 0 1 x v); [f_equal; f_equal; ring|rewrite comb_10, comb_01; reflexivity].
  Qed.

  Theorem motion : two_body_motion mu t
    (fun s => fst (kepler_drift (kepler_setup mu (t s) x v) (g s) (1 / r s) x v))
    (fun s => snd (kepler_drift (kepler_setup mu (t s) x v) (g s) (1 / r s) x v)).
  Proof.
    intro s. exists (r s). split; [apply motion_positive|]. split; [apply motion_time|].
    assert (L : forall s, kepler_drift (kepler_setup mu (t s) x v) (g s) (1 / r s) x v
       = (comb (drift_f mu x (g s)) (drift_g mu (t s) (g s)) x v, comb (drift_fd mu x (r s) (g s)) (drift_gd mu (r s) (g s)) x v)).
    { intro y. apply drift_linear; auto using sqrt_norm_nz, motion_nonzero. }
    assert (VE : forall f h s d e, (forall s, h s = f s) -> d = e -> vderive f s d -> vderive h s e).
    { intros f h y d e E <- (A & B & D). split; [|split]; (eapply derive_ext; [|reflexivity|eassumption]); intro w; cbn beta; rewrite E; reflexivity. }
    pose proof (motion_nonzero s) as RN. pose proof (motion_positive s) as RP.
    split.
    - eapply VE; [intro y; rewrite L; reflexivity| |apply vderive_comb].
      2:{ unfold drift_f, Rdiv. lim. }
      2:{ unfold drift_g. lim. apply motion_time. }
      cbn beta. rewrite L. cbn [snd]. rewrite vscale_comb. unfold drift_fd, drift_gd. f_equal; field; auto.
    - eapply VE; [intro y; rewrite L; reflexivity| |apply vderive_comb].
      2:{ unfold drift_fd. apply (derivable_pt_lim_div (fun s => - mu * cs1 (g s) / sqrt (norm2 x)) r); [unfold Rdiv; lim|apply motion_radius|exact RN]. }
      2:{ unfold drift_gd. lim. apply (derivable_pt_lim_div (fun s => mu * cs2 (g s)) r); [lim|apply motion_radius|exact RN]. }
      cbn beta. rewrite L. cbn [fst]. rewrite vscale_comb.
      rewrite (radius_exact mu (t s) s x v (g s) X (I s) eq_refl). fold (r s).
      replace (r s ^ 2) with (Rsqr (r s)) by (unfold Rsqr; ring). rewrite sqrt_Rsqr by lra.
      pose proof (I s) as (I0 & I1 & I2). unfold Rsqr. fold r0.
      assert (RE : r s = r0 + vdot x v * cs1 (g s) + (mu - beta * r0) * cs2 (g s)) by reflexivity.
      f_equal.
      + unfold drift_f. fold r0. apply (Rmult_eq_reg_r (r0 * r s ^ 2)); [|auto using Rmult_integral_contrapositive_currified, pow_nonzero].
        transitivity (- mu * (cs0 (g s) * r s - cs1 (g s) * (vdot x v * cs0 (g s) + (mu - beta * r0) * cs1 (g s)))); [field; auto|].
        transitivity (- mu * (r0 - mu * cs2 (g s))); [|field; auto].
        f_equal. transitivity (cs0 (g s) * r0 + (mu - beta * r0) * (cs0 (g s) * cs2 (g s) - cs1 (g s) ^ 2)); [rewrite RE; ring|].
        rewrite I2, I0. ring.
      + unfold drift_g. apply (Rmult_eq_reg_r (r s ^ 2)); [|auto using pow_nonzero].
        transitivity (- mu * (cs1 (g s) * r s - cs2 (g s) * (vdot x v * cs0 (g s) + (mu - beta * r0) * cs1 (g s)))); [field; auto|].
        transitivity (- mu * (t s - mu * cs3 (g s))); [|field; auto].
        f_equal. transitivity (cs1 (g s) * r0 + vdot x v * (cs1 (g s) ^ 2 - cs0 (g s) * cs2 (g s))); [rewrite RE; ring|].
        assert (TE : t s = r0 * s + vdot x v * cs2 (g s) + (mu - beta * r0) * cs3 (g s)) by reflexivity.
        rewrite TE, I2. transitivity (r0 * cs1 (g s) + vdot x v * cs2 (g s)); [ring|]. rewrite I1. ring.
  Qed.
End Motion.

(** ** The step of the code *)
Section Code.
  Context `{TR : Trans R} `{FL : Floor R} `{FU : Fuel}.
  Definition evaluated (k : kepler R) (g : stumpff R) : Prop := exists s, stiefel_gs3 (k_beta k) s = Ok g.
  Lemma newton_inv n : forall k x o g c g' ri, WHFast.newton n k x o g = Ok (c, g', ri) ->
    (c = true -> evaluated k g') /\ ri = radius_inverse k g'.
  Proof.
    induction n as [|n IH]; intros k x o g c g' ri E; cbn [WHFast.newton] in E.
    - injection E as <- <- <-. split; [intro X; discriminate X|reflexivity].
    - destruct (stiefel_gs3 (k_beta k) x) as [g1|] eqn:G; [|discriminate]. cbn [rbind] in E.
      match type of E with (if ?b then _ else _) = _ => destruct b end.
      + injection E as <- <- <-. split; [intros _; exists x; exact G|reflexivity].
      + exact (IH _ _ _ _ _ _ _ E).
  Qed.
  Lemma quartic_inv n : forall k x l g g', quartic n k x l g = Ok (true, g') -> evaluated k g'.
  Proof.
    induction n as [|n IH]; intros k x l g g' E; cbn [quartic] in E; [discriminate|].
    destruct (stiefel_gs3 (k_beta k) x) as [g1|] eqn:G; [|discriminate]. cbn [rbind] in E.
    match type of E with (if ?b then _ else _) = _ => destruct b end.
    + injection E as <-. exists x; exact G.
    + exact (IH _ _ _ _ _ E).
  Qed.
  Lemma bisection_inv n : forall k a b x g', bisection n k a b x = Ok g' -> evaluated k g'.
  Proof.
    induction n as [|n IH]; intros k a b x g' E; cbn [bisection] in E; [discriminate|].
    destruct (stiefel_gs3 (k_beta k) x) as [g1|] eqn:G; [|discriminate]. cbn [rbind] in E.
    match type of E with context [if ?b then (_, _) else _] => destruct b end; cbn beta iota zeta in E;
    (match type of E with (if ?b then _ else _) = _ => destruct b end;
     [injection E as <-; exists x; exact G|exact (IH _ _ _ _ _ E)]).
  Qed.
  Lemma solve_inv k g ri : solve_kepler k = Ok (g, ri) -> evaluated k g /\ ri = radius_inverse k g.
  Proof.
    unfold solve_kepler. cbn zeta. intro E.
    destruct (stiefel_gs3 (k_beta k) _) as [g0|]; [|discriminate]. cbn [rbind] in E.
    match type of E with rbind ?e _ = _ => destruct e as [[[c g1] r1]|] eqn:S; [|discriminate] end. cbn [rbind] in E.
    assert (H : (c = true -> evaluated k g1) /\ r1 = radius_inverse k g1).
    { match type of S with (if ?b then _ else _) = _ => destruct b end.
      - match type of S with rbind ?e _ = _ => destruct e as [[c' g']|] eqn:Q; [|discriminate] end. cbn [rbind fst snd] in S.
        injection S as <- <- <-. split; [intros ->; exact (quartic_inv _ _ _ _ _ _ Q)|reflexivity].
      - exact (newton_inv _ _ _ _ _ _ _ _ S). }
    destruct H as (H1 & H2).
    match type of E with rbind ?e _ = _ => destruct e as [[g2 r2]|] eqn:B; [|discriminate] end. cbn [rbind] in E.
    assert (H : evaluated k g2 /\ r2 = radius_inverse k g2).
    { destruct c.
      - injection B as <- <-. auto.
      - destruct (bisection_bounds k) as [a b]. match type of B with rbind ?e _ = _ => destruct e as [g3|] eqn:Q; [|discriminate] end. cbn [rbind] in B.
        injection B as <- <-. split; [exact (bisection_inv _ _ _ _ _ _ Q)|reflexivity]. }
    num_simpl. replace (Reqb r2 r2) with true in E by (symmetry; apply Reqb_true; reflexivity). cbn [negb] in E.
    injection E as <- <-. exact H.
  Qed.

  (** the step, with the defects of the Stiefel functions and of Kepler's equation *)
  Lemma step_eq mu dt a a' : sqrt (norm2 (a_pos a)) <> 0 -> kepler_step mu dt a = Ok a' ->
    let x := a_pos a in let v := a_vel a in
    exists s g, stiefel_gs3 (orbit_beta mu x v) s = Ok g /\
      let r := universal_radius mu x v g in
      (a_pos a', a_vel a') = kepler_drift (kepler_setup mu dt x v) g (1 / r) x v
      /\ a_mass a' = a_mass a /\ a_mass_g a' = a_mass_g a.
  Proof.
    intros R0 E. cbn zeta. unfold kepler_step in E. cbn zeta in E.
    match type of E with rbind ?e _ = _ => destruct e as [[g ri]|] eqn:S; [|discriminate] end. cbn [rbind fst snd] in E.
    apply solve_inv in S. destruct S as ((s & G) & ->). exists s, g.
    assert (B : k_beta (kepler_setup mu dt (a_pos a) (a_vel a)) = orbit_beta mu (a_pos a) (a_vel a)).
    { unfold kepler_setup, orbit_beta. cbn [k_beta]. num_simpl. field. exact R0. }
    rewrite B in G. split; [exact G|].
    assert (RI : radius_inverse (kepler_setup mu dt (a_pos a) (a_vel a)) g = 1 / universal_radius mu (a_pos a) (a_vel a) g).
    { unfold radius_inverse. num_simpl. apply f_equal. unfold universal_radius. cbn zeta.
      fold (orbit_beta mu (a_pos a) (a_vel a)). rewrite <- B. unfold kepler_setup. cbn [k_r0 k_eta0 k_zeta0 k_beta]. num_simpl. ring. }
    rewrite RI in E. destruct (kepler_drift _ _ _ _ _) as [x' v']. injection E as <-. destruct a; cbn. auto.
  Qed.

  Lemma step_defects mu dt a a' : norm2 (a_pos a) <> 0 -> kepler_step mu dt a = Ok a' ->
    let x := a_pos a in let v := a_vel a in let r0 := sqrt (norm2 x) in let beta := orbit_beta mu x v in
    exists s g b d, stiefel_gs3 beta s = Ok g /\ 
      let r := universal_radius mu x v g in let kappa := dt - universal_time mu x v s g in
      (r <> 0 ->
        vcross (a_pos a') (a_vel a') = vscale (1 + mu / (r0 * r) * (r0 * b + cs1 g * (kappa - r0 * d))) (vcross x v)
        /\ norm2 (vadd (a_pos a') (vscale (r0 * d - kappa) v)) = r ^ 2 + norm2 (vcross x v) * b
        /\ norm2 (a_vel a') = 2 * mu / r - beta + mu ^ 2 / r ^ 2 * b)
      /\ (Rabs (beta * s ^ 2) <= 10 ^ 15 ->
          Rabs b <= 4/10^16 * s ^ 2 * (1 + cs0 g ^ 2) /\ Rabs d <= 3/10^17 * Rabs beta * Rabs s ^ 3 * (1 + Rabs (cs0 g))).
  Proof.
    intros X E. cbn zeta. assert (R0 := sqrt_norm_nz _ X).
    destruct (step_eq mu dt a a' R0 E) as (s & g & G & D & _).
    cbn zeta in D. exists s, g, (cs1 g ^ 2 - 2 * cs2 g + orbit_beta mu (a_pos a) (a_vel a) * cs2 g ^ 2),
      (cs1 g + orbit_beta mu (a_pos a) (a_vel a) * cs3 g - s).
    split; [exact G|]. split; [|intro B; exact (stiefel_defects _ _ _ G B)].
    intro RR. rewrite drift_linear in D by assumption.
    assert (EP : a_pos a' = comb (drift_f mu (a_pos a) g) (drift_g mu dt g) (a_pos a) (a_vel a)) by congruence.
    assert (EV : a_vel a' = comb (drift_fd mu (a_pos a) (universal_radius mu (a_pos a) (a_vel a) g) g)
       (drift_gd mu (universal_radius mu (a_pos a) (a_vel a) g) g) (a_pos a) (a_vel a)) by congruence.
    rewrite EP, EV. clear EP EV E D. generalize dependent (a_vel a). generalize dependent (a_pos a). intros x X R0 v G RR.
    split; [|split].
    - rewrite vcross_comb. f_equal. rewrite (wronskian_code mu dt s x v g X RR). reflexivity.
    - replace (vadd (comb (drift_f mu x g) (drift_g mu dt g) x v) (vscale (sqrt (norm2 x) * (cs1 g + orbit_beta mu x v * cs3 g - s) - (dt - universal_time mu x v s g)) v))
        with (comb (drift_f mu x g) (sqrt (norm2 x) * cs1 g + vdot x v * cs2 g) x v).
      2:{ unfold comb, drift_g, universal_time. cbn zeta. fold (orbit_beta mu x v).
          transitivity (vadd (vscale (drift_f mu x g) x) (vadd (vscale (dt - mu * cs3 g) v) (vscale (sqrt (norm2 x) * (cs1 g + orbit_beta mu x v * cs3 g - s) - (dt - (sqrt (norm2 x) * s + vdot x v * cs2 g + (mu - orbit_beta mu x v * sqrt (norm2 x)) * cs3 g))) v))); [|].
          - f_equal. generalize (sqrt (norm2 x)) (orbit_beta mu x v) (vdot x v). intros. vring.
          - generalize (vscale (drift_f mu x g) x). intro w. generalize (dt - mu * cs3 g). intro k.
            match goal with |- context [vscale ?q v] => generalize q end. intro. vring. }
      rewrite norm2_comb, lagrange.
      assert (V2 : norm2 v = 2 * mu / sqrt (norm2 x) - orbit_beta mu x v) by (unfold orbit_beta; ring).
      rewrite V2. pose proof (sqrt_norm_sq x) as N. unfold drift_f, universal_radius. cbn zeta. fold (orbit_beta mu x v).
      clear V2 RR. generalize dependent (orbit_beta mu x v). generalize (vdot x v). intros h beta _.
      generalize dependent (sqrt (norm2 x)). intros r0 R0 <-. field. exact R0.
    - rewrite norm2_comb.
      assert (V2 : norm2 v = 2 * mu / sqrt (norm2 x) - orbit_beta mu x v) by (unfold orbit_beta; ring).
      rewrite V2. unfold drift_fd, drift_gd. pose proof (sqrt_norm_sq x) as N.
      assert (RE : universal_radius mu x v g = sqrt (norm2 x) + vdot x v * cs1 g + (mu - orbit_beta mu x v * sqrt (norm2 x)) * cs2 g) by reflexivity.
      generalize dependent (universal_radius mu x v g). intros r RR RE. clear V2.
      generalize dependent (orbit_beta mu x v). generalize dependent (vdot x v). intros h beta _ RE.
      generalize dependent (sqrt (norm2 x)). intros r0 R0 <- RE.
      apply (Rmult_eq_reg_r (r ^ 2 * r0)); [|apply Rmult_integral_contrapositive; split; [apply pow_nonzero; exact RR|exact R0]].
      field_simplify; [|auto ..]. rewrite RE. ring.
  Qed.

  (** where Newton's method stops *)
  Lemma newton_update_eq k g s : k_r0 k + (k_eta0 k * cs1 g + k_zeta0 k * cs2 g) <> 0 ->
    newton_update k g s = s + (k_dt k - (k_r0 k * s + k_eta0 k * cs2 g + k_zeta0 k * cs3 g)) / (k_r0 k + (k_eta0 k * cs1 g + k_zeta0 k * cs2 g)).
  Proof. intro N. unfold newton_update, radius_inverse. num_simpl. field. exact N. Qed.
  Lemma newton_exit n : forall (k : kepler R) x o g g' ri, WHFast.newton n k x o g = Ok (true, g', ri) ->
    (exists g0, stiefel_gs3 (k_beta k) o = Ok g0 /\ x = newton_update k g0 o) ->
    exists s, stiefel_gs3 (k_beta k) s = Ok g' /\
      (newton_update k g' s = s
       \/ exists o' g0, stiefel_gs3 (k_beta k) o' = Ok g0 /\ newton_update k g0 o' = s /\ newton_update k g' s = o').
  Proof.
    induction n as [|n IH]; intros k x o g g' ri E H; cbn [WHFast.newton] in E; [discriminate|].
    destruct (stiefel_gs3 (k_beta k) x) as [g1|] eqn:G; [|discriminate]. cbn [rbind] in E. num_simpl.
    destruct (Reqb_spec (newton_update k g1 x) x) as [Q|Q]; cbn [orb] in E.
    - injection E as <- <-. exists x. auto.
    - destruct (Reqb_spec (newton_update k g1 x) o) as [Q'|Q'].
      + injection E as <- <-. destruct H as (g0 & G0 & X). exists x. split; [exact G|]. right. exists o, g0. auto.
      + apply (IH _ _ _ _ _ _ E). exists g1. auto.
  Qed.
End Code.
