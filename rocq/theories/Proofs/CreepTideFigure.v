(** The tidal figure of a creeping body that does not turn freely, on an eccentric orbit *)
From Coquelicot Require Import Coquelicot.
From Coq Require Import Reals Lra Lia List Bool ZArith Arith.
From Verif Require Import Base.Num Base.Result Base.Trans Base.Vec Model.Constants Model.Particle
  Model.Tools Model.Creep Proofs.NumLemmas Proofs.VecLemmas Spec.EffectsSpec Spec.CreepFlatteningSpec Spec.CreepTideSpec.
Open Scope R_scope.

Lemma relax_deriv a b c M : derivable_pt_lim (fun M => a + b * cos M + c * sin M) M (- b * sin M + c * cos M).
Proof. apply is_derive_Reals. auto_derive; [exact I|ring]. Qed.

Lemma slow_tide rho ratio n gam e : follows (n / gam) (1 - 3 * ratio * rho) rho e (fun m => shape_slow rho 0 ratio n gam e m).
Proof.
  set (x := n / gam). set (al := 1 - 3 * ratio * rho).
  assert (Dx : 1 + x ^ 2 <> 0) by nra. assert (Da : 1 + al ^ 2 * x ^ 2 <> 0) by nra.
  exists (fun M => rho * (1 + 3 / 2 * e ^ 2 - 4 * x ^ 2 * e ^ 2 / (1 + al ^ 2 * x ^ 2)) + 3 * rho * e / (1 + x ^ 2) * cos M + 3 * rho * e * x / (1 + x ^ 2) * sin M),
    (fun M => 3 * x * e ^ 2 / (1 + x ^ 2) * (2 + (1 + al) * x ^ 2) / (1 + al ^ 2 * x ^ 2)
              + - 2 * x * e / (1 + al ^ 2 * x ^ 2) * cos M + - 2 * e * x ^ 2 * al / (1 + al ^ 2 * x ^ 2) * sin M).
  split; [|intros M; eexists; eexists; split; [apply relax_deriv|]; split; [apply relax_deriv|]; split].
  - intros M. unfold shape_slow. rewrite !npow_pow. num_simpl. cbn [tsin tcos TransR]. fold x.
    replace (1 - IZR 3 / IZR (Zpos 1) * ratio * rho) with al by (unfold al; field).
    replace (1 + al * al * x ^ 2) with (1 + al ^ 2 * x ^ 2) by ring.
    assert (Ed : forall p q r s : R, p = q -> r = s -> p * cos r = q * cos s /\ p * sin r = q * sin s) by (intros; subst; auto).
    match goal with |- Vec (?p * cos ?r) _ _ = Vec (?q * cos ?s) _ _ => assert (Q1 : p = q) by (field; repeat split; auto; try lra; nra); assert (Q2 : r = s) by (field; repeat split; auto; try lra; nra); destruct (Ed p q r s Q1 Q2) as [E1 E2] end.
    rewrite E1, E2. apply f_equal3; [reflexivity|reflexivity|]. field; repeat split; auto; try lra; nra.
  - field; repeat split; auto; try lra; nra.
  - field; repeat split; auto; try lra; nra.
Qed.

Section Figure.
  Context `{FU : Fuel}.
  Theorem tidal_figure a e period primary companion radius viscosity spin :
    let n := 2 * PI / period in let gam := relaxation_rate K2 primary radius viscosity in
    let rho := tidal_prolateness primary companion radius a in
    spin < capture_rate gam n e ->
    exists figure, (forall m, particle_shape a e m period primary companion radius viscosity spin true false = Ok (figure m)) /\
      follows (n / gam) (1 - 3 * (companion / (primary + companion)) * rho) rho e figure.
  Proof.
    cbv zeta. unfold capture_rate, relaxation_rate, tidal_prolateness. intros Hs.
    eexists. split; [|apply slow_tide]. intros m. unfold particle_shape.
    rewrite !npow_pow. num_simpl. cbn [tpi TransR].
    replace (IZR 2 / IZR (Zpos 1) * PI / period) with (2 * PI / period) by (unfold Rdiv; rewrite Rinv_1; ring).
    set (n := 2 * PI / period) in *.
    replace (IZR 3 / IZR (Zpos 1) * K2 * primary * primary / (IZR 8 / IZR (Zpos 1) * PI * radius ^ 4 * viscosity))
      with (3 * K2 * primary ^ 2 / (8 * PI * radius ^ 4 * viscosity))
      by (unfold Rdiv; rewrite !Rinv_1, !Rmult_1_r; apply f_equal2; [ring|reflexivity]).
    set (gam := 3 * K2 * primary ^ 2 / _) in *.
    replace (if Rltb gam n then IZR 9 / IZR (Zpos 10) * n else 1 * n + IZR 7 / IZR (Zpos 1) * e * e * n)
      with (if Rlt_dec gam n then 9 / 10 * n else n * (1 + 7 * e ^ 2))
      by (unfold Rltb; destruct (Rlt_dec gam n); field).
    rewrite (proj2 (Rltb_true _ _) Hs).
    replace (IZR 15 / IZR (Zpos 1) * companion * radius ^ 3 / (IZR 4 / IZR (Zpos 1) * primary * a ^ 3)) with (15 / 4 * (companion / primary) * (radius / a) ^ 3)
      by (unfold Rdiv; rewrite !Rinv_1, !Rmult_1_r, !Rinv_mult, Rpow_mult_distr, pow_inv; ring).
    reflexivity.
  Qed.
End Figure.
