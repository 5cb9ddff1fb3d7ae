(** The quadrupole potential and its gradient *)
From Coq Require Import Reals Lra Psatz List Bool ZArith Arith.
From Coquelicot Require Import Coquelicot.
From Verif Require Import Base.Num Base.Result Base.Trans Base.Vec Model.Constants Model.Particle
  Model.Tools Model.Kaula Model.Creep Model.Tides Model.Flattening
  Proofs.NumLemmas Proofs.VecLemmas Proofs.TidesProofs Proofs.FlatteningProofs Spec.EffectsSpec.
Import ListNotations.
Open Scope R_scope.
Ltac toR := try match goal with |- @eq _ ?a ?b => change (@eq R a b) end.
Lemma norm_derive (r v : vec R) : r <> vzero ->
  is_derive (fun t : R => sqrt (norm2 (vadd r (vscale t v)))) 0 (vdot r v / sqrt (norm2 r)).
Proof.
  intro Hr. pose proof (norm2_pos r Hr) as Hn.
  assert (E : forall t : R, norm2 (vadd r (vscale t v)) = norm2 r + t * (2 * vdot r v) + t * t * norm2 v) by (intro; vring).
  apply (is_derive_ext (fun t : R => sqrt (norm2 r + t * (2 * vdot r v) + t * t * norm2 v))).
  { intro t. now rewrite E. }
  clear E. pose proof (norm_pos r Hr) as Hd.
  generalize dependent (norm2 r). intros n Hn Hd. generalize (vdot r v) (norm2 v). intros b c.
  auto_derive.
  - toR. replace (n + 0 * (2 * b) + 0 * 0 * c) with n by (toR; ring). auto.
  - toR. replace (n + 0 * (2 * b) + 0 * 0 * c) with n by (toR; ring). field. lra.
Qed.
Lemma quadrupole_gradient k radius mass spin r : r <> vzero ->
  let d := sqrt (norm2 r) in
  let c := mass * k * radius ^ 5 / 6 in
  gradient_at (quadrupole k radius mass spin) r
    (vadd (vscale (- 3 * c * norm2 spin / d ^ 5 + 15 * c * (vdot r spin) ^ 2 / d ^ 7) r)
          (vscale (- 6 * c * vdot r spin / d ^ 5) spin)).
Proof.
  intros Hr d c v. pose proof (norm_pos r Hr) as Hd. fold d in Hd.
  apply is_derive_Reals. unfold quadrupole. fold c.
  pose proof (norm_derive r v Hr) as HD. fold d in HD.
  assert (H0 : sqrt (norm2 (vadd r (vscale 0 v))) = d).
  { unfold d. f_equal. f_equal. vring. }
  set (f := fun t : R => sqrt (norm2 (vadd r (vscale t v)))) in *.
  change (sqrt (norm2 (vadd r (vscale 0 v)))) with (f 0) in H0.
  apply (is_derive_ext (fun t : R => c * (norm2 spin / f t ^ 3 - 3 * (vdot r spin + t * vdot v spin) ^ 2 / f t ^ 5))).
  { intro t. unfold f. f_equal. f_equal. f_equal. f_equal. f_equal. vring. }
  assert (Ex : ex_derive f 0) by (eexists; exact HD).
  rewrite vdot_add_l, !vdot_scale_l, (vdot_comm spin v).
  clearbody f d c. revert HD. generalize (vdot r v) (vdot r spin) (vdot v spin) (norm2 spin). intros a b e g HD.
  auto_derive.
  - refine (conj Ex (conj _ (conj Ex (conj _ I)))); rewrite H0; apply Rgt_not_eq; repeat apply Rmult_lt_0_compat; lra.
  - replace (Derive (fun x : R => f x) 0) with (a / d) by (symmetry; apply is_derive_unique; exact HD).
    rewrite H0. toR. field. lra.
Qed.

