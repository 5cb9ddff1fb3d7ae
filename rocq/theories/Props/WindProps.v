(** * The rotation of a star with a wind, over its whole life (property C78) *)
From Coquelicot Require Import Coquelicot.
From Coq Require Import Reals Lra List.
From Verif Require Import Base.Num Base.Vec Model.Constants Model.Particle Model.Wind
  Proofs.NumLemmas Proofs.VecLemmas Proofs.DiskProofs Proofs.DiskExamples Proofs.SpinDown Spec.EffectsSpec Spec.DiskSpec Spec.WindSpec.
Open Scope R_scope.

Theorem C78_spin_down p w : windy_star p -> slowed_by_wind p w ->
  forall t, 0 <= t -> w t = spin_down (wind_constant p) (w_saturation (p_wind p)) (w 0) t.
Proof. exact (star_spins_down p w). Qed.
Print Assumptions C78_spin_down.
(** Below saturation the inverse square of the rate grows uniformly with time, and above it
    saturation is reached after a known time. *)
Theorem C78_skumanich p w : windy_star p -> slowed_by_wind p w -> w 0 <> vzero ->
  let c := wind_constant p in let s := w_saturation (p_wind p) in
  (norm2 (w 0) <= s ^ 2 -> forall t, 0 <= t -> / norm2 (w t) = / norm2 (w 0) + 2 * c * t) /\
  (s ^ 2 < norm2 (w 0) -> forall t, desaturation_time c s (w 0) <= t -> / norm2 (w t) = / s ^ 2 + 2 * c * (t - desaturation_time c s (w 0))).
Proof. exact (star_skumanich p w). Qed.
Print Assumptions C78_skumanich.
Example C78_example : windy_star windy /\ slowed_by_wind windy (skumanich (wind_constant windy) (Vec 1 0 0)).
Proof.
  assert (W : windy_star windy).
  { split; [exact (proj1 windy_ok)|]. split; [reflexivity|]. change (w_k_factor (p_wind windy)) with 1. change (w_saturation (p_wind windy)) with 2.
    change (p_radius windy) with 1. repeat split; try lra. change (0 < 1 * npow (F := R) (1 / 2) 2 * npow (F := R) 1 2). rewrite !npow_pow. lra. }
  split; [exact W|]. apply skumanich_solves; [exact W|]. change (w_saturation (p_wind windy)) with 2. vunfold. num_simpl. lra.
Qed.
