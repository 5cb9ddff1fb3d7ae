(** First order relativity keeps the energy and the angular momentum of that order *)
From Coquelicot Require Import Coquelicot.
From Coq Require Import Reals Lra Psatz List Bool ZArith Lia.
From Verif Require Import Base.Num Base.Vec Base.Trans Model.Constants Model.Particle
  Proofs.NumLemmas Proofs.VecLemmas Proofs.DiskOrbit Spec.EffectsSpec Spec.DiskSpec Spec.PostNewtonSpec.
Import ListNotations.
Open Scope R_scope.

Ltac der f t v := replace (Derive (fun s : R => f s) t) with v by (symmetry; apply is_derive_unique; assumption).
Lemma dots_deriv (a b c e f g : R -> R) t a' b' c' e' f' g' :
  is_derive a t a' -> is_derive b t b' -> is_derive c t c' -> is_derive e t e' -> is_derive f t f' -> is_derive g t g' ->
  is_derive (fun s : R => a s * e s + b s * f s + c s * g s) t (a' * e t + b' * f t + c' * g t + (a t * e' + b t * f' + c t * g')).
Proof.
  intros A B C E F G. auto_derive.
  - repeat split; eexists; eassumption.
  - der a t a'. der b t b'. der c t c'. der e t e'. der f t f'. der g t g'. ring.
Qed.
Lemma dot_deriv (x v : R -> vec R) t x' v' : vderiv x t x' -> vderiv v t v' ->
  is_derive (fun s => vdot (x s) (v s)) t (vdot x' (v t) + vdot (x t) v').
Proof.
  intros (A1 & A2 & A3) (B1 & B2 & B3). apply is_derive_Reals in A1, A2, A3, B1, B2, B3.
  exact (dots_deriv _ _ _ _ _ _ t _ _ _ _ _ _ A1 A2 A3 B1 B2 B3).
Qed.
(** the energy as a function of the squares and the product *)
Lemma energy_chain (c2 gm eta : R) (n w s : R -> R) t n' w' s' : c2 <> 0 -> 0 < n t -> is_derive n t n' -> is_derive w t w' -> is_derive s t s' ->
  let d := sqrt (n t) in
  is_derive (fun u : R => w u / 2 - gm / sqrt (n u)
     + 1 / c2 * (3 / 8 * (1 - 3 * eta) * w u ^ 2 + 1 / 2 * (3 + eta) * w u * (gm / sqrt (n u))
              + 1 / 2 * eta * (gm / sqrt (n u)) * (s u / sqrt (n u)) ^ 2 + 1 / 2 * (gm / sqrt (n u)) ^ 2)) t
    (w' / 2 + gm * n' / (2 * d ^ 3)
     + 1 / c2 * (3 / 4 * (1 - 3 * eta) * w t * w' + 1 / 2 * (3 + eta) * (w' * (gm / d) - w t * (gm * n' / (2 * d ^ 3)))
                 + 1 / 2 * eta * gm * (2 * s t * s' / d ^ 3 - 3 / 2 * s t ^ 2 * n' / d ^ 5) - 1 / 2 * gm ^ 2 * n' / d ^ 4)).
Proof.
  intros Hc Hn A B C d. assert (Hd : 0 < d) by now apply sqrt_lt_R0.
  auto_derive.
  - change (sqrt (n t)) with d. repeat split; try (eexists; eassumption); try exact Hn; lra.
  - der n t n'. der w t w'. der s t s'.
    change (sqrt (n t)) with d. clearbody d. field. lra.
Qed.
Lemma factor_chain (c2 gm eta : R) (n w : R -> R) t n' w' : c2 <> 0 -> 0 < n t -> is_derive n t n' -> is_derive w t w' ->
  let d := sqrt (n t) in
  is_derive (fun u : R => 1 + 1 / c2 * (1 / 2 * (1 - 3 * eta) * w u + (3 + eta) * (gm / sqrt (n u)))) t
    (1 / c2 * (1 / 2 * (1 - 3 * eta) * w' - (3 + eta) * (gm * n' / (2 * d ^ 3)))).
Proof.
  intros Hc Hn A B d. assert (Hd : 0 < d) by now apply sqrt_lt_R0.
  auto_derive.
  - change (sqrt (n t)) with d. repeat split; try (eexists; eassumption); try exact Hn; lra.
  - der n t n'. der w t w'.
    change (sqrt (n t)) with d. clearbody d. field. lra.
Qed.
Lemma times_deriv (k a : R -> R) t k' a' z : is_derive k t k' -> is_derive a t a' -> k' * a t + k t * a' = z ->
  is_derive (fun u : R => k u * a u) t z.
Proof.
  intros K A <-. auto_derive; [repeat split; eexists; eassumption|].
  der k t k'. der a t a'. ring.
Qed.

Section Motion.
  Variables (c2 gm eta : R) (x v : R -> vec R) (t : R).
  Hypotheses (Hc : c2 <> 0) (Hr : 0 < norm2 (x t))
    (M : disturbed_orbit gm x v t (kidder_1pn c2 gm eta (x t) (v t))).
  Let d := sqrt (norm2 (x t)).
  Let S := vdot (x t) (v t).
  Let W := norm2 (v t).
  (** the correction as a combination of position and velocity *)
  Definition along_r k := - gm / (k * d ^ 3) * ((1 + 3 * eta) * W - 2 * (2 + eta) * (gm / d) - 3 / 2 * eta * (S / d) ^ 2).
  Definition along_v k := gm / (k * d ^ 3) * (2 * (2 - eta)) * S.
  Lemma d_pos : 0 < d. Proof. now apply sqrt_lt_R0. Qed.
  Lemma force_split k : k <> 0 -> kidder_1pn k gm eta (x t) (v t) = vadd (vscale (along_r k) (x t)) (vscale (along_v k) (v t)).
  Proof.
    intros Hk. pose proof d_pos. unfold kidder_1pn, along_r, along_v. cbv zeta. fold d S W.
    generalize d S W H. intros dd ss ww Hd. destruct (x t), (v t). vunfold. num_simpl. f_equal; field; lra.
  Qed.
  Lemma n_deriv : is_derive (fun u => norm2 (x u)) t (2 * S).
  Proof. destruct M as [Dx _]. exact (norm2_deriv _ _ _ Dx). Qed.
  Lemma d2 : d * d = norm2 (x t). Proof. apply norm_sq. Qed.
  Lemma dot_rr a b (r u : vec R) : vdot r (vadd (vscale a r) (vscale b u)) = a * norm2 r + b * vdot r u.
  Proof. destruct r, u. vunfold. num_simpl. ring. Qed.
  Lemma dot_vr a b (r u : vec R) : vdot u (vadd (vscale a r) (vscale b u)) = a * vdot r u + b * norm2 u.
  Proof. destruct r, u. vunfold. num_simpl. ring. Qed.
  Lemma add_first g a b (r u : vec R) : vadd (vscale g r) (vadd (vscale a r) (vscale b u)) = vadd (vscale (g + a) r) (vscale b u).
  Proof. destruct r, u. vunfold. num_simpl. f_equal; ring. Qed.
  Lemma w_deriv : is_derive (fun u => norm2 (v u)) t (2 * ((- gm / d ^ 3 + along_r c2) * S + along_v c2 * W)).
  Proof.
    destruct M as [_ Dv]. rewrite (force_split c2 Hc), add_first in Dv. pose proof (norm2_deriv _ _ _ Dv) as D.
    rewrite dot_vr in D. exact D.
  Qed.
  Lemma s_deriv : is_derive (fun u => vdot (x u) (v u)) t (W + ((- gm / d ^ 3 + along_r c2) * (d * d) + along_v c2 * S)).
  Proof.
    destruct M as [Dx Dv]. rewrite (force_split c2 Hc), add_first in Dv. pose proof (dot_deriv _ _ _ _ _ Dx Dv) as D.
    rewrite dot_rr in D. rewrite d2. exact D.
  Qed.
  Theorem energy_change : derivable_pt_lim (fun u => energy_1pn c2 gm eta (x u) (v u)) t (energy_left gm eta (x t) (v t) / c2 ^ 2).
  Proof.
    apply is_derive_Reals. pose proof (energy_chain c2 gm eta _ _ _ t _ _ _ Hc Hr n_deriv w_deriv s_deriv) as D. cbv zeta in D.
    unfold energy_1pn. cbv zeta.
    match type of D with is_derive _ _ ?l => replace (energy_left gm eta (x t) (v t) / c2 ^ 2) with l; [exact D|] end. clear D.
    fold d S W. unfold energy_left. cbv zeta. rewrite (force_split 1) by lra. rewrite dot_rr, dot_vr. fold d S W. rewrite <- d2.
    pose proof d_pos as Hd. unfold along_r, along_v. generalize d S W Hd. intros dd ss ww Hdd. field. lra.
  Qed.
  Lemma cross_split a b (r u : vec R) : vcross r (vadd (vscale a r) (vscale b u)) = vscale b (vcross r u).
  Proof. destruct r, u. vunfold. num_simpl. f_equal; ring. Qed.
  Theorem momentum_change : vderiv (fun u => momentum_1pn c2 gm eta (x u) (v u)) t (vscale (/ c2 ^ 2) (momentum_left gm eta (x t) (v t))).
  Proof.
    pose proof (factor_chain c2 gm eta _ _ t _ _ Hc Hr n_deriv w_deriv) as D. cbv zeta in D. fold d in D.
    pose proof (momentum_deriv gm x v t _ M) as J. rewrite (force_split c2 Hc), cross_split in J. destruct J as (J1 & J2 & J3).
    apply is_derive_Reals in J1, J2, J3. unfold momentum_left. cbv zeta. rewrite (force_split 1) by lra. rewrite cross_split, dot_vr. fold d S W.
    pose proof d_pos as Hd. unfold along_r, along_v in *.
    assert (A : forall j, 1 / c2 * (1 / 2 * (1 - 3 * eta) * (2 * ((- gm / d ^ 3 + - gm / (c2 * d ^ 3) * ((1 + 3 * eta) * W - 2 * (2 + eta) * (gm / d) - 3 / 2 * eta * (S / d) ^ 2)) * S
        + gm / (c2 * d ^ 3) * (2 * (2 - eta)) * S * W)) - (3 + eta) * (gm * (2 * S) / (2 * d ^ 3))) * j
      + (1 + 1 / c2 * (1 / 2 * (1 - 3 * eta) * W + (3 + eta) * (gm / d))) * (gm / (c2 * d ^ 3) * (2 * (2 - eta)) * S * j)
      = / c2 ^ 2 * ((1 / 2 * (1 - 3 * eta) * W + (3 + eta) * (gm / d)) * (gm / (1 * d ^ 3) * (2 * (2 - eta)) * S * j)
         + (1 - 3 * eta) * (- gm / (1 * d ^ 3) * ((1 + 3 * eta) * W - 2 * (2 + eta) * (gm / d) - 3 / 2 * eta * (S / d) ^ 2) * S + gm / (1 * d ^ 3) * (2 * (2 - eta)) * S * W) * j)).
    { intros j. generalize d S W Hd. intros dd ss ww Hdd. field. lra. }
    unfold momentum_1pn. cbv zeta.
    repeat split; apply is_derive_Reals; (eapply times_deriv; [exact D|eassumption|]); apply A.
  Qed.
End Motion.
