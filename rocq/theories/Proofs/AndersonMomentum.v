(** The Anderson corrections together exert no force, for any number of bodies *)
From Coq Require Import Reals Lra Psatz List Bool ZArith Lia.
From Verif Require Import Base.Num Base.Vec Model.Constants Model.Particle Model.Relativity
  Proofs.NumLemmas Proofs.VecLemmas Proofs.RelativityProofs Proofs.ShiftProofs Proofs.FrameProofs Spec.EffectsSpec.
Import ListNotations.
Open Scope R_scope.

Definition orbiting_mass (p : particle R) : R := if gr_orbiting p then p_mass p else 0.
Definition orbiting_total (l : list (particle R)) : R := Rsum (map orbiting_mass l).

(** the mass that the way to the Jacobi coordinates adds up *)
Lemma jacobi_mass (k : list (particle R * vec R)) : forall s out,
  js_eta (fst (fold_left to_jacobi_step k (s, out))) = js_eta s + orbiting_total (map fst k).
Proof.
  induction k as [|[p a] k IH]; intros s out; cbn [fold_left map fst orbiting_total]; unfold orbiting_total in *; cbn [map Rsum fold_right].
  - lra.
  - unfold orbiting_mass at 1. destruct (gr_orbiting p) eqn:E.
    + rewrite step_on by exact E. cbv zeta. rewrite IH. cbn [js_eta]. num_simpl. unfold Rsum. lra.
    + rewrite step_off by exact E. rewrite IH. unfold Rsum. lra.
Qed.
Lemma map_fst_combine {A B} (l : list A) : forall k : list B, length k = length l -> map fst (combine l k) = l.
Proof. induction l as [|a l IH]; intros [|b k] H; cbn in *; try discriminate; auto. f_equal. apply IH. now injection H. Qed.

(** the force that the way back hands out *)
Definition pull (pa : particle R * vec R) : vec R := if gr_orbiting (fst pa) then vscale (p_mass (fst pa)) (snd pa) else vzero.
Lemma back_balance (l : list (particle R)) (S0 : vec R) : Forall (fun p => 0 <= p_mass p) l ->
  forall M js, 0 < M -> length js = length l ->
  let r := fold_right from_jacobi_step (M + orbiting_total l, S0, []) (combine l js) in
  fst (fst r) = M /\ vadd (snd (fst r)) (Vsum (map pull (combine l (snd r)))) = S0 /\ length (snd r) = length l.
Proof.
  induction 1 as [|p l Hp Hl IH]; intros M js HM Hj; cbv zeta.
  - cbn [combine fold_right fst snd map Vsum length]. repeat split.
    + unfold orbiting_total. cbn. lra.
    + unfold Vsum. cbn [fold_right]. destruct S0. vunfold. num_simpl. f_equal; ring.
  - destruct js as [|j js]; [discriminate|]. injection Hj as Hj. cbn [combine fold_right].
    assert (HM' : 0 < M + orbiting_mass p) by (unfold orbiting_mass; destruct (gr_orbiting p); lra).
    specialize (IH (M + orbiting_mass p) js HM' Hj). cbv zeta in IH.
    replace (M + orbiting_total (p :: l)) with (M + orbiting_mass p + orbiting_total l) by (unfold orbiting_total; cbn [map Rsum fold_right]; unfold Rsum; lra).
    destruct (fold_right from_jacobi_step _ _) as [[eta s] out]. cbn [fst snd] in IH. destruct IH as (-> & E & L).
    unfold from_jacobi_step, orbiting_mass in *. destruct (gr_orbiting p) eqn:Eo; cbv zeta; cbn [fst snd combine map length].
    + repeat split; [num_simpl; lra| |now rewrite L].
      rewrite <- E. unfold Vsum. cbn [fold_right]. unfold pull at 1. cbn [fst snd]. rewrite Eo.
      generalize (fold_right vadd vzero (map pull (combine l out))). intros w. destruct s, j, w. vunfold. num_simpl. f_equal; field; lra.
    + repeat split; [lra| |now rewrite L].
      rewrite <- E. unfold Vsum. cbn [fold_right]. unfold pull at 1. cbn [fst snd]. rewrite Eo.
      generalize (fold_right vadd vzero (map pull (combine l out))). intros w. destruct s, w. vunfold. num_simpl. f_equal; ring.
Qed.

Lemma pulled (l : list (particle R)) : forall out, length out = length l ->
  net_force relativistic_acc (filter gr_orbiting (map (fun pa : particle R * vec R => if gr_orbiting (fst pa) then on_gr (set_gr_acc (snd pa)) (fst pa) else fst pa) (combine l out)))
  = Vsum (map pull (combine l out)).
Proof.
  unfold net_force. induction l as [|p l IH]; intros [|a out] H; try discriminate; [reflexivity|]. injection H as H.
  cbn [combine map filter fst snd]. unfold pull at 1. cbn [fst snd]. destruct (gr_orbiting p) eqn:E.
  - change (gr_orbiting (on_gr (set_gr_acc a) p)) with (gr_orbiting p). rewrite E. cbn [map Vsum fold_right]. unfold Vsum in *. cbn [fold_right].
    rewrite IH by exact H. reflexivity.
  - rewrite E. rewrite IH by exact H. unfold Vsum. cbn [fold_right].
    generalize (fold_right vadd vzero (map pull (combine l out))). intros w. destruct w. vunfold. num_simpl. f_equal; ring.
Qed.

Lemma anderson_balance ig (host : particle R) l host' l' : 0 < p_mass host -> Forall (fun p => 0 <= p_mass p) l ->
  anderson ig host l = (host', l') -> net_force relativistic_acc (host' :: filter gr_orbiting l') = vzero.
Proof.
  intros Mh Ml. unfold anderson. pose proof (newtonian_length ig host l) as La.
  destruct (newtonian_accelerations ig host l) as [ha accs]. cbn [snd] in La. unfold to_jacobi.
  set (s0 := JSum _ _ _ _). pose proof (jacobi_mass (combine l accs) s0 []) as Em. pose proof (jacobi_length (combine l accs) s0 []) as Lj.
  rewrite (map_fst_combine l accs La) in Em. rewrite combine_length, La, Nat.min_id in Lj.
  destruct (fold_left to_jacobi_step (combine l accs) (s0, [])) as [s js]. cbn [fst snd length] in Em, Lj. cbn [js_eta s0] in Em.
  cbv beta iota zeta. set (corr := map _ (combine l js)).
  assert (Lc : length corr = length l) by (unfold corr; rewrite map_length, combine_length, Lj; cbn; lia). clearbody corr.
  unfold from_jacobi. rewrite Em. cbn [js_eta s0].
  pose proof (back_balance l (vscale (p_mass host + orbiting_total l) vzero) Ml (p_mass host) corr Mh Lc) as B. cbv zeta in B.
  destruct (fold_right from_jacobi_step _ _) as [[eta w] out]. cbn [fst snd] in B. destruct B as (-> & B & Lo).
  intros E. injection E as <- <-. unfold net_force. cbn [map]. fold (net_force relativistic_acc).
  match goal with |- Vsum (?x :: ?y) = _ => change (vadd x (Vsum y) = vzero) end.
  match goal with |- vadd _ (Vsum (map _ ?fl)) = _ => change (Vsum (map (fun b => vscale (p_mass b) (relativistic_acc b)) fl)) with (net_force relativistic_acc fl) end.
  rewrite pulled by exact Lo. revert B. generalize (Vsum (map pull (combine l out))). intros f B.
  replace (vscale _ (relativistic_acc _)) with w.
  - rewrite B. vunfold. num_simpl. f_equal; ring.
  - change (w = vscale (p_mass host) (vmulr w (n1 / p_mass host)%num)). destruct w. vunfold. num_simpl. f_equal; field; lra.
Qed.

Lemma prepare_nonneg (host : particle R) l : 0 < p_mass host -> Forall (fun p => 0 <= p_mass p) l ->
  0 < p_mass (fst (gr_prepare host l)) /\ Forall (fun p => 0 <= p_mass p) (snd (gr_prepare host l)).
Proof.
  intros Hh Hl. unfold gr_prepare, gr_inertial_to_heliocentric.
  assert (A : forall (h : particle R) k, 0 < p_mass h -> Forall (fun p => 0 <= p_mass p) k ->
    0 < p_mass (fst (gr_initialize h k)) /\ Forall (fun p => 0 <= p_mass p) (snd (gr_initialize h k))).
  { intros h k Ah Ak. unfold gr_initialize. destruct (gr_effect (p_gr h)) as [[]| |]; cbn [fst snd];
      split; try exact Ah; try exact Ak; apply Forall_map; eapply Forall_impl; try exact Ak;
      intros p Hp; destruct (gr_orbiting p); exact Hp. }
  destruct (gr_implemented host); apply A; auto.
  apply Forall_map. eapply Forall_impl; [|exact Hl]. intros p Hp. destruct (gr_orbiting p); exact Hp.
Qed.
Theorem anderson_momentum ig (host : particle R) l host' l' : is_anderson host -> 0 < p_mass host -> Forall (fun p => 0 <= p_mass p) l ->
  relativity_pass ig host l = (host', l') -> net_force relativistic_acc (host' :: filter gr_orbiting l') = vzero.
Proof.
  intros Hh Mh Ml. unfold relativity_pass. pose proof (prepare_nonneg host l Mh Ml) as [A B]. pose proof (prepare_effect host l) as E.
  destruct (gr_prepare host l) as [h k]. cbn [fst snd] in *. rewrite E, Hh. now apply anderson_balance.
Qed.
