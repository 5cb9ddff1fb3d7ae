(** Bodies without an effect do not matter to the others (constant time lag and
    oblate flattening) *)
From Coq Require Import Reals Lra Lia List Bool ZArith Arith.
From Verif Require Import Base.Num Base.Result Base.Trans Base.Vec Model.Constants Model.Particle
  Model.Tools Model.Kaula Model.Creep Model.Tides Model.Flattening
  Proofs.NumLemmas Proofs.VecLemmas Proofs.TidesProofs Proofs.PairProofs Proofs.FlatteningProofs Spec.EffectsSpec.
Import ListNotations.
Open Scope R_scope.

Lemma Vsum_filter {A} (f : A -> bool) (g : A -> vec R) l :
  Forall (fun x => f x = false -> g x = vzero) l -> Vsum (map g (filter f l)) = Vsum (map g l).
Proof.
  induction 1 as [|x l Hx _ IH]; [reflexivity|]. cbn [filter map].
  destruct (f x) eqn:E; cbn [map]; unfold Vsum in *; cbn [fold_right]; rewrite IH; auto.
  now rewrite (Hx eq_refl), vadd_0_l.
Qed.
Lemma fold_filter {A B} (f : A -> bool) (step : B -> A -> B) l :
  Forall (fun x => f x = false -> forall b, step b x = b) l ->
  forall b, fold_left step (filter f l) b = fold_left step l b.
Proof.
  induction 1 as [|x l Hx _ IH]; intro b; [reflexivity|]. cbn [filter fold_left].
  destruct (f x) eqn:E; cbn [fold_left]; rewrite IH; auto. now rewrite Hx.
Qed.
Lemma filter_map_keep {A} (f : A -> bool) (g : A -> A) l :
  (forall x, f (g x) = f x) -> filter f (map g l) = map g (filter f l).
Proof. intro Hg. induction l as [|x l IH]; cbn; auto. rewrite Hg, IH. now destruct (f x). Qed.

Section DisabledR.
  Context `{TR : Trans R} `{FL : Floor R} `{FU : Fuel}.
  Definition has_tides (p : particle R) : bool := is_tides_orbiting (t_effect (p_tides p)).
  Definition has_flattening (p : particle R) : bool := is_rf_orbiting (rf_effect (p_rf p)).

  Lemma used_pairs_filter m host l : Forall ctl_or_none l -> used_pairs m host (filter has_tides l) = used_pairs m host l.
  Proof.
    intro Hl. unfold used_pairs.
    assert (Hk : forall x, has_tides (ready_one host x) = has_tides x)
      by (intro x; unfold has_tides; now rewrite ready_one_effect).
    rewrite <- (filter_map_keep has_tides (ready_one host) l Hk).
    assert (Hn : forall x b, has_tides x = false ->
      planet_step (ready_host host) b x = b /\ host_step (ready_host host) b x = b).
    { intros x b Hx. unfold planet_step, host_step. unfold has_tides in Hx.
      destruct (t_effect (p_tides x)); try discriminate Hx; cbn [orbiting_ctl]; destruct (dynamical_tide _); auto. }
    unfold pair_dependent_factors. rewrite !host_factors_fold, fold_filter.
    2:{ apply Forall_forall. intros x _ Hx b. now apply Hn. }
    f_equal. destruct (dynamical_tide (p_evo (ready_host host))) eqn:Ed.
    - rewrite !planet_factors_fold by auto. apply fold_filter. apply Forall_forall. intros x _ Hx b. now apply Hn.
    - unfold planet_dependent_factors. now rewrite Ed.
  Qed.
  Lemma final_one_effect m host p : has_tides (final_one m host p) = has_tides p.
  Proof.
    unfold final_one. destruct (is_tides_orbiting (t_effect (p_tides p))) eqn:E; [|reflexivity].
    unfold has_tides, on_tides. tproj. unfold done_one. now rewrite forces_one_effect, ready_one_effect.
  Qed.

  (** dropping every body without tides changes nothing for the others *)
  Theorem tides_disabled m host l :
    ctl_host host -> Forall ctl_or_none l ->
    exists host' l', tides_pass m host l = Ok (host', l') /\
      tides_pass m host (filter has_tides l) = Ok (host', filter has_tides l').
  Proof.
    intros Hh Hl. rewrite tides_pass_ctl by auto.
    rewrite tides_pass_ctl; auto.
    2:{ rewrite Forall_forall in *. intros p Hp. apply filter_In in Hp. apply Hl, Hp. }
    rewrite used_pairs_filter by auto. set (m' := used_pairs m host l). clearbody m'.
    do 2 eexists. split; [reflexivity|].
    rewrite filter_map_keep by apply final_one_effect. f_equal. f_equal.
    unfold final_host. rewrite !Vsum_filter; [reflexivity|..].
    - rewrite Forall_forall in *. intros p Hp Hf. unfold has_tides in Hf. unfold pair_force. now rewrite Hf.
    - rewrite Forall_forall in *. intros p Hp Hf. destruct (Hl p Hp) as [[c Ec]|Hn].
      + unfold has_tides in Hf. rewrite Ec in Hf. discriminate Hf.
      + destruct Hn as (En & _ & _ & Eo). unfold star_torque.
        assert (Ei : done_one m' host p = p).
        { unfold done_one, ready_one. rewrite En. cbn [is_tides_orbiting]. now apply forces_one_idle. }
        rewrite Ei. unfold ctl_torque. rewrite Eo. vunfold. f_equal; ring.
  Qed.

  Lemma filter_map_keep_in {A} (f : A -> bool) (g : A -> A) l :
    Forall (fun x => f (g x) = f x) l -> filter f (map g l) = map g (filter f l).
  Proof. induction 1 as [|x l Hx _ IH]; cbn; auto. rewrite Hx, IH. now destruct (f x). Qed.
  Lemma rf_final_effect host p : oblate_or_none p -> has_flattening (rf_final host p) = has_flattening p.
  Proof.
    intro Hp. unfold rf_final. destruct (is_rf_orbiting (rf_effect (p_rf p))) eqn:E; [|reflexivity].
    unfold has_flattening, on_rf. rfproj. now rewrite rf_done_effect.
  Qed.
  Theorem flattening_disabled host l :
    oblate_host host -> Forall oblate_or_none l ->
    exists host' l', rf_pass host l = Ok (host', l') /\
      rf_pass host (filter has_flattening l) = Ok (host', filter has_flattening l').
  Proof.
    intros Hh Hl. rewrite rf_pass_oblate by auto. rewrite rf_pass_oblate; auto.
    2:{ rewrite Forall_forall in *. intros p Hp. apply filter_In in Hp. apply Hl, Hp. }
    do 2 eexists. split; [reflexivity|].
    rewrite filter_map_keep_in by (eapply Forall_impl; [|exact Hl]; apply rf_final_effect). f_equal. f_equal.
    unfold rf_final_host. rewrite !Vsum_filter; [reflexivity|..].
    - rewrite Forall_forall in *. intros p Hp Hf. unfold has_flattening in Hf. unfold rf_pair_force. now rewrite Hf.
    - rewrite Forall_forall in *. intros p Hp Hf. destruct (Hl p Hp) as [[c Ec]|Hn].
      + unfold has_flattening in Hf. rewrite Ec in Hf. discriminate Hf.
      + unfold rf_star_torque. rewrite (rf_done_idle host p Hn). destruct Hn as (_ & _ & _ & Eo).
        unfold oblate_torque. rewrite Eo. vunfold. f_equal; ring.
  Qed.
End DisabledR.
