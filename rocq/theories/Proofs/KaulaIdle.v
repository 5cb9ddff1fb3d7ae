(** * Bodies without tides around a host with Kaula tides (C27) *)
From Coq Require Import List Bool ZArith SpecFloat.
From Verif Require Import Base.Num Base.Result Base.Trans Base.Vec Model.Constants Model.Particle Model.Tools Model.Kaula Model.Creep Model.Tides
  Spec.EffectsSpec Proofs.TidesProofs Proofs.TablesExamples Proofs.TidesExamples.
Import ListNotations.

Local Notation P := (particle f64).
Lemma add_nan_l (x : f64) : nadd S754_nan x = S754_nan. Proof. destruct x; reflexivity. Qed.
Lemma add_nan_r (x : f64) : nadd x S754_nan = S754_nan. Proof. destruct x; reflexivity. Qed.
Lemma sub_nan_l (x : f64) : nsub S754_nan x = S754_nan. Proof. destruct x; reflexivity. Qed.
Lemma mul_nan_r (x : f64) : nmul x S754_nan = S754_nan. Proof. destruct x; reflexivity. Qed.

Section Idle.
  Context `{T : Trans f64} `{FU : Fuel}.
  (** a body without tides, whose tidal coordinates were never set *)
  Definition without_tides (p : P) : Prop := t_effect (p_tides p) = TidesDisabled /\ t_pos (p_tides p) = vzero /\ t_distance (p_tides p) = n0.
  Definition kaula_central (p : P) : bool := match t_effect (p_tides p) with TidesCentral (Kaula _) => true | _ => false end.
  Definition lost (p : P) : Prop := vz (t_acc (p_tides p)) = S754_nan.

  Lemma force_on_idle p host : without_tides p -> kaula_central host = true ->
    exists f p' h', kaula_force p host true = Ok (f, p', h') /\ vz f = S754_nan /\ kaula_central h' = true /\ t_acc (p_tides h') = t_acc (p_tides host).
  Proof.
    intros (_ & Ex & Ed) Hk. unfold kaula_force, kaula_central in *. destruct (t_effect (p_tides host)) as [m|m|] eqn:Et; try discriminate Hk. destruct m; try discriminate Hk. cbn [kaula_of].
    rewrite Ex, Ed. destruct (kaula_radial _ _ _ _ _), (kaula_normal _ _ _ _ _), (kaula_orthogonal _ _ _ _ _). do 3 eexists. split; [reflexivity|].
    split; [|split; reflexivity]. cbn [spherical_to_cartesian vz vzero].
    change (ndiv (n0 : f64) n0) with (S754_nan : f64). now rewrite mul_nan_r, sub_nan_l.
  Qed.
  Lemma force_any p host : kaula_central host = true ->
    exists f p' h', kaula_force p host true = Ok (f, p', h') /\ kaula_central h' = true /\ t_acc (p_tides h') = t_acc (p_tides host) /\ t_effect (p_tides p') = t_effect (p_tides p).
  Proof.
    intros Hk. unfold kaula_force, kaula_central in *. destruct (t_effect (p_tides host)) as [m|m|] eqn:Et; try discriminate Hk. destruct m; try discriminate Hk. cbn [kaula_of].
    destruct (kaula_radial _ _ _ _ _), (kaula_normal _ _ _ _ _), (kaula_orthogonal _ _ _ _ _). do 3 eexists. split; [reflexivity|].
    repeat split; reflexivity.
  Qed.
  (** once a body spoils the sum on the host, it stays so *)
  Lemma stellar_lost f2 l : forall h s, kaula_central h = true -> lost h ->
    exists h' s', rfold (tides_stellar_step f2) l (h, s) = Ok (h', s') /\ kaula_central h' = true /\ lost h' /\ exists t, s' = s ++ t.
  Proof.
    induction l as [|p l IH]; intros h s Hk Hl; cbn [rfold].
    - exists h, s. repeat split; auto. exists []. now rewrite app_nil_r.
    - unfold tides_stellar_step at 1. destruct (force_any p h Hk) as (f & p' & h1 & E & K & A & _). rewrite E. cbn [rbind].
      match goal with |- context [rfold _ l (?a, ?b)] => destruct (IH a b) as (h' & s' & E' & K' & L' & t & Es) end.
      + exact K.
      + unfold lost. cbn. unfold vadd. rewrite A, Hl. apply add_nan_l.
      + exists h', s'. repeat split; auto. rewrite Es, <- app_assoc. eauto.
  Qed.
  Lemma stellar_idle f2 p l2 l1 : without_tides p -> forall h s, kaula_central h = true ->
    exists h' s', rfold (tides_stellar_step f2) (l1 ++ p :: l2) (h, s) = Ok (h', s') /\ kaula_central h' = true /\ lost h' /\ Exists lost s'.
  Proof.
    intro Hp. induction l1 as [|q l1 IH]; intros h s Hk; cbn [app rfold]; unfold tides_stellar_step at 1.
    - destruct (force_on_idle p h Hp Hk) as (f & p' & h1 & E & N & K & A). rewrite E. cbn [rbind].
      match goal with |- context [rfold _ l2 (?a, ?b)] => destruct (stellar_lost f2 l2 a b) as (h' & s' & E' & K' & L' & t & Es) end.
      + exact K.
      + unfold lost. cbn. rewrite N. rewrite mul_nan_r. apply add_nan_r.
      + exists h', s'. repeat split; auto. rewrite Es, <- app_assoc. apply Exists_app. right. constructor. unfold lost. cbn. rewrite N, mul_nan_r. apply add_nan_r.
    - destruct (force_any q h Hk) as (f & q' & h1 & E & K & _). rewrite E. cbn [rbind]. apply IH. exact K.
  Qed.
  Lemma first_loop l : forall t h s r, rfold tides_acceleration_step l (t, h, s) = Ok r ->
    exists t' s', r = (t', snd (fst r), s') /\ (kaula_central (snd (fst r)) = kaula_central h) /\ forall p, (In p s \/ In p l) -> without_tides p -> In p s'.
  Proof.
    induction l as [|q l IH]; intros t h s r E; cbn [rfold] in E.
    - injection E as <-. exists t, s. cbn [fst snd]. repeat split. intros p [X|[]] _. exact X.
    - unfold tides_acceleration_step at 1 in E. destruct (t_effect (p_tides q)) as [m|m|] eqn:Et; cbn [rbind] in E.
      1,3: (apply IH in E; destruct E as (t' & s' & E & K & A); exists t', s'; repeat split; auto; intros p [X|[->|X]] W; apply A; auto; left; apply in_or_app; cbn; auto).
      destruct (model_force m h q) as [[[f h1] q1]|] eqn:Em; [|discriminate E]. cbn [rbind] in E. apply IH in E. destruct E as (t' & s' & E & K & A). exists t', s'.
      assert (Kh : kaula_central h1 = kaula_central h).
      { unfold model_force in Em. destruct m; [injection Em as _ <- _; reflexivity|injection Em as _ <- _; reflexivity|].
        unfold kaula_force in Em. destruct (kaula_of _); [|discriminate Em]. destruct (kaula_radial _ _ _ _ _), (kaula_normal _ _ _ _ _), (kaula_orthogonal _ _ _ _ _). injection Em as _ <- _. reflexivity. }
      split; [exact E|]. split; [congruence|]. intros p [X|[->|X]] W; [apply A; auto; left; apply in_or_app; auto| |apply A; auto].
      destruct W as (W & _). congruence.
  Qed.
  Theorem idle_lost host l r p : kaula_central host = true -> In p l -> without_tides p -> tides_acceleration host l = Ok r ->
    lost (fst r) /\ Exists lost (snd r).
  Proof.
    intros Hk Hp W. unfold tides_acceleration. destruct (rfold _ _ _) as [r1|] eqn:E1; [|intro X; discriminate X]. cbn [rbind].
    destruct (first_loop _ _ _ _ _ E1) as (t' & s' & E & K & A). rewrite E. cbn [fst snd]. set (h1 := on_tides _ _).
    assert (Kh : kaula_central h1 = true) by (rewrite <- Hk, <- K; reflexivity).
    pose proof (A p (or_intror Hp) W) as Hs. destruct (in_split _ _ Hs) as (l1 & l2 & ->).
    unfold kaula_central in Kh. destruct (t_effect (p_tides h1)) as [m|m|] eqn:Et; try discriminate Kh. destruct m; try discriminate Kh.
    destruct (stellar_idle (ndiv n1 (p_mass host)) p l2 l1 W h1 []) as (h' & s2 & E2 & _ & L & X); [unfold kaula_central; now rewrite Et|].
    intro Y. rewrite E2 in Y. injection Y as <-. auto.
  Qed.

  Lemma in_map_fix {A} (f : A -> A) l a : f a = a -> In a l -> In a (map f l).
  Proof. intros E Hi. rewrite <- E. now apply in_map. Qed.
  Lemma rmap_in {A B} (f : A -> res B) l l' a b : rmap f l = Ok l' -> In a l -> f a = Ok b -> In b l'.
  Proof.
    revert l'. induction l as [|x l IH]; intros l' E Hi Hf; [destruct Hi|]. cbn [rmap] in E.
    destruct (f x) as [y|] eqn:Ex; [|discriminate E]. cbn [rbind] in E. destruct (rmap f l) as [ys|] eqn:El; [|discriminate E]. injection E as <-.
    destruct Hi as [->|Hi]; [left; congruence|right; now apply IH].
  Qed.
  Lemma planet_dL_acc h p p' : tides_planet_dL h p = Ok p' -> t_acc (p_tides p') = t_acc (p_tides p).
  Proof.
    unfold tides_planet_dL. destruct (t_effect (p_tides p)); [intro E; injection E as <-; reflexivity| |intro E; injection E as <-; reflexivity].
    destruct (model_torque _ _ _ _); [|discriminate]. intro E. injection E as <-. reflexivity.
  Qed.
  (** the whole tidal part of a force evaluation *)
  Theorem idle_lost_pass m host l r p : kaula_central host = true -> In p l -> without_tides p -> tides_pass m host l = Ok r ->
    lost (fst r) /\ Exists lost (snd r).
  Proof.
    intros Hk Hp W. unfold tides_pass, tides_inertial_to_heliocentric, tides_initialize.
    assert (Hc : is_tides_central (t_effect (p_tides host)) = true).
    { unfold kaula_central in Hk. destruct (t_effect (p_tides host)); try discriminate Hk. reflexivity. }
    rewrite Hc. cbn [p_tides on_tides set_p_tides t_effect set_t_radial_velocity set_t_distance set_t_vel set_t_pos].
    rewrite Hc. unfold tides_forces. set (h1 := on_tides _ (on_tides _ host)). match goal with |- context [creep_shapes _ ?a] => set (l1 := a) end.
    set (m1 := pair_dependent_factors _ _ _) in *.
    assert (Hd : t_effect (p_tides p) = TidesDisabled) by apply W.
    assert (Hp1 : In p l1).
    { unfold l1, ctl_orthogonal_components.
      repeat (apply in_map_fix; [cbn beta; unfold ctl_orthogonal; rewrite Hd; reflexivity|]). exact Hp. }
    destruct (creep_shapes h1 l1) as [l2|] eqn:E2; [|intro X; discriminate X]. cbn [rbind].
    assert (Hp2 : In p l2).
    { eapply rmap_in; [exact E2|exact Hp1|]. unfold creep_update. rewrite Hd. reflexivity. }
    destruct (tides_acceleration _ _) as [r1|] eqn:E3; [|intro X; discriminate X]. cbn [rbind].
    destruct (idle_lost h1 (ctl_radial_components m1 h1 l2) r1 p) as (La & Lb); auto.
    { unfold ctl_radial_components. apply in_map_fix; [unfold ctl_radial; rewrite Hd; reflexivity|exact Hp2]. }
    unfold tides_dangular_momentum_dt. destruct (rmap _ _) as [l4|] eqn:E4; [|intro X; discriminate X]. cbn [rbind].
    destruct (rfold _ _ _) as [s|]; [|intro X; discriminate X]. intro X. injection X as <-. cbn [fst snd].
    split; [exact La|]. apply Exists_exists in Lb. destruct Lb as (q & Hq & Lq). apply Exists_exists.
    assert (exists q', tides_planet_dL (fst r1) q = Ok q') as (q' & Eq).
    { clear - E4 Hq. revert l4 E4. induction (snd r1) as [|x t IH]; intros l4 E4; [destruct Hq|]. cbn [rmap] in E4.
      destruct (tides_planet_dL (fst r1) x) as [y|] eqn:Ex; [|discriminate E4]. cbn [rbind] in E4. destruct (rmap _ t) as [ys|] eqn:El; [|discriminate E4].
      destruct Hq as [->|Hq]; [eauto|]. eapply IH; eauto. }
    exists q'. split; [exact (rmap_in _ _ _ _ _ E4 Hq Eq)|]. unfold lost. now rewrite (planet_dL_acc _ _ _ Eq).
  Qed.
  Theorem kaula_host_nan m host l r idle params :
    t_effect (p_tides host) = TidesCentral (Kaula params) -> In idle l -> t_effect (p_tides idle) = TidesDisabled ->
    t_pos (p_tides idle) = vzero -> t_distance (p_tides idle) = n0 -> tides_pass m host l = Ok r ->
    nan_vec (t_acc (p_tides (fst r))) = true /\ Exists (fun p => nan_vec (t_acc (p_tides p)) = true) (snd r).
  Proof.
    intros Hk Hi Hd Hx Hn E.
    assert (N : forall p, lost p -> nan_vec (t_acc (p_tides p)) = true) by (intros p L; unfold nan_vec; rewrite L; apply orb_true_r).
    destruct (idle_lost_pass m host l r idle) as (A & B); auto; [unfold kaula_central; now rewrite Hk|now repeat split|].
    split; [now apply N|]. revert B. apply Exists_impl. exact N.
  Qed.
  (** with one body without tides, the evaluation does return *)
  Theorem idle_alone m host p : kaula_central host = true -> without_tides p -> exists r, tides_pass m host [p] = Ok r.
  Proof.
    intros Hk W. unfold tides_pass, tides_inertial_to_heliocentric, tides_initialize.
    assert (Hc : is_tides_central (t_effect (p_tides host)) = true).
    { unfold kaula_central in Hk. destruct (t_effect (p_tides host)); try discriminate Hk. reflexivity. }
    rewrite Hc. cbn [p_tides on_tides set_p_tides t_effect set_t_radial_velocity set_t_distance set_t_vel set_t_pos].
    rewrite Hc. unfold tides_forces. set (h1 := on_tides _ (on_tides _ host)).
    assert (Hd : t_effect (p_tides p) = TidesDisabled) by apply W.
    assert (Kh : kaula_central h1 = true) by exact Hk. clearbody h1. cbn [map]. repeat (rewrite Hd; cbn [is_tides_orbiting map]).
    unfold ctl_orthogonal_components, ctl_orthogonal. cbn [map]. rewrite Hd. cbn [orbiting_ctl]. rewrite Hd. cbn [orbiting_ctl].
    unfold creep_shapes, rmap, creep_update. rewrite Hd. replace (neqb n0 n0) with true by reflexivity. cbn [rbind].
    unfold ctl_radial_components, ctl_radial. cbn [map]. rewrite Hd. cbn [orbiting_ctl].
    unfold tides_acceleration. cbn [rfold]. unfold tides_acceleration_step at 1. rewrite Hd. cbn [rbind app].
    set (h2 := on_tides _ h1). assert (Kh2 : kaula_central h2 = true) by exact Kh. clearbody h2.
    assert (Kh2' := Kh2). unfold kaula_central in Kh2'. destruct (t_effect (p_tides h2)) as [k|k|]; try discriminate Kh2'. destruct k; try discriminate Kh2'.
    cbn [rfold]. unfold tides_stellar_step at 1. destruct (force_any p h2 Kh2) as (f & p' & h3 & E & K & A & B). rewrite E. cbn [rbind fst snd app rfold].
    set (h4 := on_tides _ h3). assert (Kh4 : kaula_central h4 = true) by exact K. clearbody h4.
    unfold tides_dangular_momentum_dt, rmap, tides_planet_dL. cbn [on_tides p_tides set_p_tides set_t_acc t_effect]. rewrite B, Hd. cbn [rbind rfold].
    unfold tides_host_dL_step, kaula_central in *. destruct (t_effect (p_tides h4)) as [k|k|] eqn:E4; try discriminate Kh4. destruct k; try discriminate Kh4.
    cbn [model_torque]. unfold kaula_torque. rewrite E4. cbn [rbind]. eauto.
  Qed.
End Idle.

(** witness: a star with Kaula tides and one body without *)
Definition kaula_star64 : P :=
  body64 1 (q64 1 1) vzero vzero (Vec n0 n0 (q64 1 4))
    (TidesCentral (Kaula (KaulaParams [q64 1 1] [q64 1 3] [q64 1 5] (q64 1 1) vzero))) RfDisabled.
Lemma kaula_star_nan `{T : Trans f64} `{U : Fuel} : tides_nan (tides_pass [] kaula_star64 [passive64]) = Some true.
Proof.
  assert (W : without_tides passive64) by repeat split.
  destruct (idle_alone [] kaula_star64 passive64 eq_refl W) as ((h, l) & E).
  destruct (idle_lost_pass [] kaula_star64 [passive64] (h, l) passive64 eq_refl (or_introl eq_refl) W E) as (L & _).
  rewrite E. unfold tides_nan. cbn [existsb]. unfold nan_vec at 1. cbn [fst] in L. rewrite L. cbn [f64_is_nan]. now rewrite orb_true_r.
Qed.
Lemma kaula_star_alone `{T : Trans f64} `{U : Fuel} : tides_nan (tides_pass [] kaula_star64 []) = Some false.
Proof. vm_compute. reflexivity. Qed.
