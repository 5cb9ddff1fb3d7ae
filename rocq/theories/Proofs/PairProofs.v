(** The table of pair-dependent dissipation factors *)
From Coq Require Import List Bool ZArith Arith Lia.
From Verif Require Import Base.Num Base.Result Base.Trans Base.Vec Model.Constants Model.Particle
  Model.Tools Model.Kaula Model.Creep Model.Tides.
Import ListNotations.

Section Pairs.
  Context {F : Type} `{NU : Num F} `{TR : Trans F} `{FL : Floor F}.
  Implicit Types (m : @pairs F) (host p : particle F) (l : list (particle F)).

  Lemma pair_key_inj a b c d : (b < 10)%nat -> (d < 10)%nat -> pair_key a b = pair_key c d -> a = c /\ b = d.
  Proof. unfold pair_key, MAX_PARTICLES. lia. Qed.

  Lemma get_remove_same k m : map_get k (map_remove k m) = None.
  Proof.
    unfold map_get, map_remove. induction m as [|[k' v] m IH]; cbn; auto.
    destruct (Nat.eqb k' k) eqn:E; cbn; auto. rewrite E. exact IH.
  Qed.
  Lemma get_remove_other k k' m : k <> k' -> map_get k (map_remove k' m) = map_get k m.
  Proof.
    intro Hk. unfold map_get, map_remove. induction m as [|[k2 v] m IH]; cbn; auto.
    destruct (Nat.eqb k2 k') eqn:E; cbn.
    - apply Nat.eqb_eq in E. subst. rewrite IH. replace (Nat.eqb k' k) with false; auto.
      symmetry. apply Nat.eqb_neq. auto.
    - destruct (Nat.eqb k2 k); auto.
  Qed.
  Lemma get_insert_same k v m : map_get k (map_insert k v m) = Some v.
  Proof. unfold map_get, map_insert. cbn. now rewrite Nat.eqb_refl. Qed.
  Lemma get_insert_other k k' v m : k <> k' -> map_get k (map_insert k' v m) = map_get k m.
  Proof.
    intro Hk. unfold map_insert, map_get at 1. cbn.
    replace (Nat.eqb k' k) with false by (symmetry; apply Nat.eqb_neq; auto).
    apply (get_remove_other k k' m Hk).
  Qed.

  (** inside the regime of inertial waves: |spin - n| < spin *)
  Definition host_regime host p : bool :=
    nltb (half_excitation host p (nsqrt (p_spin2 host))) (nsqrt (p_spin2 host)).
  Definition planet_regime host p : bool :=
    nltb (half_excitation host p (nsqrt (p_spin2 p))) (nsqrt (p_spin2 p)).
  Definition host_value host p : F :=
    let '(scale, dissipation) :=
      match central_ctl (t_effect (p_tides host)) with
      | Some c => (ctl_scale c, ctl_dissipation c) | None => (n0, n0) end in
    dynamical_dissipation host scale dissipation (half_excitation host p (nsqrt (p_spin2 host))).
  Definition planet_value host p : F :=
    match orbiting_ctl (t_effect (p_tides p)) with
    | Some c => dynamical_dissipation p (ctl_scale c) (ctl_dissipation c) (half_excitation host p (nsqrt (p_spin2 p)))
    | None => n0
    end.

  Definition ids_ok host l : Prop :=
    NoDup (map p_id (host :: l)) /\ Forall (fun p => (p_id p < 10)%nat) (host :: l).

  Definition planet_step host m p :=
    match orbiting_ctl (t_effect (p_tides p)) with
    | Some _ => if host_regime host p then set_pair m (p_id host) (p_id p) (host_value host p)
                else remove_pair m (p_id host) (p_id p)
    | None => m
    end.
  Lemma planet_factors_fold host l m : dynamical_tide (p_evo host) = true ->
    planet_dependent_factors host l m = fold_left (planet_step host) l m.
  Proof.
    intro Hd. unfold planet_dependent_factors. rewrite Hd.
    revert m. induction l as [|p l IH]; intro m; cbn; auto.
    rewrite IH. f_equal. unfold planet_step, host_regime, host_value.
    destruct (orbiting_ctl _); auto.
    destruct (central_ctl _); reflexivity.
  Qed.
  Definition host_step host m p :=
    if dynamical_tide (p_evo p) then
      match orbiting_ctl (t_effect (p_tides p)) with
      | Some _ => if planet_regime host p then set_pair m (p_id p) (p_id host) (planet_value host p)
                  else remove_pair m (p_id host) (p_id p)
      | None => m
      end
    else m.
  Lemma host_factors_fold host l m : host_dependent_factors host l m = fold_left (host_step host) l m.
  Proof.
    unfold host_dependent_factors.
    revert m. induction l as [|p l IH]; intro m; cbn; auto.
    rewrite IH. f_equal. unfold host_step, planet_regime, planet_value.
    destruct (dynamical_tide _); auto. destruct (orbiting_ctl _); reflexivity.
  Qed.

  Lemma planet_step_other host m p k :
    k <> pair_key (p_id host) (p_id p) -> map_get k (planet_step host m p) = map_get k m.
  Proof.
    intro Hk. unfold planet_step, set_pair, remove_pair.
    destruct (orbiting_ctl _); auto. destruct (host_regime host p).
    - now apply get_insert_other.
    - now apply get_remove_other.
  Qed.
  Lemma planet_fold_other host l : forall m k,
    Forall (fun p => k <> pair_key (p_id host) (p_id p)) l ->
    map_get k (fold_left (planet_step host) l m) = map_get k m.
  Proof.
    induction l as [|p l IH]; intros m k Hk; cbn; auto.
    inversion Hk; subst. rewrite IH by auto. now apply planet_step_other.
  Qed.
  Lemma host_step_other host m p k :
    k <> pair_key (p_id host) (p_id p) -> k <> pair_key (p_id p) (p_id host) ->
    map_get k (host_step host m p) = map_get k m.
  Proof.
    intros H1 H2. unfold host_step, set_pair, remove_pair.
    destruct (dynamical_tide _); auto. destruct (orbiting_ctl _); auto. destruct (planet_regime host p).
    - now apply get_insert_other.
    - now apply get_remove_other.
  Qed.
  Lemma host_fold_other host l : forall m k,
    Forall (fun p => k <> pair_key (p_id host) (p_id p) /\ k <> pair_key (p_id p) (p_id host)) l ->
    map_get k (fold_left (host_step host) l m) = map_get k m.
  Proof.
    induction l as [|p l IH]; intros m k Hk; cbn; auto.
    inversion Hk as [|? ? [A B] C]; subst. rewrite IH by auto. now apply host_step_other.
  Qed.

  (** positions of one body in the list *)
  Lemma ids_split host l p : ids_ok host l -> In p l ->
    exists l1 l2, l = l1 ++ p :: l2 /\
      Forall (fun q => p_id q <> p_id p /\ p_id q <> p_id host /\ (p_id q < 10)%nat) (l1 ++ l2) /\
      p_id p <> p_id host /\ (p_id p < 10)%nat /\ (p_id host < 10)%nat.
  Proof.
    intros [Hnd Hlt] Hin. apply in_split in Hin. destruct Hin as (l1 & l2 & ->).
    exists l1, l2. split; auto. inversion Hlt as [|? ? Hh Hl]; subst.
    cbn in Hnd. inversion Hnd as [|? ? Hn Hnd']; subst.
    rewrite map_app in Hnd', Hn. cbn in Hnd', Hn.
    assert (Hpl : (p_id p < 10)%nat).
    { rewrite Forall_app in Hl. destruct Hl as [_ Hl]. inversion Hl; auto. }
    assert (Hph : p_id p <> p_id host).
    { intro E. apply Hn. rewrite in_app_iff. right. left. auto. }
    split; [|auto]. rewrite Forall_forall. intros q Hq. split; [|split].
    - intro E. apply NoDup_remove_2 in Hnd'. apply Hnd'. rewrite <- E, <- map_app. now apply in_map.
    - intro E. apply Hn. rewrite <- E. rewrite !in_app_iff in *. cbn.
      destruct Hq as [Hq|Hq]; [left|right; right]; now apply in_map.
    - rewrite Forall_app in Hl. destruct Hl as [A B]. inversion B; subst. rewrite in_app_iff in Hq.
      rewrite Forall_forall in *. destruct Hq; auto.
  Qed.

  Theorem host_sigma_used host l m p :
    ids_ok host l -> In p l -> dynamical_tide (p_evo host) = true ->
    orbiting_ctl (t_effect (p_tides p)) <> None ->
    (dynamical_tide (p_evo p) = true -> planet_regime host p = true) ->
    host_sigma (pair_dependent_factors host l m) host p =
    if host_regime host p then host_value host p else t_sigma (p_tides host).
  Proof.
    intros Hids Hin Hd Ho Hreg. destruct (ids_split host l p Hids Hin) as (l1 & l2 & -> & Hq & Hph & Hpl & Hhl).
    unfold host_sigma, get_pair_or_else. rewrite Hd.
    unfold pair_dependent_factors. rewrite planet_factors_fold, host_factors_fold by auto.
    rewrite Forall_app in Hq. destruct Hq as [Hq1 Hq2].
    assert (K : forall q : particle F, p_id q <> p_id p /\ p_id q <> p_id host /\ (p_id q < 10)%nat ->
      pair_key (p_id host) (p_id p) <> pair_key (p_id host) (p_id q) /\
      pair_key (p_id host) (p_id p) <> pair_key (p_id q) (p_id host)).
    { intros q (A & B & C). split; intro E; apply pair_key_inj in E; auto; destruct E; auto. }
    set (m1 := fold_left (planet_step host) (l1 ++ p :: l2) m).
    assert (E1 : map_get (pair_key (p_id host) (p_id p)) (fold_left (host_step host) (l1 ++ p :: l2) m1) =
                 map_get (pair_key (p_id host) (p_id p)) m1).
    { rewrite fold_left_app. cbn [fold_left]. rewrite host_fold_other.
      - unfold host_step at 1. destruct (dynamical_tide (p_evo p)) eqn:Edp.
        + destruct (orbiting_ctl (t_effect (p_tides p))); [|contradiction].
          rewrite (Hreg eq_refl). unfold set_pair. rewrite get_insert_other.
          * apply host_fold_other. eapply Forall_impl; [|exact Hq1]. exact K.
          * intro E. apply pair_key_inj in E; auto. destruct E; auto.
        + apply host_fold_other. eapply Forall_impl; [|exact Hq1]. exact K.
      - eapply Forall_impl; [|exact Hq2]. exact K. }
    rewrite E1. unfold m1. rewrite fold_left_app. cbn [fold_left]. rewrite planet_fold_other.
    2:{ eapply Forall_impl; [|exact Hq2]. intros q Hq. apply K in Hq. tauto. }
    unfold planet_step at 1. destruct (orbiting_ctl (t_effect (p_tides p))); [|contradiction].
    destruct (host_regime host p).
    - unfold set_pair. now rewrite get_insert_same.
    - unfold remove_pair. now rewrite get_remove_same.
  Qed.

  Theorem planet_sigma_used host l m p :
    ids_ok host l -> In p l -> dynamical_tide (p_evo p) = true ->
    orbiting_ctl (t_effect (p_tides p)) <> None ->
    planet_regime host p = true ->
    planet_sigma (pair_dependent_factors host l m) host p = planet_value host p.
  Proof.
    intros Hids Hin Hd Ho Hreg. destruct (ids_split host l p Hids Hin) as (l1 & l2 & -> & Hq & Hph & Hpl & Hhl).
    unfold planet_sigma, get_pair_or_else. rewrite Hd.
    unfold pair_dependent_factors. rewrite host_factors_fold.
    rewrite Forall_app in Hq. destruct Hq as [Hq1 Hq2].
    rewrite fold_left_app. cbn [fold_left]. rewrite host_fold_other.
    - unfold host_step at 1. rewrite Hd. destruct (orbiting_ctl (t_effect (p_tides p))); [|contradiction].
      rewrite Hreg. unfold set_pair. now rewrite get_insert_same.
    - eapply Forall_impl; [|exact Hq2]. intros q (A & B & C).
      split; intro E; apply pair_key_inj in E; auto; destruct E; auto.
  Qed.

  Theorem static_sigma_used host l m p :
    (dynamical_tide (p_evo host) = false -> host_sigma (pair_dependent_factors host l m) host p = t_sigma (p_tides host)) /\
    (dynamical_tide (p_evo p) = false -> planet_sigma (pair_dependent_factors host l m) host p = t_sigma (p_tides p)).
  Proof. unfold host_sigma, planet_sigma, get_pair_or_else. split; intros ->; reflexivity. Qed.

  (** what happens outside the regime: the entry of a planet is never removed, the
      entry of the host for that planet is removed instead *)
  Theorem planet_sigma_stale host l m p :
    ids_ok host l -> In p l -> dynamical_tide (p_evo p) = true ->
    orbiting_ctl (t_effect (p_tides p)) <> None ->
    planet_regime host p = false ->
    planet_sigma (pair_dependent_factors host l m) host p = planet_sigma m host p /\
    map_get (pair_key (p_id host) (p_id p)) (pair_dependent_factors host l m) = None.
  Proof.
    intros Hids Hin Hd Ho Hreg. destruct (ids_split host l p Hids Hin) as (l1 & l2 & -> & Hq & Hph & Hpl & Hhl).
    unfold planet_sigma, get_pair_or_else. rewrite Hd.
    unfold pair_dependent_factors. rewrite host_factors_fold.
    rewrite Forall_app in Hq. destruct Hq as [Hq1 Hq2].
    assert (K : forall q : particle F, p_id q <> p_id p /\ p_id q <> p_id host /\ (p_id q < 10)%nat ->
      pair_key (p_id p) (p_id host) <> pair_key (p_id host) (p_id q) /\
      pair_key (p_id p) (p_id host) <> pair_key (p_id q) (p_id host)).
    { intros q (A & B & C). split; intro E; apply pair_key_inj in E; auto; destruct E; auto. }
    rewrite fold_left_app. cbn [fold_left]. split.
    - rewrite host_fold_other by (eapply Forall_impl; [|exact Hq2]; exact K).
      unfold host_step at 1. rewrite Hd. destruct (orbiting_ctl (t_effect (p_tides p))); [|contradiction].
      rewrite Hreg. unfold remove_pair. rewrite get_remove_other.
      2:{ intro E. apply pair_key_inj in E; auto. destruct E; auto. }
      rewrite host_fold_other by (eapply Forall_impl; [|exact Hq1]; exact K).
      replace (map_get (pair_key (p_id p) (p_id host)) (planet_dependent_factors host (l1 ++ p :: l2) m))
        with (map_get (pair_key (p_id p) (p_id host)) m); auto.
      destruct (dynamical_tide (p_evo host)) eqn:Eh.
      + rewrite planet_factors_fold by auto. symmetry. apply planet_fold_other.
        rewrite Forall_app. split; [|constructor].
        * eapply Forall_impl; [|exact Hq1]. intros q Hq. apply K in Hq. tauto.
        * intro E. apply pair_key_inj in E; auto. destruct E; auto.
        * eapply Forall_impl; [|exact Hq2]. intros q Hq. apply K in Hq. tauto.
      + unfold planet_dependent_factors. now rewrite Eh.
    - rewrite host_fold_other.
      + unfold host_step at 1. rewrite Hd. destruct (orbiting_ctl (t_effect (p_tides p))); [|contradiction].
        rewrite Hreg. unfold remove_pair. apply get_remove_same.
      + eapply Forall_impl; [|exact Hq2]. intros q (A & B & C).
        split; intro E; apply pair_key_inj in E; auto; destruct E; auto.
  Qed.
End Pairs.
