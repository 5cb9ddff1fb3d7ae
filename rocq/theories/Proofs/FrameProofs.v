(** * What each effect may change (C39, C40, C54)

    [c] is any view of a body; an effect that only writes its own part of the body
    leaves every view that does not look at that part. *)
From Coq Require Import List Bool Arith Lia.
From Verif Require Import Base.Num Base.Result Base.Trans Base.Vec Model.Constants Model.Particle Model.Host
  Model.Interp Model.Wind Model.Disk Model.Kaula Model.Creep Model.Tides Model.Flattening Model.Relativity Model.Universe Model.LeapFrog
  Proofs.GravityProofs Proofs.LeapFrogProofs Proofs.UniverseProofs.
Import ListNotations.

Lemma map_same {A B} (c : A -> B) (f : A -> A) l : (forall a, c (f a) = c a) -> map c (map f l) = map c l.
Proof. intro Hf. rewrite map_map. now apply map_ext. Qed.
Lemma rmap_same {A B} (c : A -> B) (f : A -> res A) l l' : (forall a a', f a = Ok a' -> c a' = c a) ->
  rmap f l = Ok l' -> map c l' = map c l.
Proof.
  intro Hf. revert l'; induction l as [|a l IH]; intros l' E; cbn [rmap] in E; [injection E as <-; reflexivity|].
  destruct (f a) as [a'|] eqn:Ea; [|discriminate E]. cbn [rbind] in E.
  destruct (rmap f l) as [m|]; [|discriminate E]. cbn [rbind] in E. injection E as <-. cbn [map]. f_equal; auto.
Qed.
Lemma rmapi_same {A B} (c : A -> B) (f : nat * A -> res A) l l' : (forall i a a', f (i, a) = Ok a' -> c a' = c a) ->
  rmapi f l = Ok l' -> map c l' = map c l.
Proof.
  unfold rmapi. intros Hf E. rewrite <- (map_snd_enumerate l), map_map. revert l' E.
  generalize (enumerate l) as k. induction k as [|[i a] k IH]; intros l' E; cbn [rmap] in E; [injection E as <-; reflexivity|].
  destruct (f (i, a)) as [a'|] eqn:Ea; [|discriminate E]. cbn [rbind] in E.
  destruct (rmap f k) as [m|]; [|discriminate E]. cbn [rbind] in E. injection E as <-. cbn [map snd]. f_equal; eauto.
Qed.
Lemma zip_same {A B C} (c : A -> C) (f : A * B -> A) l (k : list B) : length k = length l -> (forall a b, c (f (a, b)) = c a) ->
  map c (map f (combine l k)) = map c l.
Proof.
  intros Hl Hf. revert k Hl. induction l as [|a l IH]; intros [|b k] Hl; cbn in *; try discriminate; auto. f_equal; auto.
Qed.

Section Frames.
  Context {F : Type} `{Num F} `{Trans F} `{Floor F} `{Fuel} {B : Type}.
  Variable c : particle F -> B.
  Definition keeps (r : particle F * list (particle F)) host l : Prop := c (fst r) = c host /\ map c (snd r) = map c l.
  Definition blind_tides : Prop := forall t p, c (set_p_tides t p) = c p.
  Definition blind_rf : Prop := forall t p, c (set_p_rf t p) = c p.
  Definition blind_gr : Prop := forall t p, c (set_p_gr t p) = c p.
  Definition blind_disk : Prop := forall t p, c (set_p_disk t p) = c p.
  Definition blind_wind : Prop := forall t p, c (set_p_wind t p) = c p.
  Definition blind_spin : Prop := forall s s2 p, c (set_p_spin2 s2 (set_p_spin s p)) = c p.
  Definition blind_evolution : Prop := forall r g i a p,
    c (set_p_inertia i (set_p_rg2 g (set_p_radius r p))) = c p /\ c (set_p_tides (set_t_lag_angle a (p_tides p)) p) = c p.
  Definition blind_iadd : Prop := forall a p, c (set_p_iadd a p) = c p.
  Definition blind_dL : Prop := forall a p, c (set_p_dL a p) = c p.

  Lemma keeps_refl host l : keeps (host, l) host l. Proof. split; reflexivity. Qed.
  Lemma keeps_then f host l r : keeps r host l -> (forall host l, keeps (f host l) host l) -> keeps (f (fst r) (snd r)) host l.
  Proof. intros (K1 & K2) Hf. destruct (Hf (fst r) (snd r)) as (L1 & L2). split; congruence. Qed.

  (** ** Tides *)
  Section Tides.
    Hypothesis Hc : blind_tides.
    Lemma on_tides_same f p : c (on_tides f p) = c p. Proof. apply Hc. Qed.
    Ltac one := intros; repeat match goal with |- context [if ?b then _ else _] => destruct b end; auto using on_tides_same.
    Lemma k_tides_initialize host l : keeps (tides_initialize host l) host l.
    Proof. unfold tides_initialize. destruct (is_tides_central _); [|apply keeps_refl]. split; cbn [fst snd]; [one|]. apply map_same. one. Qed.
    Lemma k_tides_i2h host l : keeps (tides_inertial_to_heliocentric host l) host l.
    Proof. unfold tides_inertial_to_heliocentric. destruct (is_tides_central _); [|apply keeps_refl]. split; cbn [fst snd]; [one|]. apply map_same. one. Qed.
    Lemma k_tides_copy host l : keeps (tides_copy_heliocentric host l) host l.
    Proof. unfold tides_copy_heliocentric, tides_copy_one. destruct (is_tides_central _); [|apply keeps_refl]. split; cbn [fst snd]; [one|]. apply map_same. one. Qed.
    Lemma k_ctl_orthogonal m host l : map c (ctl_orthogonal_components m host l) = map c l.
    Proof.
      unfold ctl_orthogonal_components. rewrite !map_same; auto; intro p; unfold ctl_orthogonal; destruct (orbiting_ctl _); auto; one.
    Qed.
    Lemma k_ctl_radial m host l : map c (ctl_radial_components m host l) = map c l.
    Proof. unfold ctl_radial_components. apply map_same. intro p. unfold ctl_radial. destruct (orbiting_ctl _); auto. one. Qed.
    Lemma k_creep_shapes host l l' : creep_shapes host l = Ok l' -> map c l' = map c l.
    Proof.
      apply rmap_same. intros p p'. unfold creep_update. cbn zeta. destruct (neqb _ _); [intro E; injection E as <-; auto|].
      destruct (creep_shape _ _ _ _ _); [|intro E; discriminate E]. cbn [rbind]. intro E. injection E as <-. one.
    Qed.
    Lemma k_tides_dL host l r : tides_dangular_momentum_dt host l = Ok r -> keeps r host l.
    Proof.
      unfold tides_dangular_momentum_dt. destruct (rmap _ _) as [l'|] eqn:E1; [|intro E; discriminate E]. cbn [rbind].
      destruct (rfold _ _ _) as [s|]; [|intro E; discriminate E]. cbn [rbind]. intro E. injection E as <-. split; cbn [fst snd]; [one|]. cbn [snd].
      revert E1. apply rmap_same. intros p p'. unfold tides_planet_dL. destruct (t_effect _); try (intro E; injection E as <-; auto).
      destruct (model_torque _ _ _ _); [|intro E; discriminate E]. cbn [rbind]. intro E. injection E as <-. one.
    Qed.
    Lemma k_kaula_force host p central f h' p' : kaula_force host p central = Ok (f, h', p') -> c h' = c host /\ c p' = c p.
    Proof.
      unfold kaula_force. destruct (kaula_of _); [|intro E; discriminate E].
      destruct (kaula_radial _ _ _ _ _), (kaula_normal _ _ _ _ _), (kaula_orthogonal _ _ _ _ _).
      destruct central; intro E; injection E as <- <- <-; split; auto; apply Hc.
    Qed.
    Lemma k_model_force m host p f h' p' : model_force m host p = Ok (f, h', p') -> c h' = c host /\ c p' = c p.
    Proof.
      unfold model_force. destruct m; try (intro E; injection E as <- <- <-; auto). apply k_kaula_force.
    Qed.
    Lemma k_acceleration_fold l : forall t h s t' h' s', rfold tides_acceleration_step l (t, h, s) = Ok (t', h', s') ->
      c h' = c h /\ map c s' = map c s ++ map c l.
    Proof.
      induction l as [|p l IH]; intros t h s t' h' s' E; cbn [rfold] in E.
      - injection E as <- <- <-. now rewrite app_nil_r.
      - unfold tides_acceleration_step at 1 in E. destruct (t_effect (p_tides p)) as [m|m|]; cbn [rbind] in E.
        1,3: apply IH in E; destruct E as (-> & ->); rewrite map_app, <- app_assoc; auto.
        destruct (model_force m h p) as [[[f h1] p1]|] eqn:Em; [|discriminate E]. cbn [rbind] in E.
        apply k_model_force in Em. destruct Em as (Eh & Ep). apply IH in E. destruct E as (-> & ->).
        rewrite map_app, <- app_assoc. cbn [map app]. rewrite on_tides_same, Ep. auto.
    Qed.
    Lemma k_stellar_fold f2 l : forall h s h' s', rfold (tides_stellar_step f2) l (h, s) = Ok (h', s') ->
      c h' = c h /\ map c s' = map c s ++ map c l.
    Proof.
      induction l as [|p l IH]; intros h s h' s' E; cbn [rfold] in E.
      - injection E as <- <-. now rewrite app_nil_r.
      - unfold tides_stellar_step at 1 in E. destruct (kaula_force p h true) as [[[f p1] h1]|] eqn:Em; [|discriminate E]. cbn [rbind] in E.
        apply k_kaula_force in Em. destruct Em as (Ep & Eh). apply IH in E. destruct E as (-> & ->).
        rewrite map_app, <- app_assoc. cbn [map app]. rewrite !on_tides_same, Ep. auto.
    Qed.
    Lemma k_tides_acceleration host l r : tides_acceleration host l = Ok r -> keeps r host l.
    Proof.
      unfold tides_acceleration. destruct (rfold _ _ _) as [[[t h] s]|] eqn:E1; [|intro E; discriminate E]. cbn [rbind].
      apply k_acceleration_fold in E1. cbn [map app] in E1. destruct E1 as (E1 & E2).
      set (h1 := on_tides _ h). assert (K : c h1 = c host) by (unfold h1; rewrite on_tides_same; exact E1).
      assert (D : Ok (h1, s) = Ok r -> keeps r host l) by (intro E; injection E as <-; split; auto).
      destruct (t_effect (p_tides h1)) as [m|m|]; [destruct m| |]; auto.
      destruct r as [h' s']. intro E. apply k_stellar_fold in E. destruct E as (X & Y). split; cbn [fst snd]; [congruence|].
      rewrite Y. exact E2.
    Qed.
    Lemma k_tides_denergy l : map c (tides_denergy_dt l) = map c l.
    Proof. apply map_same. intro p. unfold tides_denergy. one. Qed.
  End Tides.

  (** ** Rotational flattening *)
  Section Rf.
    Hypothesis Hc : blind_rf.
    Lemma on_rf_same f p : c (on_rf f p) = c p. Proof. apply Hc. Qed.
    Ltac one := intros; repeat match goal with |- context [if ?b then _ else _] => destruct b end; auto using on_rf_same.
    Lemma k_rf_initialize host l : keeps (rf_initialize host l) host l.
    Proof. unfold rf_initialize. destruct (is_rf_central _); [|apply keeps_refl]. split; cbn [fst snd]; [one|]. apply map_same. one. Qed.
    Lemma k_rf_i2h host l : keeps (rf_inertial_to_heliocentric host l) host l.
    Proof. unfold rf_inertial_to_heliocentric. destruct (is_rf_central _); [|apply keeps_refl]. split; cbn [fst snd]; [one|]. apply map_same. one. Qed.
    Lemma k_rf_copy host l : keeps (rf_copy_heliocentric host l) host l.
    Proof. unfold rf_copy_heliocentric, rf_copy_one. destruct (is_rf_central _); [|apply keeps_refl]. split; cbn [fst snd]; [one|]. apply map_same. one. Qed.
    Lemma k_oblate_orthogonal host l : map c (oblate_orthogonal_components host l) = map c l.
    Proof.
      unfold oblate_orthogonal_components. rewrite !map_same; auto; intro p; unfold oblate_orthogonal;
        (destruct (rf_effect (p_rf p)) as [m|m|]; [|destruct m|]); auto; one.
    Qed.
    Lemma k_oblate_radial host l : map c (oblate_radial_components host l) = map c l.
    Proof. unfold oblate_radial_components. apply map_same. intro p. unfold oblate_radial. one. Qed.
    Lemma k_rf_creep_shapes host l l' : rf_creep_shapes host l = Ok l' -> map c l' = map c l.
    Proof.
      apply rmap_same. intros p p'. unfold rf_creep_update. cbn zeta. destruct (neqb _ _); [intro E; injection E as <-; auto|].
      destruct (creep_shape _ _ _ _ _); [|intro E; discriminate E]. cbn [rbind]. intro E. injection E as <-. one.
    Qed.
    Lemma k_rf_dL host l r : rf_dangular_momentum_dt host l = Ok r -> keeps r host l.
    Proof.
      unfold rf_dangular_momentum_dt. destruct (rmap _ _) as [l'|] eqn:E1; [|intro E; discriminate E]. cbn [rbind].
      destruct (rfold _ _ _) as [s|]; [|intro E; discriminate E]. cbn [rbind]. intro E. injection E as <-. split; cbn [fst snd]; [one|]. cbn [snd].
      revert E1. apply rmap_same. intros p p'. unfold rf_planet_dL. destruct (rf_effect _); try (intro E; injection E as <-; auto).
      destruct (rf_model_torque _ _ _ _); [|intro E; discriminate E]. cbn [rbind]. intro E. injection E as <-. one.
    Qed.
    Lemma k_rf_acceleration host l : keeps (rf_acceleration host l) host l.
    Proof. unfold rf_acceleration. split; cbn [fst snd]; [one|]. apply map_same. intro p. destruct (rf_force_of host p); auto. one. Qed.
  End Rf.

  (** ** General relativity *)
  Section Gr.
    Hypothesis Hc : blind_gr.
    Lemma on_gr_same f p : c (on_gr f p) = c p. Proof. apply Hc. Qed.
    Ltac one := intros; repeat match goal with |- context [if ?b then _ else _] => destruct b end; unfold set_gr_coords; auto using on_gr_same.
    Lemma k_gr_initialize host l : keeps (gr_initialize host l) host l.
    Proof.
      unfold gr_initialize. destruct (gr_effect (p_gr host)) as [i| |]; [destruct i| |]; try apply keeps_refl; (split; cbn [fst snd]; [one|]; apply map_same; one).
    Qed.
    Lemma k_gr_i2h host l : keeps (gr_inertial_to_heliocentric host l) host l.
    Proof. unfold gr_inertial_to_heliocentric. destruct (gr_implemented _); [|apply keeps_refl]. split; cbn [fst snd]; [one|]. apply map_same. one. Qed.
    Lemma k_gr_copy host l : keeps (gr_copy_heliocentric host l) host l.
    Proof. unfold gr_copy_heliocentric, gr_copy_one. destruct (gr_implemented _); [|apply keeps_refl]. split; cbn [fst snd]; [one|]. apply map_same. one. Qed.
    Lemma k_kidder host l : keeps (kidder host l) host l.
    Proof.
      unfold kidder, kidder_1, kidder_2, kidder_3. cbn [fst snd]. split; cbn [fst snd]; [now rewrite !on_gr_same|].
      rewrite !map_same; auto; one.
    Qed.
    Lemma skipped_length host k : forall s, length (snd (fold_left (skipped_pair host) k s)) = (length (snd s) + length k)%nat.
    Proof.
      induction k as [|[p a] k IH]; intro s; cbn [fold_left length]; [lia|]. rewrite IH. unfold skipped_pair. cbn [snd].
      rewrite app_length. cbn. lia.
    Qed.
    Lemma newtonian_length ig (host : particle F) l : length (snd (newtonian_accelerations ig host l)) = length l.
    Proof.
      unfold newtonian_accelerations. set (n := match ig with IgnoreNone => _ | _ => _ end).
      pose proof (skipped_length host (firstn n (combine l (map p_iacc l))) (p_iacc host, [])) as E.
      destruct (fold_left _ _ _) as [h front]. cbn [snd length] in *. rewrite app_length, E, skipn_length, firstn_length, combine_length, map_length. lia.
    Qed.
    Lemma jacobi_length k : forall (s : jacobi_sum) out, length (snd (fold_left to_jacobi_step k (s, out))) = (length out + length k)%nat.
    Proof.
      induction k as [|[p a] k IH]; intros s out; cbn [fold_left length]; [cbn; lia|].
      unfold to_jacobi_step at 2. destruct (gr_orbiting p); rewrite IH, app_length; cbn; lia.
    Qed.
    Lemma from_jacobi_length k z : length (snd (fold_right from_jacobi_step z k)) = (length (snd z) + length k)%nat.
    Proof.
      induction k as [|[p a] k IH]; cbn [fold_right length]; [cbn; lia|]. unfold from_jacobi_step at 1.
      destruct (fold_right from_jacobi_step z k) as [[e s] out]. cbn [snd] in *. destruct (gr_orbiting p); cbn [snd length]; lia.
    Qed.
    Lemma k_anderson ig host l : keeps (anderson ig host l) host l.
    Proof.
      unfold anderson. pose proof (newtonian_length ig host l) as E1. destruct (newtonian_accelerations ig host l) as [ha accs]. cbn [snd] in E1.
      unfold to_jacobi.
      pose proof (jacobi_length (combine l accs) (JSum (p_mass host) (vscale (p_mass host) (p_ipos host)) (vscale (p_mass host) (p_ivel host)) (vscale (p_mass host) ha)) []) as E2.
      destruct (fold_left to_jacobi_step _ _) as [s js]. cbn [snd length] in E2. rewrite combine_length, E1, Nat.min_id in E2. cbn [plus] in E2.
      unfold from_jacobi. set (k := map _ (combine l js)).
      assert (E3 : length k = length l) by (unfold k; rewrite map_length, combine_length, E2; apply Nat.min_id).
      pose proof (from_jacobi_length (combine l k) (js_eta s, vscale (js_eta s) vzero, [])) as E4.
      destruct (fold_right from_jacobi_step _ _) as [[e a] out]. cbn [snd length] in E4. rewrite combine_length, E3, Nat.min_id in E4.
      split; cbn [fst snd]; [one|]. apply zip_same; [exact E4|]. cbn [fst snd]. one.
    Qed.
    Lemma sweep_length (bodies : list (particle F)) newton const old : length const = length bodies ->
      length (newhall_sweep bodies newton const old) = length bodies.
    Proof. intro E. unfold newhall_sweep. rewrite map_length, enumerate_length, combine_length, E. apply Nat.min_id. Qed.
    Lemma loop_length n (bodies : list (particle F)) newton const : length const = length bodies -> forall a, length a = length bodies ->
      length (newhall_loop n bodies newton const a) = length bodies.
    Proof.
      intro E. induction n as [|n IH]; intros a Ha; cbn [newhall_loop]; [exact Ha|].
      destruct (newhall_converged _ _ _); [|apply IH]; now apply sweep_length.
    Qed.
    Lemma k_newhall ig host l : keeps (newhall ig host l) host l.
    Proof.
      unfold newhall. destruct (newtonian_accelerations ig host l) as [ha accs]. split; cbn [fst snd]; [one|].
      apply zip_same; [|cbn [fst snd]; one]. set (a := newhall_loop _ _ _ _ _).
      assert (E : length a = length (host :: l)).
      { apply loop_length; [rewrite map_length; apply enumerate_length|apply map_length]. }
      destruct a; cbn in *; lia.
    Qed.
    Lemma k_gr_effects ig host l : keeps (gr_effects ig host l) host l.
    Proof.
      unfold gr_effects. destruct (gr_effect (p_gr host)) as [i| |]; [destruct i| |];
        try apply keeps_refl; auto using k_kidder, k_anderson, k_newhall.
    Qed.
  End Gr.

  (** ** Disk and wind *)
  Section DiskWind.
    Hypothesis Hd : blind_disk.
    Ltac one := intros; repeat match goal with |- context [if ?b then _ else _] => destruct b end; unfold set_disk_coords, set_disk_acc; auto.
    Lemma k_disk_initialize host l : keeps (disk_initialize host l) host l.
    Proof. unfold disk_initialize. destruct (is_disk_central _); [|apply keeps_refl]. split; cbn [fst snd]; [apply Hd|]. apply map_same. one. Qed.
    Lemma k_disk_i2h host l : keeps (disk_inertial_to_heliocentric host l) host l.
    Proof. unfold disk_inertial_to_heliocentric. destruct (is_disk_central _); [|apply keeps_refl]. split; cbn [fst snd]; [apply Hd|]. apply map_same. one. Qed.
    Lemma k_disk_copy host l : keeps (disk_copy_heliocentric host l) host l.
    Proof. unfold disk_copy_heliocentric, disk_copy_coordinates. destruct (is_disk_central _); [|apply keeps_refl]. split; cbn [fst snd]; [apply Hd|]. apply map_same. one. Qed.
    Lemma k_disk_acceleration t host l : keeps (calculate_disk_acceleration t host l) host l.
    Proof.
      unfold calculate_disk_acceleration. destruct (dk_effect (p_disk host)) as [d| |]; try apply keeps_refl.
      match goal with |- context [fold_left ?f l _] => set (step := f) end.
      assert (T : forall l sum h done, let r := fold_left step l (sum, h, done) in
         c (snd (fst r)) = c h /\ map c (snd r) = map c done ++ map c l).
      { clear - Hd. induction l as [|p l IH]; intros sum h done; cbn zeta; [cbn; now rewrite app_nil_r|]. cbn [fold_left].
        destruct (step (sum, h, done) p) as [[s1 h1] d1] eqn:E.
        destruct (IH s1 h1 d1) as (I1 & I2). rewrite I1, I2.
        assert (c h1 = c h /\ map c d1 = map c done ++ [c p]) as (-> & ->).
        { unfold step in E. destruct (is_disk_orbiting p); injection E as _ <- <-; unfold set_disk_acc; rewrite map_app; cbn [map]; rewrite !Hd; auto. }
        rewrite <- app_assoc. auto. }
      specialize (T l vzero host []). cbn zeta in T. destruct (fold_left step l _) as [[s h'] l']. exact T.
    Qed.
    Hypothesis Hw : blind_wind.
    Lemma k_wind_initialize l : map c (wind_initialize l) = map c l.
    Proof. apply map_same. intro p. destruct (w_on _); auto. apply Hw. Qed.
    Lemma k_wind_factor l : map c (calculate_wind_factor l) = map c l.
    Proof. apply map_same. intro p. destruct (w_on _); auto. apply Hw. Qed.
  End DiskWind.
End Frames.

Section Evaluation.
  Context {F : Type} `{Num F} `{Trans F} `{Floor F} `{Fuel}.
  Definition blind_effects {B} (e : effects) (c : particle F -> B) : Prop :=
    (e_tides e = true -> blind_tides c) /\ (e_rf e = true -> blind_rf c) /\ (e_gr e = true -> blind_gr c)
    /\ (e_disk e = true -> blind_disk c) /\ (e_wind e = true -> blind_wind c).
  Definition blind {B} (e : effects) (c : particle F -> B) : Prop :=
    blind_effects e c /\ blind_spin c /\ (e_evolution e = true -> blind_evolution c).
  (** everything in the universe but the bodies, the pair table and the evolvers *)
  Definition same_rest (u u' : universe F) : Prop :=
    u_effects u' = u_effects u /\ u_hosts u' = u_hosts u /\ u_gr u' = u_gr u /\ u_roche u' = u_roche u
    /\ u_dummies u' = u_dummies u.
  Lemma same_rest_refl u : same_rest u u. Proof. unfold same_rest. auto 6. Qed.
  Lemma same_rest_trans a b d : same_rest a b -> same_rest b d -> same_rest a d.
  Proof. unfold same_rest. intros (-> & -> & -> & -> & ->). auto. Qed.

  Lemma k_opt_step {B} (c : particle F -> B) b f g r host l : keeps c r host l ->
    (b = true -> forall host l, keeps c (f host l) host l) -> (b = true -> forall host l, keeps c (g host l) host l) ->
    keeps c (opt_step b f g r) host l.
  Proof. intros K Hf Hg. unfold opt_step. destruct b; auto. apply keeps_then; [apply keeps_then|]; auto. Qed.
  Lemma k_init_on {B} (c : particle F -> B) b h f g l l' : init_on b h f g l = Ok l' ->
    (b = true -> forall host l, keeps c (f host l) host l) -> (b = true -> forall host l, keeps c (g host l) host l) ->
    map c l' = map c l.
  Proof.
    intros E Hf Hg. unfold init_on in E. destruct b; [|injection E as <-; reflexivity].
    eapply with_host_frame; [exact E|]. intros host o r X. injection X as <-.
    apply (k_opt_step c true f g (host, o) host o); auto. apply keeps_refl.
  Qed.
  Lemma rest_set l u : same_rest u (set_particles l u). Proof. unfold same_rest. cbn. auto 6. Qed.

  Definition init_list (dL acc : bool) (u : universe F) : res (list (particle F)) :=
    let c := u_effects u in
    let h := u_hosts u in
    let it := (dL && e_tides c) || (acc && e_tides c) in
    let ir := (dL && e_rf c) || (acc && e_rf c) in
    let iw := dL && e_wind c in
    let ig := (dL && e_gr c && gr_impl_eqb (u_gr u) Kidder1995) || (acc && e_gr c) in
    let id := acc && e_disk c in
    if it || ir || iw || ig || id then
        let l := if iw then wind_initialize (u_particles u) else u_particles u in
        do l <- with_host (h_most_massive h) l (fun host o =>
                  Ok (opt_step (id && m_disk h) disk_copy_heliocentric disk_initialize
                     (opt_step (ig && m_gr h) gr_copy_heliocentric gr_initialize
                     (opt_step (ir && m_rf h) rf_copy_heliocentric rf_initialize
                     (opt_step (it && m_tides h) tides_copy_heliocentric tides_initialize (host, o))))));
        if negb (m_all h) then
          do l <- init_on (it && negb (m_tides h)) (h_tides h) tides_inertial_to_heliocentric tides_initialize l;
          do l <- init_on (ir && negb (m_rf h)) (h_rf h) rf_inertial_to_heliocentric rf_initialize l;
          do l <- init_on (ig && negb (m_gr h)) (h_gr h) gr_inertial_to_heliocentric gr_initialize l;
          init_on (id && negb (m_disk h)) (h_disk h) disk_inertial_to_heliocentric disk_initialize l
        else Ok l
      else Ok (u_particles u).
  Lemma initialize_eq dL acc u : initialize dL acc u =
    do l <- init_list dL acc u; Ok (set_particles (if acc then map (set_p_iadd vzero) l else l) u).
  Proof. reflexivity. Qed.
  Lemma with_host_frame' {A B} (c : A -> B) h (l : list A) f l' :
    (forall host o r, f host o = Ok r -> c (fst r) = c host /\ map c (snd r) = map c o) ->
    with_host h l f = Ok l' -> map c l' = map c l.
  Proof. intros Hf E. eapply with_host_frame; eauto. Qed.

  Lemma init_list_frame {B} (c : particle F -> B) dL acc u l : blind_effects (u_effects u) c -> init_list dL acc u = Ok l ->
    map c l = map c (u_particles u).
  Proof.
    intros (BT & BF & BG & BD & BW). unfold init_list. cbn zeta.
    set (it := (dL && e_tides _) || _). set (ir := (dL && e_rf _) || _). set (iw := dL && e_wind _).
    set (ig := (dL && e_gr _ && _) || _). set (id := acc && e_disk _).
    assert (T : it = true -> blind_tides c).
    { unfold it. intro X. apply BT. destruct dL, acc, (e_tides (u_effects u)); cbn in X; auto. }
    assert (T1 : ir = true -> blind_rf c).
    { unfold ir. intro X. apply BF. destruct dL, acc, (e_rf (u_effects u)); cbn in X; auto. }
    assert (T2 : ig = true -> blind_gr c).
    { unfold ig. intro X. apply BG. destruct dL, acc, (e_gr (u_effects u)); cbn in X; auto. }
    assert (T3 : id = true -> blind_disk c).
    { unfold id. intro X. apply BD. destruct acc, (e_disk (u_effects u)); cbn in X; auto. }
    assert (T4 : iw = true -> blind_wind c).
    { unfold iw. intro X. apply BW. destruct dL, (e_wind (u_effects u)); cbn in X; auto. }
    clearbody it ir iw ig id. destruct (it || ir || iw || ig || id); [|intro E; injection E as <-; reflexivity].
    set (l0 := if iw then _ else _).
    assert (E0 : map c l0 = map c (u_particles u)).
    { unfold l0. destruct iw; auto. apply k_wind_initialize; auto. }
    clearbody l0. destruct (with_host _ _ _) as [l1|] eqn:E1; [|intro E; discriminate E]. cbn [rbind].
    apply (with_host_frame' c) in E1.
    2:{ intros host o r X. injection X as <-.
        assert (A : forall x y, x && y = true -> x = true) by (intros [] []; auto).
        repeat apply k_opt_step; try apply keeps_refl; intro X; apply A in X; intros;
        auto using k_tides_copy, k_tides_initialize, k_rf_copy, k_rf_initialize, k_gr_copy, k_gr_initialize, k_disk_copy, k_disk_initialize. }
    destruct (negb _); [|intro E; injection E as <-; congruence].
    assert (A : forall x y, x && y = true -> x = true) by (intros [] []; auto).
    destruct (init_on (it && _) _ _ _ l1) as [l2|] eqn:E2; [|intro E; discriminate E]. cbn [rbind].
    apply (k_init_on c) in E2; [|intro X; apply A in X; intros; auto using k_tides_i2h, k_tides_initialize ..].
    destruct (init_on (ir && _) _ _ _ l2) as [l3|] eqn:E3; [|intro E; discriminate E]. cbn [rbind].
    apply (k_init_on c) in E3; [|intro X; apply A in X; intros; auto using k_rf_i2h, k_rf_initialize ..].
    destruct (init_on (ig && _) _ _ _ l3) as [l4|] eqn:E4; [|intro E; discriminate E]. cbn [rbind].
    apply (k_init_on c) in E4; [|intro X; apply A in X; intros; auto using k_gr_i2h, k_gr_initialize ..].
    intro E5. apply (k_init_on c) in E5; [|intro X; apply A in X; intros; auto using k_disk_i2h, k_disk_initialize ..].
    congruence.
  Qed.

  Lemma evolve_non_spin_frame {B} (c : particle F -> B) t (p p' : particle F) e e' : blind_evolution c ->
    evolve_non_spin t (p, e) = Ok (p', e') -> c p' = c p.
  Proof.
    unfold evolve_non_spin. intros Hc E.
    destruct (evolver_radius e t (p_radius p)) as [[nr e1]|]; cbn [rbind] in E; [|discriminate E].
    destruct (evolver_rg2 e1 t (p_rg2 p)) as [[ng e2]|]; cbn [rbind] in E; [|discriminate E].
    match type of E with context [t_effect (p_tides ?q)] =>
      assert (Hq : c q = c p); [|set (q0 := q) in *]
    end.
    { destruct (negb _ || negb _)%bool; [|reflexivity]. apply (Hc nr ng _ n0 p). }
    clearbody q0. assert (p' = q0) as ->; [|exact Hq].
    destruct (t_effect (p_tides q0)) as [m|m|]; [destruct m|destruct m|]; try congruence;
      destruct (evolver_love _ _ _) as [[? ?]|]; cbn [rbind] in E; congruence.
  Qed.
  Lemma evolve_spin_frame {B} (c : particle F -> B) s t (p p' : particle F) e e' : blind_evolution c ->
    evolve_spin s t (p, e) = Ok (p', e') -> c p' = c p.
  Proof.
    intros Hc. unfold evolve_spin. destruct (dynamical_tide _).
    - destruct (evolver_invq _ _ _) as [[q e1]|]; [|intro X; discriminate X]. cbn [rbind]. intro X. injection X as <- <-.
      apply (Hc n0 n0 n0).
    - intro X. injection X as <- <-. apply (Hc n0 n0 n0).
  Qed.
  Lemma spin_view {B} (c : particle F -> B) t ev u u' : blind_spin c -> (e_evolution (u_effects u) = true -> blind_evolution c) ->
    spin_and_evolving t ev u = Ok u' -> map c (u_particles u') = map c (u_particles u) /\ same_rest u u'.
  Proof.
    intros BS BE. unfold spin_and_evolving.
    destruct (if ev && _ then rzip (evolve_non_spin t) _ _ else _) as [[l1 e1]|] eqn:E1; [|intro X; discriminate X]. cbn [rbind fst snd].
    assert (H3 : map c l1 = map c (u_particles u)).
    { destruct (ev && _) eqn:Ee; [|injection E1 as <- _; reflexivity]. apply andb_true_iff in Ee. destruct Ee as (_ & Ee).
      eapply rzip_frame; [|exact E1]. intros a b a' b'. apply evolve_non_spin_frame. auto. }
    destruct (rmapi refresh_spin l1) as [l2|] eqn:E2; [|intro X; discriminate X]. cbn [rbind].
    assert (H4 : map c l2 = map c l1).
    { revert E2. apply rmapi_same. intros i a a'. unfold refresh_spin. destruct (neqb _ _); [intro X; discriminate X|].
      intro X. injection X as <-. apply BS. }
    destruct (if ev && _ then rzip (evolve_spin _ t) _ _ else _) as [[l3 e3]|] eqn:E3; [|intro X; discriminate X]. cbn [rbind fst snd].
    intro X. injection X as <-. cbn [u_particles set_evolvers set_particles].
    assert (H5 : map c l3 = map c l2).
    { destruct (ev && _) eqn:Ee; [|injection E3 as <- _; reflexivity]. apply andb_true_iff in Ee. destruct Ee as (_ & Ee).
      eapply rzip_frame; [|exact E3]. intros a b a' b'. apply evolve_spin_frame. auto. }
    split; [congruence|]. unfold same_rest. cbn. auto 6.
  Qed.

  Lemma spin_frame {B} (c : particle F -> B) t ev u u' : blind (u_effects u) c -> spin_and_evolving t ev u = Ok u' ->
    map c (u_particles u') = map c (u_particles u) /\ same_rest u u'.
  Proof. intros (_ & BS & BE). now apply spin_view. Qed.

  Lemma tidal_host_frame {B} (c : particle F -> B) e dL acc m host o r : (e_tides e = true -> blind_tides c) -> (e_rf e = true -> blind_rf c) ->
    tidal_host_effects e dL acc m host o = Ok r ->
    keeps c r host o.
  Proof.
    intros BT BF. unfold tidal_host_effects.
    destruct (if e_tides e then creep_shapes _ _ else _) as [o1|] eqn:E1; [|intro X; discriminate X]. cbn [rbind].
    assert (K1 : map c o1 = map c o).
    { destruct (e_tides e) eqn:Et; [|injection E1 as <-; reflexivity].
      apply k_creep_shapes with (c := c) in E1; auto. rewrite E1. apply k_ctl_orthogonal; auto. }
    destruct (if e_rf e then rf_creep_shapes _ _ else _) as [o2|] eqn:E2; [|intro X; discriminate X]. cbn [rbind].
    assert (K2 : map c o2 = map c o).
    { rewrite <- K1. destruct (e_rf e) eqn:Et; [|injection E2 as <-; reflexivity].
      apply k_rf_creep_shapes with (c := c) in E2; auto. rewrite E2. apply k_oblate_orthogonal; auto. }
    destruct (if acc then _ else _) as [s|] eqn:E3; [|intro X; discriminate X]. cbn [rbind].
    assert (K3 : keeps c s host o).
    { destruct acc; [|injection E3 as <-; split; auto].
      destruct (if e_tides e then tides_acceleration _ _ else _) as [s1|] eqn:E4; [|discriminate E3]. cbn [rbind] in E3.
      assert (K4 : keeps c s1 host o).
      { destruct (e_tides e) eqn:Et; [|injection E4 as <-; split; auto].
        apply k_tides_acceleration with (c := c) in E4; auto. destruct E4 as (X & Y). split; auto. rewrite Y, k_ctl_radial; auto. }
      injection E3 as <-. destruct (e_rf e) eqn:Et; [|exact K4]. destruct K4 as (X & Y).
      destruct (k_rf_acceleration c (BF eq_refl) (fst s1) (oblate_radial_components (fst s1) (snd s1))) as (X' & Y').
      split; [congruence|]. rewrite Y', k_oblate_radial; auto. }
    destruct dL; [|intro X; injection X as <-; exact K3].
    destruct (if e_tides e then tides_dangular_momentum_dt _ _ else _) as [s2|] eqn:E5; [|intro X; discriminate X]. cbn [rbind].
    assert (K5 : keeps c s2 host o).
    { destruct (e_tides e) eqn:Et; [|injection E5 as <-; exact K3]. apply k_tides_dL with (c := c) in E5; auto.
      destruct E5, K3. split; congruence. }
    destruct (e_rf e) eqn:Et; [|intro X; injection X as <-; exact K5]. intro E6. apply k_rf_dL with (c := c) in E6; auto.
    destruct E6, K5. split; congruence.
  Qed.
  Lemma tidal_view {B} (c : particle F -> B) dL acc u u' :
    (e_tides (u_effects u) = true -> blind_tides c) -> (e_rf (u_effects u) = true -> blind_rf c) -> tidal_effects dL acc u = Ok u' ->
    map c (u_particles u') = map c (u_particles u) /\ same_rest u u'.
  Proof.
    intros BT BF. unfold tidal_effects. destruct (e_tides _ || e_rf _); [|intro X; injection X as <-; split; [reflexivity|apply same_rest_refl]].
    set (needed := (_ || _)). cbn zeta. set (m := if needed then _ else _).
    destruct (with_host _ _ _) as [l|] eqn:E1; [|intro X; discriminate X]. cbn [rbind]. intro X. injection X as <-.
    split; [|unfold same_rest; cbn; auto 6]. cbn [u_particles set_pairs set_particles].
    apply (with_host_frame' c) in E1; [exact E1|]. intros host o r. destruct needed.
    - apply tidal_host_frame; auto.
    - intro X. injection X as <-. apply keeps_refl.
  Qed.
  Lemma tidal_frame {B} (c : particle F -> B) dL acc u u' : blind_effects (u_effects u) c -> tidal_effects dL acc u = Ok u' ->
    map c (u_particles u') = map c (u_particles u) /\ same_rest u u'.
  Proof. intros (BT & BF & _). now apply tidal_view. Qed.

  Lemma blind_unit e : blind e (fun _ : particle F => tt).
  Proof.
    unfold blind, blind_effects, blind_tides, blind_rf, blind_gr, blind_disk, blind_wind, blind_spin, blind_evolution. auto 12.
  Qed.
  Definition torques_on (e : effects) (i : gr_impl) : bool :=
    e_tides e || e_rf e || (e_gr e && gr_impl_eqb i Kidder1995) || e_wind e.
  (** the evaluation of the effects, up to the final sums *)
  Lemma evaluation t ev dL acc ig u u' : additional_effects t ev dL acc ig u = Ok u' ->
    exists l0 u1 u2 l, init_list dL acc u = Ok l0 /\ u1 = set_particles (if acc then map (set_p_iadd vzero) l0 else l0) u
    /\ spin_and_evolving t ev u1 = Ok u2
    /\ (forall B (c : particle F -> B), blind_effects (u_effects u) c -> map c l = map c (u_particles u2))
    /\ same_rest u u'
    /\ u_particles u' =
         (let e := u_effects u in
          let l := if dL && torques_on e (u_gr u) then map sum_dL l else l in
          if acc then map (add_corrections e) l else l).
  Proof.
    unfold additional_effects. rewrite initialize_eq. destruct (init_list dL acc u) as [l0|] eqn:E1; [|intro X; discriminate X]. cbn [rbind].
    set (u1 := set_particles _ u).
    assert (R1 : same_rest u u1) by apply rest_set.
    destruct (spin_and_evolving t ev u1) as [u2|] eqn:E2; [|intro X; discriminate X]. cbn [rbind].
    assert (R2 : same_rest u u2).
    { eapply same_rest_trans; [exact R1|]. apply (spin_frame (fun _ => tt)) in E2; [apply E2|]. apply blind_unit. }
    set (u3 := if dL && _ then _ else u2).
    assert (R3 : same_rest u u3).
    { unfold u3. destruct (dL && _); [|exact R2]. eapply same_rest_trans; [exact R2|]. apply rest_set. }
    destruct (tidal_effects dL acc u3) as [u4|] eqn:E4; [|intro X; discriminate X]. cbn [rbind].
    assert (R4 : same_rest u u4).
    { eapply same_rest_trans; [exact R3|]. apply (tidal_frame (fun _ => tt)) in E4; [apply E4|]. apply blind_unit. }
    destruct (if acc && e_gr _ then _ else _) as [l5|] eqn:E5; [|intro X; discriminate X]. cbn [rbind].
    destruct (if acc && e_disk _ then _ else _) as [l6|] eqn:E6; [|intro X; discriminate X]. cbn [rbind].
    intro X. injection X as <-. exists l0, u1, u2, l6. split; [reflexivity|]. split; [reflexivity|]. split; [exact E2|]. split; [|split].
    - intros B c Hc. pose proof Hc as (BT & BF & BG & BD & BW).
      assert (Re2 : u_effects u2 = u_effects u) by apply R2.
      assert (Re3 : u_effects u3 = u_effects u) by apply R3.
      assert (K3 : map c (u_particles u3) = map c (u_particles u2)).
      { subst u3. destruct (dL && e_wind (u_effects u2)) eqn:Ed; [|reflexivity]. apply andb_true_iff in Ed. destruct Ed as (_ & Ed).
        cbn [u_particles set_particles]. rewrite Re2 in Ed. apply k_wind_factor; auto. }
      apply (tidal_frame c) in E4; [|rewrite Re3; exact Hc]. destruct E4 as (K4 & _).
      assert (K5 : map c l5 = map c (u_particles u4)).
      { rewrite Re2 in E5. destruct (acc && e_gr _) eqn:Ed; [|injection E5 as <-; reflexivity]. apply andb_true_iff in Ed. destruct Ed as (_ & Ed).
        apply (with_host_frame' c) in E5; [exact E5|]. intros host o r X. injection X as <-. apply k_gr_effects; auto. }
      assert (K6 : map c l6 = map c l5).
      { rewrite Re2 in E6. destruct (acc && e_disk _) eqn:Ed; [|injection E6 as <-; reflexivity]. apply andb_true_iff in Ed. destruct Ed as (_ & Ed).
        apply (with_host_frame' c) in E6; [exact E6|]. intros host o r X. injection X as <-. apply k_disk_acceleration; auto. }
      congruence.
    - eapply same_rest_trans; [exact R4|]. apply rest_set.
    - cbn [u_particles set_particles]. assert (Re : u_effects u2 = u_effects u) by apply R2.
      assert (Rg : u_gr u4 = u_gr u) by apply R4. rewrite Re, Rg. reflexivity.
  Qed.
  (** a view that sees none of the outputs is left by a whole evaluation *)
  Lemma evaluation_frame {B} (c : particle F -> B) t ev dL acc ig u u' : blind (u_effects u) c -> blind_iadd c -> blind_dL c ->
    additional_effects t ev dL acc ig u = Ok u' -> map c (u_particles u') = map c (u_particles u) /\ same_rest u u'.
  Proof.
    intros Hc Ha Hd E. destruct (evaluation _ _ _ _ _ _ _ E) as (l0 & u1 & u2 & l & E0 & -> & E2 & El & Rs & ->).
    split; [|exact Rs]. pose proof Hc as (He & _).
    apply (init_list_frame c) in E0; [|exact He].
    apply (spin_frame c) in E2; [|exact Hc]. destruct E2 as (E2 & _). specialize (El B c He). cbn [u_particles set_particles] in E2.
    assert (X : map c (if acc then map (set_p_iadd vzero) l0 else l0) = map c l0) by (destruct acc; auto; apply map_same; apply Ha).
    cbn zeta. set (l1 := if dL && _ then _ else l).
    assert (Y : map c l1 = map c l) by (unfold l1; destruct (dL && _); auto; apply map_same; intro; apply Hd).
    assert (Z : map c (if acc then map (add_corrections (u_effects u)) l1 else l1) = map c l1).
    { destruct acc; auto. apply map_same. intro p. unfold add_corrections, add_if.
      destruct (e_gr _), (e_rf _), (e_disk _), (e_tides _); rewrite ?Ha; auto. }
    congruence.
  Qed.

  (** bodies whose parts of disabled effects exert no torque *)
  Definition quiet (e : effects) (p : particle F) : Prop :=
    (e_tides e = false -> t_dL (p_tides p) = vzero) /\ (e_rf e = false -> rf_dL (p_rf p) = vzero)
    /\ (e_gr e = false -> gr_dL (p_gr p) = vzero)
    /\ (e_wind e = false -> w_dL (p_wind p) = vzero).
End Evaluation.
