(** LeapFrog without additional effects: conservation laws and reversibility *)
From Coq Require Import Reals Lra Psatz List Bool ZArith Arith Lia.
From Verif Require Import Base.Num Base.Result Base.Trans Base.Vec Model.Constants Model.Particle Model.Host
  Model.Creep Model.Relativity Model.Universe Model.LeapFrog Spec.EffectsSpec Spec.UniverseSpec
  Proofs.NumLemmas Proofs.VecLemmas Proofs.GravityProofs.
Import ListNotations.
Open Scope R_scope.

(** ** Splitting around a host *)
Lemma reassemble_others {A} h (l : list A) a : nth_error l h = Some a -> reassemble h a (others h l) = l.
Proof.
  unfold reassemble, others. revert h; induction l as [|x l IH]; intros [|h]; cbn [nth_error]; try discriminate.
  - now intros [= ->].
  - intro E. cbn. f_equal. apply IH; auto.
Qed.
Lemma map_reassemble {A B} (c : A -> B) h a o : map c (reassemble h a o) = reassemble h (c a) (map c o).
Proof. unfold reassemble. now rewrite map_app, firstn_map, map_cons, skipn_map. Qed.
Lemma map_others {A B} (c : A -> B) h l : map c (others h l) = others h (map c l).
Proof. unfold others. now rewrite map_app, firstn_map, skipn_map. Qed.
Lemma with_host_frame {A B} (c : A -> B) h (l : list A) f l' :
  with_host h l f = Ok l' ->
  (forall host o r, f host o = Ok r -> c (fst r) = c host /\ map c (snd r) = map c o) ->
  map c l' = map c l.
Proof.
  unfold with_host. intros E Hf. destruct (Nat.leb _ _); [|discriminate E].
  destruct (nth_error l h) as [host|] eqn:Eh; [|injection E as <-; reflexivity].
  destruct (f host (others h l)) as [r|] eqn:Ef; [|discriminate E]. cbn [rbind] in E. injection E as <-.
  destruct (Hf _ _ _ Ef) as (E1 & E2). rewrite map_reassemble, E1, E2, map_others.
  apply reassemble_others. now rewrite nth_error_map, Eh.
Qed.
Lemma with_host_ok {A} h (l : list A) (f : A -> list A -> A * list A) :
  (h <= length l)%nat -> exists l', with_host h l (fun host o => Ok (f host o)) = Ok l'.
Proof.
  intro Hh. unfold with_host. apply Nat.leb_le in Hh. rewrite Hh. destruct (nth_error l h); cbn [rbind]; eauto.
Qed.

(** ** The part of a body that moves the orbits *)
Record kern := Kern { k_mass : R; k_radius : R; k_inertia : R; k_pos : vec R; k_vel : vec R }.
Definition core (p : particle R) : kern := Kern (p_mass p) (p_radius p) (p_inertia p) (p_ipos p) (p_ivel p).
Definition kview (k : kern) : vec R * R * R := (k_pos k, k_radius k, k_mass k).
Definition kdrift (h : R) (k : kern) : kern :=
  Kern (k_mass k) (k_radius k) (k_inertia k) (vadd (k_pos k) (vscale h (k_vel k))) (k_vel k).
Definition kkick (dt : R) (ka : kern * vec R) : kern :=
  let k := fst ka in Kern (k_mass k) (k_radius k) (k_inertia k) (k_pos k) (vadd (k_vel k) (vscale dt (snd ka))).
Definition kinert (k : kern) : bool := negb (Reqb (k_inertia k) 0).
Definition kstep (mm : nat) (roche : list (list R)) (dt half : R) (l : list kern) : option (list kern) :=
  if negb (Nat.eqb (length l) 0) && forallb kinert l then
    let l := map (kdrift half) l in
    match gravities IgnoreNone mm (map kview l) roche with
    | Ok accs => Some (map (fun ka => kdrift half (kkick dt ka)) (combine l accs))
    | Panic _ => None
    end
  else None.
Fixpoint ksteps (n : nat) (mm : nat) (roche : list (list R)) (dt half : R) (l : list kern) : option (list kern) :=
  match n with
  | O => Some l
  | S n => match kstep mm roche dt half l with Some l => ksteps n mm roche dt half l | None => None end
  end.

(** no additional effect *)
(** the host is a slot of the array *)
Definition hosted (u : universe R) : Prop :=
  (h_most_massive (u_hosts u) <= length (u_particles u) + length (u_dummies u))%nat.
Definition same_frame (u u' : universe R) : Prop :=
  u_roche u' = u_roche u /\ u_hosts u' = u_hosts u /\ u_effects u' = u_effects u
  /\ length (u_particles u') = length (u_particles u) /\ length (u_dummies u') = length (u_dummies u).

Lemma same_frame_refl u : same_frame u u.
Proof. unfold same_frame. auto. Qed.
Lemma same_frame_trans u v w : same_frame u v -> same_frame v w -> same_frame u w.
Proof. unfold same_frame. intros (->&->&->&->&->). auto. Qed.
Lemma same_frame_set l u : length l = length (u_particles u) -> same_frame u (set_particles l u).
Proof. unfold same_frame. cbn. auto. Qed.
Lemma plain_frame u u' : same_frame u u' -> plain u -> plain u'.
Proof. unfold plain. now intros (_&_&->&_). Qed.
Lemma hosted_frame u u' : same_frame u u' -> hosted u -> hosted u'.
Proof. unfold hosted. now intros (_&->&_&->&->). Qed.

Section LeapFrog.
  Context `{Trans R} `{Floor R} `{Fuel}.

  Lemma i2h_frame (u u' : universe R) : inertial_to_heliocentric u = Ok u' ->
    same_frame u u' /\ map core (u_particles u') = map core (u_particles u)
    /\ map p_iacc (u_particles u') = map p_iacc (u_particles u).
  Proof.
    unfold inertial_to_heliocentric. intro E.
    match type of E with rbind ?w _ = _ => destruct w as [l|] eqn:Ew; [|discriminate E] end.
    cbn [rbind] in E. injection E as <-.
    assert (F : forall (B : Type) (c : particle R -> B), (forall h, c (heliocentric_host h) = c h) -> (forall h p, c (heliocentric h p) = c p) ->
                map c l = map c (u_particles u ++ u_dummies u)).
    { intros B c Hh Hp. eapply with_host_frame; [exact Ew|]. intros host o r [= <-]. cbn [fst snd]. split; auto.
      rewrite map_map. apply map_ext; auto. }
    assert (Fl : length l = length (u_particles u ++ u_dummies u)).
    { rewrite <- (map_length core l), <- (map_length core (_ ++ _)). now rewrite (F _ core). }
    rewrite app_length in Fl.
    assert (Fm : forall (B : Type) (c : particle R -> B), (forall h, c (heliocentric_host h) = c h) -> (forall h p, c (heliocentric h p) = c p) ->
                map c (firstn (length (u_particles u)) l) = map c (u_particles u)).
    { intros B c Hh Hp. rewrite <- firstn_map, (F B c Hh Hp), map_app, firstn_app, map_length, Nat.sub_diag.
      cbn [firstn]. rewrite app_nil_r, <- (map_length c (u_particles u)) at 1. now rewrite firstn_all. }
    split; [|split].
    - unfold same_frame. cbn [u_roche u_hosts u_effects u_particles u_dummies set_particles set_dummies].
      rewrite firstn_length, skipn_length. repeat split; lia.
    - apply Fm; reflexivity.
    - apply Fm; reflexivity.
  Qed.
  Lemma i2h_ok (u : universe R) : hosted u -> exists u', inertial_to_heliocentric u = Ok u'.
  Proof.
    intro Hu. unfold inertial_to_heliocentric.
    destruct (with_host_ok (h_most_massive (u_hosts u)) (u_particles u ++ u_dummies u)
               (fun host o => (heliocentric_host host, map (heliocentric host) o))) as (l & E).
    - rewrite app_length. exact Hu.
    - rewrite E. cbn [rbind]. eauto.
  Qed.
  Lemma i2h_hosted (u u' : universe R) : inertial_to_heliocentric u = Ok u' -> hosted u.
  Proof.
    unfold inertial_to_heliocentric, with_host, hosted. rewrite app_length.
    destruct (Nat.leb_spec (h_most_massive (u_hosts u)) (length (u_particles u) + length (u_dummies u))); auto.
    intro X; discriminate X.
  Qed.

  Lemma refresh_frame (l l' : list (particle R)) : rmapi refresh_spin l = Ok l' ->
    forallb kinert (map core l) = true /\ map core l' = map core l /\ map p_iacc l' = map p_iacc l /\ map p_iadd l' = map p_iadd l.
  Proof.
    unfold rmapi, enumerate. generalize 0%nat. revert l'; induction l as [|p l IH]; intros l' k E; cbn in E.
    - injection E as <-. auto.
    - unfold rbind in E. num_simpl. destruct (Reqb (p_inertia p) 0) eqn:Ez; [discriminate E|].
      destruct (rmap _ _) as [bs|] eqn:Er; [|discriminate E]. injection E as <-.
      destruct (IH _ _ Er) as (E1 & E2 & E3 & E4). cbn [map forallb]. rewrite E1, E2, E3, E4.
      split; [|auto]. unfold kinert. cbn [core k_inertia]. now rewrite Ez.
  Qed.
  Lemma refresh_ok (l : list (particle R)) : forallb kinert (map core l) = true -> exists l', rmapi refresh_spin l = Ok l'.
  Proof.
    unfold rmapi, enumerate. generalize 0%nat. induction l as [|p l IH]; intros k E; cbn [length seq combine rmap]; [eauto|].
    cbn [map forallb] in E. apply andb_true_iff in E. destruct E as (E1 & E2).
    unfold kinert in E1. cbn [core k_inertia] in E1. apply negb_true_iff in E1.
    destruct (IH (S k) E2) as (bs & ->). unfold refresh_spin. num_simpl. rewrite E1. cbn [rbind]. eauto.
  Qed.

  (** with no effect, [additional_effects] refreshes the spins and clears the corrections *)
  Lemma effects_plain t (acc : bool) (u : universe R) : plain u ->
    additional_effects t true true acc IgnoreNone u
    = (do l <- rmapi refresh_spin (if acc then map (set_p_iadd vzero) (u_particles u) else u_particles u);
       Ok (set_particles l u)).
  Proof.
    destruct u as [ti tl l ds evs c gi h m ro]. unfold plain. cbn [u_effects]. intros ->.
    destruct acc; unfold additional_effects, initialize, spin_and_evolving, tidal_effects;
      cbn [u_effects e_tides e_rf e_gr e_disk e_wind e_evolution andb orb u_particles set_particles u_evolvers rbind u_hosts].
    - destruct (rmapi refresh_spin _) as [l'|]; cbn [rbind]; [|reflexivity].
      cbn [u_effects e_tides e_rf e_gr e_disk e_wind e_evolution andb orb u_particles set_particles set_evolvers u_evolvers rbind fst snd].
      unfold set_particles. cbn [u_initial u_limit u_dummies u_evolvers u_effects u_gr u_hosts u_pairs u_roche u_particles].
      do 2 f_equal. transitivity (map (fun p : particle R => p) l'); [apply map_ext; reflexivity|apply map_id].
    - destruct (rmapi refresh_spin _) as [l'|]; cbn [rbind]; reflexivity.
  Qed.

  Lemma combine_two {A B C} (f : A -> B) (g : A -> C) l : combine (map f l) (map g l) = map (fun x => (f x, g x)) l.
  Proof. induction l as [|a l IH]; cbn; auto. now rewrite IH. Qed.

  Lemma lf_step_core t dt half (u u' : universe R) : plain u -> roche_square u -> lf_step t dt half u = Ok u' ->
    same_frame u u' /\ kstep (h_most_massive (u_hosts u)) (u_roche u) dt half (map core (u_particles u)) = Some (map core (u_particles u')).
  Proof.
    intros Hp Hsq E. unfold lf_step in E.
    destruct (inertial_to_heliocentric u) as [u1|] eqn:E1; [|discriminate E]. cbn [rbind] in E.
    destruct (i2h_frame _ _ E1) as (F1 & C1 & _).
    rewrite effects_plain in E by (eapply plain_frame; eauto).
    destruct (rmapi refresh_spin (u_particles u1)) as [l2|] eqn:E2; [|discriminate E]. cbn [rbind] in E.
    destruct (refresh_frame _ _ E2) as (I2 & C2 & _).
    assert (L2 : length l2 = length (u_particles u1)) by (rewrite <- (map_length core l2), C2; apply map_length).
    set (u3 := on_bodies (lf_drift half) (set_particles l2 u1)) in E.
    assert (F3 : same_frame u u3).
    { eapply same_frame_trans; [exact F1|]. unfold u3, on_bodies. cbn [u_particles set_particles].
      eapply same_frame_trans; [apply same_frame_set; exact L2|]. apply same_frame_set. apply map_length. }
    assert (C3 : map core (u_particles u3) = map (kdrift half) (map core (u_particles u))).
    { rewrite <- C1, <- C2, map_map. unfold u3. cbn [u_particles set_particles on_bodies]. rewrite map_map. apply map_ext. reflexivity. }
    destruct (gravity IgnoreNone u3) as [u4|] eqn:E4; [|discriminate E]. cbn [rbind] in E.
    assert (N4 : Nat.eqb (length (u_particles u3)) 0 = false).
    { unfold gravity in E4. destruct (Nat.eqb (length (u_particles u3)) 0); [discriminate E4|reflexivity]. }
    apply gravity_inv in E4. destruct E4 as (accs & G4 & ->).
    assert (V3 : map gview (u_particles u3) = map kview (map core (u_particles u3))) by (rewrite map_map; apply map_ext; reflexivity).
    rewrite V3, C3 in G4.
    destruct F3 as (Fr & Fh & Fe & Fl & Fd). rewrite Fr, Fh in G4.
    destruct (inertial_to_heliocentric _) as [u5|] eqn:E5 in E; [|discriminate E]. cbn [rbind] in E.
    destruct (i2h_frame _ _ E5) as (F5 & C5 & A5).
    rewrite effects_plain in E by (eapply plain_frame; [exact F5|]; unfold plain in *; cbn [u_effects set_particles]; congruence).
    destruct (rmapi refresh_spin _) as [l6|] eqn:E6 in E; [|discriminate E]. cbn [rbind] in E.
    destruct (refresh_frame _ _ E6) as (_ & C6 & A6 & B6). injection E as <-.
    rewrite map_map in C6, A6, B6. cbn [core p_iacc p_iadd set_p_iadd p_mass p_radius p_inertia p_ipos p_ivel] in C6, A6, B6.
    change (map (fun x : particle R => core (set_p_iadd vzero x)) (u_particles u5)) with (map core (u_particles u5)) in C6.
    assert (A7 : map p_iacc l6 = map p_iacc (u_particles u5)) by exact A6.
    cbn [u_particles set_particles] in C5, A5.
    assert (La : length accs = length (u_particles u)).
    { pose proof (rmap_length _ _ _ G4) as La. destruct Hsq as (Hs & _).
      rewrite enumerate_length, combine_length, !map_length, Hs, Nat.min_id in La. exact La. }
    unfold kstep.
    rewrite <- C1, I2, !map_length.
    assert (N1 : Nat.eqb (length (u_particles u1)) 0 = false).
    { rewrite <- N4. f_equal. rewrite Fl. destruct F1 as (_&_&_&->&_). reflexivity. }
    rewrite N1. cbn [negb andb]. rewrite C1, G4.
    split.
    - unfold same_frame, apply_corrections, on_bodies in *. destruct F5 as (F5r&F5h&F5e&F5l&F5d).
      cbn [u_roche u_hosts u_effects u_particles u_dummies set_particles] in *. rewrite !map_length in *.
      rewrite F5r, F5h, F5e, F5d, Fr, Fh, Fe, Fd. repeat split; auto.
      rewrite <- (map_length core l6), C6, map_length, F5l. rewrite combine_length, La, Fl. apply Nat.min_id.
    - f_equal. unfold apply_corrections, on_bodies. cbn [u_particles set_particles].
      rewrite !map_map.
      transitivity (map (fun ka => kdrift half (kkick dt ka)) (combine (map core l6) (map p_iacc l6))).
      2:{ rewrite combine_two, map_map. apply map_ext_in. intros p Hin.
          assert (Ez : p_iadd p = vzero).
          { assert (Hi : In (p_iadd p) (map p_iadd l6)) by (apply in_map; exact Hin). rewrite B6 in Hi.
            apply in_map_iff in Hi. destruct Hi as (x & Hx & _). congruence. }
          unfold core, kkick, kdrift, lf_drift, lf_kick.
          cbn [p_mass p_radius p_inertia p_ipos p_ivel p_iacc set_p_L set_p_ipos set_p_ivel set_p_iacc fst snd k_mass k_radius k_inertia k_pos k_vel].
          rewrite Ez, vadd_0_r. reflexivity. }
      f_equal. f_equal.
      + rewrite C6, C5, !map_map. transitivity (map core (u_particles u3)); [now rewrite C3, map_map|].
        rewrite <- (map_fst_combine (u_particles u3) accs) at 1 by (rewrite La, Fl; reflexivity).
        rewrite map_map. apply map_ext. reflexivity.
      + rewrite A7, A5, map_map. cbn [p_iacc set_p_iacc].
        symmetry. apply map_snd_combine. rewrite La, Fl. reflexivity.
  Qed.

  Lemma lf_step_ok t dt half (u : universe R) l' : plain u -> roche_square u -> hosted u ->
    kstep (h_most_massive (u_hosts u)) (u_roche u) dt half (map core (u_particles u)) = Some l' ->
    exists u', lf_step t dt half u = Ok u'.
  Proof.
    intros Hp Hsq Hh E. unfold kstep in E. rewrite map_length in E.
    destruct (negb _ && forallb _ _) eqn:En; [|discriminate E]. apply andb_true_iff in En. destruct En as (En & Ei).
    destruct (gravities _ _ _ _) as [accs|] eqn:Eg in E; [|discriminate E]. clear E l'.
    assert (La : length accs = length (u_particles u)).
    { pose proof (rmap_length _ _ _ Eg) as La. destruct Hsq as (Hs & _).
      rewrite enumerate_length, combine_length, !map_length, Hs, Nat.min_id in La. exact La. }
    unfold lf_step. destruct (i2h_ok u Hh) as (u1 & E1). rewrite E1. cbn [rbind].
    destruct (i2h_frame _ _ E1) as (F1 & C1 & _).
    rewrite effects_plain by (eapply plain_frame; eauto).
    destruct (refresh_ok (u_particles u1)) as (l2 & E2); [now rewrite C1|]. rewrite E2. cbn [rbind].
    destruct (refresh_frame _ _ E2) as (I2 & C2 & _).
    assert (L2 : length l2 = length (u_particles u1)) by (rewrite <- (map_length core l2), C2; apply map_length).
    set (u3 := on_bodies (lf_drift half) (set_particles l2 u1)).
    assert (F3 : same_frame u u3).
    { eapply same_frame_trans; [exact F1|]. unfold u3, on_bodies. cbn [u_particles set_particles].
      eapply same_frame_trans; [apply same_frame_set; exact L2|]. apply same_frame_set. apply map_length. }
    assert (C3 : map core (u_particles u3) = map (kdrift half) (map core (u_particles u))).
    { rewrite <- C1, <- C2, map_map. unfold u3. cbn [u_particles set_particles on_bodies]. rewrite map_map. apply map_ext. reflexivity. }
    assert (V3 : map gview (u_particles u3) = map kview (map core (u_particles u3))) by (rewrite map_map; apply map_ext; reflexivity).
    pose proof F3 as (Fr & Fh & Fe & Fl & Fd).
    assert (E4 : gravity IgnoreNone u3 = Ok (set_particles (map (fun pa => set_p_iacc (snd pa) (fst pa)) (combine (u_particles u3) accs)) u3)).
    { unfold gravity. rewrite Fl. apply negb_true_iff in En. rewrite En, gravities_view, V3, C3, Fr, Fh, Eg. reflexivity. }
    rewrite E4. cbn [rbind]. set (u4 := set_particles _ u3).
    assert (F4 : same_frame u u4).
    { eapply same_frame_trans; [exact F3|]. apply same_frame_set.
      rewrite map_length, combine_length, La, Fl. apply Nat.min_id. }
    destruct (i2h_ok u4 (hosted_frame _ _ F4 Hh)) as (u5 & E5). rewrite E5. cbn [rbind].
    destruct (i2h_frame _ _ E5) as (F5 & C5 & _).
    rewrite effects_plain by (eapply plain_frame; [exact F5|]; eapply plain_frame; [exact F4|]; exact Hp).
    destruct (refresh_ok (map (set_p_iadd vzero) (u_particles u5))) as (l6 & E6).
    { rewrite map_map. change (map (fun x : particle R => core (set_p_iadd vzero x)) (u_particles u5)) with (map core (u_particles u5)).
      rewrite C5. unfold u4. cbn [u_particles set_particles]. rewrite map_map.
      transitivity (forallb kinert (map core (u_particles u3))).
      - f_equal. rewrite <- (map_fst_combine (u_particles u3) accs) at 2 by (rewrite La, Fl; reflexivity).
        rewrite map_map. apply map_ext. reflexivity.
      - rewrite C3. revert Ei. clear. induction (map core (u_particles u)) as [|k l IH]; cbn; auto.
        intro E. apply andb_true_iff in E. destruct E as (E1 & E2). rewrite IH; auto. rewrite andb_true_r. exact E1. }
    rewrite E6. cbn [rbind]. eauto.
  Qed.
  Lemma square_frame u u' : same_frame u u' -> roche_square u -> roche_square u'.
  Proof. unfold roche_square. now intros (->&_&_&->&_). Qed.
  Lemma lf_steps_core n t dt half (u u' : universe R) : plain u -> roche_square u -> lf_steps n t dt half u = Ok u' ->
    same_frame u u' /\ ksteps n (h_most_massive (u_hosts u)) (u_roche u) dt half (map core (u_particles u)) = Some (map core (u_particles u')).
  Proof.
    revert t u; induction n as [|n IH]; intros t u Hp Hs E; cbn [lf_steps ksteps] in *.
    - injection E as <-. split; auto using same_frame_refl.
    - destruct (lf_step t dt half u) as [u1|] eqn:E1; [|discriminate E]. cbn [rbind] in E.
      destruct (lf_step_core _ _ _ _ _ Hp Hs E1) as (F1 & K1). rewrite K1.
      apply IH in E; [|eapply plain_frame; eauto|eapply square_frame; eauto]. destruct E as (F2 & K2).
      split; [eapply same_frame_trans; eauto|]. destruct F1 as (Fr&Fh&_). now rewrite Fr, Fh in K2.
  Qed.
  Lemma lf_steps_ok n t dt half (u : universe R) l' : plain u -> roche_square u -> hosted u ->
    ksteps n (h_most_massive (u_hosts u)) (u_roche u) dt half (map core (u_particles u)) = Some l' ->
    exists u', lf_steps n t dt half u = Ok u'.
  Proof.
    revert t u; induction n as [|n IH]; intros t u Hp Hs Hh E; cbn [lf_steps ksteps] in *; [eauto|].
    destruct (kstep _ _ _ _ _) as [l1|] eqn:E1 in E; [|discriminate E].
    destruct (lf_step_ok t dt half u _ Hp Hs Hh E1) as (u1 & Eu). rewrite Eu. cbn [rbind].
    destruct (lf_step_core _ _ _ _ _ Hp Hs Eu) as (F1 & K1). rewrite K1 in E1. injection E1 as <-.
    apply (IH ((t + half) + half) u1).
    - eapply plain_frame; eauto.
    - eapply square_frame; eauto.
    - eapply hosted_frame; eauto.
    - destruct F1 as (->&->&_). exact E.
  Qed.
End LeapFrog.

(** ** Conservation laws *)
Definition kP (l : list kern) : vec R := Vsum (map (fun k => vscale (k_mass k) (k_vel k)) l).
Definition kX (l : list kern) : vec R := Vsum (map (fun k => vscale (k_mass k) (k_pos k)) l).
Definition kL (l : list kern) : vec R := Vsum (map (fun k => vscale (k_mass k) (vcross (k_pos k) (k_vel k))) l).

Lemma kdrift_P h l : kP (map (kdrift h) l) = kP l.
Proof. unfold kP. rewrite map_map. reflexivity. Qed.
Lemma kdrift_L h l : kL (map (kdrift h) l) = kL l.
Proof.
  unfold kL. rewrite map_map. apply Vsum_map_ext, Forall_forall. intros k _. cbn [k_mass k_pos k_vel kdrift].
  generalize (k_mass k), (k_pos k), (k_vel k). clear. vring.
Qed.
Lemma kdrift_X h l : kX (map (kdrift h) l) = vadd (kX l) (vscale h (kP l)).
Proof.
  unfold kX, kP. rewrite map_map, <- Vsum_map_scale, <- Vsum_map_add. apply Vsum_map_ext, Forall_forall. intros k _.
  cbn [k_mass k_pos k_vel kdrift]. generalize (k_mass k), (k_pos k), (k_vel k). clear. vring.
Qed.
Definition kaccs (l : list kern) : list (vec R) :=
  map (fun k => Vsum (map (fun k' => pull G (kview k) (kview k')) l)) l.
Lemma pull_self g a : pull g a a = vzero.
Proof. destruct a as [[x r] m]. unfold pull. generalize (sqrt (norm2 (vsub x x)) ^ 3). clear. vring. Qed.
Lemma pull_3 g x r m y s n :
  vscale m (pull g (x, r, m) (y, s, n)) = vneg (vscale n (pull g (y, s, n) (x, r, m))).
Proof.
  unfold pull. rewrite (norm2_vsub_sym x y). unfold Rdiv. generalize (/ sqrt (norm2 (vsub y x)) ^ 3). clear. vring.
Qed.
Lemma pull_t g x r m y s n :
  vcross x (vscale m (pull g (x, r, m) (y, s, n))) = vneg (vcross y (vscale n (pull g (y, s, n) (x, r, m)))).
Proof.
  unfold pull. rewrite (norm2_vsub_sym x y). unfold Rdiv. generalize (/ sqrt (norm2 (vsub y x)) ^ 3). clear. vring.
Qed.
Lemma kaccs_force l : Vsum (map (fun ka => vscale (k_mass (fst ka)) (snd ka)) (combine l (kaccs l))) = vzero.
Proof.
  unfold kaccs. rewrite <- (map_id l) at 1. rewrite combine_two, map_map. cbn [fst snd].
  transitivity (Vsum (map (fun k => Vsum (map (fun k' => vscale (k_mass k) (pull G (kview k) (kview k'))) l)) l)).
  - apply Vsum_map_ext, Forall_forall. intros k _. now rewrite Vsum_map_scale.
  - apply pairs_cancel. intros a b. apply pull_3.
Qed.
Lemma kaccs_torque l : Vsum (map (fun ka => vcross (k_pos (fst ka)) (vscale (k_mass (fst ka)) (snd ka))) (combine l (kaccs l))) = vzero.
Proof.
  unfold kaccs. rewrite <- (map_id l) at 1. rewrite combine_two, map_map. cbn [fst snd].
  transitivity (Vsum (map (fun k => Vsum (map (fun k' => vcross (k_pos k) (vscale (k_mass k) (pull G (kview k) (kview k')))) l)) l)).
  - apply Vsum_map_ext, Forall_forall. intros k _. now rewrite Vsum_map_cross, Vsum_map_scale.
  - apply pairs_cancel. intros a b. apply pull_t.
Qed.
Lemma kkick_P dt l accs : length accs = length l ->
  kP (map (kkick dt) (combine l accs)) = vadd (kP l) (vscale dt (Vsum (map (fun ka => vscale (k_mass (fst ka)) (snd ka)) (combine l accs)))).
Proof.
  intro Hl. unfold kP. rewrite <- (map_fst_combine l accs Hl) at 2. rewrite !map_map, <- Vsum_map_scale, <- Vsum_map_add.
  apply Vsum_map_ext, Forall_forall. intros [k a] _. cbn [k_mass k_vel kkick fst snd].
  generalize (k_mass k), (k_vel k). clear. vring.
Qed.
Lemma kkick_L dt l accs : length accs = length l ->
  kL (map (kkick dt) (combine l accs)) = vadd (kL l) (vscale dt (Vsum (map (fun ka => vcross (k_pos (fst ka)) (vscale (k_mass (fst ka)) (snd ka))) (combine l accs)))).
Proof.
  intro Hl. unfold kL. rewrite <- (map_fst_combine l accs Hl) at 2. rewrite !map_map, <- Vsum_map_scale, <- Vsum_map_add.
  apply Vsum_map_ext, Forall_forall. intros [k a] _. cbn [k_mass k_vel k_pos kkick fst snd].
  generalize (k_mass k), (k_vel k), (k_pos k). clear. vring.
Qed.
Lemma kkick_X dt l accs : length accs = length l -> kX (map (kkick dt) (combine l accs)) = kX l.
Proof.
  intro Hl. unfold kX. rewrite <- (map_fst_combine l accs Hl) at 2. rewrite !map_map. reflexivity.
Qed.
Definition square (n : nat) (roche : list (list R)) : Prop := length roche = n /\ Forall (fun row => length row = n) roche.
Lemma gravities_kaccs mm (l : list kern) roche accs : square (length l) roche ->
  gravities IgnoreNone mm (map kview l) roche = Ok accs -> accs = kaccs l.
Proof.
  intros (H1 & H2) E. apply gravities_newton in E; [|rewrite map_length; auto ..]. rewrite map_length in E. destruct E as (Hl & E).
  rewrite (list_of_nth l accs (fun i k => Vsum (map (pull G (kview k)) (except i (map kview l))))); auto.
  - unfold kaccs. apply map_enumerate_snd with (f := fun i k => Vsum (map (pull G (kview k)) (except i (map kview l)))).
    intros i k Hk. rewrite <- (map_map kview (pull G (kview k))).
    rewrite (except_sum _ (map kview l) i (kview k)) by (rewrite nth_error_map, Hk; reflexivity).
    now rewrite pull_self, vadd_0_l.
  - intros i k Hk. apply E. now rewrite nth_error_map, Hk.
Qed.
Lemma kstep_inv mm roche dt half l l' : square (length l) roche -> kstep mm roche dt half l = Some l' ->
  length l' = length l /\ forallb kinert l = true /\ l <> []
  /\ gravities IgnoreNone mm (map kview (map (kdrift half) l)) roche = Ok (kaccs (map (kdrift half) l))
  /\ l' = map (kdrift half) (map (kkick dt) (combine (map (kdrift half) l) (kaccs (map (kdrift half) l)))).
Proof.
  intros Hs E. unfold kstep in E. destruct (negb _ && forallb _ _) eqn:En; [|discriminate E].
  apply andb_true_iff in En. destruct En as (En & Ei).
  destruct (gravities _ _ _ _) as [accs|] eqn:Eg; [|discriminate E]. injection E as <-.
  apply gravities_kaccs in Eg as Ea; [|rewrite map_length; exact Hs]. subst accs.
  split; [|split; [exact Ei|split; [|split; [reflexivity|]]]].
  - unfold kaccs. rewrite map_length, combine_length, !map_length. apply Nat.min_id.
  - intros ->. discriminate En.
  - now rewrite map_map.
Qed.
Lemma kaccs_length l : length (kaccs l) = length l.
Proof. apply map_length. Qed.
Lemma kstep_conserves mm roche dt half l l' : square (length l) roche -> kstep mm roche dt half l = Some l' ->
  kP l' = kP l /\ kL l' = kL l /\ kX l' = vadd (kX l) (vscale (half + half) (kP l)).
Proof.
  intros Hs E. destruct (kstep_inv _ _ _ _ _ _ Hs E) as (_ & _ & _ & _ & ->).
  rewrite kdrift_P, kdrift_L, kdrift_X, kkick_P, kkick_L, kkick_X by apply kaccs_length.
  rewrite kaccs_force, kaccs_torque, kdrift_P, kdrift_L, kdrift_X.
  split; [|split].
  - now rewrite vscale_0_r, vadd_0_r.
  - now rewrite vscale_0_r, vadd_0_r.
  - rewrite vscale_0_r, vadd_0_r. generalize (kX l), (kP l). clear. vring.
Qed.
Lemma kstep_length mm roche dt half l l' : square (length l) roche -> kstep mm roche dt half l = Some l' -> length l' = length l.
Proof. intros Hs E. now destruct (kstep_inv _ _ _ _ _ _ Hs E). Qed.
Lemma ksteps_conserves n mm roche dt half l l' : square (length l) roche -> ksteps n mm roche dt half l = Some l' ->
  kP l' = kP l /\ kL l' = kL l /\ kX l' = vadd (kX l) (vscale (INR n * (half + half)) (kP l)).
Proof.
  revert l; induction n as [|n IH]; intros l Hs E; cbn [ksteps] in E.
  - injection E as <-. split; [|split]; auto. cbn [INR]. generalize (kX l), (kP l). clear. vring.
  - destruct (kstep _ _ _ _ l) as [l1|] eqn:E1; [|discriminate E].
    destruct (kstep_conserves _ _ _ _ _ _ Hs E1) as (P1 & L1 & X1).
    apply IH in E; [|rewrite (kstep_length _ _ _ _ _ _ Hs E1); exact Hs]. destruct E as (-> & -> & ->).
    rewrite P1, L1, X1, S_INR. split; [|split]; auto. generalize (INR n), (kX l), (kP l). clear. vring.
Qed.

(** ** Reversibility *)
Definition krev (k : kern) : kern := Kern (k_mass k) (k_radius k) (k_inertia k) (k_pos k) (vneg (k_vel k)).
Lemma kdrift_back h k : kdrift h (krev (kdrift h k)) = krev k.
Proof.
  unfold kdrift, krev. cbn. f_equal. generalize (k_pos k), (k_vel k). clear. vring.
Qed.
Lemma kaccs_vel l l' : map kview l = map kview l' -> kaccs l = kaccs l'.
Proof.
  intro E. unfold kaccs.
  assert (T : forall l : list kern, map (fun k => Vsum (map (fun k' => pull G (kview k) (kview k')) l)) l
    = map (fun v => Vsum (map (pull G v) (map kview l))) (map kview l)).
  { intro x. rewrite map_map. apply map_ext. intro k. now rewrite map_map. }
  now rewrite !T, E.
Qed.
Lemma kick_back dt l accs : length accs = length l ->
  map (kkick dt) (combine (map krev (map (kkick dt) (combine l accs))) accs) = map krev l.
Proof.
  revert accs; induction l as [|k l IH]; intros [|a accs] Hl; cbn in *; try discriminate; auto.
  rewrite IH by lia. f_equal. unfold kkick, krev. cbn. f_equal. generalize (k_vel k). clear. vring.
Qed.
Lemma kinert_back dt half l accs : forallb kinert l = true ->
  forallb kinert (map krev (map (kdrift half) (map (kkick dt) (combine (map (kdrift half) l) accs)))) = true.
Proof.
  revert accs; induction l as [|k l IH]; intros [|a accs] Hi; cbn [forallb map combine] in *; auto.
  apply andb_true_iff in Hi. destruct Hi as (H1 & H2). apply andb_true_iff. split; [exact H1|apply IH, H2].
Qed.
Lemma kstep_back mm roche dt half l l' : square (length l) roche -> kstep mm roche dt half l = Some l' ->
  kstep mm roche dt half (map krev l') = Some (map krev l).
Proof.
  intros Hs E. destruct (kstep_inv _ _ _ _ _ _ Hs E) as (Hl & Hi & Hn & Hg & E').
  set (m := map (kdrift half) l) in *. set (accs := kaccs m) in *.
  assert (Ha : length accs = length m) by apply kaccs_length.
  assert (D : map (kdrift half) (map krev l') = map krev (map (kkick dt) (combine m accs))).
  { rewrite E', !map_map. apply map_ext. intro. apply kdrift_back. }
  assert (V : map kview (map krev (map (kkick dt) (combine m accs))) = map kview m).
  { rewrite !map_map. rewrite <- (map_fst_combine m accs Ha) at 2. rewrite map_map. reflexivity. }
  unfold kstep. rewrite map_length, Hl.
  replace (forallb kinert (map krev l')) with true.
  2:{ symmetry. rewrite E'. apply kinert_back. exact Hi. }
  destruct (Nat.eqb_spec (length l) 0) as [E0|_]; [destruct l; [contradiction|discriminate E0]|]. cbn [negb andb].
  rewrite D, V, Hg. f_equal. fold accs.
  transitivity (map (kdrift half) (map (kkick dt) (combine (map krev (map (kkick dt) (combine m accs))) accs))); [now rewrite !map_map|].
  rewrite kick_back by exact Ha. unfold m. rewrite !map_map. apply map_ext. intro. apply kdrift_back.
Qed.
Lemma ksteps_app a b mm roche dt half l : ksteps (a + b) mm roche dt half l
  = match ksteps a mm roche dt half l with Some l1 => ksteps b mm roche dt half l1 | None => None end.
Proof.
  revert l; induction a as [|a IH]; intro l; cbn [ksteps plus]; auto. destruct (kstep _ _ _ _ l); auto.
Qed.
Lemma ksteps_back n mm roche dt half l l' : square (length l) roche -> ksteps n mm roche dt half l = Some l' ->
  ksteps n mm roche dt half (map krev l') = Some (map krev l).
Proof.
  revert l l'; induction n as [|n IH]; intros l l' Hs E; cbn [ksteps] in E.
  - injection E as <-. reflexivity.
  - destruct (kstep _ _ _ _ l) as [l1|] eqn:E1; [|discriminate E].
    pose proof (kstep_length _ _ _ _ _ _ Hs E1) as Hl.
    apply IH in E; [|rewrite Hl; exact Hs].
    replace (S n) with (n + 1)%nat by lia. rewrite ksteps_app, E. cbn [ksteps].
    now rewrite (kstep_back _ _ _ _ _ _ Hs E1).
Qed.

Section Theorems.
  Context `{Trans R} `{Floor R} `{Fuel}.
  Lemma kP_core l : kP (map core l) = momentum l.
  Proof. unfold kP, momentum, weighted. now rewrite map_map. Qed.
  Lemma kL_core l : kL (map core l) = orbital_momentum l.
  Proof. unfold kL, orbital_momentum. now rewrite map_map. Qed.
  Lemma kX_core l : kX (map core l) = weighted p_ipos l.
  Proof. unfold kX, weighted. now rewrite map_map. Qed.
  Lemma square_core u : roche_square u -> square (length (map core (u_particles u))) (u_roche u).
  Proof. unfold roche_square, square. now rewrite map_length. Qed.

  Lemma leapfrog_conserves n t dt half (u u' : universe R) : plain u -> roche_square u -> half = dt / 2 ->
    lf_steps n t dt half u = Ok u' ->
    momentum (u_particles u') = momentum (u_particles u)
    /\ orbital_momentum (u_particles u') = orbital_momentum (u_particles u)
    /\ weighted p_ipos (u_particles u') = vadd (weighted p_ipos (u_particles u)) (vscale (INR n * dt) (momentum (u_particles u))).
  Proof.
    intros Hp Hs Hh E. destruct (lf_steps_core _ _ _ _ _ _ Hp Hs E) as (_ & K).
    apply ksteps_conserves in K; [|apply square_core; auto]. rewrite !kP_core, !kL_core, !kX_core in K.
    replace (half + half) with dt in K by lra. exact K.
  Qed.
  Lemma core_reversed l : map core (map reversed l) = map krev (map core l).
  Proof. rewrite !map_map. apply map_ext. reflexivity. Qed.
  Lemma leapfrog_reversible n t s dt half (u u' : universe R) : plain u -> roche_square u -> hosted u ->
    lf_steps n t dt half u = Ok u' ->
    exists u'', lf_steps n s dt half (set_particles (map reversed (u_particles u')) u') = Ok u''
    /\ map p_ipos (u_particles u'') = map p_ipos (u_particles u)
    /\ map p_ivel (u_particles u'') = map (fun p => vneg (p_ivel p)) (u_particles u).
  Proof.
    intros Hp Hs Hh E. destruct (lf_steps_core _ _ _ _ _ _ Hp Hs E) as (F & K).
    apply ksteps_back in K; [|apply square_core; auto].
    set (u1 := set_particles (map reversed (u_particles u')) u').
    assert (F1 : same_frame u u1) by (eapply same_frame_trans; [exact F|]; apply same_frame_set, map_length).
    assert (K1 : ksteps n (h_most_massive (u_hosts u1)) (u_roche u1) dt half (map core (u_particles u1)) = Some (map krev (map core (u_particles u)))).
    { pose proof F1 as (Fr & Fh & _). rewrite Fr, Fh. unfold u1. cbn [u_particles set_particles]. rewrite core_reversed. exact K. }
    destruct (lf_steps_ok n s dt half u1 _ (plain_frame _ _ F1 Hp) (square_frame _ _ F1 Hs) (hosted_frame _ _ F1 Hh) K1) as (u2 & E2).
    exists u2. split; [exact E2|].
    destruct (lf_steps_core _ _ _ _ _ _ (plain_frame _ _ F1 Hp) (square_frame _ _ F1 Hs) E2) as (_ & K2).
    rewrite K1 in K2. injection K2 as K2. split.
    - apply (f_equal (map k_pos)) in K2. rewrite !map_map in K2. symmetry. exact K2.
    - apply (f_equal (map k_vel)) in K2. rewrite !map_map in K2. symmetry. exact K2.
  Qed.
End Theorems.
