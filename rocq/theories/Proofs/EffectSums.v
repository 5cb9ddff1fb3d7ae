(** * The sums over the effects and what LeapFrog does with them (C39, C40, C54) *)
From Coq Require Import Reals Lra Lia List Bool Arith.
From Verif Require Import Base.Num Base.Result Base.Trans Base.Vec Model.Constants Model.Particle Model.Host
  Model.Interp Model.Wind Model.Disk Model.Kaula Model.Creep Model.Tides Model.Flattening Model.Relativity Model.Universe Model.LeapFrog
  Spec.EffectsSpec Spec.UniverseSpec
  Proofs.NumLemmas Proofs.VecLemmas Proofs.GravityProofs Proofs.LeapFrogProofs Proofs.UniverseProofs Proofs.DiskProofs Proofs.FrameProofs.
Import ListNotations.
Open Scope R_scope.

Lemma of_map {A B} (f : A -> B) (P : B -> Prop) l : Forall P (map f l) -> Forall (fun a => P (f a)) l.
Proof. apply Forall_map. Qed.
Lemma to_map {A B} (f : A -> B) (P : B -> Prop) l : Forall (fun a => P (f a)) l -> Forall P (map f l).
Proof. apply Forall_map. Qed.

Lemma cons_eq {A} (a b : A) l k : a :: l = b :: k -> a = b /\ l = k.
Proof. intros [= -> ->]. auto. Qed.
Lemma some_eq {A} (a b : A) : Some a = Some b -> a = b.
Proof. now intros [= ->]. Qed.

Section Sums.
  Context `{Trans R} `{Floor R} `{Fuel}.

  Ltac blinds := unfold blind, blind_effects, blind_tides, blind_rf, blind_gr, blind_disk, blind_wind, blind_spin, blind_evolution,
    blind_iadd, blind_dL; repeat split; intros; try reflexivity; try congruence.

  Lemma forall_view {A B} (c : A -> B) (Q : B -> Prop) l l' : map c l' = map c l -> Forall (fun a => Q (c a)) l -> Forall (fun a => Q (c a)) l'.
  Proof. intros E Hl. apply (proj2 (Forall_map c Q l)) in Hl. rewrite <- E in Hl. exact (proj1 (Forall_map c Q l') Hl). Qed.

  Lemma quiet_kept t ev dL acc ig u u' : Forall (quiet (u_effects u)) (u_particles u) -> additional_effects t ev dL acc ig u = Ok u' ->
    Forall (quiet (u_effects u)) (u_particles u').
  Proof.
    intros Hq E.
    assert (K : forall c : particle R -> vec R, blind (u_effects u) c -> blind_iadd c -> blind_dL c ->
      Forall (fun p => c p = vzero) (u_particles u) -> Forall (fun p => c p = vzero) (u_particles u')).
    { intros c Hc Ha Hd. apply (forall_view c (fun v => v = vzero)). eapply evaluation_frame; eauto. }
    assert (A : forall (b : bool) (c : particle R -> vec R),
      (b = false -> blind (u_effects u) c) -> blind_iadd c -> blind_dL c ->
      Forall (fun p => b = false -> c p = vzero) (u_particles u) -> Forall (fun p => b = false -> c p = vzero) (u_particles u')).
    { intros [] c Hc Ha Hd Hl; [apply Forall_forall; intros x _ X; discriminate X|].
      eapply Forall_impl; [|apply (K c); auto]; [cbn; auto|]. eapply Forall_impl; [|exact Hl]. cbn; auto. }
    unfold quiet in *. apply Forall_and_inv in Hq. destruct Hq as (H3 & Hq). apply Forall_and_inv in Hq. destruct Hq as (H4 & Hq).
    apply Forall_and_inv in Hq. destruct Hq as (H5 & H6).
    repeat apply Forall_and; (apply A; [intro X; blinds|blinds|blinds|assumption]).
  Qed.

  Lemma corrections_sum e (p : particle R) : p_iadd p = vzero -> p_iadd (add_corrections e p) = enabled_acceleration e p.
  Proof.
    intro Hp. unfold add_corrections, enabled_acceleration, add_if, only_if.
    destruct (e_gr e), (e_rf e), (e_disk e), (e_tides e); cbn [p_iadd set_p_iadd p_gr p_rf p_disk p_tides Vsum fold_right];
      rewrite ?Hp, ?vadd_0_l, ?vadd_0_r; try reflexivity;
      generalize (gr_acc (p_gr p)), (rf_acc (p_rf p)), (dk_acc (p_disk p)), (t_acc (p_tides p)); vring.
  Qed.
  Lemma torque_sum e (p : particle R) : quiet e p -> p_dL (sum_dL p) = enabled_torque e p.
  Proof.
    intros (Q1 & Q2 & Q3 & Q4). unfold sum_dL, enabled_torque, only_if. cbn [p_dL set_p_dL Vsum fold_right].
    destruct (e_tides e); [|rewrite Q1 by auto]; (destruct (e_rf e); [|rewrite Q2 by auto]); (destruct (e_gr e); [|rewrite Q3 by auto]);
      (destruct (e_wind e); [|rewrite Q4 by auto]); rewrite ?vadd_0_l, ?vadd_0_r, ?vadd_assoc; reflexivity.
  Qed.
  (** what the sums do not touch *)
  Lemma sums_kept {B} (c : particle R -> B) e : blind_iadd c -> forall p, c (add_corrections e p) = c p.
  Proof. intros Ha p. unfold add_corrections, add_if. destruct (e_gr e), (e_rf e), (e_disk e), (e_tides e); rewrite ?Ha; auto. Qed.

  (** the accelerations, whatever was stored before *)
  Lemma effects_added t ev dL ig u u' : additional_effects t ev dL true ig u = Ok u' ->
    Forall (fun p => p_iadd p = enabled_acceleration (u_effects u) p) (u_particles u').
  Proof.
    intro E. destruct (evaluation _ _ _ _ _ _ _ E) as (l0 & u1 & u2 & l & E0 & -> & E2 & El & Rs & Ep).
    set (e := u_effects u) in *.
    rewrite Ep. cbn zeta. set (l1 := if dL && _ then _ else l).
    assert (Z : map p_iadd l = map (fun _ => vzero) l).
    { transitivity (map (fun _ : particle R => vzero (F := R)) (u_particles u2)).
      - rewrite (El _ p_iadd) by blinds. apply (spin_frame p_iadd) in E2; [|blinds]. destruct E2 as (E2 & _). cbn [u_particles set_particles] in E2.
        rewrite E2. rewrite map_map. cbn [p_iadd set_p_iadd].
        assert (Ln : length l0 = length (u_particles u2)).
        { rewrite <- (map_length p_iadd (u_particles u2)), E2, !map_length. reflexivity. }
        clear - Ln. revert Ln. generalize (u_particles u2). induction l0 as [|a l0 IH]; intros [|b k] Ln; cbn in *; try discriminate Ln; auto.
        f_equal; auto.
      - specialize (El _ (fun _ => vzero (F := R))). rewrite El; [reflexivity|blinds]. }
    assert (Z1 : Forall (fun p => p_iadd p = vzero) l).
    { apply Forall_forall. intros p Hp. apply (in_map p_iadd) in Hp. rewrite Z in Hp. apply in_map_iff in Hp. destruct Hp as (? & ? & _). congruence. }
    assert (Z2 : Forall (fun p => p_iadd p = vzero) l1).
    { unfold l1. destruct (dL && _); auto. apply to_map. exact Z1. }
    apply to_map. eapply Forall_impl; [|exact Z2]. intros p Hp. cbn beta in Hp |- *.
    rewrite corrections_sum by exact Hp. unfold enabled_acceleration.
    rewrite (sums_kept p_tides), (sums_kept p_disk), (sums_kept p_rf), (sums_kept p_gr) by blinds. reflexivity.
  Qed.
  (** C39 *)
  Theorem effects_summed t ev dL acc ig u u' : Forall (quiet (u_effects u)) (u_particles u) -> additional_effects t ev dL acc ig u = Ok u' ->
    (acc = true -> Forall (fun p => p_iadd p = enabled_acceleration (u_effects u) p) (u_particles u'))
    /\ (if dL && torques_on (u_effects u) (u_gr u)
        then Forall (fun p => p_dL p = enabled_torque (u_effects u) p) (u_particles u')
        else map p_dL (u_particles u') = map p_dL (u_particles u))
    /\ Forall (quiet (u_effects u)) (u_particles u').
  Proof.
    intros Hq E. pose proof (quiet_kept _ _ _ _ _ _ _ Hq E) as Hq'.
    destruct (evaluation _ _ _ _ _ _ _ E) as (l0 & u1 & u2 & l & E0 & -> & E2 & El & Rs & Ep).
    set (e := u_effects u) in *.
    split; [|split; [|exact Hq']].
    - intros ->. exact (effects_added _ _ _ _ _ _ E).
    - destruct (dL && torques_on e (u_gr u)) eqn:Ed.
      + cbn zeta in Ep. rewrite Ed in Ep. rewrite Ep in Hq' |- *.
        assert (Qs : Forall (quiet e) l).
        { destruct acc; [apply of_map in Hq'|]; apply of_map in Hq'; (eapply Forall_impl; [|exact Hq']); intros p; unfold quiet.
          - cbv beta. rewrite (sums_kept p_tides), (sums_kept p_wind), (sums_kept p_rf), (sums_kept p_gr) by blinds. auto.
          - auto. }
        assert (S : Forall (fun p => p_dL p = enabled_torque e p) (map sum_dL l)).
        { apply to_map. eapply Forall_impl; [|exact Qs]. intros p Hp. exact (torque_sum e p Hp). }
        destruct acc; auto. apply to_map. eapply Forall_impl; [|exact S]. intros p Hp. cbv beta in *.
        unfold enabled_torque in *. rewrite (sums_kept p_dL), (sums_kept p_tides), (sums_kept p_wind), (sums_kept p_rf), (sums_kept p_gr) by blinds. exact Hp.
      + cbn zeta in Ep. rewrite Ed in Ep. rewrite Ep. apply (init_list_frame p_dL) in E0; [|blinds]. apply (spin_frame p_dL) in E2; [|blinds]. destruct E2 as (E2 & _).
        specialize (El _ p_dL). transitivity (map p_dL l).
        * destruct acc; auto. apply map_same. apply sums_kept. blinds.
        * rewrite El by blinds. rewrite E2. cbn [u_particles set_particles]. rewrite <- E0. destruct acc; auto. apply map_same. reflexivity.
  Qed.

  (** ** The moment of inertia (C40) *)
  Definition size_view (p : particle R) : R * R * R * R := (p_inertia p, p_mass p, p_rg2 p, p_radius p).
  Definition sized_ok (v : R * R * R * R) : Prop := let '(i, m, g, r) := v in i = m * g * (r * r).
  Lemma effects_inertia t ev dL acc ig u u' : Forall inertia_ok (u_particles u) -> additional_effects t ev dL acc ig u = Ok u' ->
    Forall (fun p => spin_ok p /\ inertia_ok p) (u_particles u').
  Proof.
    intros Hi E. destruct (evaluation _ _ _ _ _ _ _ E) as (l0 & u1 & u2 & l & E0 & -> & E2 & El & Rs & Ep).
    apply (init_list_frame size_view) in E0; [|blinds].
    assert (I0 : Forall inertia_ok (if acc then map (set_p_iadd vzero) l0 else l0)).
    { apply (forall_view size_view sized_ok) in E0; [|exact Hi]. destruct acc; [apply to_map|]; exact E0. }
    apply spins_refreshed in E2; [|exact I0].
    set (c := fun p : particle R => (size_view p, p_spin p, p_L p, p_spin2 p)).
    set (Q := fun v : (R * R * R * R) * vec R * vec R * R => let '(s, w, L, w2) := v in
                (let '(i, _, _, _) := s in vscale i w = L /\ w2 = norm2 w) /\ sized_ok s).
    change (Forall (fun p => Q (c p)) (u_particles u2)) in E2.
    change (Forall (fun p => Q (c p)) (u_particles u')).
    revert E2. apply forall_view. rewrite <- (El _ c) by blinds. rewrite Ep. cbn zeta. set (l1 := if dL && _ then _ else l).
    transitivity (map c l1).
    - destruct acc; auto. apply map_same. apply sums_kept. blinds.
    - unfold l1. destruct (dL && _); auto. apply map_same. reflexivity.
  Qed.

  (** ** A LeapFrog step *)
  Lemma i2h_view {B} (c : particle R -> B) u u' : (forall h, c (heliocentric_host h) = c h) -> (forall h p, c (heliocentric h p) = c p) ->
    inertial_to_heliocentric u = Ok u' -> map c (u_particles u') = map c (u_particles u).
  Proof.
    intros Hh Hp. unfold inertial_to_heliocentric. intro E.
    match type of E with rbind ?w _ = _ => destruct w as [l|] eqn:Ew; [|discriminate E] end.
    cbn [rbind] in E. injection E as <-. cbn [u_particles set_particles set_dummies].
    apply (with_host_frame c) in Ew.
    2:{ intros host o r [= <-]. cbn [fst snd]. split; auto. apply map_same. auto. }
    rewrite <- firstn_map, Ew, map_app, firstn_app, map_length, Nat.sub_diag.
    cbn [firstn]. rewrite app_nil_r, <- (map_length c (u_particles u)) at 1. now rewrite firstn_all.
  Qed.
  Lemma i2h_rest (u u' : universe R) : inertial_to_heliocentric u = Ok u' -> u_effects u' = u_effects u /\ u_gr u' = u_gr u /\ u_roche u' = u_roche u /\ u_hosts u' = u_hosts u.
  Proof.
    unfold inertial_to_heliocentric. destruct (with_host _ _ _); cbn [rbind]; [|intro X; discriminate X]. intro X. injection X as <-. auto.
  Qed.
  Definition still {B} (c : particle R -> B) : Prop :=
    (forall h, c (heliocentric_host h) = c h) /\ (forall h p, c (heliocentric h p) = c p) /\ (forall a p, c (set_p_iacc a p) = c p)
    /\ (forall half p, c (lf_drift half p) = c p) /\ (forall dt p, c (lf_kick dt p) = c p).
  (** what holds after every evaluation holds along the run *)
  Lemma lf_step_forall {B} (c : particle R -> B) (Q : B -> Prop) t dt half u u' : still c ->
    (forall t acc v v', u_effects v = u_effects u -> Forall (fun p => Q (c p)) (u_particles v) ->
       additional_effects t true true acc IgnoreNone v = Ok v' -> Forall (fun p => Q (c p)) (u_particles v')) ->
    lf_step t dt half u = Ok u' -> Forall (fun p => Q (c p)) (u_particles u) ->
    Forall (fun p => Q (c p)) (u_particles u') /\ u_effects u' = u_effects u.
  Proof.
    intros (B1 & B2 & B3 & B4 & B5) He E Hu. unfold lf_step in E.
    destruct (inertial_to_heliocentric u) as [u1|] eqn:E1; [|discriminate E]. cbn [rbind] in E.
    destruct (i2h_rest _ _ E1) as (R1 & _). apply (i2h_view c) in E1; auto. eapply forall_view in Hu; [|exact E1].
    destruct (additional_effects t _ _ _ _ u1) as [u2|] eqn:E2; [|discriminate E]. cbn [rbind] in E.
    assert (R2 : u_effects u2 = u_effects u).
    { rewrite <- R1. apply (evaluation_frame (fun _ => tt)) in E2; [apply E2|apply blind_unit|blinds|blinds]. }
    apply He in E2; auto.
    destruct (gravity _ _) as [u3|] eqn:E3; [|discriminate E]. cbn [rbind] in E. apply gravity_inv in E3. destruct E3 as (accs & _ & ->).
    set (l3 := map _ (combine _ accs)) in E.
    assert (H3 : Forall (fun p => Q (c p)) l3).
    { unfold l3, on_bodies. cbn [u_particles set_particles]. apply to_map. apply Forall_forall. intros [p a] Hin. apply in_combine_l in Hin.
      cbn [fst snd]. rewrite B3. apply in_map_iff in Hin. destruct Hin as (q & <- & Hin). rewrite B4. rewrite Forall_forall in E2. auto. }
    clearbody l3. destruct (inertial_to_heliocentric (set_particles l3 _)) as [u4|] eqn:E4; [|discriminate E]. cbn [rbind] in E.
    destruct (i2h_rest _ _ E4) as (R4 & _). apply (i2h_view c) in E4; auto. cbn [u_particles set_particles u_effects on_bodies] in E4, R4.
    eapply forall_view in H3; [|exact E4].
    destruct (additional_effects _ _ _ _ _ u4) as [u5|] eqn:E5; [|discriminate E]. cbn [rbind] in E.
    assert (R5 : u_effects u5 = u_effects u).
    { transitivity (u_effects u4); [|congruence]. apply (evaluation_frame (fun _ => tt)) in E5; [apply E5|apply blind_unit|blinds|blinds]. }
    apply He in E5; auto; [|congruence]. injection E as <-. split; [|exact R5].
    unfold on_bodies, apply_corrections. cbn [u_particles set_particles]. rewrite map_map. apply to_map. eapply Forall_impl; [|exact E5].
    intros p Hp. cbv beta in *. now rewrite B4, B5, B3.
  Qed.
  Lemma lf_steps_forall {B} (c : particle R -> B) (Q : B -> Prop) n dt half : forall t u u', still c ->
    (forall t acc v v', u_effects v = u_effects u -> Forall (fun p => Q (c p)) (u_particles v) ->
       additional_effects t true true acc IgnoreNone v = Ok v' -> Forall (fun p => Q (c p)) (u_particles v')) ->
    lf_steps n t dt half u = Ok u' -> Forall (fun p => Q (c p)) (u_particles u) -> Forall (fun p => Q (c p)) (u_particles u').
  Proof.
    induction n as [|n IH]; intros t u u' Hs He E Hu; cbn [lf_steps] in E; [injection E as <-; exact Hu|].
    destruct (lf_step t dt half u) as [u1|] eqn:E1; [|discriminate E]. cbn [rbind] in E.
    apply (lf_step_forall c Q) in E1; auto. destruct E1 as (H1' & R1).
    eapply IH; [exact Hs| |exact E|exact H1']. intros t0 acc v v' Ev. apply He. congruence.
  Qed.
  Theorem leapfrog_inertia n t dt half u u' : Forall inertia_ok (u_particles u) -> lf_steps n t dt half u = Ok u' -> Forall inertia_ok (u_particles u').
  Proof.
    intros Hi E. revert Hi. change (Forall (fun p => sized_ok (size_view p)) (u_particles u) -> Forall (fun p => sized_ok (size_view p)) (u_particles u')).
    apply (lf_steps_forall size_view sized_ok n dt half t u u'); auto.
    - unfold still. repeat split; reflexivity.
    - intros t0 acc v v' _ Hv Ev. apply effects_inertia in Ev; [|exact Hv]. eapply Forall_impl; [|exact Ev]. intros p (_ & Hp). exact Hp.
  Qed.
  Theorem leapfrog_quiet n t dt half u u' : Forall (quiet (u_effects u)) (u_particles u) -> lf_steps n t dt half u = Ok u' ->
    Forall (quiet (u_effects u)) (u_particles u').
  Proof.
    intros Hi E. revert Hi.
    set (c := fun p : particle R => (p_tides p, p_rf p, p_gr p, p_wind p)).
    set (Q := fun v => let '(a, b, g, w) := v in
      (e_tides (u_effects u) = false -> t_dL a = vzero (F := R)) /\ (e_rf (u_effects u) = false -> rf_dL b = vzero (F := R))
    /\ (e_gr (u_effects u) = false -> gr_dL g = vzero (F := R)) /\ (e_wind (u_effects u) = false -> w_dL w = vzero (F := R))).
    change (Forall (fun p => Q (c p)) (u_particles u) -> Forall (fun p => Q (c p)) (u_particles u')).
    apply (lf_steps_forall c Q n dt half t u u'); auto.
    - unfold still. repeat split; reflexivity.
    - intros t0 acc v v' Re Hv Ev.
      assert (X : Forall (quiet (u_effects v)) (u_particles v)) by (rewrite Re; exact Hv).
      apply (quiet_kept _ _ _ _ _ _ _ X) in Ev. rewrite Re in Ev. exact Ev.
  Qed.
End Sums.

(** ** The wind alone (C54) *)
Definition wind_only (u : universe R) : Prop := u_effects u = Effects false false false false true false.
(** what the rotation of a body depends on *)
Record rot := Rot { r_L : vec R; r_I : R; r_on : bool; r_k : R; r_sat : R; r_sat2 : R; r_radius : R; r_mass : R; r_rest : vec R; r_off : vec R }.
Definition rotation (p : particle R) : rot :=
  Rot (p_L p) (p_inertia p) (w_on (p_wind p)) (w_k_factor (p_wind p)) (w_saturation (p_wind p)) (w_saturation2 (p_wind p))
      (p_radius p) (p_mass p) (vadd (vadd (t_dL (p_tides p)) (rf_dL (p_rf p))) (gr_dL (p_gr p)))
      (if w_on (p_wind p) then vzero else w_dL (p_wind p)).
Definition rot_strength (r : rot) (w : R) : R :=
  r_k r * (Rmin w (r_sat r) * Rmin w (r_sat r)) * sqrt (r_radius r / (R_SUN * r_mass r)).
Definition rot_wind (r : rot) : vec R :=
  let s := vdivr (r_L r) (r_I r) in
  let w2 := if Rleb (r_sat r) (sqrt (norm2 s)) then r_sat2 r else norm2 s in
  let f x := - (1) * r_k r * x * w2 * sqrt (r_radius r / R_SUN * 1 / r_mass r) in
  Vec (f (vx s)) (f (vy s)) (f (vz s)).
Definition rot_torque (r : rot) : vec R := vadd (r_rest r) (if r_on r then rot_wind r else r_off r).
Definition with_L (l : vec R) (r : rot) : rot :=
  Rot l (r_I r) (r_on r) (r_k r) (r_sat r) (r_sat2 r) (r_radius r) (r_mass r) (r_rest r) (r_off r).
Definition rot_drift (half : R) (r : rot) : rot := with_L (vadd (r_L r) (vmulr (rot_torque r) half)) r.

Section Wind.
  Context `{Trans R} `{Floor R} `{Fuel}.
  Lemma with_host_id h (l l' : list (particle R)) (f : particle R -> list (particle R) -> res (particle R * list (particle R))) :
    (forall a b, f a b = Ok (a, b)) -> with_host h l f = Ok l' -> l' = l.
  Proof.
    intros Hf E. apply (with_host_frame (fun p => p)) in E; [now rewrite !map_id in E|].
    intros host o r X. rewrite Hf in X. injection X as <-. auto.
  Qed.
  Lemma rotation_wind v p : rotation (if w_on (p_wind p) then set_wind_dL v p else p) = rotation p.
  Proof. unfold rotation, set_wind_dL. destruct (w_on (p_wind p)) eqn:E; cbn; rewrite ?E; reflexivity. Qed.
  Lemma wind_init acc (u : universe R) l : wind_only u -> init_list true acc u = Ok l -> l = wind_initialize (u_particles u).
  Proof.
    unfold wind_only, init_list. intros ->. cbn [e_tides e_rf e_gr e_disk e_wind e_evolution andb orb]. rewrite !andb_false_r. cbn [orb andb].
    destruct (with_host _ _ _) as [l0|] eqn:E0; [|intro X; discriminate X]. cbn [rbind].
    apply with_host_id in E0; [|reflexivity]. subst l0.
    destruct (negb _); intro X; injection X as <-; reflexivity.
  Qed.
  Lemma wind_refresh t (u u' : universe R) : wind_only u -> spin_and_evolving t true u = Ok u' ->
    map rotation (u_particles u') = map rotation (u_particles u) /\ wind_only u'
    /\ Forall (fun p => p_spin p = vdivr (p_L p) (p_inertia p) /\ p_spin2 p = norm2 (p_spin p)) (u_particles u').
  Proof.
    unfold wind_only, spin_and_evolving. intros Hu. rewrite Hu. cbn [e_evolution andb rbind fst snd].
    destruct (rmapi refresh_spin _) as [l3|] eqn:E3; [|intro X; discriminate X]. cbn [rbind fst snd]. intro X. injection X as <-.
    cbn [u_particles set_particles set_evolvers u_effects]. split; [|split; [exact Hu|]].
    - revert E3. apply rmapi_same. intros i p p'. unfold refresh_spin. destruct (neqb _ _); [intro X; discriminate X|]. intro X. injection X as <-. reflexivity.
    - eapply rmap_forall; [|exact (enumerate_forall (fun _ => True) (u_particles u) ltac:(apply Forall_forall; auto))|exact E3].
      intros [i p] p' _. unfold refresh_spin. destruct (neqb _ _); [intro X; discriminate X|]. intro X. injection X as <-. auto.
  Qed.
  Lemma wind_tides b c (u : universe R) : wind_only u -> tidal_effects b c u = Ok u.
  Proof. unfold wind_only, tidal_effects. intros ->. reflexivity. Qed.
  Lemma no_corrections e (k : list (particle R)) : e = Effects false false false false true false -> map (add_corrections e) k = k.
  Proof. intros ->. transitivity (map (fun p : particle R => p) k); [apply map_ext; reflexivity|apply map_id]. Qed.
  Lemma wind_sum l : Forall (fun p : particle R => p_spin p = vdivr (p_L p) (p_inertia p) /\ p_spin2 p = norm2 (p_spin p)) l ->
    map (fun p => p_dL (sum_dL p)) (calculate_wind_factor l) = map (fun p => rot_torque (rotation p)) l.
  Proof.
    intro S3. unfold calculate_wind_factor. rewrite map_map. apply map_ext_in. intros p Hp. rewrite Forall_forall in S3. destruct (S3 p Hp) as (Sp & Sq).
    unfold sum_dL, rot_torque, rotation. cbn [r_rest r_on r_off]. destruct (w_on (p_wind p)) eqn:Eo; [|reflexivity].
    cbn [p_dL set_p_dL set_wind_dL p_tides p_rf p_gr p_wind set_p_wind w_dL set_w_dL]. f_equal.
    unfold wind_torque, rot_wind, wind_component. cbn [r_L r_I r_k r_sat r_sat2 r_radius r_mass]. rewrite Sq, <- Sp. num_simpl. reflexivity.
  Qed.
  Lemma wind_eval t acc (u u' : universe R) : wind_only u -> additional_effects t true true acc IgnoreNone u = Ok u' ->
    map rotation (u_particles u') = map rotation (u_particles u)
    /\ map p_dL (u_particles u') = map (fun p => rot_torque (rotation p)) (u_particles u).
  Proof.
    intro Hw. unfold additional_effects. rewrite initialize_eq. destruct (init_list true acc u) as [l0|] eqn:E0; [|intro X; discriminate X]. cbn [rbind].
    apply wind_init in E0; auto. assert (R0 : map rotation l0 = map rotation (u_particles u)) by (subst l0; apply map_same; apply rotation_wind).
    set (l1 := if acc then _ else l0).
    assert (R1 : map rotation l1 = map rotation l0) by (unfold l1; destruct acc; auto; apply map_same; reflexivity).
    clearbody l1. clear E0.
    destruct (spin_and_evolving t true (set_particles l1 u)) as [u2|] eqn:E2; [|intro X; discriminate X]. cbn [rbind].
    apply wind_refresh in E2; [|exact Hw]. destruct E2 as (R2 & W2 & S2). cbn [u_particles set_particles] in R2.
    rewrite W2. cbn [e_tides e_rf e_gr e_disk e_wind e_evolution andb orb]. rewrite wind_tides by exact W2. cbn [rbind]. rewrite andb_false_r. cbn [rbind].
    intro X. injection X as <-. cbn [u_particles set_particles].
    set (l4 := calculate_wind_factor (u_particles u2)).
    assert (R4 : map rotation l4 = map rotation (u_particles u2)) by (unfold l4, calculate_wind_factor; rewrite map_map; apply map_ext; intro; apply rotation_wind).
    assert (T4 : map (fun p => p_dL (sum_dL p)) l4 = map (fun p => rot_torque (rotation p)) (u_particles u2)) by (apply wind_sum; exact S2).
    clearbody l4.
    assert (Y : forall k : list (particle R), (if acc then map (add_corrections (Effects false false false false true false)) k else k) = k).
    { intro k. destruct acc; auto. apply no_corrections. reflexivity. }
    assert (T5 : map (fun p => rot_torque (rotation p)) (u_particles u2) = map (fun p => rot_torque (rotation p)) (u_particles u)).
    { rewrite <- !(map_map rotation rot_torque). congruence. }
    rewrite Y, !map_map. split; [|congruence].
    transitivity (map rotation l4); [apply map_ext; reflexivity|congruence].
  Qed.
  Lemma wind_only_kept t acc (u u' : universe R) : wind_only u -> additional_effects t true true acc IgnoreNone u = Ok u' -> wind_only u' /\ u_roche u' = u_roche u.
  Proof.
    unfold wind_only. intros Hw E. apply (evaluation_frame (fun _ => tt)) in E; [|apply blind_unit|red; auto..].
    destruct E as (_ & Re & _ & _ & Rr & _). split; congruence.
  Qed.

  Lemma drift_rotation half (l : list (particle R)) k : map rotation l = map rotation k -> map p_dL l = map (fun p => rot_torque (rotation p)) k ->
    map rotation (map (lf_drift half) l) = map (rot_drift half) (map rotation k).
  Proof.
    revert k. induction l as [|p l IH]; intros [|q k] E1 E2; cbn [map] in *; try discriminate E1; auto.
    apply cons_eq in E1, E2. destruct E1 as (E1 & E1'), E2 as (E2 & E2'). f_equal; auto.
    unfold rot_drift. rewrite <- E2, <- E1. reflexivity.
  Qed.
  Lemma wind_step t dt half (u u' : universe R) : wind_only u -> length (u_roche u) = length (u_particles u) -> lf_step t dt half u = Ok u' ->
    wind_only u' /\ length (u_roche u') = length (u_particles u')
    /\ map rotation (u_particles u') = map (fun p => rot_drift half (rot_drift half (rotation p))) (u_particles u).
  Proof.
    intros Hw Hl E. unfold lf_step in E.
    destruct (inertial_to_heliocentric u) as [u1|] eqn:E1; [|discriminate E]. cbn [rbind] in E.
    destruct (i2h_rest _ _ E1) as (R1 & _ & Q1 & _). apply (i2h_view rotation) in E1; auto.
    assert (W1 : wind_only u1) by (unfold wind_only in *; congruence).
    assert (L1 : length (u_roche u1) = length (u_particles u1)).
    { rewrite Q1, Hl, <- (map_length rotation (u_particles u1)), E1, map_length. reflexivity. }
    destruct (additional_effects t _ _ _ _ u1) as [u2|] eqn:E2; [|discriminate E]. cbn [rbind] in E.
    destruct (wind_only_kept _ _ _ _ W1 E2) as (W2 & Q2). destruct (wind_eval _ _ _ _ W1 E2) as (V2 & D2).
    destruct (gravity _ _) as [u3|] eqn:E3; [|discriminate E]. cbn [rbind] in E. apply gravity_inv in E3. destruct E3 as (accs & G3 & ->).
    unfold on_bodies in G3, E. cbn [u_particles u_hosts u_roche set_particles] in G3, E.
    assert (L2 : length (u_particles u2) = length (u_roche u2)).
    { rewrite Q2, L1, <- (map_length rotation (u_particles u2)), V2, map_length. reflexivity. }
    assert (La : length accs = length (map (lf_drift half) (u_particles u2))).
    { pose proof (rmap_length _ _ _ G3) as La. rewrite enumerate_length, combine_length, !map_length, L2, Nat.min_id in La. rewrite map_length. congruence. }
    set (l3 := map (fun pa => set_p_iacc (snd pa) (fst pa)) (combine _ accs)) in E.
    assert (V3 : map rotation l3 = map (rot_drift half) (map rotation (u_particles u))).
    { unfold l3. rewrite (zip_same rotation); [|exact La|reflexivity]. rewrite <- E1. rewrite <- V2.
      apply drift_rotation; [reflexivity|]. rewrite D2. rewrite <- !(map_map rotation rot_torque). congruence. }
    assert (L3 : length l3 = length (u_roche u2)).
    { rewrite <- (map_length rotation l3), V3, !map_length. congruence. }
    clearbody l3. destruct (inertial_to_heliocentric _) as [u4|] eqn:E4 in E; [|discriminate E]. cbn [rbind] in E.
    destruct (i2h_rest _ _ E4) as (R4 & _ & Q4 & _). apply (i2h_view rotation) in E4; auto. cbn [u_particles set_particles u_effects u_roche] in E4, R4, Q4.
    assert (W4 : wind_only u4) by (unfold wind_only in *; congruence).
    destruct (additional_effects _ _ _ _ _ u4) as [u5|] eqn:E5; [|discriminate E]. cbn [rbind] in E.
    destruct (wind_only_kept _ _ _ _ W4 E5) as (W5 & Q5). destruct (wind_eval _ _ _ _ W4 E5) as (V5 & D5). injection E as <-.
    unfold on_bodies, apply_corrections. cbn [u_particles u_roche set_particles].
    assert (V6 : map rotation (map (fun p => lf_drift half (lf_kick dt p)) (map (fun p => set_p_iacc (vadd (p_iacc p) (p_iadd p)) p) (u_particles u5)))
                 = map (fun p => rot_drift half (rot_drift half (rotation p))) (u_particles u)).
    { rewrite <- (map_map rotation (fun r => rot_drift half (rot_drift half r))). rewrite <- (map_map (rot_drift half) (rot_drift half)).
      rewrite <- V3, <- E4. rewrite <- (drift_rotation half _ _ V5 D5). rewrite !map_map. apply map_ext. reflexivity. }
    split; [exact W5|]. split; [|exact V6].
    rewrite !map_length. rewrite <- (map_length rotation (u_particles u5)), V5, E4, map_length. congruence.
  Qed.

  (** bodies that the wind slows down *)
  Definition braked (half : R) (r : rot) : Prop :=
    r_on r = true /\ r_rest r = vzero /\ 0 < r_k r /\ 0 < r_sat r /\ r_sat2 r = r_sat r * r_sat r /\ 0 < r_radius r /\ 0 < r_mass r /\ 0 < r_I r
    /\ r_L r <> vzero /\ half * rot_strength r (sqrt (norm2 (r_L r)) / r_I r) < r_I r.
  Lemma rot_wind_formula r : 0 <= r_sat r -> r_sat2 r = r_sat r * r_sat r -> 0 < r_mass r -> 0 < r_I r ->
    rot_wind r = vscale (- (rot_strength r (sqrt (norm2 (r_L r)) / r_I r) / r_I r)) (r_L r).
  Proof.
    intros Hs H2 Hm Hi. unfold rot_wind, rot_strength.
    assert (En : norm2 (vdivr (r_L r) (r_I r)) = norm2 (r_L r) / (r_I r * r_I r)).
    { destruct (r_L r) as [x y z]. vunfold. field. lra. }
    assert (Es : sqrt (norm2 (vdivr (r_L r) (r_I r))) = sqrt (norm2 (r_L r)) / r_I r).
    { rewrite En. rewrite sqrt_div_alt by nra. rewrite sqrt_square by lra. reflexivity. }
    rewrite Es. pose proof R_SUN_pos as HR. set (rs := R_SUN) in *. clearbody rs.
    replace (r_radius r / rs * 1 / r_mass r) with (r_radius r / (rs * r_mass r)) by (field; lra).
    set (q := sqrt (r_radius r / (rs * r_mass r))). clearbody q. rewrite H2.
    set (w := sqrt (norm2 (r_L r)) / r_I r) in *.
    assert (Ew : norm2 (vdivr (r_L r) (r_I r)) = w * w).
    { rewrite En. unfold w. pose proof (norm_sq (r_L r)) as N. set (nn := sqrt _) in *. clearbody nn. rewrite <- N. field. lra. }
    rewrite Ew. assert (E : (if Rleb (r_sat r) w then r_sat r * r_sat r else w * w) = Rmin w (r_sat r) * Rmin w (r_sat r)).
    { rcase; [rewrite Rmin_right by assumption; reflexivity|]. rewrite Rmin_left by lra. reflexivity. }
    rewrite E. set (mn := Rmin _ _). clearbody mn. destruct (r_L r) as [x y z]. unfold vscale, vdivr. cbn [vx vy vz]. num_simpl.
    f_equal; field; lra.
  Qed.
  Lemma rot_strength_pos r w : 0 < r_k r -> 0 < r_sat r -> 0 < r_radius r -> 0 < r_mass r -> 0 < w -> 0 < rot_strength r w.
  Proof.
    intros Hk Hs Hr Hm Hw. unfold rot_strength. pose proof R_SUN_pos as HR. set (rs := R_SUN) in *. clearbody rs.
    assert (0 < Rmin w (r_sat r)) by (apply Rmin_pos; assumption).
    apply Rmult_lt_0_compat; [|apply sqrt_lt_R0; apply Rdiv_lt_0_compat; nra]. apply Rmult_lt_0_compat; [assumption|nra].
  Qed.
  Lemma rot_strength_mono r w w' : 0 < r_k r -> 0 < r_sat r -> 0 <= w' -> w' <= w -> rot_strength r w' <= rot_strength r w.
  Proof.
    intros Hk Hs H0' Hw. unfold rot_strength.
    assert (A : 0 <= Rmin w' (r_sat r)) by (apply Rmin_glb; lra).
    assert (B : Rmin w' (r_sat r) <= Rmin w (r_sat r)) by (apply Rle_min_compat_r; assumption).
    apply Rmult_le_compat_r; [apply sqrt_pos|]. apply Rmult_le_compat_l; [lra|]. apply Rmult_le_compat; assumption.
  Qed.
  Lemma norm_pos (v : vec R) : v <> vzero -> 0 < sqrt (norm2 v).
  Proof.
    intro Hv. apply sqrt_lt_R0. destruct v as [x y z]. vunfold.
    destruct (Req_dec x 0), (Req_dec y 0), (Req_dec z 0); try (subst; exfalso; apply Hv; reflexivity); nra.
  Qed.
  Lemma drift_brakes half r : 0 < half -> braked half r ->
    exists f, 0 < f < 1 /\ rot_drift half r = with_L (vscale f (r_L r)) r /\ braked half (rot_drift half r).
  Proof.
    intros Hh (Ho & Hz & Hk & Hs & H2 & Hr & Hm & Hi & HL & Hc).
    set (k := rot_strength r (sqrt (norm2 (r_L r)) / r_I r)) in *.
    assert (Pk : 0 < k). { apply rot_strength_pos; auto. apply Rdiv_lt_0_compat; auto. apply norm_pos; auto. }
    set (f := 1 - half * k / r_I r).
    assert (Hf : 0 < f < 1).
    { unfold f. assert (0 < half * k / r_I r) by (apply Rdiv_lt_0_compat; nra).
      assert (half * k / r_I r < 1) by (apply Rmult_lt_reg_r with (r_I r); [assumption|]; field_simplify; lra). lra. }
    assert (E : rot_drift half r = with_L (vscale f (r_L r)) r).
    { unfold rot_drift. f_equal. unfold rot_torque. rewrite Hz, Ho, rot_wind_formula by (auto; lra). fold k.
      rewrite vadd_0_l. unfold f. destruct (r_L r) as [x y z]. unfold vadd, vmap2, vmulr, vscale. cbn [vx vy vz]. num_simpl. f_equal; field; lra. }
    exists f. split; [exact Hf|]. split; [exact E|]. rewrite E. unfold braked, with_L.
    cbn [r_L r_I r_on r_k r_sat r_sat2 r_radius r_mass r_rest r_off].
    assert (Nf : sqrt (norm2 (vscale f (r_L r))) = f * sqrt (norm2 (r_L r))).
    { replace (norm2 (vscale f (r_L r))) with ((f * f) * norm2 (r_L r)).
      - rewrite sqrt_mult_alt by nra. rewrite sqrt_square by lra. reflexivity.
      - destruct (r_L r) as [x y z]. vunfold. ring. }
    repeat split; auto.
    - intro X. apply HL. destruct (r_L r) as [x y z]. unfold vscale in X. cbn [vx vy vz] in X. num_simpl. unfold vzero in *. injection X as X1 X2 X3. num_simpl.
      f_equal; nra.
    - rewrite Nf. eapply Rle_lt_trans; [|exact Hc]. apply Rmult_le_compat_l; [lra|]. unfold k.
      change (rot_strength (Rot (vscale f (r_L r)) (r_I r) (r_on r) (r_k r) (r_sat r) (r_sat2 r) (r_radius r) (r_mass r) (r_rest r) (r_off r)))
        with (rot_strength r).
      assert (0 < sqrt (norm2 (r_L r))) by (apply norm_pos; auto).
      apply rot_strength_mono; auto.
      + apply Rlt_le. apply Rdiv_lt_0_compat; nra.
      + unfold Rdiv. apply Rmult_le_compat_r; [apply Rlt_le; apply Rinv_0_lt_compat; assumption|nra].
  Qed.

  Theorem wind_slows n t dt half (u u' : universe R) i p : wind_only u -> length (u_roche u) = length (u_particles u) -> 0 < half ->
    nth_error (u_particles u) i = Some p -> braked half (rotation p) ->
    lf_steps (S n) t dt half u = Ok u' ->
    exists p' f, nth_error (u_particles u') i = Some p' /\ 0 < f < 1 /\ p_L p' = vscale f (p_L p) /\ p_inertia p' = p_inertia p.
  Proof.
    intros Hw Hl Hh Hn Hb E.
    assert (G : forall n t u p, wind_only u -> length (u_roche u) = length (u_particles u) -> nth_error (u_particles u) i = Some p ->
      braked half (rotation p) -> lf_steps n t dt half u = Ok u' ->
      exists p' f, nth_error (u_particles u') i = Some p' /\ (0 < f <= 1 /\ (n <> O -> f < 1)) /\ p_L p' = vscale f (p_L p) /\ p_inertia p' = p_inertia p).
    { clear n t u p Hw Hl Hn Hb E. induction n as [|n IH]; intros t u p Hw Hl Hn Hb E; cbn [lf_steps] in E.
      - injection E as <-. exists p, 1. rewrite vscale_1. split; [exact Hn|]. split; [split; [lra|intro X; now elim X]|]. auto.
      - destruct (lf_step t dt half u) as [u1|] eqn:E1; [|discriminate E]. cbn [rbind] in E.
        destruct (wind_step _ _ _ _ _ Hw Hl E1) as (W1 & L1 & V1).
        destruct (drift_brakes half (rotation p) Hh Hb) as (f1 & F1 & D1 & B1).
        destruct (drift_brakes half _ Hh B1) as (f2 & F2 & D2 & B2).
        assert (N1 : nth_error (map rotation (u_particles u1)) i = Some (rot_drift half (rot_drift half (rotation p)))).
        { rewrite V1, nth_error_map, Hn. reflexivity. }
        rewrite nth_error_map in N1. destruct (nth_error (u_particles u1) i) as [p1|] eqn:N2; [|discriminate N1]. cbn [option_map] in N1.
        apply some_eq in N1. rename N1 into N1'.
        destruct (IH (t + half + half)%num u1 p1 W1 L1 N2) as (p' & f & Hp & (Hf & _) & Hpl & Hpi); [now rewrite N1'|exact E|].
        exists p', (f * (f2 * f1)). split; [exact Hp|].
        assert (0 < f2 * f1 < 1) by nra. split; [split; [nra|intros _; nra]|].
        rewrite D1 in D2, N1'. rewrite D2 in N1'. pose proof (f_equal r_L N1') as NL. pose proof (f_equal r_I N1') as NI.
        cbn [r_L r_I rotation with_L] in NL, NI. split; [|congruence].
        rewrite Hpl, NL, !vscale_scale. f_equal. ring. }
    destruct (G (S n) t u p Hw Hl Hn Hb E) as (p' & f & A & (B & B') & C & D). exists p', f. repeat split; auto; try lra.
  Qed.
End Wind.
