(** * The torques of an evaluation with tides and flattening (C72) *)
From Coq Require Import Reals Lra List Bool Arith Lia.
From Verif Require Import Base.Num Base.Result Base.Trans Base.Vec Model.Constants Model.Particle Model.Host Model.Creep
  Model.Tides Model.Flattening Model.Relativity Model.Universe Spec.EffectsSpec Spec.UniverseSpec Spec.AngularSpec
  Proofs.NumLemmas Proofs.VecLemmas Proofs.TidesProofs Proofs.FlatteningProofs Proofs.LeapFrogProofs Proofs.PairProofs Proofs.FrameProofs Proofs.EffectSums
  Proofs.Reciprocity Proofs.TorqueBalance.
Import ListNotations.
Open Scope R_scope.
Local Notation P := (particle R).

Lemma ok_inj {A} (a b : A) : Ok a = Ok b -> a = b.
Proof. now intros [= ->]. Qed.
Lemma torque_reassemble acc dL h (a : P) o : net_torque acc dL (reassemble h a o) = net_torque acc dL (a :: o).
Proof.
  unfold reassemble, net_torque. rewrite map_app, Vsum_app. cbn [map].
  match goal with |- vadd ?x (Vsum (?y :: ?z)) = Vsum (?y :: ?w) => change (vadd x (vadd y (Vsum z)) = vadd y (Vsum w)) end.
  rewrite <- (firstn_skipn h o) at 3. rewrite map_app, Vsum_app.
  match goal with |- vadd ?x (vadd ?y ?z) = _ => generalize x y z end. vring.
Qed.
Lemma torque_view {B} (c : P -> B) (f : B -> vec R) acc dL l k :
  (forall p, vadd (vcross (p_ipos p) (vscale (p_mass p) (acc p))) (dL p) = f (c p)) -> map c l = map c k -> net_torque acc dL l = net_torque acc dL k.
Proof.
  intros Hf E. unfold net_torque. f_equal. transitivity (map f (map c l)); [rewrite map_map; apply map_ext; auto|].
  rewrite E, map_map. symmetry. apply map_ext. auto.
Qed.

Lemma unseen' {A B} (c : A -> B) (f : A -> A) l : (forall a, c (f a) = c a) -> map (fun a => c (f a)) l = map c l.
Proof. intro E. now apply map_ext. Qed.
Lemma others_in {A} i (l : list A) p : In p (others i l) -> In p l.
Proof.
  unfold others. rewrite in_app_iff. intros [X|X].
  - rewrite <- (firstn_skipn i l). apply in_or_app. auto.
  - rewrite <- (firstn_skipn (S i) l). apply in_or_app. auto.
Qed.
Section Ready.
  Context `{Trans R} `{Floor R} `{Fuel}.

  (** ** The bodies when the tides are computed *)
  Definition th (h : P) : P :=
    on_tides (fun t => set_t_dL vzero (set_t_acc vzero (set_t_pos_dot_planet_spin 0 (set_t_pos_dot_star_spin 0 t)))) (tides_copy_one h).
  Definition tp (h p : P) : P :=
    if is_tides_orbiting (t_effect (p_tides p)) then
      on_tides (fun t => set_t_dL vzero (set_t_acc vzero (set_t_pos_dot_planet_spin (vdot (p_hpos p) (p_spin p)) (set_t_pos_dot_star_spin (vdot (p_hpos p) (p_spin h)) t))))
        (tides_copy_one p)
    else p.
  Definition rh (h : P) : P :=
    on_rf (fun r => set_rf_dL vzero (set_rf_acc vzero (set_rf_pos_dot_planet_spin 0 (set_rf_pos_dot_star_spin 0 r)))) (rf_copy_one h).
  Definition rp (h p : P) : P :=
    if is_rf_orbiting (rf_effect (p_rf p)) then
      on_rf (fun r => set_rf_dL vzero (set_rf_acc vzero (set_rf_pos_dot_planet_spin (vdot (p_hpos p) (p_spin p)) (set_rf_pos_dot_star_spin (vdot (p_hpos p) (p_spin h)) r))))
        (rf_copy_one p)
    else p.
  Definition respin (p : P) : P := let s := vdivr (p_L p) (p_inertia p) in set_p_spin2 (norm2 s) (set_p_spin s p).
  Lemma tides_ready h o : lag_host h -> opt_step true tides_copy_heliocentric tides_initialize (h, o) = (th h, map (tp h) o).
  Proof.
    intros (c & E). unfold opt_step, tides_copy_heliocentric. cbn [fst snd]. rewrite E. cbn [is_tides_central fst snd].
    unfold tides_initialize. change (t_effect (p_tides (tides_copy_one h))) with (t_effect (p_tides h)). rewrite E. cbn [is_tides_central].
    f_equal. rewrite map_map. apply map_ext. intro p. unfold tp. destruct (is_tides_orbiting (t_effect (p_tides p))) eqn:Ep; [|now rewrite Ep].
    change (t_effect (p_tides (tides_copy_one p))) with (t_effect (p_tides p)). rewrite Ep. reflexivity.
  Qed.
  Lemma rf_ready h o : flat_host h -> opt_step true rf_copy_heliocentric rf_initialize (h, o) = (rh h, map (rp h) o).
  Proof.
    intros (c & E). unfold opt_step, rf_copy_heliocentric. cbn [fst snd]. rewrite E. cbn [is_rf_central fst snd].
    unfold rf_initialize. change (rf_effect (p_rf (rf_copy_one h))) with (rf_effect (p_rf h)). rewrite E. cbn [is_rf_central].
    f_equal. rewrite map_map. apply map_ext. intro p. unfold rp. destruct (is_rf_orbiting (rf_effect (p_rf p))) eqn:Ep; [|now rewrite Ep].
    change (rf_effect (p_rf (rf_copy_one p))) with (rf_effect (p_rf p)). rewrite Ep. reflexivity.
  Qed.
  Lemma refreshed l l' : rmapi refresh_spin l = Ok l' -> l' = map respin l.
  Proof.
    unfold rmapi, enumerate. generalize 0%nat. revert l'. induction l as [|p l IH]; intros l' k E; cbn in E.
    - now injection E as <-.
    - unfold rbind in E. num_simpl. destruct (Reqb (p_inertia p) 0) eqn:Ez; [discriminate E|].
      destruct (rmap _ _) as [bs|] eqn:Er; [|discriminate E]. injection E as <-. cbn [map]. f_equal. eauto.
  Qed.

  Definition clear_iadd (acc : bool) (p : P) : P := if acc then set_p_iadd vzero p else p.
  Definition prep_host (acc b : bool) (h : P) : P := respin (clear_iadd acc (if b then rh (th h) else th h)).
  Definition prep (acc b : bool) (h p : P) : P := respin (clear_iadd acc (if b then rp (th h) (tp h p) else tp h p)).

  (** ** What they are *)
  Definition body_view (p : P) := (p_ipos p, p_ivel p, p_mass p, p_radius p, (p_L p, p_inertia p), p_evo p).
  Lemma prep_host_view (acc b : bool) h : body_view (prep_host acc b h) = body_view h /\ p_tides (prep_host acc b h) = p_tides (th h)
    /\ (b = true -> p_rf (prep_host acc b h) = p_rf (rh h)) /\ p_spin (prep_host acc b h) = vdivr (p_L h) (p_inertia h).
  Proof.
    assert (E1 : body_view (th h) = body_view h) by reflexivity.
    assert (E2 : body_view (rh (th h)) = body_view (th h)) by reflexivity.
    assert (E3 : p_tides (rh (th h)) = p_tides (th h)) by reflexivity.
    assert (E4 : p_rf (rh (th h)) = p_rf (rh h)) by reflexivity.
    unfold prep_host. set (q := if b then _ else _).
    assert (Q : body_view q = body_view h /\ p_tides q = p_tides (th h) /\ (b = true -> p_rf q = p_rf (rh h))).
    { unfold q. destruct b; (split; [congruence|]); (split; [assumption || reflexivity|]); [auto|intro X; discriminate X]. }
    clearbody q. destruct Q as (Q1 & Q2 & Q3).
    split; [destruct acc; exact Q1|]. split; [destruct acc; exact Q2|]. split; [destruct acc; exact Q3|].
    transitivity (vdivr (p_L q) (p_inertia q)); [destruct acc; reflexivity|].
    change (vdivr (p_L q) (p_inertia q) = vdivr (p_L h) (p_inertia h)).
    pose proof (f_equal (fun x => fst (snd (fst x))) Q1) as A. pose proof (f_equal (fun x => snd (snd (fst x))) Q1) as B. cbn [body_view fst snd] in A, B. now rewrite A, B.
  Qed.
  Lemma prep_view acc b h p : body_view (prep acc b h p) = body_view p /\ p_tides (prep acc b h p) = p_tides (tp h p)
    /\ (b = true -> p_rf (prep acc b h p) = p_rf (rp h p)) /\ p_spin (prep acc b h p) = vdivr (p_L p) (p_inertia p).
  Proof.
    assert (Et : body_view (tp h p) = body_view p /\ p_rf (tp h p) = p_rf p /\ p_hpos (tp h p) = p_hpos p /\ p_spin (tp h p) = p_spin p
                 /\ p_hvel (tp h p) = p_hvel p /\ p_hdist (tp h p) = p_hdist p).
    { unfold tp. destruct (is_tides_orbiting _); repeat split; reflexivity. }
    destruct Et as (E1 & E2 & E3 & E4 & E5 & E6).
    assert (Er : body_view (rp (th h) (tp h p)) = body_view p /\ p_rf (rp (th h) (tp h p)) = p_rf (rp h p) /\ p_tides (rp (th h) (tp h p)) = p_tides (tp h p)).
    { unfold rp. rewrite E2. destruct (is_rf_orbiting _).
      - split; [exact E1|]. split; [|reflexivity].
        unfold on_rf, rf_copy_one, on_rf. cbn [p_rf set_p_rf]. rewrite E2, E3, E4, E5, E6. reflexivity.
      - auto. }
    destruct Er as (F1 & F2 & F3). unfold prep. set (q := if b then _ else _).
    assert (Q : body_view q = body_view p /\ p_tides q = p_tides (tp h p) /\ (b = true -> p_rf q = p_rf (rp h p))).
    { unfold q. destruct b; split; auto; split; auto. intro X; discriminate X. }
    clearbody q. destruct Q as (Q1 & Q2 & Q3).
    split; [destruct acc; exact Q1|]. split; [destruct acc; exact Q2|]. split; [destruct acc; exact Q3|].
    transitivity (vdivr (p_L q) (p_inertia q)); [destruct acc; reflexivity|].
    change (vdivr (p_L q) (p_inertia q) = vdivr (p_L p) (p_inertia p)).
    pose proof (f_equal (fun x => fst (snd (fst x))) Q1) as A. pose proof (f_equal (fun x => snd (snd (fst x))) Q1) as B. cbn [body_view fst snd] in A, B. now rewrite A, B.
  Qed.
  Lemma prep_ctl acc b h p : lag_or_none p -> ctl_or_none (prep acc b h p).
  Proof.
    destruct (prep_view acc b h p) as (_ & E & _). unfold ctl_or_none, ctl_body, no_tides. rewrite E. unfold tp.
    intros [(c & Ec)|Hn]; [left; rewrite Ec; exists c; exact Ec|right]. destruct Hn as (Ed & Hn). rewrite Ed. auto.
  Qed.
  Lemma prep_oblate acc b h p : b = true -> flat_or_none p -> oblate_or_none (prep acc b h p).
  Proof.
    intros Hb. destruct (prep_view acc b h p) as (_ & _ & E & _). unfold oblate_or_none, oblate_body, no_flattening. rewrite (E Hb). unfold rp.
    intros [(c & Ec)|Hn]; [left; rewrite Ec; exists c; exact Ec|right]. destruct Hn as (Ed & Hn). rewrite Ed. auto.
  Qed.
  (** where the positions relative to the host have been refreshed *)
  Definition seen_from (h p : P) : Prop := p_hpos p = vsub (p_ipos p) (p_ipos h) /\ p_hdist p = separation h p /\ p_ipos p <> p_ipos h.
  Lemma seen_apart h p : seen_from h p -> p_hdist p <> 0.
  Proof.
    intros (E1 & E2 & Hn). rewrite E2. unfold separation. pose proof (norm_pos (vsub (p_ipos p) (p_ipos h))) as X.
    assert (Y : vsub (p_ipos p) (p_ipos h) <> vzero); [|specialize (X Y); lra].
    intro Y. apply Hn. revert Y. generalize (p_ipos p) (p_ipos h). intros [a b c] [a' b' c'] [= A B C]. num_simpl. f_equal; lra.
  Qed.
  Lemma prep_located acc b h p : lag_or_none p -> seen_from h p -> ctl_body (prep acc b h p) -> located (prep_host acc b h) (prep acc b h p).
  Proof.
    intros Hl Hs (c & Ec). destruct (prep_view acc b h p) as (V & E & _). destruct (prep_host_view acc b h) as (Vh & _).
    pose proof (f_equal (fun x => fst (fst (fst (fst (fst x))))) V) as A. pose proof (f_equal (fun x => fst (fst (fst (fst (fst x))))) Vh) as B. cbn [body_view fst snd] in A, B.
    pose proof (seen_apart _ _ Hs) as Hd. destruct Hs as (E1 & E2 & _).
    unfold located, separation. rewrite A, B. rewrite E in *. unfold tp in *.
    destruct (is_tides_orbiting _) eqn:Eo; [|rewrite Ec in Eo; discriminate Eo].
    change (p_hpos p = vsub (p_ipos p) (p_ipos h) /\ p_hdist p = separation h p /\ p_hdist p <> 0). auto.
  Qed.
  Lemma prep_flat acc b h p : b = true -> seen_from h p -> oblate_body (prep acc b h p) -> rf_pos (p_rf (prep acc b h p)) = vsub (p_ipos (prep acc b h p)) (p_ipos (prep_host acc b h)).
  Proof.
    intros Hb (E1 & _) (c & Ec). destruct (prep_view acc b h p) as (V & _ & E & _). destruct (prep_host_view acc b h) as (Vh & _). specialize (E Hb).
    pose proof (f_equal (fun x => fst (fst (fst (fst (fst x))))) V) as A. pose proof (f_equal (fun x => fst (fst (fst (fst (fst x))))) Vh) as B. cbn [body_view fst snd] in A, B.
    rewrite A, B. rewrite E in *. unfold rp in *. destruct (is_rf_orbiting _) eqn:Eo; [|rewrite Ec in Eo; discriminate Eo]. exact E1.
  Qed.
  (** ** The lag of one pair *)
  Lemma prep_lag acc b h p m : lag_or_none p -> seen_from h p -> dynamical_tide (p_evo h) = false -> dynamical_tide (p_evo p) = false ->
    let q := prep acc b h p in let k := prep_host acc b h in
    lag_one k (forces_one m k q) = stale_torque (p_spin h) k (p_spin p) q.
  Proof.
    intros Hl Hs Dh Dp q k. destruct (prep_view acc b h p) as (V & E & _ & Es). destruct (prep_host_view acc b h) as (Vh & Eh & _ & Ehs). fold q in V, E, Es. fold k in Vh, Eh, Ehs.
    assert (Dk : dynamical_tide (p_evo k) = false) by (rewrite (f_equal snd Vh : p_evo k = p_evo h); exact Dh).
    assert (Dq : dynamical_tide (p_evo q) = false) by (rewrite (f_equal snd V : p_evo q = p_evo p); exact Dp).
    pose proof (prep_located acc b h p Hl Hs) as Loc. fold q in Loc. fold k in Loc.
    unfold lag_one, stale_torque, ctl_only. rewrite forces_one_effect.
    destruct (prep_ctl acc b h p Hl : ctl_or_none q) as [(c & Ec)|(Ed & _)].
    - specialize (Loc (ex_intro _ c Ec)). rewrite Ec. cbn [is_tides_orbiting].
      destruct Loc as (L1 & L2 & L3).
      rewrite (forces_one_form m k q c) by now rewrite Ec.
      unfold lag.
      change (vscale ((orth_star_of m k q * (t_pos_dot_star_spin (p_tides q) - vdot (t_pos (p_tides q)) (p_spin k)) +
                       orth_planet_of m k q * (t_pos_dot_planet_spin (p_tides q) - vdot (t_pos (p_tides q)) (p_spin q))) / t_distance (p_tides q)) (t_pos (p_tides q)) =
              vadd (along_torque (t_sigma (p_tides k)) (p_radius k) (p_mass q) (vsub (p_spin h) (p_spin k)) (vsub (p_ipos q) (p_ipos k)))
                   (along_torque (t_sigma (p_tides q)) (p_radius q) (p_mass k) (vsub (p_spin p) (p_spin q)) (vsub (p_ipos q) (p_ipos k)))).
      assert (T1 : t_pos_dot_star_spin (p_tides q) = vdot (t_pos (p_tides q)) (p_spin h) /\ t_pos_dot_planet_spin (p_tides q) = vdot (t_pos (p_tides q)) (p_spin p)).
      { rewrite E in *. unfold tp in *. destruct (is_tides_orbiting (t_effect (p_tides p))) eqn:Eo; [split; reflexivity|]. rewrite Ec in Eo. discriminate Eo. }
      destruct T1 as (-> & ->).
      unfold orth_star_of, orth_planet_of, host_sigma, planet_sigma, get_pair_or_else. rewrite Dk, Dq.
      unfold along_torque. rewrite <- L1. unfold separation in L2. rewrite <- L1 in L2. rewrite <- L2. rewrite !npow_pow. num_simpl.
      clear - L3. revert L3. generalize (t_distance (p_tides q)) (t_pos (p_tides q)) (p_spin h) (p_spin k) (p_spin p) (p_spin q) (t_sigma (p_tides k)) (t_sigma (p_tides q))
         (p_radius k) (p_radius q) (p_mass k) (p_mass q).
      intros d r a1 a2 a3 a4 s1 s2 r1 r2 m1 m2 Hd. vdestruct. vunfold. f_equal; field; exact Hd.
    - rewrite Ed. reflexivity.
  Qed.

  (** ** The whole evaluation *)
  Definition tide_view (p : P) := (body_view p, p_spin p, (t_sigma (p_tides p), t_effect (p_tides p))).
  Lemma stale_view wh h h' wp p p' : tide_view h' = tide_view h -> tide_view p' = tide_view p -> stale_torque wh h' wp p' = stale_torque wh h wp p.
  Proof.
    unfold tide_view, body_view. intros [= A1 _ A2 A3 _ _ _ A4 A5 _] [= B1 _ B2 B3 _ _ _ B4 B5 E].
    unfold stale_torque, ctl_only. rewrite E, A1, A2, A3, A4, A5, B1, B2, B3, B4, B5. reflexivity.
  Qed.
  Lemma stale_sum (hb : P) (ha k : P) (f : P -> P) o O : tide_view ha = tide_view k -> map tide_view O = map tide_view (map f o) ->
    Vsum (map (fun bp => stale_torque (p_spin hb) ha (p_spin (fst bp)) (snd bp)) (combine o O)) = Vsum (map (fun p => stale_torque (p_spin hb) k (p_spin p) (f p)) o).
  Proof.
    intros Eh E. f_equal. revert O E. induction o as [|p o IH]; intros [|q O] E; try discriminate E; [reflexivity|].
    cbn [map] in E. apply cons_eq in E. destruct E as (Ep & Eo). cbn [combine map fst snd]. rewrite IH by exact Eo. f_equal. now apply stale_view.
  Qed.
  Lemma out_view m h o : tide_view (fst (tides_out m h o)) = tide_view h /\ map tide_view (snd (tides_out m h o)) = map tide_view o.
  Proof.
    split; [reflexivity|]. unfold tides_out. cbn [snd]. rewrite !map_map. apply map_ext. intro p.
    set (h1 := on_tides _ h). clearbody h1.
    transitivity (tide_view (accel_one h (forces_one m h p))); [unfold dL_one; destruct (is_tides_orbiting _); reflexivity|].
    transitivity (tide_view (forces_one m h p)); [unfold accel_one; destruct (is_tides_orbiting _); reflexivity|].
    unfold forces_one. transitivity (tide_view (ctl_orthogonal false m h (ctl_orthogonal true m h p))); [unfold ctl_radial; destruct (orbiting_ctl _); reflexivity|].
    transitivity (tide_view (ctl_orthogonal true m h p)); unfold ctl_orthogonal; destruct (orbiting_ctl _); reflexivity.
  Qed.

  Definition seen (u : universe R) : Prop := forall h, nth_error (u_particles u) (h_most_massive (u_hosts u)) = Some h ->
    Forall (seen_from h) (others (h_most_massive (u_hosts u)) (u_particles u)).

  Lemma evaluated_tides t ev acc ig u u' h b : tidal_system u -> nth_error (u_particles u) (h_most_massive (u_hosts u)) = Some h -> b = e_rf (u_effects u) ->
    additional_effects t ev true acc ig u = Ok u' ->
    let i := h_most_massive (u_hosts u) in let o := others i (u_particles u) in
    exists m r, tidal_host_effects (u_effects u) true acc (pair_dependent_factors (prep_host acc b h) (map (prep acc b h) o) m) (prep_host acc b h) (map (prep acc b h) o) = Ok r
      /\ length (snd r) = length o
      /\ u_particles u' = (let l := map sum_dL (reassemble i (fst r) (snd r)) in if acc then map (add_corrections (u_effects u)) l else l)
      /\ same_rest u u'.
  Proof.
    intros ((h0 & Eh0 & Lh & Fh) & Ho & Hfo & Ee & Et & Ma & Mt & Mf & Hall) Eh Hb E i o. rewrite Eh in Eh0. injection Eh0 as <-.
    destruct (evaluation _ _ _ _ _ _ _ E) as (_ & _ & _ & _ & _ & _ & _ & _ & Rs & _).
    pose proof (others_length _ _ _ Eh : S (length o) = length (u_particles u)) as Lo.
    assert (Hi : (i < length (u_particles u))%nat) by (apply nth_error_Some; unfold i; congruence). rewrite <- Lo in Hi.
    unfold additional_effects in E. rewrite initialize_eq in E. unfold init_list in E. cbn zeta in E. rewrite <- Hb in *. rewrite Ee in *. rewrite Ma, Mt, Mf in E.
    cbn [e_tides e_rf e_gr e_disk e_wind e_evolution andb orb negb gr_impl_eqb] in E.
    clear Hb Hall Ho Hfo.
    match type of E with rbind (rbind (rbind ?w _) _) _ = _ => destruct w as [l0|] eqn:E0; [|discriminate E] end. cbn [rbind] in E.
    apply with_host_inv with (1 := Eh) in E0. destruct E0 as (r0 & Er0 & ->). fold i o in Er0. apply ok_inj in Er0.
    assert (X : r0 = (if b then (rh (th h), map (rp (th h)) (map (tp h) o)) else (th h, map (tp h) o))).
    { rewrite <- Er0. rewrite tides_ready by exact Lh. unfold opt_step at 1 2. destruct b; [|destruct acc; reflexivity]. rewrite !andb_false_r. cbn [orb andb].
      apply rf_ready. destruct (Fh eq_refl) as (k & Ek). exists k. exact Ek. }
    clear Er0. subst r0.
    match type of E with rbind (spin_and_evolving _ _ ?v) _ = _ => set (u1 := v) in E end.
    assert (E1 : spin_and_evolving t ev u1 = do l <- rmapi refresh_spin (u_particles u1); Ok (set_evolvers (u_evolvers u) (set_particles l u1))).
    { unfold spin_and_evolving. change (u_effects u1) with (u_effects u). rewrite Ee. cbn [e_evolution]. rewrite andb_false_r. reflexivity. }
    rewrite E1 in E. clear E1. destruct (rmapi refresh_spin (u_particles u1)) as [l1|] eqn:E2; [|discriminate E]. cbn [rbind] in E.
    apply refreshed in E2.
    assert (E3 : l1 = reassemble i (prep_host acc b h) (map (prep acc b h) o)).
    { rewrite E2. unfold u1. cbn [u_particles set_particles]. fold i. unfold prep_host, prep, clear_iadd. destruct acc; rewrite ?map_map, map_reassemble; destruct b; cbn [fst snd]; f_equal; rewrite ?map_map; reflexivity. }
    clear E2. set (u2 := set_evolvers _ _) in E.
    assert (F2 : u_effects u2 = u_effects u /\ u_hosts u2 = u_hosts u /\ u_particles u2 = l1) by (split; [|split]; reflexivity).
    destruct F2 as (F2 & G2 & P2). clearbody u2. rewrite F2, Ee in E. cbn [e_tides e_rf e_gr e_disk e_wind orb andb] in E. rewrite !andb_false_r in E.
    unfold tidal_effects in E. rewrite F2, Ee, G2, Et, P2 in E. cbn [e_tides e_rf e_gr e_disk e_wind orb andb] in E. fold i in E.
    assert (Hi2 : (i <= length (map (prep acc b h) o))%nat) by (rewrite map_length; lia).
    rewrite E3 in E. rewrite nth_reassemble in E by exact Hi2. rewrite others_of_reassemble in E by exact Hi2.
    match type of E with rbind (rbind ?w _) _ = _ => destruct w as [l3|] eqn:E4; [|discriminate E] end. cbn [rbind] in E.
    apply (with_host_inv _ _ _ _ (prep_host acc b h)) in E4; [|now apply nth_reassemble]. rewrite others_of_reassemble in E4 by exact Hi2.
    destruct E4 as (r & Er & ->). injection E as <-. exists (u_pairs u2), r. split; [exact Er|]. split; [|split; [reflexivity|exact Rs]].
    apply (tidal_host_frame (fun _ => tt)) in Er; [|intros _; repeat intro; reflexivity|intros _; repeat intro; reflexivity].
    destruct Er as (_ & Er). apply (f_equal (@length _)) in Er. rewrite !map_length in Er. exact Er.
  Qed.
  Lemma fin_view {B} (c : P -> B) e : (forall a p, c (set_p_iadd a p) = c p) -> (forall a p, c (set_p_dL a p) = c p) ->
    forall p, c (add_corrections e (sum_dL p)) = c p.
  Proof. intros Ha Hd p. unfold add_corrections, add_if. destruct (e_gr _), (e_rf _), (e_disk _), (e_tides _); rewrite ?Ha; apply Hd. Qed.
  Definition tidal_view (p : P) := (p_ipos p, p_mass p, p_tides p).
  Definition flat_view (p : P) := (p_ipos p, p_mass p, p_rf p).
  Lemma tidal_by_view l k : map tidal_view l = map tidal_view k -> net_torque tidal_acc tidal_torque l = net_torque tidal_acc tidal_torque k.
  Proof. apply (torque_view tidal_view (fun x => vadd (vcross (fst (fst x)) (vscale (snd (fst x)) (t_acc (snd x)))) (t_dL (snd x)))). reflexivity. Qed.
  Lemma flat_by_view l k : map flat_view l = map flat_view k -> net_torque flattening_acc flattening_torque l = net_torque flattening_acc flattening_torque k.
  Proof. apply (torque_view flat_view (fun x => vadd (vcross (fst (fst x)) (vscale (snd (fst x)) (rf_acc (snd x)))) (rf_dL (snd x)))). reflexivity. Qed.
  Lemma seen_through {B} (z : P -> P) (c : P -> B) l k : (forall p, c (z p) = c p) -> map z l = map z k -> map c l = map c k.
  Proof.
    intros Hz E. transitivity (map c (map z l)); [rewrite map_map; apply map_ext; auto|]. rewrite E, map_map. now apply map_ext.
  Qed.
  Lemma summed e l : e_gr e = false -> e_disk e = false -> e_wind e = false -> e_tides e = true ->
    Forall (fun p : P => p_iadd p = enabled_acceleration e p) l -> Forall (fun p : P => p_dL p = enabled_torque e p) l ->
    net_torque p_iadd p_dL l = vadd (net_torque tidal_acc tidal_torque l) (if e_rf e then net_torque flattening_acc flattening_torque l else vzero).
  Proof.
    intros E1 E2 E3 E4 Fa Fd. unfold net_torque.
    assert (X : forall (b : bool) (x : P -> vec R), Vsum (map (fun p => if b then x p else vzero) l) = (if b then Vsum (map x l) else vzero)).
    { intros [|] x; [reflexivity|]. clear. induction l as [|p l IH]; [reflexivity|]. cbn [map]. match goal with |- Vsum (?a :: ?r) = _ => change (vadd a (Vsum r) = vzero) end. rewrite IH. vring. }
    rewrite <- X, <- Vsum_map_add. apply Vsum_map_ext. rewrite Forall_forall in *. intros p Hp. rewrite (Fa p Hp), (Fd p Hp).
    unfold enabled_acceleration, enabled_torque, only_if, tidal_acc, tidal_torque, flattening_acc, flattening_torque. rewrite E1, E2, E3, E4. cbn [Vsum fold_right].
    destruct (e_rf e); generalize (t_acc (p_tides p)) (rf_acc (p_rf p)) (t_dL (p_tides p)) (rf_dL (p_rf p)) (p_ipos p) (p_mass p); vring.
  Qed.

  Theorem torque_of_evaluation t ev ig u u' : tidal_system u -> seen u -> additional_effects t ev true true ig u = Ok u' ->
    net_torque p_iadd p_dL (u_particles u') = stale_torques (h_most_massive (u_hosts u)) (u_particles u) (u_particles u').
  Proof.
    intros Hu Hs E. pose proof Hu as ((h & Eh & Lh & Fh) & Ho & Hfo & Ee & Et & Ma & Mt & Mf & Hall).
    set (b := e_rf (u_effects u)) in *. set (i := h_most_massive (u_hosts u)) in *. set (o := others i (u_particles u)) in *.
    destruct (evaluated_tides t ev true ig u u' h b Hu Eh eq_refl E) as (m & r & Er & Lr & Ep & Rs). fold i in Er, Lr, Ep. fold o in Er, Lr.
    cbn zeta in Ep. rewrite map_map in Ep. pose proof (others_length _ _ _ Eh) as Lo. fold o in Lo.
    assert (Hi : (i < length (u_particles u))%nat) by (apply nth_error_Some; congruence).
    assert (Hq : Forall (quiet (u_effects u)) (u_particles u)).
    { eapply Forall_impl; [|exact Hall]. intros p (_ & _ & Q1 & Q2 & Q3). unfold quiet. rewrite Ee. cbn [e_tides e_rf e_gr e_wind].
      split; [intro X; discriminate X|]. auto. }
    destruct (effects_summed _ _ _ _ _ _ _ Hq E) as (Sa & Sd & _). specialize (Sa eq_refl).
    assert (To : torques_on (u_effects u) (u_gr u) = true) by (unfold torques_on; rewrite Ee; reflexivity). rewrite To in Sd. cbn [andb] in Sd.
    rewrite (summed (u_effects u)) by (assumption || (rewrite Ee; reflexivity)). fold b. clear Sa Sd Hq To.
    specialize (Hs h Eh). fold i in Hs. fold o in Hs.
    set (k := prep_host true b h) in *. set (q := map (prep true b h) o) in *. set (m' := pair_dependent_factors k q m) in *.
    assert (Hk : ctl_host k) by (destruct Lh as (c & Ec); exists c; unfold k; rewrite (proj1 (proj2 (prep_host_view true b h))); exact Ec).
    assert (Hql : Forall ctl_or_none q) by (apply Forall_map; eapply Forall_impl; [|exact Ho]; intros p Hp; now apply prep_ctl).
    assert (Hko : b = true -> oblate_host k) by (intro X; destruct (Fh X) as (c & Ec); exists c; unfold k; rewrite (proj1 (proj2 (proj2 (prep_host_view true b h))) X); exact Ec).
    assert (Hqo : b = true -> Forall oblate_or_none q) by (intro X; apply Forall_map; eapply Forall_impl; [|exact (Hfo X)]; intros p Hp; now apply prep_oblate).
    rewrite Ee in Er. destruct (both_effects (p_rf h) (p_tides h) b m' k q r Hk Hql Hko Hqo Er) as ((Ah & Ao) & Bt).
    assert (Mh : p_mass k <> 0).
    { unfold k. rewrite (f_equal (fun x => snd (fst (fst (fst x)))) (proj1 (prep_host_view true b h)) : p_mass (prep_host true b h) = p_mass h).
      rewrite Forall_forall in Hall. apply Hall. eapply nth_error_In. exact Eh. }
    assert (In : forall p, In p o -> In p (u_particles u)) by (intros p; unfold o; apply others_in).
    assert (Mq : Forall (fun p => p_mass p <> 0) q).
    { apply Forall_map, Forall_forall. intros p Hp. rewrite (f_equal (fun x => snd (fst (fst (fst x)))) (proj1 (prep_view true b h p)) : p_mass (prep true b h p) = p_mass p).
      rewrite Forall_forall in Hall. apply Hall. auto. }
    assert (Lq : Forall (fun p => ctl_body p -> located k p) q).
    { apply Forall_map, Forall_forall. rewrite Forall_forall in Ho, Hs. intros p Hp. apply prep_located; auto. }
    assert (Vt : map tidal_view (u_particles u') = map tidal_view (reassemble i (fst r) (snd r))) by (rewrite Ep, map_map; apply unseen'; intro p; apply fin_view; reflexivity).
    assert (Vf : map flat_view (u_particles u') = map flat_view (reassemble i (fst r) (snd r))) by (rewrite Ep, map_map; apply unseen'; intro p; apply fin_view; reflexivity).
    assert (T : net_torque tidal_acc tidal_torque (u_particles u') = Vsum (map (fun p => lag_one k (forces_one m' k p)) q)).
    { rewrite (tidal_by_view _ _ Vt), torque_reassemble.
      rewrite (tidal_by_view (fst r :: snd r) (fst (tides_out m' k q) :: snd (tides_out m' k q))).
      - apply (tides_torque m k q); auto. pose proof (tides_forces_ctl m k q Hk Hql) as X. cbn zeta in X. exact X.
      - apply (seen_through (zr (p_rf h))); [reflexivity|]. cbn [map]. f_equal; assumption. }
    assert (F : (if b then net_torque flattening_acc flattening_torque (u_particles u') else vzero) = vzero).
    { destruct b eqn:Eb; [|reflexivity]. destruct (Bt eq_refl) as (Bh & Bo).
      rewrite (flat_by_view _ _ Vf), torque_reassemble.
      rewrite (flat_by_view (fst r :: snd r) (fst (rf_out k q) :: snd (rf_out k q))).
      - apply flattening_torque_balance; auto. apply Forall_map, Forall_forall. rewrite Forall_forall in Hs. intros p Hp. apply prep_flat; auto.
      - apply (seen_through (zt (p_tides h))); [reflexivity|]. cbn [map]. f_equal; assumption. }
    rewrite T, F. clear T F Bt Vt Vf.
    (* the right-hand side *)
    assert (Nu : nth_error (u_particles u') i = Some (add_corrections (u_effects u) (sum_dL (fst r)))).
    { rewrite Ep, map_reassemble. apply nth_reassemble. rewrite map_length. lia. }
    assert (Ou : others i (u_particles u') = map (fun p => add_corrections (u_effects u) (sum_dL p)) (snd r)).
    { rewrite Ep, map_reassemble. apply others_of_reassemble. rewrite map_length. lia. }
    unfold stale_torques. rewrite Eh, Nu, Ou. fold o.
    destruct (out_view m' k q) as (Oh & Oq).
    rewrite (stale_sum h _ k (prep true b h)).
    - unfold q. rewrite map_map, vadd_0_r. apply Vsum_map_ext. rewrite Forall_forall in *. intros p Hp.
      apply prep_lag; auto; apply Hall; auto. eapply nth_error_In. exact Eh.
    - rewrite fin_view by reflexivity. rewrite <- Oh. exact (f_equal tide_view Ah).
    - rewrite map_map. rewrite (unseen' tide_view) by (apply fin_view; reflexivity). fold q. rewrite <- Oq.
      apply (seen_through (zr (p_rf h))); [reflexivity|exact Ao].
  Qed.
End Ready.
