(** What constant time lag tides do to an orbit *)
From Coquelicot Require Import Coquelicot.
From Coq Require Import Reals Lra Psatz List Bool ZArith Lia.
From Verif Require Import Base.Num Base.Vec Base.Trans Base.Result Model.Constants Model.Particle Model.Tools Model.Creep Model.Tides
  Proofs.NumLemmas Proofs.VecLemmas Proofs.TidesProofs Proofs.TidesExamples Proofs.DiskOrbit Spec.EffectsSpec Spec.DiskSpec Spec.TidalOrbitSpec.
Import ListNotations.
Open Scope R_scope.

Section TidalOrbit.
  Context `{Trans R} `{Floor R} `{Fuel}.
  Local Notation P := (particle R).
  (** friction in the host and in the body *)
  Definition host_friction (m : pairs (F := R)) (host p : P) : R :=
    tide_strength (host_sigma m host p) (p_radius host) (p_mass p) (rel_pos host p).
  Definition body_friction (m : pairs (F := R)) (host p : P) : R :=
    tide_strength (planet_sigma m host p) (p_radius p) (p_mass host) (rel_pos host p).
  Definition love (p : P) : R := ctl_only 0 ctl_love p.
  (** the force of the tides of both on the body *)
  Definition mignard (m : pairs (F := R)) (host p : P) : vec R :=
    let r := rel_pos host p in let v := rel_vel host p in
    vadd (vadd (bulge_force K2 (host_love host) (p_radius host) (p_mass p) r)
               (bulge_force K2 (love p) (p_radius p) (p_mass host) r))
         (vadd (tidal_friction (host_friction m host p) (p_spin host) r v)
               (tidal_friction (body_friction m host p) (p_spin p) r v)).

  Lemma force_formula m (host p : P) : ctl_body p -> apart host p -> pair_force m host p = mignard m host p.
  Proof.
    intros Hc Ha. pose proof (norm_pos _ (vsub_apart host p Ha)) as Hd.
    destruct (done_one_spec m host p Hc) as (_ & Em & _ & _ & Esp & Ep & Ev & Ed & Er & _ & _ & Os & Op & _ & Rd). cbn zeta in *.
    unfold pair_force. destruct Hc as [c Hc]. rewrite Hc in *. cbn [is_tides_orbiting orbiting_ctl] in *.
    unfold ctl_force. rewrite Ed, Os, Op, Rd, Er, Ep, Ev, Esp. change (p_spin (ready_host host)) with (p_spin host).
    unfold mignard, tidal_friction, over_surface, bulge_force, host_friction, body_friction, tide_strength, love, ctl_only. rewrite Hc.
    assert (Ekh : match central_ctl (t_effect (p_tides host)) with Some c => ctl_love c | None => 0 end = host_love host)
      by (unfold host_love; destruct (t_effect (p_tides host)) as [[| |]| |]; reflexivity).
    rewrite Ekh. unfold rel_pos, rel_vel in *.
    set (r := vsub (p_ipos p) (p_ipos host)) in *. set (v := vsub (p_ivel p) (p_ivel host)) in *.
    assert (E2 := norm_sq r). set (d := sqrt (norm2 r)) in *. rewrite <- E2. clear E2.
    generalize (vdot r v) (host_sigma m host p) (planet_sigma m host p) (host_love host) (ctl_love c) (@K2 R _)
      (p_mass p) (p_mass host) (p_radius p) (p_radius host) (vcross (p_spin host) r) (vcross (p_spin p) r).
    assert (Hd0 : d <> 0) by lra. clearbody d r v. clear - Hd0. intros. vdestruct. vunfold. num_simpl. cbn [vx vy vz]. f_equal; field; auto.
  Qed.
  Lemma torque_formula (c d : R) (spin r v : vec R) : d <> 0 -> d * d = norm2 r ->
    Vec (c * d * (d * vx spin - vdot r spin * vx r / d - 1 / d * vx (vcross r v)))
        (c * d * (d * vy spin - vdot r spin * vy r / d - 1 / d * vy (vcross r v)))
        (c * d * (d * vz spin - vdot r spin * vz r / d - 1 / d * vz (vcross r v)))
    = vscale (- 1) (friction_torque c spin r v).
  Proof.
    intros Hd E.
    assert (G : forall a b e, c * d * (d * a - b / d - 1 / d * e) = c * (norm2 r * a - b - e)).
    { intros. rewrite <- E. field. exact Hd. }
    rewrite !G. unfold friction_torque, over_surface. clear. vdestruct. vunfold. num_simpl. f_equal; ring.
  Qed.
  Lemma star_torque_formula m (host p : P) : ctl_body p -> apart host p ->
    star_torque m host p = vscale (- 1) (friction_torque (host_friction m host p) (p_spin host) (rel_pos host p) (rel_vel host p)).
  Proof.
    intros Hc Ha. pose proof (norm_pos _ (vsub_apart host p Ha)) as Hd.
    destruct (done_one_spec m host p Hc) as (_ & _ & _ & _ & _ & Ep & Ev & Ed & _ & Es & _ & Os & _). cbn zeta in *.
    unfold star_torque, ctl_torque. rewrite Ep, Ev, Ed, Es, Os. change (p_spin (ready_host host)) with (p_spin host).
    fold (rel_pos host p) in Hd |- *. fold (rel_vel host p).
    rewrite <- (torque_formula (host_friction m host p) (sqrt (norm2 (rel_pos host p)))); [|lra|apply norm_sq].
    unfold host_friction, tide_strength. set (d := sqrt (norm2 (rel_pos host p))) in *. clearbody d. num_simpl.
    f_equal; f_equal; field; lra.
  Qed.
  Lemma own_torque_formula m (host p : P) : ctl_body p -> apart host p ->
    own_torque m host p = vscale (- 1) (friction_torque (body_friction m host p) (p_spin p) (rel_pos host p) (rel_vel host p)).
  Proof.
    intros Hc Ha. pose proof (norm_pos _ (vsub_apart host p Ha)) as Hd.
    destruct (done_one_spec m host p Hc) as (_ & _ & _ & _ & Esp & Ep & Ev & Ed & _ & _ & Es & _ & Os & _). cbn zeta in *.
    unfold own_torque. destruct Hc as [c Hc]. rewrite Hc. cbn [is_tides_orbiting].
    unfold ctl_torque. rewrite Ep, Ev, Ed, Es, Os, Esp.
    fold (rel_pos host p) in Hd |- *. fold (rel_vel host p).
    rewrite <- (torque_formula (body_friction m host p) (sqrt (norm2 (rel_pos host p)))); [|lra|apply norm_sq].
    unfold body_friction, tide_strength. set (d := sqrt (norm2 (rel_pos host p))) in *. clearbody d. num_simpl.
    f_equal; f_equal; field; lra.
  Qed.

  Definition ctl_system (host : P) (l : list P) : Prop :=
    ctl_host host /\ Forall ctl_or_none l /\ Forall (fun p : P => ctl_body p -> apart host p) l /\
    0 < p_mass host /\ Forall (fun p : P => 0 < p_mass p) l.
  Definition host_torque_of m (host p : P) : vec R :=
    ctl_only vzero (fun _ => friction_torque (host_friction m host p) (p_spin host) (rel_pos host p) (rel_vel host p)) p.
  Definition force_of_tides m (host p : P) : vec R := ctl_only vzero (fun _ => mignard m host p) p.
  Lemma Vsum_map_ext (f g : P -> vec R) l : Forall (fun p : P => f p = g p) l -> Vsum (map f l) = Vsum (map g l).
  Proof. induction 1 as [|p l E _ IH]; [reflexivity|]. cbn [map Vsum fold_right]. rewrite E. unfold Vsum in IH. now rewrite IH. Qed.
  Theorem ctl_law m host l host' l' : ctl_system host l -> tides_pass m host l = Ok (host', l') ->
    let m' := used_pairs m host l in
    Forall2 (fun p p' : P => ctl_body p ->
      tidal_acc p' = vscale (/ p_mass p) (mignard m' host p) /\
      tidal_torque p' = friction_torque (body_friction m' host p) (p_spin p) (rel_pos host p) (rel_vel host p)) l l' /\
    tidal_acc host' = vscale (- / p_mass host) (Vsum (map (force_of_tides m' host) l)) /\
    tidal_torque host' = Vsum (map (host_torque_of m' host) l).
  Proof.
    intros (Hh & Hl & Ha & Hm & Hml) E. cbn zeta. rewrite tides_pass_ctl in E by auto.
    set (m' := used_pairs m host l) in *.
    pose proof (f_equal (fun r => match r with Ok x => fst x | Panic _ => host end) E) as E1. cbn [fst] in E1.
    pose proof (f_equal (fun r => match r with Ok x => snd x | Panic _ => l end) E) as E2. cbn [snd] in E2.
    subst host' l'. clear E. split; [|split].
    - clear Hh. clearbody m'. induction l as [|p l IH]; cbn [map]; constructor.
      + inversion_clear Hl as [|? ? X _]; inversion_clear Ha as [|? ? Y _]; inversion_clear Hml as [|? ? Z _].
        intros Hc. specialize (Y Hc). destruct (final_one_spec m' host p X) as (_ & _ & _ & _ & A & T). split.
        * rewrite <- (force_formula m' host p Hc Y). rewrite <- A by lra. rewrite vscale_scale.
          replace (/ p_mass p * p_mass p) with 1 by (field; lra). symmetry. apply vscale_1.
        * rewrite T, (own_torque_formula m' host p Hc Y), vscale_scale. replace (- 1 * - 1) with 1 by ring. apply vscale_1.
      + apply IH; [now inversion Hl|now inversion Ha|now inversion Hml].
    - change (tidal_acc (final_host m' host l)) with (vscale (- 1 * (1 / p_mass host)) (Vsum (map (pair_force m' host) l))).
      replace (- 1 * (1 / p_mass host)) with (- / p_mass host) by (field; lra). f_equal. apply Vsum_map_ext.
      rewrite Forall_forall in *. intros p Hp. unfold force_of_tides, ctl_only.
      destruct (Hl p Hp) as [Hc|(N & _)].
      + rewrite (force_formula m' host p Hc (Ha p Hp Hc)). destruct Hc as [c ->]. reflexivity.
      + unfold pair_force. rewrite N. reflexivity.
    - change (tidal_torque (final_host m' host l)) with (Vsum (map (fun p => vscale (- 1) (star_torque m' host p)) l)).
      apply Vsum_map_ext. rewrite Forall_forall in *. intros p Hp. unfold host_torque_of, ctl_only.
      destruct (Hl p Hp) as [Hc|N].
      + rewrite (star_torque_formula m' host p Hc (Ha p Hp Hc)), vscale_scale. replace (- 1 * - 1) with 1 by ring.
        rewrite vscale_1. destruct Hc as [c ->]. reflexivity.
      + pose proof (done_one_idle m' host p N) as D. destruct N as (N & _ & _ & O).
        rewrite N. unfold star_torque, ctl_torque. rewrite D, O. num_simpl. rewrite !Rmult_0_l. vunfold. num_simpl. f_equal; ring.
  Qed.

  (** ** A body alone with its host *)
  Lemma tides_relative m (host p host' p' : P) : ctl_system host [p] -> ctl_body p -> tides_pass m host [p] = Ok (host', [p']) ->
    let m' := used_pairs m host [p] in
    vsub (tidal_acc p') (tidal_acc host') = vscale (/ p_mass p + / p_mass host) (mignard m' host p).
  Proof.
    intros S Hc E. cbn zeta. destruct (ctl_law m host [p] host' [p'] S E) as (L & A & _).
    inversion L as [|? ? ? ? L1 _]; subst. destruct (L1 Hc) as [B _]. rewrite A, B.
    cbn [map Vsum fold_right]. unfold force_of_tides at 1, ctl_only. destruct Hc as [c ->]. rewrite vadd_0_r.
    generalize (mignard (used_pairs m host [p]) host p). intros [a b e]. vunfold. num_simpl. f_equal; ring.
  Qed.
  Lemma bulge_no_work g k radius mass r v : vdot r v = 0 -> vdot v (bulge_force g k radius mass r) = 0.
  Proof.
    intros Z. unfold bulge_force. cbv zeta. match goal with |- vdot v (vscale ?q r) = 0 => generalize q end. intros q.
    replace (vdot v (vscale q r)) with (q * vdot r v) by (destruct r, v; vunfold; num_simpl; ring). rewrite Z. ring.
  Qed.
  Lemma turning_surface k spin r v : turning k spin r v -> 0 < norm2 r -> vdot r v = 0 -> over_surface spin r v = vscale (1 - k) v.
  Proof.
    intros -> Hn Z. unfold over_surface, orbital_rate.
    assert (E : vcross (vscale k (vscale (/ norm2 r) (vcross r v))) r = vscale (k / norm2 r) (vsub (vscale (norm2 r) v) (vscale (vdot r v) r))).
    { unfold Rdiv. generalize (/ norm2 r). intros w. destruct r, v. vunfold. num_simpl. f_equal; ring. }
    rewrite E, Z. clear E Z. set (n := norm2 r) in *. clearbody n. destruct r, v. vunfold. num_simpl. f_equal; field; lra.
  Qed.
  Lemma turning_work c k spin r v : turning k spin r v -> 0 < norm2 r -> vdot r v = 0 ->
    vdot v (tidal_friction c spin r v) = - (c * (1 - k)) * norm2 v.
  Proof.
    intros T Hn Z. unfold tidal_friction. rewrite (turning_surface k spin r v T Hn Z), Z. unfold Rdiv. rewrite Rmult_0_l, Rmult_0_r.
    clear. destruct r, v. vunfold. num_simpl. ring.
  Qed.
  Lemma turning_torque c k spin r v : turning k spin r v -> 0 < norm2 r -> vdot r v = 0 ->
    friction_torque c spin r v = vscale (c * (1 - k) * norm2 r) (orbital_rate r v).
  Proof.
    intros T Hn Z. unfold friction_torque. rewrite (turning_surface k spin r v T Hn Z). unfold orbital_rate. rewrite vscale_scale.
    replace (c * (1 - k) * norm2 r * / norm2 r) with (c * (1 - k)) by (field; lra).
    destruct r, v. vunfold. num_simpl. f_equal; ring.
  Qed.

  Section Circular.
    Variables (m : pairs (F := R)) (host p host' p' : P) (x v : R -> vec R) (t kh kp : R).
    Hypotheses (S : ctl_system host [p]) (Hc : ctl_body p) (E : tides_pass m host [p] = Ok (host', [p'])).
    Let m' := used_pairs m host [p].
    Let gm := pair_mass host p.
    Hypotheses (Hg : 0 < gm) (C : circular gm (rel_pos host p) (rel_vel host p))
      (Th : turning kh (p_spin host) (rel_pos host p) (rel_vel host p))
      (Tp : turning kp (p_spin p) (rel_pos host p) (rel_vel host p)).
    Lemma pair_apart : 0 < norm2 (rel_pos host p).
    Proof.
      destruct S as (_ & _ & Ha & _). inversion_clear Ha as [|? ? X _]. pose proof (norm_pos _ (vsub_apart host p (X Hc))) as Hd.
      fold (rel_pos host p) in Hd. destruct (Rlt_le_dec 0 (norm2 (rel_pos host p))) as [|Z]; [assumption|]. rewrite sqrt_neg_0 in Hd; lra.
    Qed.
    Theorem circular_spins :
      tidal_torque host' = vscale (host_friction m' host p * (1 - kh) * norm2 (rel_pos host p)) (orbital_rate (rel_pos host p) (rel_vel host p)) /\
      tidal_torque p' = vscale (body_friction m' host p * (1 - kp) * norm2 (rel_pos host p)) (orbital_rate (rel_pos host p) (rel_vel host p)).
    Proof.
      pose proof pair_apart as Hn. destruct C as (Z & _).
      destruct (ctl_law m host [p] host' [p'] S E) as (L & _ & T). fold m' in L, T.
      inversion L as [|? ? ? ? L1 _]; subst. destruct (L1 Hc) as [_ B]. split.
      - rewrite T. cbn [map Vsum fold_right]. rewrite vadd_0_r. unfold host_torque_of, ctl_only. destruct Hc as [c ->].
        now apply turning_torque.
      - rewrite B. now apply turning_torque.
    Qed.
    Hypotheses (Ex : x t = rel_pos host p) (Ev : v t = rel_vel host p)
      (M : disturbed_orbit gm x v t (vsub (tidal_acc p') (tidal_acc host'))).
    Theorem circular_orbit : derivable_pt_lim (fun s => semi_major gm (x s) (v s)) t
      (- (2 * semi_major gm (x t) (v t) * (/ p_mass p + / p_mass host)
          * (host_friction m' host p * (1 - kh) + body_friction m' host p * (1 - kp)))).
    Proof.
      pose proof pair_apart as Hn. destruct C as (Z & W).
      assert (Hs : 0 < sqrt (norm2 (rel_pos host p))) by now apply sqrt_lt_R0.
      assert (A : semi_major gm (x t) (v t) = sqrt (norm2 (rel_pos host p))).
      { unfold semi_major. rewrite Ex, Ev, W. field. lra. }
      assert (Hq : 2 / sqrt (norm2 (x t)) - norm2 (v t) / gm <> 0).
      { rewrite Ex, Ev, W. replace (2 / sqrt (norm2 (rel_pos host p)) - gm / sqrt (norm2 (rel_pos host p)) / gm) with (/ sqrt (norm2 (rel_pos host p))) by (field; lra).
        apply Rinv_neq_0_compat. lra. }
      assert (Hn' : 0 < norm2 (x t)) by now rewrite Ex.
      pose proof (sma_deriv gm x v t _ Hg Hn' Hq M) as D.
      rewrite (tides_relative m host p host' p' S Hc E) in D. fold m' in D.
      match type of D with derivable_pt_lim _ _ ?l => match goal with |- derivable_pt_lim _ _ ?r => replace r with l end end; [exact D|].
      rewrite A, Ev. unfold mignard. cbv zeta.
      assert (X : forall k (a b c d w : vec R), vdot w (vscale k (vadd (vadd a b) (vadd c d))) = k * (vdot w a + vdot w b + (vdot w c + vdot w d))).
      { intros. vdestruct. vunfold. num_simpl. ring. }
      rewrite X, !bulge_no_work by exact Z. rewrite (turning_work _ kh) by assumption. rewrite (turning_work _ kp) by assumption.
      rewrite W. set (d := sqrt (norm2 (rel_pos host p))) in *. clearbody d.
      destruct S as (_ & _ & _ & Mh & Mp). inversion_clear Mp as [|? ? Mp1 _].
      field. repeat split; lra.
    Qed.

    (** a synchronous body *)
    Theorem corotation : kp = 1 -> 0 < host_sigma m' host p -> p_radius host <> 0 ->
      exists a', derivable_pt_lim (fun s => semi_major gm (x s) (v s)) t a' /\ (a' < 0 <-> kh < 1) /\ (0 < a' <-> 1 < kh) /\ (a' = 0 <-> kh = 1).
    Proof.
      intros Ek Hs Hr. eexists. split; [exact circular_orbit|].
      pose proof pair_apart as Hn. assert (Hd : 0 < sqrt (norm2 (rel_pos host p))) by now apply sqrt_lt_R0.
      assert (A : 0 < semi_major gm (x t) (v t)).
      { destruct C as (_ & W). unfold semi_major. rewrite Ex, Ev, W.
        replace (2 / sqrt (norm2 (rel_pos host p)) - gm / sqrt (norm2 (rel_pos host p)) / gm) with (/ sqrt (norm2 (rel_pos host p))) by (field; lra).
        rewrite Rinv_inv. exact Hd. }
      destruct S as (_ & _ & _ & Mh & Mp). inversion_clear Mp as [|? ? Mp1 _].
      assert (B : 0 < / p_mass p + / p_mass host) by (apply Rplus_lt_0_compat; now apply Rinv_0_lt_compat).
      assert (F : 0 < host_friction m' host p).
      { unfold host_friction, tide_strength. apply Rdiv_lt_0_compat; [|now apply pow_lt].
        assert (0 < p_radius host ^ 10) by (replace (p_radius host ^ 10) with (Rsqr (p_radius host ^ 5)) by (unfold Rsqr; ring); apply Rsqr_pos_lt; now apply pow_nonzero).
        assert (0 < p_mass p ^ 2) by now apply pow_lt.
        apply Rmult_lt_0_compat; [|assumption]. apply Rmult_lt_0_compat; [|assumption]. lra. }
      replace (- (2 * semi_major gm (x t) (v t) * (/ p_mass p + / p_mass host) * (host_friction m' host p * (1 - kh) + body_friction m' host p * (1 - kp))))
        with (- ((2 * semi_major gm (x t) (v t) * (/ p_mass p + / p_mass host) * host_friction m' host p) * (1 - kh))) by (rewrite Ek; ring).
      assert (K : 0 < 2 * semi_major gm (x t) (v t) * (/ p_mass p + / p_mass host) * host_friction m' host p)
        by (apply Rmult_lt_0_compat; [|exact F]; apply Rmult_lt_0_compat; [|exact B]; lra).
      set (q := 2 * semi_major gm (x t) (v t) * (/ p_mass p + / p_mass host) * host_friction m' host p) in *. clearbody q.
      clear - K. repeat split; intros; nra.
    Qed.
  End Circular.
End TidalOrbit.

(** ** Two bodies of equal mass in each other's equator *)
Definition hot_sun : particle R := on_tides (set_t_sigma 1) sunR.
Lemma hot_mass_g : p_mass_g hot_sun = unit_mass * K2. Proof. reflexivity. Qed.
Lemma moon_system spin : ctl_system hot_sun [jupiter spin] /\ ctl_body (jupiter spin) /\ 0 < pair_mass hot_sun (jupiter spin) /\
  circular (pair_mass hot_sun (jupiter spin)) (rel_pos hot_sun (jupiter spin)) (rel_vel hot_sun (jupiter spin)) /\
  turning (1 / 4) (p_spin hot_sun) (rel_pos hot_sun (jupiter spin)) (rel_vel hot_sun (jupiter spin)) /\
  turning spin (p_spin (jupiter spin)) (rel_pos hot_sun (jupiter spin)) (rel_vel hot_sun (jupiter spin)).
Proof.
  pose proof unit_mass_pos as Hm.
  assert (G : pair_mass hot_sun (jupiter spin) = 1) by (unfold pair_mass; rewrite hot_mass_g, jupiter_mass_g; exact unit_gm).
  assert (X : rel_pos hot_sun (jupiter spin) = Vec 1 0 0).
  { unfold rel_pos. change (p_ipos (jupiter spin)) with unit_pos. change (p_ipos hot_sun) with (@vzero R _). unfold unit_pos. vunfold. num_simpl. f_equal; ring. }
  assert (V : rel_vel hot_sun (jupiter spin) = Vec 0 1 0).
  { unfold rel_vel. change (p_ivel (jupiter spin)) with unit_vel. change (p_ivel hot_sun) with (@vzero R _). unfold unit_vel. vunfold. num_simpl. f_equal; ring. }
  rewrite G, X, V.
  split; [|split; [eexists; reflexivity|split; [lra|]]].
  - split; [eexists; reflexivity|]. split; [constructor; [left; eexists; reflexivity|constructor]|].
    split; [constructor; [intros _; exact unit_apart|constructor]|]. split; [exact Hm|]. constructor; [exact Hm|constructor].
  - assert (N : norm2 (Vec 1 0 0) = 1 :> R) by (vunfold; num_simpl; ring).
    change (p_spin hot_sun) with (Vec 0 0 (1 / 4) : vec R). change (p_spin (jupiter spin)) with (Vec 0 0 spin : vec R).
    unfold circular, turning, orbital_rate. rewrite N, sqrt_1. vunfold. num_simpl. repeat split; try field; f_equal; field.
Qed.

Lemma moon_motion `{Trans R} `{Floor R} `{Fuel} m : let p := jupiter 1 in
  exists host' p' x v, tides_pass m hot_sun [p] = Ok (host', [p']) /\ x 0 = rel_pos hot_sun p /\ v 0 = rel_vel hot_sun p /\
    disturbed_orbit (pair_mass hot_sun p) x v 0 (vsub (tidal_acc p') (tidal_acc host')) /\
    0 < host_sigma (used_pairs m hot_sun [p]) hot_sun p /\ p_radius hot_sun <> 0.
Proof.
  cbv zeta. destruct (moon_system 1) as (S & Hc & _). destruct S as (S1 & S2 & _).
  pose proof (tides_pass_ctl m hot_sun [jupiter 1] S1 S2) as E. cbn zeta in E. set (m' := used_pairs m hot_sun [jupiter 1]) in *.
  cbn [map] in E.
  set (h' := final_host m' hot_sun [jupiter 1]) in *. set (p' := final_one m' hot_sun (jupiter 1)) in *.
  set (r := rel_pos hot_sun (jupiter 1)). set (u := rel_vel hot_sun (jupiter 1)). set (gm := pair_mass hot_sun (jupiter 1)).
  exists h', p', (line r u), (line u (vadd (vscale (- gm / sqrt (norm2 r) ^ 3) r) (vsub (tidal_acc p') (tidal_acc h')))).
  split; [exact E|]. split; [apply line_0|]. split; [apply line_0|]. split; [|split].
  - split; rewrite ?line_0; apply line_deriv.
  - change (host_sigma m' hot_sun (jupiter 1)) with 1. lra.
  - change (p_radius hot_sun) with 1. lra.
Qed.
