(** Disk interaction and stellar wind *)
From Coq Require Import Reals Lra Psatz List Bool ZArith Lia SpecFloat.
From Verif Require Import Base.Num Base.Vec Base.Trans Model.Constants Model.Particle Model.Disk Model.Wind
  Proofs.NumLemmas Proofs.VecLemmas Spec.EffectsSpec.
Import ListNotations.
Open Scope R_scope.

Section DiskR.
  Context `{T : Trans R}.
  Definition disk_pass (time : R) (host : particle R) (l : list (particle R)) :=
    let '(host, l) := disk_inertial_to_heliocentric host l in
    let '(host, l) := disk_initialize host l in
    calculate_disk_acceleration time host l.
  Definition dprep (host p : particle R) : particle R :=
    let pos := vsub (p_ipos p) (p_ipos host) in
    let vel := vsub (p_ivel p) (p_ivel host) in
    let nv2 := norm2 (vsub vel vzero) in
    set_disk_acc vzero (set_disk_coords pos vel (nsqrt (norm2 pos)) (nsqrt nv2) nv2 p).
  Definition dprep_host (host : particle R) : particle R :=
    set_disk_acc vzero (set_disk_coords vzero vzero n0 n0 n0 host).
  Definition body_timescale (d : disk_props R) time host p : R := disk_timescale d time (dprep_host host) (dprep host p).
  Definition body_force (d : disk_props R) time host p : vec R := disk_force (body_timescale d time host p) (dprep host p).
  Definition finished (d : disk_props R) time host p : particle R :=
    set_disk_acc (vscale (1 / p_mass p) (body_force d time host p))
      (set_p_disk (set_dk_timescale (body_timescale d time host p) (p_disk (dprep host p))) (dprep host p)).

  Definition orbd (l : list (particle R)) := filter is_disk_orbiting l.
  Definition step (d : disk_props R) time host p : particle R :=
    let ts := disk_timescale d time host p in
    let p := set_p_disk (set_dk_timescale ts (p_disk p)) p in
    set_disk_acc (vscale (n1 / p_mass p)%num (disk_force ts p)) p.
  Definition force_of (d : disk_props R) time host p : vec R :=
    let ts := disk_timescale d time host p in
    disk_force ts (set_p_disk (set_dk_timescale ts (p_disk p)) p).
  Lemma disk_force_ts ts0 ts (p : particle R) : disk_force ts (set_p_disk (set_dk_timescale ts0 (p_disk p)) p) = disk_force ts p.
  Proof. unfold disk_force. cbn [p_disk set_p_disk p_mass dk_vel dk_pos dk_distance set_dk_timescale]. reflexivity. Qed.
  Lemma force_of_body d time host p : force_of d time (dprep_host host) (dprep host p) = body_force d time host p.
  Proof. unfold force_of, body_force, body_timescale. cbv zeta. apply disk_force_ts. Qed.
  Lemma step_finished d time host p : step d time (dprep_host host) (dprep host p) = finished d time host p.
  Proof. unfold step, finished, body_force, body_timescale. cbv zeta. rewrite disk_force_ts. f_equal. Qed.
  Lemma disk_fold (d : disk_props R) time host k l : forall sum hst done,
    exists hst',
    fold_left (fun '(sum, hst, done) p =>
      let '(sum, p) :=
        if is_disk_orbiting p then
          let ts := disk_timescale d time host p in
          let p := set_p_disk (set_dk_timescale ts (p_disk p)) p in
          let f := disk_force ts p in
          (vadd sum f, set_disk_acc (vscale (n1 / p_mass p)%num f) p)
        else (sum, p) in
      (sum, set_disk_acc (vscale k sum) hst, done ++ p :: nil)) l (sum, hst, done)
    = (vadd sum (Vsum (map (force_of d time host) (orbd l))), hst',
       done ++ map (fun p => if is_disk_orbiting p then step d time host p else p) l) /\
    p_mass hst' = p_mass hst /\ p_ivel hst' = p_ivel hst /\
    (disk_acc hst = vscale k sum -> disk_acc hst' = vscale k (vadd sum (Vsum (map (force_of d time host) (orbd l))))).
  Proof.
    induction l as [|p l IH]; intros sum hst done.
    - exists hst. cbn [fold_left map orbd filter]. split; [|split; [reflexivity|split; [reflexivity|]]].
      + cbn. now rewrite vadd_0_r, app_nil_r.
      + cbn. now rewrite vadd_0_r.
    - cbn [fold_left]. unfold orbd. cbn [filter map].
      destruct (is_disk_orbiting p) eqn:Ep.
      + destruct (IH (vadd sum (force_of d time host p)) (set_disk_acc (vscale k (vadd sum (force_of d time host p))) hst)
          (done ++ [step d time host p])) as (h' & E & M & V & A).
        exists h'. split; [|split; [exact M|split; [exact V|]]].
        * cbn [map Vsum fold_right]. rewrite vadd_assoc.
          change (done ++ step d time host p :: map (fun p => if is_disk_orbiting p then step d time host p else p) l)
            with (done ++ [step d time host p] ++ map (fun p => if is_disk_orbiting p then step d time host p else p) l).
          rewrite app_assoc. exact E.
        * intros _. cbn [map Vsum fold_right]. rewrite vadd_assoc. apply A. reflexivity.
      + destruct (IH sum (set_disk_acc (vscale k sum) hst) (done ++ [p])) as (h' & E & M & V & A).
        exists h'. split; [|split; [exact M|split; [exact V|]]].
        * change (done ++ p :: map (fun p => if is_disk_orbiting p then step d time host p else p) l)
            with (done ++ [p] ++ map (fun p => if is_disk_orbiting p then step d time host p else p) l).
          rewrite app_assoc. exact E.
        * intros _. apply A. reflexivity.
  Qed.

  Definition disk_host (host : particle R) (d : disk_props R) : Prop := dk_effect (p_disk host) = DiskCentral d.
  Definition disk_idle (p : particle R) : Prop := is_disk_orbiting p = false -> disk_acc p = vzero.

  Lemma disk_prepare host d l : disk_host host d ->
    (let '(host, l) := disk_inertial_to_heliocentric host l in disk_initialize host l)
    = (dprep_host host, map (fun p => if is_disk_orbiting p then dprep host p else p) l).
  Proof.
    intros K. unfold disk_inertial_to_heliocentric, is_disk_central. rewrite K.
    unfold disk_initialize, is_disk_central. change (dk_effect (p_disk (set_disk_coords vzero vzero n0 n0 n0 host)))
      with (dk_effect (p_disk host)). rewrite K. f_equal. rewrite map_map. apply map_ext. intros p.
    destruct (is_disk_orbiting p) eqn:Ep.
    - unfold is_disk_orbiting in *. match goal with |- (if ?b then _ else _) = _ => replace b with true end.
      reflexivity.
    - now rewrite Ep.
  Qed.
  Lemma disk_result time host d l host' l' : disk_host host d -> disk_pass time host l = (host', l') ->
    p_mass host' = p_mass host /\ p_ivel host' = p_ivel host /\
    disk_acc host' = vscale (- (1) * (1 / p_mass host)) (Vsum (map (body_force d time host) (orbd l))) /\
    l' = map (fun p => if is_disk_orbiting p then finished d time host p else p) l.
  Proof.
    intros K E. unfold disk_pass in E.
    pose proof (disk_prepare host d l K) as P.
    destruct (disk_inertial_to_heliocentric host l) as [h1 l1]. rewrite P in E. clear P h1 l1.
    unfold calculate_disk_acceleration in E.
    change (dk_effect (p_disk (dprep_host host))) with (dk_effect (p_disk host)) in E. rewrite K in E.
    set (lp := map _ l) in E.
    destruct (disk_fold d time (dprep_host host) (nopp n1 * (n1 / p_mass (dprep_host host)))%num lp vzero (dprep_host host) [])
      as (h' & Ef & M & V & A).
    cbv zeta in E, Ef. rewrite Ef in E. inversion E; subst h' l'. clear E Ef.
    assert (Eo : orbd lp = map (dprep host) (orbd l)).
    { unfold lp, orbd. clear. induction l as [|p l IH]; cbn [map filter]; [reflexivity|].
      destruct (is_disk_orbiting p) eqn:Ep.
      - change (is_disk_orbiting (dprep host p)) with (is_disk_orbiting p). rewrite Ep. cbn [map]. now rewrite IH.
      - now rewrite Ep. }
    split; [exact M|]. split; [exact V|]. split.
    - rewrite A. 2:{ change (disk_acc (dprep_host host)) with (@vzero R _). now rewrite vscale_0_r. }
      rewrite vadd_0_l, Eo, map_map, (map_ext _ _ (force_of_body d time host)). reflexivity.
    - cbn [app]. unfold lp. rewrite map_map. apply map_ext. intros p. destruct (is_disk_orbiting p) eqn:Ep.
      + change (is_disk_orbiting (dprep host p)) with (is_disk_orbiting p). rewrite Ep. apply step_finished.
      + now rewrite Ep.
  Qed.

  Lemma split_orbd (f g : particle R -> vec R) (l : list (particle R)) :
    Forall (fun p => if is_disk_orbiting p then f p = g p else f p = vzero) l ->
    Vsum (map f l) = Vsum (map g (orbd l)).
  Proof.
    unfold orbd. induction 1 as [|p l E _ IH]; [reflexivity|]. cbn [map filter Vsum fold_right].
    destruct (is_disk_orbiting p); cbn [map Vsum fold_right]; rewrite E; fold (Vsum (map f l)); rewrite IH.
    - reflexivity.
    - now rewrite vadd_0_l.
  Qed.
  Lemma split_orbd_R (f g : particle R -> R) (l : list (particle R)) :
    Forall (fun p => if is_disk_orbiting p then f p = g p else f p = 0) l ->
    Rsum (map f l) = Rsum (map g (orbd l)).
  Proof.
    unfold orbd. induction 1 as [|p l E _ IH]; [reflexivity|]. cbn [map filter Rsum fold_right].
    destruct (is_disk_orbiting p); cbn [map Rsum fold_right]; rewrite E; fold (Rsum (map f l)); rewrite IH.
    - reflexivity.
    - apply Rplus_0_l.
  Qed.
  Lemma finished_acc d time host p : disk_acc (finished d time host p) = vscale (1 / p_mass p) (body_force d time host p).
  Proof. reflexivity. Qed.
  Lemma finished_mass d time host p : p_mass (finished d time host p) = p_mass p. Proof. reflexivity. Qed.
  Lemma finished_vel d time host p : p_ivel (finished d time host p) = p_ivel p. Proof. reflexivity. Qed.

  Theorem disk_momentum time host d l host' l' :
    disk_host host d -> p_mass host <> 0 -> Forall (fun p => p_mass p <> 0) l -> Forall disk_idle l ->
    disk_pass time host l = (host', l') -> net_force disk_acc (host' :: l') = vzero.
  Proof.
    intros K Hm Hl HI E. destruct (disk_result time host d l host' l' K E) as (M & _ & A & ->).
    unfold net_force. cbn [map Vsum fold_right].
    fold (Vsum (map (fun b => vscale (p_mass b) (disk_acc b))
      (map (fun p => if is_disk_orbiting p then finished d time host p else p) l))).
    rewrite M, A, map_map.
    match goal with |- vadd _ (Vsum (map ?f l)) = _ => rewrite (split_orbd f (body_force d time host) l) end.
    - rewrite vscale_scale. replace (p_mass host * (- (1) * (1 / p_mass host))) with (-1) by (field; exact Hm).
      generalize (Vsum (map (body_force d time host) (orbd l))). intros v. clear. vring.
    - rewrite Forall_forall in *. intros p Hp. destruct (is_disk_orbiting p) eqn:Ep.
      + rewrite finished_acc, finished_mass, vscale_scale.
        replace (p_mass p * (1 / p_mass p)) with 1 by (field; auto). apply vscale_1.
      + rewrite (HI p Hp Ep). apply vscale_0_r.
  Qed.

  (** work of the disk on the motion of all bodies *)
  Definition no_torque (p : particle R) : vec R := vzero.
  Lemma disk_work time host d l host' l' :
    disk_host host d -> p_mass host <> 0 -> Forall (fun p => p_mass p <> 0) l -> Forall disk_idle l ->
    disk_pass time host l = (host', l') ->
    power disk_acc no_torque (host' :: l') =
    Rsum (map (fun p => vdot (body_force d time host p) (vsub (p_ivel p) (p_ivel host))) (orbd l)).
  Proof.
    intros K Hm Hl HI E. destruct (disk_result time host d l host' l' K E) as (M & V & A & ->).
    unfold power. cbn [map Rsum fold_right].
    match goal with |- _ + fold_right Rplus 0 ?k = _ => change (fold_right Rplus 0 k) with (Rsum k) end.
    rewrite M, V, A, map_map.
    match goal with |- _ + Rsum (map ?f l) = _ => rewrite (split_orbd_R f (fun p => vdot (body_force d time host p) (p_ivel p)) l) end.
    - rewrite vdot_scale_l, <- Vsum_map_dot. unfold no_torque. rewrite vdot_0_l.
      replace (p_mass host * (- (1) * (1 / p_mass host) * Rsum (map (fun x => vdot (body_force d time host x) (p_ivel host)) (orbd l))) + 0)
        with (- Rsum (map (fun x => vdot (body_force d time host x) (p_ivel host)) (orbd l))) by (field; exact Hm).
      rewrite <- Rsum_map_opp, <- Rsum_map_add. apply Rsum_map_ext. apply Forall_forall. intros p _.
      generalize (body_force d time host p), (p_ivel p), (p_ivel host). vring.
    - rewrite Forall_forall in *. intros p Hp. unfold no_torque. rewrite vdot_0_l.
      destruct (is_disk_orbiting p) eqn:Ep.
      + rewrite finished_acc, finished_mass, finished_vel, vdot_scale_l. field. auto.
      + rewrite (HI p Hp Ep), vdot_0_l. ring.
  Qed.

  (** the force on one body does not accelerate it relative to the host *)
  Lemma force_damps ts (host p : particle R) : 0 < ts -> 0 <= p_mass p ->
    vdot (disk_force ts (dprep host p)) (vsub (p_ivel p) (p_ivel host)) <= 0.
  Proof.
    intros Ht Hm. unfold disk_force.
    change (dk_vel (p_disk (dprep host p))) with (vsub (p_ivel p) (p_ivel host)).
    change (dk_pos (p_disk (dprep host p))) with (vsub (p_ipos p) (p_ipos host)).
    change (dk_distance (p_disk (dprep host p))) with (sqrt (norm2 (vsub (p_ipos p) (p_ipos host)))).
    change (p_mass (dprep host p)) with (p_mass p).
    rewrite Rmult_assoc || idtac.
    assert (Ed := norm_sq (vsub (p_ipos p) (p_ipos host))).
    change (@nmul R NumR) with Rmult. rewrite Ed.
    generalize (vsub (p_ipos p) (p_ipos host)), (vsub (p_ivel p) (p_ivel host)). intros r v. clear Ed.
    assert (Hn := norm2_nonneg r).
    set (q := norm2 r) in *. clearbody q.
    change (@ndiv R NumR) with Rdiv. change (@nopp R NumR) with Ropp. change (@n1 R NumR) with 1.
    change (@nlit R NumR) with (fun z p => IZR z / IZR (Zpos p)). cbv beta.
    set (k := p_mass p / ts). assert (Hk : 0 <= k) by (apply Rmult_le_pos; [lra|left; now apply Rinv_0_lt_compat]).
    replace (- p_mass p / ts) with (- k) by (unfold k; field; lra).
    replace (- p_mass p * (2 / 1) / (1 / 10 * ts)) with (- 20 * k) by (unfold k; field; lra).
    assert (Hq : 0 <= 1 / q).
    { destruct (Req_dec q 0) as [->|]; [unfold Rdiv; rewrite Rinv_0; lra|]. apply Rlt_le, Rdiv_lt_0_compat; lra. }
    set (w := 1 / q) in *. clearbody w k. clear - Hk Hq. destruct r as [a b c], v as [x y z]. vunfold.
    assert (E : (- k * x + -20 * k * (w * (a * x + b * y + c * z)) * a + 0) * x
              + (- k * y + -20 * k * (w * (a * x + b * y + c * z)) * b + 0) * y
              + (- k * z + -20 * k * (w * (a * x + b * y + c * z)) * c + -20 * k * z) * z
              = - (k * (x * x + y * y + z * z) + 20 * (k * w) * ((a * x + b * y + c * z) * (a * x + b * y + c * z)) + 20 * (k * (z * z)))) by ring.
    rewrite E.
    assert (0 <= k * (x * x + y * y + z * z)) by (apply Rmult_le_pos; nra).
    assert (0 <= k * (z * z)) by (apply Rmult_le_pos; nra).
    assert (0 <= (k * w) * ((a * x + b * y + c * z) * (a * x + b * y + c * z))) by (apply Rmult_le_pos; [apply Rmult_le_pos; auto|apply Rle_0_sqr]).
    lra.
  Qed.
  Theorem disk_damps time host d l host' l' :
    disk_host host d -> p_mass host <> 0 -> Forall (fun p => 0 < p_mass p) l -> Forall disk_idle l ->
    Forall (fun p => is_disk_orbiting p = true -> 0 < body_timescale d time host p) l ->
    disk_pass time host l = (host', l') -> power disk_acc no_torque (host' :: l') <= 0.
  Proof.
    intros K Hm Hl HI HT E.
    assert (Hn : Forall (fun p => p_mass p <> 0) l) by (eapply Forall_impl; [|exact Hl]; cbv beta; intros; lra).
    rewrite (disk_work time host d l host' l' K Hm Hn HI E).
    rewrite Forall_forall in *.
    cut (0 <= Rsum (map (fun p => - vdot (body_force d time host p) (vsub (p_ivel p) (p_ivel host))) (orbd l))).
    { rewrite Rsum_map_opp. lra. }
    apply Rsum_nonneg. apply Forall_forall. intros p Hp. apply filter_In in Hp. destruct Hp as [Hp Ho].
    pose proof (force_damps (body_timescale d time host p) host p (HT p Hp Ho) (Rlt_le _ _ (Hl p Hp))).
    unfold body_force. lra.
  Qed.
End DiskR.

(** ** The migration time scale is positive *)
Section Timescale.
  Lemma Rpowf_pos x y : 0 < x -> 0 < Rpowf x y.
  Proof. intros Hx. unfold Rpowf. destruct (Rlt_dec 0 x); [|contradiction]. apply exp_pos. Qed.
  Definition disk_ok (d : disk_props R) : Prop :=
    0 <= dp_inner d /\ 0 < dp_density d /\ 0 < dp_alpha d /\ 0 < dp_weight d.
  Lemma density_pos (d : disk_props R) time dist : disk_ok d -> dp_inner d < dist ->
    0 < disk_surface_density d time dist.
  Proof.
    intros (Hi & Hd & _) Hx. unfold disk_surface_density. cbv zeta.
    change (@nltb R NumR) with Rltb. rewrite (proj2 (Rltb_true _ _) Hx).
    change (0 < dp_density d * (1 / dist) * exp (- (1) * dist / dp_outer d) * (1 - sqrt (dp_inner d / dist)) * exp (- time / dp_lifetime d)).
    assert (0 < dist) by lra.
    assert (sqrt (dp_inner d / dist) < 1).
    { rewrite <- sqrt_1. apply sqrt_lt_1; try lra.
      - apply Rmult_le_pos; [lra|left; now apply Rinv_0_lt_compat].
      - apply (Rmult_lt_reg_r dist); [lra|]. unfold Rdiv. rewrite Rmult_assoc, Rinv_l; lra. }
    repeat apply Rmult_lt_0_compat; try apply exp_pos; try lra. now apply Rinv_0_lt_compat.
  Qed.
  Lemma lits_pos : 0 < BOLTZMANN (F := R) /\ 0 < MASS_HYDROGEN (F := R).
  Proof.
    unfold BOLTZMANN, MASS_HYDROGEN, BOLTZMANN_SI, MASS_HYDROGEN_SI, M_SUN, AU, DAY, HOUR. num_simpl.
    split; repeat (apply Rmult_lt_0_compat || apply Rdiv_lt_0_compat || apply Rinv_0_lt_compat || lra).
  Qed.
  Lemma viscosity_pos (d : disk_props R) m gm dist : disk_ok d -> 0 < m -> 0 < gm -> 0 < dist ->
    0 < disk_viscosity d m gm dist.
  Proof.
    intros (_ & _ & Ha & Hw) Hm Hg Hd. destruct lits_pos as [Hb Hh].
    unfold disk_viscosity, temperature_disk, keplerian_frequency. num_simpl.
    apply Rdiv_lt_0_compat.
    - apply Rmult_lt_0_compat; [assumption|]. apply Rdiv_lt_0_compat; [|now apply Rmult_lt_0_compat].
      apply Rmult_lt_0_compat; [assumption|]. apply Rmult_lt_0_compat; [|assumption].
      apply Rmult_lt_0_compat; [lra|]. apply Rpowf_pos. assumption.
    - apply sqrt_lt_R0. apply Rdiv_lt_0_compat; [assumption|]. cbn. repeat apply Rmult_lt_0_compat; assumption.
  Qed.
  Lemma migration_pos (d : disk_props R) time m gm mp dist sma : disk_ok d -> 0 < m -> 0 < gm -> 0 < mp ->
    dp_inner d < dist -> sma <> 0 -> 0 < migration_timescale d time m gm mp dist sma.
  Proof.
    intros Hd Hm Hg Hp Hx Hs. assert (0 < dist) by (destruct Hd; lra).
    pose proof (density_pos d time dist Hd Hx) as D. pose proof (viscosity_pos d m gm dist Hd Hm Hg H) as V.
    unfold migration_timescale, gas_radial_velocity. cbv zeta. set (den := disk_surface_density _ _ _) in *.
    set (nu := disk_viscosity _ _ _ _) in *. clearbody den nu.
    assert (M : 0 < nmin (F:=R) n1 (#2 * den * npow sma 2 / mp)%num).
    { unfold nmin. num_simpl. rcase; [|lra]. cbn [npow]. apply Rdiv_lt_0_compat; [|assumption]. num_simpl.
      apply Rmult_lt_0_compat; [lra|]. apply Rsqr_pos_lt. assumption. }
    set (mm := nmin _ _) in *. clearbody mm. num_simpl.
    replace (- sma / (- (3 / 1) * nu / (2 / 1 * sma) * mm)) with (2 * (sma * sma) / (3 * nu * mm)) by (field; lra).
    apply Rdiv_lt_0_compat; [|repeat apply Rmult_lt_0_compat; lra]. pose proof (Rsqr_pos_lt sma Hs). unfold Rsqr in *. lra.
  Qed.

  (** a body outside the inner edge and not exactly on a parabolic orbit *)
  Definition migrating (d : disk_props R) (host p : particle R) : Prop :=
    let r := vsub (p_ipos p) (p_ipos host) in let v := vsub (p_ivel p) (p_ivel host) in
    0 < p_mass p /\ 0 < p_mass_g p /\ dp_inner d < sqrt (norm2 r) /\
    2 * (p_mass_g p + p_mass_g host) - sqrt (norm2 r) * norm2 v <> 0.
  Lemma vsub_0_r (v : vec R) : vsub v vzero = v. Proof. vring. Qed.
  Lemma body_timescale_pos d time host p : disk_ok d -> 0 < p_mass host -> 0 < p_mass_g host ->
    migrating d host p -> 0 < body_timescale d time host p.
  Proof.
    intros Hd Hm Hg (Mp & Gp & Hx & Hb). unfold body_timescale, disk_timescale. cbv zeta.
    change (dk_distance (p_disk (dprep host p))) with (sqrt (norm2 (vsub (p_ipos p) (p_ipos host)))).
    change (dk_norm_vel2 (p_disk (dprep host p))) with (norm2 (vsub (vsub (p_ivel p) (p_ivel host)) vzero)).
    rewrite vsub_0_r.
    change (p_mass_g (dprep host p)) with (p_mass_g p). change (p_mass (dprep host p)) with (p_mass p).
    change (p_mass_g (dprep_host host)) with (p_mass_g host). change (p_mass (dprep_host host)) with (p_mass host).
    apply migration_pos; auto.
    assert (0 < sqrt (norm2 (vsub (p_ipos p) (p_ipos host)))) by (destruct Hd; lra).
    num_simpl. replace (2 / 1) with 2 by field. apply Rmult_integral_contrapositive_currified.
    - apply Rmult_integral_contrapositive_currified; lra.
    - apply Rinv_neq_0_compat. exact Hb.
  Qed.
  Theorem disk_brakes time host d l host' l' :
    disk_host host d -> disk_ok d -> 0 < p_mass host -> 0 < p_mass_g host ->
    Forall (fun p => if is_disk_orbiting p then migrating d host p else 0 < p_mass p /\ disk_acc p = vzero) l ->
    disk_pass time host l = (host', l') ->
    net_force disk_acc (host' :: l') = vzero /\ power disk_acc no_torque (host' :: l') <= 0.
  Proof.
    intros K Hd Hm Hg HL E.
    assert (HP : Forall (fun p => 0 < p_mass p) l).
    { eapply Forall_impl; [|exact HL]. cbv beta. intros p. destruct (is_disk_orbiting p); [intros (X & _)|intros (X & _)]; exact X. }
    assert (HI : Forall disk_idle l).
    { eapply Forall_impl; [|exact HL]. cbv beta. intros p. unfold disk_idle. destruct (is_disk_orbiting p); intros X Y; [discriminate|apply X]. }
    split.
    - apply (disk_momentum time host d l host' l'); auto; [lra|]. eapply Forall_impl; [|exact HP]. cbv beta. intros; lra.
    - apply (disk_damps time host d l host' l'); auto; [lra|].
      eapply Forall_impl; [|exact HL]. cbv beta. intros p X Y. rewrite Y in X. apply body_timescale_pos; auto.
  Qed.
End Timescale.

(** ** Inside the inner edge, in binary64 *)
Section Inside.
  Definition fin (x : f64) : Prop := match x with S754_zero _ | S754_finite _ _ _ => True | _ => False end.
  Definition isz (x : f64) : Prop := match x with S754_zero _ => True | _ => False end.
  Definition isinf (x : f64) : Prop := match x with S754_infinity _ => True | _ => False end.
  Lemma mul_z_fin x y : isz x -> fin y -> isz (nmul x y).
  Proof. destruct x, y; cbn; tauto. Qed.
  Lemma mul_fin_z x y : fin x -> isz y -> isz (nmul x y).
  Proof. destruct x, y; cbn; tauto. Qed.
  Lemma div_z x y : isz x -> fin y -> ~ isz y -> isz (ndiv x y).
  Proof. destruct x, y; cbn; tauto. Qed.
  Lemma div_by_z x y : fin x -> ~ isz x -> isz y -> isinf (ndiv x y).
  Proof. destruct x, y; cbn; tauto. Qed.
  Lemma div_by_inf x y : fin x -> isinf y -> isz (ndiv x y).
  Proof. destruct x, y; cbn; tauto. Qed.
  Lemma add_z x y : isz x -> isz y -> isz (nadd x y).
  Proof. destruct x as [[]| | |], y as [[]| | |]; cbn; tauto. Qed.
  Lemma opp_fin x : fin x -> fin (nopp x). Proof. destruct x; cbn; tauto. Qed.
  Lemma opp_nz x : ~ isz x -> ~ isz (nopp x). Proof. destruct x; cbn; tauto. Qed.
  Lemma min1_z x : isz x -> isz (nmin n1 x).
  Proof. destruct x as [s| | |]; cbn; try contradiction. intros _. destruct s; vm_compute; auto. Qed.
  Lemma tenth_inf x : isinf x -> isinf (1//10 * x)%num.
  Proof. destruct x as [|s| |]; try contradiction. intros _. destruct s; vm_compute; exact I. Qed.

  Context `{T : Trans f64}.
  Definition all_of (P : f64 -> Prop) (v : vec f64) : Prop := P (vx v) /\ P (vy v) /\ P (vz v).
  Lemma force_none ts (p : particle f64) : isinf ts ->
    fin (p_mass p) -> fin (nopp (p_mass p) * #2)%num -> all_of fin (dk_vel (p_disk p)) -> all_of fin (dk_pos (p_disk p)) ->
    fin (n1 / (dk_distance (p_disk p) * dk_distance (p_disk p)) * vdot (dk_pos (p_disk p)) (dk_vel (p_disk p)))%num ->
    all_of isz (disk_force ts p).
  Proof.
    intros Ht Hm H2 (Vx & Vy & Vz) (Px & Py & Pz) Hs. unfold disk_force. cbv zeta.
    pose proof (div_by_inf _ _ (opp_fin _ Hm) Ht) as Z1.
    pose proof (div_by_inf _ _ H2 (tenth_inf _ Ht)) as Z2.
    pose proof (mul_z_fin _ _ Z2 Hs) as Z3.
    assert (Z0 : isz (n0 (F:=f64))) by exact I.
    unfold all_of, vadd, vscale. cbn [vx vy vz].
    split; [|split]; (apply add_z; [apply add_z; apply mul_z_fin; assumption|first [exact Z0|apply mul_z_fin; assumption]]).
  Qed.
  Theorem inside_edge_free (d : disk_props f64) time (host p : particle f64) :
    let k := p_disk p in
    let sma := ((p_mass_g p + p_mass_g host) * dk_distance k
               / (#2 * (p_mass_g p + p_mass_g host) - dk_distance k * dk_norm_vel2 k))%num in
    (dk_distance k <=? dp_inner d)%num = true ->
    fin sma -> ~ isz sma -> fin (sma * sma)%num ->
    fin (gas_radial_velocity d (p_mass host) (p_mass_g host) (dk_distance k) sma) ->
    fin (p_mass p) -> ~ isz (p_mass p) -> fin (nopp (p_mass p) * #2)%num ->
    all_of fin (dk_pos k) -> all_of fin (dk_vel k) ->
    fin (n1 / (dk_distance k * dk_distance k) * vdot (dk_pos k) (dk_vel k))%num ->
    all_of isz (disk_force (disk_timescale d time host p) p).
  Proof.
    cbv zeta. intros Hi Hs Hs0 Hs2 Hv Hm Hm0 Hm2 Hp Hve Hsc.
    apply force_none; auto.
    unfold disk_timescale, migration_timescale. cbv zeta.
    set (sma := ndiv _ _) in *. clearbody sma.
    unfold disk_surface_density. cbv zeta.
    replace (dp_inner d <? dk_distance (p_disk p))%num with false.
    2:{ symmetry. change (SFltb (dp_inner d) (dk_distance (p_disk p)) = false).
        change (SFleb (dk_distance (p_disk p)) (dp_inner d) = true) in Hi.
        unfold SFltb, SFleb, SFcompare in *. clear - Hi.
        destruct (dp_inner d) as [|[]| |[] m e], (dk_distance (p_disk p)) as [|[]| |[] m' e']; try reflexivity; try discriminate;
        rewrite (Z.compare_antisym e' e) in *; destruct (Z.compare e' e); cbn [CompOpp] in *; try reflexivity; try discriminate;
        change (Pos.compare_cont Eq) with Pos.compare in *; rewrite (Pos.compare_antisym m' m) in *; destruct (Pos.compare m' m); cbn [CompOpp] in *; try reflexivity; try discriminate. }
    apply div_by_z; auto using opp_fin, opp_nz.
    apply mul_fin_z; auto. apply min1_z. apply div_z; auto.
    apply mul_z_fin; [|exact Hs2]. vm_compute. exact I.
  Qed.
End Inside.

(** ** Stellar wind *)
Section WindR.
  (** a body turning with angular velocity [w] *)
  Definition spinning (w : vec R) (p : particle R) : particle R := set_p_spin2 (norm2 w) (set_p_spin w p).
  Definition wind_strength (p : particle R) (w : R) : R :=
    w_k_factor (p_wind p) * (Rmin w (w_saturation (p_wind p)) * Rmin w (w_saturation (p_wind p)))
    * sqrt (p_radius p / (R_SUN * p_mass p)).
  Definition wind_ok (p : particle R) : Prop :=
    0 <= w_saturation (p_wind p) /\ w_saturation2 (p_wind p) = w_saturation (p_wind p) * w_saturation (p_wind p) /\ 0 < p_mass p.
  Lemma R_SUN_pos : 0 < R_SUN (F := R).
  Proof. unfold R_SUN, AU. num_simpl. apply Rdiv_lt_0_compat; lra. Qed.
  Lemma wind_formula (w : vec R) p : wind_ok p ->
    wind_torque (spinning w p) = vscale (- wind_strength p (sqrt (norm2 w))) w.
  Proof.
    intros (Hs & H2 & Hm). unfold wind_torque, wind_component, spinning, wind_strength.
    cbn [p_spin p_spin2 p_wind p_radius p_mass set_p_spin set_p_spin2]. pose proof R_SUN_pos as HR.
    set (rs := R_SUN) in *. clearbody rs. num_simpl.
    replace (p_radius p / rs * 1 / p_mass p) with (p_radius p / (rs * p_mass p)) by (field; lra).
    set (q := sqrt (p_radius p / (rs * p_mass p))). clearbody q. rewrite H2.
    assert (E : (if Rleb (w_saturation (p_wind p)) (sqrt (norm2 w)) then w_saturation (p_wind p) * w_saturation (p_wind p) else norm2 w)
      = Rmin (sqrt (norm2 w)) (w_saturation (p_wind p)) * Rmin (sqrt (norm2 w)) (w_saturation (p_wind p))).
    { rcase; [rewrite Rmin_right by assumption; reflexivity|]. rewrite Rmin_left by lra. symmetry. apply norm_sq. }
    rewrite E. set (mn := Rmin _ _). clearbody mn. destruct w as [x y z]. unfold vscale. cbn [vx vy vz]. num_simpl.
    f_equal; ring.
  Qed.
  Lemma wind_strength_nonneg p w : 0 <= w_k_factor (p_wind p) -> 0 <= wind_strength p w.
  Proof.
    intros Hk. unfold wind_strength. apply Rmult_le_pos; [|apply sqrt_pos].
    apply Rmult_le_pos; [assumption|apply Rle_0_sqr].
  Qed.
  (** power delivered by the wind to all rotations *)
  Theorem wind_brakes l : Forall (fun p => p_spin2 p = norm2 (p_spin p)) l ->
    Forall (fun p => if w_on (p_wind p) then wind_ok p /\ 0 <= w_k_factor (p_wind p) else wind_dL p = vzero) l ->
    power no_torque wind_dL (calculate_wind_factor (wind_initialize l)) <= 0.
  Proof.
    intros HS HW. unfold power, calculate_wind_factor, wind_initialize. rewrite !map_map.
    cut (0 <= Rsum (map (fun p => - (p_mass (if w_on (p_wind (if w_on (p_wind p) then set_wind_dL vzero p else p)) then set_wind_dL (wind_torque (if w_on (p_wind p) then set_wind_dL vzero p else p)) (if w_on (p_wind p) then set_wind_dL vzero p else p) else (if w_on (p_wind p) then set_wind_dL vzero p else p)) * 0
      + vdot (if w_on (p_wind p) then wind_torque p else vzero) (p_spin p))) l)).
    { rewrite Rsum_map_opp. intros X.
      match goal with |- Rsum (map ?f l) <= 0 => match type of X with 0 <= - Rsum (map ?g l) => rewrite (Rsum_map_ext f g l) end end; [lra|].
      rewrite Forall_forall in *. intros p Hp. specialize (HW p Hp). unfold no_torque. rewrite vdot_0_l. f_equal.
      destruct (w_on (p_wind p)) eqn:On.
      - change (w_on (p_wind (set_wind_dL vzero p))) with (w_on (p_wind p)). rewrite On. reflexivity.
      - rewrite On. now rewrite HW. }
    apply Rsum_nonneg. rewrite Forall_forall in *. intros p Hp. rewrite Rmult_0_r, Rplus_0_l.
    specialize (HW p Hp). specialize (HS p Hp). destruct (w_on (p_wind p)); [|rewrite vdot_0_l; lra].
    destruct HW as [Hok Hk].
    assert (Es : wind_torque p = wind_torque (spinning (p_spin p) p)).
    { unfold wind_torque, wind_component, spinning. cbn [p_spin p_spin2 p_wind p_radius p_mass set_p_spin set_p_spin2]. rewrite HS. reflexivity. }
    rewrite Es, (wind_formula _ p Hok), vdot_scale_l, <- norm2_dot.
    pose proof (wind_strength_nonneg p (sqrt (norm2 (p_spin p))) Hk). pose proof (norm2_nonneg (p_spin p)). nra.
  Qed.

  Lemma Rmin_abs a b : Rmin a b = (a + b - Rabs (a - b)) / 2.
  Proof.
    unfold Rmin. destruct (Rle_dec a b).
    - rewrite Rabs_left1; lra.
    - rewrite Rabs_right; lra.
  Qed.
  Lemma cont_ext f g x : (forall y, f y = g y) -> continuity_pt f x -> continuity_pt g x.
  Proof. intros E. apply continuity_pt_locally_ext with (a := 1); [lra|auto]. Qed.
  (** continuous in the spin, along every continuous path, also at the threshold *)
  Theorem wind_continuous p (x y z : R -> R) t : wind_ok p ->
    continuity_pt x t -> continuity_pt y t -> continuity_pt z t ->
    let torque u := wind_torque (spinning (Vec (x u) (y u) (z u)) p) in
    continuity_pt (fun u => vx (torque u)) t /\ continuity_pt (fun u => vy (torque u)) t /\
    continuity_pt (fun u => vz (torque u)) t.
  Proof.
    intros Hok Hx Hy Hz torque.
    set (nn u := sqrt (x u * x u + y u * y u + z u * z u)).
    assert (Hn : continuity_pt nn t).
    { apply (continuity_pt_comp (fun u => x u * x u + y u * y u + z u * z u) sqrt).
      - repeat apply continuity_pt_plus; apply continuity_pt_mult; assumption.
      - apply continuity_pt_sqrt. nra. }
    set (s := w_saturation (p_wind p)).
    assert (Hc : forall c, continuity_pt (fun _ : R => c) t) by (intros c; apply continuity_pt_const; intros ? ?; reflexivity).
    assert (Hmin : continuity_pt (fun u => Rmin (nn u) s) t).
    { apply (cont_ext (fun u => (nn u + s - Rabs (nn u - s)) * / 2)); [intros u; symmetry; apply Rmin_abs|].
      apply continuity_pt_mult; [|apply Hc]. apply continuity_pt_minus.
      - apply continuity_pt_plus; [exact Hn|apply Hc].
      - apply (continuity_pt_comp (fun u => nn u - s) Rabs); [|apply Rcontinuity_abs].
        apply continuity_pt_minus; [exact Hn|apply Hc]. }
    assert (Hst : continuity_pt (fun u => - wind_strength p (nn u)) t).
    { unfold wind_strength. apply continuity_pt_opp. apply continuity_pt_mult; [|apply Hc]. apply continuity_pt_mult; [apply Hc|].
      apply continuity_pt_mult; exact Hmin. }
    assert (E : forall u, torque u = vscale (- wind_strength p (nn u)) (Vec (x u) (y u) (z u))).
    { intros u. unfold torque. rewrite wind_formula by assumption. reflexivity. }
    repeat split.
    - apply (cont_ext (fun u => - wind_strength p (nn u) * x u)); [intros u; rewrite E; reflexivity|]. now apply continuity_pt_mult.
    - apply (cont_ext (fun u => - wind_strength p (nn u) * y u)); [intros u; rewrite E; reflexivity|]. now apply continuity_pt_mult.
    - apply (cont_ext (fun u => - wind_strength p (nn u) * z u)); [intros u; rewrite E; reflexivity|]. now apply continuity_pt_mult.
  Qed.
End WindR.
