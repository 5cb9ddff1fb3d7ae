(** Relativity: momentum, rotations, spin precession *)
From Coq Require Import Reals Lra Psatz List Bool ZArith.
From Verif Require Import Base.Num Base.Vec Model.Constants Model.Particle Model.Relativity
  Proofs.NumLemmas Proofs.VecLemmas Proofs.DisabledProofs Proofs.QuadrupoleProofs Spec.EffectsSpec.
Import ListNotations.
Open Scope R_scope.

Ltac grproj := cbn [on_gr set_p_gr set_p_ipos set_p_ivel set_p_spin set_p_iacc set_gr_coords set_gr_effect set_gr_distance set_gr_radial_velocity set_gr_norm_vel
  set_gr_norm_vel2 set_gr_factor set_gr_acc set_gr_dL set_gr_pos set_gr_vel gr_effect gr_distance gr_radial_velocity
  gr_norm_vel gr_norm_vel2 gr_factor gr_acc gr_dL gr_pos gr_vel p_L p_dL p_disk p_evo p_gr p_hdist p_hnorm p_hnorm2
  p_hpos p_hradvel p_hvel p_iacc p_iadd p_id p_inertia p_ipos p_ivel p_mass p_mass_g p_radius p_rf p_rg2 p_spin
  p_spin2 p_tides p_wind] in *.

(** the computation of a step for the Kidder implementation *)
Definition gr_prepare (host : particle R) (l : list (particle R)) :=
  let '(host, l) := gr_inertial_to_heliocentric host l in gr_initialize host l.
Definition kidder_pass (host : particle R) (l : list (particle R)) :=
  let '(host, l) := gr_prepare host l in kidder host l.
(** without the spins *)
Definition kidder_orbit_pass (host : particle R) (l : list (particle R)) :=
  let '(host, l) := gr_prepare host l in let '(host, l) := kidder_1 host l in kidder_2 host l.

Definition prep_host (host : particle R) : particle R :=
  on_gr (fun g => set_gr_dL vzero (set_gr_acc vzero (set_gr_factor n0 g)))
    (set_gr_coords vzero vzero n0 n0 n0 n0 host).
Definition prep (host p : particle R) : particle R :=
  let pos := vsub (p_ipos p) (p_ipos host) in
  let vel := vsub (p_ivel p) (p_ivel host) in
  let d := nsqrt (norm2 pos) in
  let nv2 := norm2 (vsub vel vzero) in
  on_gr (fun g => set_gr_dL vzero (set_gr_acc vzero
    (set_gr_factor ((p_mass_g host * p_mass_g p / npow (p_mass_g host + p_mass_g p) 2)%num) g)))
    (set_gr_coords pos vel d (vdot pos vel / d)%num (nsqrt nv2) nv2 p).
Definition is_kidder (host : particle R) : Prop := gr_effect (p_gr host) = GrCentral Kidder1995.

Lemma on_if (b : bool) (x y : particle R) (P : particle R -> particle R) :
  b = true -> (if b then P x else y) = P x.
Proof. now intros ->. Qed.
Lemma prepare_eq host l : is_kidder host ->
  gr_prepare host l = (prep_host host, map (fun p => if gr_orbiting p then prep host p else p) l).
Proof.
  unfold is_kidder, gr_prepare, gr_inertial_to_heliocentric, gr_implemented. intros E. rewrite E.
  unfold gr_initialize at 1. unfold set_gr_coords at 1. unfold on_gr at 1. grproj. rewrite E.
  f_equal. rewrite map_map. apply map_ext. intros p. destruct (gr_orbiting p) eqn:Ep.
  - unfold gr_orbiting in *. unfold set_gr_coords at 1, on_gr at 1. grproj.
    destruct (gr_effect (p_gr p)); try discriminate. reflexivity.
  - now rewrite Ep.
Qed.

(** *** accumulated sums *)
Definition orb (l : list (particle R)) := filter gr_orbiting l.
Lemma kidder_sum_eq f host l :
  kidder_sum f host l = Vsum (map (fun p => vscale (p_mass p / p_mass host) (f host p)) (orb l)).
Proof.
  unfold kidder_sum, orb.
  rewrite <- (vadd_0_l (Vsum _)), <- fold_left_vadd. generalize (@vzero R _).
  induction l as [|p l IH]; intros a; cbn [fold_left filter]; [reflexivity|].
  destruct (gr_orbiting p); cbn [fold_left]; apply IH.
Qed.

(** *** the three parts commute with the projections that matter *)
Definition same_body (p q : particle R) : Prop :=
  p_mass q = p_mass p /\ p_mass_g q = p_mass_g p /\ p_spin q = p_spin p /\ p_inertia q = p_inertia p /\
  p_ipos q = p_ipos p /\ p_ivel q = p_ivel p /\
  gr_effect (p_gr q) = gr_effect (p_gr p) /\ gr_pos (p_gr q) = gr_pos (p_gr p) /\ gr_vel (p_gr q) = gr_vel (p_gr p) /\
  gr_distance (p_gr q) = gr_distance (p_gr p) /\ gr_radial_velocity (p_gr q) = gr_radial_velocity (p_gr p) /\
  gr_norm_vel (p_gr q) = gr_norm_vel (p_gr p) /\ gr_norm_vel2 (p_gr q) = gr_norm_vel2 (p_gr p) /\
  gr_factor (p_gr q) = gr_factor (p_gr p).
Lemma on_acc_same (h : relativity R -> vec R) p : same_body p (on_gr (fun g => set_gr_acc (h g) g) p).
Proof. unfold same_body, on_gr; grproj. repeat (split; [reflexivity|]). reflexivity. Qed.
Lemma on_acc_same' (v : vec R) p : same_body p (on_gr (set_gr_acc v) p).
Proof. exact (on_acc_same (fun _ => v) p). Qed.
Lemma second_same h h' p p' : same_body h h' -> same_body p p' -> kidder_second h' p' = kidder_second h p.
Proof.
  intros (?&?&?&?&?&?&?&?&?&?&?&?&?&?) (?&?&?&?&?&?&?&?&?&?&?&?&?&?). unfold kidder_second.
  repeat match goal with H : _ = _ |- _ => rewrite H; clear H end. reflexivity.
Qed.
Lemma so_same h h' p p' : same_body h h' -> same_body p p' -> kidder_spin_orbit h' p' = kidder_spin_orbit h p.
Proof.
  intros (?&?&?&?&?&?&?&?&?&?&?&?&?&?) (?&?&?&?&?&?&?&?&?&?&?&?&?&?). unfold kidder_spin_orbit, spin_momentum.
  repeat match goal with H : _ = _ |- _ => rewrite H; clear H end. reflexivity.
Qed.
Lemma host_torque_same h h' p p' : same_body h h' -> same_body p p' -> kidder_host_torque h' p' = kidder_host_torque h p.
Proof.
  intros (?&?&?&?&?&?&?&?&?&?&?&?&?&?) (?&?&?&?&?&?&?&?&?&?&?&?&?&?). unfold kidder_host_torque, kidder_orbital, spin_momentum.
  repeat match goal with H : _ = _ |- _ => rewrite H; clear H end. reflexivity.
Qed.
Lemma own_torque_same h h' p p' : same_body h h' -> same_body p p' -> kidder_own_torque h' p' = kidder_own_torque h p.
Proof.
  intros (?&?&?&?&?&?&?&?&?&?&?&?&?&?) (?&?&?&?&?&?&?&?&?&?&?&?&?&?). unfold kidder_own_torque, kidder_orbital, spin_momentum.
  repeat match goal with H : _ = _ |- _ => rewrite H; clear H end. reflexivity.
Qed.
Lemma same_trans a b c : same_body a b -> same_body b c -> same_body a c.
Proof. unfold same_body. intuition congruence. Qed.
Lemma same_refl a : same_body a a.
Proof. unfold same_body. intuition. Qed.
Lemma same_orbiting a b : same_body a b -> gr_orbiting b = gr_orbiting a.
Proof. intros (?&?&?&?&?&?&E&_). unfold gr_orbiting. now rewrite E. Qed.
Lemma orb_map (f : particle R -> particle R) l : (forall p, gr_orbiting p = true -> same_body p (f p)) ->
  orb (map (fun p => if gr_orbiting p then f p else p) l) = map f (orb l).
Proof.
  intros Hf. unfold orb. induction l as [|p l IH]; cbn [map filter]; [reflexivity|].
  destruct (gr_orbiting p) eqn:E.
  - rewrite (same_orbiting p (f p)) by auto. rewrite E. cbn [map]. now rewrite IH.
  - rewrite E. exact IH.
Qed.

(** *** the result of the whole computation *)
Definition weighted (f : particle R -> particle R -> vec R) (h : particle R) (l : list (particle R)) : vec R :=
  Vsum (map (fun p => vscale (p_mass p / p_mass h) (f h p)) (orb l)).
Definition kidder_two (h p : particle R) : vec R := vadd (kidder_first h p) (kidder_second h p).
Definition kidder_all (h p : particle R) : vec R := vadd (kidder_two h p) (kidder_spin_orbit h p).

Lemma weighted_map (f : particle R -> particle R) g h h' l :
  (forall p, gr_orbiting p = true -> same_body p (f p)) -> same_body h h' ->
  (forall p p', same_body p p' -> g h' p' = g h p) ->
  weighted g h' (map (fun p => if gr_orbiting p then f p else p) l) = weighted g h l.
Proof.
  intros Hf Hh Hg. unfold weighted. rewrite orb_map by exact Hf. rewrite map_map.
  apply Vsum_map_ext. apply Forall_forall. intros p Hp. apply filter_In in Hp. destruct Hp as [_ Hp].
  rewrite (Hg p (f p)) by auto. destruct (Hf p Hp) as (E & _). rewrite E. destruct Hh as (E' & _). now rewrite E'.
Qed.

Lemma kidder_1_host h l : fst (kidder_1 h l) = on_gr (set_gr_acc (vscale (nopp n1) (weighted kidder_first h l))) h.
Proof. unfold kidder_1. cbn [fst]. now rewrite kidder_sum_eq. Qed.

Definition done_two (h p : particle R) : particle R :=
  on_gr (fun g => set_gr_acc (vadd (gr_acc g) (kidder_second h p)) g) (on_gr (set_gr_acc (kidder_first h p)) p).
Lemma done_two_same h p : same_body p (done_two h p).
Proof. unfold done_two. eapply same_trans; [apply on_acc_same'|]. exact (on_acc_same (fun g => vadd (gr_acc g) _) _). Qed.

Lemma two_eq h l : exists h',
  (let '(host, l) := kidder_1 h l in kidder_2 host l)
    = (h', map (fun p => if gr_orbiting p then done_two h p else p) l) /\
  same_body h h' /\ gr_acc (p_gr h') = vscale (-(1)) (weighted kidder_two h l) /\ gr_dL (p_gr h') = gr_dL (p_gr h).
Proof.
  unfold kidder_1, kidder_2. rewrite kidder_sum_eq. fold (weighted kidder_first h l).
  rewrite kidder_sum_eq. eexists. split.
  { f_equal. rewrite map_map. apply map_ext. intros p. destruct (gr_orbiting p) eqn:E.
    - rewrite (same_orbiting p) by apply on_acc_same'. rewrite E. unfold done_two. unfold on_gr at 1.
      rewrite (second_same h _ p); [reflexivity|apply on_acc_same'|apply on_acc_same'].
    - now rewrite E. }
  split; [|split].
  - eapply same_trans; [apply on_acc_same'|]. exact (on_acc_same (fun g => vadd (gr_acc g) _) _).
  - match goal with |- context [Vsum (map (fun p => vscale (p_mass p / p_mass ?h') _) (orb ?l'))] =>
      change (Vsum (map (fun p => vscale (p_mass p / p_mass h') (kidder_second h' p)) (orb l')))
        with (weighted kidder_second h' l') end.
    rewrite (weighted_map (fun p => on_gr (set_gr_acc (kidder_first h p)) p) kidder_second h).
    2: { intros; apply on_acc_same'. } 2: apply on_acc_same'.
    2: { intros p p' S. apply second_same; [apply on_acc_same'|exact S]. }
    unfold on_gr. grproj. unfold weighted, kidder_two.
    rewrite <- vscale_add, <- Vsum_map_add. f_equal. apply Vsum_map_ext. apply Forall_forall. intros p _. now rewrite vscale_add.
  - reflexivity.
Qed.

Definition done_all (h p : particle R) : particle R :=
  on_gr (fun g => set_gr_dL (kidder_own_torque h p) (set_gr_acc (vadd (gr_acc g) (kidder_spin_orbit h p)) g)) (done_two h p).
Lemma done_all_same h p : same_body p (done_all h p).
Proof. eapply same_trans; [apply done_two_same|]. unfold done_all, same_body, on_gr; grproj. repeat (split; [reflexivity|]). reflexivity. Qed.
Lemma done_all_acc h p : gr_acc (p_gr (done_all h p)) = kidder_all h p.
Proof. reflexivity. Qed.
Lemma done_all_dL h p : gr_dL (p_gr (done_all h p)) = kidder_own_torque h p.
Proof. reflexivity. Qed.

Lemma fold_torque g l : forall a : vec R,
  fold_left (fun s p => if gr_orbiting p then vadd s (g p) else s) l a = vadd a (Vsum (map g (orb l))).
Proof.
  unfold orb. induction l as [|p l IH]; intros a; cbn [fold_left filter].
  - cbn. now rewrite vadd_0_r.
  - rewrite IH. destruct (gr_orbiting p); [|reflexivity]. cbn [map Vsum fold_right]. now rewrite vadd_assoc.
Qed.
Lemma all_eq h l : exists h',
  kidder h l = (h', map (fun p => if gr_orbiting p then done_all h p else p) l) /\
  same_body h h' /\ gr_acc (p_gr h') = vscale (-(1)) (weighted kidder_all h l) /\
  gr_dL (p_gr h') = Vsum (map (kidder_host_torque h) (orb l)).
Proof.
  destruct (two_eq h l) as (h2 & E2 & S2 & A2 & D2). unfold kidder.
  destruct (kidder_1 h l) as [h1 l1]. destruct (kidder_2 h1 l1) as [h2' l2]. inversion E2; subst h2' l2. clear E2.
  unfold kidder_3. rewrite kidder_sum_eq. eexists. split.
  { f_equal. rewrite map_map. apply map_ext. intros p. destruct (gr_orbiting p) eqn:E.
    - rewrite (same_orbiting p) by apply done_two_same. rewrite E. unfold done_all.
      rewrite (so_same h h2 p) by (auto using done_two_same). rewrite (own_torque_same h h2 p) by (auto using done_two_same).
      reflexivity.
    - now rewrite E. }
  split; [|split].
  - eapply same_trans; [exact S2|]. unfold same_body, on_gr; grproj. repeat (split; [reflexivity|]). reflexivity.
  - match goal with |- context [Vsum (map (fun p => vscale (p_mass p / p_mass ?h') _) (orb ?l'))] =>
      change (Vsum (map (fun p => vscale (p_mass p / p_mass h') (kidder_spin_orbit h' p)) (orb l')))
        with (weighted kidder_spin_orbit h' l') end.
    rewrite (weighted_map (done_two h) kidder_spin_orbit h); [|intros; apply done_two_same|exact S2|intros; apply so_same; auto].
    unfold on_gr. grproj. rewrite A2. unfold weighted, kidder_all. change (@nopp R NumR n1) with (-(1)).
    rewrite <- vscale_add, <- Vsum_map_add. f_equal. apply Vsum_map_ext. apply Forall_forall. intros p _. now rewrite vscale_add.
  - rewrite fold_torque, vadd_0_l. unfold on_gr. grproj. rewrite orb_map by (intros; apply done_two_same).
    rewrite map_map. apply Vsum_map_ext. apply Forall_forall. intros p _.
    apply host_torque_same; auto using done_two_same.
Qed.

(** *** Momentum *)
Definition gr_idle (p : particle R) : Prop := gr_orbiting p = false -> gr_acc (p_gr p) = vzero.
Lemma split_orb (f g : particle R -> vec R) (l : list (particle R)) :
  Forall (fun p => if gr_orbiting p then f p = g p else f p = vzero) l ->
  Vsum (map f l) = Vsum (map g (orb l)).
Proof.
  unfold orb. induction 1 as [|p l E _ IH]; [reflexivity|]. cbn [map filter Vsum fold_right].
  destruct (gr_orbiting p); cbn [map Vsum fold_right]; rewrite E; fold (Vsum (map f l)); rewrite IH.
  - reflexivity.
  - now rewrite vadd_0_l.
Qed.
Lemma weighted_zero g (h : particle R) l : p_mass h <> 0 ->
  vadd (vscale (p_mass h) (vscale (-(1)) (weighted g h l))) (Vsum (map (fun p => vscale (p_mass p) (g h p)) (orb l))) = vzero.
Proof.
  intros Hm. unfold weighted. rewrite vscale_scale, <- Vsum_map_scale, <- Vsum_map_add.
  rewrite (Vsum_map_ext _ (fun _ => vzero)).
  - induction (orb l) as [|p k IH]; cbn; [reflexivity|]. unfold Vsum in IH. now rewrite IH, vadd_0_l.
  - apply Forall_forall. intros p _. rewrite vscale_scale.
    apply vec_eq; vunfold; field; exact Hm.
Qed.
Lemma prep_mass h p : p_mass (prep h p) = p_mass p. Proof. reflexivity. Qed.
Lemma prep_host_mass h : p_mass (prep_host h) = p_mass h. Proof. reflexivity. Qed.
Lemma prep_orbiting h p : gr_orbiting (prep h p) = gr_orbiting p. Proof. reflexivity. Qed.

Lemma kidder_momentum host l host' l' :
  is_kidder host -> p_mass host <> 0 -> Forall gr_idle l ->
  kidder_pass host l = (host', l') -> net_force relativistic_acc (host' :: l') = vzero.
Proof.
  intros K Hm HI E. unfold kidder_pass in E. rewrite (prepare_eq host l K) in E.
  set (lp := map _ l) in E. destruct (all_eq (prep_host host) lp) as (h' & E' & S & A & _).
  rewrite E' in E. inversion E; subst h' l'. clear E E'.
  unfold net_force. cbn [map Vsum fold_right]. fold (Vsum (map (fun b => vscale (p_mass b) (relativistic_acc b))
    (map (fun p => if gr_orbiting p then done_all (prep_host host) p else p) lp))).
  unfold relativistic_acc at 1. rewrite A. destruct S as (-> & _).
  rewrite map_map. rewrite (split_orb _ (fun p => vscale (p_mass p) (kidder_all (prep_host host) p))).
  - apply (weighted_zero kidder_all (prep_host host) lp). exact Hm.
  - unfold lp. apply Forall_map. apply Forall_forall. intros p Hp. destruct (gr_orbiting p) eqn:Ep.
    + rewrite prep_orbiting, Ep. unfold relativistic_acc. rewrite done_all_acc.
      destruct (done_all_same (prep_host host) (prep host p)) as (-> & _). reflexivity.
    + rewrite Ep. rewrite Forall_forall in HI. unfold relativistic_acc. rewrite (HI p Hp Ep). apply vscale_0_r.
Qed.

(** *** Precession *)
Lemma Rsum_const0 {A} (l : list A) : Rsum (map (fun _ => 0) l) = 0.
Proof. induction l as [|p k IH]; cbn; [reflexivity|]. unfold Rsum in IH. rewrite IH. ring. Qed.
Lemma each_precession o sa sb n (ma mb : R) :
  vdot (kidder_precession o sa sb n ma mb) sa = 0.
Proof. unfold kidder_precession, each. vdestruct. vunfold. ring. Qed.
Lemma kidder_spin_kept host l host' l' :
  is_kidder host -> Forall (fun p => gr_orbiting p = false -> gr_dL (p_gr p) = vzero) l ->
  kidder_pass host l = (host', l') ->
  Forall (fun b => vdot (relativistic_torque b) (rotation_momentum b) = 0) (host' :: l').
Proof.
  intros K HI E. unfold kidder_pass in E. rewrite (prepare_eq host l K) in E.
  set (lp := map _ l) in E. destruct (all_eq (prep_host host) lp) as (h' & E' & S & _ & D).
  rewrite E' in E. inversion E; subst h' l'. clear E E'. constructor.
  - unfold relativistic_torque. rewrite D.
    assert (R : rotation_momentum host' = spin_momentum (prep_host host)).
    { destruct S as (_ & _ & S1 & S2 & _). unfold rotation_momentum, spin_momentum. now rewrite S1, S2. }
    rewrite R. rewrite <- Vsum_map_dot. rewrite (Rsum_map_ext _ (fun _ => 0)).
    + apply Rsum_const0.
    + apply Forall_forall. intros p _. apply each_precession.
  - apply Forall_map. unfold lp. apply Forall_map. apply Forall_forall. intros p Hp. destruct (gr_orbiting p) eqn:Ep.
    + rewrite prep_orbiting, Ep. unfold relativistic_torque. rewrite done_all_dL.
      assert (R : rotation_momentum (done_all (prep_host host) (prep host p)) = spin_momentum (prep host p)).
      { destruct (done_all_same (prep_host host) (prep host p)) as (_ & _ & S1 & S2 & _).
        unfold rotation_momentum, spin_momentum. now rewrite S1, S2. }
      rewrite R. apply each_precession.
    + rewrite Ep. rewrite Forall_forall in HI. unfold relativistic_torque. rewrite (HI p Hp Ep). apply vdot_0_l.
Qed.

(** *** The formulas of the orbital part, and rotations *)
Definition eta_of (a b : particle R) : R := p_mass_g a * p_mass_g b / (p_mass_g a + p_mass_g b) ^ 2.
Lemma c_pos : 0 < @SPEED_OF_LIGHT R _.
Proof. unfold SPEED_OF_LIGHT, AU, DAY, HOUR. num_simpl. lra. Qed.
Lemma c2_ne : @SPEED_OF_LIGHT_2 R _ <> 0.
Proof. unfold SPEED_OF_LIGHT_2. pose proof c_pos. num_simpl. apply Rgt_not_eq. now apply Rmult_lt_0_compat. Qed.
Lemma vsub_0_r (v : vec R) : vsub v vzero = v. Proof. vring. Qed.

Section Formulas.
  Variables (d nv gm eta c2 : R).
  Hypotheses (Hd : d <> 0) (Hn : nv <> 0) (Hc : c2 <> 0).
  Lemma first_component (v2 rdot x y : R) :
    (- gm) / (d * d * c2) * ((1 + 3 / 1 * eta) * v2 - 2 / 1 * (2 / 1 + eta) * gm / d - 15 / 10 * eta * (rdot * rdot)) * x / d
    + gm / (d * d * c2) * (2 / 1) * (2 / 1 - eta) * rdot * nv * y / nv
    = - gm / (c2 * d ^ 2) * (((1 + 3 * eta) * v2 - 2 * (2 + eta) * (gm / d) - 3 / 2 * eta * rdot ^ 2) * (/ d * x)
       - 2 * (2 - eta) * rdot * y).
  Proof. field. auto. Qed.
  Lemma second_component (v2 rdot x y : R) :
    (- gm) / (d * d * c2) * (3 / 1 / (4 / 1) * (12 / 1 + 29 / 1 * eta) * (gm * gm / (d * d))
         + eta * (3 / 1 - 4 / 1 * eta) * (v2 * v2)
         + 15 / 1 / (8 / 1) * eta * (1 - 3 / 1 * eta) * (rdot * rdot * (rdot * rdot))
         - 3 / 1 / (2 / 1) * eta * (3 / 1 - 4 / 1 * eta) * (rdot * rdot) * v2
         - 1 / 2 * eta * (13 / 1 - 4 / 1 * eta) * (gm / d) * v2
         - (2 / 1 + 25 / 1 * eta + 2 / 1 * (eta * eta)) * (gm / d) * (rdot * rdot)) * x / d
    + (- gm) / (d * d * c2) * - (1 / 2) * rdot
      * (eta * (15 / 1 + 4 / 1 * eta) * v2 - (4 / 1 + 41 / 1 * eta + 8 / 1 * (eta * eta)) * (gm / d)
         - 3 / 1 * eta * (3 / 1 + 2 / 1 * eta) * (rdot * rdot)) * y
    = c2 * (- gm / (c2 ^ 2 * d ^ 2) *
      ((3 / 4 * (12 + 29 * eta) * (gm / d) ^ 2 + eta * (3 - 4 * eta) * v2 ^ 2
                   + 15 / 8 * eta * (1 - 3 * eta) * rdot ^ 4 - 3 / 2 * eta * (3 - 4 * eta) * v2 * rdot ^ 2
                   - 1 / 2 * eta * (13 - 4 * eta) * (gm / d) * v2
                   - (2 + 25 * eta + 2 * eta ^ 2) * (gm / d) * rdot ^ 2) * (/ d * x)
       - 1 / 2 * rdot * (eta * (15 + 4 * eta) * v2 - (4 + 41 * eta + 8 * eta ^ 2) * (gm / d)
                                   - 3 * eta * (3 + 2 * eta) * rdot ^ 2) * y)).
  Proof. field. auto. Qed.
End Formulas.

Lemma first_formula host p : apart host p -> p_ivel p <> p_ivel host ->
  kidder_first (prep_host host) (prep host p) =
  kidder_1pn SPEED_OF_LIGHT_2 (p_mass_g host + p_mass_g p) (eta_of host p)
    (vsub (p_ipos p) (p_ipos host)) (vsub (p_ivel p) (p_ivel host)).
Proof.
  intros Ha Hv. assert (Hd := norm_pos _ (vsub_apart _ _ Ha)).
  assert (Hn : 0 < sqrt (norm2 (vsub (p_ivel p) (p_ivel host)))).
  { apply norm_pos. intros E. apply Hv. revert E. generalize (p_ivel p), (p_ivel host).
    intros a b E. vdestruct. vunfold. inversion E. f_equal; lra. }
  assert (Hc := c2_ne).
  unfold kidder_first, kidder_1pn, prep, prep_host, set_gr_coords, on_gr. grproj. rewrite !vsub_0_r.
  replace (@npow R _ (@nadd R _ (p_mass_g host) (p_mass_g p)) 2) with ((p_mass_g host + p_mass_g p) ^ 2) by (cbn; num_simpl; ring).
  change (@ndiv R _ (@nmul R _ (p_mass_g host) (p_mass_g p)) ((p_mass_g host + p_mass_g p) ^ 2)) with (eta_of host p).
  generalize (eta_of host p); intros eta. revert Hc; generalize (@SPEED_OF_LIGHT_2 R _); intros c2 Hc.
  revert Hd Hn. generalize (vsub (p_ipos p) (p_ipos host)), (vsub (p_ivel p) (p_ivel host)). intros r v.
  change (@nsqrt R NumR) with sqrt. generalize (sqrt (norm2 r)); intros d. generalize (sqrt (norm2 v)); intros nv Hd Hn.
  change (@nadd R _ (p_mass_g host) (p_mass_g p)) with (p_mass_g host + p_mass_g p).
  generalize (p_mass_g host + p_mass_g p); intros gm.
  assert (Hd' : d <> 0) by lra. assert (Hn' : nv <> 0) by lra.
  unfold each. change (@ndiv R _ (vdot r v) d) with (vdot r v / d).
  generalize (vdot r v / d); intros rdot. generalize (norm2 v); intros v2.
  apply vec_eq; apply first_component; auto.
Qed.
Lemma second_formula host p : apart host p ->
  kidder_second (prep_host host) (prep host p) =
  vscale SPEED_OF_LIGHT_2 (kidder_2pn SPEED_OF_LIGHT_2 (p_mass_g host + p_mass_g p) (eta_of host p)
    (vsub (p_ipos p) (p_ipos host)) (vsub (p_ivel p) (p_ivel host))).
Proof.
  intros Ha. assert (Hd := norm_pos _ (vsub_apart _ _ Ha)).
  assert (Hc := c2_ne).
  unfold kidder_second, kidder_2pn, prep, prep_host, set_gr_coords, on_gr. grproj. rewrite !vsub_0_r.
  replace (@npow R _ (@nadd R _ (p_mass_g host) (p_mass_g p)) 2) with ((p_mass_g host + p_mass_g p) ^ 2) by (cbn; num_simpl; ring).
  change (@ndiv R _ (@nmul R _ (p_mass_g host) (p_mass_g p)) ((p_mass_g host + p_mass_g p) ^ 2)) with (eta_of host p).
  generalize (eta_of host p); intros eta. revert Hc; generalize (@SPEED_OF_LIGHT_2 R _); intros c2 Hc.
  revert Hd. generalize (vsub (p_ipos p) (p_ipos host)), (vsub (p_ivel p) (p_ivel host)). intros r v.
  change (@nsqrt R NumR) with sqrt. generalize (sqrt (norm2 r)); intros d Hd.
  change (@nadd R _ (p_mass_g host) (p_mass_g p)) with (p_mass_g host + p_mass_g p).
  generalize (p_mass_g host + p_mass_g p); intros gm.
  assert (Hd' : d <> 0) by lra. 
  unfold each. change (@ndiv R _ (vdot r v) d) with (vdot r v / d).
  generalize (vdot r v / d); intros rdot. generalize (norm2 v); intros v2.
  replace (gm ^ 2) with (gm * gm) by ring.
  apply vec_eq; apply second_component; auto.
Qed.

(** *** Rotations *)
Lemma filter_map_keep_gen {A B} (f : B -> bool) (g : A -> bool) (h : A -> B) l :
  (forall x, f (h x) = g x) -> filter f (map h l) = map h (filter g l).
Proof. intro Hg. induction l as [|x l IH]; cbn; auto. rewrite Hg, IH. now destruct (g x). Qed.
Section Turned.
  Variable q : isometry.
  Lemma turned_orbiting p : gr_orbiting (turned q p) = gr_orbiting p. Proof. reflexivity. Qed.
  Lemma combination (a b : R) (r v : vec R) (d n : R) :
    each (fun c => (a * c r / d + b * c v / n)%num) = vadd (vscale (a / d) r) (vscale (b / n) v).
  Proof. vdestruct. unfold each. vunfold. f_equal; unfold Rdiv; ring. Qed.
  Lemma combination' (a b : R) (r v : vec R) (d : R) :
    each (fun c => (a * c r / d + b * c v)%num) = vadd (vscale (a / d) r) (vscale b v).
  Proof. vdestruct. unfold each. vunfold. f_equal; unfold Rdiv; ring. Qed.
  Lemma prep_turned host p :
    gr_pos (p_gr (prep (turned q host) (turned q p))) = iso q (gr_pos (p_gr (prep host p))) /\
    gr_vel (p_gr (prep (turned q host) (turned q p))) = iso q (gr_vel (p_gr (prep host p))) /\
    gr_distance (p_gr (prep (turned q host) (turned q p))) = gr_distance (p_gr (prep host p)) /\
    gr_radial_velocity (p_gr (prep (turned q host) (turned q p))) = gr_radial_velocity (p_gr (prep host p)) /\
    gr_norm_vel (p_gr (prep (turned q host) (turned q p))) = gr_norm_vel (p_gr (prep host p)) /\
    gr_norm_vel2 (p_gr (prep (turned q host) (turned q p))) = gr_norm_vel2 (p_gr (prep host p)) /\
    gr_factor (p_gr (prep (turned q host) (turned q p))) = gr_factor (p_gr (prep host p)).
  Proof.
    unfold prep, set_gr_coords, on_gr, turned. grproj. rewrite !vsub_0_r, <- !iso_sub, !iso_norm2, !iso_dot.
    repeat (split; [reflexivity|]). reflexivity.
  Qed.
  Lemma first_turned host p :
    kidder_first (prep_host (turned q host)) (prep (turned q host) (turned q p)) =
    iso q (kidder_first (prep_host host) (prep host p)).
  Proof.
    unfold kidder_first. destruct (prep_turned host p) as (-> & -> & -> & -> & -> & -> & ->).
    rewrite !combination, iso_add, !iso_scale. reflexivity.
  Qed.
  Lemma second_turned host p :
    kidder_second (prep_host (turned q host)) (prep (turned q host) (turned q p)) =
    iso q (kidder_second (prep_host host) (prep host p)).
  Proof.
    unfold kidder_second. destruct (prep_turned host p) as (-> & -> & -> & -> & _ & -> & ->).
    rewrite !combination', iso_add, !iso_scale. reflexivity.
  Qed.
  Lemma two_turned host p :
    kidder_two (prep_host (turned q host)) (prep (turned q host) (turned q p)) =
    iso q (kidder_two (prep_host host) (prep host p)).
  Proof. unfold kidder_two. now rewrite first_turned, second_turned, iso_add. Qed.
End Turned.

Lemma orb_prep host l :
  orb (map (fun p => if gr_orbiting p then prep host p else p) l) = map (prep host) (orb l).
Proof.
  unfold orb. induction l as [|p l IH]; cbn [map filter]; [reflexivity|]. destruct (gr_orbiting p) eqn:E.
  - rewrite prep_orbiting, E. cbn [map]. now rewrite IH.
  - now rewrite E.
Qed.
Lemma done_two_acc h p : gr_acc (p_gr (done_two h p)) = kidder_two h p.
Proof. reflexivity. Qed.
(** accelerations of the orbital part, body by body *)
Lemma orbit_accs host l : is_kidder host ->
  exists host' l', kidder_orbit_pass host l = (host', l') /\
    relativistic_acc host' =
      vscale (-(1)) (Vsum (map (fun p => vscale (p_mass p / p_mass host) (kidder_two (prep_host host) (prep host p))) (orb l))) /\
    map relativistic_acc l' =
      map (fun p => if gr_orbiting p then kidder_two (prep_host host) (prep host p) else relativistic_acc p) l.
Proof.
  intros K. unfold kidder_orbit_pass. rewrite (prepare_eq host l K).
  destruct (two_eq (prep_host host) (map (fun p => if gr_orbiting p then prep host p else p) l)) as (h' & E & S & A & _).
  eexists _, _. split; [exact E|]. split.
  - unfold relativistic_acc. rewrite A. unfold weighted. rewrite orb_prep, map_map. reflexivity.
  - rewrite !map_map. apply map_ext. intros p. destruct (gr_orbiting p) eqn:Ep.
    + rewrite prep_orbiting, Ep. unfold relativistic_acc. apply done_two_acc.
    + now rewrite Ep.
Qed.
Lemma orbit_turned q host l host' l' :
  is_kidder host -> Forall gr_idle l -> kidder_orbit_pass host l = (host', l') ->
  exists host2 l2, kidder_orbit_pass (turned q host) (map (turned q) l) = (host2, l2) /\
    map relativistic_acc (host2 :: l2) = map (fun b => iso q (relativistic_acc b)) (host' :: l').
Proof.
  intros K HI E. destruct (orbit_accs host l K) as (h & k & E1 & A1 & B1). rewrite E in E1. inversion E1; subst h k. clear E1.
  assert (K2 : is_kidder (turned q host)) by exact K.
  destruct (orbit_accs (turned q host) (map (turned q) l) K2) as (h2 & l2 & E2 & A2 & B2).
  exists h2, l2. split; [exact E2|]. cbn [map]. f_equal.
  - rewrite A1, A2, iso_scale, iso_Vsum. f_equal. unfold orb.
    rewrite (filter_map_keep_gen gr_orbiting gr_orbiting (turned q) l) by reflexivity. rewrite map_map.
    f_equal. apply map_ext. intros p. rewrite iso_scale, two_turned. reflexivity.
  - rewrite B2, map_map. rewrite <- (map_map relativistic_acc (iso q)). rewrite B1, map_map.
    apply map_ext_in. intros p Hp. rewrite turned_orbiting. destruct (gr_orbiting p) eqn:Ep.
    + apply two_turned.
    + rewrite Forall_forall in HI. unfold relativistic_acc. change (p_gr (turned q p)) with (p_gr p).
      rewrite (HI p Hp Ep). now rewrite iso_zero.
Qed.

(** torques turn with the system under proper rotations *)
Lemma precession_turned q o sa sb n (ma mb : R) : proper q ->
  kidder_precession (iso q o) (iso q sa) (iso q sb) (iso q n) ma mb = iso q (kidder_precession o sa sb n ma mb).
Proof.
  intros P. unfold kidder_precession.
  assert (Ee : forall (k : R) (a b c : vec R),
    each (fun f => (k * (f a - f b + f c))%num) = vscale k (vadd (vsub a b) c)).
  { intros. vdestruct. unfold each. vunfold. reflexivity. }
  rewrite !Ee, iso_scale, iso_add, iso_sub, !iso_scale, !P, !iso_dot. reflexivity.
Qed.
