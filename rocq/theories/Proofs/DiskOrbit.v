(** What the disk does to an orbit *)
From Coquelicot Require Import Coquelicot.
From Coq Require Import Reals Lra Psatz List Bool ZArith Lia.
From Verif Require Import Base.Num Base.Vec Base.Trans Model.Constants Model.Particle Model.Disk
  Proofs.NumLemmas Proofs.VecLemmas Proofs.DiskProofs Proofs.DiskLaw Proofs.TidesExamples Proofs.DiskExamples Spec.EffectsSpec Spec.DiskSpec.
Import ListNotations.
Open Scope R_scope.

(** ** Continuity of the density *)
Lemma density_continuous d t r : 0 < dp_inner d -> 0 < r -> continuity_pt (gas_density d t) r.
Proof.
  intros Hi Hr.
  set (g := fun r => dp_density d / r * exp (- (r / dp_outer d)) * (1 - sqrt (Rmin 1 (dp_inner d / r))) * exp (- (t / dp_lifetime d))).
  assert (Eq : forall s, 0 < s -> g s = gas_density d t s).
  { intros s Hs. unfold g, gas_density. destruct (Rlt_dec (dp_inner d) s) as [L|L].
    - rewrite Rmin_right; [reflexivity|]. apply (Rmult_le_reg_r s); [lra|]. unfold Rdiv. rewrite Rmult_assoc, Rinv_l; lra.
    - rewrite Rmin_left, sqrt_1; [ring|]. apply (Rmult_le_reg_r s); [lra|]. unfold Rdiv. rewrite Rmult_assoc, Rinv_l; lra. }
  assert (C : continuity_pt g r).
  { apply continuity_pt_filterlim. unfold g.
    assert (Ci : continuous (fun s : R => / s) r) by (apply continuous_Rinv; lra).
    assert (Cm : continuous (fun s : R => Rmin 1 (dp_inner d / s)) r).
    { apply (continuous_ext (fun s : R => (1 + dp_inner d / s - Rabs (1 - dp_inner d / s)) / 2)).
      - intros s. unfold Rmin, Rabs. destruct (Rle_dec 1 (dp_inner d / s)), (Rcase_abs (1 - dp_inner d / s)); lra.
      - apply (continuous_mult (fun s : R => 1 + dp_inner d / s - Rabs (1 - dp_inner d / s)) (fun _ => / 2)); [|apply continuous_const].
        assert (Cq : continuous (fun s : R => dp_inner d / s) r) by (apply (continuous_mult (fun _ : R => dp_inner d)); [apply continuous_const|exact Ci]).
        apply (continuous_minus (fun s : R => 1 + dp_inner d / s) (fun s : R => Rabs (1 - dp_inner d / s))).
        + apply (continuous_plus (fun _ : R => 1)); [apply continuous_const|exact Cq].
        + apply (continuous_comp (fun s : R => 1 - dp_inner d / s) Rabs); [|apply continuous_Rabs].
          apply (continuous_minus (fun _ : R => 1)); [apply continuous_const|exact Cq]. }
    apply (continuous_mult (fun s : R => dp_density d / s * exp (- (s / dp_outer d)) * (1 - sqrt (Rmin 1 (dp_inner d / s)))) (fun _ => exp (- (t / dp_lifetime d)))); [|apply continuous_const].
    apply (continuous_mult (fun s : R => dp_density d / s * exp (- (s / dp_outer d))) (fun s : R => 1 - sqrt (Rmin 1 (dp_inner d / s)))).
    - apply (continuous_mult (fun s : R => dp_density d / s) (fun s : R => exp (- (s / dp_outer d)))).
      + apply (continuous_mult (fun _ : R => dp_density d)); [apply continuous_const|exact Ci].
      + apply (continuous_comp (fun s : R => - (s / dp_outer d)) exp); [|apply continuous_exp].
        apply (continuous_opp (fun s : R => s / dp_outer d)).
        apply (continuous_mult (fun s : R => s) (fun _ => / dp_outer d)); [apply continuous_id|apply continuous_const].
    - apply (continuous_minus (fun _ : R => 1)); [apply continuous_const|].
      apply (continuous_comp (fun s : R => Rmin 1 (dp_inner d / s)) sqrt); [exact Cm|apply continuous_sqrt]. }
  intros eps He. destruct (C eps He) as (a & Ha & Hc). exists (Rmin a (r / 2)). split; [apply Rmin_pos; [exact Ha|lra]|].
  intros s (Ds & Hs). rewrite <- (Eq r Hr), <- (Eq s).
  - apply Hc. split; [exact Ds|]. eapply Rlt_le_trans; [exact Hs|apply Rmin_l].
  - assert (L : Rabs (s - r) < r / 2) by (eapply Rlt_le_trans; [exact Hs|apply Rmin_r]).
    apply Rabs_def2 in L. lra.
Qed.

(** ** Monotonicity in time *)
Lemma rate_in_time nu d m a r t s : 0 <= nu -> 0 < m -> 0 <= dp_inner d -> 0 <= dp_density d -> 0 < dp_lifetime d -> 0 <= s ->
  drift_rate nu (gas_density d (t + s) r) m a <= drift_rate nu (gas_density d t r) m a.
Proof.
  intros Hn Hm Hi Hd Hl Hs. unfold drift_rate. apply Rle_min_compat_l. rewrite density_after.
  pose proof (density_nonneg d t r Hi Hd) as D. set (q := gas_density d t r) in *. clearbody q.
  assert (E : exp (- (s / dp_lifetime d)) <= 1).
  { rewrite <- exp_0. destruct (Req_dec s 0) as [->|].
    - unfold Rdiv. rewrite Rmult_0_l, Ropp_0. lra.
    - left. apply exp_increasing. assert (0 < s / dp_lifetime d) by (apply Rdiv_lt_0_compat; lra). lra. }
  set (k := exp _) in *. clearbody k. apply Rmult_le_compat_r; [left; now apply Rinv_0_lt_compat|].
  apply Rmult_le_compat_l; [lra|]. nra.
Qed.

(** ** The semi-major axis *)
Lemma squares_deriv (a b c : R -> R) t a' b' c' : is_derive a t a' -> is_derive b t b' -> is_derive c t c' ->
  is_derive (fun s : R => a s * a s + b s * b s + c s * c s) t (2 * (a t * a' + b t * b' + c t * c')).
Proof.
  intros A B C. auto_derive.
  - repeat split; eexists; eassumption.
  - replace (Derive (fun s : R => a s) t) with a' by (symmetry; apply is_derive_unique; exact A).
    replace (Derive (fun s : R => b s) t) with b' by (symmetry; apply is_derive_unique; exact B).
    replace (Derive (fun s : R => c s) t) with c' by (symmetry; apply is_derive_unique; exact C). ring.
Qed.
Lemma minor_deriv (a b c e : R -> R) t a' b' c' e' z : is_derive a t a' -> is_derive b t b' -> is_derive c t c' -> is_derive e t e' ->
  a' * b t + a t * b' - (c' * e t + c t * e') = z -> is_derive (fun s : R => a s * b s - c s * e s) t z.
Proof.
  intros A B C E <-. auto_derive.
  - repeat split; eexists; eassumption.
  - replace (Derive (fun s : R => a s) t) with a' by (symmetry; apply is_derive_unique; exact A).
    replace (Derive (fun s : R => b s) t) with b' by (symmetry; apply is_derive_unique; exact B).
    replace (Derive (fun s : R => c s) t) with c' by (symmetry; apply is_derive_unique; exact C).
    replace (Derive (fun s : R => e s) t) with e' by (symmetry; apply is_derive_unique; exact E). ring.
Qed.
Lemma norm2_deriv (f : R -> vec R) t d : vderiv f t d -> is_derive (fun s => norm2 (f s)) t (2 * vdot (f t) d).
Proof.
  intros (A & B & C). apply is_derive_Reals in A. apply is_derive_Reals in B. apply is_derive_Reals in C.
  exact (squares_deriv _ _ _ t _ _ _ A B C).
Qed.
Lemma sma_deriv gm x v t f : 0 < gm -> 0 < norm2 (x t) -> 2 / sqrt (norm2 (x t)) - norm2 (v t) / gm <> 0 ->
  disturbed_orbit gm x v t f ->
  derivable_pt_lim (fun s => semi_major gm (x s) (v s)) t (2 * semi_major gm (x t) (v t) ^ 2 / gm * vdot (v t) f).
Proof.
  intros Hg Hr Hq (Dx & Dv). apply is_derive_Reals. unfold semi_major.
  pose proof (norm2_deriv _ _ _ Dx) as A. pose proof (norm2_deriv _ _ _ Dv) as B. cbv beta in A, B.
  set (n := fun s => norm2 (x s)) in *. set (w := fun s => norm2 (v s)) in *.
  change (norm2 (x t)) with (n t) in *. change (norm2 (v t)) with (w t) in *.
  change (is_derive (fun s : R => / (2 / sqrt (n s) - w s / gm)) t
    (2 * (/ (2 / sqrt (n t) - w t / gm)) ^ 2 / gm * vdot (v t) f)).
  assert (Hs : 0 < sqrt (n t)) by now apply sqrt_lt_R0.
  auto_derive.
  - repeat split; try (eexists; eassumption); try exact Hr; try exact Hq; lra.
  - replace (Derive (fun s : R => n s) t) with (2 * vdot (x t) (v t)) by (symmetry; apply is_derive_unique; exact A).
    replace (Derive (fun s : R => w s) t) with (2 * vdot (v t) (vadd (vscale (- gm / sqrt (n t) ^ 3) (x t)) f)) by (symmetry; apply is_derive_unique; exact B).
    assert (E : vdot (v t) (vadd (vscale (- gm / sqrt (n t) ^ 3) (x t)) f)
      = - gm / sqrt (n t) ^ 3 * vdot (x t) (v t) + vdot (v t) f).
    { generalize (- gm / sqrt (n t) ^ 3). intros k. destruct (x t), (v t), f. vunfold. num_simpl. ring. }
    rewrite E. set (dd := sqrt (n t)) in *. set (xv := vdot (x t) (v t)). set (vf := vdot (v t) f). set (ww := w t) in *.
    clearbody dd xv vf ww. field. repeat split; try lra.
    intros Z. apply Hq. replace (2 / dd - ww / gm) with ((2 * gm - ww * dd) / (dd * gm)) by (field; lra). rewrite Z. unfold Rdiv. ring.
Qed.
Lemma drag_work rate r v : 0 < norm2 r ->
  vdot v (disk_drag rate r v) = - rate * (norm2 v + 20 * (vdot r v) ^ 2 / norm2 r + 20 * vz v ^ 2).
Proof.
  intros Hn. unfold disk_drag. set (q := norm2 r) in *. clearbody q.
  destruct r as [a b c], v as [x y z]. vunfold. num_simpl. field. lra.
Qed.
Lemma momentum_deriv gm x v t f : disturbed_orbit gm x v t f ->
  vderiv (fun s => vcross (x s) (v s)) t (vcross (x t) f).
Proof.
  intros ((A1 & A2 & A3) & (B1 & B2 & B3)). set (k := - gm / sqrt (norm2 (x t)) ^ 3) in *. clearbody k.
  apply is_derive_Reals in A1. apply is_derive_Reals in A2. apply is_derive_Reals in A3.
  apply is_derive_Reals in B1. apply is_derive_Reals in B2. apply is_derive_Reals in B3.
  unfold vderiv. cbn [vcross vx vy vz]. num_simpl.
  repeat split; apply is_derive_Reals; (eapply minor_deriv; [eassumption|eassumption|eassumption|eassumption|]);
    destruct (x t), (v t), f; vunfold; num_simpl; ring.
Qed.

(** ** The orbit of a body in the disk *)
Lemma plane_torque k rate r v : in_plane r v -> vcross r (vscale k (disk_drag rate r v)) = vscale (- (k * rate)) (vcross r v).
Proof.
  intros (Hr & Hv). unfold disk_drag. generalize (20 * (vdot r v / norm2 r)). intros w.
  destruct r as [a b c], v as [x y z]. cbn [vz] in Hr, Hv. subst c z. vunfold. num_simpl. f_equal; ring.
Qed.
Section Orbit.
  Variables (t : R) (d : disk_props R) (host p host' p' : particle R) (x v : R -> vec R).
  Hypotheses (S : migrating_system d host [p]) (O : is_disk_orbiting p = true) (E : disk_pass t host [p] = (host', [p'])).
  Hypotheses (Ex : x t = rel_pos host p) (Ev : v t = rel_vel host p)
    (M : disturbed_orbit (pair_mass host p) x v t (vsub (disk_acc p') (disk_acc host'))).
  Let gm := pair_mass host p.
  Let a := semi_major gm (x t) (v t).
  Let tau := dk_timescale (p_disk p').
  Let k := 1 + p_mass p / p_mass host.
  Lemma orbit_basics : 0 < gm /\ 0 < norm2 (x t) /\ 2 / sqrt (norm2 (x t)) - norm2 (v t) / gm <> 0 /\ 0 < tau.
  Proof.
    pose proof (disk_law t d host [p] host' [p'] S E) as L. inversion L as [|? ? ? ? L1 _]; subst. destruct (L1 O) as [_ Et].
    destruct S as (K & Hd & Hm & Hg & HL). inversion HL as [|? ? Hp _]; subst. specialize (Hp O).
    pose proof (body_rate_pos d t host p Hd Hm Hg Hp) as Pr.
    destruct Hp as (Mp & Gp & Hx & Hb). fold (rel_pos host p) in Hx, Hb. fold (rel_vel host p) in Hb.
    rewrite Ex, Ev. unfold gm, pair_mass. assert (Hr : 0 < sqrt (norm2 (rel_pos host p))) by (destruct Hd; lra).
    split; [lra|]. split; [|split].
    - destruct (Rlt_le_dec 0 (norm2 (rel_pos host p))) as [|Z]; [assumption|]. rewrite sqrt_neg_0 in Hr; lra.
    - intros Z. apply Hb. clear - Z Hr Hg Gp. set (dd := sqrt (norm2 (rel_pos host p))) in *. set (w := norm2 (rel_vel host p)) in *. clearbody dd w.
      replace (2 * (p_mass_g p + p_mass_g host) - dd * w) with ((2 / dd - w / (p_mass_g p + p_mass_g host)) * (dd * (p_mass_g p + p_mass_g host))) by (field; lra).
      rewrite Z. ring.
    - unfold tau. rewrite Et. now apply Rinv_0_lt_compat.
  Qed.
  Theorem orbit_shrinks : derivable_pt_lim (fun s => semi_major gm (x s) (v s)) t
    (- (2 * k * a ^ 2 / (gm * tau) * (norm2 (v t) + 20 * vdot (x t) (v t) ^ 2 / norm2 (x t) + 20 * vz (v t) ^ 2))).
  Proof.
    destruct orbit_basics as (Hg & Hr & Hq & Ht).
    pose proof (sma_deriv gm x v t _ Hg Hr Hq M) as D.
    rewrite (relative_law t d host p host' p' S O E), <- Ex, <- Ev in D. fold tau k a in D.
    assert (W : forall f : vec R, vdot (v t) (vscale k f) = k * vdot (v t) f).
    { intros f. destruct (v t), f. vunfold. num_simpl. ring. }
    rewrite W, (drag_work (/ tau) (x t) (v t) Hr) in D.
    match type of D with derivable_pt_lim _ _ ?l => match goal with |- derivable_pt_lim _ _ ?r => replace r with l end end; [exact D|].
    field. repeat split; lra.
  Qed.
  Theorem circular_shrinks : circular gm (x t) (v t) -> in_plane (x t) (v t) ->
    derivable_pt_lim (fun s => semi_major gm (x s) (v s)) t (- (2 * k * (a / tau))).
  Proof.
    intros (C1 & C2) (_ & P). destruct orbit_basics as (Hg & Hr & Hq & Ht).
    pose proof orbit_shrinks as D. rewrite C1, C2, P in D.
    match type of D with derivable_pt_lim _ _ ?l => match goal with |- derivable_pt_lim _ _ ?r => replace r with l end end; [exact D|].
    assert (Hs : 0 < sqrt (norm2 (x t))) by now apply sqrt_lt_R0.
    assert (A : a = sqrt (norm2 (x t))).
    { unfold a, semi_major. rewrite C2. field. repeat split; try lra. }
    rewrite A. set (dd := sqrt (norm2 (x t))) in *. set (n2 := norm2 (x t)) in *. clearbody dd n2 tau. field. repeat split; lra.
  Qed.
  Theorem momentum_decays : in_plane (x t) (v t) ->
    vderiv (fun s => vcross (x s) (v s)) t (vscale (- (k / tau)) (vcross (x t) (v t))).
  Proof.
    intros P. pose proof (momentum_deriv _ x v t _ M) as D.
    rewrite (relative_law t d host p host' p' S O E), <- Ex, <- Ev in D. fold tau k in D. rewrite (plane_torque _ _ _ _ P) in D. exact D.
  Qed.
End Orbit.

(** ** Two equal bodies on a circular orbit *)
Definition round_planet : particle R := set_p_ivel (Vec 0 (sqrt (2 * K2)) 0) disk_planet.
Definition line (r v : vec R) (s : R) : vec R := vadd r (vscale s v).
Lemma line_deriv r v : vderiv (line r v) 0 v.
Proof.
  assert (G : forall b c, derivable_pt_lim (fun s : R => b + s * c) 0 c).
  { intros b c. apply is_derive_Reals. auto_derive; [exact I|ring]. }
  destruct r as [a b c], v as [x y z]. unfold vderiv, line. vunfold. num_simpl. repeat split; apply G.
Qed.
Lemma line_0 r v : line r v 0 = r. Proof. unfold line. destruct r, v. vunfold. num_simpl. f_equal; ring. Qed.
Lemma round_pos : rel_pos disk_star round_planet = Vec 1 0 0.
Proof. unfold rel_pos. change (p_ipos round_planet) with (Vec 1 0 (0:R)). change (p_ipos disk_star) with (@vzero R _). vunfold. num_simpl. f_equal; ring. Qed.
Lemma round_vel : rel_vel disk_star round_planet = Vec 0 (sqrt (2 * K2)) 0.
Proof. unfold rel_vel. change (p_ivel round_planet) with (Vec 0 (sqrt (2 * K2)) (0:R)). change (p_ivel disk_star) with (@vzero R _). vunfold. num_simpl. f_equal; ring. Qed.
Lemma round_gm : pair_mass disk_star round_planet = 2 * K2.
Proof. unfold pair_mass. change (p_mass_g round_planet) with (1 * @K2 R _). change (p_mass_g disk_star) with (1 * @K2 R _). ring. Qed.
Lemma unit_norm : norm2 (Vec 1 0 0) = 1 :> R. Proof. vunfold. num_simpl. ring. Qed.
Lemma round_speed : norm2 (Vec 0 (sqrt (2 * K2)) 0) = 2 * K2 :> R.
Proof.
  pose proof K2_pos. replace (norm2 (Vec 0 (sqrt (2 * K2)) 0)) with (sqrt (2 * K2) * sqrt (2 * K2)) by (vunfold; num_simpl; ring).
  apply sqrt_sqrt. lra.
Qed.
Lemma round_system : migrating_system disk_d disk_star [round_planet] /\ is_disk_orbiting round_planet = true /\
  circular (pair_mass disk_star round_planet) (rel_pos disk_star round_planet) (rel_vel disk_star round_planet) /\
  in_plane (rel_pos disk_star round_planet) (rel_vel disk_star round_planet).
Proof.
  pose proof K2_pos as HK. destruct disk_system as (A & B & C & D & _). split; [|split; [reflexivity|]].
  - repeat split; try apply B; try assumption. constructor; [|constructor]. intros _. unfold migrating.
    fold (rel_pos disk_star round_planet). fold (rel_vel disk_star round_planet). cbv zeta.
    fold (pair_mass disk_star round_planet). rewrite round_pos, round_vel, round_gm, unit_norm, round_speed, sqrt_1.
    change (p_mass round_planet) with 1. change (p_mass_g round_planet) with (1 * @K2 R _). change (dp_inner disk_d) with (1/2).
    repeat split; lra.
  - rewrite round_pos, round_vel, round_gm. unfold circular, in_plane. rewrite unit_norm, round_speed, sqrt_1. cbn [vz].
    repeat split; try reflexivity; [|field]. vunfold. num_simpl. ring.
Qed.
Lemma pass_single t host p d : disk_host host d -> exists host' p', disk_pass t host [p] = (host', [p']).
Proof.
  intros K. destruct (disk_pass t host [p]) as [h l] eqn:E. destruct (disk_result t host d [p] h l K E) as (_ & _ & _ & ->).
  exists h. eexists. reflexivity.
Qed.
Theorem faster_than_computed : exists t d host p host' p' x v a',
  migrating_system d host [p] /\ is_disk_orbiting p = true /\ disk_pass t host [p] = (host', [p']) /\
  x t = rel_pos host p /\ v t = rel_vel host p /\
  disturbed_orbit (pair_mass host p) x v t (vsub (disk_acc p') (disk_acc host')) /\
  circular (pair_mass host p) (x t) (v t) /\ in_plane (x t) (v t) /\
  derivable_pt_lim (fun s => semi_major (pair_mass host p) (x s) (v s)) t a' /\
  a' <> - (semi_major (pair_mass host p) (x t) (v t) / dk_timescale (p_disk p')).
Proof.
  destruct round_system as (S & O & C & P). destruct (pass_single 0 disk_star round_planet disk_d (proj1 S)) as (h' & p' & E).
  set (x := line (rel_pos disk_star round_planet) (rel_vel disk_star round_planet)).
  set (gm := pair_mass disk_star round_planet).
  set (w := vadd (vscale (- gm / sqrt (norm2 (rel_pos disk_star round_planet)) ^ 3) (rel_pos disk_star round_planet)) (vsub (disk_acc p') (disk_acc h'))).
  set (v := line (rel_vel disk_star round_planet) w).
  assert (X0 : x 0 = rel_pos disk_star round_planet) by apply line_0.
  assert (V0 : v 0 = rel_vel disk_star round_planet) by apply line_0.
  assert (M : disturbed_orbit gm x v 0 (vsub (disk_acc p') (disk_acc h'))).
  { split; [rewrite V0; apply line_deriv|]. rewrite X0. apply line_deriv. }
  rewrite <- X0, <- V0 in C, P.
  exists 0, disk_d, disk_star, round_planet, h', p', x, v. eexists.
  split; [exact S|]. split; [exact O|]. split; [exact E|]. split; [exact X0|]. split; [exact V0|]. split; [exact M|].
  split; [exact C|]. split; [exact P|].
  split; [exact (circular_shrinks 0 disk_d disk_star round_planet h' p' x v S O E X0 V0 M C P)|].
  destruct (orbit_basics 0 disk_d disk_star round_planet h' p' x v S O E X0 V0) as (Hg & _ & _ & Ht).
  fold gm in C |- *. fold gm in Hg.
  assert (A : semi_major gm (x 0) (v 0) = 1).
  { unfold semi_major. rewrite (proj2 C), X0, round_pos, unit_norm, sqrt_1. field. lra. }
  rewrite A. change (p_mass round_planet) with 1. change (p_mass disk_star) with 1.
  set (tau := dk_timescale (p_disk p')) in *. clearbody tau.
  assert (0 < 1 / tau) by (apply Rdiv_lt_0_compat; lra). lra.
Qed.

(** ** The disk ages *)
Lemma map_Forall2 {A B C} (Q : B -> C -> Prop) (f : A -> B) (g : A -> C) l :
  Forall (fun a => Q (f a) (g a)) l -> Forall2 Q (map f l) (map g l).
Proof. induction 1; constructor; auto. Qed.
Theorem disk_ages t s d host l h1 l1 h2 l2 : migrating_system d host l -> 0 < dp_lifetime d -> 0 <= s ->
  disk_pass t host l = (h1, l1) -> disk_pass (t + s) host l = (h2, l2) ->
  Forall2 (fun p1 p2 => is_disk_orbiting p1 = true -> 0 < dk_timescale (p_disk p1) <= dk_timescale (p_disk p2)) l1 l2.
Proof.
  intros (K & Hd & Hm & Hg & HL) Hl Hs E1 E2.
  destruct (disk_result t host d l h1 l1 K E1) as (_ & _ & _ & ->).
  destruct (disk_result (t + s) host d l h2 l2 K E2) as (_ & _ & _ & ->).
  apply map_Forall2. eapply Forall_impl; [|exact HL]. cbv beta. intros p Hp.
  destruct (is_disk_orbiting p) eqn:Ho; [|rewrite Ho; discriminate]. intros _. specialize (Hp eq_refl).
  change (0 < body_timescale d t host p <= body_timescale d (t + s) host p).
  rewrite (body_timescale_law d t host p Hd Hm Hg Hp), (body_timescale_law d (t + s) host p Hd Hm Hg Hp).
  pose proof (body_rate_pos d t host p Hd Hm Hg Hp). pose proof (body_rate_pos d (t + s) host p Hd Hm Hg Hp).
  split; [now apply Rinv_0_lt_compat|]. apply Rinv_le_contravar; [assumption|]. unfold body_rate. cbv zeta.
  assert (Hr : 0 < sqrt (norm2 (rel_pos host p))) by (destruct Hp as (_ & _ & Hx & _); unfold rel_pos; destruct Hd; lra).
  apply rate_in_time; try (destruct Hd as (? & ? & ? & ?); lra); [|destruct Hp; assumption].
  rewrite <- (viscosity_law d _ _ _ Hr). left. apply viscosity_pos; assumption.
Qed.
Lemma code_density_continuous d t r : 0 < dp_inner d -> 0 < r -> continuity_pt (fun r => disk_surface_density d t r) r.
Proof.
  intros Hi Hr. apply (continuity_pt_ext (gas_density d t)); [intros s; symmetry; apply density_law|]. now apply density_continuous.
Qed.
Lemma round_example : migrating_system disk_d disk_star [round_planet] /\ is_disk_orbiting round_planet = true /\
  0 < dp_inner disk_d /\ 0 < dp_lifetime disk_d /\
  circular (pair_mass disk_star round_planet) (rel_pos disk_star round_planet) (rel_vel disk_star round_planet) /\
  in_plane (rel_pos disk_star round_planet) (rel_vel disk_star round_planet).
Proof.
  destruct round_system as (A & B & C & D). change (dp_inner disk_d) with (1/2).
  assert (0 < dp_lifetime disk_d) by (cbn [dp_lifetime disk_d]; lra). repeat split; try assumption; try apply A; try apply C; try apply D; lra.
Qed.
