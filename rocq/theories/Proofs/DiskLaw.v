(** The migration caused by the disk *)
From Coquelicot Require Import Coquelicot.
From Coq Require Import Reals Lra Psatz List Bool ZArith Lia.
From Verif Require Import Base.Num Base.Vec Base.Trans Model.Constants Model.Particle Model.Disk
  Proofs.NumLemmas Proofs.VecLemmas Proofs.DiskProofs Spec.EffectsSpec Spec.DiskSpec.
Import ListNotations.
Open Scope R_scope.

(** ** The gas *)
Lemma density_law d t r : disk_surface_density d t r = gas_density d t r.
Proof.
  unfold disk_surface_density, gas_density. cbv zeta. change (@nltb R NumR) with Rltb. unfold Rltb.
  destruct (Rlt_dec (dp_inner d) r); [|reflexivity].
  change (dp_density d * (1 / r) * exp (- (1) * r / dp_outer d) * (1 - sqrt (dp_inner d / r)) * exp (- t / dp_lifetime d)
    = dp_density d / r * exp (- (r / dp_outer d)) * (1 - sqrt (dp_inner d / r)) * exp (- (t / dp_lifetime d))).
  replace (- (1) * r / dp_outer d) with (- (r / dp_outer d)) by (unfold Rdiv; ring).
  replace (- t / dp_lifetime d) with (- (t / dp_lifetime d)) by (unfold Rdiv; ring).
  unfold Rdiv. ring.
Qed.
Lemma powf_half r : 0 < r -> Rpowf r (- (1 / 2)) = / sqrt r.
Proof.
  intros Hr. unfold Rpowf. destruct (Rlt_dec 0 r); [|contradiction].
  rewrite Rpower_Ropp. f_equal. replace (1 / 2) with (/ 2) by field. apply Rpower_sqrt. exact Hr.
Qed.
Lemma viscosity_law d m gm r : 0 < r -> disk_viscosity d m gm r = gas_viscosity BOLTZMANN MASS_HYDROGEN d m gm r.
Proof.
  intros Hr. unfold disk_viscosity, gas_viscosity, temperature_disk, keplerian_frequency. cbv zeta. num_simpl.
  change (@tpow R TransR) with Rpowf. rewrite (powf_half r Hr).
  replace (npow r 3) with (r ^ 3) by (cbn; num_simpl; ring). unfold Rdiv. rewrite ?Rinv_1, ?Rmult_1_r. reflexivity.
Qed.
Lemma density_after d t s r : gas_density d (t + s) r = exp (- (s / dp_lifetime d)) * gas_density d t r.
Proof.
  unfold gas_density. destruct (Rlt_dec (dp_inner d) r); [|ring].
  replace (- ((t + s) / dp_lifetime d)) with (- (t / dp_lifetime d) + - (s / dp_lifetime d)) by (unfold Rdiv; ring).
  rewrite exp_plus. ring.
Qed.
Lemma density_nonneg d t r : 0 <= dp_inner d -> 0 <= dp_density d -> 0 <= gas_density d t r.
Proof.
  intros Hi Hd. unfold gas_density. destruct (Rlt_dec (dp_inner d) r); [|lra].
  assert (sqrt (dp_inner d / r) <= 1).
  { rewrite <- sqrt_1. apply sqrt_le_1_alt. apply (Rmult_le_reg_r r); [lra|]. unfold Rdiv. rewrite Rmult_assoc, Rinv_l; lra. }
  repeat apply Rmult_le_pos; try (left; apply exp_pos); try lra. left. apply Rinv_0_lt_compat. lra.
Qed.

(** ** The time scale *)
Lemma timescale_law d t m gm mp r a : disk_ok d -> 0 < m -> 0 < gm -> 0 < mp -> dp_inner d < r -> a <> 0 ->
  migration_timescale d t m gm mp r a
  = / drift_rate (gas_viscosity BOLTZMANN MASS_HYDROGEN d m gm r) (gas_density d t r) mp a.
Proof.
  intros Hd Hm Hg Hp Hx Ha. assert (Hr : 0 < r) by (destruct Hd; lra).
  pose proof (density_pos d t r Hd Hx) as D. pose proof (viscosity_pos d m gm r Hd Hm Hg Hr) as V.
  unfold migration_timescale, gas_radial_velocity. cbv zeta.
  rewrite density_law in *. rewrite (viscosity_law d m gm r Hr) in *.
  set (den := gas_density d t r) in *. set (nu := gas_viscosity _ _ _ _ _ _) in *. clearbody den nu.
  assert (A2 : 0 < a ^ 2) by (replace (a ^ 2) with (Rsqr a) by (unfold Rsqr; ring); now apply Rsqr_pos_lt).
  unfold drift_rate, nmin. replace (npow a 2) with (a * a) by (cbn; num_simpl; ring). num_simpl.
  match goal with |- - a / (_ * ?m0) = _ => assert (M : m0 = Rmin 1 (2 * den * a ^ 2 / mp)) end.
  { replace (2 / 1 * den * (a * a) / mp) with (2 * den * a ^ 2 / mp) by (field; lra).
    unfold Rmin. destruct (Rle_dec 1 (2 * den * a ^ 2 / mp)); rcase; try reflexivity; lra. }
  rewrite M. clear M.
  assert (E : Rmin (3 * nu / (2 * a ^ 2)) (3 * nu * den / mp) = 3 * nu / (2 * a ^ 2) * Rmin 1 (2 * den * a ^ 2 / mp)).
  { assert (K : 0 < 3 * nu / (2 * a ^ 2)) by (apply Rdiv_lt_0_compat; lra).
    replace (3 * nu * den / mp) with (2 * den * a ^ 2 / mp * (3 * nu / (2 * a ^ 2))) by (field; lra).
    unfold Rmin at 2. destruct (Rle_dec 1 (2 * den * a ^ 2 / mp)) as [L|L].
    - rewrite Rmin_left; [ring|]. rewrite <- (Rmult_1_l (3 * nu / (2 * a ^ 2))) at 1. apply Rmult_le_compat_r; lra.
    - rewrite Rmin_right; [ring|]. rewrite <- (Rmult_1_l (3 * nu / (2 * a ^ 2))) at 2. apply Rmult_le_compat_r; lra. }
  rewrite E. clear E.
  assert (P : 0 < Rmin 1 (2 * den * a ^ 2 / mp)).
  { apply Rmin_pos; [lra|]. apply Rdiv_lt_0_compat; [|exact Hp]. apply Rmult_lt_0_compat; lra. }
  set (q := Rmin _ _) in *. clearbody q. field. repeat split; lra.
Qed.

(** the semi-major axis the code computes *)
Lemma sma_law gm r v : 0 < gm -> 0 < sqrt (norm2 r) -> 2 * gm - sqrt (norm2 r) * norm2 v <> 0 ->
  gm * sqrt (norm2 r) / (2 * gm - sqrt (norm2 r) * norm2 v) = semi_major gm r v.
Proof.
  intros Hg Hr Hq. unfold semi_major. set (dd := sqrt (norm2 r)) in *. set (w := norm2 v) in *. clearbody dd w.
  replace (2 / dd - w / gm) with ((2 * gm - dd * w) / (gm * dd)) by (field; lra). field. lra.
Qed.
Lemma body_timescale_law d t host p : disk_ok d -> 0 < p_mass host -> 0 < p_mass_g host -> migrating d host p ->
  body_timescale d t host p = / body_rate d t host p.
Proof.
  intros Hd Hm Hg (Mp & Gp & Hx & Hb). unfold body_timescale, disk_timescale. cbv zeta.
  change (dk_distance (p_disk (dprep host p))) with (sqrt (norm2 (rel_pos host p))).
  change (dk_norm_vel2 (p_disk (dprep host p))) with (norm2 (vsub (rel_vel host p) vzero)).
  rewrite vsub_0_r.
  change (p_mass_g (dprep host p)) with (p_mass_g p). change (p_mass (dprep host p)) with (p_mass p).
  change (p_mass_g (dprep_host host)) with (p_mass_g host). change (p_mass (dprep_host host)) with (p_mass host).
  fold (rel_pos host p) in Hx, Hb. fold (rel_vel host p) in Hb.
  assert (Hr : 0 < sqrt (norm2 (rel_pos host p))) by (destruct Hd; lra).
  num_simpl. replace (2 / 1) with 2 by field.
  assert (Hs : (p_mass_g p + p_mass_g host) * sqrt (norm2 (rel_pos host p))
    / (2 * (p_mass_g p + p_mass_g host) - sqrt (norm2 (rel_pos host p)) * norm2 (rel_vel host p)) <> 0).
  { apply Rmult_integral_contrapositive_currified; [apply Rmult_integral_contrapositive_currified; lra|].
    apply Rinv_neq_0_compat. exact Hb. }
  rewrite (timescale_law d t _ _ _ _ _ Hd Hm Hg Mp Hx Hs). unfold body_rate. cbv zeta. unfold pair_mass.
  rewrite (sma_law (p_mass_g p + p_mass_g host)); [reflexivity|lra|exact Hr|exact Hb].
Qed.
Lemma body_rate_pos d t host p : disk_ok d -> 0 < p_mass host -> 0 < p_mass_g host -> migrating d host p ->
  0 < body_rate d t host p.
Proof.
  intros Hd Hm Hg Hp. pose proof (body_timescale_pos d t host p Hd Hm Hg Hp) as X.
  rewrite (body_timescale_law d t host p Hd Hm Hg Hp) in X.
  rewrite <- (Rinv_inv (body_rate d t host p)). now apply Rinv_0_lt_compat.
Qed.

(** ** The force *)
Lemma force_law ts (host p : particle R) : p_mass p <> 0 -> ts <> 0 -> 0 < sqrt (norm2 (rel_pos host p)) ->
  disk_force ts (dprep host p) = vscale (p_mass p) (disk_drag (/ ts) (rel_pos host p) (rel_vel host p)).
Proof.
  intros Hm Ht Hr. unfold disk_force.
  change (dk_vel (p_disk (dprep host p))) with (rel_vel host p).
  change (dk_pos (p_disk (dprep host p))) with (rel_pos host p).
  change (dk_distance (p_disk (dprep host p))) with (sqrt (norm2 (rel_pos host p))).
  change (p_mass (dprep host p)) with (p_mass p).
  assert (Ed := norm_sq (rel_pos host p)). change (@nmul R NumR) with Rmult. rewrite Ed. unfold disk_drag.
  assert (Hn : norm2 (rel_pos host p) <> 0). { rewrite <- Ed. nra. }
  revert Hn. generalize (rel_pos host p), (rel_vel host p). intros r v Hn.
  set (q := norm2 r) in *. set (w := vdot r v). clearbody q w. destruct r as [a b c], v as [x y z]. vunfold.
  num_simpl. f_equal; field; auto.
Qed.

Definition migrating_system (d : disk_props R) (host : particle R) (l : list (particle R)) : Prop :=
  disk_host host d /\ disk_ok d /\ 0 < p_mass host /\ 0 < p_mass_g host /\
  Forall (fun p : particle R => is_disk_orbiting p = true -> migrating d host p) l.
Theorem disk_law t d host l host' l' : migrating_system d host l -> disk_pass t host l = (host', l') ->
  Forall2 (fun p p' : particle R => is_disk_orbiting p = true ->
    disk_acc p' = disk_drag (body_rate d t host p) (rel_pos host p) (rel_vel host p) /\
    dk_timescale (p_disk p') = / body_rate d t host p) l l'.
Proof.
  intros (K & Hd & Hm & Hg & HL) E. destruct (disk_result t host d l host' l' K E) as (_ & _ & _ & ->).
  clear E. induction HL as [|p l Hp _ IH]; cbn [map]; constructor; [|exact IH].
  intros Ho. rewrite Ho. specialize (Hp Ho).
  pose proof (body_rate_pos d t host p Hd Hm Hg Hp) as Pr.
  pose proof (body_timescale_law d t host p Hd Hm Hg Hp) as Et.
  assert (Hr : 0 < sqrt (norm2 (rel_pos host p))) by (destruct Hp as (_ & _ & Hx & _); unfold rel_pos; destruct Hd; lra).
  split; [|exact Et]. rewrite finished_acc. unfold body_force.
  assert (Mp : p_mass p <> 0) by (destruct Hp; lra).
  assert (Tn : body_timescale d t host p <> 0) by (rewrite Et; apply Rinv_neq_0_compat; lra).
  rewrite (force_law _ host p Mp Tn Hr), Et, Rinv_inv, vscale_scale.
  replace (1 / p_mass p * p_mass p) with 1 by (field; exact Mp). apply vscale_1.
Qed.
(** one body and its host *)
Theorem relative_law t d host p host' p' : migrating_system d host [p] -> is_disk_orbiting p = true ->
  disk_pass t host [p] = (host', [p']) ->
  vsub (disk_acc p') (disk_acc host')
  = vscale (1 + p_mass p / p_mass host) (disk_drag (/ dk_timescale (p_disk p')) (rel_pos host p) (rel_vel host p)).
Proof.
  intros S Ho E. pose proof (disk_law t d host [p] host' [p'] S E) as L.
  inversion L as [|? ? ? ? L1 _]; subst. destruct (L1 Ho) as [A T]. rewrite T, Rinv_inv.
  destruct S as (K & Hd & Hm & Hg & HL). inversion HL as [|? ? Hp _]; subst. specialize (Hp Ho).
  destruct (disk_result t host d [p] host' [p'] K E) as (_ & _ & B & C). cbn [map] in C. rewrite Ho in C.
  unfold orbd in B. cbn [filter] in B. rewrite Ho in B. cbn [map Vsum fold_right] in B. rewrite vadd_0_r in B.
  assert (Mp : p_mass p <> 0) by (destruct Hp; lra).
  assert (F : body_force d t host p = vscale (p_mass p) (disk_acc p')).
  { injection C as C. rewrite C, finished_acc, vscale_scale. replace (p_mass p * (1 / p_mass p)) with 1 by (field; exact Mp).
    symmetry. apply vscale_1. }
  rewrite B, F, A. generalize (disk_drag (body_rate d t host p) (rel_pos host p) (rel_vel host p)). intros [a b c].
  vunfold. f_equal; field; lra.
Qed.
