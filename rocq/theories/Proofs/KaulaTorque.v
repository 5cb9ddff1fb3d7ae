(** The torque of the Kaula model on a planet with a circular orbit in its equatorial plane *)
From Coq Require Import Reals List Lra Lia Bool Arith ZArith.
From Verif Require Import Base.Num Base.Result Base.Trans Base.Vec Model.Constants Model.Particle Model.Tools Model.Kaula
  Model.Creep Model.Tides
  Spec.OrbitSpec Spec.TablesSpec Spec.KaulaSpec Spec.KaulaTorqueSpec Proofs.NumLemmas Proofs.VecLemmas Proofs.TidesExamples
  Proofs.OrbitElements Proofs.KaulaTables Proofs.KaulaLove Proofs.KaulaForce Proofs.KaulaBranches Proofs.Spherical.
Import ListNotations.
Open Scope R_scope.

(** ** Love numbers at opposite frequencies *)
Lemma numbers_flip w par : w <> 0 ->
  kaula_numbers (F := R) (- w) par false
  = (fst (kaula_numbers (F := R) w par false), - snd (kaula_numbers (F := R) w par false)).
Proof.
  intros Hw. unfold kaula_numbers. cbn [negb andb]. num_simpl.
  destruct (Rltb_spec w 0) as [L|L]; destruct (Rltb_spec (- w) 0) as [L'|L']; try lra; cbn [negb andb].
  - rewrite (Rabs_left w) by lra. destruct (if Rleb _ _ then _ else _) as [re im]. cbn [fst snd]. f_equal. ring.
  - rewrite Rabs_Ropp, (Rabs_right w) by lra. destruct (if Rleb _ _ then _ else _) as [re im]. reflexivity.
Qed.

(** an interpolated value lies between table entries *)
Lemma interpolates_positive xs ys t v : table xs ys -> Forall (fun y => 0 < y) ys -> interpolates xs ys t v -> 0 < v.
Proof.
  intros (Hx & Hl & Hi) Hp (A & B & C).
  assert (P : forall i, (i < length xs)%nat -> 0 < nth i ys 0).
  { intros i Hh. rewrite Forall_forall in Hp. apply Hp. apply nth_In. lia. }
  assert (N : (0 < length xs)%nat) by (destruct xs; [congruence|simpl; lia]).
  destruct (Rlt_le_dec t (nth 0 xs 0)) as [L|L]; [rewrite A by exact L; apply P; lia|].
  destruct (Rle_lt_dec (nth (length xs - 1) xs 0) t) as [M|M]; [rewrite B by exact M; apply P; lia|].
  (* the interval the point is in *)
  assert (K : forall k, (k < length xs)%nat -> t < nth k xs 0 ->
    exists i, (S i <= k)%nat /\ nth i xs 0 <= t < nth (S i) xs 0).
  { induction k as [|k IH]; intros Hk Ht; [lra|].
    destruct (Rlt_le_dec t (nth k xs 0)) as [Q|Q].
    - destruct IH as (i & I1 & I2); [lia|exact Q|]. exists i. split; [lia|exact I2].
    - exists k. split; [lia|]. split; assumption. }
  destruct (K (length xs - 1)%nat) as (i & I1 & I2); [lia|exact M|].
  rewrite (C i) by (lia || exact I2).
  set (d := (t - nth i xs 0) / (nth (S i) xs 0 - nth i xs 0)).
  assert (D : 0 <= d < 1).
  { unfold d. split; [apply Rmult_le_pos; [lra|]; apply Rlt_le, Rinv_0_lt_compat; lra|]. apply (Rmult_lt_reg_r (nth (S i) xs 0 - nth i xs 0)); [lra|]; unfold Rdiv; rewrite Rmult_assoc, Rinv_l by lra; lra. }
  pose proof (P i ltac:(lia)). pose proof (P (S i) ltac:(lia)). nra.
Qed.

(** the imaginary part has the sign of the frequency *)
Lemma numbers_sign w par : dissipative par ->
  (0 <= w -> 0 < snd (kaula_numbers (F := R) w par false))
  /\ (w < 0 -> snd (kaula_numbers (F := R) w par false) < 0).
Proof.
  intros (T1 & T2 & P). destruct (kaula_numbers_table w par false T1 T2) as (re & im & _ & B & E).
  pose proof (interpolates_positive _ _ _ _ T2 P B) as Q. rewrite E. cbn [negb andb snd].
  destruct (Rltb_spec w 0); split; intros; lra.
Qed.
(** at synchronism the first entry is read *)
Lemma numbers_zero par : table (kl_freq par) (kl_im par) -> 0 <= nth 0 (kl_freq par) 0 ->
  snd (kaula_numbers (F := R) 0 par false) = nth 0 (kl_im par) 0.
Proof.
  intros _ H. unfold kaula_numbers. cbn [negb andb]. num_simpl. rewrite (proj2 (Rltb_false _ _)) by lra.
  rewrite (proj2 (Rleb_true _ _)) by exact H. reflexivity.
Qed.

(** ** The orbit *)
Section Circle.
Variables (gm : R) (x v : vec R).
Hypothesis Hg : 0 < gm.
Hypothesis C : circles gm x v.
Let r := length3 x.

Lemma circle_x : x <> vzero :> vec R.
Proof. intros E. destruct C as (_ & _ & _ & _ & P). rewrite E in P. vunfold. cbn [vx vy vz] in P. lra. Qed.
Lemma circle_r : 0 < r.
Proof. apply length_pos, circle_x. Qed.
Lemma circle_rr : r * r = vx x * vx x + vy x * vy x.
Proof.
  unfold r. rewrite length_sq. destruct C as (Z & _). unfold dot. rewrite Z. ring.
Qed.
Lemma circle_v2 : dot v v = gm / r.
Proof. pose proof circle_r. destruct C as (_ & _ & _ & E & _). fold r in E. rewrite <- E. field. lra. Qed.
Lemma circle_energy : energy gm x v = - gm / (2 * r).
Proof. pose proof circle_r. unfold energy. rewrite circle_v2. fold r. field. lra. Qed.
Lemma circle_h : cross x v = Vec 0 0 (sqrt (gm * r)).
Proof.
  pose proof circle_r as Hr. pose proof circle_v2 as V. pose proof circle_rr as RR. destruct C as (Zx & Zv & D & _ & P).
  unfold cross. rewrite Zx, Zv. f_equal; try ring.
  apply Rsqr_inj; [lra|apply sqrt_pos|]. unfold Rsqr at 2. rewrite sqrt_sqrt by nra.
  unfold Rsqr. unfold dot in D, V. rewrite Zx in D. rewrite Zv in V.
  transitivity ((vx x * vx x + vy x * vy x) * (vx v * vx v + vy v * vy v) - (vx x * vx v + vy x * vy v) * (vx x * vx v + vy x * vy v)); [ring|].
  rewrite <- RR. replace (vx x * vx v + vy x * vy v) with 0 by lra.
  replace (vx v * vx v + vy v * vy v) with (gm / r) by lra. field. lra.
Qed.
Lemma circle_laplace : length3 (laplace gm x v) = 0.
Proof.
  pose proof circle_r as Hr. pose proof circle_x as Hx.
  pose proof (laplace_sq gm x v Hg Hx) as L. rewrite circle_h, circle_v2 in L. fold r in L.
  change (length3 (laplace gm x v)) with (sqrt (dot (laplace gm x v) (laplace gm x v))). rewrite L.
  unfold dot. cbn [vx vy vz]. replace (0 * 0 + 0 * 0 + sqrt (gm * r) * sqrt (gm * r)) with (gm * r)
    by (rewrite sqrt_sqrt by nra; ring).
  replace (1 + gm * r / gm * (gm / r / gm - 2 / r)) with 0 by (field; lra). apply sqrt_0.
Qed.

Let el := keplerian_elements (F := R) gm x v.
Lemma circle_a : el_a el = r.
Proof.
  pose proof circle_r as Hr. destruct (elements_shape gm x v Hg circle_x) as (A & _).
  { rewrite circle_energy. apply Ropp_lt_cancel. unfold Rdiv. rewrite Ropp_mult_distr_l, Ropp_involutive, Ropp_0.
    apply Rmult_lt_0_compat; [exact Hg|]. apply Rinv_0_lt_compat. lra. }
  unfold el. rewrite A, circle_energy. field. lra.
Qed.
Lemma circle_e : el_e el = 0.
Proof.
  pose proof circle_r as Hr. destruct (elements_shape gm x v Hg circle_x) as (_ & _ & _ & _ & _ & E & _).
  { rewrite circle_energy. apply Ropp_lt_cancel. unfold Rdiv. rewrite Ropp_mult_distr_l, Ropp_involutive, Ropp_0.
    apply Rmult_lt_0_compat; [exact Hg|]. apply Rinv_0_lt_compat. lra. }
  unfold el. rewrite E, circle_laplace. destruct (Rlt_dec 0 _); reflexivity.
Qed.
Lemma powf_3_2 a : 0 < a -> Rpowf a (3 / 2) = sqrt (a ^ 3).
Proof.
  intros Ha. unfold Rpowf. destruct (Rlt_dec 0 a); [|lra].
  assert (0 < a ^ 3) by (apply pow_lt; exact Ha).
  rewrite <- (Rpower_sqrt (a ^ 3)) by assumption. rewrite <- (Rpower_pow 3 a Ha), Rpower_mult.
  f_equal. simpl. field.
Qed.
Lemma circle_freq : TWO_PI / (el_period el * DAY) = mean_motion gm r / DAY.
Proof.
  pose proof circle_r as Hr. pose proof circle_a as A.
  assert (E : el_period el = TWO_PI / sqrt gm * Rpowf (el_a el) (3 / 2)).
  { unfold el, keplerian_elements. destruct (inclination_node _ _). reflexivity. }
  rewrite E, A, powf_3_2 by exact Hr.
  assert (0 < r ^ 3) by (apply pow_lt; exact Hr).
  unfold mean_motion. rewrite sqrt_div_alt by assumption.
  assert (0 < sqrt gm) by (apply sqrt_lt_R0; exact Hg). assert (0 < sqrt (r ^ 3)) by (apply sqrt_lt_R0; assumption).
  assert (0 < @TWO_PI R _ _) by (unfold TWO_PI; cbn [tpi TransR]; num_simpl; pose proof PI_RGT_0; lra).
  assert (0 < @DAY R _) by (unfold DAY, HOUR; num_simpl; lra).
  num_simpl. field. repeat split; lra.
Qed.
Lemma circle_obliquity w : 0 < w -> orbital_equatorial_inclination (F := R) x v (Vec 0 0 w) = 0.
Proof.
  intros Hw. pose proof circle_r as Hr. unfold orbital_equatorial_inclination.
  change (vcross x v) with (cross x v). rewrite circle_h.
  assert (S : 0 < sqrt (gm * r)) by (apply sqrt_lt_R0; nra).
  set (h := sqrt (gm * r)) in *. apply acos_clamp_1. vunfold. cbn [vx vy vz].
  assert (E : forall z, 0 < z -> sqrt (0 * 0 + 0 * 0 + z * z) = z).
  { intros z Hz. replace (0 * 0 + 0 * 0 + z * z) with (z * z) by ring. apply sqrt_square. lra. }
  rewrite (E h S), (E w Hw). replace (0 / h) with 0 by (field; lra). replace (h / h) with 1 by (field; lra).
  rewrite (E 1) by lra. field. lra.
Qed.
End Circle.

(** ** The torque *)
Lemma day_pos : 0 < @DAY R _.
Proof. unfold DAY, HOUR. num_simpl. lra. Qed.

Lemma upright_love (host p : particle R) x v w par : 0 < G * (p_mass host + p_mass p) ->
  circles (G * (p_mass host + p_mass p)) x v -> upright p x v w par -> 0 < w ->
  let gm := G * (p_mass host + p_mass p) in
  let els := keplerian_elements (F := R) gm x v in
  let o := kaula_orbit (F := R) host p els false in
  ob_a o = length3 x /\ ob_e o = 0 /\ ob_obliquity o = 0
  /\ love o par false (2/1) 0 0 = kaula_numbers (F := R) (2 * (mean_motion gm (length3 x) - w) / DAY) par false.
Proof.
  intros Hg C (U1 & U2 & _ & _ & _ & U6 & U7 & _) Hw gm els o.
  unfold love. cbn [o kaula_orbit ob_a ob_e ob_obliquity ob_spin ob_freq].
  rewrite U1, U2, U6, U7. split; [exact (circle_a gm x v Hg C)|]. split; [exact (circle_e gm x v Hg C)|].
  split; [exact (circle_obliquity gm x v Hg C w Hw)|].
  f_equal. unfold sigma_2mpq. num_simpl.
  pose proof (circle_freq gm x v Hg C) as E. unfold els. num_simpl. rewrite E.
  replace (w ^ 2) with (w * w) by ring. rewrite sqrt_square by lra. pose proof day_pos. field. lra.
Qed.

Theorem upright_torque `{Fuel} (host p : particle R) x v w par : 0 < G * (p_mass host + p_mass p) ->
  circles (G * (p_mass host + p_mass p)) x v -> upright p x v w par -> 0 < w ->
  exists f h' p' p'',
    kaula_force (F := R) host p false = Ok (f, h', p') /\ tides_planet_dL (F := R) h' p' = Ok p''
    /\ t_dL (p_tides p'')
       = Vec 0 0 (3 / 2 * G * p_mass host ^ 2 * p_radius p ^ 5 / length3 x ^ 6
           * snd (kaula_numbers (F := R) (2 * (mean_motion (G * (p_mass host + p_mass p)) (length3 x) - w) / DAY) par false)).
Proof.
  intros Hg C U Hw.
  destruct (upright_love host p x v w par Hg C U Hw) as (A & E & O & L).
  destruct U as (U1 & U2 & U3 & U4 & U5 & U6 & U7 & U8).
  pose proof (circle_r _ _ _ C) as Hr. pose proof (circle_rr _ _ _ C) as RR.
  unfold kaula_force. rewrite U8. cbn [kaula_of].
  cbn zeta. change (if false then host else p) with p. rewrite U1, U2, U3, U5.
  num_simpl.
  set (gm := G * (p_mass host + p_mass p)) in *. set (els := keplerian_elements (F := R) gm x v) in *.
  set (o := kaula_orbit (F := R) host p els false) in *.
  assert (N : kaula_normal (F := R) host p els false par = (0, 0)).
  { unfold kaula_normal. fold o. num_simpl. rewrite O, (proj2 (Rleb_true _ _)) by lra. reflexivity. }
  assert (Q : kaula_orthogonal (F := R) host p els false par
     = (- (3 / 2 * G * p_mass host ^ 2 * p_radius p ^ 5 / length3 x ^ 7
           * snd (kaula_numbers (F := R) (2 * (mean_motion gm (length3 x) - w) / DAY) par false)),
        - (3 / 2 * G * p_mass host ^ 2 * p_radius p ^ 5 / length3 x ^ 7
           * snd (kaula_numbers (F := R) (2 * (mean_motion gm (length3 x) - w) / DAY) par false)))).
  { unfold kaula_orthogonal. fold o. num_simpl. rewrite O, (proj2 (Rleb_true _ _)) by lra.
    unfold orthogonal_planar. rewrite E. num_simpl. rewrite (proj2 (Reqb_true _ _)) by reflexivity.
    unfold orthogonal_circular. num_simpl. rewrite L. destruct (kaula_numbers _ _ _) as [re im]. cbn [snd].
    rewrite A, U3, U4. unfold raised_by. cbn [npow]. num_simpl.
    assert (S1 : sqrt (vx x * vx x + vy x * vy x) = length3 x) by (rewrite <- RR; apply sqrt_square; lra).
    assert (S2 : sqrt (norm2 x) = length3 x) by reflexivity.
    replace (vx x * (vx x * 1) + vy x * (vy x * 1)) with (vx x * vx x + vy x * vy x) by ring.
    rewrite S1, S2. generalize (@G R _). intros g. f_equal; field; lra. }
  rewrite N, Q. destruct (kaula_radial host p els false par) as [ra rs].
  do 4 eexists. split; [reflexivity|].
  unfold tides_planet_dL. cbn [p_tides set_p_tides t_effect set_t_effect set_t_orth_planet]. rewrite U8.
  cbn [set_kaula model_torque]. unfold kaula_torque.
  cbn [p_tides set_p_tides t_effect set_t_effect set_t_orth_planet]. cbn [set_kaula rbind].
  split; [reflexivity|].
  cbn [on_tides p_tides set_p_tides t_dL set_t_dL t_pos set_t_effect set_t_orth_planet kl_force set_kl_force].
  rewrite U3. unfold spherical_to_cartesian. destruct C as (Zx & Zv & _).
  cbn [npow]. num_simpl.
  assert (S1 : sqrt (vx x * vx x + vy x * vy x) = length3 x).
  { rewrite <- RR. apply sqrt_square. lra. }
  rewrite S1, Zx. set (im := snd _). generalize (@G R _). intros g. clearbody im.
  set (r := length3 x) in *.
  unfold vcross, vscale. cbn [vx vy vz]. num_simpl. rewrite Zx.
  f_equal.
  - field. lra.
  - field. lra.
  - transitivity (3 / 2 * g * p_mass host ^ 2 * p_radius p ^ 5 / r ^ 8 * im * (vx x * vx x + vy x * vy x)); [field; lra|].
    rewrite <- RR. field. lra.
Qed.

(** ** The components of the force *)
Lemma force_components (host p : particle R) (central : bool) f h' p' :
  let planet := if central then host else p in
  let x := t_pos (p_tides planet) in
  let gm := G * (p_mass host + p_mass p) in
  let els := keplerian_elements (F := R) gm (p_hpos planet) (p_hvel planet) in
  kaula_force (F := R) host p central = Ok (f, h', p') ->
  t_distance (p_tides planet) = length3 x -> 0 < vx x * vx x + vy x * vy x ->
  exists par, kaula_of (t_effect (p_tides p)) = Some par
  /\ dot f (outwards x) = fst (kaula_radial (F := R) host p els central par)
  /\ dot f (southwards x) = fst (kaula_normal (F := R) host p els central par)
  /\ dot f (eastwards x) = fst (kaula_orthogonal (F := R) host p els central par)
  /\ let s := remembered p' in
     dot s (outwards x) = snd (kaula_radial (F := R) host p els central par)
     /\ dot s (southwards x) = snd (kaula_normal (F := R) host p els central par)
     /\ dot s (eastwards x) = snd (kaula_orthogonal (F := R) host p els central par).
Proof.
  intros planet x gm els E D P.
  unfold kaula_force in E. destruct (kaula_of (t_effect (p_tides p))) as [par|] eqn:K; [|discriminate].
  exists par. split; [reflexivity|]. fold planet in E. fold x in E. cbn zeta in E. rewrite D in E.
  revert E. num_simpl. fold gm. fold els.
  destruct (kaula_radial _ _ _ _ _) as [ra ra']. destruct (kaula_normal _ _ _ _ _) as [no no'].
  destruct (kaula_orthogonal _ _ _ _ _) as [eo eo']. cbn [fst snd]. intros E.
  pose proof (components x ra no eo P) as (A1 & A2 & A3 & _).
  pose proof (components x ra' no' eo' P) as (B1 & B2 & B3 & _).
  set (rho := sqrt (vx x * vx x + vy x * vy x)) in *.
  assert (Q : sqrt (npow (F := R) (vx x) 2 + npow (F := R) (vy x) 2) = rho).
  { unfold rho. f_equal. }
  rewrite Q in E.
  revert E. unfold kaula_of in K.
  set (F1 := spherical_to_cartesian (F := R) ra no eo _ _ _ _) in *.
  set (F2 := spherical_to_cartesian (F := R) ra' no' eo' _ _ _ _) in *.
  clearbody F1 F2. intros E.
  assert (W : f = F1 /\ remembered p' = F2).
  { destruct central; apply (f_equal (fun r => match r with Ok y => (fst (fst y), remembered (snd y)) | Panic _ => (f, remembered p') end)) in E;
      cbn [fst snd] in E; apply pair_equal_spec in E; destruct E as [E1 E2]; (split; [congruence|]); rewrite <- E2;
      unfold remembered; cbn [p_tides set_p_tides t_effect set_t_effect set_t_orth_planet];
      destruct (t_effect (p_tides p)) as [[? | ? | ?] | [? | ? | ?] |]; try discriminate; reflexivity. }
  destruct W as [-> ->]. repeat split; assumption.
Qed.

(** ** The sign of the torque *)
Section Sign.
Context `{FU : Fuel}.
Variables (host p : particle R) (x v : vec R) (w : R) (par : kaula_params R).
Hypothesis Hg : 0 < G * (p_mass host + p_mass p).
Hypothesis C : circles (G * (p_mass host + p_mass p)) x v.
Hypothesis U : upright p x v w par.
Hypothesis Hw : 0 < w.
Let n := mean_motion (G * (p_mass host + p_mass p)) (length3 x).
Variables (f : vec R) (h' p' p'' : particle R).
Hypothesis E1 : kaula_force (F := R) host p false = Ok (f, h', p').
Hypothesis E2 : tides_planet_dL (F := R) h' p' = Ok p''.

Lemma upright_value : t_dL (p_tides p'') = Vec 0 0 (3 / 2 * G * p_mass host ^ 2 * p_radius p ^ 5 / length3 x ^ 6
           * snd (kaula_numbers (F := R) (2 * (n - w) / DAY) par false)).
Proof.
  destruct (upright_torque host p x v w par Hg C U Hw) as (f0 & h0 & p0 & q0 & A & B & V).
  rewrite A in E1. assert (h0 = h' /\ p0 = p') as [-> ->] by (split; congruence).
  rewrite B in E2. assert (q0 = p'') as -> by congruence. exact V.
Qed.
Theorem upright_sign : dissipative par -> p_mass host <> 0 -> 0 < p_radius p ->
  (w < n -> 0 < vz (t_dL (p_tides p''))) /\ (n < w -> vz (t_dL (p_tides p'')) < 0).
Proof.
  intros D Hm Hr. rewrite upright_value. cbn [vz].
  assert (K : 0 < 3 / 2 * G * p_mass host ^ 2 * p_radius p ^ 5 / length3 x ^ 6).
  { pose proof G_pos as GP. pose proof (circle_r _ _ _ C) as R0.
    assert (0 < p_mass host ^ 2) by (rewrite <- Rsqr_pow2; apply Rsqr_pos_lt; exact Hm).
    assert (0 < p_radius p ^ 5) by (apply pow_lt; exact Hr). assert (0 < length3 x ^ 6) by (apply pow_lt; exact R0).
    apply Rdiv_lt_0_compat; [|assumption]. apply Rmult_lt_0_compat; [|assumption]. apply Rmult_lt_0_compat; [lra|assumption]. }
  pose proof day_pos as DP.
  destruct (numbers_sign (2 * (n - w) / DAY) par D) as [S1 S2]. split; intros H.
  - apply Rmult_lt_0_compat; [exact K|]. apply S1. apply Rmult_le_pos; [lra|]. apply Rlt_le, Rinv_0_lt_compat, DP.
  - assert (snd (kaula_numbers (F := R) (2 * (n - w) / DAY) par false) < 0).
    { apply S2. replace (2 * (n - w) / DAY) with (- (2 * (w - n) * / DAY)) by (field; lra).
      apply Ropp_lt_gt_0_contravar. apply Rmult_lt_0_compat; [lra|]. apply Rinv_0_lt_compat, DP. }
    nra.
Qed.
Theorem upright_synchronous : w = n -> dissipative par -> 0 <= nth 0 (kl_freq par) 0 ->
  vz (t_dL (p_tides p'')) = 3 / 2 * G * p_mass host ^ 2 * p_radius p ^ 5 / length3 x ^ 6 * nth 0 (kl_im par) 0.
Proof.
  intros H (_ & D & _) Hf. rewrite upright_value. cbn [vz]. replace (2 * (n - w) / DAY) with 0 by (rewrite H; unfold Rdiv; ring).
  rewrite numbers_zero by assumption. reflexivity.
Qed.
End Sign.

(** equally far from synchronism, equal and opposite *)
Theorem upright_opposite n d par : d <> 0 ->
  snd (kaula_numbers (F := R) (2 * (n - (n + d)) / DAY) par false)
  = - snd (kaula_numbers (F := R) (2 * (n - (n - d)) / DAY) par false).
Proof.
  intros Hd. pose proof day_pos.
  replace (2 * (n - (n + d)) / DAY) with (- (2 * (n - (n - d)) / DAY)) by (field; lra).
  rewrite numbers_flip; [reflexivity|]. replace (2 * (n - (n - d)) / DAY) with (2 * d * / DAY) by (field; lra).
  apply Rmult_integral_contrapositive. split; [lra|]. apply Rinv_neq_0_compat. lra.
Qed.

(** ** A planet for the examples: unit distance, unit masses *)
Definition up_v : vec R := Vec 0 (sqrt (G * (1 + 1))) 0.
Definition up_par : kaula_params R := KaulaParams [1 / 100000; 2] [3; 1] [1; 5] 2 (Vec 0 0 0).
Definition up_planet (w : R) : particle R :=
  set_p_spin2 (w ^ 2) (set_p_hdist 1 (set_p_tides (set_t_pos unit_pos (set_t_distance 1 (new_tides (TidesOrbiting (Kaula up_par)))))
   (new_particle 1 1 1 1 unit_pos up_v (Vec 0 0 w)))).
Lemma unit_length : length3 unit_pos = 1.
Proof. unfold length3, unit_pos. cbn [vx vy vz]. replace (1 * 1 + 0 * 0 + 0 * 0) with 1 by ring. apply sqrt_1. Qed.
Lemma up_circles : circles (G * (1 + 1)) unit_pos up_v.
Proof.
  pose proof G_pos as P. unfold circles. rewrite unit_length. unfold up_v, unit_pos, dot. cbn [vx vy vz].
  assert (S : sqrt (G * (1 + 1)) * sqrt (G * (1 + 1)) = G * (1 + 1)) by (apply sqrt_sqrt; lra).
  assert (S0 : 0 < sqrt (G * (1 + 1))) by (apply sqrt_lt_R0; lra). repeat split; lra.
Qed.
Lemma up_upright w : upright (up_planet w) unit_pos up_v w up_par.
Proof. unfold upright. rewrite unit_length. repeat split. Qed.
Lemma up_dissipative : dissipative up_par.
Proof.
  unfold dissipative, table, increasing. cbn [up_par kl_freq kl_re kl_im].
  assert (I : forall i j, (i < j < 2)%nat -> nth i [1 / 100000; 2] 0 < nth j [1 / 100000; 2] 0).
  { intros i j H. simpl in H. assert (i = 0 /\ j = 1)%nat as [-> ->] by lia. simpl. lra. }
  repeat split; try discriminate; try exact I. repeat constructor; lra.
Qed.
