(** Concrete relativistic systems *)
From Coq Require Import Reals Lra Psatz List Bool ZArith Arith Lia.
From Verif Require Import Base.Num Base.Vec Model.Constants Model.Particle Model.Relativity
  Proofs.NumLemmas Proofs.VecLemmas Proofs.QuadrupoleProofs Proofs.RelativityProofs Proofs.ShiftProofs Proofs.TablesExamples
  Proofs.TidesExamples Spec.EffectsSpec.
Import ListNotations.
Open Scope R_scope.

(** ** Two bodies at rest, one unit apart *)
Definition rest (e : gr_effect_t) (x a : R) : particle R :=
  set_p_iacc (Vec a 0 0) (set_p_gr (new_relativity e)
    (set_p_ipos (Vec x 0 0) (new_particle K2 1 1 (1/2) vzero vzero vzero))).
Lemma rest_mass e x a : p_mass (rest e x a) = 1. Proof. reflexivity. Qed.
Lemma rest_pos e x a : p_ipos (rest e x a) = Vec x 0 0. Proof. reflexivity. Qed.
Lemma rest_vel e x a : p_ivel (rest e x a) = vzero. Proof. reflexivity. Qed.
Lemma rest_acc e x a : p_iacc (rest e x a) = Vec a 0 0. Proof. reflexivity. Qed.

Lemma norm_x (x : R) : sqrt (norm2 (Vec x 0 0)) = Rabs x.
Proof. replace (norm2 (Vec x 0 0)) with (Rsqr x) by (vunfold; unfold Rsqr; ring). apply sqrt_Rsqr_abs. Qed.

(** the sum over the pair, from either body; [s] is the direction of the other *)
Section Pair.
  Variables (a b : particle R) (i j : nat) (s t : R).
  Hypotheses (ma : p_mass a = 1) (mb : p_mass b = 1) (va : p_ivel a = vzero) (vb : p_ivel b = vzero).
  Hypotheses (on : pair_on a b = true) (ij : Nat.eqb i j = false).
  Hypotheses (dab : vsub (p_ipos a) (p_ipos b) = Vec s 0 0) (s1 : Rabs s = 1).
  Lemma ss : s * s = 1.
  Proof. unfold Rabs in s1. destruct (Rcase_abs s); nra. Qed.
  Lemma pair_dr : newhall_dr i j a b = Vec s 0 0.
  Proof. unfold newhall_dr. rewrite ij, on. exact dab. Qed.
  Lemma pair_r : newhall_r i j a b = 1.
  Proof. unfold newhall_r. rewrite ij, on. cbn [negb andb]. rewrite dab. num_simpl. rewrite norm_x. exact s1. Qed.
  Lemma pair_term c (f : R -> R) old : vadd c old = Vec t 0 0 -> Nat.eqb j i = false ->
    newhall_pair i a vzero (j, (b, c, old)) = Vec (4 * G * t / SPEED_OF_LIGHT_2) 0 0.
  Proof.
    intros E ji. unfold newhall_pair. rewrite ji, on, pair_dr, pair_r, mb, E.
    pose proof c2_ne as Hc. unfold each. vunfold. num_simpl.
    revert Hc. generalize (@SPEED_OF_LIGHT_2 R _), (@G R _). intros c2 g Hc. pose proof ss as S.
    f_equal; [|field; lra|field; lra].
    replace (g * 1 * s / (1 * 1 * 1) * (s * t + 0 * 0 + 0 * 0) / (2 / 1 * c2)) with (g * t * (s * s) / (2 * c2)) by (field; lra).
    rewrite S. field. lra.
  Qed.
  Lemma pair_const a1 a2 : forall (bodies : list (particle R)), Nat.eqb j i = false ->
    sum_other bodies i (fun k c => (#4 / SPEED_OF_LIGHT_2 * G * p_mass c / newhall_r i k a c)%num) = a1 ->
    sum_other bodies j (fun m c => (n1 / SPEED_OF_LIGHT_2 * G * p_mass c / newhall_r m j c b)%num) = a2 ->
    newhall_const_pair bodies i a vzero (j, b) = Vec (G * s * (a1 + a2)) 0 0.
  Proof.
    intros bodies ji E1 E2. unfold newhall_const_pair. rewrite ji, on, E1, E2, pair_dr, pair_r, mb, va, vb.
    pose proof c2_ne as Hc. unfold each. vunfold. num_simpl.
    revert Hc. generalize (@SPEED_OF_LIGHT_2 R _), (@G R _). intros c2 g Hc.
    f_equal; field; lra.
  Qed.
End Pair.

Section TwoBodies.
  Variables (h p : particle R) (x : R).
  Hypotheses (mh : p_mass h = 1) (mp : p_mass p = 1) (vh : p_ivel h = vzero) (vp : p_ivel p = vzero).
  Hypotheses (xh : p_ipos h = Vec x 0 0) (xp : p_ipos p = Vec (x + 1) 0 0).
  Hypotheses (on : pair_on h p = true).
  Notation k := (G * G / SPEED_OF_LIGHT_2).
  Lemma on' : pair_on p h = true.
  Proof. unfold pair_on in *. now rewrite orb_comm. Qed.
  Lemma dhp : vsub (p_ipos h) (p_ipos p) = Vec (-1) 0 0.
  Proof. rewrite xh, xp. vunfold. f_equal; ring. Qed.
  Lemma dph : vsub (p_ipos p) (p_ipos h) = Vec 1 0 0.
  Proof. rewrite xh, xp. vunfold. f_equal; ring. Qed.
  Lemma r01 : newhall_r 0 1 h p = 1.
  Proof. apply pair_r with (s := -1); auto using dhp. rewrite Rabs_left; lra. Qed.
  Lemma r10 : newhall_r 1 0 p h = 1.
  Proof. apply pair_r with (s := 1); auto using dph, on'. rewrite Rabs_right; lra. Qed.
  Lemma consts :
    map (fun ib => newhall_const [h; p] (fst ib) (snd ib)) (enumerate [h; p])
    = [Vec (-5 * k) 0 0; Vec (5 * k) 0 0].
  Proof.
    pose proof c2_ne as Hc.
    unfold enumerate. cbn [length seq combine map fst snd]. unfold newhall_const, enumerate.
    cbn [length seq combine fold_left].
    assert (E0 : newhall_const_pair [h; p] 0 h vzero (0%nat, h) = vzero) by reflexivity. rewrite E0.
    assert (E1 : newhall_const_pair [h; p] 0 h vzero (1%nat, p) = Vec (-5 * k) 0 0).
    { erewrite (pair_const h p 0 1 (-1)); [| auto | auto | auto | auto | auto | apply dhp | rewrite Rabs_left; lra | auto | |].
      2:{ unfold sum_other, enumerate. cbn [length seq combine fold_left fst snd Nat.eqb]. rewrite r01, mp. reflexivity. }
      2:{ unfold sum_other, enumerate. cbn [length seq combine fold_left fst snd Nat.eqb]. rewrite r01, mh. reflexivity. }
      num_simpl. f_equal. field. exact Hc. }
    rewrite E1.
    assert (E2 : newhall_const_pair [h; p] 1 p vzero (0%nat, h) = Vec (5 * k) 0 0).
    { erewrite (pair_const p h 1 0 1); [| auto | auto | auto | apply on' | auto | apply dph | rewrite Rabs_right; lra | auto | |].
      2:{ unfold sum_other, enumerate. cbn [length seq combine fold_left fst snd Nat.eqb]. rewrite r10, mh. reflexivity. }
      2:{ unfold sum_other, enumerate. cbn [length seq combine fold_left fst snd Nat.eqb]. rewrite r10, mp. reflexivity. }
      num_simpl. f_equal. field. exact Hc. }
    rewrite E2. reflexivity.
  Qed.
  Lemma two_sweep t0 t1 c0 c1 o0 o1 :
    newhall_sweep [h; p] [Vec t0 0 0; Vec t1 0 0] [Vec c0 0 0; Vec c1 0 0] [Vec o0 0 0; Vec o1 0 0]
    = [Vec (c0 + 4 * G * (t1 + o1) / SPEED_OF_LIGHT_2) 0 0; Vec (c1 + 4 * G * (t0 + o0) / SPEED_OF_LIGHT_2) 0 0].
  Proof.
    unfold newhall_sweep, enumerate. cbn [length seq combine map fold_left].
    assert (E0 : newhall_pair 0 h vzero (0%nat, (h, Vec t0 0 0, Vec o0 0 0)) = vzero) by reflexivity. rewrite E0.
    rewrite (pair_term h p 0 1 (-1) (t1 + o1)); auto using dhp.
    2:{ rewrite Rabs_left; lra. } 2:{ vunfold. f_equal; ring. }
    rewrite (pair_term p h 1 0 1 (t0 + o0)); auto using dph, on'.
    2:{ rewrite Rabs_right; lra. } 2:{ vunfold. f_equal; ring. }
    assert (E1 : forall v, newhall_pair 1 p v (1%nat, (p, Vec t1 0 0, Vec o1 0 0)) = v) by reflexivity. rewrite E1.
    vunfold. repeat (f_equal; try ring).
  Qed.
End TwoBodies.

Lemma G_bounds : / 10000 < @G R _ < / 1000.
Proof. unfold G, G_MERCURY, G_SI, AU, M_SUN, DAY, HOUR. num_simpl. lra. Qed.
Lemma c_bounds : 100 < @SPEED_OF_LIGHT R _ < 1000.
Proof. unfold SPEED_OF_LIGHT, AU, DAY, HOUR. num_simpl. lra. Qed.
Lemma c2_bounds : 10000 < @SPEED_OF_LIGHT_2 R _ < 1000000.
Proof. pose proof c_bounds. unfold SPEED_OF_LIGHT_2. num_simpl. nra. Qed.
Definition k12 : R := @G R _ * @G R _ / SPEED_OF_LIGHT_2.
Lemma k12_bounds : / 100000000000000 < k12 < / 1000.
Proof.
  pose proof G_bounds as [G1 G2]. pose proof c2_bounds as [C1 C2]. unfold k12.
  revert G1 G2 C1 C2. generalize (@G R _), (@SPEED_OF_LIGHT_2 R _). intros g c2 G1 G2 C1 C2.
  assert (/ 100000000 < g * g < / 1000000) by nra.
  split.
  - apply Rmult_lt_reg_r with c2; [lra|]. replace (g * g / c2 * c2) with (g * g) by (field; lra). lra.
  - apply Rmult_lt_reg_r with c2; [lra|]. replace (g * g / c2 * c2) with (g * g) by (field; lra). lra.
Qed.

Definition hst (x a : R) := rest (GrCentral Newhall1983) x a.
Definition plt (x a : R) := rest GrOrbiting (x + 1) a.
Definition hst' (x a : R) : particle R := set_gr_coords vzero vzero n0 n0 n0 n0 (hst x a).
Definition plt' (x a : R) : particle R :=
  set_gr_coords (vsub (p_ipos (plt x a)) (p_ipos (hst x a))) (vsub (p_ivel (plt x a)) (p_ivel (hst x a)))
    (nsqrt (norm2 (vsub (p_ipos (plt x a)) (p_ipos (hst x a)))))
    (vdot (vsub (p_ipos (plt x a)) (p_ipos (hst x a))) (vsub (p_ivel (plt x a)) (p_ivel (hst x a)))
      / nsqrt (norm2 (vsub (p_ipos (plt x a)) (p_ipos (hst x a)))))%num
    (nsqrt (norm2 (vsub (vsub (p_ivel (plt x a)) (p_ivel (hst x a))) vzero)))
    (norm2 (vsub (vsub (p_ivel (plt x a)) (p_ivel (hst x a))) vzero)) (plt x a).
Lemma prepared_two x a b : gr_prepare (hst x a) [plt x b] = (hst' x a, [set_p_iacc (Vec b 0 0) (plt' x a)]).
Proof. reflexivity. Qed.

Lemma sweep_first h p x (t0 t1 : R) :
  p_mass h = 1 -> p_mass p = 1 -> p_ivel h = vzero -> p_ivel p = vzero ->
  p_ipos h = Vec x 0 0 -> p_ipos p = Vec (x + 1) 0 0 -> pair_on h p = true -> gr_orbiting p = true ->
  forall ig, newtonian_accelerations ig h [p] = (Vec t0 0 0, [Vec t1 0 0]) ->
  limit_30 <= Rabs (-5 * k12 + 4 * G * t1 / SPEED_OF_LIGHT_2) ->
  limit_30 <= Rabs (5 * k12 + 4 * G * t0 / SPEED_OF_LIGHT_2) ->
  map relativistic_acc (let '(h', l') := newhall ig h [p] in h' :: l') =
  [Vec (-5 * k12 + 4 * G * t1 / SPEED_OF_LIGHT_2) 0 0; Vec (5 * k12 + 4 * G * t0 / SPEED_OF_LIGHT_2) 0 0].
Proof.
  intros mh mp vh vp xh xp on op ig En L0 L1. unfold newhall. rewrite En, (consts h p x) by assumption.
  fold k12.
  assert (Es : newhall_sweep [h; p] [Vec t0 0 0; Vec t1 0 0] [Vec (-5 * k12) 0 0; Vec (5 * k12) 0 0] (map (fun _ => vzero) [h; p])
    = [Vec (-5 * k12 + 4 * G * t1 / SPEED_OF_LIGHT_2) 0 0; Vec (5 * k12 + 4 * G * t0 / SPEED_OF_LIGHT_2) 0 0]).
  { change (map (fun _ => vzero) [h; p]) with [Vec 0 0 0; Vec 0 0 (0:R)]. rewrite (two_sweep h p x) by assumption.
    now rewrite !Rplus_0_r. }
  rewrite newhall_once.
  - rewrite Es. cbn [hd tl combine map fst snd]. rewrite op. reflexivity.
  - rewrite Es. unfold vec_not_tiny, not_tiny.
    constructor; [|constructor; [|constructor]]; cbn [vx vy vz]; auto.
Qed.

Lemma newton_far (x : R) : Rabs (x - 1) = 1 ->
  newtonian_accelerations WHFastTwo (hst' x 0) [set_p_iacc (Vec 0 0 0) (plt' x 0)]
  = (Vec (- G * (x - 1)) 0 0, [Vec (G * (x - 1)) 0 0]).
Proof.
  intros H1. unfold newtonian_accelerations. cbn [length map combine firstn fold_left skipn app].
  unfold skipped_pair. cbn [fst snd].
  assert (Ed : vsub (p_ipos (hst' x 0)) (gr_pos (p_gr (set_p_iacc (Vec 0 0 0) (plt' x 0)))) = Vec (x - 1) 0 0).
  { change (p_ipos (hst' x 0)) with (Vec x 0 (0:R)).
    change (gr_pos (p_gr (set_p_iacc (Vec 0 0 0) (plt' x 0)))) with (vsub (Vec (x + 1) 0 0) (Vec x 0 (0:R))).
    vunfold. f_equal; ring. }
  rewrite Ed. change (p_iacc (hst' x 0)) with (Vec 0 0 (0:R)).
  change (p_iacc (set_p_iacc (Vec 0 0 0) (plt' x 0))) with (Vec 0 0 (0:R)).
  change (p_mass (set_p_iacc (Vec 0 0 0) (plt' x 0))) with 1. change (p_mass (hst' x 0)) with 1.
  change (@nsqrt R NumR) with sqrt. rewrite norm_x, H1.
  assert (En : norm2 (Vec (x - 1) 0 0) = 1).
  { vunfold. unfold Rabs in H1. destruct (Rcase_abs (x - 1)); nra. }
  rewrite En. vunfold. num_simpl. cbn [app].
  assert (EV : forall a b c a' b' c' : R, a = a' -> b = b' -> c = c' -> Vec a b c = Vec a' b' c') by (intros; congruence).
  apply f_equal2; [|apply f_equal2; [|reflexivity]]; apply EV; field.
Qed.
Lemma far_away x : Rabs (x - 1) = 1 -> limit_30 <= Rabs (-5 * k12 + 4 * k12 * (x - 1)) ->
  map relativistic_acc (let '(h', l') := relativity_pass WHFastTwo (hst x 0) [plt x 0] in h' :: l') =
  [Vec (-5 * k12 + 4 * k12 * (x - 1)) 0 0; Vec (5 * k12 - 4 * k12 * (x - 1)) 0 0].
Proof.
  intros H1 HL. unfold relativity_pass. rewrite prepared_two.
  cbv beta iota. change (gr_effect (p_gr (hst' x 0))) with (GrCentral Newhall1983). cbv iota.
  pose proof c2_ne as Hc.
  assert (E1 : 4 * G * (G * (x - 1)) / SPEED_OF_LIGHT_2 = 4 * k12 * (x - 1)) by (unfold k12; field; exact Hc).
  assert (E0 : 4 * G * (- G * (x - 1)) / SPEED_OF_LIGHT_2 = - (4 * k12 * (x - 1))) by (unfold k12; field; exact Hc).
  rewrite (sweep_first (hst' x 0) _ x (- G * (x - 1)) (G * (x - 1))); try reflexivity.
  - rewrite E0, E1. reflexivity.
  - apply newton_far. exact H1.
  - rewrite E1. exact HL.
  - rewrite E0. replace (5 * k12 + - (4 * k12 * (x - 1))) with (- (-5 * k12 + 4 * k12 * (x - 1))) by ring.
    rewrite Rabs_Ropp. exact HL.
Qed.
Lemma shifted_rest e x a s : shifted (Vec s 0 0) (rest e x a) = rest e (x + s) a.
Proof.
  unfold shifted. rewrite rest_pos. replace (vadd (Vec x 0 0) (Vec s 0 0)) with (Vec (x + s) 0 0) by (vunfold; f_equal; ring).
  reflexivity.
Qed.
Lemma first_of (r : particle R * list (particle R)) a k :
  map relativistic_acc (let '(h', l') := r in h' :: l') = a :: k -> relativistic_acc (fst r) = a.
Proof. destruct r as [h l]. cbn [map fst]. congruence. Qed.
Lemma origin_matters :
  let acc := fun r : particle R * list (particle R) => relativistic_acc (fst r) in
  acc (relativity_pass WHFastTwo (shifted (Vec 2 0 0) (hst 0 0)) [shifted (Vec 2 0 0) (plt 0 0)]) = Vec (- k12) 0 0 /\
  acc (relativity_pass WHFastTwo (hst 0 0) [plt 0 0]) = Vec (-9 * k12) 0 0.
Proof.
  pose proof k12_bounds as [K1 K2]. pose proof (eq_refl limit_30) as L0. unfold limit_30 at 2 in L0. cbn zeta. split.
  - assert (E : relativity_pass WHFastTwo (shifted (Vec 2 0 0) (hst 0 0)) [shifted (Vec 2 0 0) (plt 0 0)]
              = relativity_pass WHFastTwo (hst 2 0) [plt 2 0]).
    { unfold hst, plt. rewrite !shifted_rest. replace (0 + 2) with 2 by ring.
      replace (0 + 1 + 2) with (2 + 1) by ring. reflexivity. }
    rewrite E.
    assert (Hm : map relativistic_acc (let '(h', l') := relativity_pass WHFastTwo (hst 2 0) [plt 2 0] in h' :: l') =
      [Vec (-5 * k12 + 4 * k12 * (2 - 1)) 0 0; Vec (5 * k12 - 4 * k12 * (2 - 1)) 0 0]).
    { apply far_away. { rewrite Rabs_right; lra. } rewrite Rabs_left; lra. }
    apply first_of in Hm. rewrite Hm. f_equal; ring.
  - assert (Hm : map relativistic_acc (let '(h', l') := relativity_pass WHFastTwo (hst 0 0) [plt 0 0] in h' :: l') =
      [Vec (-5 * k12 + 4 * k12 * (0 - 1)) 0 0; Vec (5 * k12 - 4 * k12 * (0 - 1)) 0 0]).
    { apply far_away. { rewrite Rabs_left; lra. } rewrite Rabs_left; lra. }
    apply first_of in Hm. rewrite Hm. f_equal; ring.
Qed.

(** one sweep, although a second one would move the result *)
Lemma stops_early :
  exists r0 r1,
    map relativistic_acc (let '(h', l') := relativity_pass IgnoreNone (hst 0 G) [plt 0 (- G)] in h' :: l') = [r0; r1] /\
    exists n0 n1,
      newhall_sweep [hst 0 G; plt 0 (- G)] [p_iacc (hst 0 G); p_iacc (plt 0 (- G))]
        (map (fun ib => newhall_const [hst 0 G; plt 0 (- G)] (fst ib) (snd ib)) (enumerate [hst 0 G; plt 0 (- G)]))
        [r0; r1] = [n0; n1] /\
      / 10000000000 * Rabs (vx r0) < Rabs (vx n0 - vx r0).
Proof.
  pose proof k12_bounds as [K1 K2]. pose proof G_bounds as [G1 G2]. pose proof c2_bounds as [C1 C2]. pose proof c2_ne as Hc.
  pose proof (eq_refl limit_30) as L0. unfold limit_30 at 2 in L0.
  assert (E1 : 4 * G * - G / SPEED_OF_LIGHT_2 = - (4 * k12)) by (unfold k12; field; exact Hc).
  assert (E0 : 4 * G * G / SPEED_OF_LIGHT_2 = 4 * k12) by (unfold k12; field; exact Hc).
  exists (Vec (-5 * k12 + 4 * G * - G / SPEED_OF_LIGHT_2) 0 0), (Vec (5 * k12 + 4 * G * G / SPEED_OF_LIGHT_2) 0 0). split.
  - unfold relativity_pass. rewrite prepared_two. cbv beta iota.
    change (gr_effect (p_gr (hst' 0 G))) with (GrCentral Newhall1983). cbv iota.
    apply (sweep_first (hst' 0 G) (set_p_iacc (Vec (- G) 0 0) (plt' 0 G)) 0); try reflexivity.
    + rewrite E1. rewrite Rabs_left; lra.
    + rewrite E0. rewrite Rabs_right; lra.
  - eexists _, _. split.
    + rewrite (consts (hst 0 G) (plt 0 (- G)) 0) by reflexivity.
      change (p_iacc (hst 0 G)) with (Vec (@G R _) 0 0). change (p_iacc (plt 0 (- G))) with (Vec (- @G R _) 0 0).
      rewrite (two_sweep (hst 0 G) (plt 0 (- G)) 0) by reflexivity. reflexivity.
    + cbn [vx]. fold k12. rewrite E1, E0.
      replace (-5 * k12 + 4 * G * (- G + (5 * k12 + 4 * k12)) / SPEED_OF_LIGHT_2 - (-5 * k12 + - (4 * k12)))
        with (36 * k12 * (G / SPEED_OF_LIGHT_2)) by (unfold k12; field; exact Hc).
      assert (B : / 10000000000 < @G R _ / SPEED_OF_LIGHT_2).
      { revert G1 G2 C1 C2. generalize (@G R _), (@SPEED_OF_LIGHT_2 R _). intros g c2 G1 G2 C1 C2.
        apply Rmult_lt_reg_r with c2; [lra|]. replace (g / c2 * c2) with g by (field; lra). lra. }
      revert B. generalize (@G R _ / SPEED_OF_LIGHT_2). intros u B.
      rewrite Rabs_left by lra. rewrite Rabs_right by nra. nra.
Qed.

(** ** The spin-orbit terms *)
Definition turn345 (v : vec R) : vec R := Vec (3/5 * vx v - 4/5 * vy v) (4/5 * vx v + 3/5 * vy v) (vz v).
Definition q345 : isometry.
Proof.
  refine {| iso := turn345 |}; unfold turn345.
  - vring.
  - vring.
  - intros. vdestruct. vunfold. field.
Defined.
Lemma q345_proper : proper q345.
Proof. intros a b. cbn [iso q345]. unfold turn345. vdestruct. vunfold. f_equal; field. Qed.

Definition spinning (e : gr_effect_t) (x v spin : vec R) : particle R :=
  set_p_gr (new_relativity e) (set_p_ivel v (set_p_ipos x (set_p_spin spin (set_p_inertia 1
    (new_particle K2 1 1 (1/2) vzero vzero vzero))))).
Definition gyro : particle R := spinning (GrCentral Kidder1995) vzero vzero (Vec 1 0 0).
Definition moon : particle R := spinning GrOrbiting (Vec 1 0 0) (Vec 0 0 1) vzero.

Section SpinOrbit.
  Variables (h p : particle R) (s n v : vec R) (d : R).
  Hypotheses (mh : p_mass h = 1) (mp : p_mass p = 1) (ih : p_inertia h = 1) (sh : p_spin h = s) (sp : p_spin p = vzero).
  Hypotheses (xp : gr_pos (p_gr p) = n) (vp : gr_vel (p_gr p) = v) (dp : gr_distance (p_gr p) = d)
    (rp : gr_radial_velocity (p_gr p) = 0) (d0 : d <> 0).
  Lemma so_value :
    kidder_spin_orbit h p = vscale (G / SPEED_OF_LIGHT_2)
      (vsub (Vec (12 * (vx n / d) * ((vy n / d * vz v - vz n / d * vy v) * vx s))
                 (12 * (vy n / d) * ((vz n / d * vx v - vx n / d * vz v) * vy s))
                 (12 * (vz n / d) * ((vx n / d * vy v - vy n / d * vx v) * vz s)))
            (vcross v (vscale 7 s))).
  Proof.
    unfold kidder_spin_orbit, spin_momentum. rewrite mh, mp, ih, sh, sp, xp, vp, dp, rp.
    pose proof c2_ne as Hc. revert Hc. generalize (@SPEED_OF_LIGHT_2 R _), (@G R _). intros c2 g Hc.
    clear - d0 Hc. unfold each. destruct n as [nx ny nz], v as [wx wy wz], s as [a b c]. vunfold. num_simpl.
    generalize (p_inertia p); intros ip. apply vec_eq; cbn [vx vy vz]; field; split; auto; lra.
  Qed.
End SpinOrbit.

Lemma moon_distance : sqrt (norm2 (vsub (p_ipos moon) (p_ipos gyro))) = 1.
Proof.
  change (p_ipos moon) with (Vec 1 0 (0:R)). change (p_ipos gyro) with (Vec 0 0 (0:R)).
  replace (vsub (Vec 1 0 0) (Vec 0 0 0)) with (Vec 1 0 (0:R)) by (vunfold; f_equal; ring).
  rewrite norm_x, Rabs_right; lra.
Qed.
Lemma moon_offset : vsub (p_ipos moon) (p_ipos gyro) = Vec 1 0 (0:R).
Proof.
  change (p_ipos moon) with (Vec 1 0 (0:R)). change (p_ipos gyro) with (Vec 0 0 (0:R)). vunfold. f_equal; ring.
Qed.
Lemma moon_speed : vsub (p_ivel moon) (p_ivel gyro) = Vec 0 0 (1:R).
Proof.
  change (p_ivel moon) with (Vec 0 0 (1:R)). change (p_ivel gyro) with (Vec 0 0 (0:R)). vunfold. f_equal; ring.
Qed.
Lemma prep_pos h p : gr_pos (p_gr (prep h p)) = vsub (p_ipos p) (p_ipos h). Proof. reflexivity. Qed.
Lemma prep_vel h p : gr_vel (p_gr (prep h p)) = vsub (p_ivel p) (p_ivel h). Proof. reflexivity. Qed.
Lemma prep_dist h p : gr_distance (p_gr (prep h p)) = sqrt (norm2 (vsub (p_ipos p) (p_ipos h))). Proof. reflexivity. Qed.
Lemma prep_rv h p : gr_radial_velocity (p_gr (prep h p)) =
  vdot (vsub (p_ipos p) (p_ipos h)) (vsub (p_ivel p) (p_ivel h)) / sqrt (norm2 (vsub (p_ipos p) (p_ipos h))).
Proof. reflexivity. Qed.

Lemma moon_so : kidder_spin_orbit (prep_host gyro) (prep gyro moon) = Vec 0 (-7 * (G / SPEED_OF_LIGHT_2)) 0.
Proof.
  rewrite (so_value _ _ (Vec 1 0 0) (Vec 1 0 0) (Vec 0 0 1) 1); try reflexivity.
  - cbn [vx vy vz]. vunfold. generalize (@G R _ / @SPEED_OF_LIGHT_2 R _). intros u.
    apply vec_eq; cbn [vx vy vz]; field.
  - rewrite prep_pos. apply moon_offset.
  - rewrite prep_vel. apply moon_speed.
  - rewrite prep_dist. apply moon_distance.
  - rewrite prep_rv, moon_distance, moon_offset, moon_speed. vunfold. field.
  - lra.
Qed.
Lemma moon_so_turned :
  vx (kidder_spin_orbit (prep_host (turned q345 gyro)) (prep (turned q345 gyro) (turned q345 moon)))
  <> vx (iso q345 (kidder_spin_orbit (prep_host gyro) (prep gyro moon))).
Proof.
  destruct (prep_turned q345 gyro moon) as (E1 & E2 & E3 & E4 & _).
  rewrite (prep_pos gyro moon), moon_offset in E1. rewrite (prep_vel gyro moon), moon_speed in E2. rewrite (prep_dist gyro moon), moon_distance in E3.
  assert (E5 : gr_radial_velocity (p_gr (prep gyro moon)) = 0).
  { rewrite prep_rv, moon_distance, moon_offset, moon_speed. vunfold. field. }
  rewrite E5 in E4.
  rewrite (so_value _ _ (turn345 (Vec 1 0 0)) (turn345 (Vec 1 0 0)) (turn345 (Vec 0 0 1)) 1);
    [|reflexivity|reflexivity|reflexivity|reflexivity| |exact E1|exact E2| |exact E4|lra].
  2:{ change (p_spin (prep (turned q345 gyro) (turned q345 moon))) with (turn345 (Vec 0 0 0)).
      unfold turn345. vunfold. f_equal; ring. }
  2:{ exact E3. }
  rewrite moon_so. cbn [iso q345]. unfold turn345. cbn [vx vy vz]. vunfold.
  pose proof G_bounds as [G1 _]. pose proof c2_bounds as [C1 _].
  assert (P : 0 < @G R _ / SPEED_OF_LIGHT_2) by (apply Rdiv_lt_0_compat; lra).
  revert P. generalize (@G R _ / @SPEED_OF_LIGHT_2 R _). intros u P. nra.
Qed.

Lemma all_accs host l : is_kidder host ->
  exists host' l', kidder_pass host l = (host', l') /\
    map relativistic_acc l' =
      map (fun p => if gr_orbiting p then kidder_all (prep_host host) (prep host p) else relativistic_acc p) l.
Proof.
  intros K. unfold kidder_pass. rewrite (prepare_eq host l K).
  destruct (all_eq (prep_host host) (map (fun p => if gr_orbiting p then prep host p else p) l)) as (h' & E & _).
  eexists _, _. split; [exact E|].
  rewrite !map_map. apply map_ext. intros p. destruct (gr_orbiting p) eqn:Ep.
  - rewrite prep_orbiting, Ep. unfold relativistic_acc. apply done_all_acc.
  - now rewrite Ep.
Qed.
Lemma moon_turned :
  exists host' l' host2 l2,
    kidder_pass gyro [moon] = (host', l') /\
    kidder_pass (turned q345 gyro) (map (turned q345) [moon]) = (host2, l2) /\
    map relativistic_acc l2 <> map (fun b => iso q345 (relativistic_acc b)) l'.
Proof.
  destruct (all_accs gyro [moon] eq_refl) as (h1 & l1 & E1 & A1).
  destruct (all_accs (turned q345 gyro) (map (turned q345) [moon]) eq_refl) as (h2 & l2 & E2 & A2).
  exists h1, l1, h2, l2. split; [exact E1|]. split; [exact E2|].
  rewrite <- (map_map relativistic_acc (iso q345)), A1, A2.
  cbn [map]. change (gr_orbiting moon) with true. change (gr_orbiting (turned q345 moon)) with true. cbv iota.
  unfold kidder_all. rewrite two_turned, iso_add. intros X. apply (f_equal (hd vzero)) in X. cbn [hd] in X.
  apply moon_so_turned. apply (f_equal vx) in X. unfold vadd, vmap2 in X. cbn [vx] in X.
  change (@nadd R NumR) with Rplus in X. lra.
Qed.

(** a companion twice as far away feels the same spin-orbit acceleration *)
Definition far_moon : particle R := spinning GrOrbiting (Vec 2 0 0) (Vec 0 0 1) vzero.
Lemma far_offset : vsub (p_ipos far_moon) (p_ipos gyro) = Vec 2 0 (0:R).
Proof.
  change (p_ipos far_moon) with (Vec 2 0 (0:R)). change (p_ipos gyro) with (Vec 0 0 (0:R)). vunfold. f_equal; ring.
Qed.
Lemma far_distance : sqrt (norm2 (Vec 2 0 (0:R))) = 2.
Proof. rewrite norm_x, Rabs_right; lra. Qed.
Lemma far_speed : vsub (p_ivel far_moon) (p_ivel gyro) = Vec 0 0 (1:R).
Proof.
  change (p_ivel far_moon) with (Vec 0 0 (1:R)). change (p_ivel gyro) with (Vec 0 0 (0:R)). vunfold. f_equal; ring.
Qed.
Lemma far_so : kidder_spin_orbit (prep_host gyro) (prep gyro far_moon) = Vec 0 (-7 * (G / SPEED_OF_LIGHT_2)) 0.
Proof.
  rewrite (so_value _ _ (Vec 1 0 0) (Vec 2 0 0) (Vec 0 0 1) 2); try reflexivity.
  - cbn [vx vy vz]. vunfold. generalize (@G R _ / @SPEED_OF_LIGHT_2 R _). intros u.
    apply vec_eq; cbn [vx vy vz]; field.
  - rewrite prep_pos. apply far_offset.
  - rewrite prep_vel. apply far_speed.
  - rewrite prep_dist, far_offset. apply far_distance.
  - rewrite prep_rv, far_offset, far_distance, far_speed. vunfold. field.
  - lra.
Qed.
Lemma far_reference : kidder_so G SPEED_OF_LIGHT_2 (p_mass gyro) (p_mass far_moon) (rotation_momentum gyro)
    (rotation_momentum far_moon) (vsub (p_ipos far_moon) (p_ipos gyro)) (vsub (p_ivel far_moon) (p_ivel gyro))
  = Vec 0 (-7 / 8 * (G / SPEED_OF_LIGHT_2)) 0.
Proof.
  rewrite far_offset, far_speed.
  change (p_mass gyro) with 1. change (p_mass far_moon) with 1. change (rotation_momentum gyro) with (vscale 1 (Vec 1 0 (0:R))).
  change (rotation_momentum far_moon) with (vscale 1 (Vec 0 0 (0:R))).
  unfold kidder_so. rewrite far_distance. pose proof c2_ne as Hc. revert Hc.
  generalize (@G R _), (@SPEED_OF_LIGHT_2 R _). intros g c2 Hc. cbv zeta.
  assert (E1 : vdot (Vec 2 0 (0:R)) (Vec 0 0 1) / 2 = 0) by (vunfold; lra). rewrite E1.
  assert (E2 : vscale (/ 2) (Vec 2 0 (0:R)) = Vec 1 0 0) by (vunfold; f_equal; lra). rewrite E2.
  assert (E3 : vadd (vscale 1 (Vec 1 0 (0:R))) (vscale 1 (Vec 0 0 0)) = Vec 1 0 0) by (vunfold; f_equal; lra). rewrite E3.
  assert (E4 : vscale ((1 - 1) / (1 + 1) * (1 + 1)) (vsub (vscale (/ 1) (vscale 1 (Vec 0 0 (0:R)))) (vscale (/ 1) (vscale 1 (Vec 1 0 0)))) = Vec 0 0 (0:R))
    by (vunfold; f_equal; field). rewrite E4.
  assert (E5 : vcross (Vec 1 0 (0:R)) (Vec 0 0 1) = Vec 0 (-1) 0) by (vunfold; f_equal; ring). rewrite E5.
  assert (E6 : vdot (Vec 0 (-1) (0:R)) (vadd (vscale 2 (Vec 1 0 0)) (Vec 0 0 0)) = 0) by (vunfold; ring). rewrite E6.
  assert (E7 : vcross (Vec 0 0 (1:R)) (vadd (vscale 7 (Vec 1 0 0)) (vscale 3 (Vec 0 0 0))) = Vec 0 7 0) by (vunfold; f_equal; ring). rewrite E7.
  assert (E8 : vcross (Vec 1 0 (0:R)) (vadd (vscale 3 (Vec 1 0 0)) (Vec 0 0 0)) = Vec 0 0 0) by (vunfold; f_equal; ring). rewrite E8.
  vunfold. f_equal; field; exact Hc.
Qed.
Lemma so_differs :
  kidder_spin_orbit (prep_host gyro) (prep gyro far_moon) <>
  kidder_so G SPEED_OF_LIGHT_2 (p_mass gyro) (p_mass far_moon) (rotation_momentum gyro)
    (rotation_momentum far_moon) (vsub (p_ipos far_moon) (p_ipos gyro)) (vsub (p_ivel far_moon) (p_ivel gyro)).
Proof.
  rewrite far_so, far_reference. pose proof G_bounds as [G1 _]. pose proof c2_bounds as [C1 _].
  assert (P : 0 < @G R _ / SPEED_OF_LIGHT_2) by (apply Rdiv_lt_0_compat; lra).
  revert P. generalize (@G R _ / @SPEED_OF_LIGHT_2 R _). intros u P X. injection X. lra.
Qed.

(** the second order comes out larger than Kidder's by the square of the speed of light *)
Definition lamp : particle R := rest (GrCentral Kidder1995) 0 0.
Definition moth : particle R := rest GrOrbiting 1 0.
Lemma lamp_apart : apart lamp moth.
Proof.
  unfold apart. change (p_ipos lamp) with (Vec 0 0 (0:R)). change (p_ipos moth) with (Vec 1 0 (0:R)).
  intros X. injection X. lra.
Qed.
Lemma second_differs :
  apart lamp moth /\
  kidder_second (prep_host lamp) (prep lamp moth) <>
  kidder_2pn SPEED_OF_LIGHT_2 (p_mass_g lamp + p_mass_g moth) (eta_of lamp moth)
    (vsub (p_ipos moth) (p_ipos lamp)) (vsub (p_ivel moth) (p_ivel lamp)).
Proof.
  split; [exact lamp_apart|]. rewrite second_formula by exact lamp_apart.
  assert (Eo : vsub (p_ipos moth) (p_ipos lamp) = Vec 1 0 (0:R)).
  { change (p_ipos lamp) with (Vec 0 0 (0:R)). change (p_ipos moth) with (Vec 1 0 (0:R)). vunfold. f_equal; ring. }
  assert (Ev : vsub (p_ivel moth) (p_ivel lamp) = Vec 0 0 (0:R)).
  { change (p_ivel lamp) with (Vec 0 0 (0:R)). change (p_ivel moth) with (Vec 0 0 (0:R)). vunfold. f_equal; ring. }
  rewrite Eo, Ev. unfold kidder_2pn. rewrite norm_x, (Rabs_right 1) by lra.
  assert (Ee : eta_of lamp moth = 1 / 4).
  { unfold eta_of. change (p_mass_g lamp) with (1 * @K2 R _). change (p_mass_g moth) with (1 * @K2 R _).
    pose proof K2_pos. field. lra. }
  assert (Em : p_mass_g lamp + p_mass_g moth = 2 * K2).
  { change (p_mass_g lamp) with (1 * @K2 R _). change (p_mass_g moth) with (1 * @K2 R _). ring. }
  rewrite Ee, Em. pose proof K2_pos as P. pose proof c2_bounds as [C1 _]. revert P C1.
  generalize (@K2 R _), (@SPEED_OF_LIGHT_2 R _). intros g c2 P C1 X.
  apply (f_equal vx) in X. vunfold. cbn [pow] in X.
  match type of X with _ = ?b =>
    assert (E : b = - (231 / 2) * (g * g * g) / (c2 * c2)) by (field; lra) end.
  rewrite E in X. clear E.
  assert (Q : 0 < g * g * g / (c2 * c2)).
  { apply Rdiv_lt_0_compat; [|nra]. apply Rmult_lt_0_compat; [|lra]. nra. }
  replace (- (231 / 2) * (g * g * g) / (c2 * c2)) with (- (231/2) * (g * g * g / (c2 * c2))) in X by (field; lra).
  revert X Q. generalize (g * g * g / (c2 * c2)). intros. nra.
Qed.

(** ** Bodies without the effect *)
Section Filter.
  Context {F : Type} `{Num F}.
  Local Open Scope num_scope.
  Lemma fold_skip {A B} (f : A -> bool) (step : B -> A -> B) l : forall b,
    fold_left (fun b x => if f x then step b x else b) (filter f l) b
    = fold_left (fun b x => if f x then step b x else b) l b.
  Proof.
    induction l as [|x l IH]; intro b; [reflexivity|]. cbn [filter fold_left].
    destruct (f x) eqn:E; cbn [fold_left]; rewrite ?E; apply IH.
  Qed.
  Lemma filter_map_if (f : particle F -> bool) (g : particle F -> particle F) l : (forall x, f (g x) = f x) ->
    map (fun p => if f p then g p else p) (filter f l) = filter f (map (fun p => if f p then g p else p) l).
  Proof.
    intros Hg. induction l as [|x l IH]; [reflexivity|]. cbn [filter map].
    destruct (f x) eqn:E; cbn [map]; rewrite ?E; cbn [filter]; rewrite ?Hg, ?E, IH; reflexivity.
  Qed.
  Lemma kidder_sum_filter f (host : particle F) l :
    kidder_sum f host (filter gr_orbiting l) = kidder_sum f host l.
  Proof. apply (fold_skip gr_orbiting (fun s p => vadd s (vscale (p_mass p / p_mass host) (f host p)))). Qed.
  Definition pass_F (host : particle F) (l : list (particle F)) :=
    let '(host, l) := gr_inertial_to_heliocentric host l in
    let '(host, l) := gr_initialize host l in kidder host l.
  (** holds of the floating-point computation itself: the bodies are skipped *)
  Lemma kidder_disabled (host : particle F) l :
    exists host' l', pass_F host l = (host', l') /\ pass_F host (filter gr_orbiting l) = (host', filter gr_orbiting l').
  Proof.
    assert (S1 : forall (h : particle F) l, gr_inertial_to_heliocentric h (filter gr_orbiting l)
      = (fst (gr_inertial_to_heliocentric h l), filter gr_orbiting (snd (gr_inertial_to_heliocentric h l)))).
    { intros h k. unfold gr_inertial_to_heliocentric. destruct (gr_implemented h); [|reflexivity].
      cbn [fst snd]. f_equal. apply filter_map_if. reflexivity. }
    assert (S2 : forall (h : particle F) l, gr_initialize h (filter gr_orbiting l)
      = (fst (gr_initialize h l), filter gr_orbiting (snd (gr_initialize h l)))).
    { intros h k. unfold gr_initialize. destruct (gr_effect (p_gr h)) as [[]| |]; try reflexivity;
      cbn [fst snd]; f_equal; apply filter_map_if; reflexivity. }
    assert (S3 : forall (h : particle F) l, kidder_1 h (filter gr_orbiting l)
      = (fst (kidder_1 h l), filter gr_orbiting (snd (kidder_1 h l)))).
    { intros h k. unfold kidder_1. rewrite kidder_sum_filter. cbn [fst snd]. f_equal. apply filter_map_if. reflexivity. }
    assert (S4 : forall (h : particle F) l, kidder_2 h (filter gr_orbiting l)
      = (fst (kidder_2 h l), filter gr_orbiting (snd (kidder_2 h l)))).
    { intros h k. unfold kidder_2. rewrite kidder_sum_filter. cbn [fst snd]. f_equal. apply filter_map_if. reflexivity. }
    assert (S5 : forall (h : particle F) l, kidder_3 h (filter gr_orbiting l)
      = (fst (kidder_3 h l), filter gr_orbiting (snd (kidder_3 h l)))).
    { intros h k. unfold kidder_3. rewrite kidder_sum_filter. cbn [fst snd]. f_equal.
      - rewrite (fold_skip gr_orbiting (fun s p => vadd s (kidder_host_torque h p))). reflexivity.
      - apply filter_map_if. reflexivity. }
    unfold pass_F, kidder. rewrite S1. destruct (gr_inertial_to_heliocentric host l) as [h1 l1]. cbn [fst snd].
    rewrite S2. destruct (gr_initialize h1 l1) as [h2 l2]. cbn [fst snd].
    rewrite S3. destruct (kidder_1 h2 l2) as [h3 l3]. cbn [fst snd].
    rewrite S4. destruct (kidder_2 h3 l3) as [h4 l4]. cbn [fst snd].
    rewrite S5. destruct (kidder_3 h4 l4) as [h5 l5]. cbn [fst snd]. eauto.
  Qed.
End Filter.

(** two bodies without the effect make the Newhall acceleration of the others infinite
    or not a number *)
Section F64.
  Definition gr64 (e : gr_effect_t) (x y : f64) : particle f64 :=
    set_p_gr (new_relativity e) (set_p_ipos (Vec x y n0) (set_p_ivel (Vec n0 (q64 1 100) n0)
      (new_particle (q64 1 1) (q64 1 1) (q64 1 10) (q64 1 2) vzero vzero vzero))).
  Definition bad64 (x : f64) : bool := negb (x - x =? x - x)%num.
  Definition newhall_bad (h : particle f64) (l : list (particle f64)) : bool :=
    let '(h, l) := gr_inertial_to_heliocentric h l in
    let '(h, _) := newhall IgnoreNone h l in
    let a := gr_acc (p_gr h) in bad64 (vx a) || bad64 (vy a) || bad64 (vz a).
  Definition nh := gr64 (GrCentral Newhall1983) n0 n0.
  Definition n1_ := gr64 GrOrbiting (q64 1 1) n0.
  Definition n2_ := gr64 GrDisabled (q64 2 1) (q64 1 2).
  Definition n3_ := gr64 GrDisabled (q64 3 1) (q64 1 3).
  Lemma newhall_two_disabled : newhall_bad nh [n1_; n2_; n3_] = true /\ newhall_bad nh [n1_; n2_] = false.
  Proof. split; vm_compute; reflexivity. Qed.
End F64.
