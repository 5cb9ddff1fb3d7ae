(** * A star and a planet on a circular orbit, integrated with WHFast (non-vacuity of C62 to C64) *)
From Coq Require Import Reals List Bool Lra Lia Arith Permutation.
From Verif Require Import Base.Num Base.Result Base.Trans Base.Vec Model.Constants Model.Particle Model.Host
  Model.Creep Model.Relativity Model.Universe Model.WHFast
  Spec.EffectsSpec Spec.UniverseSpec Spec.WHFastSpec Spec.SplittingSpec Proofs.NumLemmas Proofs.VecLemmas Proofs.GravityProofs Proofs.LeapFrogProofs
  Proofs.FrameProofs Proofs.EffectSums Proofs.UniverseExamples Proofs.WHFastCoords Proofs.WHFastRun Proofs.WHFastStep Proofs.MidpointProofs Proofs.WHFastExamples
  Proofs.SplittingCoords Proofs.SplittingProofs Proofs.KeplerTotal Proofs.WHFastTotal.
Import ListNotations.
Open Scope R_scope.

Lemma stumpff_near_ok (i : Fuel) (z : R) c : Rabs z <= 1/10 -> stumpff_cs3 z = Ok c -> c = stumpff_small z.
Proof.
  intros Z E. destruct (@fuel i) as [|n] eqn:Ef.
  - unfold stumpff_cs3 in E. rewrite Ef in E. discriminate E.
  - rewrite (stumpff_near z Z i) in E by lia. congruence.
Qed.
(** the first Kepler step of a circular orbit *)
Lemma circular_drift (i : Fuel) h mu w x' v' : 0 < h -> 0 < w -> w * w = G * mu -> w * w * (h * h) <= 1/10 ->
  drift h mu (Vec 1 0 0) (Vec 0 w 0) x' v' -> 1/2 <= norm2 x' <= 3.
Proof.
  intros Hh Hw Em Z (a & a' & Ex & Ev & <- & _ & E). unfold kepler_step in E. rewrite Ex, Ev in E. cbn zeta in E.
  assert (K : kepler_setup (G * mu) h (Vec 1 0 0) (Vec 0 w 0) = Kepler (w * w) h 1 (w * w) 0 0 (w * w)).
  { unfold kepler_setup. assert (N1 : norm2 (Vec 1 0 0) = 1) by (vunfold; ring). assert (N2 : norm2 (Vec 0 w 0) = w * w) by (vunfold; ring).
    assert (N3 : vdot (Vec 1 0 0) (Vec 0 w 0) = 0) by (vunfold; ring). rewrite N1, N2, N3. num_simpl. rewrite sqrt_1, <- Em. f_equal; field. }
  rewrite K in E. revert E. unfold solve_kepler. cbn zeta. cbn [k_beta k_r0 k_dt k_eta0 k_mu]. num_simpl.
  rewrite (proj2 (Rltb_true 0 (w * w))) by nra. cbn [andb].
  replace (h * (1 / 1) * (1 - h * (1 / 1) * 0 * (5 / 10) * (1 / 1))) with h by field.
  assert (Sq : npow h 2 = h * h) by (cbn [npow]; num_simpl; ring).
  assert (Za : Rabs (w * w * npow h 2) <= 1/10) by (rewrite Sq, Rabs_pos_eq; [exact Z|apply Rmult_le_pos; apply Rle_0_sqr]).
  destruct (stiefel_gs3 (w * w) h) as [g|] eqn:Eg; [|discriminate]. cbn [rbind].
  assert (U : newton_update (Kepler (w * w) h 1 (w * w) 0 0 (w * w)) g h = h).
  { unfold newton_update, radius_inverse. cbn [k_beta k_r0 k_dt k_eta0 k_zeta0]. num_simpl. field. }
  rewrite U. rewrite (proj2 (Rltb_false _ _)).
  2:{ unfold nabs. rewrite Rminus_diag_eq by reflexivity. rewrite Rabs_R0. change (@tpi R TransR) with PI. pose proof PI_RGT_0. 
      replace (w * w) with (Rsqr w) by reflexivity. rewrite sqrt_Rsqr by lra. apply Rmult_le_pos; [lra|]. apply Rmult_le_pos; [lra|]. left. now apply Rinv_0_lt_compat. }
  cbn [WHFAST_NMAX_NEWT Nat.sub WHFast.newton k_beta]. rewrite Eg. cbn [rbind]. rewrite U. num_simpl.
  rewrite (proj2 (Reqb_true _ _)) by reflexivity. cbn [orb rbind].
  assert (Ri : radius_inverse (Kepler (w * w) h 1 (w * w) 0 0 (w * w)) g = 1).
  { unfold radius_inverse. cbn [k_beta k_r0 k_dt k_eta0 k_zeta0]. num_simpl. field. }
  rewrite Ri, (proj2 (Reqb_true 1 1)) by reflexivity. cbn [negb rbind fst snd].
  intro E. injection E as <-. cbn [a_pos set_a_pos set_a_vel k_mu k_dt k_r0].
  unfold stiefel_gs3 in Eg. destruct (stumpff_cs3 _) as [c|] eqn:Ec; [|discriminate Eg]. apply stumpff_near_ok in Ec; [|exact Za].
  destruct (base_bound _ Za) as (B1 & B2).
  assert (C : cs2 c = snd (stumpff_base (w * w * npow h 2)) /\ cs3 c = fst (stumpff_base (w * w * npow h 2))).
  { rewrite Ec. unfold stumpff_small. destruct (stumpff_base _). auto. }
  clear Ec. revert C B1 B2. generalize (fst (stumpff_base (w * w * npow h 2))) (snd (stumpff_base (w * w * npow h 2))). intros co ce (C2 & C3) B1 B2.
  cbn [rbind] in Eg. injection Eg as <-. cbn [cs2 cs3]. rewrite C2, C3.
  vunfold. cbn [npow]. num_simpl.
  assert (Zp : 0 <= w * w * (h * h)) by (apply Rmult_le_pos; apply Rle_0_sqr). set (z := w * w * (h * h)) in *.
  assert (A : -1 <= co <= 1) by (split; revert B1; unfold Rabs; destruct (Rcase_abs co); lra).
  assert (B : -1 <= ce <= 1) by (split; revert B2; unfold Rabs; destruct (Rcase_abs ce); lra).
  set (n := _ + _ + _).
  assert (En : n = (1 - z * ce) * (1 - z * ce) + z * ((1 - z * co) * (1 - z * co))) by (unfold n, z; field).
  rewrite En. assert (X1 : -1/10 <= z * ce <= 1/10) by nra. assert (X2 : -1/10 <= z * co <= 1/10) by nra. clearbody z n.
  set (p := z * ce) in *. set (q := z * co) in *. clearbody p q. split; nra.
Qed.

(** a star of mass 1 at rest and a planet of mass 1/10 on a circle of radius 1 around it *)
Definition orbital_speed : R := sqrt (G * (11/10)).
Definition circ_u : universe R :=
  Universe 0 1 [at_ vzero vzero sun; at_ (Vec 1 0 0) (Vec 0 orbital_speed 0) earth] [] [] no_effects GrImplDisabled
    (Hosts 0 NO_HOST NO_HOST NO_HOST NO_HOST true false false false false) [] [[0; 0]; [0; 0]].
Lemma G_small : G <= 1/1000.
Proof.
  unfold G, G_MERCURY, G_SI, AU, M_SUN, DAY, HOUR. num_simpl.
  match goal with |- ?g / (?a * ?a * ?a) * ?m * ?d <= _ => replace (g / (a * a * a) * m * d) with (g * m * d * / (a * a * a)) by (unfold Rdiv; ring);
    apply (Rmult_le_reg_r (a * a * a)); [repeat apply Rmult_lt_0_compat; lra|]; rewrite Rmult_assoc, Rinv_l by (apply Rgt_not_eq; repeat apply Rmult_lt_0_compat; lra) end.
  lra.
Qed.
Lemma circ_square : roche_square circ_u.
Proof. split; [reflexivity|]. repeat constructor. Qed.
Lemma circ_ready c : ready (new_whfast circ_u c).
Proof.
  split; [reflexivity|]. split; [repeat split|]. split; [reflexivity|]. split; [repeat constructor|].
  eexists. split; [reflexivity|]. change (except _ _) with [at_ (Vec 1 0 0) (Vec 0 orbital_speed 0) earth]. destruct c; cbn [w_type new_whfast usable].
  - intros [|[|k]]; unfold total_mass; cbn; lra.
  - unfold total_mass. cbn. split; lra.
  - unfold total_mass. cbn. split; [lra|]. split; [lra|]. repeat constructor; cbn; lra.
Qed.
Lemma circ_masses_g : masses_g circ_u.
Proof. repeat constructor; cbn -[G]; num_simpl; ring. Qed.
Lemma circ_positive : positive circ_u.
Proof. repeat constructor; cbn; lra. Qed.
Lemma circ_inertias : inertias circ_u.
Proof. repeat constructor; cbn; num_simpl; lra. Qed.

Lemma first_two ig (x1 : vec R) r1 m1 x2 r2 m2 : let d2 := norm2 (vsub x1 x2) in
  0 < d2 -> (r1 + r2) * (r1 + r2) < d2 -> d2 <= MAX_DISTANCE_2 ->
  exists accs, gravities ig 0 [(x1, r1, m1); (x2, r2, m2)] [[0; 0]; [0; 0]] = Ok accs.
Proof.
  intros d2 Hd Hr Hm. unfold gravities, gon, gp, gravity_pair.
  cbn [enumerate combine length seq rmap rfold Nat.eqb Nat.ltb Nat.leb rbind p_ipos p_radius p_mass set_p_ipos set_p_radius set_p_mass npow].
  assert (E : vx (vsub x1 x2) * vx (vsub x1 x2) + vy (vsub x1 x2) * vy (vsub x1 x2) + vz (vsub x1 x2) * vz (vsub x1 x2) = d2).
  { unfold d2. destruct x1, x2. vunfold. ring. }
  num_simpl. rewrite E.
  rewrite (proj2 (Rleb_false d2 (0 * 0))) by lra. rewrite (proj2 (Rleb_false d2 ((r1 + r2) * (r1 + r2)))) by exact Hr.
  rewrite (proj2 (Rltb_false MAX_DISTANCE_2 d2)) by exact Hm. rewrite !andb_false_r.
  destruct (gravity_ignored ig 0 0 1), (gravity_ignored ig 0 1 0); cbn [rbind]; eauto.
Qed.

Definition whole (p : particle R) : R * vec R * vec R * R := (mxv p, p_radius p).
Section Circ.
  Context `{Fuel}.
  (** after the first half step the bodies are neither touching nor far from each other *)
  Lemma circ_half (w1 w2 : whfast R) : velocity_dependent 0 1 (integrate_spin circ_u) true (new_whfast circ_u Jacobi) = Ok w1 -> part1 1 w1 = Ok w2 ->
    exists p q, u_particles (w_u w2) = [p; q] /\ 1/2 <= norm2 (vsub (p_ipos p) (p_ipos q)) <= 3 /\ p_radius p = 1/100 /\ p_radius q = 1/100
      /\ u_hosts (w_u w2) = u_hosts circ_u /\ u_roche (w_u w2) = [[0; 0]; [0; 0]].
  Proof.
    intros E1 E2. destruct (circ_ready Jacobi) as (Hp & Sz & Lr & Hz & _).
    pose proof (velocity_dependent_plain _ _ _ _ _ _ Hp Sz Hz E1) as (V1 & _).
    set (view := fun p : particle R => (p_radius p, p_mass_g p)).
    assert (Bg : forall u : universe R, plain u -> blind_step (u_effects u) view) by (intros u Hu; apply plain_blind; auto; red; reflexivity).
    pose proof (velocity_dependent_view view _ _ _ _ _ _ Sz (Bg _ Hp) (fun _ _ => eq_refl) (fun _ _ _ => eq_refl) E1) as (G1 & (T1e & T1h & T1g & T1r) & (Z1 & _) & Y1 & _).
    cbn [w_u new_whfast] in V1, G1, T1h, T1r. change (u_particles circ_u) with [at_ vzero vzero sun; at_ (Vec 1 0 0) (Vec 0 orbital_speed 0) earth] in V1, G1.
    cbn [w_type new_whfast] in Y1.
    destruct (u_particles (w_u w1)) as [|s [|e [|]]] eqn:P1; try discriminate V1.
    assert (S1 : mxv s = (1, vzero, vzero)) by (injection V1 as A1 A2 A3 B1 B2 B3; unfold mxv; rewrite A1, A2, A3; reflexivity).
    assert (S2 : mxv e = (1/10, Vec 1 0 0, Vec 0 orbital_speed 0)) by (injection V1 as A1 A2 A3 B1 B2 B3; unfold mxv; rewrite B1, B2, B3; reflexivity).
    assert (S3 : view s = (1/100, G * 1) /\ view e = (1/100, G * (1/10))).
    { cbn [map] in G1. apply cons_eq in G1 as [A B]. apply cons_eq in B as [B _]. rewrite A, B. unfold view. cbn -[G]. num_simpl. split; f_equal; ring. }
    clear V1 G1. unfold mxv in S1, S2. injection S1 as Ms Xs Vs. injection S2 as Me Xe Ve. destruct S3 as (S3 & S4). unfold view in S3, S4. apply pair_equal_spec in S3 as [Rs Gs]. apply pair_equal_spec in S4 as [Re Ge].
    assert (N1 : nth_error (u_particles (w_u w1)) (h_most_massive (u_hosts (w_u w1))) = Some s) by (rewrite P1, T1h; reflexivity).
    assert (O1 : except (h_most_massive (u_hosts (w_u w1))) (u_particles (w_u w1)) = [e]) by (rewrite P1, T1h; reflexivity).
    assert (U1 : usable (w_type w1) s (except (h_most_massive (u_hosts (w_u w1))) (u_particles (w_u w1)))).
    { rewrite O1, Y1. cbn [usable]. intros [|[|k]]; unfold total_mass; cbn; rewrite ?Ms, ?Me; num_simpl; lra. }
    assert (Mg1 : masses_g (w_u w1)) by (unfold masses_g; rewrite P1; repeat constructor; rewrite ?Gs, ?Ge, ?Ms, ?Me; reflexivity).
    rewrite <- P1 in Z1.
    destruct (part1_splits 1 w1 w2 s Z1 N1 U1 Mg1 E2) as (a & s3 & o3 & g3 & K1 & K2 & P2 & _ & _).
    rewrite O1, Y1 in *. pose proof (part1_view view _ _ _ (conj (fun _ _ => eq_refl) (conj (fun _ _ => eq_refl) (fun _ _ => eq_refl))) Z1 E2) as (G2 & (T2e & T2h & T2g & T2r) & _).
    rewrite P1 in G2.
    set (b := inertial Jacobi s3 o3) in *. change (@inertial) with (@inertial) in K2.
    rewrite T1h in P2. change (h_most_massive (u_hosts circ_u)) with O in P2.
    assert (Pb : u_particles (w_u w2) = fst b :: snd b) by exact P2. rewrite Pb in G2 |- *.
    destruct b as [p [|q [|]]]; cbn [fst snd] in *; try discriminate G2. clear P2.
    exists p, q. split; [reflexivity|].
    assert (Mb : p_mass p = 1 /\ p_mass q = 1/10).
    { destruct K1 as (K1 & _), K2 as (K2 & _). unfold same_masses, all in K1, K2. cbn [map fst snd] in K1, K2. rewrite K1, Ms, Me in K2. injection K2 as -> ->. auto. }
    destruct Mb as (Mp & Mq).
    split; [|split; [|split; [|split]]].
    2:{ injection G2 as A1 A2 B1 B2. congruence. }
    2:{ injection G2 as A1 A2 B1 B2. congruence. }
    2:{ now rewrite T2h, T1h. }
    2:{ now rewrite T2r, T1r. }
    (* the position of the planet seen from the star *)
    assert (Rel : forall f (x y : particle R), p_mass x <> 0 -> pos_frame Jacobi f (x, [y]) = [vsub (f y) (f x)]).
    { intros f x y Mx. cbn [pos_frame jacobi_frame fst snd]. f_equal. f_equal. unfold mean, total_mass, weighted. cbn [map]. unfold Vsum, Rsum. cbn [fold_right]. destruct (f x). vunfold. num_simpl. f_equal; field; lra. }
    destruct a as [sa oa]. destruct K2 as (M2 & _ & _ & _ & X2). destruct K1 as (M1 & _ & _ & D1).
    unfold same_masses, all in M1, M2. cbn [map fst snd] in M1, M2.
    destruct oa as [|ea [|]]; try discriminate M2. assert (Msa : p_mass sa = 1) by (injection M1 as -> _; exact Ms).
    unfold positions, velocities in X2, D1. cbn [vel_frame] in X2, D1. change jacobi_frame with jacobi_frame in *.
    change (jacobi_frame p_ivel [fst (sa, [ea])] (snd (sa, [ea]))) with (pos_frame Jacobi p_ivel (sa, [ea])) in X2, D1.
    change (jacobi_frame p_ivel [fst (s, [e])] (snd (s, [e]))) with (pos_frame Jacobi p_ivel (s, [e])) in D1.
    rewrite !Rel in X2 by lra. rewrite !Rel in D1 by lra.
    cbn [zip_with3 combine map fst snd] in X2. apply cons_eq in X2 as [X2 _].
    inversion D1 as [|mu x v x' v' mus xs vs xs' vs' D _ A1 A2 A3 A4 A5]. subst.
    assert (N : norm2 (vsub (p_ipos p) (p_ipos q)) = norm2 (vsub (p_ipos ea) (p_ipos sa))).
    { transitivity (norm2 (vsub (p_ipos q) (p_ipos p))); [destruct (p_ipos p), (p_ipos q); vunfold; ring|]. rewrite X2. destruct (p_ipos ea), (p_ipos sa), (p_ivel ea), (p_ivel sa). vunfold. ring. }
    rewrite N. eapply circular_drift with (h := 1) (mu := p_mass s + p_mass e) (w := orbital_speed); [lra| | | |].
    - apply sqrt_lt_R0. pose proof G_positive. lra.
    - unfold orbital_speed. rewrite sqrt_sqrt by (pose proof G_positive; lra). rewrite Ms, Me. f_equal. lra.
    - unfold orbital_speed. rewrite sqrt_sqrt by (pose proof G_positive; lra). pose proof G_small. lra.
    - cbn [kepler_masses inner_masses fst snd] in D. rewrite Xs, Xe, Vs, Ve in D.
      replace (vsub (Vec 1 0 0) vzero) with (Vec 1 0 0) in D by (vunfold; f_equal; ring).
      replace (vsub (Vec 0 orbital_speed 0) vzero) with (Vec 0 orbital_speed 0) in D by (vunfold; f_equal; ring). exact D.
  Qed.
End Circ.
Theorem circ_runs : exists w', settles (fun i => wh_step (H2 := i) 0 2 1 (new_whfast circ_u Jacobi)) (Ok w').
Proof.
  destruct (step_outcome 0 2 1 (new_whfast circ_u Jacobi)) as (r & S & [(w' & ->)|(p & i & w1 & w2 & -> & _ & E1 & E2 & E3)]);
    [apply circ_ready|exact circ_square|exact circ_masses_g|exact circ_positive|exact circ_inertias|lra|eauto|].
  exfalso. destruct (circ_half w1 w2 E1 E2) as (a & b & P & D & Ra & Rb & Hh & Hr).
  revert E3. unfold gravity. rewrite P, Hr, Hh. cbn [length Nat.eqb]. change (h_most_massive (u_hosts circ_u)) with O. rewrite gravities_view. cbn [map gview].
  destruct (first_two (ignored (w_type w2)) (p_ipos a) (p_radius a) (p_mass a) (p_ipos b) (p_radius b) (p_mass b)) as (accs & Ea).
  - lra.
  - rewrite Ra, Rb. lra.
  - unfold MAX_DISTANCE_2, MAX_DISTANCE. num_simpl. lra.
  - unfold gview. rewrite Ea. cbn [rbind]. discriminate.
Qed.
