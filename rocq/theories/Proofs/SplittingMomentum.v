(** * Angular momentum in the parts of a WHFast step (C63) *)
From Coq Require Import Reals List Bool Lra Lia Arith Permutation.
From Verif Require Import Base.Num Base.Result Base.Trans Base.Vec Model.Constants Model.Particle Model.Host
  Model.Creep Model.Relativity Model.Universe Model.WHFast
  Spec.EffectsSpec Spec.UniverseSpec Spec.WHFastSpec Spec.SplittingSpec Proofs.NumLemmas Proofs.VecLemmas Proofs.GravityProofs Proofs.LeapFrogProofs
  Proofs.FrameProofs Proofs.EffectSums Proofs.WHFastCoords Proofs.WHFastRun Proofs.WHFastStep Proofs.SplittingCoords Proofs.SplittingProofs.
Import ListNotations.
Open Scope R_scope.

Definition cmasses (c : coordinates) (s : system) : list R := coordinate_masses c (fst s) (snd s).
(** the bilinear form behind the angular momentum *)
Lemma bilinear c f g (s : system) : usable c (fst s) (snd s) ->
  vadd (vscale (total_mass (all s)) (vcross (mean f (all s)) (mean g (all s)))) (cross_sum (cmasses c s) (pos_frame c f s) (vel_frame c g s))
  = Vsum (map (fun p => vscale (p_mass p) (vcross (f p) (g p))) (all s)).
Proof.
  destruct s as [p l]. unfold all, cmasses. cbn [fst snd]. destruct c; cbn [usable coordinate_masses pos_frame vel_frame fst snd].
  - intro U. change (p :: l) with ([p] ++ l). rewrite (jacobi_cross f g l [p]) by exact U.
    cbn [app map Vsum fold_right]. f_equal. destruct (single_sums p) as [T W].
    pose proof (sums_ok_self [p] l U) as E. unfold mean. rewrite !W, T in *. rewrite !vscale_scale, !Rinv_l, !vscale_1 by exact E. reflexivity.
  - intros (E0 & E). rewrite (cross_sum_maps p_mass). apply helio_cross. exact E.
  - intros (E0 & E & EW). rewrite (cross_sum_maps (fun q => p_mass q * p_mass p / (p_mass p + p_mass q))).
    rewrite <- (helio_cross p f g l E). f_equal. f_equal. apply map_ext_in. intros q Hq.
    rewrite Forall_forall in EW. specialize (EW q Hq). unfold all. cbn [fst snd]. rewrite vcross_scale_r, vscale_scale. f_equal. field. auto.
Qed.
Lemma orbital_split c s : usable c (fst s) (snd s) ->
  orbital_momentum (all s) = vadd (vscale (total_mass (all s)) (vcross (mean p_ipos (all s)) (mean p_ivel (all s)))) (internal_momentum c s).
Proof. intro U. symmetry. exact (bilinear c p_ipos p_ivel s U). Qed.

Lemma cmasses_view c s s' : map p_mass (all s') = map p_mass (all s) -> cmasses c s' = cmasses c s.
Proof.
  destruct s as [p l], s' as [q k]. unfold all, cmasses. cbn [fst snd map]. intro E. apply cons_eq in E as [E1 E2].
  destruct c; cbn [coordinate_masses].
  - assert (X : forall l k i j, map p_mass l = map p_mass k -> total_mass i = total_mass j -> jacobi_masses i l = jacobi_masses j k).
    { clear. induction l as [|x l IH]; intros [|y k] i j A B; try discriminate; cbn [map jacobi_masses] in *; [reflexivity|].
      apply cons_eq in A as [A1 A2]. rewrite !total_snoc, A1, B. f_equal. apply IH; [exact A2|]. rewrite !total_snoc. congruence. }
    apply X; [exact E2|]. unfold total_mass. cbn [map Rsum fold_right]. now rewrite E1.
  - exact E2.
  - rewrite E1. now apply (map_of_masses (fun m => m * p_mass p / (p_mass p + m))).
Qed.
Lemma cmasses_len c s : length (cmasses c s) = length (snd s).
Proof.
  destruct s as [p l]. unfold cmasses. cbn [fst snd]. destruct c; cbn [coordinate_masses]; rewrite ?map_length; try reflexivity.
  generalize [p]. induction l as [|x l IH]; intro i; cbn [jacobi_masses length]; [reflexivity|]. now rewrite IH.
Qed.
Lemma pos_len c f s : length (pos_frame c f s) = length (snd s).
Proof. destruct c; cbn [pos_frame]; rewrite ?map_length; try reflexivity. apply jacobi_frame_length. Qed.
Lemma vel_len c f s : length (vel_frame c f s) = length (snd s).
Proof. destruct c; cbn [vel_frame]; rewrite ?map_length; try reflexivity. apply jacobi_frame_length. Qed.
Lemma usable_seen c s s' : map p_mass (all s') = map p_mass (all s) -> usable c (fst s) (snd s) -> usable c (fst s') (snd s').
Proof.
  destruct s as [p l], s' as [q k]. unfold all. cbn [fst snd map]. intro E. apply cons_eq in E as [E1 E2].
  apply usable_masses; congruence.
Qed.

Lemma cross_sum_cons m x y ms xs ys : cross_sum (m :: ms) (x :: xs) (y :: ys) = vadd (vscale m (vcross x y)) (cross_sum ms xs ys).
Proof. reflexivity. Qed.
Lemma cross_sum_moved h ms : forall (q v r : list (vec R)), length q = length ms -> length v = length ms -> length r = length ms ->
  cross_sum ms (zip_with3 (fun q v rate => vadd q (vscale h (vsub rate v))) q v r) v = vadd (cross_sum ms q v) (vscale h (cross_sum ms r v)).
Proof.
  induction ms as [|m ms IH]; intros [|a q] [|b v] [|d r] L1 L2 L3; try discriminate; [unfold cross_sum; cbn; vring|].
  unfold zip_with3. cbn [combine map fst snd]. fold (zip_with3 (fun q v rate => vadd q (vscale h (vsub rate v))) q v r).
  rewrite !cross_sum_cons, IH by (cbn in *; lia). generalize (cross_sum ms q v) (cross_sum ms r v). vring.
Qed.
Lemma central_cross mu e q : vcross q (central mu e q) = vzero.
Proof. unfold central. generalize (G * mu / sqrt (norm2 q + e) ^ 3). vring. Qed.
Lemma cross_sum_kicked h ms : forall (q v r : list (vec R)) mu eps, length q = length ms -> length v = length ms -> length r = length ms ->
  length mu = length ms -> length eps = length ms ->
  cross_sum ms q (zip_with3 (fun v rate k => vadd v (vscale h (vadd rate k))) v r (zip_with3 central mu eps q))
  = vadd (cross_sum ms q v) (vscale h (cross_sum ms q r)).
Proof.
  induction ms as [|m ms IH]; intros [|a q] [|b v] [|d r] [|u mu] [|e eps] L1 L2 L3 L4 L5; try discriminate; [unfold cross_sum; cbn; vring|].
  unfold zip_with3. cbn [combine map fst snd]. fold (zip_with3 central mu eps q). fold (zip_with3 (fun v rate k => vadd v (vscale h (vadd rate k))) v r (zip_with3 central mu eps q)).
  rewrite !cross_sum_cons, IH by (cbn in *; lia). pose proof (central_cross u e a) as Z. revert Z.
  generalize (central u e a) (cross_sum ms q v) (cross_sum ms q r). intros k X Y Z.
  transitivity (vadd (vadd (vscale m (vcross a b)) (vscale (m * h) (vcross a k))) (vadd (vscale (m * h) (vcross a d)) (vadd X (vscale h Y)))).
  - clear. generalize dependent X. vring.
  - rewrite Z. clear. generalize dependent X. vring.
Qed.
Lemma kmasses_len c s : length (kepler_masses c s) = length (snd s).
Proof.
  destruct c; cbn [kepler_masses]; rewrite ?map_length; try reflexivity. generalize (p_mass (fst s)). induction (snd s) as [|x l IH]; intro m; cbn [inner_masses length]; [reflexivity|]. now rewrite IH.
Qed.
Lemma soft_len c s : length (softenings c s) = length (snd s).
Proof. destruct c; cbn [softenings]; rewrite ?map_length; try reflexivity. destruct (snd s) as [|x l]; cbn [length map]; rewrite ?map_length; reflexivity. Qed.
Lemma zip_with3_len {A B C D} (f : A -> B -> C -> D) a b c : length a = length b -> length b = length c -> length (zip_with3 f a b c) = length a.
Proof. intros E1 E2. unfold zip_with3. rewrite map_length, combine_len; rewrite combine_len; congruence. Qed.

Lemma vcross_self (v : vec R) : vcross v v = vzero. Proof. vring. Qed.
Lemma vscale_zero k : vscale k (vzero : vec R) = vzero. Proof. vring. Qed.
Theorem jump_momentum c h s s' : usable c (fst s) (snd s) -> jump_part c h s s' -> orbital_momentum (all s') = orbital_momentum (all s).
Proof.
  intros U (M & V & X & Fv & Fq). rewrite (orbital_split c s U), (orbital_split c s' (usable_seen _ _ _ M U)).
  rewrite (total_masses _ _ M), V, X. f_equal. unfold internal_momentum. fold (cmasses c s) (cmasses c s').
  rewrite (cmasses_view _ _ _ M), Fv, Fq, cross_sum_moved.
  - assert (Z : cross_sum (cmasses c s) (pos_frame c p_ivel s) (velocities c s) = vzero).
    { pose proof (bilinear c p_ivel p_ivel s U) as B. rewrite vcross_self, vscale_zero, vadd_0_l in B. unfold velocities. rewrite B.
      generalize (all s). induction l as [|p l IH]; [reflexivity|]. cbn [map Vsum fold_right]. unfold Vsum in IH. rewrite IH, vcross_self, vscale_zero. apply vadd_0_l. }
    rewrite Z, vscale_zero, vadd_0_r. reflexivity.
  - rewrite cmasses_len. apply pos_len.
  - rewrite cmasses_len. apply vel_len.
  - rewrite cmasses_len. apply pos_len.
Qed.
Theorem kick_momentum c h s s' : usable c (fst s) (snd s) -> kick_part c h s s' -> orbital_momentum (all s') = orbital_momentum (all s).
Proof.
  intros U (M & V & X & Fq & Fv). rewrite (orbital_split c s U), (orbital_split c s' (usable_seen _ _ _ M U)).
  rewrite (total_masses _ _ M), V, X. f_equal. unfold internal_momentum. fold (cmasses c s) (cmasses c s').
  rewrite (cmasses_view _ _ _ M), Fv, Fq, cross_sum_kicked.
  - assert (Z : cross_sum (cmasses c s) (positions c s) (vel_frame c (pulled (all s)) s) = vzero).
    { pose proof (bilinear c p_ipos (pulled (all s)) s U) as B. rewrite mean_pulled in B.
      replace (vcross (mean p_ipos (all s)) vzero) with (vzero : vec R) in B by (generalize (mean p_ipos (all s)); vring).
      rewrite vscale_zero, vadd_0_l in B. unfold positions. rewrite B.
      transitivity (Vsum (map (fun a => Vsum (map (fun b => vcross (p_ipos a) (vscale (p_mass a) (attraction G a b))) (all s))) (all s))).
      - f_equal. apply map_ext. intro a. unfold pulled. rewrite Vsum_map_cross, Vsum_map_scale. generalize (Vsum (map (attraction G a) (all s))) (p_ipos a). vring.
      - apply pairs_cancel. intros a b. apply attraction_torque. }
    rewrite Z, vscale_zero, vadd_0_r. reflexivity.
  - rewrite cmasses_len. apply pos_len.
  - rewrite cmasses_len. apply vel_len.
  - rewrite cmasses_len. apply vel_len.
  - rewrite cmasses_len. apply kmasses_len.
  - rewrite cmasses_len. apply soft_len.
Qed.

Section Kepler.
  Context `{Trans R} `{Floor R} `{Fuel}.
  Lemma drift_cross h mu x v x' v' : drift h mu x v x' v' -> exists k, vcross x' v' = vscale k (vcross x v).
  Proof.
    intros (a & a' & <- & <- & <- & <- & E). unfold kepler_step in E. destruct (solve_kepler _) as [[g ri]|]; [|discriminate E]. cbn [rbind fst snd] in E.
    unfold kepler_drift in E. injection E as <-. cbn [a_pos a_vel set_a_pos set_a_vel].
    match goal with |- context [vcross (vadd ?x (vadd (vscale ?f ?x) (vscale ?g ?v))) (vadd ?v (vadd (vscale ?fd ?x) (vscale ?gd ?v)))] =>
      exists ((1 + f) * (1 + gd) - g * fd); generalize f g fd gd x v end. vring.
  Qed.
  Lemma drifts_cross h mus xs vs xs' vs' : drifts h mus xs vs xs' vs' ->
    exists ks, length ks = length mus /\ forall ms, length ms = length mus ->
      cross_sum ms xs' vs' = vadd (cross_sum ms xs vs) (cross_sum (zip (fun m k => m * (k - 1)) ms ks) xs vs).
  Proof.
    induction 1 as [|mu x v x' v' mus xs vs xs' vs' D Ds (ks & L & IH)].
    - exists []. split; [reflexivity|]. intros [|m ms] Lm; [|discriminate]. unfold cross_sum. cbn. vring.
    - destruct (drift_cross _ _ _ _ _ _ D) as (k & Ek). exists (k :: ks). split; [cbn; lia|]. intros [|m ms] Lm; [discriminate|].
      unfold zip. cbn [combine map fst snd]. fold (zip (fun m k => m * (k - 1)) ms ks). rewrite !cross_sum_cons, IH, Ek by (cbn in Lm; lia).
      generalize (cross_sum ms xs vs) (cross_sum (zip (fun m k => m * (k - 1)) ms ks) xs vs) (vcross x v). vring.
  Qed.
  Theorem kepler_momentum c h s s' : usable c (fst s) (snd s) -> kepler_part c h s s' ->
    exists ks, length ks = length (snd s) /\
    orbital_momentum (all s') = vadd (orbital_momentum (all s)) (cross_sum (zip (fun m k => m * (k - 1)) (coordinate_masses c (fst s) (snd s)) ks) (positions c s) (velocities c s)).
  Proof.
    intros U (M & V & X & D). destruct (drifts_cross _ _ _ _ _ _ D) as (ks & L & E). exists ks. rewrite kmasses_len in L. split; [exact L|].
    rewrite (orbital_split c s U), (orbital_split c s' (usable_seen _ _ _ M U)).
    rewrite (total_masses _ _ M), V, X. unfold internal_momentum. fold (cmasses c s) (cmasses c s').
    rewrite (cmasses_view _ _ _ M), (E (cmasses c s)) by (rewrite kmasses_len; apply cmasses_len).
    generalize (cross_sum (cmasses c s) (positions c s) (velocities c s)) (cross_sum (zip (fun m k => m * (k - 1)) (cmasses c s) ks) (positions c s) (velocities c s)).
    generalize (mean p_ipos (all s)) (mean p_ivel (all s)). vring.
  Qed.

  Theorem step_momentum t dt half (w w' : whfast R) : ready w -> roche_square (w_u w) -> masses_g (w_u w) -> wh_step t dt half w = Ok w' ->
    exists s e ks ks', splits (w_u w) s /\ same_masses s e /\ length ks = length (snd s) /\ length ks' = length (snd s) /\
    let turn x k := cross_sum (zip (fun m k => m * (k - 1)) (coordinate_masses (w_type w) (fst s) (snd s)) k) (positions (w_type w) x) (velocities (w_type w) x) in
    orbital_momentum (u_particles (w_u w')) = vadd (orbital_momentum (u_particles (w_u w))) (vadd (turn s ks) (turn e ks')).
  Proof.
    intros Rd Rq Mg E. destruct (step_splits _ _ _ _ _ Rd Rq Mg E) as (s & s' & S1 & S2 & a & b & d & e & K1 & K2 & K3 & K4 & K5).
    destruct Rd as (_ & _ & _ & _ & star & N & U). pose proof S1 as (N' & O'). rewrite N in N'. injection N' as Es. rewrite Es, <- O' in U.
    assert (Ua : usable (w_type w) (fst a) (snd a)) by (eapply usable_seen; [apply K1|exact U]).
    assert (Ub : usable (w_type w) (fst b) (snd b)) by (eapply usable_seen; [apply K2|exact Ua]).
    assert (Ud : usable (w_type w) (fst d) (snd d)) by (eapply usable_seen; [apply K3|exact Ub]).
    assert (Ue : usable (w_type w) (fst e) (snd e)) by (eapply usable_seen; [apply K4|exact Ud]).
    assert (Me : same_masses s e).
    { unfold same_masses. destruct K1 as (Q1 & _), K2 as (Q2 & _), K3 as (Q3 & _), K4 as (Q4 & _). unfold same_masses in *. congruence. }
    destruct (kepler_momentum _ _ _ _ U K1) as (ks & L1 & E1). destruct (kepler_momentum _ _ _ _ Ue K5) as (ks' & L2 & E2).
    assert (Le : length (snd e) = length (snd s)).
    { unfold same_masses in Me. apply (f_equal (@length _)) in Me. unfold all in Me. cbn [map length] in Me. rewrite !map_length in Me. lia. }
    exists s, e, ks, ks'. split; [exact S1|]. split; [exact Me|]. split; [exact L1|]. split; [congruence|]. cbv zeta.
    assert (Pm : forall u x, splits u x -> orbital_momentum (u_particles u) = orbital_momentum (all x)).
    { intros u x (A & B). symmetry. apply orbital_perm. unfold all. rewrite B, except_others. apply others_perm. exact A. }
    rewrite (Pm _ _ S1), (Pm _ _ S2), E2, (jump_momentum _ _ _ _ Ud K4), (kick_momentum _ _ _ _ Ub K3), (jump_momentum _ _ _ _ Ua K2), E1.
    fold (cmasses (w_type w) s). fold (cmasses (w_type w) e). rewrite (cmasses_view _ _ _ Me). now rewrite <- vadd_assoc.
  Qed.
End Kepler.
