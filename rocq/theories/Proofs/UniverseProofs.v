(** * Building a universe and measuring it (C11, C15, C40, C43, C44, C53) *)
From Coq Require Import Reals Lra Lia List Bool Arith Permutation.
From Verif Require Import Base.Num Base.Result Base.Trans Base.Vec Model.Constants Model.Particle Model.Host
  Model.Interp Model.Creep Model.Disk Model.Tides Model.Flattening Model.Relativity Model.Universe Model.LeapFrog
  Spec.EffectsSpec Spec.UniverseSpec
  Proofs.NumLemmas Proofs.VecLemmas Proofs.EvolveProofs Proofs.GravityProofs Proofs.LeapFrogProofs.
Import ListNotations.
Open Scope R_scope.

Lemma rzip_frame {A B C} (c : A -> C) (f : A * B -> res (A * B)) :
  (forall a b a' b', f (a, b) = Ok (a', b') -> c a' = c a) ->
  forall xs ys xs' ys', rzip f xs ys = Ok (xs', ys') -> map c xs' = map c xs.
Proof.
  intros Hf xs. induction xs as [|x xs IH]; intros ys xs' ys' E; destruct ys as [|y ys]; cbn [rzip] in E;
    try (injection E as <- <-; reflexivity).
  destruct (f (x, y)) as [[x1 y1]|] eqn:E1; [|discriminate E]. cbn [rbind] in E.
  destruct (rzip f xs ys) as [[xs1 ys1]|] eqn:E2; [|discriminate E]. cbn [rbind fst snd] in E.
  injection E as <- <-. cbn [map]. f_equal; eauto.
Qed.
Lemma rzip_forall {A B} (P : A -> Prop) (f : A * B -> res (A * B)) :
  (forall a b a' b', P a -> f (a, b) = Ok (a', b') -> P a') ->
  forall xs ys xs' ys', Forall P xs -> rzip f xs ys = Ok (xs', ys') -> Forall P xs'.
Proof.
  intros Hf xs. induction xs as [|x xs IH]; intros ys xs' ys' HP E; destruct ys as [|y ys]; cbn [rzip] in E;
    try (injection E as <- <-; exact HP).
  inversion HP; subst.
  destruct (f (x, y)) as [[x1 y1]|] eqn:E1; [|discriminate E]. cbn [rbind] in E.
  destruct (rzip f xs ys) as [[xs1 ys1]|] eqn:E2; [|discriminate E]. cbn [rbind fst snd] in E.
  injection E as <- <-. constructor; eauto.
Qed.

(** ** Centre of mass *)
Section Com.
  Lemma weighted_cons f p l : weighted f (p :: l) = vadd (vscale (p_mass p) (f p)) (weighted f l).
  Proof. reflexivity. Qed.
  Lemma com_step (p : particle R) pos vel m : 0 <= m -> 0 <= p_mass p ->
    let r := com_pair (pos, vel, m) p in
    snd r = m + p_mass p
    /\ vscale (snd r) (fst (fst r)) = vadd (vscale m pos) (vscale (p_mass p) (p_hpos p))
    /\ vscale (snd r) (snd (fst r)) = vadd (vscale m vel) (vscale (p_mass p) (p_hvel p)).
  Proof.
    intros Hm Hp. cbn zeta. unfold com_pair. num_simpl. rcase; cbn [fst snd]; (split; [reflexivity|]).
    - assert (T : forall x y : vec R, vscale (m + p_mass p) (vdivr (vadd (vmulr x m) (vmulr y (p_mass p))) (m + p_mass p))
        = vadd (vscale m x) (vscale (p_mass p) y)).
      { intros [x1 x2 x3] [y1 y2 y3]. vunfold. f_equal; field; lra. }
      split; apply T.
    - assert (m = 0 /\ p_mass p = 0) as (-> & ->) by lra. generalize (p_hpos p), (p_hvel p). clear. intros. split; vring.
  Qed.
  Lemma com_fold l : Forall (fun p => 0 <= p_mass p) l -> forall pos vel m, 0 <= m ->
    let r := fold_left com_pair l (pos, vel, m) in
    snd r = m + total_mass l
    /\ vscale (snd r) (fst (fst r)) = vadd (vscale m pos) (weighted p_hpos l)
    /\ vscale (snd r) (snd (fst r)) = vadd (vscale m vel) (weighted p_hvel l).
  Proof.
    induction 1 as [|p l Hp Hl IH]; intros pos vel m Hm; cbn zeta.
    - cbn [fold_left fst snd]. unfold total_mass, weighted. cbn [map].
      split; [cbn; lra|]. split; symmetry; apply vadd_0_r.
    - cbn [fold_left]. destruct (com_step p pos vel m Hm Hp) as (S1 & S2 & S3).
      destruct (com_pair (pos, vel, m) p) as [[pos' vel'] m']. cbn [fst snd] in S1, S2, S3.
      destruct (IH pos' vel' m' ltac:(lra)) as (I1 & I2 & I3). 
      rewrite I2, I3, S2, S3, !weighted_cons, !vadd_assoc. split; [|auto].
      rewrite I1, S1. change (total_mass (p :: l)) with (p_mass p + total_mass l). ring.
  Qed.
  Lemma com_mean l : Forall (fun p => 0 <= p_mass p) l -> 0 < total_mass l ->
    center_of_mass l = (mean p_hpos l, mean p_hvel l).
  Proof.
    intros Hm Ht. destruct (com_fold l Hm vzero vzero 0 (Rle_refl 0)) as (E1 & E2 & E3).
    unfold center_of_mass. change (@n0 R _) with 0.
    destruct (fold_left com_pair l (vzero, vzero, 0)) as [[pos vel] m]. cbn [fst snd] in *.
    rewrite Rplus_0_l in E1. subst m. unfold mean. rewrite vscale_0_r, vadd_0_l in E2, E3.
    rewrite <- E2, <- E3, !vscale_scale. rewrite Rinv_l by lra. now rewrite !vscale_1.
  Qed.
  Lemma weighted_map f l (c : particle R -> particle R) : (forall p, p_mass (c p) = p_mass p) ->
    weighted f (map c l) = weighted (fun p => f (c p)) l.
  Proof. intro Hc. unfold weighted. rewrite map_map. apply Vsum_map_ext, Forall_forall. intros p _. now rewrite Hc. Qed.
  Lemma weighted_sub f v l : weighted (fun p => vsub (f p) v) l = vsub (weighted f l) (vscale (total_mass l) v).
  Proof.
    induction l as [|p l IH]; [unfold weighted, total_mass; cbn; vring|].
    rewrite !weighted_cons, IH. replace (total_mass (p :: l)) with (p_mass p + total_mass l) by reflexivity.
    generalize (weighted f l), (total_mass l), (p_mass p), (f p). clear. intros. vring.
  Qed.
  Lemma weighted_mean f l : total_mass l <> 0 -> vscale (total_mass l) (mean f l) = weighted f l.
  Proof. intro Hl. unfold mean. rewrite vscale_scale, Rinv_r by exact Hl. apply vscale_1. Qed.
End Com.

(** ** Construction *)
Definition gkin (p : particle R) := (p_mass p, p_hpos p, p_hvel p).
Definition ikin (p : particle R) := (p_mass p, p_ipos p, p_ivel p).
Section New.
  Context `{Trans R} `{Floor R} `{Fuel}.
  Variable mk : evolution R -> R -> R -> evolver R.
  Lemma start_evolving_ikin (p p' : particle R) e e' : start_evolving (p, e) = Ok (p', e') -> ikin p' = ikin p.
  Proof.
    unfold start_evolving. destruct (negb _); [intro E; injection E as <- <-; reflexivity|].
    destruct (evolver_radius _ _ _) as [[r1 e1]|]; [|intro E; discriminate E]. cbn [rbind].
    destruct (nltb _ _);
    (destruct (evolver_rg2 _ _ _) as [[r2 e2]|]; [|intro E; discriminate E]); cbn [rbind];
    destruct (nltb _ _); cbn [orb]; intro E; injection E as <- <-; reflexivity.
  Qed.
  Lemma new_universe_shape initial limit (l : list (particle R)) c u : new_universe mk initial limit l c = Ok u ->
    exists l1 c1 h, disable_unnecessary c l = Ok c1 /\ find_indices l c1 = Ok h /\ u_effects u = c1 /\ u_hosts u = h
    /\ map gkin l1 = map gkin l
    /\ map ikin (u_particles u) = map ikin (map (recentre (center_of_mass l1)) l1)
    /\ (length l <= MAX_PARTICLES)%nat
    /\ roche_square u /\ length (u_particles u) = length l /\ length (u_dummies u) = (MAX_PARTICLES - length l)%nat.
  Proof.
    unfold new_universe. destruct (disable_unnecessary c l) as [c1|] eqn:E1; [|intro X; discriminate X]. cbn [rbind].
    destruct (find_indices l c1) as [h|] eqn:E2; [|intro X; discriminate X]. cbn [rbind].
    destruct (if e_gr c1 then _ else _) as [l1|] eqn:E3; [|intro X; discriminate X]. cbn [rbind].
    assert (K1 : map gkin l1 = map gkin l).
    { destruct (e_gr c1); [|injection E3 as <-; reflexivity].
      eapply with_host_frame; [exact E3|]. intros host o r X. injection X as <-. unfold gr_factors.
      destruct (gr_central host); cbn [fst snd]; [|auto]. split; auto. rewrite map_map. reflexivity. }
    assert (L1 : length l1 = length l) by (apply (f_equal (@length _)) in K1; rewrite !map_length in K1; exact K1).
    destruct (Nat.ltb MAX_PARTICLES _) eqn:E4; [intro X; discriminate X|].
    apply Nat.ltb_ge in E4. rewrite map_length in E4.
    set (l2 := map number _).
    assert (K2 : map ikin l2 = map ikin (map (recentre (center_of_mass l1)) l1)).
    { unfold l2. rewrite map_map. change (fun x : nat * particle R => ikin (number x)) with (fun x : nat * particle R => ikin (snd x)).
      rewrite <- (map_map snd ikin), map_snd_enumerate. reflexivity. }
    destruct (if e_evolution c1 then _ else _) as [[l3 evs]|] eqn:E5; [|intro X; discriminate X]. cbn [rbind fst snd].
    intro X. injection X as <-.
    assert (K3 : map ikin l3 = map ikin l2).
    { destruct (e_evolution c1); [|injection E5 as <- _; reflexivity].
      eapply rzip_frame; [|exact E5]. intros a b a' b'. apply start_evolving_ikin. }
    assert (L2 : length l2 = length l) by (unfold l2; rewrite map_length, enumerate_length, map_length; exact L1).
    assert (L3 : length l3 = length l) by (apply (f_equal (@length _)) in K3; rewrite !map_length in K3; lia).
    exists l1, c1, h. cbn [u_effects u_hosts u_particles u_dummies].
    split; [reflexivity|]. split; [exact E2|]. split; [reflexivity|]. split; [reflexivity|].
    split; [exact K1|]. split; [now rewrite K3|]. split; [lia|]. split; [|split; [exact L3|]].
    - unfold roche_square. cbn [u_roche u_particles]. rewrite L3, map_length. split; [exact L2|].
      apply Forall_forall. intros row Hr. apply in_map_iff in Hr. destruct Hr as (? & <- & _). now rewrite map_length.
    - rewrite repeat_length, L2. reflexivity.
  Qed.

  Lemma gkin_weighted_pos l1 l : map gkin l1 = map gkin l -> weighted p_hpos l1 = weighted p_hpos l.
  Proof.
    intro E. unfold weighted.
    transitivity (Vsum (map (fun k : R * vec R * vec R => vscale (fst (fst k)) (snd (fst k))) (map gkin l1))); [now rewrite map_map|].
    rewrite E, map_map. reflexivity.
  Qed.
  Lemma gkin_mass l1 l : map gkin l1 = map gkin l -> map p_mass l1 = map p_mass l.
  Proof. intro E. apply (f_equal (map (fun k => fst (fst k)))) in E. rewrite !map_map in E. exact E. Qed.
  Lemma gkin_pos l1 l : map gkin l1 = map gkin l -> map p_hpos l1 = map p_hpos l.
  Proof. intro E. apply (f_equal (map (fun k => snd (fst k)))) in E. rewrite !map_map in E. exact E. Qed.
  Lemma gkin_vel l1 l : map gkin l1 = map gkin l -> map p_hvel l1 = map p_hvel l.
  Proof. intro E. apply (f_equal (map snd)) in E. rewrite !map_map in E. exact E. Qed.
  Lemma ikin_mass l1 l : map ikin l1 = map ikin l -> map p_mass l1 = map p_mass l.
  Proof. intro E. apply (f_equal (map (fun k => fst (fst k)))) in E. rewrite !map_map in E. exact E. Qed.
  Lemma ikin_pos l1 l : map ikin l1 = map ikin l -> map p_ipos l1 = map p_ipos l.
  Proof. intro E. apply (f_equal (map (fun k => snd (fst k)))) in E. rewrite !map_map in E. exact E. Qed.
  Lemma ikin_vel l1 l : map ikin l1 = map ikin l -> map p_ivel l1 = map p_ivel l.
  Proof. intro E. apply (f_equal (map snd)) in E. rewrite !map_map in E. exact E. Qed.
  Lemma weighted_masses (f g : particle R -> vec R) l l' : map p_mass l = map p_mass l' -> map f l = map g l' -> weighted f l = weighted g l'.
  Proof.
    unfold weighted. revert l'; induction l as [|a l IH]; intros [|b l'] E1 E2; cbn [map] in *; try discriminate; auto.
    injection E1 as X1 X2. injection E2 as Y1 Y2. rewrite X1, Y1. cbn [Vsum fold_right]. unfold Vsum in IH. cbn. f_equal. now apply IH.
  Qed.
  Lemma masses_nonneg l l' : map p_mass l = map p_mass l' -> Forall (fun p => 0 <= p_mass p) l' -> Forall (fun p : particle R => 0 <= p_mass p) l.
  Proof.
    intros E Hl. apply Forall_map with (f := p_mass) (P := fun x => 0 <= x). rewrite E. now apply Forall_map.
  Qed.
  Lemma map_nth_eq {A B C} (f : A -> C) (g : B -> C) l l' i a : map f l = map g l' -> nth_error l i = Some a ->
    exists b, nth_error l' i = Some b /\ f a = g b.
  Proof.
    intros E Ha. apply (f_equal (fun x => nth_error x i)) in E. rewrite !nth_error_map, Ha in E. cbn in E.
    destruct (nth_error l' i) as [b|]; [|discriminate E]. injection E as E. eauto.
  Qed.

  Theorem new_universe_barycentric initial limit (l : list (particle R)) c u :
    Forall (fun p => 0 <= p_mass p) l -> 0 < total_mass l -> new_universe mk initial limit l c = Ok u ->
    length (u_particles u) = length l
    /\ weighted p_ipos (u_particles u) = vzero /\ momentum (u_particles u) = vzero
    /\ forall i j a b a' b', nth_error l i = Some a -> nth_error l j = Some b ->
         nth_error (u_particles u) i = Some a' -> nth_error (u_particles u) j = Some b' ->
         p_mass a' = p_mass a /\ vsub (p_ipos a') (p_ipos b') = vsub (p_hpos a) (p_hpos b)
         /\ vsub (p_ivel a') (p_ivel b') = vsub (p_hvel a) (p_hvel b).
  Proof.
    intros Hm Ht E. destruct (new_universe_shape _ _ _ _ _ E) as (l1 & c1 & h & _ & _ & _ & _ & K1 & K2 & _ & _ & Hl & _).
    split; [exact Hl|].
    pose proof (gkin_mass _ _ K1) as Mm. pose proof (masses_nonneg _ _ Mm Hm) as Hm1.
    assert (Ht1 : 0 < total_mass l1) by (unfold total_mass; rewrite Mm; exact Ht).
    rewrite (com_mean l1 Hm1 Ht1) in K2. set (com := (mean p_hpos l1, mean p_hvel l1)) in *.
    pose proof (ikin_mass _ _ K2) as M2. pose proof (ikin_pos _ _ K2) as P2. pose proof (ikin_vel _ _ K2) as V2.
    split; [|split].
    - rewrite (weighted_masses _ _ _ _ M2 P2), weighted_map by reflexivity.
      change (weighted (fun p => vsub (p_hpos p) (mean p_hpos l1)) l1 = vzero).
      rewrite weighted_sub, weighted_mean by lra. generalize (weighted p_hpos l1). clear. intros. vring.
    - unfold momentum. rewrite (weighted_masses _ _ _ _ M2 V2), weighted_map by reflexivity.
      change (weighted (fun p => vsub (p_hvel p) (mean p_hvel l1)) l1 = vzero).
      rewrite weighted_sub, weighted_mean by lra. generalize (weighted p_hvel l1). clear. intros. vring.
    - assert (T : forall i a a', nth_error l i = Some a -> nth_error (u_particles u) i = Some a' ->
         p_mass a' = p_mass a /\ p_ipos a' = vsub (p_hpos a) (fst com) /\ p_ivel a' = vsub (p_hvel a) (snd com)).
      { intros i a a' Ha Ha'. rewrite map_map in K2. destruct (map_nth_eq _ _ _ _ _ _ K2 Ha') as (b & Hb & Eb).
        destruct (map_nth_eq _ _ _ _ _ _ K1 Hb) as (a0 & Ha0 & Ea0). rewrite Ha in Ha0. injection Ha0 as <-.
        unfold ikin, recentre in Eb. unfold gkin in Ea0. cbn in Eb. injection Eb as -> -> ->. injection Ea0 as -> -> ->. auto. }
      intros i j a b a' b' Ha Hb Ha' Hb'. destruct (T _ _ _ Ha Ha') as (A1 & A2 & A3). destruct (T _ _ _ Hb Hb') as (B1 & B2 & B3).
      rewrite A1, A2, A3, B2, B3. split; [reflexivity|].
      generalize (p_hpos a), (p_hpos b), (p_hvel a), (p_hvel b), (fst com), (snd com). clear. intros. split; vring.
  Qed.
End New.

(** ** Host selection *)
Section Hosts.
  Lemma massive_fold (l : list (particle R)) : forall k m0 i0,
    let r := fold_left most_massive_step (combine (seq k (length l)) l) (m0, i0) in
    m0 <= fst r /\ Forall (fun q => p_mass q <= fst r) l
    /\ ((r = (m0, i0) /\ Forall (fun q => p_mass q <= m0) l)
        \/ (exists j p, nth_error l j = Some p /\ snd r = (k + j)%nat /\ fst r = p_mass p /\ m0 < p_mass p
            /\ forall j' q, (j' < j)%nat -> nth_error l j' = Some q -> p_mass q < p_mass p)).
  Proof.
    induction l as [|p l IH]; intros k m0 i0; cbn zeta; cbn [length seq combine fold_left].
    - split; [apply Rle_refl|]. split; [constructor|]. left. split; [reflexivity|constructor].
    - change (most_massive_step (m0, i0) (k, p)) with (if Rltb m0 (p_mass p) then (p_mass p, k) else (m0, i0)). rcase.
      + destruct (IH (S k) (p_mass p) k) as (I1 & I2 & I3). cbn zeta in *.
        split; [lra|]. split; [constructor; auto|]. right. destruct I3 as [(E & I3)|(j & q & Hq & E1 & E2 & E3 & I3)].
        * rewrite E. exists O, p. cbn [nth_error fst snd]. split; [auto|]. split; [lia|]. split; [auto|]. split; [lra|]. intros; lia.
        * exists (S j), q. cbn [nth_error]. split; [auto|]. split; [lia|]. split; [auto|]. split; [lra|].
          intros [|j'] q' Hj Hq'; cbn in Hq'; [injection Hq' as <-; lra|]. apply (I3 j'); auto; lia.
      + destruct (IH (S k) m0 i0) as (I1 & I2 & I3). cbn zeta in *.
        split; [lra|]. split; [constructor; auto; lra|]. destruct I3 as [(E & I3)|(j & q & Hq & E1 & E2 & E3 & I3)].
        * left. split; auto. constructor; auto; lra.
        * right. exists (S j), q. cbn [nth_error]. split; [auto|]. split; [lia|]. split; [auto|]. split; [lra|].
          intros [|j'] q' Hj Hq'; cbn in Hq'; [injection Hq' as <-; lra|]. apply (I3 j'); auto; lia.
  Qed.
  Theorem most_massive_heaviest (l : list (particle R)) : (exists p, In p l /\ 0 < p_mass p) -> heaviest l (most_massive l).
  Proof.
    intros (p & Hp & Hm). unfold most_massive, enumerate. destruct (massive_fold l 0 0 NO_HOST) as (_ & H1 & H2).
    cbn zeta in *. change (@n0 R _) with 0. destruct H2 as [(E & H2)|(j & q & Hq & E1 & E2 & E3 & H2)].
    - rewrite Forall_forall in H2. specialize (H2 p Hp). lra.
    - rewrite E1. cbn [plus]. exists q. split; [auto|]. split.
      + intros i a Ha. rewrite Forall_forall in H1. rewrite <- E2. apply H1. eapply nth_error_In; eauto.
      + intros i a Ha Hi. eauto.
  Qed.
  Theorem most_massive_none (l : list (particle R)) : Forall (fun p => p_mass p <= 0) l -> most_massive l = NO_HOST.
  Proof.
    intro Hl. unfold most_massive, enumerate. destruct (massive_fold l 0 0 NO_HOST) as (_ & _ & H2).
    cbn zeta in *. change (@n0 R _) with 0. destruct H2 as [(E & H2)|(j & q & Hq & E1 & E2 & E3 & H2)].
    - now rewrite E.
    - rewrite Forall_forall in Hl. apply nth_error_In in Hq. specialize (Hl q Hq). lra.
  Qed.

  Lemma central_fold {F} `{Num F} (c : particle F -> bool) l : forall k i0, (k + length l <= NO_HOST)%nat ->
    match rfold (central_step c) (combine (seq k (length l)) l) i0 with
    | Ok i => (i = i0 /\ (forall p, In p l -> c p = false))
              \/ (i0 = NO_HOST /\ exists j, i = (k + j)%nat /\ the_only c l j)
    | Panic e => e = PTwoCentral /\ ((i0 <> NO_HOST /\ exists p, In p l /\ c p = true) \/ two_of c l)
    end.
  Proof.
    induction l as [|p l IH]; intros k i0 Hk; cbn [length seq combine rfold].
    - left. split; [reflexivity|]. intros p [].
    - cbn [length] in Hk. unfold central_step at 1. cbn [fst snd]. destruct (c p) eqn:Ec.
      + destruct (Nat.eqb_spec i0 NO_HOST) as [->|Hi]; cbn [rbind].
        * specialize (IH (S k) k ltac:(lia)). destruct (rfold _ _ _) as [i|e].
          -- destruct IH as [(-> & IH)|(E & _)]; [|lia]. right. split; [reflexivity|]. exists O. split; [lia|].
             exists p. split; [reflexivity|]. split; [exact Ec|]. intros [|j] q Hq Hc; [reflexivity|].
             cbn in Hq. apply nth_error_In in Hq. rewrite (IH _ Hq) in Hc. discriminate Hc.
          -- destruct IH as (-> & IH). split; [reflexivity|]. right. destruct IH as [(_ & q & Hq & Hc)|IH].
             ++ apply In_nth_error in Hq. destruct Hq as (j & Hq). exists O, (S j), p, q. cbn. repeat split; auto.
             ++ destruct IH as (i & j & a & b & Hij & Ha & Hb & Ca & Cb). exists (S i), (S j), a, b. cbn. repeat split; auto.
        * split; [reflexivity|]. left. split; [exact Hi|]. exists p. cbn. auto.
      + cbn [rbind]. specialize (IH (S k) i0 ltac:(lia)). destruct (rfold _ _ _) as [i|e].
        * destruct IH as [(-> & IH)|(E & j & -> & q & Hq & Hc & IH)].
          -- left. split; [reflexivity|]. intros q [<-|Hq]; auto.
          -- right. split; [exact E|]. exists (S j). split; [lia|]. exists q. split; [exact Hq|]. split; [exact Hc|].
             intros [|i] a Ha Hca; cbn in Ha; [congruence|]. f_equal. eauto.
        * destruct IH as (-> & IH). split; [reflexivity|]. destruct IH as [(E & q & Hq & Hc)|IH].
          -- left. split; [exact E|]. exists q. cbn. auto.
          -- right. destruct IH as (i & j & a & b & Hij & Ha & Hb & Ca & Cb). exists (S i), (S j), a, b. cbn. repeat split; auto.
  Qed.
  Lemma find_central_spec {F} `{Num F} (c : particle F -> bool) l : (length l <= MAX_PARTICLES)%nat ->
    match find_central c l with
    | Ok i => (i = NO_HOST /\ forall p, In p l -> c p = false) \/ the_only c l i
    | Panic e => e = PTwoCentral /\ two_of c l
    end.
  Proof.
    intro Hl. unfold find_central, enumerate. pose proof (central_fold c l 0 NO_HOST ltac:(unfold NO_HOST; lia)) as X.
    destruct (rfold _ _ _) as [i|e].
    - destruct X as [X|(_ & j & -> & X)]; auto.
    - destruct X as (-> & [([] & _)|X]); auto.
  Qed.
  Lemma two_of_not_only {A} (c : A -> bool) l i : two_of c l -> ~ the_only c l i.
  Proof.
    intros (a & b & p & q & Hab & Ha & Hb & Ca & Cb) (r & _ & _ & U). apply Hab. rewrite (U _ _ Ha Ca), (U _ _ Hb Cb). reflexivity.
  Qed.
  Lemma find_central_only {F} `{Num F} (c : particle F -> bool) l i : (length l <= MAX_PARTICLES)%nat ->
    (exists p, In p l /\ c p = true) -> find_central c l = Ok i -> the_only c l i.
  Proof.
    intros Hl (p & Hp & Hc) E. pose proof (find_central_spec c l Hl) as X. rewrite E in X.
    destruct X as [(_ & X)|X]; auto. rewrite (X _ Hp) in Hc. discriminate Hc.
  Qed.

  Lemma found_fold (l : list (particle R)) : forall a r, rfold found_step l a = Ok r ->
    r = (fst (fst (fst a)) || existsb tides_central l, snd (fst (fst a)) || existsb rf_central l,
         snd (fst a) || existsb gr_central l, snd a || existsb is_disk_central l)%bool.
  Proof.
    induction l as [|p l IH]; intros [[[ft ff] fg] fd] r E; cbn [rfold] in E.
    - injection E as <-. cbn. now rewrite !orb_false_r.
    - unfold found_step at 1 in E.
      destruct (tides_central p && ft) eqn:E1; [discriminate E|]. destruct (rf_central p && ff) eqn:E2; [discriminate E|].
      destruct (gr_central p && fg) eqn:E3; [discriminate E|]. destruct (is_disk_central p && fd) eqn:E4; [discriminate E|].
      cbn [rbind] in E. apply IH in E. rewrite E. cbn [fst snd existsb]. now rewrite !orb_assoc.
  Qed.
  Lemma disable_found (c c1 : effects) (l : list (particle R)) : disable_unnecessary c l = Ok c1 ->
    (e_tides c1 = e_tides c && existsb tides_central l) /\ (e_rf c1 = e_rf c && existsb rf_central l)
    /\ (e_gr c1 = e_gr c && existsb gr_central l) /\ (e_disk c1 = e_disk c && existsb is_disk_central l)
    /\ (e_wind c1 = e_wind c && existsb wind_on l) /\ (e_evolution c1 = e_evolution c && existsb (fun p => evolves (p_evo p)) l).
  Proof.
    unfold disable_unnecessary. destruct (rfold found_step l _) as [r|] eqn:E; [|intro X; discriminate X].
    apply found_fold in E. cbn [fst snd orb] in E. subst r. cbn [rbind]. intro X. injection X as <-. cbn. auto 8.
  Qed.
  (** the hosts of a universe *)
  Lemma indices_inv (l : list (particle R)) c h : (length l <= MAX_PARTICLES)%nat -> find_indices l c = Ok h ->
    h_most_massive h = most_massive l
    /\ (e_tides c = true -> find_central tides_central l = Ok (h_tides h) /\ m_tides h = Nat.eqb (h_most_massive h) (h_tides h))
    /\ (e_rf c = true -> find_central rf_central l = Ok (h_rf h) /\ m_rf h = Nat.eqb (h_most_massive h) (h_rf h) /\ h_tides h = h_rf h)
    /\ (e_gr c = true -> find_central gr_central l = Ok (h_gr h) /\ h_gr h = h_most_massive h /\ m_gr h = true)
    /\ (e_disk c = true -> find_central disk_central l = Ok (h_disk h) /\ m_disk h = Nat.eqb (h_most_massive h) (h_disk h)).
  Proof.
    intros Hl. unfold find_indices.
    destruct (if e_gr c then _ else _) as [gr|] eqn:E1; [|intro X; discriminate X]. cbn [rbind].
    destruct (if e_tides c then _ else _) as [td|] eqn:E2; [|intro X; discriminate X]. cbn [rbind].
    destruct (if e_rf c then _ else _) as [rf|] eqn:E3; [|intro X; discriminate X]. cbn [rbind].
    destruct (if e_tides c && e_rf c && _ then _ else _) as [td'|] eqn:E4; [|intro X; discriminate X]. cbn [rbind].
    destruct (if e_disk c then _ else _) as [dk|] eqn:E5; [|intro X; discriminate X]. cbn [rbind].
    intro X. injection X as <-. cbn [h_most_massive h_tides h_rf h_gr h_disk m_tides m_rf m_gr m_disk].
    split; [reflexivity|]. split; [|split; [|split]].
    - intro T. rewrite T in *. cbn [andb negb] in *. split; [|auto]. rewrite E2.
      destruct (e_rf c); cbn [andb] in E4; [|congruence]. destruct (negb (Nat.eqb td rf)); congruence.
    - intro T. rewrite T in *. cbn [andb negb] in *. split; [auto|]. split; [auto|].
      destruct (e_tides c); cbn [andb negb] in E4; [|congruence].
      destruct (Nat.eqb_spec td rf); cbn [negb] in E4; congruence.
    - intro T. rewrite T in *. cbn [andb]. destruct (find_central gr_central l) as [g|] eqn:Eg; [|discriminate E1]. cbn [rbind] in E1.
      destruct (Nat.eqb_spec (most_massive l) g) as [Em|]; [|discriminate E1]. injection E1 as <-. split; [auto|]. split; [auto|].
      now apply Nat.eqb_eq.
    - intro T. rewrite T in *. cbn [andb]. auto.
  Qed.
  Lemma existsb_ex {A} (f : A -> bool) l : existsb f l = true -> exists x, In x l /\ f x = true.
  Proof. apply existsb_exists. Qed.

  Context `{Trans R} `{Floor R} `{Fuel}.
  Variable mk : evolution R -> R -> R -> evolver R.
  Theorem universe_hosts initial limit (l : list (particle R)) c u :
    (exists p, In p l /\ 0 < p_mass p) -> new_universe mk initial limit l c = Ok u ->
    let h := u_hosts u in
    heaviest l (h_most_massive h)
    /\ (e_tides (u_effects u) = true -> the_only tides_central l (h_tides h))
    /\ (e_rf (u_effects u) = true -> the_only rf_central l (h_rf h) /\ h_tides h = h_rf h)
    /\ (e_gr (u_effects u) = true -> the_only gr_central l (h_gr h) /\ h_gr h = h_most_massive h)
    /\ (e_disk (u_effects u) = true -> (forall p, In p l -> is_disk_central p = true -> disk_central p = true) ->
          the_only is_disk_central l (h_disk h)).
  Proof.
    intros Hm E. destruct (new_universe_shape _ _ _ _ _ _ E) as (l1 & c1 & h & E1 & E2 & Ec & Eh & _ & _ & Hl & _).
    cbn zeta. rewrite Ec, Eh. destruct (disable_found _ _ _ E1) as (D1 & D2 & D3 & D4 & _).
    destruct (indices_inv _ _ _ Hl E2) as (I1 & I2 & I3 & I4 & I5).
    split; [rewrite I1; apply most_massive_heaviest, Hm|]. split; [|split; [|split]].
    - intro T. destruct (I2 T) as (Ef & _). rewrite T in D1. symmetry in D1. apply andb_true_iff in D1.
      eapply find_central_only; [exact Hl| |exact Ef]. apply existsb_ex, D1.
    - intro T. destruct (I3 T) as (Ef & _ & Et). rewrite T in D2. symmetry in D2. apply andb_true_iff in D2.
      split; [|exact Et]. eapply find_central_only; [exact Hl| |exact Ef]. apply existsb_ex, D2.
    - intro T. destruct (I4 T) as (Ef & Et & _). rewrite T in D3. symmetry in D3. apply andb_true_iff in D3.
      split; [|exact Et]. eapply find_central_only; [exact Hl| |exact Ef]. apply existsb_ex, D3.
    - intros T Hd. destruct (I5 T) as (Ef & _). rewrite T in D4. symmetry in D4. apply andb_true_iff in D4.
      destruct D4 as (_ & D4). apply existsb_ex in D4. destruct D4 as (p & Hp & Cp).
      assert (O : the_only disk_central l (h_disk h)) by (eapply find_central_only; [exact Hl| |exact Ef]; exists p; auto).
      destruct O as (q & Hq & Cq & U). exists q. split; [exact Hq|]. split.
      + unfold disk_central in Cq. unfold is_disk_central. destruct (dk_effect (p_disk q)); auto; discriminate Cq.
      + intros j r Hr Cr. apply (U j r Hr). apply Hd; auto. eapply nth_error_In; eauto.
  Qed.

  Lemma found_two (sel : particle R -> bool) (flag : bool * bool * bool * bool -> bool) (l : list (particle R)) :
    (forall a (p : particle R) r, found_step a p = Ok r -> flag r = flag a || sel p) ->
    (forall a (p : particle R), sel p = true -> flag a = true -> found_step a p = Panic PTwoCentral) ->
    (forall a (p : particle R) e, found_step a p = Panic e -> e = PTwoCentral) ->
    forall a, (two_of sel l \/ (flag a = true /\ exists p, In p l /\ sel p = true)) -> rfold found_step l a = Panic PTwoCentral.
  Proof.
    clear mk. intros F1 F2 F3. induction l as [|p l IH]; intros a Ht.
    - destruct Ht as [(i & j & x & y & _ & Hx & _)|(_ & x & [] & _)]. destruct i; discriminate Hx.
    - cbn [rfold]. destruct (found_step a p) as [r|e] eqn:E; cbn [rbind]; [|now rewrite (F3 _ _ _ E)].
      apply IH. rewrite (F1 _ _ _ E). destruct Ht as [(i & j & x & y & Hij & Hx & Hy & Cx & Cy)|(Fa & x & [<-|Hx] & Cx)].
      + destruct i as [|i], j as [|j]; cbn in Hx, Hy; [lia| | |].
        * injection Hx as <-. right. rewrite Cx, orb_true_r. split; auto. exists y. split; auto. eapply nth_error_In; eauto.
        * injection Hy as <-. right. rewrite Cy, orb_true_r. split; auto. exists x. split; auto. eapply nth_error_In; eauto.
        * left. exists i, j, x, y. repeat split; auto.
      + rewrite (F2 _ _ Cx Fa) in E. discriminate E.
      + right. rewrite Fa. split; auto. exists x. auto.
  Qed.
  Ltac found_tac :=
    intros [[[? ?] ?] ?]; intros; unfold found_step in *;
    repeat match goal with
    | X : ?b = true |- _ => rewrite X in *
    end; cbn in *;
    repeat (match goal with
    | |- context [if ?b then _ else _] => destruct b eqn:?
    | X : context [if ?b then _ else _] |- _ => destruct b eqn:?
    end; cbn in *); try congruence;
    repeat match goal with X : Ok _ = Ok _ |- _ => injection X as <-; cbn end; auto.
  Theorem universe_conflicts initial limit (l : list (particle R)) c :
    two_of tides_central l \/ two_of rf_central l \/ two_of gr_central l \/ two_of is_disk_central l ->
    new_universe mk initial limit l c = Panic PTwoCentral.
  Proof.
    intro Ht. unfold new_universe. replace (disable_unnecessary c l) with (@Panic effects PTwoCentral); [reflexivity|].
    unfold disable_unnecessary. replace (rfold found_step l (false, false, false, false)) with (@Panic (bool * bool * bool * bool) PTwoCentral); [reflexivity|].
    symmetry. destruct Ht as [Ht|[Ht|[Ht|Ht]]].
    - apply (found_two tides_central (fun a => fst (fst (fst a)))); auto; found_tac.
    - apply (found_two rf_central (fun a => snd (fst (fst a)))); auto; found_tac.
    - apply (found_two gr_central (fun a => snd (fst a))); auto; found_tac.
    - apply (found_two is_disk_central snd); auto; found_tac.
  Qed.
  (** tides and flattening around two bodies, or relativity around a body that is not the heaviest, are refused *)
  Theorem universe_mismatch initial limit (l : list (particle R)) c u i j :
    (length l <= MAX_PARTICLES)%nat -> new_universe mk initial limit l c = Ok u ->
    (e_tides c = true -> e_rf c = true -> the_only tides_central l i -> the_only rf_central l j -> i = j)
    /\ (e_gr c = true -> the_only gr_central l i -> i = most_massive l).
  Proof.
    intros Hl E. destruct (new_universe_shape _ _ _ _ _ _ E) as (l1 & c1 & h & E1 & E2 & _).
    destruct (disable_found _ _ _ E1) as (D1 & D2 & D3 & _).
    destruct (indices_inv _ _ _ Hl E2) as (I1 & I2 & I3 & I4 & _).
    assert (Ex : forall f i, the_only f l i -> existsb f l = true).
    { intros f k (p & Hp & Cp & _). apply existsb_exists. exists p. split; auto. eapply nth_error_In; eauto. }
    assert (Un : forall f a b, the_only f l a -> find_central f l = Ok b -> b = a).
    { intros f a b O Ef. pose proof (find_central_spec f l Hl) as X. rewrite Ef in X. destruct O as (p & Hp & Cp & U).
      destruct X as [(_ & X)|(q & Hq & Cq & _)]; [|eauto]. rewrite (X p) in Cp; [discriminate Cp|]. eapply nth_error_In; eauto. }
    split.
    - intros T1 T2 O1 O2. rewrite T1, (Ex _ _ O1) in D1. rewrite T2, (Ex _ _ O2) in D2.
      destruct (I2 D1) as (F1 & _). destruct (I3 D2) as (F2 & _ & Et). rewrite <- (Un _ _ _ O1 F1), <- (Un _ _ _ O2 F2). exact Et.
    - intros T O. rewrite T, (Ex _ _ O) in D3. destruct (I4 D3) as (F1 & Et & _). rewrite <- (Un _ _ _ O F1), <- I1. exact Et.
  Qed.
End Hosts.

(** ** Totals *)
Section Totals.
  Lemma fold_rsum {A} (f : A -> R) l : forall e, fold_left (fun e p => nadd e (f p)) l e = e + Rsum (map f l).
  Proof.
    induction l as [|p l IH]; intro e; cbn [fold_left map]; [unfold Rsum; cbn; ring|].
    rewrite IH. num_simpl. unfold Rsum. cbn. ring.
  Qed.
  Definition bond (g : R) (x : particle R -> vec R) (a b : particle R) : R :=
    g * p_mass a * p_mass b / sqrt (norm2 (vsub (x b) (x a))).
  Lemma potential_pairs (l : list (particle R)) : Forall (fun p => p_mass_g p = G * p_mass p) l -> forall e,
    potential l e = e - Rsum_pairs (bond G p_hpos) l.
  Proof.
    induction 1 as [|p l Hp Hl IH]; intro e; cbn [potential Rsum_pairs]; [ring|]. rewrite IH.
    assert (T : forall l : list (particle R), Forall (fun p => p_mass_g p = G * p_mass p) l -> forall e,
      fold_left (fun e b => nsub e (ndiv (nmul (p_mass_g b) (p_mass p)) (nsqrt (norm2 (vsub (p_hpos p) (p_hpos b)))))) l e
      = e - Rsum (map (bond G p_hpos p) l)).
    { clear. induction 1 as [|q l Hq _ IH]; intro e; cbn [fold_left map]; [unfold Rsum; cbn; ring|].
      rewrite IH, Hq. num_simpl. unfold bond at 2, Rsum. cbn [fold_right]. rewrite (norm2_vsub_sym (p_hpos p) (p_hpos q)).
      unfold Rdiv. ring. }
    rewrite T by exact Hl. ring.
  Qed.
  Theorem total_energy_spec (u : universe R) : Forall (fun p => p_mass_g p = G * p_mass p) (u_particles u) ->
    total_energy u = energy G p_hpos p_hvel (u_particles u).
  Proof.
    intro Hl. unfold total_energy, energy. rewrite fold_rsum, potential_pairs by exact Hl. num_simpl.
    fold (bond G p_hpos). rewrite (Rsum_map_ext kinetic (fun p => 1 / 2 * p_mass p * norm2 (p_hvel p))).
    - unfold bond. ring.
    - apply Forall_forall. intros p _. unfold kinetic. num_simpl. reflexivity.
  Qed.
  Theorem total_angular_momentum_spec (u : universe R) :
    total_angular_momentum u
    = sqrt (norm2 (Vsum (map (fun p => vscale (p_mass p) (vcross (p_hpos p) (p_hvel p))) (u_particles u)))).
  Proof.
    unfold total_angular_momentum. num_simpl. f_equal. f_equal.
    transitivity (vadd vzero (Vsum (map (fun p : particle R => vscale (p_mass p) (vcross (p_hpos p) (p_hvel p))) (u_particles u)))).
    - apply (fold_left_vadd (fun p : particle R => vscale (p_mass p) (vcross (p_hpos p) (p_hvel p)))).
    - apply vadd_0_l.
  Qed.

  Lemma Rsum_perm (l l' : list R) : Permutation l l' -> Rsum l = Rsum l'.
  Proof. unfold Rsum. induction 1; cbn; lra. Qed.
  Lemma Vsum_perm (l l' : list (vec R)) : Permutation l l' -> Vsum l = Vsum l'.
  Proof.
    unfold Vsum. induction 1; cbn; [reflexivity|congruence| |congruence].
    rewrite !vadd_assoc, (vadd_comm y x). reflexivity.
  Qed.
  Lemma Rsum_pairs_perm {A} (f : A -> A -> R) l l' : (forall a b, f a b = f b a) -> Permutation l l' -> Rsum_pairs f l = Rsum_pairs f l'.
  Proof.
    intro Hf. induction 1 as [|a l l' P IH|a b l|l l' l'' _ I1 _ I2]; cbn [Rsum_pairs map]; auto.
    - rewrite IH. f_equal. now apply Rsum_perm, Permutation_map.
    - unfold Rsum. cbn [fold_right]. rewrite (Hf a b). ring.
    - congruence.
  Qed.
  Lemma energy_perm g x v l l' : Permutation l l' -> energy g x v l = energy g x v l'.
  Proof.
    intro P. unfold energy. f_equal; [now apply Rsum_perm, Permutation_map|]. apply Rsum_pairs_perm; auto.
    intros a b. rewrite (norm2_vsub_sym (x b) (x a)). unfold Rdiv. ring.
  Qed.
  Lemma weighted_perm f l l' : Permutation l l' -> weighted f l = weighted f l'.
  Proof. intro P. now apply Vsum_perm, Permutation_map. Qed.
  Lemma mass_perm l l' : Permutation l l' -> total_mass l = total_mass l'.
  Proof. intro P. now apply Rsum_perm, Permutation_map. Qed.
  Theorem totals_order (u u' : universe R) : Permutation (u_particles u) (u_particles u') ->
    Forall (fun p => p_mass_g p = G * p_mass p) (u_particles u) ->
    Forall (fun p => 0 <= p_mass p) (u_particles u) -> 0 < total_mass (u_particles u) ->
    total_energy u' = total_energy u /\ total_angular_momentum u' = total_angular_momentum u
    /\ center_of_mass (u_particles u') = center_of_mass (u_particles u).
  Proof.
    intros P Hg Hm Ht. pose proof (Permutation_sym P) as P'.
    assert (Hg' : Forall (fun p => p_mass_g p = G * p_mass p) (u_particles u')) by (eapply Permutation_Forall; eauto).
    assert (Hm' : Forall (fun p => 0 <= p_mass p) (u_particles u')) by (eapply Permutation_Forall; eauto).
    rewrite !total_energy_spec, !total_angular_momentum_spec, !com_mean by (auto; rewrite (mass_perm _ _ P'); auto).
    split; [now apply energy_perm|]. split.
    - do 2 f_equal. now apply Vsum_perm, Permutation_map.
    - unfold mean. now rewrite (mass_perm _ _ P'), !(weighted_perm _ _ _ P').
  Qed.
  Lemma sub_sub (a b v : vec R) : vsub (vsub a v) (vsub b v) = vsub a b.
  Proof. vring. Qed.
  (** the frame of the reported energy *)
  Lemma energy_frame g X V (l : list (particle R)) :
    Forall (fun p => p_hpos p = vsub (p_ipos p) X /\ p_hvel p = vsub (p_ivel p) V) l ->
    energy g p_hpos p_hvel l
    = energy g p_ipos p_ivel l + 1 / 2 * total_mass l * norm2 V - vdot V (momentum l).
  Proof.
    intro Hl. unfold energy.
    replace (Rsum_pairs (fun a b => g * p_mass a * p_mass b / sqrt (norm2 (vsub (p_hpos b) (p_hpos a)))) l)
      with (Rsum_pairs (fun a b => g * p_mass a * p_mass b / sqrt (norm2 (vsub (p_ipos b) (p_ipos a)))) l).
    2:{ induction Hl as [|p l (Hp & _) Hl IH]; [reflexivity|]. cbn [Rsum_pairs]. rewrite IH. f_equal.
        apply Rsum_map_ext, Forall_forall. intros q Hq. rewrite Forall_forall in Hl. destruct (Hl q Hq) as (Eq & _).
        rewrite Hp, Eq, sub_sub. reflexivity. }
    assert (T : Rsum (map (fun p => 1 / 2 * p_mass p * norm2 (p_hvel p)) l)
      = Rsum (map (fun p => 1 / 2 * p_mass p * norm2 (p_ivel p)) l) + 1 / 2 * total_mass l * norm2 V - vdot V (momentum l)); [|rewrite T; ring].
    induction Hl as [|p l (_ & Hp) Hl IH]; [unfold total_mass, momentum, weighted; cbn; vunfold; ring|].
    change (momentum (p :: l)) with (vadd (vscale (p_mass p) (p_ivel p)) (momentum l)).
    change (total_mass (p :: l)) with (p_mass p + total_mass l). cbn [map]. unfold Rsum in *. cbn [fold_right]. rewrite IH, Hp.
    generalize (total_mass l), (momentum l), (p_mass p), (p_ivel p). clear. intros. vdestruct. vunfold. field.
  Qed.
End Totals.

(** ** Spin *)
Section Spin.
  Lemma refresh_spin_ok i (p p' : particle R) : refresh_spin (i, p) = Ok p' -> spin_ok p' /\ (inertia_ok p -> inertia_ok p').
  Proof.
    unfold refresh_spin. num_simpl. destruct (Reqb (p_inertia p) 0) eqn:E; [intro X; discriminate X|].
    intro X. injection X as <-. apply Reqb_false in E. split; [|auto]. unfold spin_ok.
    cbn [p_inertia p_spin p_L p_spin2 set_p_spin set_p_spin2]. split; [|reflexivity].
    destruct (p_L p) as [x y z]. vunfold. f_equal; field; exact E.
  Qed.
  Lemma evolve_spin_keeps sun2 t (p p' : particle R) e e' : evolve_spin sun2 t (p, e) = Ok (p', e') ->
    p_inertia p' = p_inertia p /\ p_mass p' = p_mass p /\ p_rg2 p' = p_rg2 p /\ p_radius p' = p_radius p
    /\ p_L p' = p_L p /\ p_spin p' = p_spin p /\ p_spin2 p' = p_spin2 p.
  Proof.
    unfold evolve_spin. destruct (dynamical_tide _).
    - destruct (evolver_invq _ _ _) as [[q e1]|]; [|intro X; discriminate X]. cbn [rbind]. intro X. injection X as <- <-. auto 8.
    - intro X. injection X as <- <-. auto 8.
  Qed.
  Lemma rmap_forall {A B} (P : A -> Prop) (Q : B -> Prop) (f : A -> res B) l l' :
    (forall a b, P a -> f a = Ok b -> Q b) -> Forall P l -> rmap f l = Ok l' -> Forall Q l'.
  Proof.
    intros Hf Hl. revert l'. induction Hl as [|a l Ha Hl IH]; intros l' E; cbn [rmap] in E.
    - injection E as <-. constructor.
    - destruct (f a) as [b|] eqn:Eb; [|discriminate E]. cbn [rbind] in E.
      destruct (rmap f l) as [bs|]; [|discriminate E]. cbn [rbind] in E. injection E as <-. constructor; eauto.
  Qed.
  Lemma enumerate_forall {A} (P : A -> Prop) l : Forall P l -> Forall (fun ia => P (snd ia)) (enumerate l).
  Proof. intro Hl. apply Forall_map with (f := snd). rewrite map_snd_enumerate. exact Hl. Qed.

  Theorem spins_refreshed t ev (u u' : universe R) : Forall inertia_ok (u_particles u) -> spin_and_evolving t ev u = Ok u' ->
    Forall (fun p => spin_ok p /\ inertia_ok p) (u_particles u').
  Proof.
    intros Hu. unfold spin_and_evolving.
    destruct (if ev && _ then rzip (evolve_non_spin t) _ _ else _) as [[l1 e1]|] eqn:E1; [|intro X; discriminate X]. cbn [rbind fst snd].
    assert (H1 : Forall inertia_ok l1).
    { destruct (ev && _); [|injection E1 as <- _; exact Hu]. eapply rzip_forall; [|exact Hu|exact E1].
      intros a b a' b' Ha. apply evolve_inertia. exact Ha. }
    destruct (rmapi refresh_spin l1) as [l2|] eqn:E2; [|intro X; discriminate X]. cbn [rbind].
    assert (H2 : Forall (fun p => spin_ok p /\ inertia_ok p) l2).
    { eapply rmap_forall; [|exact (enumerate_forall inertia_ok l1 H1)|exact E2]. intros [i p] p' Hp E. destruct (refresh_spin_ok _ _ _ E); auto. }
    destruct (if ev && _ then rzip (evolve_spin _ t) _ _ else _) as [[l3 e3]|] eqn:E3; [|intro X; discriminate X]. cbn [rbind fst snd].
    intro X. injection X as <-. cbn [u_particles set_evolvers set_particles].
    destruct (ev && _); [|injection E3 as <- _; exact H2]. eapply rzip_forall; [|exact H2|exact E3].
    intros p e p' e' (Hs & Hi) E. apply evolve_spin_keeps in E. destruct E as (K1 & K2 & K3 & K4 & K5 & K6 & K7).
    unfold spin_ok, inertia_ok in *. rewrite K1, K2, K3, K4, K5, K6, K7. auto.
  Qed.
  Lemma new_particle_inertia (k2 mass radius rg : R) x v s : inertia_ok (new_particle k2 mass radius rg x v s).
  Proof. unfold inertia_ok, new_particle. cbn. num_simpl. ring. Qed.
  Context `{Trans R} `{Floor R} `{Fuel}.
  Lemma start_evolving_inertia (p p' : particle R) e e' : inertia_ok p -> start_evolving (p, e) = Ok (p', e') -> inertia_ok p'.
  Proof.
    intro Hp. unfold start_evolving. destruct (negb _); [intro E; injection E as <- <-; exact Hp|].
    destruct (evolver_radius _ _ _) as [[r1 e1]|]; [|intro E; discriminate E]. cbn [rbind].
    destruct (nltb _ _);
    (destruct (evolver_rg2 _ _ _) as [[r2 e2]|]; [|intro E; discriminate E]); cbn [rbind];
    destruct (nltb _ _); cbn [orb]; intro E; injection E as <- <-; try exact Hp; unfold inertia_ok; cbn; num_simpl; ring.
  Qed.
  Definition rotational (p : particle R) := (p_inertia p, p_mass p, p_rg2 p, p_radius p, p_spin p, p_L p, p_spin2 p).
  Lemma new_universe_keeps (Q : particle R -> Prop) mk initial limit (l : list (particle R)) c u :
    (forall p p', rotational p' = rotational p -> Q p -> Q p') ->
    (forall p p' e e', Q p -> start_evolving (p, e) = Ok (p', e') -> Q p') ->
    Forall Q l -> new_universe mk initial limit l c = Ok u -> Forall Q (u_particles u).
  Proof.
    intros Hic Hev Hl. unfold new_universe. destruct (disable_unnecessary c l) as [c1|] eqn:E1; [|intro X; discriminate X]. cbn [rbind].
    destruct (find_indices l c1) as [h|] eqn:E2; [|intro X; discriminate X]. cbn [rbind].
    destruct (if e_gr c1 then _ else _) as [l1|] eqn:E3; [|intro X; discriminate X]. cbn [rbind].
    set (ic := rotational) in *.
    assert (Hmap : forall l l', map ic l' = map ic l -> Forall Q l -> Forall Q l').
    { clear - Hic. intros l l' E Hl. apply Forall_forall. intros p Hp. apply In_nth_error in Hp. destruct Hp as (i & Hp).
      destruct (map_nth_eq _ _ _ _ _ _ E Hp) as (q & Hq & Eq). eapply Hic; [exact Eq|]. rewrite Forall_forall in Hl. apply Hl.
      eapply nth_error_In; eauto. }
    assert (K1 : Forall Q l1).
    { apply (Hmap l); [|exact Hl]. destruct (e_gr c1); [|injection E3 as <-; reflexivity].
      eapply with_host_frame; [exact E3|]. intros host o r X. injection X as <-. unfold gr_factors.
      destruct (gr_central host); cbn [fst snd]; [|auto]. split; auto. rewrite map_map. reflexivity. }
    destruct (Nat.ltb MAX_PARTICLES _); [intro X; discriminate X|].
    set (l2 := map number _).
    assert (K2 : Forall Q l2).
    { apply (Hmap l1); [|exact K1]. unfold l2. rewrite map_map.
      change (fun x : nat * particle R => ic (number x)) with (fun x : nat * particle R => ic (snd x)).
      rewrite <- (map_map snd ic), map_snd_enumerate, map_map. reflexivity. }
    destruct (if e_evolution c1 then _ else _) as [[l3 evs]|] eqn:E5; [|intro X; discriminate X]. cbn [rbind fst snd].
    intro X. injection X as <-. cbn [u_particles].
    destruct (e_evolution c1); [|injection E5 as <- _; exact K2].
    eapply rzip_forall; [|exact K2|exact E5]. intros a b a' b'. apply Hev.
  Qed.
  Theorem new_universe_inertia mk initial limit (l : list (particle R)) c u : Forall inertia_ok l ->
    new_universe mk initial limit l c = Ok u -> Forall inertia_ok (u_particles u).
  Proof.
    apply new_universe_keeps; [|intros p p' e e'; apply start_evolving_inertia].
    intros p p' E. unfold inertia_ok. unfold rotational in E.
    pose proof (f_equal (fun t => fst (fst (fst t))) E) as E'. cbn [fst] in E'. injection E' as -> -> -> ->. auto.
  Qed.
  Lemma start_evolving_spin (p p' : particle R) e e' : spin_ok p -> start_evolving (p, e) = Ok (p', e') -> spin_ok p' /\ p_spin p' = p_spin p.
  Proof.
    intro Hp. unfold start_evolving. destruct (negb _); [intro E; injection E as <- <-; auto|].
    destruct (evolver_radius _ _ _) as [[r1 e1]|]; [|intro E; discriminate E]. cbn [rbind].
    destruct Hp as [HL H2].
    destruct (nltb _ _);
    (destruct (evolver_rg2 _ _ _) as [[r2 e2]|]; [|intro E; discriminate E]); cbn [rbind];
    destruct (nltb _ _); cbn [orb]; intro E; injection E as <- <-; (split; [split|reflexivity]); try exact HL; try exact H2;
    cbn [p_spin p_L p_inertia set_p_L set_p_inertia set_p_radius set_p_rg2]; unfold vscale, vmulr; apply f_equal3; apply Rmult_comm.
  Qed.
  Theorem new_universe_spin mk initial limit (l : list (particle R)) c u : Forall spin_ok l ->
    new_universe mk initial limit l c = Ok u -> Forall spin_ok (u_particles u).
  Proof.
    apply new_universe_keeps; [|intros p p' e e' Hp E; exact (proj1 (start_evolving_spin p p' e e' Hp E))].
    intros p p' E. unfold spin_ok. unfold rotational in E.
    pose proof (f_equal (fun t => snd t) E) as A1. pose proof (f_equal (fun t => snd (fst t)) E) as A2.
    pose proof (f_equal (fun t => snd (fst (fst t))) E) as A3.
    pose proof (f_equal (fun t => fst (fst (fst (fst (fst (fst t)))))) E) as A4. cbn [fst snd] in *.
    rewrite A1, A2, A3, A4. auto.
  Qed.
  (** the tables are followed to within 1e-6 *)
  Lemma start_evolving_close (p p' : particle R) e e' : evolves (p_evo p) = true -> start_evolving (p, e) = Ok (p', e') ->
    exists r g e1, evolver_radius e 0 (p_radius p) = Ok (r, e1) /\ evolver_rg2 e1 0 (p_rg2 p) = Ok (g, e')
    /\ Rabs (r - p_radius p') <= 1 / 1000000 /\ Rabs (g - p_rg2 p') <= 1 / 1000000.
  Proof.
    intro Hp. unfold start_evolving. rewrite Hp. cbn [negb]. change (@n0 R _) with 0.
    destruct (evolver_radius _ _ _) as [[r1 e1]|] eqn:E1; [|intro E; discriminate E]. cbn [rbind].
    num_simpl.
    assert (Z : forall x, Rabs (x - x) <= 1 / 1000000) by (intro x; unfold Rminus; rewrite Rplus_opp_r, Rabs_R0; lra).
    destruct (Rltb_spec (1 / 1000000) (Rabs (r1 - p_radius p))) as [H1'|H1'];
    [change (p_rg2 (set_p_radius r1 p)) with (p_rg2 p)|];
    (destruct (evolver_rg2 _ _ _) as [[r2 e2]|] eqn:E2; [|intro E; discriminate E]); cbn [rbind];
    destruct (Rltb_spec (1 / 1000000) (Rabs (r2 - p_rg2 p))) as [H2'|H2']; cbn [orb]; intro E; injection E as <- <-;
    exists r1, r2, e1; (split; [reflexivity|]); (split; [exact E2|]);
    cbn [p_radius p_rg2 set_p_L set_p_inertia set_p_radius set_p_rg2]; split; first [apply Z | apply Rnot_lt_le; assumption].
  Qed.
End Spin.

(** ** Heliocentric coordinates *)
Section Helio.
  Lemma others_at {A} h (l : list A) i : nth_error (others h l) i = nth_error l (if Nat.ltb i h then i else S i).
  Proof.
    unfold others. destruct (Nat.ltb_spec i h) as [Hi|Hi].
    - destruct (Nat.lt_ge_cases i (length l)) as [Hl|Hl].
      + rewrite nth_error_app1 by (rewrite firstn_length; lia).
        rewrite <- (firstn_skipn h l) at 2. rewrite nth_error_app1 by (rewrite firstn_length; lia). reflexivity.
      + transitivity (@None A); [|symmetry; apply nth_error_None; exact Hl].
        apply nth_error_None. rewrite app_length, firstn_length, skipn_length. lia.
    - destruct (Nat.lt_ge_cases h (length l)) as [Hl|Hl].
      + rewrite nth_error_app2 by (rewrite firstn_length; lia). rewrite firstn_length, Nat.min_l by lia.
        rewrite <- (firstn_skipn (S h) l) at 2. rewrite nth_error_app2 by (rewrite firstn_length; lia). rewrite firstn_length, Nat.min_l by lia.
        f_equal; lia.
      + transitivity (@None A); [|symmetry; apply nth_error_None; lia].
        apply nth_error_None. rewrite app_length, firstn_length, skipn_length. lia.
  Qed.
  Lemma reassemble_at {A} h a (o : list A) i : (h <= length o)%nat ->
    nth_error (reassemble h a o) i = if Nat.eqb i h then Some a else nth_error o (if Nat.ltb i h then i else pred i).
  Proof.
    intro Hh. unfold reassemble. destruct (Nat.eqb_spec i h) as [->|Hi].
    - rewrite nth_error_app2 by (rewrite firstn_length; lia). rewrite firstn_length, Nat.min_l by lia. now rewrite Nat.sub_diag.
    - destruct (Nat.ltb_spec i h) as [Hl|Hl].
      + rewrite nth_error_app1 by (rewrite firstn_length; lia).
        rewrite <- (firstn_skipn h o) at 2. rewrite nth_error_app1 by (rewrite firstn_length; lia). reflexivity.
      + rewrite nth_error_app2 by (rewrite firstn_length; lia). rewrite firstn_length, Nat.min_l by lia.
        destruct (i - h)%nat as [|k] eqn:Ek; [lia|]. cbn [nth_error].
        rewrite <- (firstn_skipn h o) at 2. rewrite nth_error_app2 by (rewrite firstn_length; lia). rewrite firstn_length, Nat.min_l by lia.
        f_equal; lia.
  Qed.
  Lemma others_length {A} h (l : list A) : (h < length l)%nat -> length (others h l) = pred (length l).
  Proof. intro Hh. unfold others. rewrite app_length, firstn_length, skipn_length. lia. Qed.
  Lemma with_host_at {A} h (l l' : list A) host (g : A -> A) (f : A -> A -> A) : nth_error l h = Some host ->
    with_host h l (fun host o => Ok (g host, map (f host) o)) = Ok l' ->
    forall i, nth_error l' i = if Nat.eqb i h then Some (g host) else option_map (f host) (nth_error l i).
  Proof.
    intros Hh. unfold with_host. rewrite Hh. destruct (Nat.leb _ _); [|intro X; discriminate X]. cbn [rbind fst snd].
    intro X. injection X as <-. intro i.
    assert (h < length l)%nat by (apply nth_error_Some; congruence).
    rewrite reassemble_at by (rewrite map_length, others_length; lia).
    destruct (Nat.eqb_spec i h) as [|Hi]; [reflexivity|]. rewrite nth_error_map, others_at. f_equal. f_equal.
    destruct (Nat.ltb_spec i h); [destruct (Nat.ltb_spec i h); lia|]. destruct (Nat.ltb_spec (pred i) h); lia.
  Qed.
  Lemma firstn_nth {A} n (l : list A) i : (i < n)%nat -> nth_error (firstn n l) i = nth_error l i.
  Proof.
    revert l i; induction n as [|n IH]; intros l i Hi; [lia|]. destruct l as [|a l]; [reflexivity|]. destruct i as [|i]; [reflexivity|].
    cbn. apply IH. lia.
  Qed.
  Context `{Trans R} `{Floor R} `{Fuel}.
  Theorem heliocentric_spec (u u' : universe R) host i p' : inertial_to_heliocentric u = Ok u' ->
    nth_error (u_particles u) (h_most_massive (u_hosts u)) = Some host -> nth_error (u_particles u') i = Some p' ->
    if Nat.eqb i (h_most_massive (u_hosts u)) then p' = heliocentric_host host
    else exists p, nth_error (u_particles u) i = Some p /\ p' = heliocentric host p.
  Proof.
    unfold inertial_to_heliocentric. intros E Hh Hp.
    destruct (with_host _ _ _) as [l|] eqn:El; [|discriminate E]. cbn [rbind] in E. injection E as <-.
    cbn [u_particles set_dummies set_particles] in Hp.
    assert (Hn : (h_most_massive (u_hosts u) < length (u_particles u))%nat) by (apply nth_error_Some; congruence).
    assert (Hi : (i < length (u_particles u))%nat).
    { assert (X : (i < length (firstn (length (u_particles u)) l))%nat) by (apply nth_error_Some; congruence). rewrite firstn_length in X. lia. }
    rewrite firstn_nth in Hp by exact Hi.
    rewrite (with_host_at _ _ _ host heliocentric_host heliocentric) with (2 := El) in Hp by (rewrite nth_error_app1 by exact Hn; exact Hh).
    destruct (Nat.eqb _ _); [injection Hp as <-; reflexivity|]. rewrite nth_error_app1 in Hp by exact Hi.
    destruct (nth_error (u_particles u) i) as [p|]; [|discriminate Hp]. injection Hp as <-. eauto.
  Qed.
  Lemma heliocentric_relative (host p : particle R) : p_hvel host = vzero ->
    let q := heliocentric host p in relative_to host p (p_hpos q) (p_hvel q) (p_hdist q) (p_hradvel q) (p_hnorm q)
    /\ p_hnorm2 q = norm2 (p_hvel q).
  Proof.
    intro E. cbn zeta.
    assert (T : norm2 (vsub (p_hvel (heliocentric host p)) (p_hvel host)) = norm2 (p_hvel (heliocentric host p))).
    { rewrite E. generalize (p_hvel (heliocentric host p)). clear. intros. vdestruct. vunfold. ring. }
    split; [|exact T]. unfold relative_to. rewrite <- T. auto 8.
  Qed.
  Theorem heliocentric_refreshed (u u' : universe R) host i p' : inertial_to_heliocentric u = Ok u' ->
    nth_error (u_particles u) (h_most_massive (u_hosts u)) = Some host -> p_hvel host = vzero ->
    i <> h_most_massive (u_hosts u) -> nth_error (u_particles u') i = Some p' ->
    exists p, nth_error (u_particles u) i = Some p
    /\ relative_to host p (p_hpos p') (p_hvel p') (p_hdist p') (p_hradvel p') (p_hnorm p') /\ p_hnorm2 p' = norm2 (p_hvel p').
  Proof.
    intros E Hh Hv Hi Hp. pose proof (heliocentric_spec _ _ _ _ _ E Hh Hp) as X.
    destruct (Nat.eqb_spec i (h_most_massive (u_hosts u))); [contradiction|]. destruct X as (p & Hp0 & ->).
    exists p. split; [exact Hp0|]. destruct (heliocentric_relative host p Hv). auto.
  Qed.
  (** everything but the speed, whatever was cached *)
  Theorem heliocentric_most (u u' : universe R) host i p' : inertial_to_heliocentric u = Ok u' ->
    nth_error (u_particles u) (h_most_massive (u_hosts u)) = Some host ->
    i <> h_most_massive (u_hosts u) -> nth_error (u_particles u') i = Some p' ->
    exists p, nth_error (u_particles u) i = Some p
    /\ relative_to host p (p_hpos p') (p_hvel p') (p_hdist p') (p_hradvel p') (sqrt (norm2 (p_hvel p')))
    /\ p_hnorm p' = sqrt (norm2 (vsub (p_hvel p') (p_hvel host))).
  Proof.
    intros E Hh Hi Hp. pose proof (heliocentric_spec _ _ _ _ _ E Hh Hp) as X.
    destruct (Nat.eqb_spec i (h_most_massive (u_hosts u))); [contradiction|]. destruct X as (p & Hp0 & ->).
    exists p. split; [exact Hp0|]. split; [|reflexivity]. unfold relative_to, heliocentric. cbn. num_simpl. auto 8.
  Qed.
  Theorem heliocentric_host_zero (u u' : universe R) host : inertial_to_heliocentric u = Ok u' ->
    nth_error (u_particles u) (h_most_massive (u_hosts u)) = Some host ->
    exists host', nth_error (u_particles u') (h_most_massive (u_hosts u')) = Some host' /\ u_hosts u' = u_hosts u
    /\ p_hpos host' = vzero /\ p_hvel host' = vzero /\ p_hdist host' = 0 /\ p_hradvel host' = 0 /\ p_hnorm host' = 0 /\ p_hnorm2 host' = 0
    /\ p_ipos host' = p_ipos host /\ p_ivel host' = p_ivel host.
  Proof.
    intros E Hh. pose proof E as E'. apply i2h_frame in E'. destruct E' as ((_ & Fh & _ & Fl & _) & _).
    assert (Hn : (h_most_massive (u_hosts u) < length (u_particles u'))%nat) by (rewrite Fl; apply nth_error_Some; congruence).
    destruct (nth_error (u_particles u') (h_most_massive (u_hosts u))) as [q|] eqn:Eq; [|apply nth_error_None in Eq; lia].
    pose proof (heliocentric_spec _ _ _ _ _ E Hh Eq) as X. rewrite Nat.eqb_refl in X. subst q.
    exists (heliocentric_host host). rewrite Fh. split; [exact Eq|]. auto 10.
  Qed.
End Helio.

(** ** Proximity *)
Section Roche.
  Context `{Trans R}.
  Lemma roche_heavy (a b : particle R) : p_mass b < p_mass a ->
    roche_radius a b = roche_limit (fun x => tpow x (1 / 3)) a b /\ roche_radius b a = roche_limit (fun x => tpow x (1 / 3)) a b.
  Proof.
    intro Hm. unfold roche_radius, roche_limit. num_simpl. replace (1 / (3 / 1)) with (1 / 3) by field. split; rcase; try lra; reflexivity.
  Qed.
  Lemma calculate_roche_square (u : universe R) : roche_square u -> roche_square (calculate_roche u).
  Proof.
    unfold roche_square, calculate_roche. cbn [u_particles u_roche set_roche]. intros (H1 & H2).
    rewrite map_length, combine_length, enumerate_length, H1, Nat.min_id. split; [reflexivity|].
    apply Forall_forall. intros row Hr. apply in_map_iff in Hr. destruct Hr as ([[i a] r] & <- & Hr).
    rewrite map_length, combine_length, enumerate_length. apply in_combine_r in Hr. rewrite Forall_forall in H2.
    cbn [snd]. rewrite (H2 _ Hr). apply Nat.min_id.
  Qed.
  Lemma calculate_roche_at (u : universe R) i j a b : roche_square u -> i <> j ->
    nth_error (u_particles u) i = Some a -> nth_error (u_particles u) j = Some b ->
    exists row, nth_error (u_roche (calculate_roche u)) i = Some row /\ nth_error row j = Some (roche_radius a b).
  Proof.
    intros (H1 & H2) Hij Ha Hb. unfold calculate_roche. cbn [u_roche set_roche].
    assert (Li : (i < length (u_roche u))%nat) by (rewrite H1; apply nth_error_Some; congruence).
    destruct (nth_error (u_roche u) i) as [row|] eqn:Er; [|apply nth_error_None in Er; lia].
    assert (Lr : length row = length (u_particles u)) by (rewrite Forall_forall in H2; apply H2; eapply nth_error_In; eauto).
    assert (Lj : (j < length row)%nat) by (rewrite Lr; apply nth_error_Some; congruence).
    destruct (nth_error row j) as [r|] eqn:Ej; [|apply nth_error_None in Ej; lia].
    eexists. rewrite nth_error_map. rewrite (nth_combine _ _ _ _ _ (nth_enumerate _ _ _ Ha) Er). cbn [option_map].
    split; [reflexivity|]. rewrite nth_error_map. cbn [snd fst].
    rewrite (nth_combine _ _ _ _ _ (nth_enumerate _ _ _ Hb) Ej). cbn [option_map fst snd].
    destruct (Nat.eqb_spec i j); [contradiction|reflexivity].
  Qed.
  Context `{Floor R} `{Fuel}.
  Lemma norm2_nonneg' (v : vec R) : 0 <= norm2 v.
  Proof. destruct v. vunfold. nra. Qed.
  Lemma lt_separation (r : R) (a b : particle R) : r ^ 2 < norm2 (vsub (p_ipos b) (p_ipos a)) -> r < separation a b.
  Proof.
    intro Hr. unfold separation. pose proof (sqrt_pos (norm2 (vsub (p_ipos b) (p_ipos a)))) as Hs.
    pose proof (sqrt_sqrt _ (norm2_nonneg' (vsub (p_ipos b) (p_ipos a)))) as Hq.
    destruct (Rlt_le_dec r (sqrt (norm2 (vsub (p_ipos b) (p_ipos a))))) as [|Hc]; [auto|]. exfalso. nra.
  Qed.
  Theorem roche_checked (u u' : universe R) i j a b : roche_square u -> gravity IgnoreNone (calculate_roche u) = Ok u' ->
    nth_error (u_particles u) i = Some a -> nth_error (u_particles u) j = Some b -> p_mass b < p_mass a ->
    roche_limit (fun x => tpow x (1 / 3)) a b < separation a b /\ p_radius a + p_radius b < separation a b.
  Proof.
    intros Hs E Ha Hb Hm. assert (Hij : i <> j) by (intros ->; rewrite Ha in Hb; injection Hb as ->; lra).
    pose proof (calculate_roche_square u Hs) as Hs'. destruct (roche_heavy a b Hm) as (R1 & R2).
    destruct (Nat.lt_ge_cases i j) as [Hl|Hl].
    - destruct (calculate_roche_at u i j a b Hs Hij Ha Hb) as (row & Er & Ej).
      destruct (gravity_checked _ _ _ _ _ _ _ _ Hs' E Ha Hb Hl Er Ej) as (G1 & G2 & _).
      rewrite R1 in G1. split; now apply lt_separation.
    - destruct (calculate_roche_at u j i b a Hs ltac:(lia) Hb Ha) as (row & Er & Ej).
      destruct (gravity_checked _ _ j i b a row _ Hs' E Hb Ha ltac:(lia) Er Ej) as (G1 & G2 & _).
      rewrite R2, (norm2_vsub_sym (p_ipos a) (p_ipos b)) in G1. rewrite (Rplus_comm (p_radius b)), (norm2_vsub_sym (p_ipos a) (p_ipos b)) in G2.
      split; now apply lt_separation.
  Qed.
End Roche.
