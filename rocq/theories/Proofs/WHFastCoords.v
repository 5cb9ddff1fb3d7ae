(** * WHFast coordinates (C16, C17, C19) *)
From Coq Require Import Reals List Bool Lra Lia.
From Verif Require Import Base.Num Base.Result Base.Trans Base.Vec Model.Constants Model.Particle Model.Host
  Model.Creep Model.Relativity Model.Universe Model.WHFast
  Spec.EffectsSpec Spec.UniverseSpec Spec.WHFastSpec Proofs.NumLemmas Proofs.VecLemmas Proofs.GravityProofs Proofs.LeapFrogProofs.
Import ListNotations.
Open Scope R_scope.

Ltac vfield := intros; vdestruct; vunfold; vsplit; field.

Lemma walk_app {S A} (f : S -> A -> S * A) l1 l2 : forall s,
  walk f s (l1 ++ l2) =
  let '(s1, l1') := walk f s l1 in let '(s2, l2') := walk f s1 l2 in (s2, l1' ++ l2').
Proof.
  induction l1 as [|a l1 IH]; intro s; cbn [walk app].
  - destruct (walk f s l2); reflexivity.
  - destruct (f s a) as [s1 a1]. rewrite IH. destruct (walk f s1 l1) as [s2 l1']. destruct (walk f s2 l2). reflexivity.
Qed.

(** ** Masses *)
Lemma total_cons p l : total_mass (p :: l) = p_mass p + total_mass l.
Proof. reflexivity. Qed.
Lemma total_app l1 l2 : total_mass (l1 ++ l2) = total_mass l1 + total_mass l2.
Proof. unfold total_mass. rewrite map_app. induction (map p_mass l1) as [|a l IH]; cbn [app Rsum fold_right] in *; [unfold Rsum; lra|]. unfold Rsum in *. cbn [fold_right]. lra. Qed.
Lemma total_snoc l p : total_mass (l ++ [p]) = total_mass l + p_mass p.
Proof. rewrite total_app. unfold total_mass at 2. cbn. lra. Qed.
Lemma weighted_cons f p l : weighted f (p :: l) = vadd (vscale (p_mass p) (f p)) (weighted f l).
Proof. reflexivity. Qed.
Lemma weighted_snoc f l p : weighted f (l ++ [p]) = vadd (weighted f l) (vscale (p_mass p) (f p)).
Proof. unfold weighted. rewrite map_app, Vsum_app. cbn [map Vsum fold_right]. now rewrite vadd_0_r. Qed.

(** partial sums from [inside] on do not vanish *)
Definition sums_ok (inside l : list (particle R)) : Prop := forall k, total_mass (inside ++ firstn k l) <> 0.
Lemma sums_ok_cons inside p l : sums_ok inside (p :: l) ->
  total_mass inside <> 0 /\ total_mass inside + p_mass p <> 0 /\ sums_ok (inside ++ [p]) l.
Proof.
  intro S. split; [|split].
  - specialize (S 0%nat). cbn [firstn] in S. now rewrite app_nil_r in S.
  - specialize (S 1%nat). cbn [firstn] in S. now rewrite total_snoc in S.
  - intro k. specialize (S (Datatypes.S k)). cbn [firstn] in S. now rewrite <- app_assoc.
Qed.
Lemma sums_ok_self inside l : sums_ok inside l -> total_mass inside <> 0.
Proof. intro S. specialize (S 0%nat). cbn [firstn] in S. now rewrite app_nil_r in S. Qed.
Lemma sums_ok_all inside l : sums_ok inside l -> total_mass (inside ++ l) <> 0.
Proof. intro S. specialize (S (length l)). now rewrite firstn_all in S. Qed.

Lemma jacobi_frame_length f l : forall inside, length (jacobi_frame f inside l) = length l.
Proof. induction l as [|p l IH]; intro inside; cbn [jacobi_frame length]; [reflexivity|]. now rewrite IH. Qed.


(** ** One body *)
  Lemma in_pos (eta : R) (s x : vec R) : vsub x (vmulr s (1 / eta)) = vsub x (vscale (/ eta) s).
  Proof. unfold Rdiv. rewrite Rmult_1_l. vdestruct. vunfold. f_equal; ring. Qed.
  Lemma in_sum (eta m : R) (s x : vec R) : eta <> 0 ->
    vadd (vmulr s ((eta + m) * (1 / eta))) (vscale m (vsub x (vscale (/ eta) s))) = vadd s (vscale m x).
  Proof. intro E. vfield; exact E. Qed.
  Lemma out_mean (eta m : R) (s x : vec R) : eta <> 0 -> eta + m <> 0 ->
    vmulr (vsub (vadd s (vscale m x)) (vscale m (vsub x (vscale (/ eta) s)))) (1 / (eta + m)) = vscale (/ eta) s.
  Proof. intros E E'. vfield; auto. Qed.
  Lemma out_pos (eta : R) (s x : vec R) : vadd (vsub x (vscale (/ eta) s)) (vscale (/ eta) s) = x.
  Proof. vring. Qed.
  Lemma out_sum (eta : R) (s : vec R) : eta <> 0 -> vmulr (vscale (/ eta) s) eta = s.
  Proof. intro E. vfield; exact E. Qed.
  Lemma mulr_scale (s : vec R) (k : R) : vmulr s (1 / k) = vscale (/ k) s.
  Proof. unfold Rdiv. rewrite Rmult_1_l. vdestruct. vunfold. f_equal; ring. Qed.
  Lemma divr_scale (s : vec R) (k : R) : vdivr s k = vscale (/ k) s.
  Proof. vdestruct. vunfold. unfold Rdiv. f_equal; ring. Qed.
  Lemma mulr_is_scale (s : vec R) (k : R) : vmulr s k = vscale k s.
  Proof. vring. Qed.


Lemma set_same (p : particle R) : set_p_ivel (p_ivel p) (set_p_ipos (p_ipos p) p) = p.
Proof. destruct p. reflexivity. Qed.

Section Coords.
  Context {fuel_inst : Fuel}.

  (** ** Jacobi coordinates *)
  Definition jset (b : body R) (x v : vec R) : body R :=
    (fst b, Alt (p_mass (fst b)) (p_mass_g (fst b)) x v (a_acc (snd b))).
  Fixpoint jbodies (l : list (body R)) (xs vs : list (vec R)) : list (body R) :=
    match l, xs, vs with b :: l, x :: xs, v :: vs => jset b x v :: jbodies l xs vs | _, _, _ => [] end.

  Lemma jacobi_in_eq eta sx sv (b : body R) : eta <> 0 ->
    jacobi_in (eta, sx, sv) b
    = ((eta + p_mass (fst b), vadd sx (vscale (p_mass (fst b)) (p_ipos (fst b))), vadd sv (vscale (p_mass (fst b)) (p_ivel (fst b)))),
       jset b (vsub (p_ipos (fst b)) (vscale (/ eta) sx)) (vsub (p_ivel (fst b)) (vscale (/ eta) sv))).
  Proof.
    intro E. unfold jacobi_in. cbn [nadd nmul ndiv n1 NumR]. rewrite !in_pos, !in_sum by exact E. reflexivity.
  Qed.
  Lemma jacobi_out_eq eta sx sv (b : body R) : eta <> 0 -> eta + p_mass (fst b) <> 0 ->
    jacobi_out (eta + p_mass (fst b), vadd sx (vscale (p_mass (fst b)) (p_ipos (fst b))), vadd sv (vscale (p_mass (fst b)) (p_ivel (fst b))))
       (jset b (vsub (p_ipos (fst b)) (vscale (/ eta) sx)) (vsub (p_ivel (fst b)) (vscale (/ eta) sv)))
    = ((eta, sx, sv), jset b (vsub (p_ipos (fst b)) (vscale (/ eta) sx)) (vsub (p_ivel (fst b)) (vscale (/ eta) sv))).
  Proof.
    intros E E'. unfold jacobi_out, jset. cbn [nadd nmul nsub ndiv n1 NumR a_pos a_vel].
    rewrite !out_mean, !out_pos, set_same by assumption.
    replace (eta + p_mass (fst b) - p_mass (fst b)) with eta by ring. rewrite !out_sum by exact E. reflexivity.
  Qed.

  Lemma jacobi_walk (o : list (body R)) : forall inside, sums_ok inside (map fst o) ->
    walk jacobi_in (total_mass inside, weighted p_ipos inside, weighted p_ivel inside) o
    = ((total_mass (inside ++ map fst o), weighted p_ipos (inside ++ map fst o), weighted p_ivel (inside ++ map fst o)),
       jbodies o (jacobi_frame p_ipos inside (map fst o)) (jacobi_frame p_ivel inside (map fst o))).
  Proof.
    induction o as [|b o IH]; intros inside S; cbn [map] in *.
    - rewrite app_nil_r. reflexivity.
    - apply sums_ok_cons in S as (S1 & S2 & S3).
      cbn [walk jacobi_frame jbodies]. rewrite jacobi_in_eq by exact S1.
      rewrite <- total_snoc, <- !weighted_snoc, (IH _ S3), <- app_assoc. reflexivity.
  Qed.

  Lemma jacobi_walk_back (o : list (body R)) : forall inside, sums_ok inside (map fst o) ->
    walk jacobi_out (total_mass (inside ++ map fst o), weighted p_ipos (inside ++ map fst o), weighted p_ivel (inside ++ map fst o))
      (rev (jbodies o (jacobi_frame p_ipos inside (map fst o)) (jacobi_frame p_ivel inside (map fst o))))
    = ((total_mass inside, weighted p_ipos inside, weighted p_ivel inside),
       rev (jbodies o (jacobi_frame p_ipos inside (map fst o)) (jacobi_frame p_ivel inside (map fst o)))).
  Proof.
    induction o as [|b o IH]; intros inside S; cbn [map] in *.
    - rewrite app_nil_r. reflexivity.
    - apply sums_ok_cons in S as (S1 & S2 & S3).
      cbn [jacobi_frame jbodies rev]. rewrite walk_app.
      replace (inside ++ fst b :: map fst o) with ((inside ++ [fst b]) ++ map fst o) by now rewrite <- app_assoc.
      rewrite (IH _ S3). cbn [walk]. rewrite total_snoc, !weighted_snoc. unfold mean.
      rewrite jacobi_out_eq by assumption. reflexivity.
  Qed.

  Lemma jbodies_fst (o : list (body R)) : forall xs vs, length xs = length o -> length vs = length o -> map fst (jbodies o xs vs) = map fst o.
  Proof. induction o as [|b o IH]; intros [|x xs] [|v vs] L L'; try discriminate; cbn [jbodies map length] in *; [reflexivity|]. rewrite IH by lia. reflexivity. Qed.
  Lemma jbodies_pos (o : list (body R)) : forall xs vs, length xs = length o -> length vs = length o -> map (fun b => a_pos (snd b)) (jbodies o xs vs) = xs.
  Proof. induction o as [|b o IH]; intros [|x xs] [|v vs] L L'; try discriminate; cbn [jbodies map length] in *; [reflexivity|]. rewrite IH by lia. reflexivity. Qed.
  Lemma jbodies_vel (o : list (body R)) : forall xs vs, length xs = length o -> length vs = length o -> map (fun b => a_vel (snd b)) (jbodies o xs vs) = vs.
  Proof. induction o as [|b o IH]; intros [|x xs] [|v vs] L L'; try discriminate; cbn [jbodies map length] in *; [reflexivity|]. rewrite IH by lia. reflexivity. Qed.

  Lemma jacobi_ok (star : body R) (o : list (body R)) : usable Jacobi (fst star) (map fst o) -> sums_ok [fst star] (map fst o).
  Proof. intros U k. exact (U k). Qed.
  Lemma single_sums (s : particle R) : total_mass [s] = p_mass s /\ forall f, weighted f [s] = vscale (p_mass s) (f s).
  Proof. split; [unfold total_mass; cbn; lra|]. intro f. unfold weighted. cbn [map Vsum fold_right]. apply vadd_0_r. Qed.

  Lemma to_jacobi (star : body R) (o : list (body R)) : usable Jacobi (fst star) (map fst o) ->
    inertial_to_jacobi star o
    = ((fst star, Alt (total_mass (map fst (star :: o))) (a_mass_g (snd star)) (mean p_ipos (map fst (star :: o)))
                    (mean p_ivel (map fst (star :: o))) (a_acc (snd star))),
       jbodies o (jacobi_frame p_ipos [fst star] (map fst o)) (jacobi_frame p_ivel [fst star] (map fst o))).
  Proof.
    intro U. apply jacobi_ok in U. unfold inertial_to_jacobi.
    destruct (single_sums (fst star)) as [T W]. rewrite <- T. rewrite T at 2 3. rewrite <- !W.
    rewrite (jacobi_walk _ _ U). cbn [ndiv n1 NumR]. rewrite !mulr_scale. reflexivity.
  Qed.

  Lemma jacobi_round_trip (star : body R) (o : list (body R)) : usable Jacobi (fst star) (map fst o) ->
    let r := inertial_to_jacobi star o in jacobi_to_inertial (fst r) (snd r) = r.
  Proof.
    intro U. rewrite (to_jacobi _ _ U). cbn [fst snd]. apply jacobi_ok in U. unfold jacobi_to_inertial.
    cbn [snd a_mass a_pos a_vel]. unfold mean. rewrite !vscale_scale.
    assert (E : total_mass (map fst (star :: o)) <> 0) by exact (sums_ok_all _ _ U).
    rewrite !Rinv_r, !vscale_1 by exact E.
    change (map fst (star :: o)) with ([fst star] ++ map fst o). rewrite (jacobi_walk_back _ _ U).
    unfold on_p. cbn [fst snd ndiv n1 NumR]. rewrite rev_involutive.
    destruct (single_sums (fst star)) as [T W]. rewrite T, !W, !mulr_scale, !vscale_scale.
    pose proof (sums_ok_self _ _ U) as E0. rewrite T in E0. rewrite !Rinv_l, !vscale_1, set_same by exact E0. reflexivity.
  Qed.

  (** ** Heliocentric coordinates *)
  Lemma com_fold (o : list (body R)) : forall m mg x v,
    fold_left com_in o (m, mg, x, v)
    = (m + total_mass (map fst o), mg + Rsum (map (fun b => p_mass_g (fst b)) o),
       vadd x (weighted p_ipos (map fst o)), vadd v (weighted p_ivel (map fst o))).
  Proof.
    induction o as [|b o IH]; intros m mg x v; cbn [fold_left map].
    - unfold total_mass, weighted. cbn. rewrite !vadd_0_r, !Rplus_0_r. reflexivity.
    - unfold com_in at 2. rewrite IH, total_cons, !weighted_cons, !mulr_is_scale. cbn [nadd NumR Rsum map fold_right].
      rewrite <- !vadd_assoc, !Rplus_assoc. reflexivity.
  Qed.
  Definition hvel (whds : bool) (V : vec R) (s p : particle R) : vec R :=
    let vel := vsub (p_ivel p) V in if whds then vscale ((p_mass s + p_mass p) / p_mass s) vel else vel.
  Lemma to_helio whds (star : body R) (o : list (body R)) :
    inertial_to_heliocentric_alt whds star o
    = ((fst star, Alt (total_mass (map fst (star :: o))) (Rsum (map (fun b => p_mass_g (fst b)) (star :: o)))
                    (mean p_ipos (map fst (star :: o))) (mean p_ivel (map fst (star :: o))) (a_acc (snd star))),
       map (fun b => (fst b, Alt (p_mass (fst b)) (p_mass_g (fst b)) (vsub (p_ipos (fst b)) (p_ipos (fst star)))
                               (hvel whds (mean p_ivel (map fst (star :: o))) (fst star) (fst b)) (a_acc (snd b)))) o).
  Proof.
    unfold inertial_to_heliocentric_alt. rewrite com_fold. cbn [n0 NumR]. rewrite !vadd_0_l, !Rplus_0_l, !divr_scale.
    f_equal. apply map_ext. intro b. unfold hvel. cbn [nadd ndiv NumR]. destruct whds; rewrite ?mulr_is_scale; reflexivity.
  Qed.

  Lemma helio_pos_fold (o : list (body R)) M x : forall X,
    fold_left (fun X (b : body R) => vsub X (vdivr (vmulr (x b) (p_mass (fst b))) M)) o X
    = vsub X (vscale (/ M) (Vsum (map (fun b => vscale (p_mass (fst b)) (x b)) o))).
  Proof.
    induction o as [|b o IH]; intro X; cbn [fold_left map Vsum fold_right]; [vring|].
    rewrite IH, divr_scale, mulr_is_scale. unfold Vsum. generalize (fold_right vadd vzero (map (fun b0 => vscale (p_mass (fst b0)) (x b0)) o)) (x b).
    intros. unfold vsub. vring.
  Qed.
  Lemma helio_vel_fold (o : list (body R)) (w : body R -> R) (x : body R -> vec R) : forall X,
    fold_left (fun X b => vsub X (vmulr (x b) (w b))) o X = vsub X (Vsum (map (fun b => vscale (w b) (x b)) o)).
  Proof.
    induction o as [|b o IH]; intro X; cbn [fold_left map Vsum fold_right]; [vring|].
    rewrite IH, mulr_is_scale. unfold Vsum. generalize (fold_right vadd vzero (map (fun b0 => vscale (w b0) (x b0)) o)) (x b). vring.
  Qed.
  Definition hweight (whds : bool) (m0 : R) (p : particle R) : R :=
    if whds then p_mass p / (m0 + p_mass p) else p_mass p / m0.
  Definition hback (whds : bool) (m0 m : R) (v : vec R) : vec R := if whds then vdivr v ((m0 + m) / m0) else v.
  Lemma of_helio whds (star : body R) (o : list (body R)) :
    let x := vsub (a_pos (snd star)) (vscale (/ a_mass (snd star)) (Vsum (map (fun b : body R => vscale (p_mass (fst b)) (a_pos (snd b))) o))) in
    let v := vsub (a_vel (snd star)) (Vsum (map (fun b : body R => vscale (hweight whds (p_mass (fst star)) (fst b)) (a_vel (snd b))) o)) in
    heliocentric_alt_to_inertial whds star o
    = ((set_p_ivel v (set_p_ipos x (fst star)), snd star),
       map (fun b : body R => (set_p_ivel (vadd (hback whds (p_mass (fst star)) (p_mass (fst b)) (a_vel (snd b))) (a_vel (snd star)))
                        (set_p_ipos (vadd (a_pos (snd b)) x) (fst b)), snd b)) o).
  Proof.
    cbv zeta. unfold heliocentric_alt_to_inertial. destruct star as [s sa]. cbn [fst snd].
    rewrite (helio_pos_fold o (a_mass sa) (fun b => a_pos (snd b))).
    rewrite (helio_vel_fold o (fun b => if whds then ndiv (p_mass (fst b)) (nadd (p_mass s) (p_mass (fst b))) else ndiv (p_mass (fst b)) (p_mass s)) (fun b => a_vel (snd b))).
    f_equal. apply map_ext. intros [p a]. reflexivity.
  Qed.

  Lemma weighted_bodies f (o : list (body R)) : Vsum (map (fun b : body R => vscale (p_mass (fst b)) (f (fst b))) o) = weighted f (map fst o).
  Proof. unfold weighted. now rewrite map_map. Qed.
  Lemma Vsum_sub_const {A} (w : A -> R) (f : A -> vec R) (c : vec R) l :
    Vsum (map (fun b => vscale (w b) (vsub (f b) c)) l) = vsub (Vsum (map (fun b => vscale (w b) (f b)) l)) (vscale (Rsum (map w l)) c).
  Proof.
    induction l as [|a l IH]; unfold Vsum, Rsum in *; cbn [map fold_right]; [vring|]. rewrite IH.
    generalize (fold_right vadd vzero (map (fun b => vscale (w b) (f b)) l)) (fold_right Rplus 0 (map w l)) (f a). vring.
  Qed.
  Lemma rel_mean (s : particle R) f (o : list (body R)) : total_mass (s :: map fst o) <> 0 ->
    vsub (mean f (s :: map fst o)) (vscale (/ total_mass (s :: map fst o))
      (Vsum (map (fun b : body R => vscale (p_mass (fst b)) (vsub (f (fst b)) (f s))) o))) = f s.
  Proof.
    intro E. rewrite Vsum_sub_const, weighted_bodies. unfold mean. rewrite weighted_cons.
    replace (Rsum (map (fun b : body R => p_mass (fst b)) o)) with (total_mass (map fst o)) by (unfold total_mass; now rewrite map_map).
    rewrite total_cons in *. revert E. generalize (weighted f (map fst o)) (total_mass (map fst o)) (f s) (p_mass s).
    intros. vfield; assumption.
  Qed.
  Lemma rel_vel (s : particle R) f (o : list (body R)) : total_mass (s :: map fst o) <> 0 -> p_mass s <> 0 ->
    let V := mean f (s :: map fst o) in
    vsub V (vscale (/ p_mass s) (Vsum (map (fun b : body R => vscale (p_mass (fst b)) (vsub (f (fst b)) V)) o))) = f s.
  Proof.
    intros E E0 V. rewrite Vsum_sub_const, weighted_bodies. unfold V, mean. rewrite weighted_cons.
    replace (Rsum (map (fun b : body R => p_mass (fst b)) o)) with (total_mass (map fst o)) by (unfold total_mass; now rewrite map_map).
    rewrite total_cons in *. revert E E0. generalize (weighted f (map fst o)) (total_mass (map fst o)) (f s) (p_mass s).
    intros. vfield; auto.
  Qed.

  Definition husable (whds : bool) (s : particle R) (o : list (particle R)) : Prop :=
    p_mass s <> 0 /\ total_mass (s :: o) <> 0 /\ (whds = true -> Forall (fun p => p_mass s + p_mass p <> 0) o).
  Lemma helio_round_trip whds (star : body R) (o : list (body R)) : husable whds (fst star) (map fst o) ->
    let r := inertial_to_heliocentric_alt whds star o in heliocentric_alt_to_inertial whds (fst r) (snd r) = r.
  Proof.
    intros (E0 & E & EW). rewrite to_helio. cbn [fst snd]. rewrite of_helio. cbn [fst snd a_pos a_vel a_mass].
    rewrite !map_map. cbn [fst snd a_pos a_vel].
    cbn [map]. pose proof (rel_mean (fst star) p_ipos o E) as RM. unfold body in *. rewrite RM. clear RM.
    set (V := mean p_ivel (fst star :: map fst o)).
    assert (HV : vsub V (Vsum (map (fun b : body R => vscale (hweight whds (p_mass (fst star)) (fst b)) (hvel whds V (fst star) (fst b))) o)) = p_ivel (fst star)).
    { etransitivity; [|exact (rel_vel (fst star) p_ivel o E E0)]. cbv zeta. fold V. f_equal. rewrite <- Vsum_map_scale. f_equal. apply map_ext_in.
      intros b Hb. unfold hvel, hweight. destruct whds.
      - assert (Eb : p_mass (fst star) + p_mass (fst b) <> 0).
        { specialize (EW eq_refl). rewrite Forall_forall in EW. apply EW. now apply in_map. }
        cbv zeta. rewrite !vscale_scale. f_equal. field. auto.
      - cbv zeta. rewrite !vscale_scale. f_equal. field. auto. }
    unfold body in HV. rewrite HV, set_same. f_equal. apply map_ext_in. intros b Hb.
    replace (vadd (vsub (p_ipos (fst b)) (p_ipos (fst star))) (p_ipos (fst star))) with (p_ipos (fst b)) by (generalize (p_ipos (fst b)) (p_ipos (fst star)); vring).
    replace (vadd (hback whds (p_mass (fst star)) (p_mass (fst b)) (hvel whds V (fst star) (fst b))) V) with (p_ivel (fst b)).
    - rewrite set_same. reflexivity.
    - unfold hback, hvel. destruct whds.
      + assert (Eb : p_mass (fst star) + p_mass (fst b) <> 0).
        { specialize (EW eq_refl). rewrite Forall_forall in EW. apply EW. now apply in_map. }
        rewrite divr_scale, vscale_scale. replace (/ ((p_mass (fst star) + p_mass (fst b)) / p_mass (fst star)) * ((p_mass (fst star) + p_mass (fst b)) / p_mass (fst star))) with 1 by (field; auto).
        rewrite vscale_1. generalize (p_ivel (fst b)) V. vring.
      + generalize (p_ivel (fst b)) V. vring.
  Qed.

  Lemma round_trip c (star : body R) (o : list (body R)) : usable c (fst star) (map fst o) ->
    let r := to_alternative c star o in to_inertial c (fst r) (snd r) = r.
  Proof.
    destruct c; cbn [usable to_alternative to_inertial].
    - apply jacobi_round_trip.
    - intros (A & B). apply helio_round_trip. split; [|split]; auto. intro X. discriminate X.
    - intros (A & B & D). apply helio_round_trip. split; [|split]; auto.
  Qed.

  (** ** What the coordinates are *)
  Definition coords_spec c (star : body R) (o : list (body R)) (r : body R * list (body R)) : Prop :=
    of_bodies r = map fst (star :: o)
    /\ a_mass (snd (fst r)) = total_mass (map fst (star :: o))
    /\ a_pos (snd (fst r)) = mean p_ipos (map fst (star :: o))
    /\ a_vel (snd (fst r)) = mean p_ivel (map fst (star :: o))
    /\ map (fun b : body R => a_pos (snd b)) (snd r) = coordinate_pos c (fst star) (map fst o)
    /\ map (fun b : body R => a_vel (snd b)) (snd r) = coordinate_vel c (fst star) (map fst o)
    /\ map (fun b : body R => a_mass (snd b)) (snd r) = map (fun b : body R => p_mass (fst b)) o.
  Lemma helio_coords (whds : bool) (star : body R) (o : list (body R)) :
    coords_spec (if whds then WHDS else DemocraticHeliocentric) star o (inertial_to_heliocentric_alt whds star o).
  Proof.
    rewrite to_helio. unfold coords_spec, of_bodies. cbn [fst snd map a_mass a_pos a_vel]. unfold body in *. rewrite !map_map. cbn [fst snd a_pos a_vel a_mass].
    split; [reflexivity|]. split; [reflexivity|]. split; [reflexivity|]. split; [reflexivity|].
    destruct whds; cbn [coordinate_pos coordinate_vel]; rewrite !map_map; split; try reflexivity; split; reflexivity.
  Qed.
  Lemma alternative_coords c (star : body R) (o : list (body R)) : usable c (fst star) (map fst o) ->
    coords_spec c star o (to_alternative c star o).
  Proof.
    intro U. destruct c; cbn [to_alternative]; [|apply (helio_coords false)|apply (helio_coords true)].
    rewrite (to_jacobi _ _ U). unfold coords_spec, of_bodies. cbn [fst snd map a_mass a_pos a_vel coordinate_pos coordinate_vel].
    assert (L : forall f, length (jacobi_frame f [fst star] (map fst o)) = length o) by (intro f; rewrite jacobi_frame_length, map_length; reflexivity).
    rewrite jbodies_fst, jbodies_pos, jbodies_vel by apply L.
    split; [reflexivity|]. split; [reflexivity|]. split; [reflexivity|]. split; [reflexivity|]. split; [reflexivity|]. split; [reflexivity|].
    generalize (L p_ipos) (L p_ivel). generalize (jacobi_frame p_ipos [fst star] (map fst o)) (jacobi_frame p_ivel [fst star] (map fst o)).
    clear. induction o as [|b o IH]; intros [|x xs] [|v vs] A B; try discriminate; cbn [jbodies map length] in *; [reflexivity|].
    rewrite IH by lia. reflexivity.
  Qed.

  (** *** Angular momentum in the new coordinates *)
  Lemma jacobi_cross f g l : forall inside, sums_ok inside l ->
    vadd (vscale (total_mass (inside ++ l)) (vcross (mean f (inside ++ l)) (mean g (inside ++ l))))
      (cross_sum (jacobi_masses inside l) (jacobi_frame f inside l) (jacobi_frame g inside l))
    = vadd (vscale (total_mass inside) (vcross (mean f inside) (mean g inside)))
        (Vsum (map (fun p => vscale (p_mass p) (vcross (f p) (g p))) l)).
  Proof.
    induction l as [|p l IH]; intros inside S.
    - rewrite app_nil_r. reflexivity.
    - apply sums_ok_cons in S as (S1 & S2 & S3). specialize (IH _ S3).
      replace (inside ++ p :: l) with ((inside ++ [p]) ++ l) by now rewrite <- app_assoc.
      cbn [jacobi_masses jacobi_frame]. unfold cross_sum in *. cbn [combine map]. unfold Vsum in *. cbn [fold_right].
      cbn [fst snd]. 
      match goal with |- vadd ?A (vadd ?B ?C) = _ => transitivity (vadd B (vadd A C)); [generalize A B C; vring|] end.
      rewrite IH. clear IH.
      generalize (fold_right vadd vzero (map (fun p0 => vscale (p_mass p0) (vcross (f p0) (g p0))) l)). intro T.
      unfold mean. rewrite total_snoc, !weighted_snoc.
      revert S1 S2. generalize (weighted f inside) (weighted g inside) (total_mass inside) (p_mass p) (f p) (g p). clear.
      intros. vfield; auto.
  Qed.
  Lemma cross_sum_maps {A} (m : A -> R) (x y : A -> vec R) l :
    cross_sum (map m l) (map x l) (map y l) = Vsum (map (fun a => vscale (m a) (vcross (x a) (y a))) l).
  Proof. unfold cross_sum. induction l as [|a l IH]; cbn [map combine]; [reflexivity|]. unfold Vsum in *. cbn [fold_right]. rewrite IH. reflexivity. Qed.
  Lemma helio_cross (s : particle R) f g l : total_mass (s :: l) <> 0 ->
    vadd (vscale (total_mass (s :: l)) (vcross (mean f (s :: l)) (mean g (s :: l))))
      (Vsum (map (fun p => vscale (p_mass p) (vcross (vsub (f p) (f s)) (vsub (g p) (mean g (s :: l))))) l))
    = Vsum (map (fun p => vscale (p_mass p) (vcross (f p) (g p))) (s :: l)).
  Proof.
    intro E.
    assert (X : forall c d, Vsum (map (fun p => vscale (p_mass p) (vcross (vsub (f p) c) (vsub (g p) d))) l)
      = vadd (Vsum (map (fun p => vscale (p_mass p) (vcross (f p) (g p))) l))
         (vadd (vneg (vcross c (weighted g l))) (vadd (vneg (vcross (weighted f l) d)) (vscale (total_mass l) (vcross c d))))).
    { intros c d. unfold weighted, total_mass. clear. induction l as [|p l IH]; unfold Vsum, Rsum in *; cbn [map fold_right]; [vring|].
      rewrite IH. generalize (fold_right vadd vzero (map (fun p0 => vscale (p_mass p0) (f p0)) l)) (fold_right vadd vzero (map (fun p0 => vscale (p_mass p0) (g p0)) l))
       (fold_right vadd vzero (map (fun p0 => vscale (p_mass p0) (vcross (f p0) (g p0))) l)) (fold_right Rplus 0 (map p_mass l)) (f p) (g p). vring. }
    rewrite X. cbn [map]. unfold Vsum. cbn [fold_right]. unfold mean. rewrite !weighted_cons, total_cons in *.
    generalize (fold_right vadd vzero (map (fun p => vscale (p_mass p) (vcross (f p) (g p))) l)).
    revert E. generalize (weighted f l) (weighted g l) (total_mass l) (p_mass s) (f s) (g s). clear. intros. vfield; auto.
  Qed.

  Lemma angular_momentum c (star : body R) (o : list (body R)) : usable c (fst star) (map fst o) ->
    let l := map fst (star :: o) in
    vadd (vscale (total_mass l) (vcross (mean p_ipos l) (mean p_ivel l)))
      (cross_sum (coordinate_masses c (fst star) (map fst o)) (coordinate_pos c (fst star) (map fst o)) (coordinate_vel c (fst star) (map fst o)))
    = orbital_momentum l.
  Proof.
    destruct c; cbn [usable coordinate_masses coordinate_pos coordinate_vel map]; cbv zeta.
    - intro U. change (fst star :: map fst o) with ([fst star] ++ map fst o). rewrite (jacobi_cross _ _ _ [fst star]) by exact U.
      unfold orbital_momentum. cbn [app map Vsum fold_right]. f_equal. destruct (single_sums (fst star)) as [T W].
      pose proof (sums_ok_self [fst star] (map fst o) U) as E. unfold mean. rewrite !W, T in *. rewrite !vscale_scale, !Rinv_l, !vscale_1 by exact E. reflexivity.
    - intros (E0 & E). rewrite (cross_sum_maps p_mass). apply helio_cross. exact E.
    - intros (E0 & E & EW). rewrite (cross_sum_maps (fun p => p_mass p * p_mass (fst star) / (p_mass (fst star) + p_mass p))).
      unfold orbital_momentum. rewrite <- (helio_cross (fst star) p_ipos p_ivel (map fst o) E). f_equal. f_equal. apply map_ext_in. intros p Hp.
      rewrite Forall_forall in EW. specialize (EW p Hp). rewrite vcross_scale_r, vscale_scale. f_equal. field. auto.
  Qed.

  (** ** Momentum and centre of mass of the inertial system *)
  (** [to_inertial] of any alternative coordinates whose host slot holds the total mass *)
  Lemma jacobi_out_sums m0 (l : list (body R)) : forall eta sx sv, 
    eta = m0 + total_mass (map fst l) -> (forall k, m0 + total_mass (map fst (skipn k l)) <> 0) ->
    let '((eta', sx', sv'), l') := walk jacobi_out (eta, sx, sv) l in
    eta' = m0 /\ map snd l' = map snd l /\ map p_mass (map fst l') = map p_mass (map fst l)
    /\ vadd sx' (weighted p_ipos (map fst l')) = sx /\ vadd sv' (weighted p_ivel (map fst l')) = sv.
  Proof.
    induction l as [|[p a] l IH]; intros eta sx sv He Hk; cbn [walk].
    - unfold total_mass, weighted in *. cbn in *. rewrite !vadd_0_r. split; [lra|]. auto.
    - cbn [jacobi_out]. cbn [map fst] in He. rewrite total_cons in He.
      set (s1 := vmulr (vsub sx _) _). set (v1 := vmulr (vsub sv _) _).
      specialize (IH (nsub eta (p_mass (set_p_ivel (vadd (a_vel a) v1) (set_p_ipos (vadd (a_pos a) s1) p))))
         (vmulr s1 (nsub eta (p_mass (set_p_ivel (vadd (a_vel a) v1) (set_p_ipos (vadd (a_pos a) s1) p)))))
         (vmulr v1 (nsub eta (p_mass (set_p_ivel (vadd (a_vel a) v1) (set_p_ipos (vadd (a_pos a) s1) p)))))).
      cbn [nsub NumR p_mass set_p_ivel set_p_ipos] in IH |- *.
      destruct (walk jacobi_out _ l) as [[[eta' sx'] sv'] l'].
      destruct IH as (I1 & I2 & I3 & I4 & I5).
      + subst eta. lra.
      + intro k. apply (Hk (S k)).
      + cbn [map fst snd]. rewrite !weighted_cons. cbn [p_ipos p_ivel p_mass set_p_ivel set_p_ipos].
        split; [exact I1|]. split; [now rewrite I2|]. split; [now rewrite I3|].
        pose proof (Hk 0%nat) as E. cbn [skipn map fst] in E. rewrite total_cons in E.
        assert (Ee : eta <> 0) by (subst eta; exact E).
        split.
        * transitivity (vadd (vscale (p_mass p) (vadd (a_pos a) s1)) (vmulr s1 (eta - p_mass p))).
          -- rewrite <- I4. generalize (weighted p_ipos (map fst l')) (vadd (a_pos a) s1). vring.
          -- unfold s1. cbn [ndiv n1 NumR]. clear - Ee. generalize (a_pos a) (p_mass p). intros. vfield; exact Ee.
        * transitivity (vadd (vscale (p_mass p) (vadd (a_vel a) v1)) (vmulr v1 (eta - p_mass p))).
          -- rewrite <- I5. generalize (weighted p_ivel (map fst l')) (vadd (a_vel a) v1). vring.
          -- unfold v1. cbn [ndiv n1 NumR]. clear - Ee. generalize (a_vel a) (p_mass p). intros. vfield; exact Ee.
  Qed.
  Lemma Rsum_rev l : Rsum (rev l) = Rsum l.
  Proof. unfold Rsum. induction l as [|a l IH]; cbn [rev fold_right]; [reflexivity|]. rewrite fold_right_app. cbn [fold_right].
    rewrite <- IH. generalize (rev l). intro k. clear. induction k as [|b k IH]; cbn [fold_right]; [lra|]. rewrite IH. lra. Qed.
  Lemma Vsum_rev l : Vsum (rev l) = Vsum l.
  Proof. induction l as [|a l IH]; cbn [rev]; [reflexivity|]. rewrite Vsum_app, IH. unfold Vsum. cbn [fold_right]. rewrite vadd_0_r. apply vadd_comm. Qed.
  Lemma total_rev l : total_mass (rev l) = total_mass l.
  Proof. unfold total_mass. now rewrite map_rev, Rsum_rev. Qed.
  Lemma weighted_rev f l : weighted f (rev l) = weighted f l.
  Proof. unfold weighted. now rewrite map_rev, Vsum_rev. Qed.

  (** what [to_inertial] keeps, and the sums it produces *)
  Definition inertial_sums (star : body R) (o : list (body R)) (r : body R * list (body R)) : Prop :=
    snd (fst r) = snd star /\ map snd (snd r) = map snd o /\ map p_mass (of_bodies r) = map p_mass (map fst (star :: o))
    /\ weighted p_ivel (of_bodies r) = vscale (total_mass (map fst (star :: o))) (a_vel (snd star))
    /\ weighted p_ipos (of_bodies r) = vscale (total_mass (map fst (star :: o))) (a_pos (snd star)).
  Lemma jacobi_inertial_sums (star : body R) (o : list (body R)) : usable Jacobi (fst star) (map fst o) ->
    a_mass (snd star) = total_mass (map fst (star :: o)) ->
    inertial_sums star o (jacobi_to_inertial star o).
  Proof.
    intros U M. unfold jacobi_to_inertial.
    pose proof (jacobi_out_sums (p_mass (fst star)) (rev o) (a_mass (snd star)) (vscale (a_mass (snd star)) (a_pos (snd star))) (vscale (a_mass (snd star)) (a_vel (snd star)))) as J.
    destruct (walk jacobi_out _ (rev o)) as [[[eta sx] sv] l'].
    destruct J as (J1 & J2 & J3 & J4 & J5).
    - rewrite M. cbn [map]. rewrite total_cons, map_rev, total_rev. reflexivity.
    - intro k. rewrite skipn_rev, map_rev, total_rev. pose proof (U (length o - k)%nat) as Uk. rewrite total_cons, firstn_map in Uk. exact Uk.
    - pose proof (U 0%nat) as U0. cbn [firstn] in U0. destruct (single_sums (fst star)) as [T _]. rewrite T in U0.
      unfold inertial_sums, of_bodies, on_p, body in *. cbn [fst snd map]. rewrite !map_rev.
      rewrite M in *. split; [reflexivity|]. split; [rewrite J2, map_rev; apply rev_involutive|].
      split; [cbn [p_mass set_p_ivel set_p_ipos]; f_equal; rewrite J3, !map_rev; apply rev_involutive|].
      rewrite !weighted_cons, !weighted_rev. cbn [p_ivel p_ipos p_mass set_p_ivel set_p_ipos map].
      cbn [map] in J4, J5. rewrite <- J4, <- J5. cbn [ndiv n1 NumR]. rewrite !mulr_scale, !vscale_scale, J1, !Rinv_r, !vscale_1 by exact U0. split; reflexivity.
  Qed.
  Lemma helio_inertial_sums (whds : bool) (star : body R) (o : list (body R)) : husable whds (fst star) (map fst o) ->
    a_mass (snd star) = total_mass (map fst (star :: o)) ->
    inertial_sums star o (heliocentric_alt_to_inertial whds star o).
  Proof.
    intros (E0 & E & EW) M. rewrite of_helio. unfold inertial_sums, of_bodies. cbn [fst snd map]. unfold body in *. rewrite !map_map. cbn [fst snd].
    split; [reflexivity|]. split; [reflexivity|]. split; [reflexivity|].
    rewrite !weighted_cons. unfold weighted. rewrite !map_map. cbn [fst snd p_ivel p_ipos p_mass set_p_ivel set_p_ipos].
    rewrite M. clear M. cbn [map] in *. rewrite total_cons in *.
    assert (X : forall (w : particle R * alternative R -> vec R) (d : vec R), Vsum (map (fun b => vscale (p_mass (fst b)) (vadd (w b) d)) o)
       = vadd (Vsum (map (fun b => vscale (p_mass (fst b)) (w b)) o)) (vscale (total_mass (map fst o)) d)).
    { intros w d. unfold total_mass. clear. induction o as [|b o IH]; unfold Vsum, Rsum in *; cbn [map fold_right]; [vring|].
      rewrite IH. generalize (fold_right vadd vzero (map (fun b => vscale (p_mass (fst b)) (w b)) o)) (fold_right Rplus 0 (map p_mass (map fst o))) (w b). vring. }
    split.
    - rewrite (X (fun b => hback whds (p_mass (fst star)) (p_mass (fst b)) (a_vel (snd b)))).
      replace (Vsum (map (fun b : particle R * alternative R => vscale (p_mass (fst b)) (hback whds (p_mass (fst star)) (p_mass (fst b)) (a_vel (snd b)))) o))
        with (vscale (p_mass (fst star)) (Vsum (map (fun b : particle R * alternative R => vscale (hweight whds (p_mass (fst star)) (fst b)) (a_vel (snd b))) o))).
      + generalize (Vsum (map (fun b : particle R * alternative R => vscale (hweight whds (p_mass (fst star)) (fst b)) (a_vel (snd b))) o)) (total_mass (map fst o)) (p_mass (fst star)) (a_vel (snd star)). vring.
      + rewrite <- Vsum_map_scale. f_equal. apply map_ext_in. intros b Hb. unfold hweight, hback. destruct whds.
        * assert (Eb : p_mass (fst star) + p_mass (fst b) <> 0) by (specialize (EW eq_refl); rewrite Forall_forall in EW; apply EW; now apply in_map).
          rewrite divr_scale, !vscale_scale. f_equal. field. auto.
        * rewrite !vscale_scale. f_equal. field. auto.
    - rewrite (X (fun b => a_pos (snd b))).
      generalize dependent (Vsum (map (fun b : particle R * alternative R => vscale (p_mass (fst b)) (a_pos (snd b))) o)). revert E. clear.
      generalize (total_mass (map fst o)) (p_mass (fst star)) (a_pos (snd star)). intros. vfield; auto.
  Qed.
  Lemma to_inertial_sums c (star : body R) (o : list (body R)) : usable c (fst star) (map fst o) ->
    a_mass (snd star) = total_mass (map fst (star :: o)) ->
    inertial_sums star o (to_inertial c star o).
  Proof.
    destruct c; cbn [usable to_inertial].
    - apply jacobi_inertial_sums.
    - intros (A & B). apply helio_inertial_sums. split; [|split]; auto. intro X. discriminate X.
    - intros (A & B & D). apply helio_inertial_sums. split; [|split]; auto.
  Qed.

  (** ** Jumps and kicks *)
  (** only the coordinates of the bodies but the host change *)
  Definition same_slots (star : body R) (o : list (body R)) (r : body R * list (body R)) : Prop :=
    fst (fst r) = fst star /\ map fst (snd r) = map fst o
    /\ a_mass (snd (fst r)) = a_mass (snd star) /\ a_mass_g (snd (fst r)) = a_mass_g (snd star)
    /\ a_pos (snd (fst r)) = a_pos (snd star) /\ a_vel (snd (fst r)) = a_vel (snd star).
  Lemma jump_slots c dt star o : same_slots star o (jump c dt star o).
  Proof.
    destruct c; cbn [jump]; unfold same_slots; cbn [fst snd]; unfold body in *; rewrite ?map_map; cbn [fst snd on_alt]; auto 6.
  Qed.
  Lemma walk_fst {S} (f : S -> body R -> S * body R) l : (forall s b, fst (snd (f s b)) = fst b) -> forall s, map fst (snd (walk f s l)) = map fst l.
  Proof.
    intro Hf. induction l as [|b l IH]; intro s; cbn [walk]; [reflexivity|]. specialize (Hf s b). destruct (f s b) as [s1 b1].
    specialize (IH s1). destruct (walk f s1 l) as [s2 l2]. cbn [map fst snd] in *. now rewrite Hf, IH.
  Qed.
  Lemma interaction_slots c dt star o : same_slots star o (interaction c dt star o).
  Proof.
    destruct c; cbn [interaction]; unfold same_slots; cbn [fst snd]; unfold body in *; rewrite ?map_map; cbn [fst snd on_alt]; auto 6.
    unfold inertial_to_jacobi_acc.
    pose proof (walk_fst jacobi_acc_in o) as W1. specialize (W1 (fun s b => ltac:(destruct s; reflexivity)) (p_mass (fst star), vscale (p_mass (fst star)) (p_iacc (fst star)))).
    destruct (walk jacobi_acc_in _ o) as [[eta sa] o1]. cbn [fst snd] in *.
    rewrite (walk_fst (jacobi_kick dt)); [|intros [e f] [p a]; reflexivity]. cbn [on_alt fst snd]. auto 6.
  Qed.
  Lemma usable_same c (s s' : particle R) (o o' : list (particle R)) : s = s' -> o = o' -> usable c s o -> usable c s' o'.
  Proof. now intros -> ->. Qed.
  Lemma slots_momentum c (star : body R) (o : list (body R)) r : usable c (fst star) (map fst o) ->
    a_mass (snd star) = total_mass (map fst (star :: o)) -> same_slots star o r ->
    momentum (of_bodies (to_inertial c (fst r) (snd r))) = momentum (of_bodies (to_inertial c star o))
    /\ weighted p_ipos (of_bodies (to_inertial c (fst r) (snd r))) = weighted p_ipos (of_bodies (to_inertial c star o)).
  Proof.
    intros U M (S1 & S2 & S3 & _ & S5 & S6).
    destruct (to_inertial_sums c star o U M) as (_ & _ & _ & B1 & B2).
    destruct (to_inertial_sums c (fst r) (snd r)) as (_ & _ & _ & A1 & A2).
    - now rewrite S1, S2.
    - cbn [map] in *. now rewrite S3, S1, S2.
    - cbn [map] in *. unfold momentum. rewrite A1, B1, A2, B2, S1, S2, S5, S6. auto.
  Qed.
End Coords.
