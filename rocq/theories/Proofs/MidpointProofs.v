(** * The implicit midpoint rule of WHFast (C52) *)
From Coq Require Import Reals List Bool Lra Lia Arith.
From Verif Require Import Base.Num Base.Result Base.Trans Base.Vec Model.Constants Model.Particle Model.Host
  Model.Creep Model.Relativity Model.Universe Model.WHFast
  Spec.EffectsSpec Spec.UniverseSpec Spec.WHFastSpec Proofs.NumLemmas Proofs.VecLemmas Proofs.GravityProofs
  Proofs.FrameProofs Proofs.EffectSums Proofs.WHFastCoords Proofs.WHFastRun Proofs.WHFastStep.
Import ListNotations.
Open Scope R_scope.
Notation vlR := (@vl R).

Section Midpoint.
  Context `{Trans R} `{Floor R} `{Fuel}.
  Definition change_of (dt : R) (spin : bool) (p : particle R) : vlR :=
    (vscale dt (p_iadd p), if spin then vscale dt (p_dL p) else vzero).
  Lemma vsub_0 (v : vec R) : vsub v vzero = v. Proof. vring. Qed.
  Lemma change_eq dt spin : forall P (err ch : list vlR), length P = length err -> length err = length ch ->
    Forall (fun e : vlR => fst e = vzero /\ (spin = true -> snd e = vzero)) err -> Forall (fun e : vlR => spin = false -> snd e = vzero) ch ->
    zip3 (midpoint_change dt spin) P err ch = map (change_of dt spin) P.
  Proof.
    unfold zip3. induction P as [|p P IH]; intros [|e err] [|k ch] L1 L2 He Hk; try discriminate; [reflexivity|].
    inversion He as [|? ? (He0 & He1) Het]; subst. inversion Hk as [|? ? Hk0 Hkt]; subst. cbn [combine map fst snd].
    rewrite (IH err ch) by (cbn [length] in *; auto). apply f_equal2; [|reflexivity].
    unfold midpoint_change, change_of. rewrite He0, vsub_0. destruct spin; [rewrite He1 by reflexivity; rewrite vsub_0|rewrite Hk0 by reflexivity]; reflexivity.
  Qed.
  Definition vl_of_start (p : particle R) : vlR := vl_of p.
  Lemma final_eq dt spin : forall (S P : list (particle R)) (fi : list vlR), length S = length P -> length P = length fi ->
    (spin = false -> map snd fi = map p_L S) ->
    zip3 (midpoint_final spin) (map vl_of S) (map (change_of dt spin) P) fi = zip (updated dt spin) S P.
  Proof.
    unfold zip3, zip. induction S as [|s S IH]; intros [|p P] [|f fi] L1 L2 Hs; try discriminate; [reflexivity|].
    cbn [combine map fst snd length] in *. rewrite (IH P fi); auto.
    - apply f_equal2; [|reflexivity]. unfold midpoint_final, updated, change_of, vl_of. cbn [fst snd]. destruct spin; [reflexivity|].
      specialize (Hs eq_refl). apply cons_eq in Hs as [-> _]. reflexivity.
    - intro X. specialize (Hs X). now apply cons_eq in Hs as [_ Hs].
  Qed.
  Lemma average_eq dt spin : forall (S P : list (particle R)), length S = length P ->
    zip3 (average spin) (map vl_of S) (zip (updated dt spin) S P) P
    = zip (fun s p => with_vl spin p (halfway (p_ivel s, p_L s) (updated dt spin s p))) S P.
  Proof.
    unfold zip3, zip. induction S as [|s S IH]; intros [|p P] L; try discriminate; [reflexivity|].
    cbn [combine map fst snd length] in *. rewrite (IH P) by auto. apply f_equal2; [|reflexivity].
    unfold average, with_vl, halfway, vl_of. cbn [fst snd]. num_simpl. replace (5 / 10) with (1 / 2) by lra. reflexivity.
  Qed.
  Lemma zip_len {A B C} (f : A -> B -> C) a b : length a = length b -> length (zip f a b) = length a.
  Proof. intro E. unfold zip. now rewrite map_length, combine_len. Qed.
  Lemma updated_snd dt spin S P : length S = length P -> spin = false -> map snd (zip (updated dt spin) S P) = map p_L S.
  Proof.
    intros L ->. unfold zip. rewrite map_map. transitivity (map p_L (map fst (combine S P))); [now rewrite map_map|].
    now rewrite map_fst_combine.
  Qed.
  Lemma change_snd dt spin P : Forall (fun e : vlR => spin = false -> snd e = vzero) (map (change_of dt spin) P).
  Proof. apply Forall_forall. intros e I ->. apply in_map_iff in I. destruct I as (p & <- & _). reflexivity. Qed.

  Lemma sum_norm2_eq : forall l : list (vec R), sum_norm2 l = Rsum (map norm2 l).
  Proof.
    intro l. unfold sum_norm2. num_simpl.
    assert (X : forall l a, fold_left (fun (s : R) v => s + norm2 v) l a = a + Rsum (map norm2 l)).
    { induction l0 as [|v l0 IH]; intro a; cbn [fold_left map Rsum fold_right]; [ring|]. rewrite IH. unfold Rsum. ring. }
    rewrite X. ring.
  Qed.
  Variables (t dt : R) (spin evolution : bool) (c : coordinates) (u0 : universe R).
  Notation evals := (evaluations t dt spin evolution c u0).
  Lemma converged_settled u v : length (u_particles u0) = length (u_particles u) -> length (u_particles u0) = length (u_particles v) ->
    converged spin (zip (updated dt spin) (u_particles u0) (u_particles u)) (zip (updated dt spin) (u_particles u0) (u_particles v)) = true <->
    settled dt spin u0 DBL_EPSILON_2 v u.
  Proof.
    intros Lu Lv. unfold converged. cbn zeta. rewrite !map_map, !sum_norm2_eq, !map_map. num_simpl.
    unfold settled. cbn zeta. set (new := zip _ _ (u_particles u)) in *. set (old := zip _ _ (u_particles v)) in *.
    match goal with |- ?bb = true <-> _ => change bb with
      (spin && Rltb (Rsum (zip (fun a b : vec R * vec R => norm2 (vsub (fst a) (fst b))) new old) / Rsum (map (fun a : vec R * vec R => norm2 (fst a)) new)) DBL_EPSILON_2
        && Rltb (Rsum (zip (fun a b : vec R * vec R => norm2 (vsub (snd a) (snd b))) new old) / Rsum (map (fun a : vec R * vec R => norm2 (snd a)) new)) DBL_EPSILON_2
       || negb spin && Rltb (Rsum (zip (fun a b : vec R * vec R => norm2 (vsub (fst a) (fst b))) new old) / Rsum (map (fun a : vec R * vec R => norm2 (fst a)) new)) DBL_EPSILON_2) end.
    rewrite <- !Rltb_true. destruct spin; cbn [andb orb negb]; [rewrite orb_false_r, andb_true_iff; intuition auto|].
    split; [intro X; split; [exact X|discriminate]|intros [X _]; exact X].
  Qed.

  Lemma rates_len ev u u' : rates t spin c ev u = Ok u' -> length (u_particles u') = length (u_particles u).
  Proof.
    unfold rates. intro E. destruct (inertial_to_heliocentric u) as [u1|] eqn:E1; [|discriminate]. cbn [rbind] in E.
    destruct (evaluation_view _ _ _ _ _ _ _ _ _ (blind_step_unit _) E1 E) as (A & _). now apply view_len in A.
  Qed.
  Lemma evals_len k u : evals k u -> length (u_particles u) = length (u_particles u0).
  Proof.
    induction 1 as [u E|k u u' E1 IH E2]; [now apply rates_len in E|].
    apply rates_len in E2. rewrite E2. cbn [midpoint_of u_particles set_particles]. now rewrite zip_len.
  Qed.

  Lemma evals_functional k u : evals k u -> forall v, evals k v -> v = u.
  Proof.
    induction 1 as [u E|k u u' E1 IH E2]; intros v Ev; inversion Ev as [x Ex|k' x x' Ex1 Ex2]; subst; try congruence.
    - inversion Ex1.
    - inversion E1.
    - apply IH in Ex1. subst x. congruence.
  Qed.
  (** no evaluation before the [k]th, from the third on, agreed with the one before it *)
  Definition unsettled_before (k : nat) : Prop :=
    forall j v u, (2 <= j < k)%nat -> evals j v -> rates t spin c false (midpoint_of dt spin u0 v) = Ok u ->
      ~ settled dt spin u0 DBL_EPSILON_2 v u.

  (** the end of the loop: [u'] is the last evaluation; when the iterations run
      out the universe handed back is the midpoint of it *)
  Definition ends (r : universe R * list vlR * list vlR) : Prop :=
    let '(ur, fi, ch) := r in exists k u v,
      (2 <= k <= 9)%nat /\ evals k v /\ rates t spin c false (midpoint_of dt spin u0 v) = Ok u
      /\ (ur = u /\ settled dt spin u0 DBL_EPSILON_2 v u \/ ur = midpoint_of dt spin u0 u /\ k = 9%nat)
      /\ unsettled_before k
      /\ fi = zip (updated dt spin) (u_particles u0) (u_particles u) /\ ch = map (change_of dt spin) (u_particles u).

  Lemma midpoint_ends (err : list vlR) : length err = length (u_particles u0) ->
    Forall (fun e : vlR => fst e = vzero /\ (spin = true -> snd e = vzero)) err ->
    forall n k v u r, (k + n = 10)%nat -> (1 <= k)%nat -> evals k v ->
      (n = 0%nat -> exists v0, evals 9 v0 /\ rates t spin c false (midpoint_of dt spin u0 v0) = Ok v) ->
      unsettled_before k -> u = midpoint_of dt spin u0 v ->
      midpoint n k t dt spin evolution c err (map vl_of (u_particles u0)) (zip (updated dt spin) (u_particles u0) (u_particles v))
        (map (change_of dt spin) (u_particles v)) u = Ok r -> ends r.
  Proof.
    intros Le He. induction n as [|n IH]; intros k v u r Hk K1 Ev Hz Hun -> E; cbn [midpoint] in E.
    - injection E as <-. destruct (Hz eq_refl) as (v0 & E0 & Er). exists 9%nat, v, v0. split; [lia|]. repeat (split; [assumption|]).
      split; [right; split; reflexivity|]. split; [|split; reflexivity].
      intros j x y Hj. apply Hun. lia.
    - assert (Ei : evolution && Nat.eqb k 0 = false) by (destruct k; [lia|]; apply andb_false_r).
      rewrite Ei in E.
      destruct (inertial_to_heliocentric (midpoint_of dt spin u0 v)) as [u1|] eqn:E1; [|discriminate E]. cbn [rbind] in E.
      destruct (additional_effects _ _ _ _ _ u1) as [u2|] eqn:E2; [|discriminate E]. cbn [rbind] in E.
      assert (Er : rates t spin c false (midpoint_of dt spin u0 v) = Ok u2) by (unfold rates; rewrite E1; exact E2).
      pose proof (evals_len _ _ Ev) as Lv. pose proof (next_evaluation t dt spin evolution c u0 _ _ _ Ev Er) as Ev2. pose proof (evals_len _ _ Ev2) as L2.
      rewrite change_eq in E; [|congruence|rewrite map_length; congruence|exact He|apply change_snd].
      rewrite final_eq in E; [|congruence|rewrite zip_len; congruence|intro X; apply updated_snd; congruence].
      match type of E with (if ?b then _ else _) = _ => destruct b eqn:Eb end.
      + injection E as <-. apply andb_true_iff in Eb as [Ek Ec]. apply Nat.leb_le in Ek. unfold IMPLICIT_MIDPOINT_MIN_ITER in Ek. cbn in Ek.
        exists k, u2, v. split; [lia|]. split; [exact Ev|]. split; [exact Er|]. split; [|split; [exact Hun|split; reflexivity]].
        left. split; [reflexivity|]. apply converged_settled; auto.
      + rewrite average_eq in E by congruence.
        eapply (IH (S k) u2); [lia|lia|exact Ev2| | |reflexivity|exact E].
        * intros ->. exists v. split; [|exact Er]. replace 9%nat with k by lia. exact Ev.
        * intros j x y Hj Ex Ey. destruct (Nat.eq_dec j k) as [->|Nk]; [|apply (Hun j x y); auto; lia].
          rewrite (evals_functional _ _ Ev _ Ex) in Ey |- *. replace y with u2 by congruence.
          intro St. apply converged_settled in St; [|congruence|congruence].
          assert (Lk : Nat.leb (IMPLICIT_MIDPOINT_MIN_ITER - 1) k = true) by (apply Nat.leb_le; unfold IMPLICIT_MIDPOINT_MIN_ITER; lia).
          rewrite Lk in Eb. cbn [andb] in Eb. rewrite St in Eb. discriminate Eb.
  Qed.
  Lemma midpoint_whole (err : list vlR) r : length err = length (u_particles u0) ->
    Forall (fun e : vlR => fst e = vzero /\ (spin = true -> snd e = vzero)) err ->
    midpoint IMPLICIT_MIDPOINT_MAX_ITER 0 t dt spin evolution c err (map vl_of (u_particles u0)) (map vl_of (u_particles u0))
      (map (fun _ => (vzero, vzero)) (map vl_of (u_particles u0))) u0 = Ok r -> ends r.
  Proof.
    intros Le He E. unfold IMPLICIT_MIDPOINT_MAX_ITER in E.
    assert (X : forall n, n = 9%nat -> midpoint (S n) 0 t dt spin evolution c err (map vl_of (u_particles u0)) (map vl_of (u_particles u0))
      (map (fun _ => (vzero, vzero)) (map vl_of (u_particles u0))) u0 = Ok r -> ends r).
    { clear E. intros n Hn E. cbn [midpoint] in E. rewrite Nat.eqb_refl, andb_true_r in E.
      destruct (inertial_to_heliocentric u0) as [u1|] eqn:E1; [|discriminate E]. cbn [rbind] in E.
      destruct (additional_effects _ _ _ _ _ u1) as [u2|] eqn:E2; [|discriminate E]. cbn [rbind] in E.
      assert (Er : rates t spin c evolution u0 = Ok u2) by (unfold rates; rewrite E1; exact E2).
      pose proof (first_evaluation t dt spin evolution c u0 _ Er) as Ev. pose proof (evals_len _ _ Ev) as L2.
      rewrite change_eq in E; [|congruence|rewrite !map_length; congruence|exact He|].
      2:{ apply Forall_forall. intros e I _. apply in_map_iff in I. destruct I as (p & <- & _). reflexivity. }
      rewrite final_eq in E; [|congruence|rewrite map_length; congruence|intro X; rewrite map_map; reflexivity].
      cbn [IMPLICIT_MIDPOINT_MIN_ITER Nat.sub Nat.leb andb] in E. rewrite average_eq in E by congruence.
      eapply (midpoint_ends err Le He n 1 u2); [lia|lia|exact Ev|lia|intros j x y Hj; lia|reflexivity|exact E]. }
    apply (X 9%nat eq_refl). exact E.
  Qed.
End Midpoint.

Lemma with_vl_twice spin p x y : with_vl spin (with_vl spin p x) y = with_vl spin p y.
Proof. unfold with_vl. destruct spin, p; reflexivity. Qed.
Lemma finish_eq dt spin : forall (S P Q : list (particle R)), length S = length P ->
  Q = P \/ Q = zip (fun s p => with_vl spin p (halfway (p_ivel s, p_L s) (updated dt spin s p))) S P ->
  map (fun pf : particle R * vlR => let '(p, f) := pf in let p := set_p_ivel (fst f) p in if spin then set_p_L (snd f) p else p)
    (combine Q (zip (updated dt spin) S P)) = zip (fun s p => with_vl spin p (updated dt spin s p)) S P.
Proof.
  unfold zip. induction S as [|s S IH]; intros [|p P] Q L HQ; try discriminate.
  - destruct HQ as [->| ->]; reflexivity.
  - cbn [combine map fst snd length] in *. destruct Q as [|q Q]; [destruct HQ as [X|X]; discriminate X|].
    cbn [combine map fst snd].
    assert (HQ' : (q = p /\ Q = P) \/ (q = with_vl spin p (halfway (p_ivel s, p_L s) (updated dt spin s p)) /\
      Q = map (fun x : particle R * particle R => with_vl spin (snd x) (halfway (p_ivel (fst x), p_L (fst x)) (updated dt spin (fst x) (snd x)))) (combine S P))).
    { destruct HQ as [X|X]; apply cons_eq in X; auto. }
    rewrite (IH P Q); [|congruence|destruct HQ' as [(_ & X)|(_ & X)]; auto].
    apply f_equal2; [|reflexivity]. destruct HQ' as [(-> & _)|(-> & _)]; [reflexivity|].
    change (with_vl spin (with_vl spin p (halfway (p_ivel s, p_L s) (updated dt spin s p))) (updated dt spin s p) = with_vl spin p (updated dt spin s p)).
    apply with_vl_twice.
Qed.
Lemma error_zero (g : vlR -> vec R) (a : particle R -> vec R) dt spin : (forall s p, vsub (vsub (g (updated dt spin s p)) (g (vl_of s))) (g (change_of dt spin p)) = vzero) ->
  forall (S P : list (particle R)), length S = length P ->
  zip3 (fun f o c : vlR => vsub (vsub (g f) (g o)) (g c)) (zip (updated dt spin) S P) (map vl_of S) (map (change_of dt spin) P) = map (fun _ => vzero) S.
Proof.
  intro Hz. unfold zip3, zip. induction S as [|s S IH]; intros [|p P] L; try discriminate; [reflexivity|].
  cbn [combine map fst snd length] in *. rewrite IH by congruence. rewrite Hz. reflexivity.
Qed.

Section Whole.
  Context `{Trans R} `{Floor R} `{Fuel}.
  Lemma velocity_dependent_midpoint t dt spin ev (w w' : whfast R) : sized w -> compensated spin w ->
    velocity_dependent t dt spin ev w = Ok w' ->
    exists k u v, (2 <= k <= 9)%nat /\ evaluations t dt spin ev (w_type w) (w_u w) k v
      /\ rates t spin (w_type w) false (midpoint_of dt spin (w_u w) v) = Ok u
      /\ ((settled dt spin (w_u w) DBL_EPSILON_2 v u \/ k = 9%nat) /\
          forall j x y, (2 <= j < k)%nat -> evaluations t dt spin ev (w_type w) (w_u w) j x ->
            rates t spin (w_type w) false (midpoint_of dt spin (w_u w) x) = Ok y -> ~ settled dt spin (w_u w) DBL_EPSILON_2 x y)
      /\ w_u w' = set_particles (zip (fun s p => with_vl spin p (updated dt spin s p)) (u_particles (w_u w)) (u_particles u)) u
      /\ w_alt w' = w_alt w /\ w_type w' = w_type w /\ sized w' /\ compensated spin w'.
  Proof.
    intros Sz (Z1 & Z2) E.
    assert (Sz' : sized w') by (apply (velocity_dependent_view (fun _ => tt)) in E; [apply E|exact Sz|apply blind_step_unit|reflexivity|reflexivity]).
    pose proof Sz as (S1 & S2 & S3). unfold velocity_dependent in E. cbn zeta in E.
    destruct (midpoint _ _ _ _ _ _ _ _ _ _ _ _) as [[[ur fi] ch]|] eqn:Em; [|discriminate E]. cbn [rbind] in E.
    assert (Le : length (combine (w_verr w) (w_Lerr w)) = length (u_particles (w_u w))) by (rewrite combine_len; congruence).
    assert (He : Forall (fun e : vlR => fst e = vzero /\ (spin = true -> snd e = vzero)) (combine (w_verr w) (w_Lerr w))).
    { apply Forall_forall. intros [a b] I. rewrite Forall_forall in Z1. split; [apply Z1; eapply in_combine_l; exact I|].
      intro X. specialize (Z2 X). rewrite Forall_forall in Z2. apply Z2. eapply in_combine_r; exact I. }
    apply (midpoint_whole _ _ _ _ _ _ _ _ Le He) in Em.
    destruct Em as (k & u & v & K & Ev & Er & Hu & Hun & -> & ->). exists k, u, v.
    pose proof (evals_len _ _ _ _ _ _ _ _ Ev) as Lv. 
    assert (Lu : length (u_particles (w_u w)) = length (u_particles u)).
    { apply rates_len in Er. rewrite Er. cbn [midpoint_of u_particles set_particles]. rewrite zip_len; congruence. }
    assert (Hq : u_particles ur = u_particles u \/ u_particles ur = zip (fun s p => with_vl spin p (halfway (p_ivel s, p_L s) (updated dt spin s p))) (u_particles (w_u w)) (u_particles u)).
    { destruct Hu as [(-> & _)|(-> & _)]; auto. }
    assert (Q1 : forall (s p : particle R), vsub (vsub (fst (updated dt spin s p)) (fst (vl_of s : vlR))) (fst (change_of dt spin p)) = vzero).
    { intros s p. unfold updated, vl_of, change_of. cbn [fst]. generalize (p_ivel s) (p_iadd p). vring. }
    assert (Q2 : forall (s p : particle R), vsub (vsub (snd (updated dt spin s p)) (snd (vl_of s : vlR))) (snd (change_of dt spin p)) = vzero).
    { intros s p. unfold updated, vl_of, change_of. cbn [snd]. generalize (p_L s) (p_dL p). intros a b. destruct spin; vring. }
    assert (Zz : Forall (fun x : vec R => x = vzero) (map (fun _ => vzero) (u_particles (w_u w)))).
    { apply Forall_forall. intros x I. apply in_map_iff in I. destruct I as (p & <- & _). reflexivity. }
    assert (Ew : w' = WH (set_particles (zip (fun s p => with_vl spin p (updated dt spin s p)) (u_particles (w_u w)) (u_particles u)) ur)
      (w_alt w) (w_type w) (map (fun _ => vzero) (u_particles (w_u w))) (if spin then map (fun _ => vzero) (u_particles (w_u w)) else w_Lerr w)).
    { injection E as <-. apply (f_equal5 (@WH R)).
      - apply f_equal2; [exact (finish_eq dt spin _ _ _ Lu Hq)|reflexivity].
      - reflexivity.
      - reflexivity.
      - exact (error_zero fst (@p_ivel R) dt spin Q1 _ _ Lu).
      - destruct spin; [exact (error_zero snd (@p_ivel R) dt true Q2 _ _ Lu)|reflexivity]. }
    rewrite Ew. cbn [w_u w_alt w_type]. rewrite Ew in Sz'.
    split; [exact K|]. split; [exact Ev|]. split; [exact Er|]. split; [split; [destruct Hu as [(_ & X)|(_ & X)]; auto|exact Hun]|].
    split; [destruct Hu as [(-> & _)|(-> & _)]; reflexivity|]. split; [reflexivity|]. split; [reflexivity|]. split; [exact Sz'|].
    split; cbn [w_verr w_Lerr]; [exact Zz|]. intros ->. exact Zz.
  Qed.
End Whole.

(** change of the spin magnitude *)
Lemma spin_change (L tau prev : vec R) dt : vdot tau (vscale (1/2) (vadd L prev)) = 0 ->
  norm2 (vadd L (vscale dt tau)) - norm2 L = dt * vdot tau (vsub (vadd L (vscale dt tau)) prev).
Proof.
  intro E. transitivity (dt * vdot tau (vsub (vadd L (vscale dt tau)) prev) + 2 * dt * vdot tau (vscale (1/2) (vadd L prev))).
  - vdestruct; vunfold; field.
  - rewrite E. ring.
Qed.
