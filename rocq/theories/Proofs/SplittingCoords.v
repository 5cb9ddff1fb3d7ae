(** * The parts of a WHFast step in its own coordinates (C62) *)
From Coq Require Import Reals List Bool Lra Lia Arith.
From Verif Require Import Base.Num Base.Result Base.Trans Base.Vec Model.Constants Model.Particle Model.Host
  Model.Creep Model.Relativity Model.Universe Model.WHFast
  Spec.EffectsSpec Spec.UniverseSpec Spec.WHFastSpec Spec.SplittingSpec Proofs.NumLemmas Proofs.VecLemmas Proofs.GravityProofs Proofs.LeapFrogProofs
  Proofs.FrameProofs Proofs.EffectSums Proofs.WHFastCoords Proofs.WHFastRun.
Import ListNotations.
Open Scope R_scope.

(** ** Jacobi coordinates from running sums *)
Fixpoint jframe (f : particle R -> vec R) (m : R) (S : vec R) (l : list (particle R)) : list (vec R) :=
  match l with
  | [] => []
  | p :: l => vsub (f p) (vscale (/ m) S) :: jframe f (m + p_mass p) (vadd S (vscale (p_mass p) (f p))) l
  end.
Lemma jacobi_jframe f l : forall inside, jacobi_frame f inside l = jframe f (total_mass inside) (weighted f inside) l.
Proof.
  induction l as [|p l IH]; intro inside; cbn [jacobi_frame jframe]; [reflexivity|].
  rewrite IH, total_snoc, weighted_snoc. reflexivity.
Qed.
(** only the masses and the values count *)
Lemma jframe_view f g l k : forall m S, map p_mass l = map p_mass k -> map f l = map g k -> jframe f m S l = jframe g m S k.
Proof.
  revert k; induction l as [|p l IH]; intros [|q k] m S E Eg; try discriminate; cbn [jframe map] in *; [reflexivity|].
  apply cons_eq in Eg as [E1 E2]. apply cons_eq in E as [E3 E4]. rewrite E1, E3, (IH k); auto.
Qed.

Lemma jacobi_out_frame (l : list (body R)) : forall m sx sv,
  (forall k, m + total_mass (firstn k (map fst l)) <> 0) ->
  exists sx' sv' l', walk jacobi_out (m + total_mass (map fst l), sx, sv) (rev l) = ((m, sx', sv'), rev l')
  /\ map snd l' = map snd l /\ map p_mass (map fst l') = map p_mass (map fst l)
  /\ jframe p_ipos m sx' (map fst l') = map (fun b : body R => a_pos (snd b)) l
  /\ jframe p_ivel m sv' (map fst l') = map (fun b : body R => a_vel (snd b)) l.
Proof.
  induction l as [|[p a] l IH]; intros m sx sv Hk.
  - exists sx, sv, []. cbn. rewrite Rplus_0_r. auto 6.
  - destruct (IH (m + p_mass p) sx sv) as (sx1 & sv1 & l1 & E & I1 & I2 & I3 & I4).
    { intro k. specialize (Hk (S k)). cbn [map fst firstn] in Hk. rewrite total_cons in Hk. lra. }
    cbn [map fst rev]. rewrite total_cons, walk_app, <- Rplus_assoc, E. cbn [walk]. unfold jacobi_out.
    cbn [nadd nmul nsub ndiv n1 NumR].
    set (s := vmulr (vsub sx1 (vscale (p_mass p) (a_pos a))) (1 / (m + p_mass p))).
    set (v := vmulr (vsub sv1 (vscale (p_mass p) (a_vel a))) (1 / (m + p_mass p))).
    cbn [p_mass set_p_ivel set_p_ipos].
    replace (m + p_mass p - p_mass p) with m by ring.
    exists (vmulr s m), (vmulr v m), ((set_p_ivel (vadd (a_vel a) v) (set_p_ipos (vadd (a_pos a) s) p), a) :: l1).
    split; [reflexivity|]. cbn [map fst snd jframe p_mass p_ipos p_ivel set_p_ivel set_p_ipos].
    split; [now rewrite I1|]. split; [now rewrite I2|].
    pose proof (Hk 0%nat) as K0. pose proof (Hk 1%nat) as K1. cbn [map fst firstn] in K0, K1. rewrite total_cons in K1.
    change (total_mass []) with 0 in K0, K1. rewrite Rplus_0_r in K0, K1.
    assert (Hs : forall x y : vec R, vadd (vmulr (vmulr (vsub x (vscale (p_mass p) y)) (1 / (m + p_mass p))) m)
        (vscale (p_mass p) (vadd y (vmulr (vsub x (vscale (p_mass p) y)) (1 / (m + p_mass p))))) = x).
    { intros x y. generalize dependent (p_mass p). intros. vfield; auto. }
    assert (Hq : forall x y : vec R, vsub (vadd y x) (vscale (/ m) (vmulr x m)) = y).
    { intros x y. vfield; auto. }
    unfold s at 2 3, v at 2 3. rewrite !Hs, !Hq, I3, I4. split; reflexivity.
Qed.

(** ** The system that coordinates stand for *)
Definition inertial (c : coordinates) (star : body R) (o : list (body R)) : system :=
  let r := to_inertial c star o in (fst (fst r), map fst (snd r)).

Record good (c : coordinates) (star : body R) (o : list (body R)) : Prop := {
  g_usable : usable c (fst star) (map fst o);
  g_total : a_mass (snd star) = total_mass (map fst (star :: o));
  g_host : p_mass_g (fst star) = G * p_mass (fst star);
  g_slots : Forall (fun b : body R => a_mass (snd b) = p_mass (fst b) /\ a_mass_g (snd b) = G * p_mass (fst b)) o }.

Lemma usable_total c s o : usable c s o -> total_mass (s :: o) <> 0.
Proof. destruct c; cbn [usable]; [|intros U; apply U|intros U; apply U]. intro U. specialize (U (length o)). now rewrite firstn_all in U. Qed.
Lemma usable_host c s o : usable c s o -> p_mass s <> 0.
Proof. destruct c; cbn [usable]; [|intros U; apply U|intros U; apply U]. intro U. specialize (U 0%nat). cbn [firstn] in U. destruct (single_sums s) as [T _]. now rewrite T in U. Qed.

Lemma inertial_masses c star o : good c star o -> map p_mass (all (inertial c star o)) = map p_mass (map fst (star :: o)).
Proof. intro g. destruct (to_inertial_sums c star o (g_usable _ _ _ g) (g_total _ _ _ g)) as (_ & _ & S & _). exact S. Qed.
Lemma inertial_means c star o : good c star o ->
  mean p_ipos (all (inertial c star o)) = a_pos (snd star) /\ mean p_ivel (all (inertial c star o)) = a_vel (snd star).
Proof.
  intro g. destruct (to_inertial_sums c star o (g_usable _ _ _ g) (g_total _ _ _ g)) as (_ & _ & S & S1 & S2).
  pose proof (usable_total _ _ _ (g_usable _ _ _ g)) as E. cbn [map] in S1, S2, S.
  unfold mean, all, inertial. cbn [fst snd]. unfold of_bodies in *. cbn [map] in *.
  rewrite S1, S2, (total_masses (fst (fst (to_inertial c star o)) :: map fst (snd (to_inertial c star o))) (fst star :: map fst o) S), !vscale_scale, !Rinv_l, !vscale_1 by exact E. auto.
Qed.
Lemma inertial_jacobi star o : good Jacobi star o ->
  positions Jacobi (inertial Jacobi star o) = map (fun b : body R => a_pos (snd b)) o
  /\ velocities Jacobi (inertial Jacobi star o) = map (fun b : body R => a_vel (snd b)) o.
Proof.
  intro g. destruct g as [U M _ _]. pose proof (usable_host _ _ _ U) as E0. cbn [usable] in U.
  unfold inertial, positions, velocities, pos_frame, vel_frame. cbn [to_inertial fst snd].
  unfold jacobi_to_inertial. rewrite M. cbn [map]. rewrite total_cons.
  destruct (jacobi_out_frame o (p_mass (fst star)) (vscale (p_mass (fst star) + total_mass (map fst o)) (a_pos (snd star)))
     (vscale (p_mass (fst star) + total_mass (map fst o)) (a_vel (snd star)))) as (sx & sv & l' & E & _ & _ & I3 & I4).
  { intro k. specialize (U k). now rewrite total_cons in U. }
  rewrite E. cbn [fst snd on_p]. rewrite rev_involutive, !jacobi_jframe.
  match goal with |- context [set_p_ivel ?v (set_p_ipos ?x ?p)] => set (s := set_p_ivel v (set_p_ipos x p)) end.
  destruct (single_sums s) as [T W]. rewrite T, !W. unfold s. cbn [p_mass p_ipos p_ivel set_p_ipos set_p_ivel ndiv n1 NumR].
  rewrite !mulr_scale, !vscale_scale, !Rinv_r, !vscale_1 by exact E0. auto.
Qed.

Lemma vback (a b : vec R) : vsub (vadd a b) b = a. Proof. vring. Qed.
Lemma inertial_helio (whds : bool) star o : let c := if whds then WHDS else DemocraticHeliocentric in good c star o ->
  positions c (inertial c star o) = map (fun b : body R => a_pos (snd b)) o
  /\ velocities c (inertial c star o) = map (fun b : body R => a_vel (snd b)) o.
Proof.
  intros c g. pose proof (inertial_means _ _ _ g) as (_ & MV). pose proof (g_usable _ _ _ g) as U. pose proof (usable_host _ _ _ U) as E0.
  assert (EI : to_inertial c star o = heliocentric_alt_to_inertial whds star o) by (destruct whds; reflexivity).
  assert (X : velocities c (inertial c star o) = map (fun p => if whds then vscale ((p_mass (fst (inertial c star o)) + p_mass p) / p_mass (fst (inertial c star o))) (vsub (p_ivel p) (a_vel (snd star))) else vsub (p_ivel p) (a_vel (snd star))) (snd (inertial c star o))).
  { unfold velocities, vel_frame, c in *. destruct whds; rewrite MV; reflexivity. }
  assert (Y : positions c (inertial c star o) = map (fun p => vsub (p_ipos p) (p_ipos (fst (inertial c star o)))) (snd (inertial c star o))).
  { unfold positions, pos_frame, c. destruct whds; reflexivity. }
  rewrite X, Y. clear X Y MV. unfold inertial. rewrite EI, of_helio. cbn [fst snd]. unfold body in *. rewrite !map_map.
  cbn [fst snd p_ipos p_ivel p_mass set_p_ipos set_p_ivel]. split; apply map_ext_in; intros b Hb; rewrite vback; [reflexivity|].
  unfold hback. destruct whds; [|reflexivity]. destruct U as (_ & _ & EW). rewrite Forall_forall in EW. specialize (EW (fst b) (in_map fst _ _ Hb)).
  rewrite divr_scale, vscale_scale. replace ((p_mass (fst star) + p_mass (fst b)) / p_mass (fst star) * / ((p_mass (fst star) + p_mass (fst b)) / p_mass (fst star))) with 1 by (field; auto).
  apply vscale_1.
Qed.
Lemma inertial_frames c star o : good c star o ->
  positions c (inertial c star o) = map (fun b : body R => a_pos (snd b)) o
  /\ velocities c (inertial c star o) = map (fun b : body R => a_vel (snd b)) o.
Proof. destruct c; [apply inertial_jacobi|apply (inertial_helio false)|apply (inertial_helio true)]. Qed.

(** ** Lists *)
Lemma zip_with3_map {X A B C D} (f : A -> B -> C -> D) (a : X -> A) (b : X -> B) (c : X -> C) l :
  zip_with3 f (map a l) (map b l) (map c l) = map (fun x => f (a x) (b x) (c x)) l.
Proof. unfold zip_with3. induction l as [|x l IH]; cbn [map combine]; [reflexivity|]. rewrite IH. reflexivity. Qed.
Lemma inner_masses_view l k : forall m, map p_mass l = map p_mass k -> inner_masses m l = inner_masses m k.
Proof.
  revert k; induction l as [|p l IH]; intros [|q k] m E; try discriminate; cbn [inner_masses map] in *; [reflexivity|].
  apply cons_eq in E as [E1 E2]. rewrite E1, (IH k); auto.
Qed.
Lemma map_of_masses {A} (f : R -> A) l k : map p_mass l = map p_mass k -> map (fun p => f (p_mass p)) l = map (fun p => f (p_mass p)) k.
Proof. intro E. rewrite <- !(map_map p_mass f). now rewrite E. Qed.
Lemma kepler_masses_view c s s' : map p_mass (all s') = map p_mass (all s) -> kepler_masses c s' = kepler_masses c s.
Proof.
  destruct s as [p l], s' as [q k]. unfold all. cbn [fst snd map]. intro E. apply cons_eq in E as [E1 E2].
  destruct c; cbn [kepler_masses fst snd].
  - rewrite E1. now apply inner_masses_view.
  - now apply (map_of_masses (fun _ => p_mass q)) in E2; rewrite E2, E1.
  - rewrite E1. now apply (map_of_masses (fun m => p_mass p + m)).
Qed.
Lemma softenings_view c s s' : map p_mass (all s') = map p_mass (all s) -> softenings c s' = softenings c s.
Proof.
  destruct s as [p l], s' as [q k]. unfold all. cbn [fst snd map]. intro E. apply cons_eq in E as [E1 E2].
  pose proof (map_of_masses (fun _ => 0) _ _ E2) as X.
  destruct c; cbn [softenings fst snd]; auto. destruct l as [|a l], k as [|b k]; try discriminate; [reflexivity|].
  cbn [map] in E2. apply cons_eq in E2 as [_ E2]. f_equal. now apply (map_of_masses (fun _ => 1 / 10 ^ 12)).
Qed.
(** frames only depend on masses, positions and velocities *)
Lemma mean_view f g l k : map p_mass l = map p_mass k -> map f l = map g k -> mean f l = mean g k.
Proof.
  intros E1 E2. unfold mean. rewrite (total_masses _ _ E1). f_equal. unfold weighted. f_equal.
  revert k E1 E2; induction l as [|p l IH]; intros [|q k] E1 E2; try discriminate; cbn [map] in *; [reflexivity|].
  apply cons_eq in E1 as [A1 A2]. apply cons_eq in E2 as [B1 B2]. rewrite A1, B1, (IH k); auto.
Qed.
Lemma pos_frame_view c f g s s' : map p_mass (all s') = map p_mass (all s) -> map g (all s') = map f (all s) -> pos_frame c g s' = pos_frame c f s.
Proof.
  destruct s as [p l], s' as [q k]. unfold all. cbn [fst snd map]. intros E1 E2. apply cons_eq in E1 as [A1 A2]. apply cons_eq in E2 as [B1 B2].
  assert (X : map (fun x => vsub (g x) (g q)) k = map (fun x => vsub (f x) (f p)) l).
  { rewrite B1, <- (map_map g (fun v => vsub v (f p))), B2, map_map. reflexivity. }
  destruct c; cbn [pos_frame fst snd]; auto. rewrite !jacobi_jframe. destruct (single_sums p) as [T W], (single_sums q) as [T' W'].
  rewrite T, T', W, W', A1, B1. now apply jframe_view.
Qed.
Lemma vel_frame_view c f g s s' : map p_mass (all s') = map p_mass (all s) -> map g (all s') = map f (all s) -> vel_frame c g s' = vel_frame c f s.
Proof.
  intros E1 E2. pose proof (mean_view _ _ _ _ E1 E2) as Em. revert E1 E2 Em.
  destruct s as [p l], s' as [q k]. unfold all. cbn [fst snd map]. intros E1 E2 Em. apply cons_eq in E1 as [A1 A2]. apply cons_eq in E2 as [B1 B2].
  assert (X : forall h : R -> vec R -> vec R, map (fun x => h (p_mass x) (g x)) k = map (fun x => h (p_mass x) (f x)) l).
  { clear - A2 B2. intro h. revert k A2 B2. induction l as [|x l IH]; intros [|y k] A B; try discriminate; cbn [map] in *; [reflexivity|].
    apply cons_eq in A as [A1 A2]. apply cons_eq in B as [B1 B2]. rewrite A1, B1, (IH k); auto. }
  destruct c; cbn [vel_frame fst snd]; unfold all; cbn [fst snd]; rewrite ?Em.
  - rewrite !jacobi_jframe. destruct (single_sums p) as [T W], (single_sums q) as [T' W']. rewrite T, T', W, W', A1, B1. now apply jframe_view.
  - apply (X (fun _ v => vsub v (mean f (p :: l)))).
  - rewrite A1. apply (X (fun m v => vscale ((p_mass p + m) / p_mass p) (vsub v (mean f (p :: l))))).
Qed.

(** ** Jump *)
Lemma same_slots_good c star o r : good c star o -> same_slots star o r ->
  map (fun b : body R => a_mass (snd b)) (snd r) = map (fun b : body R => a_mass (snd b)) o ->
  map (fun b : body R => a_mass_g (snd b)) (snd r) = map (fun b : body R => a_mass_g (snd b)) o ->
  good c (fst r) (snd r).
Proof.
  intros [U M Hh Hs] (S1 & S2 & S3 & S4 & S5 & S6) E1 E2. cbn [map] in *. split.
  - now rewrite S1, S2.
  - cbn [map]. now rewrite S3, S1, S2.
  - now rewrite S1.
  - clear - Hs S2 E1 E2. revert E1 E2 S2. generalize (snd r). induction o as [|b o IH]; intros [|d l] E1 E2 E3; try discriminate; [constructor|].
    cbn [map] in *. apply cons_eq in E1 as [A1 A2]. apply cons_eq in E2 as [B1 B2]. apply cons_eq in E3 as [C1 C2].
    inversion Hs; subst. constructor; [|auto]. now rewrite A1, B1, C1.
Qed.
Lemma vsum_fold {A} (f : A -> vec R) l : forall z, fold_left (fun s b => vadd s (f b)) l z = vadd z (Vsum (map f l)).
Proof.
  induction l as [|a l IH]; intro z; cbn [fold_left map Vsum fold_right]; [now rewrite vadd_0_r|].
  rewrite IH. unfold Vsum. now rewrite vadd_assoc.
Qed.
Lemma jump_keeps c h star o : let r := jump c h star o in
  map (fun b : body R => a_mass (snd b)) (snd r) = map (fun b : body R => a_mass (snd b)) o
  /\ map (fun b : body R => a_mass_g (snd b)) (snd r) = map (fun b : body R => a_mass_g (snd b)) o
  /\ map (fun b : body R => a_vel (snd b)) (snd r) = map (fun b : body R => a_vel (snd b)) o.
Proof. destruct c; cbn [jump fst snd]; unfold body; rewrite ?map_map; auto. Qed.
Lemma jump_moves c h star o : good c star o ->
  map (fun b : body R => a_pos (snd b)) (snd (jump c h star o))
  = zip_with3 (fun q v rate => vadd q (vscale h (vsub rate v)))
      (map (fun b : body R => a_pos (snd b)) o) (map (fun b : body R => a_vel (snd b)) o) (pos_frame c p_ivel (inertial c star o)).
Proof.
  intro g. destruct c.
  - cbn [jump snd]. change (pos_frame Jacobi p_ivel (inertial Jacobi star o)) with (velocities Jacobi (inertial Jacobi star o)).
    destruct (inertial_frames _ _ _ g) as (_ & ->). rewrite zip_with3_map. apply map_ext. intro b. generalize (a_pos (snd b)) (a_vel (snd b)). vring.
  - cbn [jump snd]. cbn [pos_frame]. unfold inertial. cbn [to_inertial]. rewrite of_helio. cbn [fst snd]. unfold body in *. rewrite !map_map, zip_with3_map.
    apply map_ext. intro b. cbn [on_alt snd a_pos set_a_pos fst p_ivel set_p_ivel hback].
    rewrite vsum_fold, vadd_0_l, divr_scale. f_equal.
    pose proof (usable_host _ _ _ (g_usable _ _ _ g)) as E0.
    assert (X : vscale (/ p_mass (fst star)) (Vsum (map (fun b : body R => vscale (p_mass (fst b)) (a_vel (snd b))) o))
      = Vsum (map (fun b : body R => vscale (hweight false (p_mass (fst star)) (fst b)) (a_vel (snd b))) o)).
    { rewrite <- Vsum_map_scale. f_equal. apply map_ext. intro d. rewrite vscale_scale. unfold hweight. f_equal. unfold Rdiv. ring. }
    unfold body in X. rewrite <- X. generalize (Vsum (map (fun b : particle R * alternative R => vscale (p_mass (fst b)) (a_vel (snd b))) o)) (a_vel (snd b)) (a_vel (snd star)).
    intros. cbn [ndiv nmul NumR] in *. generalize (/ p_mass (fst star)). intro. vring.
  - cbn [jump snd]. cbn [pos_frame]. unfold inertial. cbn [to_inertial]. rewrite of_helio. cbn [fst snd]. unfold body in *. rewrite !map_map, zip_with3_map.
    apply map_ext_in. intros b Hb. cbn [on_alt snd a_pos set_a_pos fst p_ivel set_p_ivel hback].
    pose proof (usable_host _ _ _ (g_usable _ _ _ g)) as E0. destruct (g_usable _ _ _ g) as (_ & _ & EW). rewrite Forall_forall in EW.
    assert (Eb := EW (fst b) (in_map fst _ _ Hb)).
    rewrite vsum_fold, vadd_0_l, !divr_scale. f_equal. f_equal. cbn [nadd ndiv nmul NumR].
    assert (X : Vsum (map (fun b : body R => vdivr (vscale (p_mass (fst b)) (a_vel (snd b))) (p_mass (fst star) + p_mass (fst b))) o)
      = Vsum (map (fun b : body R => vscale (hweight true (p_mass (fst star)) (fst b)) (a_vel (snd b))) o)).
    { f_equal. apply map_ext. intro d. rewrite divr_scale, vscale_scale. unfold hweight. f_equal. unfold Rdiv. ring. }
    unfold body in X. rewrite X. generalize (Vsum (map (fun b : particle R * alternative R => vscale (hweight true (p_mass (fst star)) (fst b)) (a_vel (snd b))) o)) (a_vel (snd b)) (a_vel (snd star)).
    revert E0 Eb. generalize (p_mass (fst star)) (p_mass (fst b)). clear. intros. vfield; auto.
Qed.
Lemma jump_is c h star o : good c star o -> let r := jump c h star o in
  good c (fst r) (snd r) /\ jump_part c h (inertial c star o) (inertial c (fst r) (snd r)).
Proof.
  intros g r. destruct (jump_keeps c h star o) as (K1 & K2 & K3). fold r in K1, K2, K3.
  pose proof (jump_slots c h star o) as J. fold r in J.
  assert (g' : good c (fst r) (snd r)) by (eapply same_slots_good; eauto).
  split; [exact g'|]. destruct J as (J1 & J2 & J3 & _ & J5 & J6).
  destruct (inertial_means _ _ _ g) as (A1 & A2), (inertial_means _ _ _ g') as (B1 & B2).
  destruct (inertial_frames _ _ _ g) as (F1 & F2), (inertial_frames _ _ _ g') as (F1' & F2').
  unfold jump_part. split; [|split; [|split; [|split]]].
  - unfold same_masses. rewrite (inertial_masses _ _ _ g), (inertial_masses _ _ _ g'). cbn [map]. now rewrite J1, J2.
  - now rewrite A2, B2.
  - now rewrite A1, B1.
  - now rewrite F2, F2'.
  - rewrite F1, F2, F1'. now apply jump_moves.
Qed.

(** ** Kepler motions *)
Section Kepler.
  Context `{Trans R} `{Floor R} `{Fuel}.

  Fixpoint masses_of (mu kp : R -> R -> R) (m : R) (l : list (particle R)) : list R :=
    match l with [] => [] | p :: l => mu m (p_mass p) :: masses_of mu kp (kp m (p_mass p)) l end.
  Lemma step_keeps mg h (a a' : alternative R) : kepler_step mg h a = Ok a' -> a_mass a' = a_mass a /\ a_mass_g a' = a_mass_g a.
  Proof.
    unfold kepler_step. destruct (solve_kepler _) as [[g ri]|]; [|intro X; discriminate X]. cbn [rbind fst snd].
    destruct (kepler_drift _ _ _ _ _) as [x v]. intro X. injection X as <-. auto.
  Qed.
  Lemma walk_drifts h mass keep mu kp (o : list (body R)) : 
    (forall m (a : alternative R) p, a_mass_g a = G * p_mass p -> mass (G * m) a = G * mu m (p_mass p) /\ keep (G * m) a = G * kp m (p_mass p)) ->
    forall m o', Forall (fun b : body R => a_mass (snd b) = p_mass (fst b) /\ a_mass_g (snd b) = G * p_mass (fst b)) o ->
    kepler_walk mass keep (G * m) h o = Ok o' ->
    map (fun b : body R => a_mass (snd b)) o' = map (fun b : body R => a_mass (snd b)) o
    /\ map (fun b : body R => a_mass_g (snd b)) o' = map (fun b : body R => a_mass_g (snd b)) o
    /\ drifts h (masses_of mu kp m (map fst o)) (map (fun b : body R => a_pos (snd b)) o) (map (fun b : body R => a_vel (snd b)) o)
         (map (fun b : body R => a_pos (snd b)) o') (map (fun b : body R => a_vel (snd b)) o').
  Proof.
    intro Hm. induction o as [|[p a] o IH]; intros m o' Hs E; cbn [kepler_walk] in E.
    - injection E as <-. cbn [map masses_of]. split; [reflexivity|]. split; [reflexivity|]. constructor.
    - inversion Hs as [|? ? [Ha1 Ha2] Hs']; subst. cbn [fst snd] in *. destruct (Hm m a p Ha2) as [M1 M2]. rewrite M1, M2 in E.
      destruct (kepler_step (G * mu m (p_mass p)) h a) as [a'|] eqn:Ek; [|discriminate E]. cbn [rbind] in E.
      destruct (kepler_walk mass keep _ h o) as [k|] eqn:Ew; [|discriminate E]. cbn [rbind] in E. injection E as <-.
      destruct (IH _ _ Hs' Ew) as (I1 & I2 & I3). destruct (step_keeps _ _ _ _ Ek) as [S1 S2].
      cbn [map fst snd masses_of]. rewrite I1, I2, S1, S2. split; [reflexivity|]. split; [reflexivity|].
      constructor; [|exact I3]. exists a, a'. auto 6.
  Qed.
  Lemma masses_of_jacobi m l : masses_of Rplus Rplus m l = inner_masses m l.
  Proof. revert m; induction l as [|p l IH]; intro m; cbn [masses_of inner_masses]; [reflexivity|]. now rewrite IH. Qed.
  Lemma masses_of_const mu m l : masses_of mu (fun m _ => m) m l = map (fun p => mu m (p_mass p)) l.
  Proof. induction l as [|p l IH]; cbn [masses_of map]; [reflexivity|]. now rewrite IH. Qed.

  Lemma kepler_is c h star o r : good c star o -> kepler_steps c h star o = Ok r ->
    good c (fst r) (snd r) /\ kepler_part c h (inertial c star o) (inertial c (fst r) (snd r)).
  Proof.
    intros g E. destruct (kepler_steps_inv _ _ _ _ _ E) as (K1 & K2).
    assert (X : map (fun b : body R => a_mass (snd b)) (snd r) = map (fun b : body R => a_mass (snd b)) o
      /\ map (fun b : body R => a_mass_g (snd b)) (snd r) = map (fun b : body R => a_mass_g (snd b)) o
      /\ drifts h (kepler_masses c (fst star, map fst o)) (map (fun b : body R => a_pos (snd b)) o) (map (fun b : body R => a_vel (snd b)) o)
         (map (fun b : body R => a_pos (snd b)) (snd r)) (map (fun b : body R => a_vel (snd b)) (snd r))).
    { unfold kepler_steps in E. rewrite (g_host _ _ _ g) in E. 
      match type of E with rbind ?e _ = _ => destruct e as [o'|] eqn:Eo; [|discriminate E] end. cbn [rbind] in E. injection E as <-. cbn [fst snd].
      pose proof (g_slots _ _ _ g) as Hs.
      destruct c; cbn [kepler_masses fst snd].
      - rewrite <- masses_of_jacobi. refine (walk_drifts h _ _ Rplus Rplus o _ _ _ Hs Eo).
        intros m a p ->. cbn [nadd NumR]. split; ring.
      - rewrite <- (masses_of_const (fun m _ => m)). refine (walk_drifts h _ _ (fun m _ => m) (fun m _ => m) o _ _ _ Hs Eo). auto.
      - rewrite <- (masses_of_const Rplus). refine (walk_drifts h _ _ Rplus (fun m _ => m) o _ _ _ Hs Eo).
        intros m a p ->. cbn [nadd NumR]. split; ring. }
    destruct X as (X1 & X2 & X3).
    assert (J1 : fst (fst r) = fst star) by now rewrite K1.
    assert (J3 : a_mass (snd (fst r)) = a_mass (snd star)) by now rewrite K1.
    assert (J5 : a_pos (snd (fst r)) = vadd (a_pos (snd star)) (vscale h (a_vel (snd star)))) by now rewrite K1.
    assert (J6 : a_vel (snd (fst r)) = a_vel (snd star)) by now rewrite K1.
    assert (g' : good c (fst r) (snd r)).
    { pose proof (same_slots_good c star o ((fst star, snd star), snd r)) as Q. cbn [fst snd] in Q.
      specialize (Q g). destruct Q as [Q1 Q2 Q3 Q4]; auto.
      - unfold same_slots. cbn [fst snd]. auto 6.
      - cbn [fst snd map] in *. split; auto.
        + now rewrite J1.
        + cbn [map]. now rewrite J3, J1.
        + now rewrite J1. }
    split; [exact g'|].
    destruct (inertial_means _ _ _ g) as (A1 & A2), (inertial_means _ _ _ g') as (B1 & B2).
    destruct (inertial_frames _ _ _ g) as (F1 & F2), (inertial_frames _ _ _ g') as (F1' & F2').
    unfold kepler_part. split; [|split; [|split]].
    - unfold same_masses. rewrite (inertial_masses _ _ _ g), (inertial_masses _ _ _ g'). cbn [map]. now rewrite J1, K2.
    - now rewrite A2, B2.
    - now rewrite A1, A2, B1.
    - rewrite F1, F2, F1', F2'. rewrite (kepler_masses_view c (fst star, map fst o)); [exact X3|].
      rewrite (inertial_masses _ _ _ g). reflexivity.
  Qed.
End Kepler.

(** ** Kicks *)
(** what the gravity step of each coordinate choice leaves in the accelerations *)
Definition felt (c : coordinates) (star : particle R) (o : list (particle R)) : Prop :=
  match c with
  | Jacobi => match o with
              | [] => True
              | p :: l => p_iacc star = pulled l star /\ p_iacc p = pulled (p :: l) p /\ Forall (fun q => p_iacc q = pulled (star :: p :: l) q) l
              end
  | _ => Forall (fun q => p_iacc q = pulled o q) o
  end.
Lemma pulled_cons a l p : pulled (a :: l) p = vadd (attraction G p a) (pulled l p).
Proof. reflexivity. Qed.
Lemma pulled_weighted l : weighted (pulled l) l = vzero.
Proof.
  unfold weighted, pulled.
  transitivity (Vsum (map (fun a => Vsum (map (fun b => vscale (p_mass a) (attraction G a b)) l)) l)).
  - f_equal. apply map_ext. intro a. now rewrite Vsum_map_scale.
  - apply pairs_cancel. intros a b. apply attraction_newton3.
Qed.
Lemma attraction_central p s : attraction G p s = vneg (central (p_mass s) 0 (vsub (p_ipos p) (p_ipos s))).
Proof.
  unfold attraction, central, separation. rewrite Rplus_0_r, norm2_vsub_sym. unfold Rdiv.
  rewrite (norm2_vsub_sym (p_ipos p) (p_ipos s)). generalize (/ sqrt (norm2 (vsub (p_ipos s) (p_ipos p))) ^ 3). generalize (p_ipos s) (p_ipos p). vring.
Qed.
Lemma attraction_central' p s : attraction G s p = central (p_mass p) 0 (vsub (p_ipos p) (p_ipos s)).
Proof.
  rewrite attraction_central. unfold central. rewrite norm2_vsub_sym. generalize (G * p_mass p / sqrt (norm2 (vsub (p_ipos p) (p_ipos s)) + 0) ^ 3).
  generalize (p_ipos s) (p_ipos p). vring.
Qed.

Definition kicked (c : coordinates) (h : R) (star : particle R) (o : list (particle R)) (vs : list (vec R)) : list (vec R) :=
  zip_with3 (fun v rate k => vadd v (vscale h (vadd rate k))) vs (vel_frame c (pulled (star :: o)) (star, o))
    (zip_with3 central (kepler_masses c (star, o)) (softenings c (star, o)) (positions c (star, o))).

Lemma mean_pulled l : mean (pulled l) l = vzero.
Proof. unfold mean. rewrite pulled_weighted. vring. Qed.
Lemma kick_helio (whds : bool) h (star : body R) (o : list (body R)) : let c := if whds then WHDS else DemocraticHeliocentric in
  good c star o -> felt c (fst star) (map fst o) ->
  map (fun b : body R => a_vel (snd b)) (snd (interaction c h star o)) = kicked c h (fst star) (map fst o) (map (fun b : body R => a_vel (snd b)) o).
Proof.
  intros c g Hf. pose proof (usable_host _ _ _ (g_usable _ _ _ g)) as E0. set (s := fst star) in *. set (l := map fst o) in *.
  assert (Hf' : Forall (fun q => p_iacc q = pulled l q) l) by (unfold c in Hf; destruct whds; exact Hf). clear Hf. rewrite Forall_forall in Hf'.
  assert (X : kicked c h s l (map (fun b : body R => a_vel (snd b)) o)
    = map (fun b : body R => vadd (a_vel (snd b)) (vscale h (vadd (let d := vsub (pulled (s :: l) (fst b)) vzero in if whds then vscale ((p_mass s + p_mass (fst b)) / p_mass s) d else d)
         (central (if whds then p_mass s + p_mass (fst b) else p_mass s) 0 (vsub (p_ipos (fst b)) (p_ipos s)))))) o).
  { unfold kicked, c, l. destruct whds; cbn [vel_frame kepler_masses softenings positions pos_frame fst snd]; unfold positions; cbn [pos_frame fst snd];
      unfold all; cbn [fst snd]; rewrite ?mean_pulled, !map_map, !zip_with3_map; apply map_ext; reflexivity. }
  rewrite X. unfold c. destruct whds; cbn [interaction snd]; unfold body in *; rewrite !map_map; apply map_ext_in; intros b Hb;
    cbn [on_alt snd a_vel set_a_vel]; f_equal; rewrite (Hf' (fst b) (in_map fst _ _ Hb)), pulled_cons, attraction_central.
  - fold s. cbn [nmul nadd NumR]. rewrite divr_scale. unfold central. rewrite Rplus_0_r. unfold Rdiv.
    generalize (/ sqrt (norm2 (vsub (p_ipos (fst b)) (p_ipos s))) ^ 3). generalize (vsub (p_ipos (fst b)) (p_ipos s)) (pulled l (fst b)).
    clear - E0. generalize dependent (p_mass s). generalize (p_mass (fst b)). intros. vfield; auto.
  - cbv zeta. unfold central. generalize (G * p_mass s / sqrt (norm2 (vsub (p_ipos (fst b)) (p_ipos s)) + 0) ^ 3). generalize (vsub (p_ipos (fst b)) (p_ipos s)) (pulled l (fst b)). vring.
Qed.

(** *** Jacobi coordinates *)
Lemma acc_walk (o : list (body R)) : forall m S, (forall k, m + total_mass (firstn k (map fst o)) <> 0) ->
  exists s, walk jacobi_acc_in (m, S) o = (s, map (fun bx => on_alt (set_a_acc (snd bx)) (fst bx)) (combine o (jframe p_iacc m S (map fst o)))).
Proof.
  induction o as [|b o IH]; intros m S Hk; cbn [walk map jframe combine]; [eauto|].
  cbn [jacobi_acc_in nadd nmul ndiv n1 NumR]. pose proof (Hk 0%nat) as K0. cbn [firstn] in K0. change (total_mass []) with 0 in K0. rewrite Rplus_0_r in K0.
  rewrite in_pos, in_sum by exact K0.
  destruct (IH (m + p_mass (fst b)) (vadd S (vscale (p_mass (fst b)) (p_iacc (fst b))))) as (s & E).
  { intro k. specialize (Hk (Datatypes.S k)). cbn [map firstn] in Hk. rewrite total_cons in Hk. lra. }
  rewrite E. exists s. reflexivity.
Qed.
Lemma soft_kick (n eps g m : R) : 0 < n + eps -> sqrt (1 / (n + eps)) * (1 / (n + eps)) * g * m = g * m / sqrt (n + eps) ^ 3.
Proof.
  intro P. pose proof (sqrt_lt_R0 _ P) as Q. unfold Rdiv at 1 2. rewrite !Rmult_1_l, sqrt_inv.
  rewrite <- (sqrt_sqrt (n + eps)) at 2 by lra. field. lra.
Qed.
Lemma kick_walk h (o : list (body R)) : forall m accs, length accs = length o ->
  Forall (fun b : body R => a_mass (snd b) = p_mass (fst b) /\ a_mass_g (snd b) = G * p_mass (fst b)) o ->
  map (fun b : body R => a_vel (snd b)) (snd (walk (jacobi_kick h) (m, false) (map (fun bx => on_alt (set_a_acc (snd bx)) (fst bx)) (combine o accs))))
  = zip_with3 (fun v rate k => vadd v (vscale h (vadd rate k))) (map (fun b : body R => a_vel (snd b)) o) accs
      (zip_with3 central (inner_masses m (map fst o)) (map (fun _ => 1 / 10 ^ 12) (map fst o)) (map (fun b : body R => a_pos (snd b)) o)).
Proof.
  induction o as [|[p a] o IH]; intros m [|x accs] L Hs; try discriminate; [reflexivity|].
  inversion Hs as [|? ? [Ha _] Hs']; subst. cbn [fst snd] in Ha.
  cbn [combine map walk jacobi_kick on_alt fst snd a_mass set_a_acc]. rewrite Ha. cbn [nadd nmul ndiv n1 NumR].
  specialize (IH (m + p_mass p) accs ltac:(cbn in L; lia) Hs').
  destruct (walk (jacobi_kick h) (m + p_mass p, false) _) as [s l']. cbn [snd] in IH |- *.
  cbn [map snd fst a_vel set_a_vel a_pos set_a_acc a_acc inner_masses]. rewrite IH. unfold zip_with3. cbn [combine map fst snd]. f_equal.
  unfold SOFTENING. num_simpl.
  replace (1 / 1000000000000) with (1 / 10 ^ 12) by lra. unfold central.
  pose proof (norm2_nonneg (a_pos a)) as N.
  rewrite soft_kick by lra. generalize (G * (m + p_mass p) / sqrt (norm2 (a_pos a) + 1 / 10 ^ 12) ^ 3). generalize (a_pos a) (a_vel a). vring.
Qed.
Lemma jframe_length f l : forall m S, length (jframe f m S l) = length l.
Proof. induction l as [|p l IH]; intros m S; cbn [jframe length]; [reflexivity|]. now rewrite IH. Qed.
Lemma vel_jacobi f star o : vel_frame Jacobi f (star, o) = jframe f (p_mass star) (vscale (p_mass star) (f star)) o.
Proof. cbn [vel_frame fst snd]. rewrite jacobi_jframe. destruct (single_sums star) as [T W]. now rewrite T, W. Qed.
Lemma kick_jacobi h (star : body R) (o : list (body R)) : good Jacobi star o -> felt Jacobi (fst star) (map fst o) ->
  positions Jacobi (fst star, map fst o) = map (fun b : body R => a_pos (snd b)) o ->
  map (fun b : body R => a_vel (snd b)) (snd (interaction Jacobi h star o)) = kicked Jacobi h (fst star) (map fst o) (map (fun b : body R => a_vel (snd b)) o).
Proof.
  intros g Hf Hq. destruct g as [U _ _ Hs]. pose proof (usable_host _ _ _ U) as E0. cbn [usable] in U.
  unfold kicked. rewrite vel_jacobi, Hq. cbn [interaction]. unfold inertial_to_jacobi_acc.
  destruct (acc_walk o (p_mass (fst star)) (vscale (p_mass (fst star)) (p_iacc (fst star)))) as ([eta sa] & E).
  { intro k. specialize (U k). now rewrite total_cons in U. }
  rewrite E. cbn [snd]. destruct o as [|[p a] o]; [reflexivity|].
  cbn [map fst felt] in Hf. destruct Hf as (Fs & Fp & Fo). cbn [map fst] in Hq.
  unfold positions in Hq. cbn [pos_frame fst snd jacobi_frame] in Hq. apply cons_eq in Hq as [Hq _].
  inversion Hs as [|? ? [Ha _] Hs']; subst. cbn [fst snd] in Ha, Hq.
  cbn [map fst snd jframe combine walk on_alt set_a_acc a_mass jacobi_kick]. rewrite Ha. cbn [nadd NumR].
  pose proof (kick_walk h o (p_mass (fst star) + p_mass p)) as K.
  match goal with |- context [combine o ?accs] => specialize (K accs) end.
  specialize (K ltac:(rewrite jframe_length, map_length; reflexivity) Hs').
  destruct (walk (jacobi_kick h) _ _) as [s l']. cbn [snd] in K |- *. cbn [map snd a_vel set_a_vel set_a_acc a_acc]. rewrite K. clear K.
  cbn [kepler_masses softenings inner_masses fst snd]. unfold zip_with3. cbn [combine map fst snd].
  set (m0 := p_mass (fst star)) in *. set (all := fst star :: p :: map fst o).
  assert (Hc : central (m0 + p_mass p) 0 (a_pos a) = vadd (attraction G (fst star) p) (vneg (attraction G p (fst star)))).
  { rewrite <- Hq. unfold mean. destruct (single_sums (fst star)) as [T W]. rewrite T, W, vscale_scale, Rinv_l, vscale_1 by exact E0.
    rewrite attraction_central', (attraction_central p). unfold central, Rdiv. fold m0.
    generalize (/ sqrt (norm2 (vsub (p_ipos p) (p_ipos (fst star))) + 0) ^ 3). generalize (vsub (p_ipos p) (p_ipos (fst star))). vring. }
  assert (Hm : vscale m0 (attraction G (fst star) p) = vneg (vscale (p_mass p) (attraction G p (fst star)))) by apply attraction_newton3.
  f_equal.
  - f_equal. f_equal. rewrite Hc, Fs, Fp. unfold all. rewrite !pulled_cons, !attraction_self, !vscale_scale, !Rinv_l, !vscale_1 by exact E0.
    generalize (attraction G (fst star) p) (attraction G p (fst star)) (pulled (map fst o) p) (pulled (map fst o) (fst star)). vring.
  - f_equal. f_equal. f_equal.
    replace (vadd (vscale m0 (pulled all (fst star))) (vscale (p_mass p) (pulled all p))) with (vadd (vscale m0 (p_iacc (fst star))) (vscale (p_mass p) (p_iacc p))).
    + apply jframe_view; [reflexivity|]. rewrite Forall_forall in Fo. apply map_ext_in. intros q Hin. now apply Fo.
    + rewrite Fs, Fp. unfold all. rewrite !pulled_cons, !attraction_self. revert Hm.
      generalize (attraction G (fst star) p) (attraction G p (fst star)) (pulled (map fst o) p) (pulled (map fst o) (fst star)).
      clear. intros a b c d E. 
      transitivity (vadd (vadd (vscale m0 a) (vscale (p_mass p) b)) (vadd (vscale m0 d) (vscale (p_mass p) c))).
      * rewrite E. clear E. generalize m0 (p_mass p) b c d. clear. vring.
      * generalize m0 (p_mass p). clear E. generalize a b c d. clear. vring.
Qed.
Lemma interaction_keeps c h star o : let r := interaction c h star o in
  map (fun b : body R => a_mass (snd b)) (snd r) = map (fun b : body R => a_mass (snd b)) o
  /\ map (fun b : body R => a_mass_g (snd b)) (snd r) = map (fun b : body R => a_mass_g (snd b)) o
  /\ map (fun b : body R => a_pos (snd b)) (snd r) = map (fun b : body R => a_pos (snd b)) o.
Proof.
  destruct c; cbn [interaction fst snd]; unfold body; rewrite ?map_map; auto.
  assert (W : forall {S} (f : S -> body R -> S * body R) (v : alternative R -> R * R * vec R) l s, (forall s b, v (snd (snd (f s b))) = v (snd b)) ->
    map (fun b : body R => v (snd b)) (snd (walk f s l)) = map (fun b : body R => v (snd b)) l).
  { intros S f v l. induction l as [|b l IH]; intros s Hf; cbn [walk]; [reflexivity|]. pose proof (Hf s b) as E. destruct (f s b) as [s1 b1].
    specialize (IH s1 Hf). destruct (walk f s1 l) as [s2 l2]. cbn [map snd] in *. now rewrite E, IH. }
  set (v := fun a : alternative R => (a_mass a, a_mass_g a, a_pos a)).
  assert (X : map (fun b : body R => v (snd b)) (snd (interaction Jacobi h star o)) = map (fun b : body R => v (snd b)) o).
  { cbn [interaction]. unfold inertial_to_jacobi_acc.
    pose proof (W _ jacobi_acc_in v o (p_mass (fst star), vscale (p_mass (fst star)) (p_iacc (fst star))) (fun s b => ltac:(destruct s; reflexivity))) as W1.
    destruct (walk jacobi_acc_in _ o) as [[eta sa] o1]. cbn [snd] in W1 |- *. rewrite <- W1. apply W. intros [e f] [p a]. destruct f; reflexivity. }
  cbn [interaction] in X.
  assert (Y : forall (A : Type) (h : R * R * vec R -> A) (l k : list (body R)), map (fun b : body R => v (snd b)) l = map (fun b : body R => v (snd b)) k ->
     map (fun b : body R => h (v (snd b))) l = map (fun b : body R => h (v (snd b))) k).
  { intros A h' l k E. rewrite <- (map_map (fun b : body R => v (snd b)) h'), E, map_map. reflexivity. }
  split; [|split]; [apply (Y _ (fun t => fst (fst t)))|apply (Y _ (fun t => snd (fst t)))|apply (Y _ snd)]; exact X.
Qed.
Lemma kick_is c h star o b : good c star o -> felt c (fst star) (map fst o) ->
  map p_mass (all b) = map p_mass (map fst (star :: o)) -> map p_ipos (all b) = map p_ipos (map fst (star :: o)) ->
  mean p_ivel (all b) = a_vel (snd star) -> mean p_ipos (all b) = a_pos (snd star) ->
  positions c b = map (fun b : body R => a_pos (snd b)) o -> velocities c b = map (fun b : body R => a_vel (snd b)) o ->
  let r := interaction c h star o in
  good c (fst r) (snd r) /\ kick_part c h b (inertial c (fst r) (snd r)).
Proof.
  intros g Hf Hm Hp Hv Hx Hqp Hqv r.
  destruct (interaction_keeps c h star o) as (K1 & K2 & K3). fold r in K1, K2, K3.
  pose proof (interaction_slots c h star o) as J. fold r in J.
  assert (g' : good c (fst r) (snd r)) by (eapply same_slots_good; eauto).
  split; [exact g'|]. destruct J as (J1 & J2 & J3 & _ & J5 & J6).
  destruct (inertial_means _ _ _ g') as (B1 & B2). destruct (inertial_frames _ _ _ g') as (F1' & F2').
  unfold kick_part. split; [|split; [|split; [|split]]].
  - unfold same_masses. rewrite (inertial_masses _ _ _ g'), Hm. cbn [map]. now rewrite J1, J2.
  - now rewrite B2, Hv.
  - now rewrite B1, Hx.
  - now rewrite F1', Hqp.
  - rewrite F2'. set (b' := (fst star, map fst o)). assert (Eall : all b' = map fst (star :: o)) by reflexivity. rewrite <- Eall in Hm, Hp.
    assert (Hq' : positions c b' = map (fun b : body R => a_pos (snd b)) o) by (rewrite <- Hqp; symmetry; now apply pos_frame_view).
    rewrite (kepler_masses_view c b' b Hm), (softenings_view c b' b Hm), Hqv, Hqp.
    replace (vel_frame c (pulled (all b)) b) with (vel_frame c (pulled (all b')) b').
    + transitivity (kicked c h (fst star) (map fst o) (map (fun b : body R => a_vel (snd b)) o)).
      * unfold r. destruct c; [apply kick_jacobi; auto|apply (kick_helio false); auto|apply (kick_helio true); auto].
      * unfold kicked. fold b'. rewrite Hq'. reflexivity.
    + symmetry. apply vel_frame_view; [exact Hm|].
      assert (X : forall p q : particle R, p_ipos p = p_ipos q -> pulled (all b) p = pulled (all b') q).
      { intros p q Epq. unfold pulled. f_equal.
        assert (Z : forall l k : list (particle R), map p_mass l = map p_mass k -> map p_ipos l = map p_ipos k -> map (attraction G p) l = map (attraction G q) k).
        { induction l as [|x l IH]; intros [|y k] E1 E2; try discriminate; cbn [map] in *; [reflexivity|].
          apply cons_eq in E1 as [A1 A2]. apply cons_eq in E2 as [C1 C2]. rewrite (IH k); auto. f_equal. unfold attraction, separation. now rewrite A1, C1, Epq. }
        now apply Z. }
      clear - Hp X. revert Hp. generalize (all b) at 1 3. generalize (all b') at 1 3.
      induction l as [|x l IH]; intros [|y k] E; try discriminate; cbn [map] in *; [reflexivity|]. apply cons_eq in E as [E1 E2].
      rewrite (IH k E2), (X _ _ E1). reflexivity.
Qed.
