(** Relativity: the origin of the frame (Anderson, Newhall) and the Newhall iteration *)
From Coq Require Import Reals Lra Psatz List Bool ZArith Arith Lia.
From Verif Require Import Base.Num Base.Vec Model.Constants Model.Particle Model.Relativity
  Proofs.NumLemmas Proofs.VecLemmas Proofs.RelativityProofs Spec.EffectsSpec.
Import ListNotations.
Open Scope R_scope.

(** the computation of a step for any implementation *)
Definition relativity_pass (ig : ignore_terms) (host : particle R) (l : list (particle R)) :=
  let '(host, l) := gr_prepare host l in
  match gr_effect (p_gr host) with
  | GrCentral Kidder1995 => kidder host l
  | GrCentral Anderson1975 => anderson ig host l
  | GrCentral Newhall1983 => newhall ig host l
  | _ => (host, l)
  end.
Definition is_anderson (host : particle R) : Prop := gr_effect (p_gr host) = GrCentral Anderson1975.
Definition is_newhall (host : particle R) : Prop := gr_effect (p_gr host) = GrCentral Newhall1983.

Lemma combine_map_l {A B C} (f : A -> B) (l : list A) (k : list C) :
  combine (map f l) k = map (fun x => (f (fst x), snd x)) (combine l k).
Proof. revert k; induction l as [|a l IH]; intros [|c k]; cbn; auto. now rewrite IH. Qed.
Lemma fold_left_map {A B C} (f : A -> B) (g : C -> B -> C) l : forall c,
  fold_left g (map f l) c = fold_left (fun c a => g c (f a)) l c.
Proof. induction l as [|a l IH]; intros c; cbn; auto. Qed.
Lemma fold_right_map {A B C} (f : A -> B) (g : B -> C -> C) l : forall c,
  fold_right g c (map f l) = fold_right (fun a c => g (f a) c) c l.
Proof. induction l as [|a l IH]; intros c; cbn; [reflexivity|]. now rewrite IH. Qed.
Lemma fold_right_ext {A C} (f g : A -> C -> C) l : (forall a c, f a c = g a c) ->
  forall c, fold_right f c l = fold_right g c l.
Proof. intros E c. induction l as [|a l IH]; cbn; [reflexivity|]. now rewrite IH, E. Qed.
Lemma fold_left_ext_in {A B} (f g : A -> B -> A) l :
  (forall b, In b l -> forall a, f a b = g a b) -> forall a, fold_left f l a = fold_left g l a.
Proof.
  induction l as [|b l IH]; intros Hfg a; cbn; [reflexivity|].
  rewrite Hfg by now left. apply IH. intros; apply Hfg; now right.
Qed.

Lemma sub_shift (a b v : vec R) : vsub (vadd a v) (vadd b v) = vsub a b.
Proof. vring. Qed.
Lemma centre_shift (x sx v : vec R) (eta : R) : 0 < eta ->
  vsub (vadd x v) (vmulr (vadd sx (vscale eta v)) (n1 / eta)%num) = vsub x (vmulr sx (n1 / eta)%num).
Proof. intros He. vdestruct. vunfold. f_equal; field; lra. Qed.
Lemma sum_shift (w sx v : vec R) (eta m : R) : 0 < eta ->
  vadd (vmulr (vadd sx (vscale eta v)) ((eta + m) * (n1 / eta))%num) w
  = vadd (vadd (vmulr sx ((eta + m) * (n1 / eta))%num) w) (vscale (eta + m) v).
Proof. intros He. vdestruct. vunfold. f_equal; field; lra. Qed.

Lemma step_on s out (p : particle R) a : gr_orbiting p = true ->
  to_jacobi_step (s, out) (p, a) =
  (let ei := (n1 / js_eta s)%num in
   let eta := (js_eta s + p_mass p)%num in
   let jx := vsub (p_ipos p) (vmulr (js_x s) ei) in
   let jv := vsub (p_ivel p) (vmulr (js_v s) ei) in
   let ja := vsub a (vmulr (js_a s) ei) in
   (JSum eta (vadd (vmulr (js_x s) (eta * ei)%num) (vscale (p_mass p) jx))
             (vadd (vmulr (js_v s) (eta * ei)%num) (vscale (p_mass p) jv))
             (vadd (vmulr (js_a s) (eta * ei)%num) (vscale (p_mass p) ja)),
    out ++ [(jx, jv, ja)])).
Proof. intros E. unfold to_jacobi_step. rewrite E. reflexivity. Qed.
Lemma step_off s out (p : particle R) a : gr_orbiting p = false ->
  to_jacobi_step (s, out) (p, a) = (s, out ++ [(vzero, vzero, vzero)]).
Proof. intros E. unfold to_jacobi_step. rewrite E. reflexivity. Qed.

Section Shift.
  Variable v : vec R.
  Notation sh := (shifted v).
  Lemma shift_diff a b : vsub (p_ipos (sh a)) (p_ipos (sh b)) = vsub (p_ipos a) (p_ipos b).
  Proof. unfold shifted. grproj. apply sub_shift. Qed.
  Lemma shift_orbiting p : gr_orbiting (sh p) = gr_orbiting p. Proof. reflexivity. Qed.
  Lemma shift_i2h host l :
    gr_inertial_to_heliocentric (sh host) (map sh l)
    = (sh (fst (gr_inertial_to_heliocentric host l)), map sh (snd (gr_inertial_to_heliocentric host l))).
  Proof.
    unfold gr_inertial_to_heliocentric.
    change (gr_implemented (sh host)) with (gr_implemented host).
    destruct (gr_implemented host); [|reflexivity]. cbn [fst snd]. f_equal.
    rewrite !map_map. apply map_ext. intros p. rewrite shift_orbiting. destruct (gr_orbiting p); [|reflexivity].
    rewrite !shift_diff. reflexivity.
  Qed.
  Lemma shift_init h l :
    gr_initialize (sh h) (map sh l) = (sh (fst (gr_initialize h l)), map sh (snd (gr_initialize h l))).
  Proof.
    unfold gr_initialize. change (p_gr (sh h)) with (p_gr h).
    destruct (gr_effect (p_gr h)) as [[]| |]; try reflexivity; cbn [fst snd]; f_equal;
      rewrite !map_map; apply map_ext; intros p; rewrite shift_orbiting; destruct (gr_orbiting p); reflexivity.
  Qed.
  Lemma shift_prepare host l :
    gr_prepare (sh host) (map sh l) = (sh (fst (gr_prepare host l)), map sh (snd (gr_prepare host l))).
  Proof.
    unfold gr_prepare. rewrite shift_i2h. destruct (gr_inertial_to_heliocentric host l) as [h k].
    cbn [fst snd]. apply shift_init.
  Qed.

  (** *** Anderson *)
  Lemma jacobi_shift l : Forall (fun pa : particle R * vec R => 0 < p_mass (fst pa)) l ->
    forall eta sx sv sa out, 0 < eta ->
    let a := fold_left to_jacobi_step (map (fun x => (sh (fst x), snd x)) l) (JSum eta (vadd sx (vscale eta v)) sv sa, out) in
    let b := fold_left to_jacobi_step l (JSum eta sx sv sa, out) in
    js_eta (fst a) = js_eta (fst b) /\ snd a = snd b.
  Proof.
    induction 1 as [|[p acc] l Hp _ IH]; intros eta sx sv sa out He; cbn zeta.
    - split; reflexivity.
    - cbn [map fold_left fst snd]. destruct (gr_orbiting p) eqn:Ep.
      + rewrite (step_on _ _ p acc Ep), (step_on _ _ (sh p) acc Ep). cbn [js_eta js_x js_v js_a].
        change (p_mass (sh p)) with (p_mass p). change (p_ivel (sh p)) with (p_ivel p).
        change (p_ipos (sh p)) with (vadd (p_ipos p) v). rewrite centre_shift by exact He.
        rewrite sum_shift by exact He. apply IH. cbn [fst] in Hp. apply Rplus_lt_0_compat; assumption.
      + rewrite (step_off _ _ p acc Ep), (step_off _ _ (sh p) acc Ep). apply IH. exact He.
  Qed.
  Lemma to_jacobi_shift host l ha accs :
    0 < p_mass host -> Forall (fun p => 0 < p_mass p) l ->
    to_jacobi (sh host) (map sh l) ha accs = to_jacobi host l ha accs.
  Proof.
    intros Hh Hl. unfold to_jacobi. rewrite combine_map_l.
    assert (Hc : Forall (fun pa : particle R * vec R => 0 < p_mass (fst pa)) (combine l accs)).
    { apply Forall_forall. intros [p a] Hin. apply in_combine_l in Hin. rewrite Forall_forall in Hl. now apply Hl. }
    pose proof (jacobi_shift _ Hc (p_mass host) (vscale (p_mass host) (p_ipos host)) (vscale (p_mass host) (p_ivel host))
      (vscale (p_mass host) ha) [] Hh) as J.
    replace (vscale (p_mass (sh host)) (p_ipos (sh host)))
      with (vadd (vscale (p_mass host) (p_ipos host)) (vscale (p_mass host) v)).
    2:{ unfold shifted. grproj. now rewrite vscale_add. }
    change (p_mass (sh host)) with (p_mass host). change (p_ivel (sh host)) with (p_ivel host).
    cbn zeta in J. destruct (fold_left _ (map _ _) _) as [s1 o1]. destruct (fold_left _ (combine l accs) _) as [s2 o2].
    cbn [fst snd] in J. destruct J as [-> ->]. reflexivity.
  Qed.
  Lemma from_jacobi_shift l m js : from_jacobi (map sh l) m js = from_jacobi l m js.
  Proof.
    unfold from_jacobi. rewrite combine_map_l, fold_right_map.
    rewrite (fold_right_ext _ from_jacobi_step); [reflexivity|]. intros [p a] c. reflexivity.
  Qed.
  Lemma newtonian_shift host l :
    newtonian_accelerations IgnoreNone (sh host) (map sh l) = newtonian_accelerations IgnoreNone host l.
  Proof. unfold newtonian_accelerations. cbn [firstn fold_left skipn]. rewrite map_map. reflexivity. Qed.
  Definition same_accs (a b : particle R * list (particle R)) : Prop :=
    relativistic_acc (fst a) = relativistic_acc (fst b) /\ map relativistic_acc (snd a) = map relativistic_acc (snd b).
  Lemma store_shift l (out : list (vec R)) :
    map relativistic_acc (map (fun pa => if gr_orbiting (fst pa) then on_gr (set_gr_acc (snd pa)) (fst pa) else fst pa)
      (combine (map sh l) out)) =
    map relativistic_acc (map (fun pa => if gr_orbiting (fst pa) then on_gr (set_gr_acc (snd pa)) (fst pa) else fst pa)
      (combine l out)).
  Proof.
    rewrite combine_map_l, !map_map. apply map_ext. intros [p a]. cbn [fst snd]. rewrite shift_orbiting.
    destruct (gr_orbiting p); reflexivity.
  Qed.
  Lemma anderson_shift host l : 0 < p_mass host -> Forall (fun p => 0 < p_mass p) l ->
    same_accs (anderson IgnoreNone (sh host) (map sh l)) (anderson IgnoreNone host l).
  Proof.
    intros Hh Hl. unfold anderson. rewrite newtonian_shift.
    destruct (newtonian_accelerations IgnoreNone host l) as [ha accs].
    rewrite to_jacobi_shift by assumption. destruct (to_jacobi host l ha accs) as [sm js].
    rewrite from_jacobi_shift. change (p_mass_g (sh host)) with (p_mass_g host).
    rewrite combine_map_l, map_map. cbn [fst snd].
    match goal with |- context [map ?f (combine l js)] => change (map f (combine l js)) with
      (map (fun pj : particle R * (vec R * vec R * vec R) =>
         if gr_orbiting (fst pj) then anderson_correction (p_mass_g host) (snd pj) else snd (snd pj)) (combine l js)) end.
    destruct (from_jacobi l sm _) as [sa out]. split; [reflexivity|]. apply store_shift.
  Qed.

  (** *** Newhall *)
  Lemma enumerate_map {A B} (f : A -> B) (l : list A) :
    enumerate (map f l) = map (fun x => (fst x, f (snd x))) (enumerate l).
  Proof.
    unfold enumerate. rewrite map_length. generalize (seq 0 (length l)). revert l.
    intros l k; revert l. induction k as [|i k IH]; intros [|a l]; cbn; auto. now rewrite IH.
  Qed.
  Lemma dr_shift i j a b : newhall_dr i j (sh a) (sh b) = newhall_dr i j a b.
  Proof. unfold newhall_dr. rewrite shift_diff. reflexivity. Qed.
  Lemma r_shift i j a b : newhall_r i j (sh a) (sh b) = newhall_r i j a b.
  Proof. unfold newhall_r. rewrite shift_diff. reflexivity. Qed.
  Lemma sum_other_shift bodies i f g : (forall k c, f k (sh c) = g k c) ->
    sum_other (map sh bodies) i f = sum_other bodies i g.
  Proof.
    intros E. unfold sum_other. rewrite enumerate_map, fold_left_map. apply fold_left_ext_in.
    intros [k c] _ s. cbn [fst snd]. now rewrite E.
  Qed.
  Lemma const_shift bodies i a : newhall_const (map sh bodies) i (sh a) = newhall_const bodies i a.
  Proof.
    unfold newhall_const. rewrite enumerate_map, fold_left_map. apply fold_left_ext_in.
    intros [j b] _ s. cbn [fst snd]. unfold newhall_const_pair.
    destruct (Nat.eqb j i); [reflexivity|]. change (pair_on (sh a) (sh b)) with (pair_on a b).
    destruct (pair_on a b); [|reflexivity]. rewrite dr_shift, r_shift.
    rewrite (sum_other_shift bodies i _ (fun k c => (#4 / SPEED_OF_LIGHT_2 * G * p_mass c / newhall_r i k a c)%num))
      by (intros; now rewrite r_shift).
    rewrite (sum_other_shift bodies j _ (fun m c => (n1 / SPEED_OF_LIGHT_2 * G * p_mass c / newhall_r m j c b)%num))
      by (intros; now rewrite r_shift).
    reflexivity.
  Qed.
  Lemma sweep_shift bodies newton const old :
    newhall_sweep (map sh bodies) newton const old = newhall_sweep bodies newton const old.
  Proof.
    unfold newhall_sweep. rewrite !combine_map_l, !enumerate_map, !map_map. apply map_ext.
    intros [i [b k]]. cbn [fst snd]. f_equal. rewrite fold_left_map.
    apply fold_left_ext_in. intros [j [[c nw] od]] _ s. cbn [fst snd]. unfold newhall_pair.
    rewrite dr_shift, r_shift. reflexivity.
  Qed.
  Lemma converged_shift bodies a b : newhall_converged (map sh bodies) a b = newhall_converged bodies a b.
  Proof.
    unfold newhall_converged. rewrite !combine_map_l, fold_left_map. cbn [fst snd].
    f_equal. f_equal. apply fold_left_ext_in. intros [[c x] y] _ s. reflexivity.
  Qed.
  Lemma loop_shift n bodies newton const : forall a,
    newhall_loop n (map sh bodies) newton const a = newhall_loop n bodies newton const a.
  Proof.
    induction n as [|n IH]; intros a; cbn [newhall_loop]; [reflexivity|].
    now rewrite sweep_shift, converged_shift, IH.
  Qed.
  Lemma newhall_shift host l : same_accs (newhall IgnoreNone (sh host) (map sh l)) (newhall IgnoreNone host l).
  Proof.
    unfold newhall. rewrite newtonian_shift. destruct (newtonian_accelerations IgnoreNone host l) as [ha accs].
    change (sh host :: map sh l) with (map sh (host :: l)). rewrite enumerate_map, !map_map.
    rewrite (map_ext _ (fun ib => newhall_const (host :: l) (fst ib) (snd ib))).
    2:{ intros [i b]. cbn [fst snd]. apply const_shift. }
    rewrite loop_shift. split; [reflexivity|]. apply store_shift.
  Qed.

  Lemma prepare_masses host l : 0 < p_mass host -> Forall (fun p => 0 < p_mass p) l ->
    0 < p_mass (fst (gr_prepare host l)) /\ Forall (fun p => 0 < p_mass p) (snd (gr_prepare host l)).
  Proof.
    intros Hh Hl. unfold gr_prepare, gr_inertial_to_heliocentric.
    assert (A : forall (h : particle R) k, 0 < p_mass h -> Forall (fun p => 0 < p_mass p) k ->
      0 < p_mass (fst (gr_initialize h k)) /\ Forall (fun p => 0 < p_mass p) (snd (gr_initialize h k))).
    { intros h k Ah Ak. unfold gr_initialize. destruct (gr_effect (p_gr h)) as [[]| |]; cbn [fst snd];
        split; try exact Ah; try exact Ak; apply Forall_map; eapply Forall_impl; try exact Ak;
        intros p Hp; destruct (gr_orbiting p); exact Hp. }
    destruct (gr_implemented host); apply A; auto.
    apply Forall_map. eapply Forall_impl; [|exact Hl]. intros p Hp. destruct (gr_orbiting p); exact Hp.
  Qed.
  Lemma prepare_effect host l : gr_effect (p_gr (fst (gr_prepare host l))) = gr_effect (p_gr host).
  Proof.
    unfold gr_prepare, gr_inertial_to_heliocentric.
    destruct (gr_implemented host); unfold gr_initialize, set_gr_coords, on_gr; grproj;
      destruct (gr_effect (p_gr host)) as [[]| |] eqn:E; cbn [fst]; grproj; auto.
  Qed.
  Theorem origin host l :
    is_anderson host \/ is_newhall host -> 0 < p_mass host -> Forall (fun p => 0 < p_mass p) l ->
    same_accs (relativity_pass IgnoreNone (sh host) (map sh l)) (relativity_pass IgnoreNone host l).
  Proof.
    intros K Hh Hl. unfold relativity_pass. rewrite shift_prepare.
    pose proof (prepare_masses host l Hh Hl) as [Mh Ml]. pose proof (prepare_effect host l) as Ee.
    destruct (gr_prepare host l) as [h k]. cbn [fst snd] in *. change (p_gr (sh h)) with (p_gr h). rewrite Ee.
    destruct K as [-> | ->].
    - now apply anderson_shift.
    - apply newhall_shift.
  Qed.
End Shift.

(** *** The Newhall iteration stops after one sweep *)
Definition limit_30 : R := 1 / 1000000000000000000000000000000.
Definition not_tiny (x : R) : Prop := x = 0 \/ limit_30 <= Rabs x.
Definition vec_not_tiny (a : vec R) : Prop := not_tiny (vx a) /\ not_tiny (vy a) /\ not_tiny (vz a).
Lemma limit_pos : 0 < limit_30. Proof. unfold limit_30. lra. Qed.
Lemma dev_component x d : not_tiny x -> d = 0 ->
  (if (nabs x <? 1//1000000000000000000000000000000)%num then (nabs (x - 0) / x)%num else d) = 0.
Proof.
  intros H ->. num_simpl. change (1 / 1000000000000000000000000000000) with limit_30.
  destruct (Rltb_spec (Rabs x) limit_30) as [L|]; [|reflexivity].
  destruct H as [-> | H]; [|lra]. replace (0 - 0) with 0 by ring. rewrite Rabs_R0. unfold Rdiv. ring.
Qed.
Lemma dev_zero (bodies : list (particle R * vec R * vec R)) :
  Forall (fun x => vec_not_tiny (snd (fst x)) /\ snd x = vzero) bodies ->
  fold_left newhall_dev bodies (0, (0, 0, 0)) = (0, (0, 0, 0)).
Proof.
  induction 1 as [|[[b a] o] l [(Hx & Hy & Hz) Ho] _ IH]; cbn [fold_left]; [reflexivity|].
  cbn [fst snd] in *. subst o.
  assert (E : newhall_dev (0, (0, 0, 0)) (b, a, vzero) = (0, (0, 0, 0))).
  { unfold newhall_dev. destruct (gr_enabled b); [|reflexivity]. cbn [vzero vx vy vz].
    change (@n0 R NumR) with 0.
    rewrite !dev_component by auto.
    assert (Ef : (0 >? 0)%num = false) by (num_simpl; apply Rltb_false; lra).
    cbv zeta. rewrite Ef. rewrite Ef. rewrite ?Ef. reflexivity. }
  rewrite E. exact IH.
Qed.
Lemma newhall_once n bodies newton const :
  Forall vec_not_tiny (newhall_sweep bodies newton const (map (fun _ => vzero) bodies)) ->
  newhall_loop (S n) bodies newton const (map (fun _ => vzero) bodies)
  = newhall_sweep bodies newton const (map (fun _ => vzero) bodies).
Proof.
  intros Hb. cbn [newhall_loop]. set (a := newhall_sweep _ _ _ _) in *.
  assert (E : newhall_converged bodies a (map (fun _ => vzero) bodies) = true).
  { unfold newhall_converged. change (@n0 R NumR) with 0. rewrite dev_zero.
    - cbn [fst]. num_simpl. apply Rltb_true. exact limit_pos.
    - apply Forall_forall. intros [[b x] o] Hin. cbn [fst snd]. split.
      + apply in_combine_l in Hin. apply in_combine_r in Hin. rewrite Forall_forall in Hb. now apply Hb.
      + apply in_combine_r in Hin. apply in_map_iff in Hin. destruct Hin as (? & E & _). now rewrite <- E. }
  now rewrite E.
Qed.
