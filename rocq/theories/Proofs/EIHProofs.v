(** The Newhall corrections are the equations of Einstein, Infeld and Hoffmann *)
From Coq Require Import Reals Lra List Bool Arith Lia.
From Verif Require Import Base.Num Base.Vec Model.Constants Model.Particle Model.Relativity Spec.EffectsSpec Spec.EIHSpec
  Proofs.NumLemmas Proofs.VecLemmas Proofs.RelativityProofs Proofs.ShiftProofs.
Import ListNotations.
Open Scope R_scope.

Lemma combine_seq {A} (d : A) l : forall k, combine (seq k (length l)) l = map (fun j => (j, nth (j - k) l d)) (seq k (length l)).
Proof.
  induction l as [|y l IH]; intros k; [reflexivity|]. cbn [length seq combine map]. rewrite Nat.sub_diag. f_equal. rewrite IH.
  apply map_ext_in. intros j Hj. apply in_seq in Hj. replace (j - k)%nat with (S (j - S k)) by lia. reflexivity.
Qed.
Lemma enumerate_nth {A} (d : A) l : enumerate l = map (fun j => (j, nth j l d)) (seq 0 (length l)).
Proof. unfold enumerate. rewrite (combine_seq d). apply map_ext. intros j. now rewrite Nat.sub_0_r. Qed.
Lemma fold_others (g : nat -> vec R) i L : forall s,
  fold_left (fun s j => if Nat.eqb j i then s else vadd s (g j)) L s = vadd s (Vsum (map g (filter (fun j => negb (Nat.eqb j i)) L))).
Proof.
  induction L as [|j L IH]; intros s; cbn [fold_left filter map]; [symmetry; apply vadd_0_r|].
  rewrite IH. destruct (Nat.eqb j i); cbn [negb]; [reflexivity|]. cbn [map Vsum fold_right]. now rewrite vadd_assoc.
Qed.
Lemma fold_others_R (g : nat -> R) i L : forall s,
  fold_left (fun s j => if Nat.eqb j i then s else s + g j) L s = s + Rsum (map g (filter (fun j => negb (Nat.eqb j i)) L)).
Proof.
  induction L as [|j L IH]; intros s; cbn [fold_left filter map]; [unfold Rsum; cbn; ring|].
  rewrite IH. destruct (Nat.eqb j i); cbn [negb]; [reflexivity|]. unfold Rsum. cbn [map fold_right]. ring.
Qed.
Lemma Vsum_both (f g : nat -> vec R) L : vadd (Vsum (map f L)) (Vsum (map g L)) = Vsum (map (fun j => vadd (f j) (g j)) L).
Proof.
  induction L as [|j L IH]; [apply vadd_0_r|]. cbn [map Vsum fold_right]. unfold Vsum in IH. rewrite <- IH.
  generalize (f j) (g j) (fold_right vadd vzero (map f L)) (fold_right vadd vzero (map g L)). intros [] [] [] []. vunfold. f_equal; ring.
Qed.
Lemma Vsum_ext_in (f g : nat -> vec R) L : (forall j, In j L -> f j = g j) -> Vsum (map f L) = Vsum (map g L).
Proof. intros E. f_equal. now apply map_ext_in. Qed.
Lemma others_in n i j : In j (others n i) <-> (j < n)%nat /\ j <> i.
Proof. unfold others. rewrite filter_In, in_seq, negb_true_iff, Nat.eqb_neq. lia. Qed.

Lemma nth_map_seq {A} (f : nat -> A) d n i : (i < n)%nat -> nth i (map f (seq 0 n)) d = f i.
Proof. intros Hi. rewrite (nth_indep _ d (f 0%nat)) by now rewrite map_length, seq_length. rewrite map_nth. now rewrite seq_nth. Qed.

Section Sweep.
  Variables (bodies : list (particle R)) (d0 : particle R).
  Let n := length bodies.
  Definition body_at (j : nat) : particle R := nth j bodies d0.
  Definition gm_at (j : nat) : R := G * p_mass (body_at j).
  Definition pos_at (j : nat) : vec R := p_ipos (body_at j).
  Definition vel_at (j : nat) : vec R := p_ivel (body_at j).
  Hypothesis Hon : Forall (fun b => gr_enabled b = true) bodies.
  Hypothesis Hapart : forall i j, (i < n)%nat -> (j < n)%nat -> i <> j -> pos_at i <> pos_at j.
  Lemma on_at i j : (i < n)%nat -> pair_on (body_at i) (body_at j) = true.
  Proof. intros Hi. unfold pair_on. rewrite Forall_forall in Hon. rewrite (Hon (body_at i)); [reflexivity|]. now apply nth_In. Qed.
  Lemma gap_pos i j : (i < n)%nat -> (j < n)%nat -> i <> j -> 0 < gap pos_at i j.
  Proof.
    intros Hi Hj Hij. unfold gap. apply norm_pos. intros Z. apply (Hapart i j Hi Hj Hij).
    destruct (pos_at i) as [a1 a2 a3], (pos_at j) as [b1 b2 b3]. revert Z. vunfold. num_simpl. intros Z. injection Z as Z1 Z2 Z3. f_equal; lra.
  Qed.
  Lemma gap_sym i j : gap pos_at i j = gap pos_at j i.
  Proof. unfold gap. f_equal. generalize (pos_at i) (pos_at j). intros [] []. vunfold. num_simpl. ring. Qed.
  Lemma dr_at i j : (i < n)%nat -> i <> j -> newhall_dr i j (body_at i) (body_at j) = vsub (pos_at i) (pos_at j).
  Proof. intros Hi Hij. unfold newhall_dr. rewrite on_at by assumption. apply Nat.eqb_neq in Hij. now rewrite Hij. Qed.
  Lemma r_at i j : (i < n)%nat -> i <> j -> newhall_r i j (body_at i) (body_at j) = gap pos_at i j.
  Proof.
    intros Hi Hij. unfold newhall_r. rewrite on_at by assumption. apply Nat.eqb_neq in Hij. rewrite Hij. cbn [negb andb]. rewrite gap_sym. reflexivity.
  Qed.
  Lemma sum_other_at i (f : nat -> particle R -> R) :
    sum_other bodies i f = Rsum (map (fun k => f k (body_at k)) (others n i)).
  Proof.
    unfold sum_other. rewrite (enumerate_nth d0), fold_left_map. cbn [fst snd]. unfold others. fold n.
    rewrite <- (Rplus_0_l (Rsum _)). change (@n0 R NumR) with 0. rewrite <- fold_others_R. reflexivity.
  Qed.
  Lemma Rsum_scale k (f : nat -> R) L : Rsum (map (fun j => k * f j) L) = k * Rsum (map f L).
  Proof. induction L as [|j L IH]; unfold Rsum in *; cbn [map fold_right]; [ring|]. rewrite IH. ring. Qed.
  Lemma own_potential i : (i < n)%nat ->
    sum_other bodies i (fun k c => (#4 / SPEED_OF_LIGHT_2 * G * p_mass c / newhall_r i k (body_at i) c)%num) = 4 / SPEED_OF_LIGHT_2 * potential n gm_at pos_at i.
  Proof.
    intros Hi. rewrite sum_other_at. unfold potential. rewrite <- Rsum_scale. f_equal. apply map_ext_in. intros k Hk. apply others_in in Hk.
    rewrite r_at by (try assumption; intros ->; now destruct Hk). unfold gm_at. num_simpl. unfold Rdiv. rewrite ?Rinv_1. ring.
  Qed.
  Lemma its_potential j : (j < n)%nat ->
    sum_other bodies j (fun m c => (n1 / SPEED_OF_LIGHT_2 * G * p_mass c / newhall_r m j c (body_at j))%num) = 1 / SPEED_OF_LIGHT_2 * potential n gm_at pos_at j.
  Proof.
    intros Hi. rewrite sum_other_at. unfold potential. rewrite <- Rsum_scale. f_equal. apply map_ext_in. intros k Hk. apply others_in in Hk.
    rewrite r_at by tauto. rewrite gap_sym. unfold gm_at. num_simpl. unfold Rdiv. ring.
  Qed.
  (** the terms without and with the accelerations *)
  Definition const_term (i j : nat) : vec R := eih_term SPEED_OF_LIGHT_2 n gm_at pos_at vel_at (fun _ => vzero) i j.
  Definition acc_term (a : nat -> vec R) (i j : nat) : vec R :=
    vadd (vscale (gm_at j / gap pos_at i j ^ 3 * (1 / (2 * SPEED_OF_LIGHT_2) * vdot (vsub (pos_at j) (pos_at i)) (a j))) (vsub (pos_at j) (pos_at i)))
         (vscale (7 / (2 * SPEED_OF_LIGHT_2) * (gm_at j / gap pos_at i j)) (a j)).
  Lemma term_split a i j : eih_term SPEED_OF_LIGHT_2 n gm_at pos_at vel_at a i j = vadd (const_term i j) (acc_term a i j).
  Proof.
    unfold const_term, acc_term, eih_term. cbv zeta. generalize (gm_at j / gap pos_at i j ^ 3) (gm_at j / gap pos_at i j) (7 / (2 * SPEED_OF_LIGHT_2)) (1 / (2 * SPEED_OF_LIGHT_2)).
    intros. match goal with |- context [- (4 / ?c) * ?p - ?q + ?r + ?s - ?t - ?u + _] => generalize (- (4 / c) * p - q + r + s - t - u) end. intros.
    match goal with |- context [1 / ?c * ?k * ?m] => generalize (1 / c * k * m) end. intros.
    generalize (pos_at i) (pos_at j) (vel_at i) (vel_at j) (a j). intros [] [] [] [] []. vunfold. num_simpl. f_equal; ring.
  Qed.
  Lemma const_pair_at i j s : (i < n)%nat -> (j < n)%nat ->
    newhall_const_pair bodies i (body_at i) s (j, body_at j) = if Nat.eqb j i then s else vadd s (const_term i j).
  Proof.
    intros Hi Hj. unfold newhall_const_pair. destruct (Nat.eqb_spec j i) as [|Hij]; [reflexivity|]. rewrite on_at by assumption.
    rewrite (own_potential i Hi), (its_potential j Hj), dr_at, r_at by auto. cbv zeta.
    pose proof (gap_pos i j Hi Hj (not_eq_sym Hij)) as Hg. unfold const_term, eih_term, each. cbv zeta.
    fold (vel_at i) (vel_at j) (pos_at i) (pos_at j).
    change (gm_at j) with (G * p_mass (body_at j)).
    pose proof c2_ne as Hc. revert Hg Hc. generalize (potential n gm_at pos_at i) (potential n gm_at pos_at j) (gap pos_at i j) (p_mass (body_at j)) (@G R _) (@SPEED_OF_LIGHT_2 R _).
    generalize (pos_at i) (pos_at j) (vel_at i) (vel_at j). clear.
    intros [a1 a2 a3] [b1 b2 b3] [e1 e2 e3] [f1 f2 f3] pi pj g m gg c Hg Hc. destruct s as [s1 s2 s3]. vunfold. num_simpl. cbn [vx vy vz npow]. f_equal; field; split; lra.
  Qed.
  Lemma const_at i : (i < n)%nat -> newhall_const bodies i (body_at i) = Vsum (map (const_term i) (others n i)).
  Proof.
    intros Hi. unfold newhall_const. rewrite (enumerate_nth d0), fold_left_map.
    rewrite (fold_left_ext_in _ (fun s j => if Nat.eqb j i then s else vadd s (const_term i j))).
    - rewrite fold_others. unfold others. fold n. apply vadd_0_l.
    - intros j Hj s. apply in_seq in Hj. apply const_pair_at; [assumption|]. unfold n. lia.
  Qed.
  Lemma pair_at i j s (newton old : vec R) a : (i < n)%nat -> (j < n)%nat -> a j = vadd newton old ->
    newhall_pair i (body_at i) s (j, (body_at j, newton, old)) = if Nat.eqb j i then s else vadd s (acc_term a i j).
  Proof.
    intros Hi Hj Ea. unfold newhall_pair. destruct (Nat.eqb_spec j i) as [|Hij]; [reflexivity|]. rewrite on_at by assumption.
    rewrite dr_at, r_at by auto. cbv zeta. rewrite <- Ea.
    pose proof (gap_pos i j Hi Hj (not_eq_sym Hij)) as Hg. unfold acc_term, each.
    change (gm_at j) with (G * p_mass (body_at j)).
    pose proof c2_ne as Hc. revert Hg Hc. generalize (gap pos_at i j) (p_mass (body_at j)) (@G R _) (@SPEED_OF_LIGHT_2 R _).
    generalize (pos_at i) (pos_at j) (a j). clear.
    intros [a1 a2 a3] [b1 b2 b3] [e1 e2 e3] g m gg c Hg Hc. destruct s as [s1 s2 s3]. vunfold. num_simpl. cbn [vx vy vz npow]. f_equal; field; split; lra.
  Qed.
  Definition consts : list (vec R) := map (fun ib => newhall_const bodies (fst ib) (snd ib)) (enumerate bodies).
  Theorem sweep_eih newton old i : length newton = n -> length old = n -> (i < n)%nat ->
    nth i (newhall_sweep bodies newton consts old) vzero =
    eih_acc SPEED_OF_LIGHT_2 n gm_at pos_at vel_at (fun j => vadd (nth j newton vzero) (nth j old vzero)) i.
  Proof.
    intros Ln Lo Hi. unfold newhall_sweep, consts. rewrite !(enumerate_nth d0). rewrite map_map. cbn [fst snd]. fold n.
    set (cs := map (fun j => newhall_const bodies j (nth j bodies d0)) (seq 0 n)).
    assert (Lb : length cs = n) by (unfold cs; now rewrite map_length, seq_length).
    rewrite (enumerate_nth (d0, vzero)), combine_length, Lb. fold n. rewrite Nat.min_id, map_map, nth_map_seq by assumption.
    rewrite combine_nth by (symmetry; exact Lb). fold (body_at i).
    assert (Ec : nth i cs vzero = Vsum (map (const_term i) (others n i))).
    { unfold cs. rewrite nth_map_seq by assumption. fold (body_at i). exact (const_at i Hi). }
    rewrite Ec. clear Ec Lb. clearbody cs.
    rewrite (enumerate_nth (d0, vzero, vzero)), fold_left_map. rewrite !combine_length, Ln, Lo. fold n. rewrite !Nat.min_id.
    set (a := fun j => vadd (nth j newton vzero) (nth j old vzero)).
    rewrite (fold_left_ext_in _ (fun s j => if Nat.eqb j i then s else vadd s (acc_term a i j))).
    - rewrite fold_others, vadd_0_l. fold (others n i). rewrite Vsum_both. unfold eih_acc. apply Vsum_ext_in. intros j _. symmetry. apply term_split.
    - intros j Hj s. apply in_seq in Hj. rewrite combine_nth by (rewrite combine_length, Ln, Lo; fold n; lia).
      rewrite combine_nth by now rewrite Ln. fold (body_at j). apply pair_at; [assumption|lia|reflexivity].
  Qed.
End Sweep.

(** ** Evaluation by the program *)
Definition kept (p p' : particle R) : Prop := p_mass p' = p_mass p /\ p_mass_g p' = p_mass_g p /\ p_ipos p' = p_ipos p /\
  p_ivel p' = p_ivel p /\ p_iacc p' = p_iacc p /\ gr_effect (p_gr p') = gr_effect (p_gr p).
Lemma newhall_prepare (host : particle R) l : is_newhall host ->
  exists f, kept host (fst (gr_prepare host l)) /\ snd (gr_prepare host l) = map f l /\ forall p, kept p (f p).
Proof.
  unfold is_newhall, gr_prepare, gr_inertial_to_heliocentric, gr_implemented. intros E. rewrite E.
  unfold gr_initialize. set (h := set_gr_coords _ _ _ _ _ _ host).
  assert (Eh : gr_effect (p_gr h) = GrCentral Newhall1983) by exact E. rewrite Eh. cbn [fst snd].
  eexists. split; [repeat split; reflexivity|]. split; [reflexivity|].
  intros p. cbv beta zeta. destruct (gr_orbiting p); repeat split; reflexivity.
Qed.
Lemma Forall_nth_seq {A} (P : A -> Prop) l d : (forall i, (i < length l)%nat -> P (nth i l d)) -> Forall P l.
Proof. intros E. apply Forall_forall. intros y Hy. apply (In_nth l y d) in Hy. destruct Hy as (i & Hi & <-). now apply E. Qed.
Lemma eih_ext c2 n gm gm' x x' v v' a a' i : (forall j, gm' j = gm j) -> (forall j, x' j = x j) -> (forall j, v' j = v j) ->
  (forall j, (j < n)%nat -> a' j = a j) -> eih_acc c2 n gm' x' v' a' i = eih_acc c2 n gm x v a i.
Proof.
  intros Eg Ex Ev Ea. unfold eih_acc. apply Vsum_ext_in. intros j Hj. apply others_in in Hj.
  assert (Egap : forall k l, gap x' k l = gap x k l) by (intros; unfold gap; now rewrite !Ex).
  assert (Ep : forall k, potential n gm' x' k = potential n gm x k).
  { intros k. unfold potential. f_equal. apply map_ext. intros. now rewrite Eg, Egap. }
  unfold eih_term. rewrite !Egap, !Ep, !Eg, !Ex, !Ev, !Ea by tauto. reflexivity.
Qed.
Lemma combine_set_acc (l : list (particle R)) : forall k, Forall (fun p : particle R => gr_orbiting p = true) l -> length k = length l ->
  map relativistic_acc (map (fun pa : particle R * vec R => if gr_orbiting (fst pa) then on_gr (set_gr_acc (snd pa)) (fst pa) else fst pa) (combine l k)) = k.
Proof.
  induction l as [|p l IH]; intros [|y k] Ho E; try discriminate; [reflexivity|]. inversion_clear Ho as [|? ? O1 O2].
  cbn [combine map fst snd]. rewrite O1. f_equal. apply IH; [assumption|]. cbn in E. lia.
Qed.
Lemma sweep_len (bodies : list (particle R)) newton const old : length const = length bodies ->
  length (newhall_sweep bodies newton const old) = length bodies.
Proof. intros E. unfold newhall_sweep, enumerate. rewrite map_length, combine_length, seq_length, combine_length, E. lia. Qed.

Theorem newhall_law (host : particle R) l host' l' : is_newhall host -> Forall (fun p : particle R => gr_orbiting p = true) l ->
  let bodies := host :: l in let n := length bodies in
  let acc := eih_acc SPEED_OF_LIGHT_2 n (gm_at bodies host) (pos_at bodies host) (vel_at bodies host) (fun j => p_iacc (body_at bodies host j)) in
  (forall i j, (i < n)%nat -> (j < n)%nat -> i <> j -> pos_at bodies host i <> pos_at bodies host j) ->
  (forall i, (i < n)%nat -> vec_not_tiny (acc i)) ->
  relativity_pass IgnoreNone host l = (host', l') ->
  forall i, (i < n)%nat -> nth i (map relativistic_acc (host' :: l')) vzero = acc i.
Proof.
  intros Hh Ho bodies n acc Ha Ht E i Hi.
  destruct (newhall_prepare host l Hh) as (f & Kh & Ef & Kf). unfold relativity_pass in E.
  destruct (gr_prepare host l) as [h k]. cbn [fst snd] in *. subst k.
  assert (Eh : gr_effect (p_gr h) = GrCentral Newhall1983) by (destruct Kh as (_ & _ & _ & _ & _ & X); now rewrite X). rewrite Eh in E.
  unfold newhall, newtonian_accelerations in E. cbn [firstn fold_left skipn app] in E.
  set (bs := h :: map f l) in *. set (newton := p_iacc h :: map p_iacc (map f l)) in *.
  assert (Ln : length bs = n) by (unfold bs, n, bodies; cbn; now rewrite map_length).
  assert (Lw : length newton = n) by (unfold newton, n, bodies; cbn; now rewrite !map_length).
  assert (K : forall j, kept (body_at bodies host j) (body_at bs h j)).
  { intros [|j]; unfold body_at, bs, bodies; cbn [nth]; [exact Kh|].
    destruct (Nat.lt_ge_cases j (length l)) as [L|L].
    - rewrite (nth_indep _ h (f host)) by now rewrite map_length. rewrite map_nth. apply Kf.
    - rewrite !nth_overflow by (rewrite ?map_length; lia). exact Kh. }
  assert (On : Forall (fun b : particle R => gr_enabled b = true) bs).
  { apply (Forall_nth_seq _ bs h). intros j Hj. rewrite Ln in Hj. destruct (K j) as (_ & _ & _ & _ & _ & X). fold (body_at bs h j).
    unfold gr_enabled. rewrite X. unfold body_at, bodies. destruct j as [|j]; cbn [nth]; [now rewrite Hh|].
    rewrite Forall_forall in Ho. specialize (Ho (nth j l host)). unfold gr_orbiting in Ho.
    destruct (gr_effect (p_gr (nth j l host))); try reflexivity. apply Ho. apply nth_In. unfold n, bodies in Hj. cbn in Hj. lia. }
  assert (Ap : forall i j, (i < length bs)%nat -> (j < length bs)%nat -> i <> j -> pos_at bs h i <> pos_at bs h j).
  { intros a b La Lb Hab. rewrite Ln in La, Lb. unfold pos_at. destruct (K a) as (_ & _ & -> & _), (K b) as (_ & _ & -> & _). now apply Ha. }
  assert (Sw : forall j, (j < n)%nat -> nth j (newhall_sweep bs newton (consts bs) (map (fun _ => vzero) bs)) vzero = acc j).
  { intros j Hj. rewrite (sweep_eih bs h On Ap newton) by (rewrite ?map_length; congruence). rewrite Ln. unfold acc. apply eih_ext.
    - intros m. unfold gm_at. now destruct (K m) as (-> & _).
    - intros m. unfold pos_at. now destruct (K m) as (_ & _ & -> & _).
    - intros m. unfold vel_at. now destruct (K m) as (_ & _ & _ & -> & _).
    - intros m Hm. destruct (K m) as (_ & _ & _ & _ & X & _). rewrite <- X.
      assert (Z : nth m (map (fun _ : particle R => @vzero R _) bs) vzero = vzero).
      { clear. revert m. induction bs as [|? ? IH]; intros [|m]; cbn; auto. }
      rewrite Z, vadd_0_r. unfold newton, body_at, bs. change (p_iacc h :: map p_iacc (map f l)) with (map p_iacc (h :: map f l)).
      rewrite (nth_indep _ vzero (p_iacc h)) by (cbn [map length]; rewrite !map_length; unfold n, bodies in Hm; cbn in Hm; lia).
      apply map_nth. }
  assert (Lc : length (consts bs) = length bs).
  { unfold consts. rewrite map_length. unfold enumerate. rewrite combine_length, seq_length. apply Nat.min_id. }
  pose proof (sweep_len bs newton (consts bs) (map (fun _ => vzero) bs) Lc) as Ls.
  change (map (fun ib => newhall_const bs (fst ib) (snd ib)) (enumerate bs)) with (consts bs) in E.
  rewrite newhall_once in E.
  - set (sw := newhall_sweep _ _ _ _) in *. apply (f_equal (fun r => (fst r :: snd r))) in E. cbn [fst snd] in E. rewrite <- E.
    assert (M : map relativistic_acc (on_gr (set_gr_acc (hd vzero sw)) h :: map (fun pa : particle R * vec R => if gr_orbiting (fst pa) then on_gr (set_gr_acc (snd pa)) (fst pa) else fst pa)
       (combine (map f l) (tl sw))) = sw).
    { destruct sw as [|y sw]; [cbn in Ls; discriminate|]. cbn [map hd tl]. f_equal. apply combine_set_acc.
      - apply Forall_map. eapply Forall_impl; [|exact Ho]. intros p Hp. unfold gr_orbiting in *. destruct (Kf p) as (_ & _ & _ & _ & _ & ->). exact Hp.
      - unfold bs in Ls. cbn in Ls. lia. }
    rewrite M. now apply Sw.
  - apply (Forall_nth_seq _ _ vzero). intros j Hj. rewrite Ls, Ln in Hj. rewrite Sw by assumption. now apply Ht.
Qed.

(** ** Two bodies: the relative acceleration is the one of the first order of Kidder *)
Section Two.
  Variables (c2 : R) (gm : nat -> R) (x v : nat -> vec R).
  Hypotheses (Hc : c2 <> 0) (H0 : 0 < gm 0%nat) (H1 : 0 < gm 1%nat) (Hx : x 0%nat <> x 1%nat)
    (Hp : vadd (vscale (gm 0%nat) (v 0%nat)) (vscale (gm 1%nat) (v 1%nat)) = vzero).
  Let a := newton_acc 2 gm x.
  Theorem eih_two : vsub (eih_acc c2 2 gm x v a 1) (eih_acc c2 2 gm x v a 0) =
    kidder_1pn c2 (gm 0%nat + gm 1%nat) (gm 0%nat * gm 1%nat / (gm 0%nat + gm 1%nat) ^ 2) (vsub (x 1%nat) (x 0%nat)) (vsub (v 1%nat) (v 0%nat)).
  Proof.
    unfold a, eih_acc, newton_acc, others. cbn [seq filter Nat.eqb negb map Vsum fold_right]. rewrite !vadd_0_r.
    unfold eih_term, potential, others. cbn [seq filter Nat.eqb negb map Vsum Rsum fold_right]. rewrite !vadd_0_r, !Rplus_0_r.
    unfold newton_term, gap.
    assert (Er : vsub (x 0%nat) (x 1%nat) = vscale (- 1) (vsub (x 1%nat) (x 0%nat))) by (generalize (x 0%nat) (x 1%nat); intros [] []; vunfold; num_simpl; f_equal; ring).
    rewrite !Er. clear Er.
    assert (Hr : vsub (x 1%nat) (x 0%nat) <> vzero).
    { intros Z. apply Hx. revert Z. generalize (x 0%nat) (x 1%nat). intros [] []. vunfold. num_simpl. intros Z. injection Z. intros. f_equal; lra. }
    pose proof (norm_pos _ Hr) as Hd. pose proof (norm_sq (vsub (x 1%nat) (x 0%nat))) as Hn.
    revert Hp H0 H1 Hd Hn. generalize (vsub (x 1%nat) (x 0%nat)) (v 0%nat) (v 1%nat) (gm 0%nat) (gm 1%nat). intros r v0 v1 m0 m1 Ep M0 M1 Hd Hn.
    assert (E0 : v0 = vscale (- (m1 / (m0 + m1))) (vsub v1 v0)).
    { revert Ep. destruct v0 as [p1 p2 p3], v1 as [q1 q2 q3]. vunfold. num_simpl. intros Z. injection Z as Z1 Z2 Z3. f_equal; apply Rmult_eq_reg_r with (m0 + m1); try lra; field_simplify; lra. }
    assert (E1 : v1 = vscale (m0 / (m0 + m1)) (vsub v1 v0)).
    { revert Ep. destruct v0 as [p1 p2 p3], v1 as [q1 q2 q3]. vunfold. num_simpl. intros Z. injection Z as Z1 Z2 Z3. f_equal; apply Rmult_eq_reg_r with (m0 + m1); try lra; field_simplify; lra. }
    set (u := vsub v1 v0) in *. clearbody u. subst v0 v1.
    assert (N1 : forall k, norm2 (vscale k u) = k ^ 2 * norm2 u) by (intros; destruct u; vunfold; num_simpl; ring).
    assert (N2 : forall k (y : vec R), norm2 (vscale k y) = k ^ 2 * norm2 y) by (intros ? []; vunfold; num_simpl; ring).
    assert (N3 : forall k l, vdot (vscale k u) (vscale l u) = k * l * norm2 u) by (intros; destruct u; vunfold; num_simpl; ring).
    assert (N4 : forall k l, vdot (vscale k r) (vscale l u) = k * l * vdot r u) by (intros; destruct r, u; vunfold; num_simpl; ring).
    assert (N4' : forall k, vdot r (vscale k u) = k * vdot r u) by (intros; destruct r, u; vunfold; num_simpl; ring).
    assert (N5 : forall k l, vdot (vscale k r) (vscale l r) = k * l * norm2 r) by (intros; destruct r; vunfold; num_simpl; ring).
    assert (N5' : forall l, vdot r (vscale l r) = l * norm2 r) by (intros; destruct r; vunfold; num_simpl; ring).
    assert (N6 : forall k l, vsub (vscale k u) (vscale l u) = vscale (k - l) u) by (intros; destruct u; vunfold; num_simpl; f_equal; ring).
    rewrite !N2, !vscale_scale, !N6, ?N4, ?N4', ?N3, ?N5, ?N5', ?vscale_scale.
    replace ((- (1)) ^ 2 * norm2 r) with (norm2 r) by ring. replace ((-1) ^ 2 * norm2 r) with (norm2 r) by ring.
    unfold kidder_1pn. cbv zeta.
    set (D := sqrt (norm2 r)) in *. rewrite <- Hn.
    generalize (vdot r u) (norm2 u). intros s w. clear - Hc M0 M1 Hd. clearbody D.
    destruct r as [r1 r2 r3], u as [u1 u2 u3]. vunfold. num_simpl. f_equal; field; repeat split; lra.
  Qed.
End Two.
