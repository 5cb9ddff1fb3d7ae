From Coq Require Import Reals List Arith Lra Lia Bool ZArith SpecFloat.
From Verif Require Import Base.Num Base.Result Base.Vec Base.Trans Model.Particle Model.Interp Model.Tools
  Spec.TablesSpec Proofs.NumLemmas Proofs.TablesProofs.
Import ListNotations.
Open Scope R_scope.

Lemma get_spec e q t current :
  well_tabulated e -> in_sync e t ->
  exists v e', get e q t current = Ok (v, e') /\ expected e (q, t, current) v /\
    in_sync e' t /\ exists n, e' = set_ev_left n e.
Proof.
  intros Hw Hs.
  assert (Hno : exists n, e = set_ev_left n e) by (exists (ev_left e); destruct e; reflexivity).
  unfold expected. specialize (Hw q).
  destruct q; cbn [get column] in *;
    unfold evolver_radius, evolver_rg2, evolver_love, evolver_invq, dynamical_tide;
    destruct (ev_type e) as [m|m|m|m|m|[|]|]; cbn [tabulates] in *;
    try (exists current, e; repeat split; auto; fail);
    destruct (lookup_spec e _ t (Hw eq_refl) Hs) as (v & e' & E & H1 & H2 & H3);
    exists v, e'; exact (conj E (conj H1 (conj H2 H3))).
Qed.

Lemma expected_set e n req v : expected (set_ev_left n e) req v <-> expected e req v.
Proof. destruct req as [[[] t] c]; reflexivity. Qed.
Lemma well_set e n : well_tabulated (set_ev_left n e) <-> well_tabulated e.
Proof. split; intros H [] Hq; exact (H _ Hq). Qed.

Lemma Forall2_imp {A B} (P Q : A -> B -> Prop) l l' :
  (forall a b, P a b -> Q a b) -> Forall2 P l l' -> Forall2 Q l l'.
Proof. intros H; induction 1; constructor; auto. Qed.

Lemma get_all_static e reqs :
  ev_type e = NonEvolving ->
  exists vs, get_all e reqs = Ok vs /\ Forall2 (expected e) reqs vs.
Proof.
  intros He. induction reqs as [|[[q t] c] reqs (vs & E & Hvs)].
  - exists []. split; [reflexivity|constructor].
  - exists (c :: vs). split.
    + cbn [get_all].
      replace (get e q t c) with (Ok (c, e)) by
        (destruct q; cbn [get]; unfold evolver_radius, evolver_rg2, evolver_love, evolver_invq;
         rewrite He; reflexivity).
      rewrite E. reflexivity.
    + constructor; auto. unfold expected. rewrite He. destruct q; reflexivity.
Qed.

Lemma get_all_sync e reqs :
  well_tabulated e -> table (ev_time e) (column e QRadius) ->
  (forall q t c l, reqs = (q, t, c) :: l -> in_sync e t) ->
  nondecreasing (map (fun '(_, t, _) => t) reqs) ->
  exists vs, get_all e reqs = Ok vs /\ Forall2 (expected e) reqs vs.
Proof.
  revert e; induction reqs as [|[[q t] c] reqs IH]; intros e Hw Hr Hsync Hmono.
  - exists []. split; [reflexivity|constructor].
  - destruct (get_spec e q t c Hw (Hsync _ _ _ _ eq_refl)) as (v & e' & E & Hv & Hs' & n & ->).
    destruct (IH (set_ev_left n e)) as (vs & E2 & Hvs).
    + apply well_set; auto.
    + exact Hr.
    + intros q' t' c' l ->. simpl in Hmono. destruct Hmono as [Hle _].
      destruct Hr as (Hne & _ & Hinc). eapply in_sync_mono; eauto.
    + simpl in Hmono. destruct (map _ reqs) as [|]; simpl; auto. apply Hmono.
    + exists (v :: vs). cbn [get_all]. rewrite E, E2. split; [reflexivity|].
      constructor; [exact Hv|]. eapply Forall2_imp; [|exact Hvs].
      intros a b H. apply expected_set in H. exact H.
Qed.

Theorem get_all_fresh e reqs :
  well_tabulated e -> ev_left e = 0%nat ->
  nondecreasing (map (fun '(_, t, _) => t) reqs) ->
  exists vs, get_all e reqs = Ok vs /\ Forall2 (expected e) reqs vs.
Proof.
  intros Hw E Hm.
  destruct (tabulates (ev_type e) QRadius) eqn:Et.
  - apply get_all_sync; auto.
    intros q t c l -> i _. unfold ev_idx. rewrite E. simpl. lia.
  - apply get_all_static. destruct (ev_type e) as [m|m|m|m|m|[|]|]; cbn in Et; congruence.
Qed.

(** ** The lag of the dynamical tide *)
Lemma lag_angle_set sun2 t (p p' : particle R) e e' :
  evolve_spin sun2 t (p, e) = Ok (p', e') ->
  p' = set_p_tides (set_t_lag_angle (t_lag_angle (p_tides p')) (p_tides p)) p /\
  if tabulates (ev_type e) QInvQ
  then exists q, get e QInvQ t 0 = Ok (q, e') /\ t_lag_angle (p_tides p') = 3 / 4 * (p_spin2 p / sun2) * q
  else e' = e /\ t_lag_angle (p_tides p') = 0.
Proof.
  intros E. unfold evolve_spin in E.
  assert (T : tabulates (ev_type e) QInvQ = dynamical_tide (ev_type e)) by (destruct (ev_type e) as [m|m|m|m|m|[|]|]; reflexivity).
  rewrite T. cbn [get]. change (@n0 R _) with 0 in E. destruct (dynamical_tide (ev_type e)) eqn:D.
  - destruct (evolver_invq e t 0) as [[q e1]|] eqn:Q; cbn [rbind] in E; [|discriminate E].
    apply (f_equal (fun r => match r with Ok x => x | Panic _ => (p', e') end)) in E.
    pose proof (f_equal fst E) as Ep. pose proof (f_equal snd E) as Ee. cbn [fst snd] in Ep, Ee. subst.
    split; [reflexivity|]. exists q. split; [reflexivity|].
    cbn [p_tides set_p_tides t_lag_angle set_t_lag_angle p_spin2]. num_simpl.
    unfold Rdiv. rewrite Rinv_1. rewrite Rmult_1_r, (Rmult_1_r 4). ring.
  - apply (f_equal (fun r => match r with Ok x => x | Panic _ => (p', e') end)) in E.
    pose proof (f_equal fst E) as Ep. pose proof (f_equal snd E) as Ee. cbn [fst snd] in Ep, Ee. subst.
    split; [reflexivity|]. split; reflexivity.
Qed.

(** ** Going back in time *)
Theorem going_back e t1 t2 L c :
  table (ev_time e) (ev_radius e) -> ev_type e <> NonEvolving -> ev_left e = 0%nat ->
  bracket (ev_time e) t1 L -> (10 < L)%nat -> t2 < nth L (ev_time e) 0 ->
  exists v1 v2, get_all e [(QRadius, t1, c); (QRadius, t1, c); (QRadius, t2, c)]
    = Ok [v1; v2; nth L (ev_radius e) 0].
Proof.
  intros Ht Hty E0 Hb HL Ht2.
  assert (Hget : forall e' t, ev_type e' = ev_type e -> evolver_radius e' t c = ev_lookup e' (ev_radius e') t).
  { intros e' t Hty'. unfold evolver_radius. rewrite Hty'. destruct (ev_type e); congruence. }
  pose proof Ht as (Hne & Hl & Hs).
  assert (HLl : (L < length (ev_time e))%nat) by apply Hb.
  (* one request in the row L moves the window's counter from n to n + L - idx n *)
  assert (Hone : forall n, (ev_idx (set_ev_left n e) <= L)%nat ->
    exists v, ev_lookup (set_ev_left n e) (ev_radius e) t1 =
      Ok (v, set_ev_left (n + (L - ev_idx (set_ev_left n e))) e)).
  { intros n Hn. set (k := ev_idx (set_ev_left n e)) in *.
    unfold ev_lookup, slice_from. fold k. cbn [ev_time ev_left set_ev_left].
    rewrite Hl.
    replace (k <=? length (ev_time e))%nat with true by (symmetry; apply Nat.leb_le; lia).
    cbn [rbind].
    assert (Htw : table (skipn k (ev_time e)) (skipn k (ev_radius e))).
    { split; [|split].
      - intros C. apply (f_equal (@length R)) in C. rewrite skipn_length in C. simpl in C. lia.
      - rewrite !skipn_length. lia.
      - apply increasing_skipn; auto. }
    destruct (linear_interpolation_spec _ _ t1 Htw) as (v & m & -> & _ & Hm).
    pose proof (bracket_window _ _ _ _ _ Hs Hb Hn Hm) as Em.
    cbn [rbind]. exists v. replace (L - k)%nat with m by lia. reflexivity. }
  assert (He : e = set_ev_left 0 e) by (destruct e; cbn in *; subst; reflexivity).
  enough (G : exists v1 v2, get_all (set_ev_left 0 e) [(QRadius, t1, c); (QRadius, t1, c); (QRadius, t2, c)]
    = Ok [v1; v2; nth L (ev_radius e) 0]) by (rewrite <- He in G; exact G).
  cbn [get_all get].
  rewrite Hget by reflexivity.
  destruct (Hone 0%nat ltac:(cbn; lia)) as (v1 & E1). cbn [ev_radius set_ev_left].
  rewrite E1. clear E1.
  replace (0 + (L - ev_idx (set_ev_left 0 e)))%nat with L by (cbn; lia).
  rewrite Hget by reflexivity.
  assert (Ei : forall n, (10 < n)%nat -> ev_idx (set_ev_left n e) = (n - 10)%nat).
  { intros n Hn. unfold ev_idx. cbn [ev_left set_ev_left].
    destruct (Nat.ltb_spec 10 n); lia. }
  destruct (Hone L ltac:(rewrite Ei; lia)) as (v2 & E2). cbn [ev_radius set_ev_left].
  rewrite E2. clear E2. rewrite (Ei L) by lia.
  replace (L + (L - (L - 10)))%nat with (L + 10)%nat by lia.
  rewrite Hget by reflexivity.
  exists v1, v2.
  unfold ev_lookup, slice_from. rewrite (Ei (L + 10)%nat) by lia.
  cbn [ev_time ev_radius set_ev_left]. rewrite Hl.
  replace (L + 10 - 10)%nat with L by lia.
  replace (L <=? length (ev_time e))%nat with true by (symmetry; apply Nat.leb_le; lia).
  cbn [rbind].
  assert (Htw : table (skipn L (ev_time e)) (skipn L (ev_radius e))).
  { split; [|split].
    - intros C. apply (f_equal (@length R)) in C. rewrite skipn_length in C. simpl in C. lia.
    - rewrite !skipn_length. lia.
    - apply increasing_skipn; auto. }
  destruct (linear_interpolation_spec _ _ t2 Htw) as (v & m & -> & (Hv & _) & _).
  cbn [rbind]. rewrite Hv; rewrite nth_skipn, Nat.add_0_r; auto.
Qed.

(** ** One body, one update *)
Lemma evolve_non_spin_keeps_tides {F} `{Num F} t (p p' : particle F) e e' :
  evolve_non_spin t (p, e) = Ok (p', e') ->
  p_tides p' = p_tides p /\ p_mass p' = p_mass p.
Proof.
  unfold evolve_non_spin. intros E.
  destruct (evolver_radius e t (p_radius p)) as [[nr e1]|]; cbn [rbind] in E; [|discriminate E].
  destruct (evolver_rg2 e1 t (p_rg2 p)) as [[ng e2]|]; cbn [rbind] in E; [|discriminate E].
  match type of E with context [t_effect (p_tides ?q)] =>
    assert (Hq : p_tides q = p_tides p /\ p_mass q = p_mass p)
      by (destruct (negb _ || negb _)%bool; split; reflexivity); set (q0 := q) in *
  end.
  clearbody q0.
  assert (p' = q0) as ->; [|exact Hq].
  destruct (t_effect (p_tides q0)) as [m|m|]; [destruct m|destruct m|]; try congruence;
    destruct (evolver_love _ _ _) as [[? ?]|]; cbn [rbind] in E; congruence.
Qed.

Theorem evolve_inertia (t : R) (p p' : particle R) e e' :
  p_inertia p = p_mass p * p_rg2 p * (p_radius p * p_radius p) ->
  evolve_non_spin t (p, e) = Ok (p', e') ->
  p_inertia p' = p_mass p' * p_rg2 p' * (p_radius p' * p_radius p').
Proof.
  unfold evolve_non_spin. intros Hp E.
  destruct (evolver_radius e t (p_radius p)) as [[nr e1]|]; cbn [rbind] in E; [|discriminate E].
  destruct (evolver_rg2 e1 t (p_rg2 p)) as [[ng e2]|]; cbn [rbind] in E; [|discriminate E].
  match type of E with context [t_effect (p_tides ?q)] =>
    assert (Hq : p_inertia q = p_mass q * p_rg2 q * (p_radius q * p_radius q))
      by (destruct (negb _ || negb _)%bool; [reflexivity|exact Hp]); set (q0 := q) in *
  end.
  clearbody q0.
  assert (p' = q0) as ->; [|exact Hq].
  destruct (t_effect (p_tides q0)) as [m|m|]; [destruct m|destruct m|]; try congruence;
    destruct (evolver_love _ _ _) as [[? ?]|]; cbn [rbind] in E; congruence.
Qed.

(** ** Angles *)
Theorem modulus_spec (a b : R) : 0 < b ->
  0 <= modulus a b < b /\ exists k : Z, a = modulus a b + IZR k * b.
Proof.
  intros Hb. unfold modulus. cbn [nfloor FloorR]. num_simpl.
  destruct (base_Int_part (a / b)) as [H1 H2].
  assert (Hd : a = a / b * b) by (field; lra).
  split.
  - split.
    + assert (IZR (Int_part (a / b)) * b <= a / b * b) by (apply Rmult_le_compat_r; lra). lra.
    + assert (a / b * b < (IZR (Int_part (a / b)) + 1) * b) by (apply Rmult_lt_compat_r; lra). lra.
  - exists (Int_part (a / b)). lra.
Qed.

Theorem calculate_spin_spec (w inclination obliquity node : R) :
  let s := calculate_spin w inclination obliquity node in
  vdot s s = w * w /\
  vdot s (Vec 0 0 1) = w * cos (obliquity + inclination) /\
  vdot s (Vec (sin inclination * sin node) (- (sin inclination * cos node)) (cos inclination))
    = w * cos obliquity /\
  vdot s (Vec (cos node) (sin node) 0) = 0.
Proof.
  intros s. unfold s, calculate_spin, vdot. cbn [vx vy vz tsin tcos TransR]. num_simpl.
  pose proof (sin2_cos2 node) as H1. unfold Rsqr in H1.
  set (o := obliquity). set (i := inclination).
  pose proof (sin2_cos2 (o + i)) as H2. unfold Rsqr in H2.
  repeat split.
  - transitivity (w * w * (sin (o + i) * sin (o + i) * (sin node * sin node + cos node * cos node)
      + cos (o + i) * cos (o + i))); [ring|]. rewrite H1, Rmult_1_r, H2. ring.
  - ring.
  - replace (cos o) with (cos ((o + i) - i)) by (f_equal; ring).
    rewrite cos_minus.
    transitivity (w * (sin (o + i) * sin i * (sin node * sin node + cos node * cos node)
      + cos (o + i) * cos i)); [ring|]. rewrite H1. ring.
  - ring.
Qed.
