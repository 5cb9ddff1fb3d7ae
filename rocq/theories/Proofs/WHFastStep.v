(** * Steps of WHFast: what they leave alone (C52, C54, C63) *)
From Coq Require Import Reals List Bool Lra Lia Arith Permutation.
From Verif Require Import Base.Num Base.Result Base.Trans Base.Vec Model.Constants Model.Particle Model.Host
  Model.Creep Model.Relativity Model.Universe Model.WHFast
  Spec.EffectsSpec Spec.UniverseSpec Spec.WHFastSpec Proofs.NumLemmas Proofs.VecLemmas Proofs.GravityProofs Proofs.LeapFrogProofs
  Proofs.FrameProofs Proofs.EffectSums Proofs.WHFastCoords Proofs.WHFastRun.
Import ListNotations.

Lemma combine_len {A B} (l : list A) (k : list B) : length l = length k -> length (combine l k) = length l.
Proof. intro E. rewrite combine_length, <- E. apply Nat.min_id. Qed.
Lemma zip3_len {A B C D} (f : A -> B -> C -> D) a b c : length a = length b -> length b = length c -> length (zip3 f a b c) = length a.
Proof. intros E1 E2. unfold zip3. rewrite map_length, combine_len; rewrite combine_len; congruence. Qed.
Lemma zip3_view {A B C D E} (f : A -> B -> C -> D) (g : D -> E) (h : C -> E) a b c :
  length a = length b -> length b = length c -> (forall x y z, g (f x y z) = h z) -> map g (zip3 f a b c) = map h c.
Proof.
  intros E1 E2 Hf. unfold zip3. rewrite map_map.
  transitivity (map (fun t => h (snd t)) (combine (combine a b) c)); [apply map_ext; intro; apply Hf|].
  rewrite <- (map_map snd h), map_snd_combine; [reflexivity|]. rewrite combine_len by exact E1. congruence.
Qed.

Section Frame.
  Context {F : Type} `{Num F} `{Trans F} `{Floor F} `{Fuel}.
  (** the parts of the universe that no step touches *)
  Definition stays (u u' : universe F) : Prop :=
    u_effects u' = u_effects u /\ u_hosts u' = u_hosts u /\ u_gr u' = u_gr u /\ u_roche u' = u_roche u.
  Lemma stays_refl u : stays u u. Proof. unfold stays. auto. Qed.
  Lemma stays_trans a b d : stays a b -> stays b d -> stays a d.
  Proof. unfold stays. intros (-> & -> & -> & ->). auto. Qed.
  Lemma rest_stays u u' : same_rest u u' -> stays u u'.
  Proof. unfold stays. intros (A & B & C & D & _). auto. Qed.

  (** a view that sees neither the motion nor the outputs of the effects *)
  Record blind_step {B} (e : effects) (c : particle F -> B) : Prop := {
    b_eff : blind e c; b_iadd : blind_iadd c; b_dL : blind_dL c;
    b_host : forall p, c (heliocentric_host p) = c p; b_helio : forall h p, c (heliocentric h p) = c p }.
  Lemma i2h_view {B} (c : particle F -> B) u u' : (forall p, c (heliocentric_host p) = c p) -> (forall h p, c (heliocentric h p) = c p) ->
    inertial_to_heliocentric u = Ok u' -> map c (u_particles u') = map c (u_particles u) /\ stays u u'.
  Proof.
    intros Hh Hp. unfold inertial_to_heliocentric. intro E.
    match type of E with rbind ?w _ = _ => destruct w as [l|] eqn:Ew; [|discriminate E] end.
    cbn [rbind] in E. injection E as <-. cbn [u_particles set_particles set_dummies].
    split; [|unfold stays; cbn; auto].
    assert (Fc : map c l = map c (u_particles u ++ u_dummies u)).
    { eapply with_host_frame; [exact Ew|]. intros host o r X. injection X as <-. split; cbn [fst snd]; [apply Hh|].
      rewrite map_map. apply map_ext. intro. apply Hp. }
    rewrite <- firstn_map, Fc, map_app, firstn_app, map_length, Nat.sub_diag. cbn [firstn].
    rewrite app_nil_r, <- (map_length c (u_particles u)) at 1. now rewrite firstn_all.
  Qed.
  Lemma evaluation_view {B} (c : particle F -> B) t ev dL acc ig u u1 u' : blind_step (u_effects u) c ->
    inertial_to_heliocentric u = Ok u1 -> additional_effects t ev dL acc ig u1 = Ok u' ->
    map c (u_particles u') = map c (u_particles u) /\ stays u u'.
  Proof.
    intros [B1 B2 B3 B4 B5] E1 E2. destruct (i2h_view c _ _ B4 B5 E1) as (A1 & S1). pose proof S1 as (Se & _).
    destruct (evaluation_frame c t ev dL acc ig u1 u') as (A2 & S2); auto.
    - now rewrite Se.
    - split; [congruence|]. eapply stays_trans; [exact S1|]. now apply rest_stays.
  Qed.
  (** lengths *)
  Lemma blind_step_unit e : blind_step e (fun _ : particle F => tt).
  Proof. split; [apply blind_unit|..]; unfold blind_iadd, blind_dL; reflexivity. Qed.
  Lemma view_len {A B} (l : list A) (k : list B) : map (fun _ => tt) l = map (fun _ => tt) k -> length l = length k.
  Proof. intro E. apply (f_equal (@length _)) in E. now rewrite !map_length in E. Qed.

  Lemma midpoint_view {B} (c : particle F -> B) t dt spin ev ty err orig n : forall i final changes u r,
    blind_step (u_effects u) c -> (forall p v, c (set_p_ivel v p) = c p) -> (spin = true -> forall p v, c (set_p_L v p) = c p) ->
    length err = length (u_particles u) -> length orig = length (u_particles u) -> length final = length (u_particles u) ->
    length changes = length (u_particles u) ->
    midpoint n i t dt spin ev ty err orig final changes u = Ok r ->
    let '(u', final', changes') := r in
    map c (u_particles u') = map c (u_particles u) /\ stays u u' /\ length final' = length (u_particles u)
    /\ length changes' = length (u_particles u).
  Proof.
    induction n as [|n IH]; intros i final changes u r Hc Hv HL L1 L2 L3 L4 E; cbn [midpoint] in E.
    - injection E as <-. split; [reflexivity|]. split; [apply stays_refl|]. auto.
    - destruct (inertial_to_heliocentric u) as [u1|] eqn:E1; [|discriminate E]. cbn [rbind] in E.
      destruct (additional_effects _ _ _ _ _ u1) as [u2|] eqn:E2; [|discriminate E]. cbn [rbind] in E.
      destruct (evaluation_view c _ _ _ _ _ _ _ _ Hc E1 E2) as (A2 & S2).
      destruct (evaluation_view _ _ _ _ _ _ _ _ _ (blind_step_unit _) E1 E2) as (A3 & _). apply view_len in A3.
      set (ch := zip3 _ (u_particles u2) err changes) in E. set (fi := zip3 _ orig ch final) in E.
      assert (Lc : length ch = length (u_particles u)) by (unfold ch; rewrite zip3_len; congruence).
      assert (Lf : length fi = length (u_particles u)) by (unfold fi; rewrite zip3_len; congruence).
      match type of E with (if ?b then _ else _) = _ => destruct b end; [injection E as <-; auto|].
      set (u3 := set_particles (zip3 (average spin) orig fi (u_particles u2)) u2) in E.
      assert (L5 : length (u_particles u3) = length (u_particles u)) by (unfold u3; cbn [u_particles set_particles]; rewrite zip3_len; congruence).
      specialize (IH (S i) fi ch u3 r). rewrite L5 in IH.
      assert (Se : u_effects u3 = u_effects u) by apply S2.
      rewrite Se in IH. specialize (IH Hc Hv HL L1 L2 Lf Lc E). destruct r as [[u' fi'] ch'].
      destruct IH as (I1 & I2 & I3 & I4). split; [|split; [|auto]].
      + rewrite I1, <- A2. unfold u3. cbn [u_particles set_particles]. apply zip3_view; try congruence.
        intros o f p. unfold average. destruct spin; rewrite ?HL, ?Hv; auto.
      + eapply stays_trans; [exact S2|]. exact I2.
  Qed.

  Lemma velocity_dependent_view {B} (c : particle F -> B) t dt spin ev (w w' : whfast F) : sized w ->
    blind_step (u_effects (w_u w)) c -> (forall p v, c (set_p_ivel v p) = c p) -> (spin = true -> forall p v, c (set_p_L v p) = c p) ->
    velocity_dependent t dt spin ev w = Ok w' ->
    map c (u_particles (w_u w')) = map c (u_particles (w_u w)) /\ stays (w_u w) (w_u w') /\ sized w' /\ w_type w' = w_type w
    /\ w_alt w' = w_alt w.
  Proof.
    intros (S1 & S2 & S3) Hc Hv HL E. unfold velocity_dependent in E.
    set (orig := map vl_of _) in E. set (err := combine _ _) in E.
    destruct (midpoint _ _ _ _ _ _ _ _ _ _ _ _) as [[[u' fi] ch]|] eqn:Em; [|discriminate E]. cbn [rbind] in E. injection E as <-.
    assert (Lo : length orig = length (u_particles (w_u w))) by apply map_length.
    assert (Le : length err = length (u_particles (w_u w))) by (unfold err; rewrite combine_len; congruence).
    assert (Lc : length (map (fun _ : vl => (vzero, vzero) : vl) orig) = length (u_particles (w_u w))) by (rewrite map_length; exact Lo).
    pose proof (midpoint_view c _ _ _ _ _ _ _ _ _ _ _ _ _ Hc Hv HL Le Lo Lo Lc Em) as (I1 & I2 & I3 & I4).
    pose proof (midpoint_view _ _ _ _ _ _ _ _ _ _ _ _ _ _ (blind_step_unit _) (fun _ _ => eq_refl) (fun _ _ _ => eq_refl) Le Lo Lo Lc Em) as (I5 & _).
    apply view_len in I5. cbn [w_u w_alt w_type u_particles set_particles].
    split; [|split; [exact I2|]].
    - rewrite <- I1, map_map. rewrite <- (map_fst_combine (u_particles u') fi) at 2 by congruence.
      rewrite map_map. apply map_ext. intros [p f]. cbn [fst]. destruct spin; rewrite ?HL, ?Hv; auto.
    - split; [|split; reflexivity]. unfold sized. cbn [w_u w_alt w_verr w_Lerr u_particles set_particles].
      rewrite map_length, combine_len by congruence. split; [congruence|].
      assert (X : length fi = length orig) by congruence. assert (Y : length orig = length ch) by congruence.
      split; [rewrite zip3_len by assumption; congruence|]. destruct spin; [rewrite zip3_len by assumption; congruence|congruence].
  Qed.

  (** ** The orbital part *)
  Definition keeps_bodies {B} (c : particle F -> B) (star : body F) (o : list (body F)) (r : body F * list (body F)) : Prop :=
    c (fst (fst r)) = c (fst star) /\ map (fun b : body F => c (fst b)) (snd r) = map (fun b : body F => c (fst b)) o.
  Lemma kb_refl {B} (c : particle F -> B) star o : keeps_bodies c star o (star, o). Proof. split; reflexivity. Qed.
  Lemma kb_trans {B} (c : particle F -> B) star o r r' : keeps_bodies c star o r -> keeps_bodies c (fst r) (snd r) r' -> keeps_bodies c star o r'.
  Proof. unfold keeps_bodies. intros (A1 & A2) (B1 & B2). split; congruence. Qed.
  Lemma walk_view {S A B} (g : A -> B) (f : S -> A -> S * A) l : (forall s a, g (snd (f s a)) = g a) -> forall s, map g (snd (walk f s l)) = map g l.
  Proof.
    intro Hf. induction l as [|a l IH]; intro s; cbn [walk]; [reflexivity|]. specialize (Hf s a). destruct (f s a) as [s1 a1].
    specialize (IH s1). destruct (walk f s1 l) as [s2 l2]. cbn [map snd] in *. now rewrite Hf, IH.
  Qed.
  Lemma kb_to_alternative {B} (c : particle F -> B) ty star o : keeps_bodies c star o (to_alternative ty star o).
  Proof.
    assert (X : forall whds, keeps_bodies c star o (inertial_to_heliocentric_alt whds star o)).
    { intro whds. unfold inertial_to_heliocentric_alt. destruct (fold_left com_in _ _) as [[[m mg] x] v]. split; cbn [fst snd]; [reflexivity|].
      rewrite map_map. apply map_ext. reflexivity. }
    destruct ty; cbn [to_alternative]; auto. unfold inertial_to_jacobi.
    pose proof (walk_view (fun b : body F => c (fst b)) jacobi_in o) as W.
    specialize (W (fun s b => ltac:(destruct s as [[? ?] ?]; reflexivity)) (p_mass (fst star), vscale (p_mass (fst star)) (p_ipos (fst star)), vscale (p_mass (fst star)) (p_ivel (fst star)))).
    destruct (walk jacobi_in _ o) as [[[eta sx] sv] o1]. split; [reflexivity|exact W].
  Qed.
  Lemma kb_to_inertial {B} (c : particle F -> B) ty star o : (forall p v, c (set_p_ivel v p) = c p) -> (forall p v, c (set_p_ipos v p) = c p) ->
    keeps_bodies c star o (to_inertial ty star o).
  Proof.
    intros Hv Hx.
    assert (X : forall whds, keeps_bodies c star o (heliocentric_alt_to_inertial whds star o)).
    { intro whds. unfold heliocentric_alt_to_inertial. destruct star as [s sa]. split; cbn [fst snd]; [now rewrite Hv, Hx|].
      rewrite map_map. apply map_ext. intros [p a]. cbn [fst]. now rewrite Hv, Hx. }
    destruct ty; cbn [to_inertial]; auto. unfold jacobi_to_inertial.
    pose proof (walk_view (fun b : body F => c (fst b)) jacobi_out (rev o)) as W.
    specialize (W (fun s b => ltac:(destruct s as [[? ?] ?], b; cbn [jacobi_out snd fst]; now rewrite Hv, Hx)) (a_mass (snd star), vscale (a_mass (snd star)) (a_pos (snd star)), vscale (a_mass (snd star)) (a_vel (snd star)))).
    destruct (walk jacobi_out _ (rev o)) as [[[eta sx] sv] o1]. cbn [snd] in W. split; cbn [fst snd on_p]; [now rewrite Hv, Hx|].
    rewrite map_rev, W, map_rev. apply rev_involutive.
  Qed.
  Lemma kb_jump {B} (c : particle F -> B) ty dt star o : keeps_bodies c star o (jump ty dt star o).
  Proof. destruct ty; cbn [jump]; split; cbn [fst snd]; try reflexivity; rewrite map_map; apply map_ext; reflexivity. Qed.
  Lemma kb_interaction {B} (c : particle F -> B) ty dt star o : keeps_bodies c star o (interaction ty dt star o).
  Proof.
    destruct ty; cbn [interaction]; try (split; cbn [fst snd]; try reflexivity; rewrite map_map; apply map_ext; reflexivity).
    unfold inertial_to_jacobi_acc.
    pose proof (walk_view (fun b : body F => c (fst b)) jacobi_acc_in o) as W.
    specialize (W (fun s b => ltac:(destruct s; reflexivity)) (p_mass (fst star), vscale (p_mass (fst star)) (p_iacc (fst star)))).
    destruct (walk jacobi_acc_in _ o) as [[eta sa] o1]. cbn [snd] in W. split; cbn [fst snd]; [reflexivity|].
    rewrite <- W. apply walk_view. intros [e f] [p a]. reflexivity.
  Qed.
  Lemma kb_kepler {B} (c : particle F -> B) ty dt star o r : kepler_steps ty dt star o = Ok r -> keeps_bodies c star o r.
  Proof.
    unfold kepler_steps. intro E.
    match type of E with rbind ?e _ = _ => destruct e as [o'|] eqn:Eo; [|discriminate E] end. cbn [rbind] in E. injection E as <-.
    assert (X : forall mass keep l mg l', kepler_walk mass keep mg dt l = Ok l' -> map (fun b : body F => c (fst b)) l' = map (fun b : body F => c (fst b)) l).
    { intros mass keep. induction l as [|[p a] l IH]; intros mg l' E; cbn [kepler_walk] in E; [injection E as <-; reflexivity|].
      destruct (kepler_step _ _ _) as [a'|]; [|discriminate E]. cbn [rbind] in E.
      destruct (kepler_walk _ _ _ _ l) as [k|] eqn:Ek; [|discriminate E]. cbn [rbind] in E. injection E as <-.
      cbn [map fst]. now rewrite (IH _ _ Ek). }
    split; [reflexivity|]. cbn [snd]. destruct ty; eapply X; exact Eo.
  Qed.
  Lemma with_bodies_view {B} (c : particle F -> B) (w w' : whfast F) f : length (w_alt w) = length (u_particles (w_u w)) ->
    (forall star o r, f star o = Ok r -> keeps_bodies c star o r) -> with_bodies w f = Ok w' ->
    map c (u_particles (w_u w')) = map c (u_particles (w_u w)) /\ stays (w_u w) (w_u w') /\ w_type w' = w_type w
    /\ w_verr w' = w_verr w /\ w_Lerr w' = w_Lerr w /\ length (w_alt w') = length (u_particles (w_u w')).
  Proof.
    intros L Hf E. unfold with_bodies in E. destruct (with_host _ _ _) as [l|] eqn:Ew; [|discriminate E]. cbn [rbind] in E. injection E as <-.
    cbn [w_u w_type w_verr w_Lerr w_alt u_particles set_particles]. rewrite !map_length.
    split; [|unfold stays; cbn; auto 6]. rewrite map_map.
    transitivity (map (fun b : body F => c (fst b)) (combine (u_particles (w_u w)) (w_alt w))).
    - eapply with_host_frame; [exact Ew|]. intros host o r Er. apply Hf in Er. exact Er.
    - rewrite <- (map_fst_combine (u_particles (w_u w)) (w_alt w)) at 2 by exact L. now rewrite map_map.
  Qed.
  Definition blind_orbit {B} (c : particle F -> B) : Prop :=
    (forall p v, c (set_p_ivel v p) = c p) /\ (forall p v, c (set_p_ipos v p) = c p) /\ (forall p v, c (set_p_iacc v p) = c p).
  Lemma part1_view {B} (c : particle F -> B) half (w w' : whfast F) : blind_orbit c -> length (w_alt w) = length (u_particles (w_u w)) ->
    part1 half w = Ok w' ->
    map c (u_particles (w_u w')) = map c (u_particles (w_u w)) /\ stays (w_u w) (w_u w') /\ w_type w' = w_type w
    /\ w_verr w' = w_verr w /\ w_Lerr w' = w_Lerr w /\ length (w_alt w') = length (u_particles (w_u w')).
  Proof.
    intros (Hv & Hx & _) L. apply with_bodies_view; auto. intros star o r E. cbv zeta in E.
    pose proof (kb_to_alternative c (w_type w) star o) as K1. destruct (to_alternative _ star o) as [s1 o1].
    destruct (kepler_steps _ _ _ _) as [[s2 o2]|] eqn:Ek; [|discriminate E]. cbn [rbind fst snd] in E. apply (kb_kepler c) in Ek.
    pose proof (kb_jump c (w_type w) half s2 o2) as K3. destruct (jump _ _ s2 o2) as [s3 o3]. injection E as <-.
    apply (kb_trans c star o (s3, o3)); [|apply kb_to_inertial; auto]. apply (kb_trans c star o (s2, o2)); [|exact K3]. apply (kb_trans c star o (s1, o1)); [exact K1|exact Ek].
  Qed.
  Lemma part2_view {B} (c : particle F -> B) dt half (w w' : whfast F) : blind_orbit c -> length (w_alt w) = length (u_particles (w_u w)) ->
    part2 dt half w = Ok w' ->
    map c (u_particles (w_u w')) = map c (u_particles (w_u w)) /\ stays (w_u w) (w_u w') /\ w_type w' = w_type w
    /\ w_verr w' = w_verr w /\ w_Lerr w' = w_Lerr w /\ length (w_alt w') = length (u_particles (w_u w')).
  Proof.
    intros (Hv & Hx & _) L. apply with_bodies_view; auto. intros star o r E. cbv zeta in E.
    pose proof (kb_interaction c (w_type w) dt star o) as K1. destruct (interaction _ _ star o) as [s1 o1].
    pose proof (kb_jump c (w_type w) half s1 o1) as K2. destruct (jump _ _ s1 o1) as [s2 o2].
    destruct (kepler_steps _ _ _ _) as [[s3 o3]|] eqn:Ek; [|discriminate E]. cbn [rbind fst snd] in E. apply (kb_kepler c) in Ek.
    injection E as <-.
    apply (kb_trans c star o (s3, o3)); [|apply kb_to_inertial; auto]. apply (kb_trans c star o (s2, o2)); [|exact Ek]. apply (kb_trans c star o (s1, o1)); [exact K1|exact K2].
  Qed.
  Lemma gravity_view {B} (c : particle F -> B) ig (u u' : universe F) : (forall p v, c (set_p_iacc v p) = c p) ->
    length (u_roche u) = length (u_particles u) ->
    gravity ig u = Ok u' -> map c (u_particles u') = map c (u_particles u) /\ stays u u'.
  Proof.
    intros Hc L. unfold gravity. destruct (Nat.eqb _ _); [intro X; discriminate X|].
    destruct (rmap _ _) as [accs|] eqn:E; [|intro X; discriminate X]. cbn [rbind]. intro X. injection X as <-.
    split; [|unfold stays; cbn; auto]. cbn [u_particles set_particles]. rewrite map_map.
    assert (La : length accs = length (u_particles u)).
    { apply rmap_length in E. rewrite enumerate_length, combine_len in E; congruence. }
    rewrite <- (map_fst_combine (u_particles u) accs) at 2 by exact La.
    rewrite map_map. apply map_ext. intros [p a]. apply Hc.
  Qed.

  Lemma wh_step_view {B} (c : particle F -> B) t dt half (w w' : whfast F) : sized w -> length (u_roche (w_u w)) = length (u_particles (w_u w)) ->
    blind_step (u_effects (w_u w)) c -> blind_orbit c -> (integrate_spin (w_u w) = true -> forall p v, c (set_p_L v p) = c p) ->
    wh_step t dt half w = Ok w' ->
    map c (u_particles (w_u w')) = map c (u_particles (w_u w)) /\ stays (w_u w) (w_u w') /\ sized w' /\ w_type w' = w_type w.
  Proof.
    intros Sz Lr Hc Ho HL E. pose proof Ho as (Hv & Hx & Ha). unfold wh_step in E.
    destruct (velocity_dependent _ _ _ true w) as [w1|] eqn:E1; [|discriminate E]. cbn [rbind] in E.
    destruct (velocity_dependent_view (fun _ => tt) _ _ _ _ _ _ Sz (blind_step_unit _) (fun _ _ => eq_refl) (fun _ _ _ => eq_refl) E1) as (N1 & _). apply view_len in N1.
    apply (velocity_dependent_view c) in E1; auto. destruct E1 as (A1 & T1 & (Z1 & Z2 & Z3) & Y1 & _).
    destruct (part1 half w1) as [w2|] eqn:E2; [|discriminate E]. cbn [rbind] in E.
    destruct (part1_view (fun _ => tt) _ _ _ (conj (fun _ _ => eq_refl) (conj (fun _ _ => eq_refl) (fun _ _ => eq_refl))) Z1 E2) as (N2 & _). apply view_len in N2.
    apply (part1_view c) in E2; auto. destruct E2 as (A2 & T2 & Y2 & V2 & L2 & Z4).
    pose proof (stays_trans _ _ _ T1 T2) as T12.
    assert (Lr2 : length (u_roche (w_u w2)) = length (u_particles (w_u w2))) by (destruct T12 as (_ & _ & _ & ->); congruence).
    destruct (gravity _ (w_u w2)) as [u3|] eqn:E3; [|discriminate E]. cbn [rbind] in E.
    destruct (gravity_view (fun _ => tt) _ _ _ (fun _ _ => eq_refl) Lr2 E3) as (N3 & _). apply view_len in N3.
    apply (gravity_view c) in E3; auto. destruct E3 as (A3 & T3).
    set (w3 := WH u3 _ _ _ _) in E.
    destruct (part2 dt half w3) as [w4|] eqn:E4; [|discriminate E]. cbn [rbind] in E.
    assert (Z5 : length (w_alt w3) = length (u_particles (w_u w3))) by (cbn; congruence).
    destruct (part2_view (fun _ => tt) _ _ _ _ (conj (fun _ _ => eq_refl) (conj (fun _ _ => eq_refl) (fun _ _ => eq_refl))) Z5 E4) as (N4 & _). apply view_len in N4.
    apply (part2_view c) in E4; auto. destruct E4 as (A4 & T4 & Y4 & V4 & L4 & Z6).
    pose proof (stays_trans _ _ _ T12 (stays_trans _ _ _ T3 T4)) as T14.
    assert (Se : u_effects (w_u w4) = u_effects (w_u w)) by apply T14.
    apply (velocity_dependent_view c) in E; auto.
    - destruct E as (A5 & T5 & Z7 & Y5 & _). split; [rewrite A5, A4; cbn [w3 w_u]; congruence|].
      split; [eapply stays_trans; [exact T14|exact T5]|]. split; [exact Z7|]. rewrite Y5, Y4. cbn [w3 w_type]. congruence.
    - unfold sized. cbn [w3 w_verr w_Lerr w_u] in *. rewrite V4, L4, V2, L2. split; [exact Z6|]. split; congruence.
    - now rewrite Se.
  Qed.
  Lemma wh_steps_view {B} (c : particle F -> B) dt half n : forall t (w w' : whfast F), sized w -> length (u_roche (w_u w)) = length (u_particles (w_u w)) ->
    blind_step (u_effects (w_u w)) c -> blind_orbit c -> (integrate_spin (w_u w) = true -> forall p v, c (set_p_L v p) = c p) ->
    wh_steps n t dt half w = Ok w' ->
    map c (u_particles (w_u w')) = map c (u_particles (w_u w)) /\ stays (w_u w) (w_u w') /\ sized w' /\ w_type w' = w_type w.
  Proof.
    induction n as [|n IH]; intros t w w' Sz Lr Hc Ho HL E; cbn [wh_steps] in E.
    - injection E as <-. split; [reflexivity|]. split; [apply stays_refl|]. auto.
    - destruct (wh_step t dt half w) as [w1|] eqn:E1; [|discriminate E]. cbn [rbind] in E.
      pose proof (wh_step_view c _ _ _ _ _ Sz Lr Hc Ho HL E1) as (A1 & T1 & Z1 & Y1).
      pose proof (wh_step_view (fun _ => tt) _ _ _ _ _ Sz Lr (blind_step_unit _) (conj (fun _ _ => eq_refl) (conj (fun _ _ => eq_refl) (fun _ _ => eq_refl))) (fun _ _ _ => eq_refl) E1) as (N1 & _).
      apply view_len in N1. pose proof T1 as (T1e & T1h & T1g & T1r).
      apply IH in E; auto.
      + destruct E as (A2 & T2 & Z2 & Y2). split; [congruence|]. split; [eapply stays_trans; eauto|]. split; [exact Z2|congruence].
      + rewrite T1r. congruence.
      + now rewrite T1e.
      + intro X. apply HL. revert X. unfold integrate_spin. rewrite T1e, T1g. auto.
  Qed.
End Frame.

(** ** C54: with no effect but wind, no angular momentum changes *)
Section Wind.
  Context {F : Type} `{Num F} `{Trans F} `{Floor F} `{Fuel}.
  Lemma spin_untouched n t dt half (w w' : whfast F) : sized w -> length (u_roche (w_u w)) = length (u_particles (w_u w)) ->
    integrate_spin (w_u w) = false -> wh_steps n t dt half w = Ok w' ->
    map p_L (u_particles (w_u w')) = map p_L (u_particles (w_u w)).
  Proof.
    intros Sz Lr Hs E. apply (wh_steps_view p_L) in E; auto.
    - apply E.
    - split; unfold blind, blind_iadd, blind_dL, blind_effects, blind_spin, blind_evolution, blind_tides, blind_rf, blind_gr, blind_disk, blind_wind; auto 12.
    - unfold blind_orbit. auto.
    - intro X. rewrite Hs in X. discriminate X.
  Qed.
End Wind.

(** ** Without additional effects the velocities are left to the orbital part *)
Section Plain.
  Open Scope R_scope.
  Context `{Trans R} `{Floor R} `{Fuel}.
  Notation parts w := (u_particles (w_u w)).
  Notation hid w := (h_most_massive (u_hosts (w_u w))).
  Definition mx (p : particle R) : R * vec R := (p_mass p, p_ipos p).
  Definition mxv (p : particle R) : R * vec R * vec R := (p_mass p, p_ipos p, p_ivel p).
  Lemma plain_blind {B} (u : universe R) (c : particle R -> B) : plain u -> blind_spin c -> blind_iadd c -> blind_dL c ->
    (forall p, c (heliocentric_host p) = c p) -> (forall h p, c (heliocentric h p) = c p) -> blind_step (u_effects u) c.
  Proof.
    intros Hp Hs Ha Hd H3 H4. split; auto. unfold plain in Hp. rewrite Hp. unfold blind, blind_effects. cbn.
    repeat split; intros; try discriminate; apply Hs.
  Qed.
  Lemma stays_plain (u u' : universe R) : stays u u' -> plain u -> plain u'.
  Proof. unfold plain. now intros (-> & _). Qed.

  (** the corrections of one evaluation are zero *)
  Lemma plain_iadd t ev dL ig (u u' : universe R) : plain u -> additional_effects t ev dL true ig u = Ok u' ->
    Forall (fun p => p_iadd p = vzero) (u_particles u').
  Proof.
    intros Hp E. destruct (evaluation _ _ _ _ _ _ _ E) as (l0 & u1 & u2 & l & E0 & -> & E2 & El & Rs & Ep).
    cbn zeta in Ep. rewrite Ep. unfold plain in Hp. rewrite Hp. unfold torques_on. cbn [e_tides e_rf e_gr e_wind orb andb].
    rewrite andb_false_r. rewrite Hp in El.
    apply to_map. 
    assert (X : map p_iadd l = map (fun _ => vzero) l0).
    { rewrite (El _ p_iadd); [|unfold blind_effects; cbn; repeat split; intro X; discriminate X].
      apply (spin_frame p_iadd) in E2.
      - destruct E2 as (E2 & _). rewrite E2. cbn [u_particles set_particles]. rewrite map_map. reflexivity.
      - cbn [u_effects set_particles]. rewrite Hp. unfold blind, blind_effects, blind_spin. cbn. repeat split; intros; try discriminate; reflexivity. }
    rewrite Forall_forall. intros p Hin. cbn [add_corrections]. unfold add_corrections, add_if. cbn [e_tides e_rf e_gr e_disk].
    assert (Hi : In (p_iadd p) (map p_iadd l)) by now apply in_map. rewrite X in Hi. apply in_map_iff in Hi. destruct Hi as (x & Hx & _). congruence.
  Qed.

  Lemma zip3_fst {A B C} (f : A -> B -> C -> vl (F := R)) (g : vl (F := R) -> vec R) (h : A -> vec R) a b c :
    length a = length b -> length b = length c ->
    (forall x y z, In x a -> In y b -> In z c -> g (f x y z) = h x) -> map g (zip3 f a b c) = map h a.
  Proof.
    intros E1 E2 Hf. unfold zip3. rewrite map_map.
    transitivity (map (fun t => h (fst (fst t))) (combine (combine a b) c)).
    - apply map_ext_in. intros [[x y] z] Hin. pose proof (in_combine_l _ _ _ _ Hin) as Hi. pose proof (in_combine_r _ _ _ _ Hin) as Hz.
      cbn [fst snd]. apply Hf; auto; [eapply in_combine_l; exact Hi|eapply in_combine_r; exact Hi].
    - rewrite <- (map_map fst (fun t => h (fst t))), map_fst_combine by (rewrite combine_len by exact E1; congruence).
      rewrite <- (map_map fst h), map_fst_combine by congruence. reflexivity.
  Qed.

  Lemma midpoint_plain t dt spin ev ty (err orig : list (vl (F := R))) n : forall i (final changes : list (vl (F := R))) u r,
    plain u -> Forall (fun e : vl => fst e = vzero) err ->
    length err = length (u_particles u) -> length orig = length (u_particles u) -> length final = length (u_particles u) ->
    length changes = length (u_particles u) ->
    map (fun e : vl => fst e) final = map (fun e : vl => fst e) orig -> Forall (fun e : vl => fst e = vzero) changes ->
    midpoint n i t dt spin ev ty err orig final changes u = Ok r ->
    let '(u', final', changes') := r in
    map (fun e : vl => fst e) final' = map (fun e : vl => fst e) orig /\ Forall (fun e : vl => fst e = vzero) changes'.
  Proof.
    induction n as [|n IH]; intros i final changes u r Hp He L1 L2 L3 L4 Hf Hz E; cbn [midpoint] in E.
    - injection E as <-. auto.
    - destruct (inertial_to_heliocentric u) as [u1|] eqn:E1; [|discriminate E]. cbn [rbind] in E.
      destruct (additional_effects _ _ _ _ _ u1) as [u2|] eqn:E2; [|discriminate E]. cbn [rbind] in E.
      destruct (evaluation_view _ _ _ _ _ _ _ _ _ (blind_step_unit _) E1 E2) as (A3 & S2). apply view_len in A3.
      assert (P1 : plain u1) by (apply (i2h_view (fun _ => tt)) in E1; auto; eapply stays_plain; [apply E1|exact Hp]).
      pose proof (plain_iadd _ _ _ _ _ _ P1 E2) as Ai.
      set (ch := zip3 (midpoint_change dt spin) (u_particles u2) err changes) in E. set (fi := zip3 (midpoint_final spin) orig ch final) in E.
      assert (Lc : length ch = length (u_particles u)) by (unfold ch; rewrite zip3_len; congruence).
      assert (Lf : length fi = length (u_particles u)) by (unfold fi; rewrite zip3_len; congruence).
      assert (Zc : Forall (fun e : vl => fst e = vzero) ch).
      { apply (of_map fst (fun v => v = vzero)). unfold ch.
        rewrite (zip3_fst (midpoint_change dt spin) fst (fun _ => vzero)); try congruence.
        - apply to_map. rewrite Forall_forall. reflexivity.
        - intros p e o Hip Hie _. rewrite Forall_forall in Ai, He. cbn [midpoint_change fst]. rewrite (Ai p Hip), (He e Hie). vring. }
      assert (Zf : map (fun e : vl => fst e) fi = map (fun e : vl => fst e) orig).
      { unfold fi. apply (zip3_fst (midpoint_final spin) fst fst); try congruence. intros o k f _ Hk _. rewrite Forall_forall in Zc.
        cbn [midpoint_final fst]. rewrite (Zc k Hk). apply vadd_0_r. }
      match type of E with (if ?b then _ else _) = _ => destruct b end; [injection E as <-; auto|].
      set (u3 := set_particles (zip3 (average spin) orig fi (u_particles u2)) u2) in E.
      assert (L5 : length (u_particles u3) = length (u_particles u)) by (unfold u3; cbn [u_particles set_particles]; rewrite zip3_len; congruence).
      specialize (IH (S i) fi ch u3 r). rewrite L5 in IH. apply IH; auto. eapply stays_plain; [exact S2|exact Hp].
  Qed.

  Lemma velocity_dependent_plain t dt spin ev (w w' : whfast R) : plain (w_u w) -> sized w -> Forall (fun v => v = vzero) (w_verr w) ->
    velocity_dependent t dt spin ev w = Ok w' ->
    map mxv (parts w') = map mxv (parts w) /\ Forall (fun v => v = vzero) (w_verr w').
  Proof.
    intros Hp Sz Hz E. pose proof Sz as (S1 & S2 & S3).
    assert (Vx : map mx (parts w') = map mx (parts w)).
    { apply (velocity_dependent_view mx) in E; auto; [apply E|]. apply plain_blind; auto; red; reflexivity. }
    unfold velocity_dependent in E.
    set (orig := map vl_of _) in E. set (err := combine _ _) in E.
    destruct (midpoint _ _ _ _ _ _ _ _ _ _ _ _) as [[[u' fi] ch]|] eqn:Em; [|discriminate E]. cbn [rbind] in E. injection E as <-.
    assert (Lo : length orig = length (u_particles (w_u w))) by apply map_length.
    assert (Le : length err = length (u_particles (w_u w))) by (unfold err; rewrite combine_len; congruence).
    assert (Lc : length (map (fun _ : vl (F := R) => (vzero, vzero) : vl (F := R)) orig) = length (u_particles (w_u w))) by (rewrite map_length; exact Lo).
    pose proof (midpoint_view _ _ _ _ _ _ _ _ _ _ _ _ _ _ (blind_step_unit _) (fun _ _ => eq_refl) (fun _ _ _ => eq_refl) Le Lo Lo Lc Em) as (I5 & _ & I3 & I4).
    apply view_len in I5.
    apply midpoint_plain in Em; auto.
    - destruct Em as (M1 & M2). cbn [w_u w_verr u_particles set_particles] in *.
      assert (Vv : map p_ivel (map (fun pf : particle R * vl => let '(p, f) := pf in if spin then set_p_L (snd f) (set_p_ivel (fst f) p) else set_p_ivel (fst f) p) (combine (u_particles u') fi)) = map p_ivel (parts w)).
      { rewrite map_map. transitivity (map (fun pf : particle R * vl => fst (snd pf)) (combine (u_particles u') fi)).
        - apply map_ext. intros [p f]. destruct spin; reflexivity.
        - transitivity (map (fun e : vl (F := R) => fst e) (map snd (combine (u_particles u') fi))); [now rewrite map_map|].
          rewrite map_snd_combine by congruence. rewrite M1. unfold orig. rewrite map_map. reflexivity. }
      split.
      + unfold mxv. 
        assert (X : forall l k : list (particle R), map mx l = map mx k -> map p_ivel l = map p_ivel k -> map (fun p => (p_mass p, p_ipos p, p_ivel p)) l = map (fun p => (p_mass p, p_ipos p, p_ivel p)) k).
        { induction l as [|p l IH]; intros [|q k] Y Z; try discriminate; [reflexivity|]. cbn [map] in *. apply cons_eq in Y as [Y1 Y2]. apply cons_eq in Z as [Z1 Z2].
          rewrite (IH k Y2 Z2). unfold mx in Y1. injection Y1 as -> ->. rewrite Z1. reflexivity. }
        apply X; [exact Vx|exact Vv].
      + assert (X : forall (f o c : list (vl (F := R))), map (fun e : vl (F := R) => fst e) f = map (fun e : vl (F := R) => fst e) o -> Forall (fun e : vl (F := R) => fst e = vzero) c ->
          Forall (fun v => v = vzero) (zip3 (fun f o c : vl (F := R) => vsub (vsub (fst f) (fst o)) (fst c)) f o c)).
        { unfold zip3. induction f as [|a f IH]; intros [|b o] [|c k] Y Z; cbn [combine map]; try constructor.
          - cbn [map] in Y. apply cons_eq in Y as [Y1 _]. inversion Z; subst. cbn [fst snd]. rewrite Y1.
            match goal with H : fst c = vzero |- _ => rewrite H end. generalize (fst b). vring.
          - cbn [map] in Y. apply cons_eq in Y as [_ Y2]. inversion Z; subst. apply IH; auto. }
        apply X; auto.
    - unfold err. rewrite Forall_forall in *. intros [a b] Hin. apply in_combine_l in Hin. cbn [fst]. apply Hz. exact Hin.
    - rewrite Forall_forall. intros x Hin. apply in_map_iff in Hin. destruct Hin as (y & <- & _). reflexivity.
  Qed.

  Lemma view_sums (l l' : list (particle R)) : map mxv l' = map mxv l ->
    map p_mass l' = map p_mass l /\ momentum l' = momentum l /\ weighted p_ipos l' = weighted p_ipos l.
  Proof.
    intro E.
    assert (X : forall (f : R * vec R * vec R -> vec R) (k : list (particle R)), Vsum (map (fun p => f (mxv p)) k) = Vsum (map f (map mxv k))) by (intros; now rewrite map_map).
    split; [|split].
    - transitivity (map (fun t => fst (fst t)) (map mxv l')); [now rewrite map_map|]. rewrite E, map_map. reflexivity.
    - unfold momentum, weighted. transitivity (Vsum (map (fun t : R * vec R * vec R => vscale (fst (fst t)) (snd t)) (map mxv l'))); [now rewrite map_map|]. rewrite E, map_map. reflexivity.
    - unfold weighted. transitivity (Vsum (map (fun t : R * vec R * vec R => vscale (fst (fst t)) (snd (fst t))) (map mxv l'))); [now rewrite map_map|]. rewrite E, map_map. reflexivity.
  Qed.

  Lemma host_masses (l l' : list (particle R)) h c star : map p_mass l' = map p_mass l -> nth_error l h = Some star -> usable c star (except h l) ->
    exists star', nth_error l' h = Some star' /\ usable c star' (except h l').
  Proof.
    intros E N U. assert (X : nth_error (map p_mass l') h = Some (p_mass star)) by (rewrite E, nth_error_map, N; reflexivity).
    rewrite nth_error_map in X. destruct (nth_error l' h) as [s'|] eqn:Es; [|discriminate X]. cbn [option_map] in X. injection X as X.
    exists s'. split; [reflexivity|]. eapply usable_masses; [| |exact U]; [auto|]. rewrite !except_others, !map_others. now rewrite E.
  Qed.

  Lemma wh_step_conserves t dt half (w w' : whfast R) : ready w -> wh_step t dt half w = Ok w' ->
    ready w' /\ momentum (parts w') = momentum (parts w)
    /\ weighted p_ipos (parts w') = vadd (weighted p_ipos (parts w)) (vscale (half + half) (momentum (parts w))).
  Proof.
    intros (Hp & Sz & Lr & Hz & star & N & U) E.
    pose proof (wh_step_view (fun _ => tt) _ _ _ _ _ Sz Lr (blind_step_unit _) (conj (fun _ _ => eq_refl) (conj (fun _ _ => eq_refl) (fun _ _ => eq_refl))) (fun _ _ _ => eq_refl) E) as (W1 & W2 & W3 & W4).
    apply view_len in W1.
    unfold wh_step in E.
    destruct (velocity_dependent _ _ _ true w) as [w1|] eqn:E1; [|discriminate E]. cbn [rbind] in E.
    pose proof (velocity_dependent_view (fun _ => tt) _ _ _ _ _ _ Sz (blind_step_unit _) (fun _ _ => eq_refl) (fun _ _ _ => eq_refl) E1) as (N1 & T1 & Z1 & Y1 & _). apply view_len in N1.
    apply velocity_dependent_plain in E1; auto. destruct E1 as (M1 & V1). apply view_sums in M1 as (M1 & P1 & X1).
    destruct (host_masses _ _ _ _ _ M1 N U) as (star1 & Ns1 & U1).
    pose proof T1 as (T1e & T1h & T1g & T1r).
    destruct (part1 half w1) as [w2|] eqn:E2; [|discriminate E]. cbn [rbind] in E.
    pose proof Z1 as (Z1a & Z1b & Z1c).
    pose proof (part1_view (fun _ => tt) _ _ _ (conj (fun _ _ => eq_refl) (conj (fun _ _ => eq_refl) (fun _ _ => eq_refl))) Z1a E2) as (N2 & T2 & _ & _ & _ & Z2). apply view_len in N2.
    apply (part1_moves half w1 w2 star1) in E2; [|exact Z1a|now rewrite T1h|now rewrite T1h, Y1].
    destruct E2 as (I2 & M2 & Y2 & V2 & L2 & _ & P2 & X2).
    pose proof (stays_trans _ _ _ T1 T2) as T12.
    assert (Lr2 : length (u_roche (w_u w2)) = length (u_particles (w_u w2))) by (destruct T12 as (_ & _ & _ & ->); congruence).
    destruct (gravity _ (w_u w2)) as [u3|] eqn:E3; [|discriminate E]. cbn [rbind] in E.
    pose proof (gravity_view (fun _ => tt) _ _ _ (fun _ _ => eq_refl) Lr2 E3) as (N3 & T3). apply view_len in N3.
    apply (gravity_view mxv) in E3; auto. destruct E3 as (A3 & _). apply view_sums in A3 as (M3 & P3 & X3).
    set (w3 := WH u3 _ _ _ _) in E.
    assert (I3 : in_step w3).
    { destruct I2 as (L & s & a & Hs & Ha & Hu & Hm & Hv & Hx). split; [unfold slots in *; cbn; congruence|].
      assert (T3h : u_hosts u3 = u_hosts (w_u w2)) by apply T3.
      destruct (host_masses _ _ _ _ _ M3 Hs Hu) as (s' & Hs' & Hu').
      exists s', a. cbn [w3 w_u w_alt w_type]. rewrite T3h, P3, X3, (total_masses _ _ M3). auto 6. }
    destruct (part2 dt half w3) as [w4|] eqn:E4; [|discriminate E]. cbn [rbind] in E.
    assert (Z3 : length (w_alt w3) = length (u_particles (w_u w3))) by (cbn; congruence).
    pose proof (part2_view (fun _ => tt) _ _ _ _ (conj (fun _ _ => eq_refl) (conj (fun _ _ => eq_refl) (fun _ _ => eq_refl))) Z3 E4) as (N4 & T4 & _ & _ & _ & Z4). apply view_len in N4.
    apply (part2_moves dt half w3 w4) in E4; [|exact I3]. destruct E4 as (I4 & M4 & Y4 & V4 & L4 & _ & P4 & X4).
    cbn [w3 w_u w_type w_verr w_Lerr] in M4, Y4, V4, L4, P4, X4, T4, N4.
    pose proof (stays_trans _ _ _ T12 (stays_trans _ _ _ T3 T4)) as T14.
    apply velocity_dependent_plain in E; auto.
    - destruct E as (M5 & V5). apply view_sums in M5 as (M5 & P5 & X5).
      assert (Mm : map p_mass (parts w') = map p_mass (parts w)) by congruence.
      split; [|split].
      + split; [eapply stays_plain; eauto|]. split; [exact W3|]. split; [destruct W2 as (_ & _ & _ & ->); congruence|]. split; [exact V5|].
        destruct W2 as (_ & -> & _). rewrite W4. apply (host_masses _ _ _ _ star Mm); auto.
      + congruence.
      + rewrite X5, X4, X3, X2, X1, P3, P2, P1. generalize (weighted p_ipos (parts w)) (momentum (parts w)). vring.
    - eapply stays_plain; eauto.
    - unfold sized. split; [exact Z4|]. rewrite V4, L4, V2, L2. split; congruence.
    - rewrite V4, V2. exact V1.
  Qed.
  Lemma wh_conserves dt half n : forall t (w w' : whfast R), ready w -> wh_steps n t dt half w = Ok w' ->
    momentum (parts w') = momentum (parts w)
    /\ weighted p_ipos (parts w') = vadd (weighted p_ipos (parts w)) (vscale (INR n * (half + half)) (momentum (parts w))).
  Proof.
    induction n as [|n IH]; intros t w w' Hr E; cbn [wh_steps] in E.
    - injection E as <-. split; [reflexivity|]. cbn [INR]. rewrite Rmult_0_l, vscale_0_l, vadd_0_r. reflexivity.
    - destruct (wh_step t dt half w) as [w1|] eqn:E1; [|discriminate E]. cbn [rbind] in E.
      apply wh_step_conserves in E1; auto. destruct E1 as (R1 & P1 & X1). apply IH in E; auto. destruct E as (P2 & X2).
      split; [congruence|]. rewrite X2, X1, P1, S_INR. generalize (weighted p_ipos (parts w)) (momentum (parts w)) (INR n). vring.
  Qed.
End Plain.
