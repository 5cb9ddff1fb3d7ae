(** * WHFast with effects that act between bodies (C71) *)
From Coq Require Import Reals Lra Lia List Bool Arith.
From Verif Require Import Base.Num Base.Result Base.Trans Base.Vec Model.Constants Model.Particle Model.Host
  Model.Creep Model.Relativity Model.Universe Model.WHFast
  Spec.EffectsSpec Spec.UniverseSpec Spec.WHFastSpec Spec.ReciprocitySpec
  Proofs.NumLemmas Proofs.VecLemmas Proofs.GravityProofs Proofs.FrameProofs Proofs.EffectSums Proofs.WHFastCoords Proofs.WHFastRun Proofs.WHFastStep Proofs.MidpointProofs
  Proofs.Reciprocity Proofs.ReciprocityRuns.
Import ListNotations.
Open Scope R_scope.
Local Notation P := (particle R).
Local Notation weighted := Spec.UniverseSpec.weighted.
Local Notation parts w := (u_particles (w_u w)).

Section Steps.
  Context `{Trans R} `{Floor R} `{Fuel}.

  Lemma mx_blind e : blind_step (F := R) e mx.
  Proof. split; unfold mx, blind, blind_iadd, blind_dL, blind_effects, blind_spin, blind_evolution, blind_tides, blind_rf, blind_gr, blind_disk, blind_wind; auto 12. Qed.
  Lemma rates_reciprocal t spin c ev (u u' : universe R) : reciprocal u -> rates t spin c ev u = Ok u' ->
    reciprocal u' /\ stays u u' /\ map mx (u_particles u') = map mx (u_particles u) /\ net_force p_iadd (u_particles u') = vzero.
  Proof.
    intros Re. unfold rates. destruct (inertial_to_heliocentric u) as [u1|] eqn:E1; [|intro X; discriminate X]. cbn [rbind]. intro E2.
    destruct (i2h_view whole u u1 (fun _ => eq_refl) (fun _ _ => eq_refl) E1) as (V1 & S1).
    assert (Re1 : reciprocal u1) by (eapply whole_reciprocal'; [exact V1|apply S1|apply S1|exact Re]).
    destruct (effects_no_force _ _ _ _ _ _ Re1 E2) as (Re2 & _ & N).
    destruct (evaluation_view _ _ _ _ _ _ _ _ _ (mx_blind (u_effects u)) E1 E2) as (M & St). auto.
  Qed.
  Lemma zip_view {A B C D} (f : A -> B -> C) (g : C -> D) (h : B -> D) (a : list A) (b : list B) : length a = length b ->
    (forall x y, g (f x y) = h y) -> map g (zip f a b) = map h b.
  Proof.
    intros L E. unfold zip. rewrite map_map. transitivity (map (fun x => h (snd x)) (combine a b)); [apply map_ext; intro; apply E|].
    rewrite <- (map_map snd h), map_snd_combine by now symmetry. reflexivity.
  Qed.
  Lemma whole_vl spin p x : whole (with_vl spin p x) = whole p.
  Proof. unfold with_vl. destruct spin; reflexivity. Qed.
  Lemma mx_vl spin p x : mx (with_vl spin p x) = mx p.
  Proof. unfold with_vl. destruct spin; reflexivity. Qed.
  Lemma midpoint_reciprocal dt spin (u0 u : universe R) : length (u_particles u0) = length (u_particles u) -> reciprocal u ->
    reciprocal (midpoint_of dt spin u0 u).
  Proof. intros L Re. unfold midpoint_of. apply whole_reciprocal; [|exact Re]. apply zip_view; [exact L|]. intros. apply whole_vl. Qed.
  Lemma evaluations_reciprocal t dt spin ev c u0 k u : reciprocal u0 -> evaluations t dt spin ev c u0 k u ->
    reciprocal u /\ stays u0 u /\ map mx (u_particles u) = map mx (u_particles u0).
  Proof.
    intros Re E. induction E as [u E|k u u' E IH E'].
    - destruct (rates_reciprocal _ _ _ _ _ _ Re E) as (A & B & C & _). auto.
    - destruct IH as (A & B & C). assert (L : length (u_particles u0) = length (u_particles u)) by (apply (f_equal (@length _)) in C; now rewrite !map_length in C).
      destruct (rates_reciprocal _ _ _ _ _ _ (midpoint_reciprocal dt spin u0 u L A) E') as (A' & B' & C' & _).
      split; [exact A'|]. split; [eapply stays_trans; [exact B|exact B']|]. rewrite C', <- C.
      unfold midpoint_of. cbn [u_particles set_particles]. apply zip_view; [exact L|]. intros. apply mx_vl.
  Qed.
  Lemma updated_momentum dt spin : forall (s p : list P), map p_mass s = map p_mass p ->
    weighted p_ivel (zip (fun s p => with_vl spin p (updated dt spin s p)) s p) = vadd (weighted p_ivel s) (vscale dt (net_force p_iadd p)).
  Proof.
    unfold Spec.UniverseSpec.weighted, net_force, zip, Vsum. induction s as [|s S IH]; intros [|p L] E; try discriminate E; cbn [combine map fold_right].
    - vunfold. f_equal; ring.
    - cbn [map] in E. injection E as E1 E2. rewrite (IH L E2). clear IH E2. cbn [fst snd].
      assert (X1 : p_mass (with_vl spin p (updated dt spin s p)) = p_mass p) by (unfold with_vl; destruct spin; reflexivity).
      assert (X2 : p_ivel (with_vl spin p (updated dt spin s p)) = vadd (p_ivel s) (vscale dt (p_iadd p))) by (unfold with_vl; destruct spin; reflexivity).
      rewrite X1, X2, E1. generalize (p_mass p) (p_ivel s) (p_iadd p). intros m [a b c] [d e f].
      destruct (fold_right _ _ (map (fun p => vscale (p_mass p) (p_ivel p)) S)), (fold_right _ _ (map (fun p => vscale (p_mass p) (p_iadd p)) L)). vunfold. f_equal; ring.
  Qed.
  Lemma mx_masses (l l' : list P) : map mx l' = map mx l -> map p_mass l' = map p_mass l /\ weighted p_ipos l' = weighted p_ipos l.
  Proof.
    intro E. split; [exact (view_part mx p_mass fst _ _ (fun _ => eq_refl) E)|]. apply weighted_view. exact E.
  Qed.

  (** the effects leave momentum and centre of mass *)
  Lemma velocity_dependent_mutual t dt ev (w w' : whfast R) spin : reciprocal (w_u w) -> sized w -> compensated spin w ->
    velocity_dependent t dt spin ev w = Ok w' ->
    reciprocal (w_u w') /\ sized w' /\ compensated spin w' /\ stays (w_u w) (w_u w') /\ w_type w' = w_type w
    /\ map mx (parts w') = map mx (parts w) /\ momentum (parts w') = momentum (parts w).
  Proof.
    intros Re Sz Co E.
    destruct (velocity_dependent_view mx _ _ _ _ _ _ Sz (mx_blind _) (fun _ _ => eq_refl) (fun _ _ _ => eq_refl) E) as (M & St & Sz' & Ty & _).
    destruct (velocity_dependent_midpoint t dt spin ev w w' Sz Co E) as (k & u & v & _ & Ev & Er & _ & Eu & _ & _ & _ & Co').
    destruct (evaluations_reciprocal _ _ _ _ _ _ _ _ Re Ev) as (A & B & C).
    assert (L : length (parts w) = length (u_particles v)) by (apply (f_equal (@length _)) in C; now rewrite !map_length in C).
    destruct (rates_reciprocal _ _ _ _ _ _ (midpoint_reciprocal dt spin (w_u w) v L A) Er) as (A' & B' & C' & N).
    assert (Cu : map mx (u_particles u) = map mx (parts w)).
    { rewrite C', <- C. unfold midpoint_of. cbn [u_particles set_particles]. apply zip_view; [exact L|]. intros. apply mx_vl. }
    destruct (mx_masses _ _ Cu) as (Mu & _).
    assert (Lu : length (parts w) = length (u_particles u)) by (apply (f_equal (@length _)) in Mu; now rewrite !map_length in Mu).
    split; [rewrite Eu; apply whole_reciprocal; [apply zip_view; [exact Lu|]; intros; apply whole_vl|exact A']|].
    split; [exact Sz'|]. split; [exact Co'|]. split; [exact St|]. split; [exact Ty|]. split; [exact M|].
    rewrite Eu. cbn [u_particles set_particles]. unfold momentum. rewrite updated_momentum by now symmetry. rewrite N.
    destruct (weighted p_ivel (parts w)). vunfold. f_equal; ring.
  Qed.
  Lemma spin_stays (u u' : universe R) : stays u u' -> integrate_spin u' = integrate_spin u.
  Proof. intros (A & _ & B & _). unfold integrate_spin. now rewrite A, B. Qed.
  Lemma whole_orbit : blind_orbit (F := R) whole.
  Proof. repeat split. Qed.
  Lemma stays_reciprocal (u u' : universe R) : stays u u' -> map whole (u_particles u') = map whole (u_particles u) -> reciprocal u -> reciprocal u'.
  Proof. intros (A & B & _) V. now apply whole_reciprocal'. Qed.

  Lemma wh_mutual_step t dt half (w w' : whfast R) : engaged w -> wh_step t dt half w = Ok w' ->
    engaged w' /\ momentum (parts w') = momentum (parts w)
    /\ weighted p_ipos (parts w') = vadd (weighted p_ipos (parts w)) (vscale (half + half) (momentum (parts w))).
  Proof.
    intros (Re & Sz & Lr & Co & star & N & U) E. unfold wh_step in E.
    destruct (velocity_dependent _ _ _ true w) as [w1|] eqn:E1; [|discriminate E]. cbn [rbind] in E.
    destruct (velocity_dependent_mutual _ _ _ _ _ _ Re Sz Co E1) as (Re1 & Z1 & Co1 & T1 & Y1 & M1 & P1). clear E1.
    destruct (mx_masses _ _ M1) as (M1' & X1).
    destruct (host_masses _ _ _ _ _ M1' N U) as (star1 & Ns1 & U1).
    pose proof T1 as (T1e & T1h & T1g & T1r). pose proof Z1 as (Z1a & Z1b & Z1c).
    assert (N1 : length (parts w1) = length (parts w)) by (apply (f_equal (@length _)) in M1'; now rewrite !map_length in M1').
    destruct (part1 half w1) as [w2|] eqn:E2; [|discriminate E]. cbn [rbind] in E.
    pose proof (part1_view whole _ _ _ whole_orbit Z1a E2) as (V2 & T2 & _ & _ & _ & Z2).
    apply (part1_moves half w1 w2 star1) in E2; [|exact Z1a|now rewrite T1h|now rewrite T1h, Y1].
    destruct E2 as (I2 & M2 & Y2 & Ve2 & L2 & _ & P2 & X2).
    pose proof (stays_trans _ _ _ T1 T2) as T12.
    assert (N2 : length (parts w2) = length (parts w1)) by (apply (f_equal (@length _)) in M2; now rewrite !map_length in M2).
    assert (Lr2 : length (u_roche (w_u w2)) = length (u_particles (w_u w2))) by (destruct T12 as (_ & _ & _ & ->); congruence).
    assert (Re2 : reciprocal (w_u w2)) by exact (stays_reciprocal _ _ T2 V2 Re1).
    destruct (gravity _ (w_u w2)) as [u3|] eqn:E3; [|discriminate E]. cbn [rbind] in E.
    pose proof (gravity_view whole _ _ _ (fun _ _ => eq_refl) Lr2 E3) as (V3 & T3).
    apply (gravity_view mxv) in E3; auto. destruct E3 as (A3 & _). apply view_sums in A3 as (M3 & P3 & X3).
    assert (N3 : length (u_particles u3) = length (parts w2)) by (apply (f_equal (@length _)) in M3; now rewrite !map_length in M3).
    set (w3 := WH u3 _ _ _ _) in E.
    assert (I3 : in_step w3).
    { destruct I2 as (L & s & a & Hs & Ha & Hu & Hm & Hv & Hx). split; [unfold slots in *; cbn; congruence|].
      assert (T3h : u_hosts u3 = u_hosts (w_u w2)) by apply T3.
      destruct (host_masses _ _ _ _ _ M3 Hs Hu) as (s' & Hs' & Hu').
      exists s', a. cbn [w3 w_u w_alt w_type]. rewrite T3h, P3, X3, (total_masses _ _ M3). auto 6. }
    assert (Re3 : reciprocal u3) by exact (stays_reciprocal _ _ T3 V3 Re2).
    destruct (part2 dt half w3) as [w4|] eqn:E4; [|discriminate E]. cbn [rbind] in E.
    assert (Z3 : length (w_alt w3) = length (u_particles (w_u w3))) by (cbn; congruence).
    pose proof (part2_view whole _ _ _ _ whole_orbit Z3 E4) as (V4 & T4 & _ & _ & _ & Z4).
    apply (part2_moves dt half w3 w4) in E4; [|exact I3]. destruct E4 as (I4 & M4 & Y4 & Ve4 & L4 & _ & P4 & X4).
    cbn [w3 w_u w_type w_verr w_Lerr] in M4, Y4, Ve4, L4, P4, X4, T4, V4.
    assert (Re4 : reciprocal (w_u w4)) by exact (stays_reciprocal _ _ T4 V4 Re3).
    assert (N4 : length (parts w4) = length (u_particles u3)) by (apply (f_equal (@length _)) in M4; now rewrite !map_length in M4).
    pose proof (stays_trans _ _ _ T12 (stays_trans _ _ _ T3 T4)) as T14.
    assert (Sz4 : sized w4) by (unfold sized; split; [exact Z4|]; rewrite Ve4, L4, Ve2, L2; split; congruence).
    assert (Co4 : compensated (integrate_spin (w_u w)) w4) by (unfold compensated; rewrite Ve4, L4, Ve2, L2; exact Co1).
    destruct (velocity_dependent_mutual _ _ _ _ _ _ Re4 Sz4 Co4 E) as (Re5 & Z5 & Co5 & T5 & Y5 & M5 & P5).
    destruct (mx_masses _ _ M5) as (M5' & X5).
    pose proof (stays_trans _ _ _ T14 T5) as T15.
    assert (Mm : map p_mass (parts w') = map p_mass (parts w)) by congruence.
    assert (Nn : length (parts w') = length (parts w)) by (apply (f_equal (@length _)) in Mm; now rewrite !map_length in Mm).
    split; [|split].
    - split; [exact Re5|]. split; [exact Z5|]. split; [destruct T15 as (_ & _ & _ & ->); congruence|]. split; [now rewrite (spin_stays _ _ T15)|].
      destruct T15 as (_ & -> & _). rewrite Y5, Y4, Y2, Y1. apply (host_masses _ _ _ _ star Mm); auto.
    - congruence.
    - rewrite X5, X4, X3, X2, X1, P3, P2, P1. generalize (weighted p_ipos (parts w)) (momentum (parts w)). intros [a b c] [d e f]. vunfold. f_equal; ring.
  Qed.
  Theorem wh_mutual dt half n : forall t (w w' : whfast R), engaged w -> wh_steps n t dt half w = Ok w' ->
    momentum (parts w') = momentum (parts w) /\
    weighted p_ipos (parts w') = vadd (weighted p_ipos (parts w)) (vscale (INR n * (half + half)) (momentum (parts w))) /\ engaged w'.
  Proof.
    induction n as [|n IH]; intros t w w' Hr E; cbn [wh_steps] in E.
    - injection E as <-. split; [reflexivity|]. split; [|exact Hr]. cbn [INR]. rewrite Rmult_0_l, vscale_0_l, vadd_0_r. reflexivity.
    - destruct (wh_step t dt half w) as [w1|] eqn:E1; [|discriminate E]. cbn [rbind] in E.
      apply wh_mutual_step in E1; auto. destruct E1 as (R1 & P1 & X1). apply IH in E; auto. destruct E as (P2 & X2 & R2).
      split; [congruence|]. split; [|exact R2]. rewrite X2, X1, P1, S_INR.
      generalize (weighted p_ipos (parts w)) (momentum (parts w)) (INR n). intros [a b c] [d e f] m. vunfold. f_equal; ring.
  Qed.
End Steps.
