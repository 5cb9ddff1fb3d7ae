(** * Runs of WHFast that end well (non-vacuity of C19, C52, C54, C63) *)
From Coq Require Import Reals List Bool Lra Lia Arith.
From Verif Require Import Base.Num Base.Result Base.Trans Base.Vec Model.Constants Model.Particle Model.Host
  Model.Creep Model.Relativity Model.Universe Model.WHFast
  Spec.EffectsSpec Spec.UniverseSpec Spec.WHFastSpec Proofs.NumLemmas Proofs.VecLemmas Proofs.GravityProofs Proofs.LeapFrogProofs
  Proofs.FrameProofs Proofs.EffectSums Proofs.UniverseExamples Proofs.WHFastCoords Proofs.WHFastRun Proofs.WHFastStep Proofs.MidpointProofs.
Import ListNotations.
Open Scope R_scope.

Section Plain.
  Context `{Trans R} `{Floor R} `{Fuel}.
  (** no effect but perhaps the wind, which acts on the spin alone *)
  Definition quiet (dL : bool) (u : universe R) : Prop := u_effects u = no_effects \/ u_effects u = wind_effects /\ dL = false.
  Lemma effects_quiet t (ev dL acc : bool) ig (u : universe R) : quiet dL u ->
    additional_effects t ev dL acc ig u
    = (do l <- rmapi refresh_spin (if acc then map (set_p_iadd vzero) (u_particles u) else u_particles u);
       Ok (set_particles l u)).
  Proof.
    destruct u as [ti tl l ds evs c gi h m ro]. unfold quiet. cbn [u_effects]. intros [-> | [-> ->]];
    (destruct acc, ev; try destruct dL; unfold additional_effects, initialize, spin_and_evolving, tidal_effects;
      cbn [u_effects no_effects wind_effects e_tides e_rf e_gr e_disk e_wind e_evolution andb orb u_particles set_particles u_evolvers rbind u_hosts];
      (destruct (rmapi refresh_spin _) as [l'|]; cbn [rbind]; [|reflexivity]);
      cbn [u_effects no_effects wind_effects e_tides e_rf e_gr e_disk e_wind e_evolution andb orb u_particles set_particles set_evolvers u_evolvers rbind fst snd];
      unfold set_particles; cbn [u_initial u_limit u_dummies u_evolvers u_effects u_gr u_hosts u_pairs u_roche u_particles]; try reflexivity;
      (do 2 f_equal; transitivity (map (fun p : particle R => p) l'); [apply map_ext; reflexivity|apply map_id])).
  Qed.
  Lemma quiet_frame dL (u u' : universe R) : same_frame u u' -> quiet dL u -> quiet dL u'.
  Proof. unfold quiet. intros (_ & _ & -> & _). auto. Qed.
  Lemma quiet_spin dL (u : universe R) : quiet dL u -> integrate_spin u = false.
  Proof. unfold integrate_spin. intros [-> | [-> _]]; reflexivity. Qed.
  Definition fit (spin : bool) (u : universe R) : Prop := quiet spin u /\ hosted u /\ forallb kinert (map core (u_particles u)) = true.
  Definition inert_view (p : particle R) : bool := Reqb (p_inertia p) 0.
  Lemma inert_of (l : list (particle R)) : forallb kinert (map core l) = forallb negb (map inert_view l).
  Proof. induction l as [|p l IH]; [reflexivity|]. cbn [map forallb]. rewrite IH. reflexivity. Qed.
  Lemma fit_eval t spin c ev (u : universe R) : fit spin u -> exists u', rates t spin c ev u = Ok u' /\ fit spin u' /\ length (u_particles u') = length (u_particles u).
  Proof.
    intros (P & Hh & I). destruct (i2h_ok u Hh) as (u1 & E1). destruct (i2h_frame _ _ E1) as (F1 & C1 & _).
    assert (P1 : quiet spin u1) by (eapply quiet_frame; eauto).
    destruct (refresh_ok (map (set_p_iadd vzero) (u_particles u1))) as (l & El).
    { rewrite map_map. change (map (fun x : particle R => core (set_p_iadd vzero x)) (u_particles u1)) with (map core (u_particles u1)). now rewrite C1. }
    assert (Er : rates t spin c ev u = Ok (set_particles l u1)).
    { unfold rates. rewrite E1. cbn [rbind]. rewrite effects_quiet by exact P1. rewrite El. reflexivity. }
    exists (set_particles l u1). split; [exact Er|].
    destruct (refresh_frame _ _ El) as (I2 & C2 & _).
    assert (L : length l = length (u_particles u1)).
    { rewrite <- (map_length core l), C2. now rewrite !map_length. }
    assert (F2 : same_frame u (set_particles l u1)) by (eapply same_frame_trans; [exact F1|]; apply same_frame_set; exact L).
    split; [|destruct F2 as (_&_&_&X&_); exact X].
    split; [eapply quiet_frame; eauto|]. split; [eapply hosted_frame; eauto|]. cbn [u_particles set_particles]. rewrite C2. exact I2.
  Qed.
  Lemma fit_set spin l (u : universe R) : fit spin u -> length l = length (u_particles u) -> map inert_view l = map inert_view (u_particles u) -> fit spin (set_particles l u).
  Proof.
    intros (P & Hh & I) L V. split; [exact P|]. split.
    - eapply hosted_frame; [|exact Hh]. apply same_frame_set. exact L.
    - cbn [u_particles set_particles]. rewrite inert_of, V, <- inert_of. exact I.
  Qed.
  Lemma midpoint_ok t dt spin ev ty (err orig : list vlR) n : forall i (final changes : list vlR) u,
    fit spin u -> length err = length (u_particles u) -> length orig = length (u_particles u) -> length final = length (u_particles u) ->
    length changes = length (u_particles u) ->
    exists u' fi ch, midpoint n i t dt spin ev ty err orig final changes u = Ok (u', fi, ch) /\ fit spin u' /\ length (u_particles u') = length (u_particles u)
      /\ length fi = length (u_particles u).
  Proof.
    induction n as [|n IH]; intros i final changes u Hf L1 L2 L3 L4; cbn [midpoint].
    - do 3 eexists. split; [reflexivity|]. auto.
    - destruct (fit_eval t spin ty (ev && Nat.eqb i 0) u Hf) as (u2 & Er & F2 & L5). unfold rates in Er.
      destruct (inertial_to_heliocentric u) as [u1|]; [|discriminate Er]. cbn [rbind] in *. rewrite Er. cbn [rbind].
      set (ch := zip3 _ (u_particles u2) err changes). set (fi := zip3 _ orig ch final).
      assert (Lc : length ch = length (u_particles u)) by (unfold ch; rewrite zip3_len; congruence).
      assert (Lf : length fi = length (u_particles u)) by (unfold fi; rewrite zip3_len; congruence).
      match goal with |- context [if ?b then _ else _] => destruct b end.
      + do 3 eexists. split; [reflexivity|]. auto.
      + set (u3 := set_particles _ u2).
        assert (L6 : length (u_particles u3) = length (u_particles u)) by (unfold u3; cbn [u_particles set_particles]; rewrite zip3_len; congruence).
        assert (F3 : fit spin u3).
        { apply fit_set; [exact F2|rewrite zip3_len; congruence|]. cbn [u_particles set_particles]. apply zip3_view; try congruence.
          intros o f p. unfold average. destruct spin; reflexivity. }
        destruct (IH (S i) fi ch u3 F3) as (u' & fi' & ch' & E & F4 & L7 & L8); try congruence.
        exists u', fi', ch'. split; [exact E|]. split; [exact F4|]. split; congruence.
  Qed.
  Lemma velocity_dependent_ok t dt spin ev (w : whfast R) : fit spin (w_u w) -> sized w ->
    exists w', velocity_dependent t dt spin ev w = Ok w' /\ fit spin (w_u w').
  Proof.
    intros Hf (S1 & S2 & S3). unfold velocity_dependent. cbn zeta.
    destruct (midpoint_ok t dt spin ev (w_type w) (combine (w_verr w) (w_Lerr w)) (map vl_of (u_particles (w_u w))) IMPLICIT_MIDPOINT_MAX_ITER 0
      (map vl_of (u_particles (w_u w))) (map (fun _ => (vzero, vzero)) (map vl_of (u_particles (w_u w)))) (w_u w)) as (u' & fi & ch & E & F' & L & L').
    { exact Hf. } { transitivity (length (w_verr w)); [apply (combine_len (w_verr w)); congruence|exact S2]. } { apply map_length. } { apply map_length. } { now rewrite !map_length. }
    rewrite E. cbn [rbind]. eexists. split; [reflexivity|]. cbn [w_u]. apply fit_set; [exact F'|rewrite map_length, combine_len; congruence|].
    rewrite map_map. transitivity (map (fun x => inert_view (fst x)) (combine (u_particles u') fi)).
    - apply map_ext. intros [p f]. destruct spin; reflexivity.
    - rewrite <- (map_map fst inert_view), map_fst_combine by congruence. reflexivity.
  Qed.
End Plain.

(** ** A star alone *)
Section Lone.
  Context `{Trans R} `{Floor R} `{Fuel}.
  Definition lone (w : whfast R) : Prop :=
    fit false (w_u w) /\ sized w /\ length (u_particles (w_u w)) = 1%nat /\ h_most_massive (u_hosts (w_u w)) = 0%nat /\ u_roche (w_u w) = [[0]].
  Lemma lone_vd t dt ev (w : whfast R) : lone w -> exists w', velocity_dependent t dt false ev w = Ok w' /\ lone w'.
  Proof.
    intros (Hf & Sz & L & Hh & Hr). destruct (velocity_dependent_ok t dt false ev w Hf Sz) as (w' & E & F'). exists w'. split; [exact E|].
    destruct (velocity_dependent_view (fun _ => tt) t dt false ev w w' Sz (blind_step_unit _) (fun _ _ => eq_refl) (fun _ _ _ => eq_refl) E) as (V & (_ & Sh & _ & Sr) & Sz' & _).
    apply view_len in V. unfold lone. rewrite Sh, Sr. repeat split; auto; try apply F'; try apply Sz'. congruence.
  Qed.
  Lemma lone_bodies (w : whfast R) f : lone w -> (forall s, exists p a, f s [] = Ok ((p, a), []) /\ p_inertia p = p_inertia (fst s)) ->
    exists w', with_bodies w f = Ok w' /\ lone w'.
  Proof.
    intros ((P & Ho & I) & (S1 & S2 & S3) & L & Hh & Hr) Hfun.
    destruct (u_particles (w_u w)) as [|s [|]] eqn:El; try discriminate L. destruct (w_alt w) as [|a [|]] eqn:Ea; try discriminate S1.
    unfold with_bodies. rewrite El, Ea, Hh. cbn [combine]. unfold with_host. cbn [length Nat.leb nth_error].
    destruct (Hfun (s, a)) as (p' & a' & E & Ei). change (others 0 [(s, a)]) with (@nil (body R)). 
    unfold body in E |- *. rewrite E. cbn [rbind fst snd reassemble firstn skipn app map].
    eexists. split; [reflexivity|]. unfold lone. cbn [w_u w_alt w_verr w_Lerr u_particles set_particles u_hosts u_roche].
    split; [|split; [|auto]].
    - split; [exact P|]. split.
      + eapply hosted_frame; [|exact Ho]. apply same_frame_set. now rewrite El.
      + cbn [u_particles set_particles map forallb]. cbn [map forallb] in I. rewrite andb_true_r in I. unfold kinert in *. cbn [core k_inertia fst] in *. now rewrite Ei, I.
    - unfold sized. cbn [w_u w_alt w_verr w_Lerr u_particles set_particles length]. auto.
  Qed.
  Lemma lone_gravity ig (w : whfast R) : lone w -> exists u, gravity ig (w_u w) = Ok u /\ lone (WH u (w_alt w) (w_type w) (w_verr w) (w_Lerr w)).
  Proof.
    intros ((P & Ho & I) & Sz & L & Hh & Hr).
    destruct (u_particles (w_u w)) as [|s [|]] eqn:El; try discriminate L. unfold gravity. rewrite El, Hr.
    cbn [length Nat.eqb]. unfold gravities, gon, gp, enumerate. cbn [length seq combine map rmap rfold Nat.eqb rbind].
    eexists. split; [reflexivity|]. unfold lone. cbn [w_u w_alt w_verr w_Lerr u_particles set_particles u_hosts u_roche].
    split; [|split; [|auto]].
    - split; [exact P|]. split.
      + eapply hosted_frame; [|exact Ho]. apply same_frame_set. now rewrite El.
      + exact I.
    - destruct Sz as (A & B & C). unfold sized. rewrite El in *. cbn [w_u w_alt w_verr w_Lerr u_particles set_particles length]. auto.
  Qed.
  Lemma lone_step t dt half (w : whfast R) : lone w -> exists w', wh_step t dt half w = Ok w' /\ lone w'.
  Proof.
    intro L. unfold wh_step. cbn zeta. rewrite (quiet_spin false (w_u w)) by apply L.
    destruct (lone_vd t half true w L) as (w1 & -> & L1). cbn [rbind].
    destruct (lone_bodies w1 (fun star o =>
      let c := w_type w1 in
      let '(star, o) := to_alternative c star o in
      do r <- kepler_steps c half star o;
      let '(star, o) := jump c half (fst r) (snd r) in
      Ok (to_inertial c star o)) L1) as (w2 & E2 & L2).
    { intros [s a]. destruct (w_type w1); do 2 eexists; split; reflexivity. }
    change (part1 half w1 = Ok w2) in E2. rewrite E2. cbn [rbind].
    destruct (lone_gravity (ignored (w_type w2)) w2 L2) as (u3 & E3 & L3). rewrite E3. cbn [rbind].
    destruct (lone_bodies _ (fun star o =>
      let c := w_type w2 in
      let '(star, o) := interaction c dt star o in
      let '(star, o) := jump c half star o in
      do r <- kepler_steps c half star o;
      Ok (to_inertial c (fst r) (snd r))) L3) as (w4 & E4 & L4).
    { intros [s a]. destruct (w_type w2); do 2 eexists; split; reflexivity. }
    match type of E4 with with_bodies ?x _ = _ => change (part2 dt half x = Ok w4) in E4 end. rewrite E4. cbn [rbind].
    destruct (lone_vd t half false w4 L4) as (w5 & -> & L5). eauto.
  Qed.
  Lemma lone_steps dt half n : forall t (w : whfast R), lone w -> exists w', wh_steps n t dt half w = Ok w' /\ lone w'.
  Proof.
    induction n as [|n IH]; intros t w L; cbn [wh_steps]; [eauto|].
    destruct (lone_step t dt half w L) as (w1 & -> & L1). cbn [rbind]. apply IH. exact L1.
  Qed.
  (** the sun drifting along *)
  Definition lone_u (e : effects) : universe R :=
    Universe 0 1 [at_ (Vec (-1) 0 0) (Vec 0 (1/100) 0) sun] [] [] e GrImplDisabled
      (Hosts 0 NO_HOST NO_HOST NO_HOST NO_HOST true false false false false) [] [[0]].
  Lemma lone_u_lone e c : e = no_effects \/ e = wind_effects -> lone (new_whfast (lone_u e) c).
  Proof.
    intro He. unfold lone. split; [|split; [|auto]].
    - split; [destruct He; [left|right]; auto|]. split; [unfold hosted; cbn; lia|].
      cbn [map u_particles lone_u w_u new_whfast forallb]. unfold kinert. cbn [core k_inertia at_ sun p_inertia set_p_ivel set_p_ipos set_p_wind new_particle npow].
      num_simpl. rewrite !(proj2 (Reqb_false _ _)) by lra. reflexivity.
    - unfold sized. cbn. auto.
  Qed.
  Lemma lone_ready c : ready (new_whfast (lone_u no_effects) c).
  Proof.
    destruct (lone_u_lone no_effects c (or_introl eq_refl)) as (_ & Sz & L & _). split; [reflexivity|]. split; [exact Sz|]. split; [reflexivity|]. split; [repeat constructor|].
    exists (at_ (Vec (-1) 0 0) (Vec 0 (1/100) 0) sun). split; [reflexivity|].
    assert (M : p_mass (at_ (Vec (-1) 0 0) (Vec 0 (1/100) 0) sun) = 1) by (cbn; lra).
    set (s := at_ _ _ sun) in *. change (except _ _) with (@nil (particle R)). clearbody s.
    assert (T : forall k, total_mass (s :: firstn k []) <> 0) by (intro k; rewrite firstn_nil; unfold total_mass; cbn; rewrite M; lra).
    specialize (T O) as T0. cbn [firstn] in T0. destruct c; cbn [usable w_type new_whfast]; auto; rewrite ?M; repeat split; auto; lra.
  Qed.
  Lemma lone_run e c n : e = no_effects \/ e = wind_effects -> exists w', wh_steps n 0 1 (1/2) (new_whfast (lone_u e) c) = Ok w'.
  Proof. intro He. destruct (lone_steps 1 (1/2) n 0 _ (lone_u_lone e c He)) as (w' & E & _). eauto. Qed.
End Lone.
