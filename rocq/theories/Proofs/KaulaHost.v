(** The torque of the Kaula model on a host with several planets *)
From Coq Require Import Reals List Lra Lia Bool Arith ZArith.
From Verif Require Import Base.Num Base.Result Base.Trans Base.Vec Model.Constants Model.Particle Model.Tools Model.Kaula
  Model.Creep Model.Tides
  Spec.EffectsSpec Spec.KaulaSpec Spec.KaulaTorqueSpec Proofs.NumLemmas Proofs.VecLemmas Proofs.TidesExamples
  Proofs.KaulaTables Proofs.KaulaLove Proofs.KaulaForce Proofs.KaulaBranches
  Spec.OrbitSpec Proofs.OrbitElements Proofs.Spherical Proofs.KaulaTorque.
Import ListNotations.
Open Scope R_scope.

(** what a planet keeps: everything but its tidal data, of which the position *)
Definition same_planet (p q : particle R) : Prop :=
  exists t, q = set_p_tides t p /\ t_pos t = t_pos (p_tides p) /\ t_distance t = t_distance (p_tides p).
(** the host with a remembered force *)
Definition same_star (par : kaula_params R) (f : vec R) (s t : particle R) : Prop :=
  exists d, t = set_p_tides d s /\ t_effect d = TidesCentral (Kaula (set_kl_force f par)).

Lemma same_planet_refl p : same_planet p p.
Proof. exists (p_tides p). destruct p. repeat split. Qed.
Lemma same_planet_trans p q r : same_planet p q -> same_planet q r -> same_planet p r.
Proof.
  intros (t & -> & A & B) (u & -> & C & D). exists u. split; [destruct p; reflexivity|].
  cbn [p_tides set_p_tides] in C, D. split; congruence.
Qed.
Lemma same_planet_on f p : (forall t, t_pos (f t) = t_pos t /\ t_distance (f t) = t_distance t) -> same_planet p (on_tides f p).
Proof. intros H. exists (f (p_tides p)). split; [reflexivity|]. apply H. Qed.

Lemma stellar_radial planet star t d els par f :
  kaula_radial (F := R) (set_p_tides t planet) (set_p_tides d star) els true (set_kl_force f par)
  = kaula_radial (F := R) planet star els true par.
Proof. reflexivity. Qed.
Lemma stellar_normal planet star t d els par f :
  kaula_normal (F := R) (set_p_tides t planet) (set_p_tides d star) els true (set_kl_force f par)
  = kaula_normal (F := R) planet star els true par.
Proof. reflexivity. Qed.
Lemma stellar_orthogonal planet star t d els par f : t_pos t = t_pos (p_tides planet) ->
  kaula_orthogonal (F := R) (set_p_tides t planet) (set_p_tides d star) els true (set_kl_force f par)
  = kaula_orthogonal (F := R) planet star els true par.
Proof.
  intros H. unfold kaula_orthogonal.
  change (kaula_orbit (F := R) (set_p_tides t planet) (set_p_tides d star) els true)
    with (kaula_orbit (F := R) planet star els true).
  set (o := kaula_orbit planet star els true).
  assert (E : orthogonal_planar (F := R) (set_p_tides t planet) (set_p_tides d star) o true (set_kl_force f par)
     = orthogonal_planar (F := R) planet star o true par).
  { unfold orthogonal_planar. cbn [p_tides set_p_tides]. rewrite H. reflexivity. }
  rewrite E. reflexivity.
Qed.

Lemma stellar_force par f (star planet s q : particle R) :
  t_effect (p_tides star) = TidesCentral (Kaula par) -> same_star par f star s -> same_planet planet q ->
  exists g q' s', kaula_force (F := R) q s true = Ok (g, q', s')
    /\ same_planet planet q' /\ same_star par (pull star planet) star s'.
Proof.
  intros Hs (d & -> & Hd) (t & -> & Hp & Hdist). unfold pull, kaula_force.
  cbn [p_tides set_p_tides]. rewrite Hd, Hs. cbn [kaula_of].
  cbn zeta. rewrite Hp, Hdist.
  change (p_mass (set_p_tides t planet)) with (p_mass planet). change (p_mass (set_p_tides d star)) with (p_mass star).
  change (p_hpos (set_p_tides t planet)) with (p_hpos planet). change (p_hvel (set_p_tides t planet)) with (p_hvel planet).
  rewrite stellar_radial, stellar_normal, stellar_orthogonal by exact Hp.
  destruct (kaula_radial _ _ _ _ _) as [ra ra']. destruct (kaula_normal _ _ _ _ _) as [no no'].
  destruct (kaula_orthogonal _ _ _ _ _) as [eo eo'].
  do 3 eexists. split; [reflexivity|]. split.
  - eexists. split; [reflexivity|]. cbn [t_pos t_distance set_t_orth_star p_tides set_p_tides]. split; assumption.
  - eexists. split; [reflexivity|]. reflexivity.
Qed.

Section Host.
Context `{FU : Fuel}.

(** the loop over the planets *)
Lemma stellar_loop k par (star : particle R) ps : forall qs f s seen seen0 r,
  t_effect (p_tides star) = TidesCentral (Kaula par) -> same_star par f star s ->
  Forall2 same_planet ps qs -> Forall2 same_planet seen0 seen ->
  rfold (tides_stellar_step k) qs (s, seen) = Ok r ->
  same_star par (last (map (pull star) ps) f) star (fst r) /\ Forall2 same_planet (seen0 ++ ps) (snd r).
Proof.
  induction ps as [|p ps IH]; intros qs f s seen seen0 r Hs Ss Hq Hseen E.
  - inversion Hq; subst. cbn [rfold] in E. injection E as <-. rewrite app_nil_r. split; assumption.
  - inversion Hq as [|? q ? qs' Hpq Hqs]; subst. cbn [rfold] in E.
    destruct (stellar_force par f star p s q Hs Ss Hpq) as (g & q' & s' & K & Sq & Ss').
    unfold tides_stellar_step at 1 in E. rewrite K in E. cbn [rbind] in E.
    eapply (IH _ (pull star p) _ _ (seen0 ++ [p])) in E; [|exact Hs| |exact Hqs|].
    + destruct E as [E1 E2]. split.
      * replace (last (map (pull star) (p :: ps)) f) with (last (map (pull star) ps) (pull star p)); [exact E1|].
        cbn [map]. generalize (pull star p), (map (pull star) ps). intros a l. clear.
        destruct l as [|b l]; [reflexivity|]. revert b. induction l as [|c l IH]; intros b; [reflexivity|].
        cbn [last] in *. apply IH.
      * rewrite <- app_assoc in E2. exact E2.
    + destruct Ss' as (d & -> & Hd). eexists. split; [reflexivity|]. exact Hd.
    + apply Forall2_app; [exact Hseen|]. constructor; [|constructor].
      eapply same_planet_trans; [exact Sq|]. apply same_planet_on. intros t. split; reflexivity.
Qed.

(** the first loop leaves the host alone and the planets where they are *)
Lemma planet_loop : forall ps (total : vec R) (host : particle R) seen0 seen r,
  Forall2 same_planet seen0 seen ->
  rfold tides_acceleration_step ps (total, host, seen) = Ok r ->
  snd (fst r) = host /\ Forall2 same_planet (seen0 ++ ps) (snd r).
Proof.
  induction ps as [|p ps IH]; intros total host seen0 seen r Hs E; cbn [rfold] in E.
  - injection E as <-. rewrite app_nil_r. split; [reflexivity|exact Hs].
  - destruct (tides_acceleration_step (total, host, seen) p) as [[[t' h'] seen']|] eqn:S; [|discriminate].
    cbn [rbind] in E.
    assert (H : h' = host /\ Forall2 same_planet (seen0 ++ [p]) seen').
    { unfold tides_acceleration_step in S. destruct (t_effect (p_tides p)) as [m|m|] eqn:Ef.
      - injection S as _ <- <-. split; [reflexivity|]. apply Forall2_app; [exact Hs|]. repeat constructor. apply same_planet_refl.
      - destruct m as [c|c|c]; cbn [model_force rbind] in S.
        + injection S as _ <- <-. split; [reflexivity|]. apply Forall2_app; [exact Hs|]. repeat constructor.
          apply same_planet_on. intros t; split; reflexivity.
        + injection S as _ <- <-. split; [reflexivity|]. apply Forall2_app; [exact Hs|]. repeat constructor.
          apply same_planet_on. intros t; split; reflexivity.
        + unfold kaula_force in S. rewrite Ef in S. cbn [kaula_of] in S. cbn zeta in S.
          destruct (kaula_radial _ _ _ _ _) as [ra ra']. destruct (kaula_normal _ _ _ _ _) as [no no'].
          destruct (kaula_orthogonal _ _ _ _ _) as [eo eo']. cbn [rbind] in S.
          injection S as _ <- <-. split; [reflexivity|]. apply Forall2_app; [exact Hs|]. repeat constructor.
          eexists. split; [reflexivity|]. split; reflexivity.
      - injection S as _ <- <-. split; [reflexivity|]. apply Forall2_app; [exact Hs|]. repeat constructor. apply same_planet_refl. }
    destruct H as [-> H]. destruct (IH _ _ _ _ _ H E) as [A B]. split; [exact A|].
    rewrite <- app_assoc in B. exact B.
Qed.

Lemma host_dL_loop (host : particle R) q ps : forall (acc s : vec R),
  t_effect (p_tides host) = TidesCentral (Kaula q) ->
  rfold (tides_host_dL_step host) ps acc = Ok s ->
  s = vadd acc (Vsum (map (fun p => vcross (t_pos (p_tides p)) (kl_force q)) ps)).
Proof.
  induction ps as [|p ps IH]; intros acc s Hh E; cbn [rfold] in E.
  - injection E as <-. cbn [map Vsum fold_right]. symmetry. apply vadd_0_r.
  - unfold tides_host_dL_step at 1 in E. rewrite Hh in E. unfold model_torque, kaula_torque in E. rewrite Hh in E.
    cbn [rbind] in E. rewrite (IH _ _ Hh E). cbn [map Vsum fold_right]. fold (Vsum (map (fun p => vcross (t_pos (p_tides p)) (kl_force q)) ps)).
    generalize (Vsum (map (fun p => vcross (t_pos (p_tides p)) (kl_force q)) ps)). intros S.
    generalize (t_pos (p_tides p)), (kl_force q). clear. vring.
Qed.
Lemma planet_dL_same (host : particle R) ps : forall qs,
  rmap (tides_planet_dL host) ps = Ok qs -> Forall2 same_planet ps qs.
Proof.
  induction ps as [|p ps IH]; intros qs E; cbn [rmap] in E; [injection E as <-; constructor|].
  destruct (tides_planet_dL host p) as [q|] eqn:K; [|discriminate]. cbn [rbind] in E.
  destruct (rmap (tides_planet_dL host) ps) as [qs'|] eqn:M; [|discriminate]. injection E as <-.
  constructor; [|apply IH; reflexivity].
  unfold tides_planet_dL in K. destruct (t_effect (p_tides p)) as [m|m|]; try (injection K as <-; apply same_planet_refl).
  destruct (model_torque m host p false); [|discriminate]. injection K as <-. apply same_planet_on. intros t. split; reflexivity.
Qed.
Lemma Vsum_positions f : forall ps qs, Forall2 same_planet ps qs ->
  Vsum (map (fun p => vcross (t_pos (p_tides p)) f) qs) = Vsum (map (fun p => vcross (t_pos (p_tides p)) f) ps).
Proof.
  induction 1 as [|p q ps qs (t & -> & A & _) _ IH]; [reflexivity|]. cbn [map Vsum fold_right]. unfold Vsum in IH. rewrite IH.
  cbn [p_tides set_p_tides]. rewrite A. reflexivity.
Qed.

Theorem host_torque par (host : particle R) ps h' l' h'' l'' :
  t_effect (p_tides host) = TidesCentral (Kaula par) ->
  tides_acceleration host ps = Ok (h', l') -> tides_dangular_momentum_dt h' l' = Ok (h'', l'') ->
  t_dL (p_tides h'')
  = Vsum (map (fun p => vcross (t_pos (p_tides p)) (last (map (pull host) ps) (kl_force par))) ps).
Proof.
  intros Hh A B. unfold tides_acceleration in A.
  destruct (rfold tides_acceleration_step ps (vzero, host, [])) as [[[t h] l]|] eqn:L; [|discriminate]. cbn [rbind] in A.
  destruct (planet_loop ps vzero host [] [] _ (Forall2_nil _) L) as [Eh Hl]. cbn [fst snd app] in Eh, Hl. subst h.
  set (h0 := on_tides (set_t_acc (vscale (- n1 * (n1 / p_mass host))%num t)) host) in *.
  change (t_effect (p_tides h0)) with (t_effect (p_tides host)) in A. rewrite Hh in A.
  eapply (stellar_loop _ par host ps l (kl_force par) h0 [] [] (h', l') Hh) in A; [|eexists; split; [reflexivity|]|exact Hl|constructor].
  2:{ cbn [t_effect set_t_acc]. rewrite Hh. destruct par. reflexivity. }
  cbn [fst snd app] in A. destruct A as [(d & -> & Hd) Hl'].
  unfold tides_dangular_momentum_dt in B.
  destruct (rmap (tides_planet_dL (set_p_tides d host)) l') as [l3|] eqn:M; [|discriminate]. cbn [rbind] in B.
  destruct (rfold (tides_host_dL_step (set_p_tides d host)) l3 vzero) as [s|] eqn:S; [|discriminate]. cbn [rbind] in B.
  injection B as <- _. cbn [on_tides p_tides set_p_tides t_dL set_t_dL].
  rewrite (host_dL_loop (set_p_tides d host) _ _ _ _ Hd S). rewrite (Vsum_positions _ _ _ (planet_dL_same _ _ _ M)), (Vsum_positions _ _ _ Hl').
  cbn [kl_force set_kl_force]. generalize (Vsum (map (fun p => vcross (t_pos (p_tides p)) (last (map (pull host) ps) (kl_force par))) ps)).
  intros w. apply vadd_0_l.
Qed.

(** nothing stops the calculation *)
Lemma planet_loop_ok : forall ps (total : vec R) (host : particle R) seen, Forall kaula_planet ps -> Forall kaula_planet seen ->
  exists r, rfold tides_acceleration_step ps (total, host, seen) = Ok r /\ Forall kaula_planet (snd r).
Proof.
  induction ps as [|p ps IH]; intros total host seen Hp Hs; cbn [rfold]; [eexists; split; [reflexivity|exact Hs]|].
  inversion Hp as [|? ? (q & Hq) Hps]; subst. unfold tides_acceleration_step at 1. rewrite Hq. cbn [model_force].
  unfold kaula_force. rewrite Hq. cbn [kaula_of]. cbn zeta.
  destruct (kaula_radial _ _ _ _ _) as [ra ra']. destruct (kaula_normal _ _ _ _ _) as [no no'].
  destruct (kaula_orthogonal _ _ _ _ _) as [eo eo']. cbn [rbind].
  apply IH; [exact Hps|]. apply Forall_app. split; [exact Hs|]. constructor; [|constructor].
  eexists. cbn [on_tides p_tides set_p_tides t_effect set_t_effect set_t_acc set_t_orth_planet]. rewrite Hq. reflexivity.
Qed.
Lemma stellar_loop_ok k ps : forall (s : particle R) seen par, t_effect (p_tides s) = TidesCentral (Kaula par) ->
  Forall kaula_planet ps -> Forall kaula_planet seen ->
  exists r, rfold (tides_stellar_step k) ps (s, seen) = Ok r /\ Forall kaula_planet (snd r)
    /\ exists par', t_effect (p_tides (fst r)) = TidesCentral (Kaula par').
Proof.
  induction ps as [|p ps IH]; intros s seen par He Hp Hs; cbn [rfold].
  - eexists. split; [reflexivity|]. split; [exact Hs|]. eexists. exact He.
  - inversion Hp as [|? ? (q & Hq) Hps]; subst. unfold tides_stellar_step at 1. unfold kaula_force. rewrite He. cbn [kaula_of]. cbn zeta.
    destruct (kaula_radial _ _ _ _ _) as [ra ra']. destruct (kaula_normal _ _ _ _ _) as [no no'].
    destruct (kaula_orthogonal _ _ _ _ _) as [eo eo']. cbn [rbind].
    eapply IH; [|exact Hps|].
    + cbn [on_tides p_tides set_p_tides t_effect set_t_effect set_t_acc set_t_orth_planet]. reflexivity.
    + apply Forall_app. split; [exact Hs|]. constructor; [|constructor].
      exists q. cbn [on_tides p_tides set_p_tides t_effect set_t_effect set_t_acc set_t_orth_star]. exact Hq.
Qed.
Lemma dL_ok (host : particle R) ps par : t_effect (p_tides host) = TidesCentral (Kaula par) -> Forall kaula_planet ps ->
  exists r, tides_dangular_momentum_dt host ps = Ok r.
Proof.
  intros He Hp. unfold tides_dangular_momentum_dt.
  assert (A : forall l, Forall kaula_planet l -> exists l', rmap (tides_planet_dL host) l = Ok l').
  { induction 1 as [|p l (q & Hq) _ (l' & IH)]; cbn [rmap]; [eexists; reflexivity|].
    unfold tides_planet_dL at 1. rewrite Hq. cbn [model_torque]. unfold kaula_torque. rewrite Hq. cbn [rbind]. rewrite IH. eexists. reflexivity. }
  destruct (A ps Hp) as (l' & ->). cbn [rbind].
  assert (B : forall l (a : vec R), exists s, rfold (tides_host_dL_step host) l a = Ok s).
  { induction l as [|p l IH]; intros a; cbn [rfold]; [eexists; reflexivity|].
    unfold tides_host_dL_step at 1. rewrite He. cbn [model_torque]. unfold kaula_torque. rewrite He. cbn [rbind]. apply IH. }
  destruct (B l' vzero) as (s & ->). eexists. reflexivity.
Qed.
Lemma host_runs par (host : particle R) ps : t_effect (p_tides host) = TidesCentral (Kaula par) -> Forall kaula_planet ps ->
  exists h' l' h'' l'', tides_acceleration host ps = Ok (h', l') /\ tides_dangular_momentum_dt h' l' = Ok (h'', l'').
Proof.
  intros He Hp. unfold tides_acceleration.
  destruct (planet_loop_ok ps vzero host [] Hp (Forall_nil _)) as ([[t h] l] & L & Hl). rewrite L. cbn [rbind].
  destruct (planet_loop ps vzero host [] [] _ (Forall2_nil _) L) as [Eh _]. cbn [fst snd] in Eh, Hl. subst h.
  match goal with |- context [t_effect (p_tides ?h)] => change (t_effect (p_tides h)) with (t_effect (p_tides host)) end.
  rewrite He.
  match goal with |- context [rfold (tides_stellar_step ?k) l (?h, [])] =>
    destruct (stellar_loop_ok k l h [] par He Hl (Forall_nil _)) as ([h' l'] & -> & Hl' & (par' & He')) end.
  cbn [fst snd] in Hl', He'. destruct (dL_ok h' l' par' He' Hl') as ([h'' l''] & E). do 4 eexists. split; [reflexivity|exact E].
Qed.
End Host.

(** ** Two planets on opposite sides *)
Definition speed : R := sqrt (G * (1 + 1)).
Definition wit_star : particle R := set_p_tides (new_tides (TidesCentral (Kaula (one_point 1 1)))) unit_star.
Definition wit_planet (s : R) : particle R :=
  set_p_hpos (Vec s 0 0) (set_p_hvel (Vec 0 (s * speed) 0)
    (set_p_tides (set_t_pos (Vec s 0 0) (set_t_distance 1 (new_tides (TidesOrbiting (Kaula (one_point 1 1)))))) unit_star)).

Lemma wit_length s : s * s = 1 -> length3 (Vec s 0 0) = 1.
Proof. intros H. unfold length3. cbn [vx vy vz]. replace (s * s + 0 * 0 + 0 * 0) with 1 by lra. apply sqrt_1. Qed.
Lemma wit_circles s : s * s = 1 -> circles (G * (1 + 1)) (Vec s 0 0) (Vec 0 (s * speed) 0).
Proof.
  intros H. pose proof G_pos as P. unfold circles. rewrite (wit_length s H). unfold dot. cbn [vx vy vz].
  assert (S : speed * speed = G * (1 + 1)) by (apply sqrt_sqrt; lra).
  assert (S0 : 0 < speed) by (apply sqrt_lt_R0; lra).
  repeat split; try lra.
  - transitivity (s * s * (speed * speed)); [ring|]. rewrite H, S. ring.
  - replace (s * (s * speed) - 0 * 0) with (s * s * speed) by ring. rewrite H. lra.
Qed.
Lemma wit_orthogonal s : s * s = 1 ->
  let els := keplerian_elements (F := R) (G * (1 + 1)) (Vec s 0 0) (Vec 0 (s * speed) 0) in
  snd (kaula_orthogonal (F := R) (wit_planet s) wit_star els true (one_point 1 1)) = 3 / 2 * G.
Proof.
  intros H els. pose proof (wit_circles s H) as C. pose proof G_pos as P. assert (P2 : 0 < G * (1 + 1)) by lra.
  unfold kaula_orthogonal. set (o := kaula_orbit (F := R) (wit_planet s) wit_star els true).
  assert (O : ob_obliquity o = 0) by (apply (circle_obliquity _ _ _ P2 C 1); lra).
  assert (E : ob_e o = 0) by exact (circle_e _ _ _ P2 C).
  assert (A : ob_a o = 1) by (transitivity (length3 (Vec s 0 0)); [exact (circle_a _ _ _ P2 C)|exact (wit_length s H)]).
  num_simpl. rewrite O, (proj2 (Rleb_true _ _)) by lra.
  unfold orthogonal_planar. rewrite E. num_simpl. rewrite (proj2 (Reqb_true _ _)) by reflexivity.
  unfold orthogonal_circular. num_simpl. rewrite love_one_central. cbn [snd].
  rewrite A. unfold raised_by. clear - H. generalize (@G R _). intros g.
  cbn [wit_planet wit_star unit_star p_tides set_p_tides set_p_hpos set_p_hvel t_pos set_t_pos p_mass p_radius p_hdist set_p_hdist new_particle].
  assert (Q : sqrt (npow (F := R) (vx (Vec s 0 0)) 2 + npow (F := R) (vy (Vec s 0 0)) 2) = 1).
  { cbn [vx vy npow]. num_simpl. replace (s * s + 0 * 0) with 1 by lra. apply sqrt_1. }
  assert (Q2 : sqrt (norm2 (F := R) (Vec s 0 0)) = 1).
  { unfold norm2. cbn [vx vy vz npow]. num_simpl. replace (s * s + 0 * 0 + 0 * 0) with 1 by lra. apply sqrt_1. }
  num_simpl. rewrite Q, Q2. cbn [npow]. num_simpl. field.
Qed.
Lemma wit_normal s : s * s = 1 ->
  let els := keplerian_elements (F := R) (G * (1 + 1)) (Vec s 0 0) (Vec 0 (s * speed) 0) in
  snd (kaula_normal (F := R) (wit_planet s) wit_star els true (one_point 1 1)) = 0.
Proof.
  intros H els. pose proof (wit_circles s H) as C. pose proof G_pos as P. assert (P2 : 0 < G * (1 + 1)) by lra.
  unfold kaula_normal.
  assert (O : ob_obliquity (kaula_orbit (F := R) (wit_planet s) wit_star els true) = 0) by (apply (circle_obliquity _ _ _ P2 C 1); lra).
  num_simpl. rewrite O, (proj2 (Rleb_true _ _)) by lra. reflexivity.
Qed.
Lemma wit_pull s : s * s = 1 -> vcross (Vec s 0 0) (pull wit_star (wit_planet s)) = Vec 0 0 (3 / 2 * G).
Proof.
  intros H. unfold pull.
  destruct (stellar_force (one_point 1 1) (Vec 0 0 0) wit_star (wit_planet s) wit_star (wit_planet s)) as (g & q' & s' & K & _ & S').
  { reflexivity. }
  { exists (p_tides wit_star). split; reflexivity. }
  { apply same_planet_refl. }
  rewrite K.
  pose proof (force_components (wit_planet s) wit_star true _ _ _ K) as (par & Hp & _ & _ & _ & C).
  { symmetry. exact (wit_length s H). }
  { change (0 < s * s + 0 * 0). lra. }
  assert (par = one_point 1 1) as -> by (injection Hp as <-; reflexivity).
  cbn zeta in C. destruct C as (_ & C2 & C3).
  rewrite (wit_orthogonal s H : snd (kaula_orthogonal (F := R) (wit_planet s) wit_star
    (keplerian_elements (F := R) (G * (p_mass (wit_planet s) + p_mass wit_star)) (p_hpos (wit_planet s)) (p_hvel (wit_planet s))) true (one_point 1 1)) = _) in C3.
  rewrite (wit_normal s H : snd (kaula_normal (F := R) (wit_planet s) wit_star
    (keplerian_elements (F := R) (G * (p_mass (wit_planet s) + p_mass wit_star)) (p_hpos (wit_planet s)) (p_hvel (wit_planet s))) true (one_point 1 1)) = _) in C2.
  generalize dependent (remembered s'). intros F C2 C3.
  change (t_pos (p_tides (wit_planet s))) with (Vec s 0 0) in C2, C3.
  revert C2 C3. unfold southwards, eastwards, outwards. rewrite (wit_length s H). cbn [vx vy vz].
  replace (sqrt (s * s + 0 * 0)) with 1 by (replace (s * s + 0 * 0) with 1 by lra; symmetry; apply sqrt_1).
  rewrite Rinv_1. unfold dot, cross, times. cbn [vx vy vz]. generalize (@G R _). intros g0 C2 C3.
  unfold vcross. cbn [vx vy vz]. num_simpl.
  assert (Z : vz F = 0) by (clear - C2 H; assert (E : vz F * (s * s) = 0) by lra; rewrite H in E; lra).
  rewrite Z. f_equal; try ring. lra.
Qed.

Section Witness.
Context `{FU : Fuel}.
Lemma opposite_planets par (host p q : particle R) h' l' h'' l'' :
  t_effect (p_tides host) = TidesCentral (Kaula par) -> t_pos (p_tides q) = vneg (t_pos (p_tides p)) ->
  tides_acceleration host [p; q] = Ok (h', l') -> tides_dangular_momentum_dt h' l' = Ok (h'', l'') ->
  t_dL (p_tides h'') = Vec 0 0 0.
Proof.
  intros Hh Hq A B. rewrite (host_torque par host [p; q] h' l' h'' l'' Hh A B). cbn [map Vsum fold_right last].
  rewrite Hq. generalize (t_pos (p_tides p)), (pull host q). clear. vring.
Qed.
Lemma wit_alone s : s * s = 1 -> exists h' l' h'' l'',
  tides_acceleration wit_star [wit_planet s] = Ok (h', l') /\ tides_dangular_momentum_dt h' l' = Ok (h'', l'')
  /\ t_dL (p_tides h'') = Vec 0 0 (3 / 2 * G).
Proof.
  intros H. destruct (host_runs (one_point 1 1) wit_star [wit_planet s]) as (h' & l' & h'' & l'' & A & B).
  { reflexivity. } { constructor; [|constructor]. eexists. reflexivity. }
  exists h', l', h'', l''. split; [exact A|]. split; [exact B|].
  rewrite (host_torque (one_point 1 1) wit_star [wit_planet s] h' l' h'' l'' eq_refl A B). cbn [map Vsum fold_right last].
  change (t_pos (p_tides (wit_planet s))) with (Vec s 0 0). rewrite (wit_pull s H). apply vadd_0_r.
Qed.
Lemma wit_together : exists h' l' h'' l'',
  tides_acceleration wit_star [wit_planet 1; wit_planet (-1)] = Ok (h', l') /\ tides_dangular_momentum_dt h' l' = Ok (h'', l'')
  /\ t_dL (p_tides h'') = Vec 0 0 0.
Proof.
  destruct (host_runs (one_point 1 1) wit_star [wit_planet 1; wit_planet (-1)]) as (h' & l' & h'' & l'' & A & B).
  { reflexivity. } { repeat constructor; eexists; reflexivity. }
  exists h', l', h'', l''. split; [exact A|]. split; [exact B|].
  refine (opposite_planets (one_point 1 1) wit_star (wit_planet 1) (wit_planet (-1)) h' l' h'' l'' eq_refl _ A B).
  change (Vec (-1) 0 0 = vneg (Vec 1 0 0) :> vec R). vunfold. f_equal; lra.
Qed.
End Witness.
