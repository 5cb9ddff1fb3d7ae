(** * Theorems on the system of bodies and the LeapFrog integrator
      (properties C11 to C15, C39, C40, C43, C44, C53, C54) *)
From Coq Require Import Reals Lra Lia List Bool Arith Permutation.
From Verif Require Import Base.Num Base.Result Base.Trans Base.Vec Model.Constants Model.Particle Model.Host
  Model.Interp Model.Disk Model.Creep Model.Tides Model.Flattening Model.Relativity Model.Universe Model.LeapFrog
  Spec.EffectsSpec Spec.UniverseSpec
  Proofs.NumLemmas Proofs.VecLemmas Proofs.GravityProofs Proofs.LeapFrogProofs Proofs.UniverseProofs Proofs.FrameProofs
  Proofs.EffectSums Proofs.UniverseExamples.
Import ListNotations.
Open Scope R_scope.

Section Any.
  (** the functions of libm, the iteration bound and the reader of the evolution tables do not matter *)
  Context `{Trans R} `{Floor R} `{Fuel}.
  Variable mk : evolution R -> R -> R -> evolver R.

  (** ** C11 *)
  Theorem C11_barycentric initial limit (l : list (particle R)) c u :
    Forall (fun p => 0 <= p_mass p) l -> 0 < total_mass l -> new_universe mk initial limit l c = Ok u ->
    length (u_particles u) = length l
    /\ weighted p_ipos (u_particles u) = vzero /\ momentum (u_particles u) = vzero
    /\ forall i j a b a' b', nth_error l i = Some a -> nth_error l j = Some b ->
         nth_error (u_particles u) i = Some a' -> nth_error (u_particles u) j = Some b' ->
         p_mass a' = p_mass a /\ vsub (p_ipos a') (p_ipos b') = vsub (p_hpos a) (p_hpos b)
         /\ vsub (p_ivel a') (p_ivel b') = vsub (p_hvel a) (p_hvel b).
  Proof. exact (new_universe_barycentric mk initial limit l c u). Qed.
  Example C11_example : Forall (fun p => 0 <= p_mass p) [sun; earth] /\ 0 < total_mass [sun; earth]
    /\ exists u, new_universe mk 0 1 [sun; earth] all_effects = Ok u.
  Proof. split; [apply pair_masses|]. split; [apply pair_masses|]. destruct (built mk) as (u & E & _). eauto. Qed.

  (** ** C12 *)
  Theorem C12_newton (u u' : universe R) : roche_square u -> gravity IgnoreNone u = Ok u' ->
    length (u_particles u') = length (u_particles u) /\
    forall i a, nth_error (u_particles u) i = Some a ->
      nth_error (u_particles u') i = Some (set_p_iacc (newton G i a (u_particles u)) a).
  Proof. exact (gravity_newton u u'). Qed.
  (** the premise holds for every universe that is built, before and after its pair table is filled *)
  Theorem C12_square initial limit (l : list (particle R)) c u : new_universe mk initial limit l c = Ok u ->
    roche_square u /\ roche_square (calculate_roche u).
  Proof.
    intro E. destruct (new_universe_shape mk _ _ _ _ _ E) as (l1 & c1 & h & _ & _ & _ & _ & _ & _ & _ & S & _).
    split; [exact S|]. now apply calculate_roche_square.
  Qed.
  Theorem C12_no_force (u u' : universe R) : roche_square u -> gravity IgnoreNone u = Ok u' ->
    net_force gravitational_acc (u_particles u') = vzero /\ net_torque gravitational_acc no_torque (u_particles u') = vzero.
  Proof. intros S E. split; [exact (gravity_no_force u u' S E)|exact (gravity_no_torque u u' S E)]. Qed.
  Theorem C12_displaced q v (u : universe R) :
    gravity IgnoreNone (set_particles (map (displaced q v) (u_particles u)) u)
    = rlift (fun u' => set_particles (map (fun p => set_p_iacc (iso q (p_iacc p)) (displaced q v p)) (u_particles u')) u')
        (gravity IgnoreNone u).
  Proof. exact (gravity_displaced q v IgnoreNone u). Qed.
  Theorem C12_host_free (u1 u2 u1' u2' : universe R) : roche_square u1 -> roche_square u2 ->
    u_particles u1 = u_particles u2 -> gravity IgnoreNone u1 = Ok u1' -> gravity IgnoreNone u2 = Ok u2' ->
    u_particles u1' = u_particles u2'.
  Proof. exact (gravity_host_free u1 u2 u1' u2'). Qed.
  Example C12_example : roche_square ejected_u /\ exists u', gravity IgnoreNone ejected_u = Ok u'.
  Proof. split; [split; [reflexivity|repeat constructor]|exact ejected_unseen]. Qed.

  (** ** C13 *)
  Theorem C13_leapfrog_conserves n t dt half (u u' : universe R) : plain u -> roche_square u -> half = dt / 2 ->
    lf_steps n t dt half u = Ok u' ->
    momentum (u_particles u') = momentum (u_particles u)
    /\ orbital_momentum (u_particles u') = orbital_momentum (u_particles u)
    /\ weighted p_ipos (u_particles u') = vadd (weighted p_ipos (u_particles u)) (vscale (INR n * dt) (momentum (u_particles u))).
  Proof. exact (leapfrog_conserves n t dt half u u'). Qed.
  Example C13_example : plain (pair_u no_effects) /\ roche_square (pair_u no_effects) /\ 1 / 2 = 1 / 2
    /\ exists u', lf_steps 1 0 1 (1 / 2) (pair_u no_effects) = Ok u'.
  Proof. split; [reflexivity|]. split; [apply pair_square|]. split; [reflexivity|exact pair_run]. Qed.

  (** ** C14 *)
  Theorem C14_leapfrog_reversible n t s dt half (u u' : universe R) : plain u -> roche_square u -> hosted u ->
    lf_steps n t dt half u = Ok u' ->
    exists u'', lf_steps n s dt half (set_particles (map reversed (u_particles u')) u') = Ok u''
    /\ map p_ipos (u_particles u'') = map p_ipos (u_particles u)
    /\ map p_ivel (u_particles u'') = map (fun p => vneg (p_ivel p)) (u_particles u).
  Proof. exact (leapfrog_reversible n t s dt half u u'). Qed.
  Example C14_example : plain (pair_u no_effects) /\ roche_square (pair_u no_effects) /\ hosted (pair_u no_effects)
    /\ exists u', lf_steps 1 0 1 (1 / 2) (pair_u no_effects) = Ok u'.
  Proof. split; [reflexivity|]. split; [apply pair_square|]. split; [apply pair_hosted|exact pair_run]. Qed.

  (** ** C15 *)
  Theorem C15_energy (u : universe R) : Forall (fun p => p_mass_g p = G * p_mass p) (u_particles u) ->
    total_energy u = energy G p_hpos p_hvel (u_particles u).
  Proof. exact (total_energy_spec u). Qed.
  Theorem C15_angular_momentum (u : universe R) :
    total_angular_momentum u
    = sqrt (norm2 (Vsum (map (fun p => vscale (p_mass p) (vcross (p_hpos p) (p_hvel p))) (u_particles u)))).
  Proof. exact (total_angular_momentum_spec u). Qed.
  Theorem C15_center_of_mass (l : list (particle R)) : Forall (fun p => 0 <= p_mass p) l -> 0 < total_mass l ->
    center_of_mass l = (mean p_hpos l, mean p_hvel l).
  Proof. exact (com_mean l). Qed.
  Theorem C15_order (u u' : universe R) : Permutation (u_particles u) (u_particles u') ->
    Forall (fun p => p_mass_g p = G * p_mass p) (u_particles u) ->
    Forall (fun p => 0 <= p_mass p) (u_particles u) -> 0 < total_mass (u_particles u) ->
    total_energy u' = total_energy u /\ total_angular_momentum u' = total_angular_momentum u
    /\ center_of_mass (u_particles u') = center_of_mass (u_particles u).
  Proof. exact (totals_order u u'). Qed.
  (** the reported energy is that of the frame of the host: it differs from the
      conserved energy by a term that depends on the velocity of the host *)
  Theorem C15_host_frame X V (l : list (particle R)) :
    Forall (fun p => p_hpos p = vsub (p_ipos p) X /\ p_hvel p = vsub (p_ivel p) V) l ->
    energy G p_hpos p_hvel l = energy G p_ipos p_ivel l + 1 / 2 * total_mass l * norm2 V - vdot V (momentum l).
  Proof. exact (energy_frame G X V l). Qed.
  Example C15_example : Forall (fun p => p_mass_g p = G * p_mass p) [sun; earth] /\ Permutation [sun; earth] [earth; sun].
  Proof.
    split; [|constructor]. constructor; [|constructor; [|constructor]].
    - change (1 * G = G * 1). ring.
    - change (1 / 10 * G = G * (1 / 10)). ring.
  Qed.

  (** ** C39 *)
  Theorem C39_sums t ev dL acc ig (u u' : universe R) : Forall (quiet (u_effects u)) (u_particles u) ->
    additional_effects t ev dL acc ig u = Ok u' ->
    (acc = true -> Forall (fun p => p_iadd p = enabled_acceleration (u_effects u) p) (u_particles u'))
    /\ (if dL && torques_on (u_effects u) (u_gr u)
        then Forall (fun p => p_dL p = enabled_torque (u_effects u) p) (u_particles u')
        else map p_dL (u_particles u') = map p_dL (u_particles u))
    /\ Forall (quiet (u_effects u)) (u_particles u').
  Proof. exact (effects_summed t ev dL acc ig u u'). Qed.
  (** the premise is established when bodies are made and kept by every LeapFrog step *)
  Theorem C39_quiet_kept n t dt half (u u' : universe R) : Forall (quiet (u_effects u)) (u_particles u) ->
    lf_steps n t dt half u = Ok u' -> Forall (quiet (u_effects u)) (u_particles u').
  Proof. exact (leapfrog_quiet n t dt half u u'). Qed.
  Theorem C39_new_body k2 mass radius rg x v s e : quiet e (new_particle (F := R) k2 mass radius rg x v s).
  Proof. unfold quiet, new_particle. repeat split; reflexivity. Qed.
  Example C39_example : Forall (quiet wind_effects) (u_particles (pair_u wind_effects))
    /\ exists u', additional_effects 0 true true true IgnoreNone (pair_u wind_effects) = Ok u'.
  Proof.
    split; [repeat constructor|]. apply wind_eval_ok; [reflexivity|cbn; lia|exact pair_inert].
  Qed.

  (** ** C40 *)
  Theorem C40_refreshed t ev (u u' : universe R) : Forall inertia_ok (u_particles u) -> spin_and_evolving t ev u = Ok u' ->
    Forall (fun p => spin_ok p /\ inertia_ok p) (u_particles u').
  Proof. exact (spins_refreshed t ev u u'). Qed.
  Theorem C40_effects t ev dL acc ig (u u' : universe R) : Forall inertia_ok (u_particles u) -> additional_effects t ev dL acc ig u = Ok u' ->
    Forall (fun p => spin_ok p /\ inertia_ok p) (u_particles u').
  Proof. exact (effects_inertia t ev dL acc ig u u'). Qed.
  Theorem C40_new (k2 mass radius rg : R) x v s : inertia_ok (new_particle k2 mass radius rg x v s).
  Proof. exact (new_particle_inertia k2 mass radius rg x v s). Qed.
  Theorem C40_new_universe initial limit (l : list (particle R)) c u : Forall inertia_ok l ->
    new_universe mk initial limit l c = Ok u -> Forall inertia_ok (u_particles u).
  Proof. exact (new_universe_inertia mk initial limit l c u). Qed.
  Theorem C40_new_universe_spin initial limit (l : list (particle R)) c u : Forall spin_ok l ->
    new_universe mk initial limit l c = Ok u -> Forall spin_ok (u_particles u).
  Proof. exact (new_universe_spin mk initial limit l c u). Qed.
  (** an evolving body starts from the values of its tables, to within 1e-6, with the
      spin given by the user *)
  Theorem C40_start (p p' : particle R) e e' : evolves (p_evo p) = true -> spin_ok p -> start_evolving (p, e) = Ok (p', e') ->
    (exists r g e1, evolver_radius e 0 (p_radius p) = Ok (r, e1) /\ evolver_rg2 e1 0 (p_rg2 p) = Ok (g, e')
      /\ Rabs (r - p_radius p') <= 1 / 1000000 /\ Rabs (g - p_rg2 p') <= 1 / 1000000)
    /\ spin_ok p' /\ p_spin p' = p_spin p.
  Proof. exact (fun He Hs E => conj (start_evolving_close p p' e e' He E) (start_evolving_spin p p' e e' Hs E)). Qed.
  Theorem C40_steps n t dt half (u u' : universe R) : Forall inertia_ok (u_particles u) ->
    lf_steps n t dt half u = Ok u' -> Forall inertia_ok (u_particles u').
  Proof. exact (leapfrog_inertia n t dt half u u'). Qed.
  Example C40_example : Forall inertia_ok (u_particles (pair_u wind_effects))
    /\ exists u', lf_steps 1 0 1 (1 / 2) (pair_u wind_effects) = Ok u'.
  Proof.
    split; [|exact pair_wind_run]. constructor; [|constructor; [|constructor]]; [exact (C40_new G 1 (1/100) (1/2) vzero vzero (Vec 0 0 1))|].
    exact (C40_new G (1/10) (1/100) (1/2) (Vec 10 0 0) (Vec 0 (1/10) 0) (Vec 0 0 1)).
  Qed.

  (** ** C43 *)
  Theorem C43_hosts initial limit (l : list (particle R)) c u :
    (exists p, In p l /\ 0 < p_mass p) -> new_universe mk initial limit l c = Ok u ->
    let h := u_hosts u in
    heaviest l (h_most_massive h)
    /\ (e_tides (u_effects u) = true -> the_only tides_central l (h_tides h))
    /\ (e_rf (u_effects u) = true -> the_only rf_central l (h_rf h) /\ h_tides h = h_rf h)
    /\ (e_gr (u_effects u) = true -> the_only gr_central l (h_gr h) /\ h_gr h = h_most_massive h)
    /\ (e_disk (u_effects u) = true -> (forall p, In p l -> is_disk_central p = true -> disk_central p = true) ->
          the_only is_disk_central l (h_disk h)).
  Proof. exact (universe_hosts mk initial limit l c u). Qed.
  Theorem C43_conflicts initial limit (l : list (particle R)) c :
    two_of tides_central l \/ two_of rf_central l \/ two_of gr_central l \/ two_of is_disk_central l ->
    new_universe mk initial limit l c = Panic PTwoCentral.
  Proof. exact (universe_conflicts mk initial limit l c). Qed.
  Theorem C43_mismatch initial limit (l : list (particle R)) c u i j :
    (length l <= MAX_PARTICLES)%nat -> new_universe mk initial limit l c = Ok u ->
    (e_tides c = true -> e_rf c = true -> the_only tides_central l i -> the_only rf_central l j -> i = j)
    /\ (e_gr c = true -> the_only gr_central l i -> i = most_massive l).
  Proof. exact (universe_mismatch mk initial limit l c u i j). Qed.
  (** no body with a positive mass: the index is out of range *)
  Theorem C43_massless (l : list (particle R)) : Forall (fun p => p_mass p <= 0) l -> most_massive l = NO_HOST.
  Proof. exact (most_massive_none l). Qed.
  Example C43_example : (exists p, In p [earth; sun] /\ 0 < p_mass p) /\ heaviest [earth; sun] 1
    /\ two_of tides_central (repeat (set_p_tides (new_tides (TidesCentral (CreepCoplanar 1))) sun) 2).
  Proof.
    split; [exists sun; split; [right; left; reflexivity|change (0 < 1); lra]|]. split; [|exists 0%nat, 1%nat; do 2 eexists; repeat split; auto].
    exists sun. split; [reflexivity|]. change (p_mass sun) with 1.
    split; intros [|[|j]] q; cbn [nth_error]; intros E; try (destruct j; discriminate E); injection E as <-;
      [change (p_mass earth) with (1 / 10); lra|change (1 <= 1); lra|change (p_mass earth) with (1 / 10); lra|lia].
  Qed.

  (** ** C44 *)
  Theorem C44_roche (u u' : universe R) i j a b : roche_square u -> gravity IgnoreNone (calculate_roche u) = Ok u' ->
    nth_error (u_particles u) i = Some a -> nth_error (u_particles u) j = Some b -> p_mass b < p_mass a ->
    roche_limit (fun x => tpow x (1 / 3)) a b < separation a b /\ p_radius a + p_radius b < separation a b.
  Proof. exact (roche_checked u u' i j a b). Qed.
  (** ejections: bodies listed after the host *)
  Theorem C44_ejection_partial (u u' : universe R) j a b : roche_square u -> gravity IgnoreNone u = Ok u' ->
    nth_error (u_particles u) (h_most_massive (u_hosts u)) = Some a -> nth_error (u_particles u) j = Some b ->
    (h_most_massive (u_hosts u) < j)%nat -> separation a b <= MAX_DISTANCE.
  Proof. exact (ejection_checked u u' j a b). Qed.
  (** a body listed before the host is never found to be ejected *)
  Theorem C44_ejection_refuted : exists (u u' : universe R) a b, roche_square u
    /\ heaviest (u_particles u) (h_most_massive (u_hosts u))
    /\ nth_error (u_particles u) (h_most_massive (u_hosts u)) = Some b /\ nth_error (u_particles u) 0 = Some a
    /\ MAX_DISTANCE < separation a b /\ gravity IgnoreNone u = Ok u'.
  Proof.
    destruct ejected_unseen as (u' & E). exists ejected_u, u', (at_ (Vec 200 0 0) vzero earth), sun.
    split; [apply C12_example|]. split; [exact ejected_heavy|]. split; [reflexivity|]. split; [reflexivity|]. split; [exact ejected_far|exact E].
  Qed.

  (** ** C53 *)
  Theorem C53_relative (u u' : universe R) host i p' : inertial_to_heliocentric u = Ok u' ->
    nth_error (u_particles u) (h_most_massive (u_hosts u)) = Some host ->
    i <> h_most_massive (u_hosts u) -> nth_error (u_particles u') i = Some p' ->
    exists p, nth_error (u_particles u) i = Some p
    /\ relative_to host p (p_hpos p') (p_hvel p') (p_hdist p') (p_hradvel p') (sqrt (norm2 (p_hvel p')))
    /\ p_hnorm p' = sqrt (norm2 (vsub (p_hvel p') (p_hvel host))).
  Proof. exact (heliocentric_most u u' host i p'). Qed.
  (** the speed, when the cached velocity of the host is zero, *)
  Theorem C53_speed_partial (u u' : universe R) host i p' : inertial_to_heliocentric u = Ok u' ->
    nth_error (u_particles u) (h_most_massive (u_hosts u)) = Some host -> p_hvel host = vzero ->
    i <> h_most_massive (u_hosts u) -> nth_error (u_particles u') i = Some p' ->
    exists p, nth_error (u_particles u) i = Some p
    /\ relative_to host p (p_hpos p') (p_hvel p') (p_hdist p') (p_hradvel p') (p_hnorm p') /\ p_hnorm2 p' = norm2 (p_hvel p').
  Proof. exact (heliocentric_refreshed u u' host i p'). Qed.
  (** which every refresh establishes, *)
  Theorem C53_host (u u' : universe R) host : inertial_to_heliocentric u = Ok u' ->
    nth_error (u_particles u) (h_most_massive (u_hosts u)) = Some host ->
    exists host', nth_error (u_particles u') (h_most_massive (u_hosts u')) = Some host' /\ u_hosts u' = u_hosts u
    /\ p_hpos host' = vzero /\ p_hvel host' = vzero /\ p_hdist host' = 0 /\ p_hradvel host' = 0 /\ p_hnorm host' = 0 /\ p_hnorm2 host' = 0
    /\ p_ipos host' = p_ipos host /\ p_ivel host' = p_ivel host.
  Proof. exact (heliocentric_host_zero u u' host). Qed.
  (** but not for every cached state *)
  Theorem C53_speed_refuted : exists (u u' : universe R) p', inertial_to_heliocentric u = Ok u' /\ nth_error (u_particles u') 1 = Some p'
    /\ p_hnorm p' <> sqrt (norm2 (p_hvel p')).
  Proof.
    destruct stale_speed as (u' & p' & E & Ep & V & N). exists stale_u, u', p'. split; [exact E|]. split; [exact Ep|].
    rewrite V, N. replace (norm2 (Vec 1 0 0)) with 1 by (vunfold; ring). rewrite sqrt_1. lra.
  Qed.
  Example C53_example : exists u', inertial_to_heliocentric (pair_u no_effects) = Ok u'
    /\ nth_error (u_particles (pair_u no_effects)) (h_most_massive (u_hosts (pair_u no_effects))) = Some (at_ (Vec (-1) 0 0) (Vec 0 (-1/100) 0) sun)
    /\ p_hvel (at_ (Vec (-1) 0 0) (Vec 0 (-1/100) 0) sun) = vzero.
  Proof. destruct (i2h_ok (pair_u no_effects) (pair_hosted _)) as (u' & E). exists u'. split; [exact E|]. split; reflexivity. Qed.

  (** ** C54: LeapFrog *)
  Theorem C54_leapfrog_partial n t dt half (u u' : universe R) i p : wind_only u -> length (u_roche u) = length (u_particles u) -> 0 < half ->
    nth_error (u_particles u) i = Some p -> braked half (rotation p) ->
    lf_steps (S n) t dt half u = Ok u' ->
    exists p' f, nth_error (u_particles u') i = Some p' /\ 0 < f < 1 /\ p_L p' = vscale f (p_L p) /\ p_inertia p' = p_inertia p.
  Proof. exact (wind_slows n t dt half u u' i p). Qed.
  Example C54_example : wind_only (pair_u wind_effects)
    /\ nth_error (u_particles (pair_u wind_effects)) 0 = Some (at_ (Vec (-1) 0 0) (Vec 0 (-1/100) 0) sun)
    /\ braked (1 / 2) (rotation (at_ (Vec (-1) 0 0) (Vec 0 (-1/100) 0) sun))
    /\ exists u', lf_steps 1 0 1 (1 / 2) (pair_u wind_effects) = Ok u'.
  Proof. split; [reflexivity|]. split; [reflexivity|]. split; [exact pair_braked|exact pair_wind_run]. Qed.
End Any.

Print Assumptions C11_barycentric.
Print Assumptions C12_newton.
Print Assumptions C12_square.
Print Assumptions C12_no_force.
Print Assumptions C12_displaced.
Print Assumptions C12_host_free.
Print Assumptions C13_leapfrog_conserves.
Print Assumptions C14_leapfrog_reversible.
Print Assumptions C15_energy.
Print Assumptions C15_angular_momentum.
Print Assumptions C15_center_of_mass.
Print Assumptions C15_order.
Print Assumptions C15_host_frame.
Print Assumptions C39_sums.
Print Assumptions C39_quiet_kept.
Print Assumptions C39_new_body.
Print Assumptions C40_refreshed.
Print Assumptions C40_effects.
Print Assumptions C40_new.
Print Assumptions C40_new_universe.
Print Assumptions C40_new_universe_spin.
Print Assumptions C40_start.
Print Assumptions C40_steps.
Print Assumptions C43_hosts.
Print Assumptions C43_conflicts.
Print Assumptions C43_mismatch.
Print Assumptions C43_massless.
Print Assumptions C44_roche.
Print Assumptions C44_ejection_partial.
Print Assumptions C44_ejection_refuted.
Print Assumptions C53_relative.
Print Assumptions C53_speed_partial.
Print Assumptions C53_host.
Print Assumptions C53_speed_refuted.
Print Assumptions C54_leapfrog_partial.
