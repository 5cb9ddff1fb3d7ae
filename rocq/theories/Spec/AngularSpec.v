(** * The total angular momentum with tides and flattening (C72) *)
From Coq Require Import Reals List Bool.
From Verif Require Import Base.Num Base.Result Base.Trans Base.Vec Model.Particle Model.Host Model.Creep Model.Relativity Model.Universe Model.LeapFrog Spec.EffectsSpec Spec.UniverseSpec.
Import ListNotations.
Open Scope R_scope.

(** of the orbits and of the rotations, about the origin of the inertial frame *)
Definition whole_momentum (l : list (particle R)) : vec R :=
  Vsum (map (fun p => vadd (vscale (p_mass p) (vcross (p_ipos p) (p_ivel p))) (p_L p)) l).
(** sum of the torques on the rotations *)
Definition spin_torque (l : list (particle R)) : vec R := Vsum (map p_dL l).

(** Torque of a constant-time-lag tide raised in a body of radius [radius] and dissipation
    factor [sigma] by a companion of mass [mass] at [r], for the part of the rotation [w] that
    lies along [r]: it vanishes, because the rotation about the line between two bodies is
    not slowed down by the tide.  This is the coefficient with which an error of that part enters. *)
Definition along_torque (sigma radius mass : R) (w r : vec R) : vec R :=
  let d := sqrt (norm2 r) in
  vscale (9 / 2 * sigma * mass ^ 2 * radius ^ 10 / d ^ 7 / d * vdot r w) r.
(** for a host and a body with tides, when the rotations used along the line were [wh] and
    [wp] instead of those of the bodies *)
Definition stale_torque (wh : vec R) (h : particle R) (wp : vec R) (p : particle R) : vec R :=
  let r := vsub (p_ipos p) (p_ipos h) in
  ctl_only vzero (fun _ => vadd (along_torque (t_sigma (p_tides h)) (p_radius h) (p_mass p) (vsub wh (p_spin h)) r)
                                (along_torque (t_sigma (p_tides p)) (p_radius p) (p_mass h) (vsub wp (p_spin p)) r)) p.

(** The bodies when an evaluation ends, [l], against the rotations stored when it began. *)
Definition stale_torques (i : nat) (before after : list (particle R)) : vec R :=
  match nth_error before i, nth_error after i with
  | Some hb, Some ha => Vsum (map (fun bp => stale_torque (p_spin hb) ha (p_spin (fst bp)) (snd bp))
                                  (combine (others i before) (others i after)))
  | _, _ => vzero
  end.

(** a host with constant-time-lag tides, the others with such tides or none *)
Definition lag_host (h : particle R) : Prop := exists c, t_effect (p_tides h) = TidesCentral (ConstantTimeLag c).
Definition lag_or_none (p : particle R) : Prop :=
  (exists c, t_effect (p_tides p) = TidesOrbiting (ConstantTimeLag c)) \/
  (t_effect (p_tides p) = TidesDisabled /\ t_acc (p_tides p) = vzero /\ t_dL (p_tides p) = vzero /\ t_orth_star (p_tides p) = 0).
(** a host flattened by its rotation, the others flattened or not *)
Definition flat_host (h : particle R) : Prop := exists k, rf_effect (p_rf h) = RfCentral (OblateSpheroid k).
Definition flat_or_none (p : particle R) : Prop :=
  (exists k, rf_effect (p_rf p) = RfOrbiting (OblateSpheroid k)) \/
  (rf_effect (p_rf p) = RfDisabled /\ rf_acc (p_rf p) = vzero /\ rf_dL (p_rf p) = vzero /\ rf_orth_star (p_rf p) = 0).
(** no torque is left from an effect that is not computed *)
Definition no_other_torque (b : bool) (p : particle R) : Prop :=
  gr_dL (p_gr p) = vzero /\ w_dL (p_wind p) = vzero /\ (b = false -> rf_dL (p_rf p) = vzero).

(** Massive bodies, the most massive of which is the host of the tides and the flattening;
    only these effects are enabled, the flattening or not. *)
Definition tidal_system (u : universe R) : Prop :=
  let i := h_most_massive (u_hosts u) in
  let b := e_rf (u_effects u) in
  (exists h, nth_error (u_particles u) i = Some h /\ lag_host h /\ (b = true -> flat_host h)) /\
  Forall lag_or_none (others i (u_particles u)) /\ (b = true -> Forall flat_or_none (others i (u_particles u))) /\
  u_effects u = Effects true b false false false false /\
  h_tides (u_hosts u) = i /\ m_all (u_hosts u) = true /\ m_tides (u_hosts u) = true /\ m_rf (u_hosts u) = true /\
  Forall (fun p => p_mass p <> 0 /\ dynamical_tide (p_evo p) = false /\ no_other_torque b p) (u_particles u).
(** bodies with tides are not at the place of the host *)
Definition clear_of_host (u : universe R) : Prop :=
  forall h, nth_error (u_particles u) (h_most_massive (u_hosts u)) = Some h ->
    Forall (fun p => p_ipos p <> p_ipos h) (others (h_most_massive (u_hosts u)) (u_particles u)).
(** the stored rotations are those of the angular momenta, as in a new universe *)
Definition fresh (p : particle R) : Prop := p_spin p = vdivr (p_L p) (p_inertia p).

(** ** What one LeapFrog step adds to the total
    [us] is the state evaluated when the step starts, [um] in its middle (from [um0]): the
    middle one lets the error of the stored rotations in, and the rotations receive the mean of
    both torques while the orbits receive the one of the middle. *)
Definition step_error (dt half : R) (i : nat) (us um0 um : universe R) : vec R :=
  vadd (vscale dt (stale_torques i (u_particles um0) (u_particles um)))
       (vscale half (vsub (spin_torque (u_particles us)) (spin_torque (u_particles um)))).
Section Errors.
  Context `{Trans R} `{Floor R} `{Fuel}.
  (** of the step from [u] at time [t] *)
  Definition error_of (t dt half : R) (u : universe R) (e : vec R) : Prop :=
    exists us um0 um,
      (do v <- inertial_to_heliocentric u; additional_effects t true true false IgnoreNone v) = Ok us /\
      (do v <- gravity IgnoreNone (on_bodies (lf_drift half) us); inertial_to_heliocentric v) = Ok um0 /\
      additional_effects (t + half) true true true IgnoreNone um0 = Ok um /\
      e = step_error dt half (h_most_massive (u_hosts u)) us um0 um.
  (** of [n] steps *)
  Fixpoint errors_of (n : nat) (t dt half : R) (u : universe R) (es : list (vec R)) : Prop :=
    match n, es with
    | O, [] => True
    | S n, e :: es => error_of t dt half u e /\ exists u', lf_step t dt half u = Ok u' /\ errors_of n (t + half + half) dt half u' es
    | _, _ => False
    end.
End Errors.
