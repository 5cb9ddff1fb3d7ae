(** * The laws of the relativistic corrections and of the creeping tide (properties C60, C77) *)
From Coquelicot Require Import Coquelicot.
From Coq Require Import Reals Lra List Bool.
From Verif Require Import Base.Num Base.Result Base.Trans Base.Vec Model.Constants Model.Particle Model.Relativity Model.Creep
  Proofs.NumLemmas Proofs.RelativityProofs Proofs.ShiftProofs Proofs.RelativityExamples Proofs.EIHProofs Proofs.DiskOrbit Proofs.RelativisticPair
  Proofs.AndersonProofs Proofs.AndersonMomentum Proofs.PostNewtonExamples Proofs.AndersonWHFast Proofs.CreepTideFigure
  Spec.EffectsSpec Spec.DiskSpec Spec.EIHSpec Spec.PostNewtonSpec Spec.CreepFlatteningSpec Spec.CreepTideSpec.
Import ListNotations.
Open Scope R_scope.

(** ** C77 *)
(** Newhall, any number of bodies: the equations of Einstein, Infeld and Hoffmann. *)
Theorem C77_newhall_law host l host' l' : is_newhall host -> Forall (fun p : particle R => gr_orbiting p = true) l ->
  let bodies := host :: l in let n := length bodies in
  let acc := eih_acc SPEED_OF_LIGHT_2 n (gm_at bodies host) (pos_at bodies host) (vel_at bodies host) (fun j => p_iacc (body_at bodies host j)) in
  (forall i j, (i < n)%nat -> (j < n)%nat -> i <> j -> pos_at bodies host i <> pos_at bodies host j) ->
  (forall i, (i < n)%nat -> vec_not_tiny (acc i)) ->
  relativity_pass IgnoreNone host l = (host', l') ->
  forall i, (i < n)%nat -> nth i (map relativistic_acc (host' :: l')) vzero = acc i.
Proof. exact (newhall_law host l host' l'). Qed.
Print Assumptions C77_newhall_law.
(** Two bodies whose centre of mass is at rest: the relative acceleration is that of the first order of Kidder ... *)
Theorem C77_newhall_pair host p host' p' : is_newhall host -> gr_orbiting p = true -> 0 < p_mass host -> 0 < p_mass p ->
  apart host p -> newtonian_pair host p -> at_rest_together host p -> pair_not_tiny host p ->
  relativity_pass IgnoreNone host [p] = (host', [p']) ->
  vsub (relativistic_acc p') (relativistic_acc host') =
  kidder_1pn SPEED_OF_LIGHT_2 (G * (p_mass host + p_mass p)) (mass_ratio host p) (rel_pos host p) (rel_vel host p).
Proof. exact (newhall_relative host p host' p'). Qed.
Print Assumptions C77_newhall_pair.
(** ... and keeps the energy and the angular momentum of that order, up to the second. *)
Theorem C77_newhall_conserves host p host' p' x v t : is_newhall host -> gr_orbiting p = true -> 0 < p_mass host -> 0 < p_mass p ->
  apart host p -> newtonian_pair host p -> at_rest_together host p -> pair_not_tiny host p ->
  relativity_pass IgnoreNone host [p] = (host', [p']) ->
  let gm := G * (p_mass host + p_mass p) in let eta := mass_ratio host p in
  x t = rel_pos host p -> v t = rel_vel host p -> disturbed_orbit gm x v t (vsub (relativistic_acc p') (relativistic_acc host')) ->
  derivable_pt_lim (fun u => energy_1pn SPEED_OF_LIGHT_2 gm eta (x u) (v u)) t (energy_left gm eta (x t) (v t) / SPEED_OF_LIGHT_2 ^ 2) /\
  vderiv (fun u => momentum_1pn SPEED_OF_LIGHT_2 gm eta (x u) (v u)) t (vscale (/ SPEED_OF_LIGHT_2 ^ 2) (momentum_left gm eta (x t) (v t))).
Proof. exact (fun a b c d e f g h i j k l => newhall_conserves host p host' p' a b c d e f g h i x v t j k l). Qed.
Print Assumptions C77_newhall_conserves.
Example C77_example : is_newhall west /\ gr_orbiting east = true /\ 0 < p_mass west /\ 0 < p_mass east /\ apart west east /\
  newtonian_pair west east /\ at_rest_together west east /\ pair_not_tiny west east /\ rel_vel west east = Vec 0 2 0.
Proof. exact relativistic_two. Qed.
(** The first order of Kidder keeps them as well. *)
Theorem C77_kidder_conserves host p x v t : apart host p -> p_ivel p <> p_ivel host ->
  let gm := p_mass_g host + p_mass_g p in
  x t = rel_pos host p -> v t = rel_vel host p -> disturbed_orbit gm x v t (kidder_first (prep_host host) (prep host p)) ->
  derivable_pt_lim (fun u => energy_1pn SPEED_OF_LIGHT_2 gm (eta_of host p) (x u) (v u)) t
    (energy_left gm (eta_of host p) (x t) (v t) / SPEED_OF_LIGHT_2 ^ 2) /\
  vderiv (fun u => momentum_1pn SPEED_OF_LIGHT_2 gm (eta_of host p) (x u) (v u)) t
    (vscale (/ SPEED_OF_LIGHT_2 ^ 2) (momentum_left gm (eta_of host p) (x t) (v t))).
Proof. exact (kidder_conserves host p x v t). Qed.
Print Assumptions C77_kidder_conserves.
(** Anderson, one body: the correction for a body without mass, up to the second order. *)
Theorem C77_anderson host p host' p' : is_anderson host -> gr_orbiting p = true -> 0 < p_mass host -> 0 <= p_mass p ->
  0 <= p_mass_g host -> apart host p ->
  let mu := p_mass_g host in let r := rel_pos host p in let v := rel_vel host p in let d := sqrt (norm2 r) in
  vsub (p_iacc p) (p_iacc host) = vscale (- (mu / d ^ 3)) r -> smallness mu r v <= 1 / 20 ->
  relativity_pass IgnoreNone host [p] = (host', [p']) ->
  norm2 (vsub (vsub (relativistic_acc p') (relativistic_acc host')) (kidder_1pn SPEED_OF_LIGHT_2 mu 0 r v))
  <= (64 * smallness mu r v ^ 2 * (mu / d ^ 2)) ^ 2.
Proof. exact (anderson_first_order host p host' p'). Qed.
Print Assumptions C77_anderson.
Example C77_anderson_example : is_anderson heavy /\ gr_orbiting light = true /\ 0 < p_mass heavy /\ 0 <= p_mass light /\ 0 < p_mass_g heavy /\ apart heavy light /\
  vsub (p_iacc light) (p_iacc heavy) = vscale (- (p_mass_g heavy / sqrt (norm2 (rel_pos heavy light)) ^ 3)) (rel_pos heavy light) /\
  0 < smallness (p_mass_g heavy) (rel_pos heavy light) (rel_vel heavy light) <= 1 / 20.
Proof. exact test_body. Qed.

(** The same in WHFast, which leaves the attraction of the host to its Kepler steps, with the host at the origin. *)
Theorem C77_anderson_whfast ig host p host' p' : ig <> IgnoreNone -> is_anderson host -> gr_orbiting p = true -> 0 < p_mass host -> p_mass p = 0 ->
  p_mass_g host = G * p_mass host -> apart host p -> p_ipos host = vzero -> p_iacc host = vzero -> p_iacc p = vzero ->
  let mu := p_mass_g host in let r := rel_pos host p in let v := rel_vel host p in let d := sqrt (norm2 r) in
  smallness mu r v <= 1 / 20 ->
  relativity_pass ig host [p] = (host', [p']) ->
  norm2 (vsub (vsub (relativistic_acc p') (relativistic_acc host')) (kidder_1pn SPEED_OF_LIGHT_2 mu 0 r v))
  <= (64 * smallness mu r v ^ 2 * (mu / d ^ 2)) ^ 2.
Proof. exact (anderson_whfast ig host p host' p'). Qed.
Print Assumptions C77_anderson_whfast.
Example C77_anderson_whfast_example : is_anderson heavy /\ gr_orbiting unpulled = true /\ 0 < p_mass heavy /\ p_mass unpulled = 0 /\
  p_mass_g heavy = G * p_mass heavy /\ apart heavy unpulled /\ p_ipos heavy = vzero /\ p_iacc heavy = vzero /\ p_iacc unpulled = vzero /\
  0 < smallness (p_mass_g heavy) (rel_pos heavy unpulled) (rel_vel heavy unpulled) <= 1 / 20.
Proof. exact test_body_whfast. Qed.
(** Anderson, any number of bodies and any part of Newton's law left to the integrator: the corrections exert no total force. *)
Theorem C77_anderson_momentum ig host l host' l' : is_anderson host -> 0 < p_mass host -> Forall (fun p : particle R => 0 <= p_mass p) l ->
  relativity_pass ig host l = (host', l') -> net_force relativistic_acc (host' :: filter gr_orbiting l') = vzero.
Proof. exact (anderson_momentum ig host l host' l'). Qed.
Print Assumptions C77_anderson_momentum.
Example C77_anderson_bodies : is_anderson heavy /\ 0 < p_mass heavy /\ p_mass companion_1 = 1 /\ p_mass companion_2 = 2 /\
  filter gr_orbiting [companion_1; companion_2] = [companion_1; companion_2] /\ p_ipos companion_1 <> p_ipos companion_2.
Proof. exact companions. Qed.

(** ** C60 *)
(** On an eccentric orbit the figure follows the tide with the delay of the creep. *)
Theorem C60_tidal_figure (U : Fuel) a e period primary companion radius viscosity spin :
  let n := 2 * PI / period in let gam := relaxation_rate K2 primary radius viscosity in
  let rho := tidal_prolateness primary companion radius a in
  spin < capture_rate gam n e ->
  exists figure, (forall m, particle_shape a e m period primary companion radius viscosity spin true false = Ok (figure m)) /\
    follows (n / gam) (1 - 3 * (companion / (primary + companion)) * rho) rho e figure.
Proof. exact (tidal_figure a e period primary companion radius viscosity spin). Qed.
Print Assumptions C60_tidal_figure.
Example C60_tidal_example : 1 / 2 < capture_rate (relaxation_rate K2 1 1 1) (2 * PI / 1) (1 / 10) /\ tidal_prolateness 1 1 1 2 = 15 / 32.
Proof.
  split; [|unfold tidal_prolateness; field]. pose proof PI2_3_2. unfold capture_rate, PI2 in *.
  destruct (Rlt_dec _ _); lra.
Qed.
