(** * Simulations with LeapFrog (used by C80) *)
From Coq Require Import Reals List.
From Verif Require Import Base.Num Base.Result Base.Trans Base.Vec Model.Particle Model.Interp Model.Relativity Model.Creep Model.Universe Model.LeapFrog Model.WHFast Spec.TablesSpec.
Open Scope R_scope.

Section Run.
  Context `{Trans R} `{Floor R} `{Fuel}.
  (** what happens between two times: the initialization at the start, steps, and the refresh before each output *)
  Inductive simulated (dt half : R) (t : R) (u : universe R) : R -> universe R -> Prop :=
  | sim_start : simulated dt half t u t u
  | sim_init t1 u1 u2 : simulated dt half t u t1 u1 -> initialize_physical_values t1 u1 = Ok u2 -> simulated dt half t u t1 u2
  | sim_step t1 u1 u2 : simulated dt half t u t1 u1 -> lf_step t1 dt half u1 = Ok u2 -> simulated dt half t u (t1 + half + half) u2
  | sim_output t1 u1 u2 : simulated dt half t u t1 u1 -> refresh_for_output t1 u1 = Ok u2 -> simulated dt half t u t1 u2.
  (** the same with WHFast *)
  Definition with_universe (u : universe R) (w : whfast R) : whfast R := WH u (w_alt w) (w_type w) (w_verr w) (w_Lerr w).
  Inductive simulated_wh (dt half : R) (t : R) (w : whfast R) : R -> whfast R -> Prop :=
  | wh_start : simulated_wh dt half t w t w
  | wh_init t1 w1 u2 : simulated_wh dt half t w t1 w1 -> initialize_physical_values t1 (w_u w1) = Ok u2 -> simulated_wh dt half t w t1 (with_universe u2 w1)
  | wh_advance t1 w1 w2 : simulated_wh dt half t w t1 w1 -> wh_step t1 dt half w1 = Ok w2 -> simulated_wh dt half t w (t1 + dt) w2
  | wh_output t1 w1 u2 : simulated_wh dt half t w t1 w1 -> refresh_for_output t1 (w_u w1) = Ok u2 -> simulated_wh dt half t w t1 (with_universe u2 w1).
End Run.

(** the size of the body is that of the table at time [t] *)
Definition has_size_of (e : evolver R) (t : R) (p : particle R) : Prop :=
  (tabulates (ev_type e) QRadius = true -> interpolates (ev_time e) (ev_radius e) t (p_radius p)) /\
  (tabulates (ev_type e) QGyration = true -> interpolates (ev_time e) (ev_rg2 e) t (p_rg2 p)).
(** what the table does not give stays as it was *)
Definition keeps_size_of (e : evolver R) (p0 p : particle R) : Prop :=
  (tabulates (ev_type e) QRadius = false -> p_radius p = p_radius p0) /\
  (tabulates (ev_type e) QGyration = false -> p_rg2 p = p_rg2 p0).
(** the moment of inertia of a body *)
Definition moment (p : particle R) : R := p_mass p * p_rg2 p * (p_radius p * p_radius p).
(** nothing enabled exerts a torque on the spins *)
Definition no_torques {F} (u : universe F) : Prop :=
  e_tides (u_effects u) = false /\ e_rf (u_effects u) = false /\ e_wind (u_effects u) = false /\ (e_gr (u_effects u) = true -> u_gr u <> Kidder1995).
(** bodies whose tables are usable and have not been consulted yet *)
Definition evolving (u : universe R) : Prop :=
  e_evolution (u_effects u) = true /\ Forall (fun e => well_tabulated e /\ ev_left e = 0%nat) (u_evolvers u).
