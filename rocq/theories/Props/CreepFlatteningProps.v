(** * Theorems on creep flattening and on attaching effects (properties C73, C74) *)
From Coq Require Import Reals Lra List Bool ZArith Arith SpecFloat.
From Verif Require Import Base.Num Base.Result Base.Trans Base.Vec Model.Constants Model.Particle
  Model.Tools Model.Creep Model.Flattening Model.Setters Spec.EffectsSpec Spec.CreepFlatteningSpec Spec.SettersSpec
  Proofs.TidesExamples Proofs.CreepFlatteningPass Proofs.CreepFlatteningProofs Proofs.CreepFlatteningJump
  Proofs.SettersProofs Proofs.CreepNaN.
Import ListNotations.
Open Scope R_scope.

(** ** C73: the figure, the pull and the absence of a torque *)
Theorem C73_figure (U : Fuel) host p central s :
  creep_shape host p false true central = Ok s ->
  let els := keplerian_elements (p_mass_g host + p_mass_g p) (t_pos (p_tides p)) (t_vel (p_tides p)) in
  let body := if central then host else p in
  s = creep_flattening_figure K2 (p_mass body) (p_radius body) (creep_viscosity (t_effect (p_tides body)) central)
        (vz (p_spin body)) (el_e els) (2 * PI / el_period els).
Proof. exact (creep_flattening_shape host p central s). Qed.
Print Assumptions C73_figure.

Theorem C73_evaluation (U : Fuel) host l host' l' :
  rf_pass host l = Ok (host', l') -> is_rf_central (rf_effect (p_rf host)) = true ->
  (forall v, rf_effect (p_rf host) = RfCentral (CreepCoplanarRf v) -> rf_dL (p_rf host') = vzero) /\
  (forall i p, nth_error l i = Some p ->
     (exists v, rf_effect (p_rf p) = RfOrbiting (CreepCoplanarRf v) /\ v <> 0) ->
     exists p', nth_error l' i = Some p' /\ rf_shape (p_rf p') = figure_of host p /\ rf_dL (p_rf p') = vzero /\
       let x := vsub (p_ipos p) (p_ipos host) in
       (p_mass p <> 0 -> norm2 x <> 0 ->
        rf_acc (p_rf p') = flattened_pull K2 (p_mass host) (p_radius p) (vz (figure_of host p)) (sqrt (norm2 x)) x)).
Proof. exact (creep_pass host l host' l'). Qed.
Print Assumptions C73_evaluation.
Example C73_example (U : Fuel) :
  (exists host' p', rf_pass flat_star [flat_planet] = Ok (host', [p'])) /\
  is_rf_central (rf_effect (p_rf flat_star)) = true /\ rf_creep (rf_effect (p_rf flat_planet)) /\
  p_mass flat_planet <> 0 /\ norm2 (vsub (p_ipos flat_planet) (p_ipos flat_star)) <> 0 /\
  vz (figure_of flat_star flat_planet) > 0.
Proof. exact (conj flat_pass flat_creep). Qed.

(** The figure is not a continuous function of the spin: it jumps at the capture rate. *)
Theorem C73_continuity_refuted G m r eta e n :
  0 < G -> 0 < m -> 0 < r -> 0 < eta -> 0 < n -> e <> 0 ->
  let w := capture_rate (relaxation_rate G m r eta) n e in
  exists jump, 0 < jump /\ forall delta, 0 < delta ->
    exists spin, w - delta < spin < w /\
      vz (creep_flattening_figure G m r eta spin e n) - vz (creep_flattening_figure G m r eta w e n) >= jump.
Proof. exact (figure_jump G m r eta e n). Qed.
Print Assumptions C73_continuity_refuted.

(** ** C74: attaching tides and flattening *)
Theorem C74_tides t (p : particle R) :
  (laws_agree (law_of_tides (t_effect t)) (law_of_flattening (rf_effect (p_rf p))) -> attach_tides t p = Ok (set_p_tides t p)) /\
  (~ laws_agree (law_of_tides (t_effect t)) (law_of_flattening (rf_effect (p_rf p))) -> attach_tides t p = Panic POther).
Proof. exact (attach_tides_spec t p). Qed.
Print Assumptions C74_tides.
Theorem C74_flattening r (p : particle R) :
  (laws_agree (law_of_tides (t_effect (p_tides p))) (law_of_flattening (rf_effect r)) -> attach_flattening r p = Ok (set_p_rf r p)) /\
  (~ laws_agree (law_of_tides (t_effect (p_tides p))) (law_of_flattening (rf_effect r)) -> attach_flattening r p = Panic POther).
Proof. exact (attach_flattening_spec r p). Qed.
Print Assumptions C74_flattening.
(** any program that starts from a new particle *)
Theorem C74_reachable k2 mass radius rg x v spin (calls : list (setter R)) p :
  attach_all (new_particle k2 mass radius rg x v spin) calls = Ok p ->
  laws_agree (law_of_tides (t_effect (p_tides p))) (law_of_flattening (rf_effect (p_rf p))).
Proof. exact (attach_all_agree calls _ p (new_agree k2 mass radius rg x v spin)). Qed.
Print Assumptions C74_reachable.
(** a body that has both effects keeps its kind of law until one of them is disabled *)
Theorem C74_same_law (calls : list (setter R)) (p q : particle R) :
  Forall enabling calls -> both p -> agree p -> attach_all p calls = Ok q ->
  (is_creep (law_of_tides (t_effect (p_tides p))) <-> is_creep (law_of_tides (t_effect (p_tides q)))).
Proof. exact (fun Hl => attach_all_same_law calls Hl p q). Qed.
Print Assumptions C74_same_law.

Definition creep_calls (v w : R) : list (setter R) :=
  [SetTides (new_tides (TidesOrbiting (CreepCoplanar v))); SetFlattening (new_flattening (RfOrbiting (CreepCoplanarRf w)))].
Example C74_example :
  (exists p, attach_all (dummy_particle : particle R) (creep_calls 1 1) = Ok p /\ both p /\ is_creep (fst (laws p))) /\
  attach_all (dummy_particle : particle R) (creep_calls 1 2) = Panic POther.
Proof.
  split.
  - exists (set_p_rf (new_flattening (RfOrbiting (CreepCoplanarRf 1))) (set_p_tides (new_tides (TidesOrbiting (CreepCoplanar 1))) dummy_particle)).
    split; [|split; [split; discriminate|exists 1; reflexivity]].
    unfold attach_all, creep_calls. cbn [rfold attach].
    rewrite (proj1 (attach_tides_spec _ _)) by exact I. cbn [rbind].
    rewrite (proj1 (attach_flattening_spec _ _)); [reflexivity|]. cbn. replace (1 - 1) with 0 by ring. rewrite Rabs_R0. lra.
  - unfold attach_all, creep_calls. cbn [rfold attach].
    rewrite (proj1 (attach_tides_spec _ _)) by exact I. cbn [rbind].
    rewrite (proj2 (attach_flattening_spec _ _)); [reflexivity|]. cbn. replace (1 - 2) with (-1) by ring.
    rewrite Rabs_left by lra. lra.
Qed.

(** Creep flattening alone is accepted, and its acceleration is not a number:
    the figure is computed from the position and the velocity kept by the tides. *)
Theorem C74_flattening_alone_refuted (T : Trans f64) (U : Fuel) :
  (1 <= fuel)%nat -> tpow (n0 : f64) (nlit 2 1) = n0 ->
  attach_all (plain64 n1 vzero) [SetFlattening (new_flattening (RfCentral (OblateSpheroid n1)))] = Ok flat_star64 /\
  attach_all (plain64 n1 (Vec n1 n0 n0)) [SetFlattening (new_flattening (RfOrbiting (CreepCoplanarRf n1)))] = Ok flat_planet64 /\
  exists host' p', rf_pass flat_star64 [flat_planet64] = Ok (host', [p']) /\
    vx (rf_acc (p_rf p')) = S754_nan /\ vy (rf_acc (p_rf p')) = S754_nan.
Proof. exact (fun Hf P => conj accepted_star (conj accepted_planet (accepted_nan Hf P))). Qed.
Print Assumptions C74_flattening_alone_refuted.
(** not only in that example: whatever the bodies *)
Theorem C74_flattening_alone_nan (T : Trans f64) (U : Fuel)
    (host : particle f64) (l : list (particle f64)) (host' : particle f64) (l' : list (particle f64)) i (p : particle f64) (v : f64) :
  (1 <= fuel)%nat -> tpow (n0 : f64) (nlit 2 1) = n0 ->
  rf_pass host l = Ok (host', l') -> is_rf_central (rf_effect (p_rf host)) = true ->
  nth_error l i = Some p -> p_tides p = new_tides TidesDisabled ->
  rf_effect (p_rf p) = RfOrbiting (CreepCoplanarRf v) -> neqb v n0 = false ->
  exists p', nth_error l' i = Some p' /\ vx (rf_acc (p_rf p')) = S754_nan /\ vy (rf_acc (p_rf p')) = S754_nan.
Proof. exact (no_tides_nan host l host' l' i p v). Qed.
Print Assumptions C74_flattening_alone_nan.
(** in binary64 a viscosity that is not a number passes the comparison *)
Theorem C74_binary64_refuted : exists (p : particle f64) (calls : list (setter f64)),
  calls = [SetFlattening (new_flattening (RfOrbiting (CreepCoplanarRf (S754_nan : f64)))); SetTides (new_tides (TidesOrbiting (CreepCoplanar n1)))] /\
  is_ok (attach_all p calls) = true.
Proof. exact (ex_intro _ flat_star64 (ex_intro _ _ (conj eq_refl nan_viscosity))). Qed.
Print Assumptions C74_binary64_refuted.
