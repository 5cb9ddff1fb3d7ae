(** Creep flattening without tides: the acceleration is not a number (binary64) *)
From Coq Require Import List Bool ZArith Arith Lia SpecFloat.
From Verif Require Import Base.Num Base.Result Base.Trans Base.Vec Model.Constants Model.Particle
  Model.Tools Model.Creep Model.Flattening Model.Setters Proofs.CreepFlatteningPass.
Import ListNotations.
Local Open Scope num_scope.

Notation NaN := S754_nan.
Lemma add_l (x : f64) : (NaN : f64) + x = NaN. Proof. now destruct x. Qed.
Lemma add_r (x : f64) : x + (NaN : f64) = NaN. Proof. now destruct x. Qed.
Lemma sub_l (x : f64) : (NaN : f64) - x = NaN. Proof. now destruct x. Qed.
Lemma sub_r (x : f64) : x - (NaN : f64) = NaN. Proof. now destruct x. Qed.
Lemma mul_l (x : f64) : (NaN : f64) * x = NaN. Proof. now destruct x. Qed.
Lemma mul_r (x : f64) : x * (NaN : f64) = NaN. Proof. now destruct x. Qed.
Lemma div_l (x : f64) : (NaN : f64) / x = NaN. Proof. now destruct x. Qed.
Lemma div_r (x : f64) : x / (NaN : f64) = NaN. Proof. now destruct x. Qed.
Lemma opp_nan : nopp (NaN : f64) = NaN. Proof. reflexivity. Qed.
Lemma abs_nan : nabs (NaN : f64) = NaN. Proof. reflexivity. Qed.
Lemma ltb_r (x : f64) : (x <? (NaN : f64)) = false. Proof. unfold nltb, NumF64, SFltb. now destruct x. Qed.
Ltac nan := rewrite ?opp_nan, ?abs_nan, ?add_l, ?add_r, ?sub_l, ?sub_r, ?mul_l, ?mul_r, ?div_l, ?div_r.
Lemma pow_nan n : npow (NaN : f64) (S n) = NaN.
Proof. destruct n; [reflexivity|]. cbn [npow]. now nan. Qed.

Section NaNs.
  Context `{T : Trans f64} `{FU : Fuel}.

  Lemma slow_nan rho z ratio n gam m : vz (shape_slow rho z ratio n gam (NaN : f64) m) = NaN.
  Proof.
    unfold shape_slow. cbn zeta. cbn [vz]. rewrite pow_nan. repeat (progress nan). reflexivity.
  Qed.
  Lemma round_nan gam n spin m v acc dk c0 c1 : vz acc = NaN -> vz (cayley_round gam n spin m v acc dk c0 c1) = (NaN : f64).
  Proof. intro E. unfold cayley_round. cbn [vz]. rewrite E. now nan. Qed.
  Lemma rounds_nan gam n spin m v l : forall acc, vz acc = (NaN : f64) ->
    vz (fold_left (fun acc kc => cayley_round gam n spin m v acc (nlit (Z.of_nat (fst kc)) 1) (fst (snd kc)) (snd (snd kc)))
      l acc) = NaN.
  Proof. induction l as [|a l IH]; cbn [fold_left]; intros acc E; auto. apply IH. now apply round_nan. Qed.
  Lemma cayley_nan gam n spin m v : vz (cayley_sums gam n spin m v (NaN : f64)) = NaN.
  Proof.
    unfold cayley_sums, cayley_coefficients. rewrite pow_nan. cbn [fst snd seq combine fold_left].
    do 14 apply round_nan. unfold cayley_round. cbn [vz]. now repeat (progress nan).
  Qed.

  Lemma shape_nan a m period primary companion radius viscosity spin tides rot :
    (1 <= fuel)%nat ->
    exists s, particle_shape a (NaN : f64) m period primary companion radius viscosity spin tides rot = Ok s /\ vz s = NaN.
  Proof.
    intro Hf. unfold particle_shape. cbn zeta. destruct (spin <? _).
    - eexists. split; [reflexivity|]. apply slow_nan.
    - destruct fuel as [|k] eqn:Ek; [lia|].
      unfold true_anomaly. cbn [true_anomaly_loop]. cbn zeta. repeat (progress nan). rewrite ltb_r.
      eexists. split; [reflexivity|]. cbn [vz]. rewrite cayley_nan. now repeat (progress nan).
  Qed.

  (** the elements of an orbit of no extent *)
  Lemma zero_orbit (gm : f64) : tpow (n0 : f64) (#2) = n0 -> el_e (keplerian_elements gm vzero vzero) = NaN.
  Proof.
    intro P. unfold keplerian_elements.
    assert (C : vcross vzero vzero = (vzero : vec f64)) by reflexivity. rewrite C.
    assert (H2 : norm2_powf (vzero : vec f64) = n0).
    { unfold norm2_powf, vzero. cbn [vx vy vz]. rewrite P. reflexivity. }
    rewrite H2. destruct (inclination_node _ _) as [i node]. cbn [el_e].
    assert (E : raw_eccentricity gm ((n0 : f64) / gm) (vdot vzero vzero) (nsqrt (vdot vzero vzero)) = NaN).
    { unfold raw_eccentricity. cbn zeta.
      change (vdot vzero vzero) with (n0 : f64). change (nsqrt (n0 : f64)) with (n0 : f64).
      assert (Z : n1 + ((n0 : f64) / gm) * (n0 / gm - #2 / n0) = NaN).
      { destruct gm as [s|s| |s m e]; try reflexivity; destruct s; reflexivity. }
      rewrite Z. reflexivity. }
    rewrite E. reflexivity.
  Qed.

  Lemma creep_shape_nan (host p : particle f64) rot central :
    (1 <= fuel)%nat -> tpow (n0 : f64) (#2) = n0 -> t_pos (p_tides p) = vzero -> t_vel (p_tides p) = vzero ->
    exists s, creep_shape host p false rot central = Ok s /\ vz s = NaN.
  Proof.
    intros Hf P Hx Hv. unfold creep_shape. cbn zeta. rewrite Hx, Hv, zero_orbit by auto. now apply shape_nan.
  Qed.

  Lemma pull_nan (host p : particle f64) (sh x : vec f64) : vz sh = NaN ->
    vx (creep_pull host p sh x) = NaN /\ vy (creep_pull host p sh x) = NaN.
  Proof.
    intro E. unfold creep_pull. cbn zeta. cbn [vx vy].
    split; rewrite E; now repeat (progress nan).
  Qed.

  (** the whole evaluation of the flattening *)
  Lemma no_tides_nan (host : particle f64) (l : list (particle f64)) (host' : particle f64) (l' : list (particle f64)) i (p : particle f64) (v : f64) :
    (1 <= fuel)%nat -> tpow (n0 : f64) (#2) = n0 ->
    rf_pass host l = Ok (host', l') -> is_rf_central (rf_effect (p_rf host)) = true ->
    nth_error l i = Some p -> p_tides p = new_tides TidesDisabled ->
    rf_effect (p_rf p) = RfOrbiting (CreepCoplanarRf v) -> (v =? n0) = false ->
    exists p', nth_error l' i = Some p' /\ vx (rf_acc (p_rf p')) = NaN /\ vy (rf_acc (p_rf p')) = NaN.
  Proof.
    intros Hf P E Hc Hi Ht He Hv. destruct (pass_start (F := f64) host l host' l' E Hc) as [_ G].
    destruct (G i p v Hi He Hv) as (sh & p' & Esh & Hi' & _ & _ & Ha).
    exists p'. split; [exact Hi'|].
    assert (Hx : t_pos (p_tides p) = vzero) by (rewrite Ht; reflexivity).
    assert (Hw : t_vel (p_tides p) = vzero) by (rewrite Ht; reflexivity).
    destruct (creep_shape_nan host p true false Hf P Hx Hw) as (s & Es & Hz).
    assert (Q : s = sh).
    { assert (Q : Ok s = Ok sh) by exact (eq_trans (eq_sym Es) Esh). exact (f_equal (fun r => match r with Ok x => x | Panic _ => s end) Q). }
    subst s. cbn zeta in Ha. rewrite Ha.
    destruct (pull_nan host p sh (vsub (p_ipos p) (p_ipos host)) Hz) as [Px Py].
    unfold vscale. cbn [vx vy]. split; [change (n1 / p_mass p * vx (creep_pull host p sh (vsub (p_ipos p) (p_ipos host))) = NaN); rewrite Px|change (n1 / p_mass p * vy (creep_pull host p sh (vsub (p_ipos p) (p_ipos host))) = NaN); rewrite Py]; now nan.
  Qed.
End NaNs.

(** a program that only attaches creep flattening is accepted *)
Section Accepted.
  Context `{T : Trans f64} `{FU : Fuel}.
  Definition plain64 (mass : f64) (x : vec f64) : particle f64 :=
    set_p_ipos x (new_particle K2 mass n1 n1 x (Vec n0 n1 n0) (Vec n0 n0 n1)).
  Definition flat_star64 : particle f64 :=
    set_p_rf (new_flattening (RfCentral (OblateSpheroid n1))) (plain64 n1 vzero).
  Definition flat_planet64 : particle f64 :=
    set_p_rf (new_flattening (RfOrbiting (CreepCoplanarRf n1))) (plain64 n1 (Vec n1 n0 n0)).
  Lemma accepted_star : attach_all (plain64 n1 vzero) [SetFlattening (new_flattening (RfCentral (OblateSpheroid n1)))] = Ok flat_star64.
  Proof. reflexivity. Qed.
  Lemma accepted_planet :
    attach_all (plain64 n1 (Vec n1 n0 n0)) [SetFlattening (new_flattening (RfOrbiting (CreepCoplanarRf n1)))] = Ok flat_planet64.
  Proof. reflexivity. Qed.
  Lemma accepted_nan : (1 <= fuel)%nat -> tpow (n0 : f64) (#2) = n0 ->
    exists host' p', rf_pass flat_star64 [flat_planet64] = Ok (host', [p']) /\
      vx (rf_acc (p_rf p')) = NaN /\ vy (rf_acc (p_rf p')) = NaN.
  Proof.
    intros Hf P.
    assert (Hx : t_pos (p_tides flat_planet64) = vzero) by reflexivity.
    assert (Hw : t_vel (p_tides flat_planet64) = vzero) by reflexivity.
    destruct (creep_shape_nan flat_star64 flat_planet64 true false Hf P Hx Hw) as (s & Es & _).
    assert (Hh : oblate (n1 : f64) flat_star64) by reflexivity.
    assert (Hp : turning (n1 : f64) flat_planet64) by reflexivity.
    assert (N : ((n1 : f64) =? n0) = false) by reflexivity.
    destruct (single_pass (F := f64) flat_star64 flat_planet64 n1 n1 s Hh Hp N Es) as (host' & p' & E).
    exists host', p'. split; [exact E|].
    destruct (no_tides_nan flat_star64 [flat_planet64] host' [p'] 0 flat_planet64 n1 Hf P E eq_refl eq_refl eq_refl eq_refl N)
      as (q & Hq & Hn).
    assert (q = p') by (cbn in Hq; congruence). subst q. exact Hn.
  Qed.
  (** a viscosity that is not a number is not noticed either *)
  Lemma nan_viscosity :
    is_ok (attach_all flat_star64
      [SetFlattening (new_flattening (RfOrbiting (CreepCoplanarRf (NaN : f64)))); SetTides (new_tides (TidesOrbiting (CreepCoplanar n1)))]) = true.
  Proof. reflexivity. Qed.
End Accepted.
