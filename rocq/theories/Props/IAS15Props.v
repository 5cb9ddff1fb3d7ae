(** * Theorems on the IAS15 integrator (properties C20 to C24, C54, C70) *)
From Coq Require Import Reals Lra Lia List Bool Arith.
From Verif Require Import Base.Num Base.Result Base.Trans Base.Vec Model.Constants Model.Particle Model.Host
  Model.Creep Model.Relativity Model.Universe Model.WHFast Model.IAS15
  Spec.EffectsSpec Spec.UniverseSpec Spec.WHFastSpec Spec.IAS15Spec Proofs.NumLemmas Proofs.VecLemmas
  Proofs.EffectSums Proofs.WHFastStep Proofs.UniverseExamples Proofs.WHFastExamples
  Proofs.IAS15Poly Proofs.IAS15Fit Proofs.IAS15Pass Proofs.IAS15Step Proofs.IAS15Control Proofs.IAS15Accept Proofs.IAS15Root Proofs.IAS15Examples
  Spec.CorrectorSpec Proofs.IAS15Corrector Spec.IAS15MomentumSpec Proofs.GravityProofs Proofs.IAS15Momentum.
Import ListNotations.
Open Scope R_scope.

(** ** C20 *)
(** for every relative length [q] of the next step *)
Theorem C20_prediction q (m : memory (F := R)) : let m' := predict_memory q m in
  m_br m' = m_br m /\ m_er m' = m_er m /\
  (20 < q -> m_b m' = co_zero /\ m_e m' = co_zero) /\
  (q <= 20 -> (forall a0 h, accel (accel a0 (m_br m) 1) (m_e m') h = accel a0 (m_br m) (1 + q * h)) /\
              (forall a h, accel a (m_b m') h = accel a (m_e m') h + (accel 0 (m_br m) h - accel 0 (m_er m) h))).
Proof. exact (prediction q m). Qed.
(** an acceleration [t^2] over a step from 0 to 1, a second step half as long *)
Example C20_example : let m := Mem (co_zero (F := R)) (Co 0 1 0 0 0 0 0) co_zero co_zero in
  accel (accel 0 (m_br m) 1) (m_e (predict_memory (1 / 2) m)) 1 = (3 / 2) ^ 2.
Proof.
  cbn zeta. destruct (prediction (1 / 2) (Mem (co_zero (F := R)) (Co 0 1 0 0 0 0 0) co_zero co_zero)) as (_ & _ & _ & E).
  destruct E as (E & _); [lra|]. rewrite E. unfold accel. cbn [m_br q0 q1 q2 q3 q4 q5 q6]. lra.
Qed.

(** ** C21 *)
(** the formulas, for every component, fraction [h] of the step and coefficients *)
Theorem C21_integrals dt x0 v0 a0 (b : coeffs (F := R)) X V : motion dt x0 v0 (accel a0 b) X V ->
  (forall h, predict_x h dt 0 x0 v0 a0 b = X h /\ predict_v h dt 0 v0 a0 b = V h) /\
  final_x dt 0 x0 v0 a0 b = (X 1, 0) /\ final_v dt 0 v0 a0 b = (V 1, 0).
Proof. exact (integrals dt x0 v0 a0 b X V). Qed.
(** there is one and only one such motion *)
Theorem C21_motion dt x0 v0 a0 b : exists X V, motion dt x0 v0 (accel a0 b) X V
  /\ forall X' V', motion dt x0 v0 (accel a0 b) X' V' -> forall h, X h = X' h /\ V h = V' h.
Proof.
  exists (Xp dt x0 v0 a0 b), (Vp dt v0 a0 b). split; [apply motion_exists|]. intros X' V' M. exact (motion_unique _ _ _ _ _ _ _ _ (motion_exists dt x0 v0 a0 b) M).
Qed.

Section Any.
  (** the functions of libm and the iteration bound do not matter *)
  Context `{Trans R} `{Floor R} `{Fuel}.

  (** an accepted step, for every system: bodies move as the fitted polynomial says *)
  Theorem C21_accepted (s s' : ias (F := R)) : shaped s -> rested s -> attempt s = Ok (inr s') ->
    rested s' /\ forall i p k, nth_error (u_particles (ia_u s)) i = Some p -> nth_error (ia_tracks s) i = Some k -> exists p' k',
      nth_error (u_particles (ia_u s')) i = Some p' /\ nth_error (ia_tracks s') i = Some k' /\ forall x, axis x ->
        travels (ia_dt s) (x _ (p_ipos p)) (x _ (p_ivel p)) (x _ (p_iacc p)) (m_br (x _ (k_a k'))) 1 (x _ (p_ipos p')) (x _ (p_ivel p')) /\
        (if integrate_spin (ia_u s) then turns (ia_dt s) (x _ (p_L p)) (x _ (p_dL p)) (m_br (x _ (k_s k'))) 1 (x _ (p_L p')) else p_L p' = p_L p) /\
        m_er (x _ (k_a k')) = m_e (x _ (k_a k)) /\
        x _ (k_a k') = predict_memory (ia_dt s' / ia_dt s) (x _ (k_a k')).
  Proof. exact (accepted_motion s s'). Qed.
  (** the nodes: the forces are evaluated with the bodies on their fitted curves, and the
      final polynomial takes these values, up to the 25 digits of the tables *)
  Theorem C21_nodes (s s' : ias (F := R)) : shaped s -> rested s -> attempt s = Ok (inr s') ->
    exists us : nat -> universe R, forall n, (1 <= n <= 7)%nat ->
      (exists u0, evaluate (ia_t s + ia_dt s * node n) u0 = Ok (us n) /\
        forall i p, nth_error (u_particles (ia_u s)) i = Some p -> exists p0 ca cs, nth_error (u_particles u0) i = Some p0 /\ forall x, axis x ->
          travels (ia_dt s) (x _ (p_ipos p)) (x _ (p_ivel p)) (x _ (p_iacc p)) (x _ ca) (node n) (x _ (p_ipos p0)) (x _ (p_ivel p0)) /\
          (integrate_spin (ia_u s) = true -> turns (ia_dt s) (x _ (p_L p)) (x _ (p_dL p)) (x _ cs) (node n) (x _ (p_L p0)))) /\
      (forall i p k k', nth_error (u_particles (ia_u s)) i = Some p -> nth_error (ia_tracks s) i = Some k -> nth_error (ia_tracks s') i = Some k' ->
        exists q, nth_error (u_particles (us n)) i = Some q /\ forall x, axis x ->
          Rabs (accel (x _ (p_iacc p)) (m_br (x _ (k_a k'))) (node n) - x _ (p_iacc q)) <=
            table_error * (magnitude (m_br (x _ (k_a k'))) + magnitude (m_b (x _ (k_a k)))) /\
          (integrate_spin (ia_u s) = true -> Rabs (accel (x _ (p_dL p)) (m_br (x _ (k_s k'))) (node n) - x _ (p_dL q)) <=
            table_error * (magnitude (m_br (x _ (k_s k'))) + magnitude (m_b (x _ (k_s k)))))).
  Proof. exact (accepted_nodes s s'). Qed.
  Example C21_example : shaped lone_ias /\ rested lone_ias /\ exists s', attempt lone_ias = Ok (inr s').
  Proof. split; [exact lone_shaped|]. split; [exact lone_rested|]. destruct lone_attempt as (s' & E & _). eauto. Qed.
  (** a new integrator has nothing pending *)
  Theorem C21_new (u : universe R) dt : length (u_roche u) = length (u_particles u) -> shaped (ias_new u dt) /\ rested (ias_new u dt).
  Proof.
    intro L. split; [split; cbn; [apply map_length|exact L]|]. unfold rested, ias_new. cbn [ia_tracks].
    apply Forall_forall. intros k Hk. apply in_map_iff in Hk. destruct Hk as (p & <- & _). cbn. auto.
  Qed.

  (** ** C22 *)
  (** over the reals, for every estimate: the next step is the proposed one, at most four
      times the last *)
  Theorem C22_decision (dt err n : R) : dt <> 0 -> 0 <= err ->
    (decide dt err = Accept n -> Rabs n <= 4 * Rabs dt /\ 1 / 4 * Rabs dt <= Rabs n /\ 0 < n / dt /\ n / dt = Rmin 4 (proposed dt err / dt)) /\
    (decide dt err = Reject n -> n = proposed dt err /\ Rabs n < 1 / 4 * Rabs dt) /\
    (Rabs (proposed dt err / dt) < 1 / 4 -> decide dt err = Reject (proposed dt err)).
  Proof.
    intros Hd He. split; [exact (accepted_bounded dt err n Hd He)|]. split; [exact (rejected_smaller dt err n Hd)|].
    intro X. apply decide_reject. split; [reflexivity|]. rewrite safety. change (Rltb (Rabs (proposed dt err / dt)) (1 / 4) = true). unfold Rltb. destruct (Rlt_dec _ _); [reflexivity|lra].
  Qed.
  Example C22_decision_example : decide (F := R) 1 0 = Accept 4.
  Proof.
    unfold decide. rewrite proposed_real. unfold Reqb. destruct (Req_EM_T 0 0) as [_|N]; [|congruence]. rewrite safety.
    change (@ndiv R NumR) with Rdiv. change (@nabs R NumR) with Rabs. change (@nltb R NumR) with Rltb. change (@n1 R NumR) with 1.
    rewrite (Rabs_pos_eq (1 * 4 / 1)) by lra. unfold Rltb.
    destruct (Rlt_dec (1 * 4 / 1) (1 / 4)); [lra|]. destruct (Rlt_dec (1 / (1 / 4)) (1 * 4 / 1)); [lra|]. rewrite andb_false_r. f_equal. lra.
  Qed.
  (** a whole call: [k] rejections, each at least quartering the step, then one accepted step *)
  Theorem C22_step n (s s' : ias (F := R)) : shaped s -> ia_dt s <> 0 -> passes n s = Ok s' ->
    ia_t s' = ia_t s + ia_last s' /\ Rabs (ia_dt s') <= 4 * Rabs (ia_last s') /\ 1 / 4 * Rabs (ia_last s') <= Rabs (ia_dt s') /\
    exists k s1, (k < n)%nat /\ retries k s s1 /\ attempt s1 = Ok (inr s') /\ ia_last s' = ia_dt s1 /\
      Rabs (ia_last s') <= (1 / 4) ^ k * Rabs (ia_dt s).
  Proof. exact (step_control n s s'). Qed.
  Example C22_example : shaped lone_ias /\ ia_dt lone_ias <> 0 /\ exists s', passes 1 lone_ias = Ok s'.
  Proof. split; [exact lone_shaped|]. split; [cbn; lra|]. destruct lone_attempt as (s' & E & _). cbn [passes]. rewrite E. cbn [rbind]. eauto. Qed.
End Any.

Section AnyNumbers.
  (** for every arithmetic, in particular binary64 with its infinities and NaN *)
  Context {F : Type} `{Num F} `{Trans F} `{Floor F} `{Fuel}.
  Theorem C22_any_number (dt err n : F) :
    (decide dt err = Reject n <-> n = proposed dt err /\ (nabs (n / dt) <? SAFETY_FACTOR)%num = true) /\
    (decide dt err = Accept n -> (nabs (proposed dt err / dt) <? SAFETY_FACTOR)%num = false /\
      (n = (dt / SAFETY_FACTOR)%num \/ n = proposed dt err /\ ((nabs (n / dt) >? n1) && (n / dt >? n1 / SAFETY_FACTOR))%num = false)).
  Proof. split; [exact (decide_reject dt err n)|exact (decide_accept dt err n)]. Qed.
  (** after any number of rejections: positions, velocities, angular momenta, accelerations,
      the clock and the compensations are those of the start *)
  Theorem C22_rejected k (s s1 : ias (F := F)) : shaped s -> retries k s s1 ->
    map moves (u_particles (ia_u s1)) = map moves (u_particles (ia_u s)) /\
    map p_iacc (u_particles (ia_u s1)) = map p_iacc (u_particles (ia_u s)) /\
    ia_t s1 = ia_t s /\ ia_last s1 = ia_last s /\ stays (ia_u s) (ia_u s1) /\ shaped s1 /\
    map (fun k => (k_csx k, k_csv k, k_css k)) (ia_tracks s1) = map (fun k => (k_csx k, k_csv k, k_css k)) (ia_tracks s).
  Proof. exact (retries_same k s s1). Qed.
  (** a trial step goes through its nodes until the error has settled, at most twelve
      times; only a step that has not settled by then is counted *)
  Theorem C22_iterations (s : ias (F := F)) r : attempt s = Ok r ->
    let start := (ia_u s, zip2 work_start (ia_tracks s) (u_particles (ia_u s))) in
    let spin := integrate_spin (ia_u s) in
    let e := error_after spin (ia_t s) (ia_dt s) (nlit (10 ^ 300) 1) start in
    let exceeded := match r with inl s' | inr s' => ia_exceeded s' end in
    exists k s1, (k <= 12)%nat /\ sweeps spin (ia_t s) (ia_dt s) k start = Ok s1 /\
      (forall j, (j < k)%nat -> ~ settled e j) /\
      (exceeded = ia_exceeded s /\ settled e k \/ exceeded = S (ia_exceeded s) /\ k = 12%nat /\ ~ settled e k).
  Proof. exact (attempt_iterations s r). Qed.
  (** it fails only if evaluating the forces fails *)
  Theorem C22_failures (s : ias (F := F)) p : attempt s = Panic p ->
    let start := (ia_u s, zip2 work_start (ia_tracks s) (u_particles (ia_u s))) in
    let spin := integrate_spin (ia_u s) in
    exists k s1, (k < 12)%nat /\ sweeps spin (ia_t s) (ia_dt s) k start = Ok s1 /\
      rfold (node_step spin (ia_t s) (ia_dt s)) (seq 1 7) s1 = Panic p.
  Proof. exact (attempt_panics s p). Qed.
End AnyNumbers.
Example C22_iterations_example `{Trans R} `{Floor R} `{Fuel} : exists s', attempt lone_ias = Ok (inr s').
Proof. destruct lone_attempt as (s' & E & _). eauto. Qed.
(** binary64: an estimate that is zero, subnormal, infinite or not a number *)
Theorem C22_not_normal (dt err : f64) : nnormal err = false -> proposed dt err = (dt / SAFETY_FACTOR)%num.
Proof. exact (proposed_not_normal dt err). Qed.
Example C22_not_normal_example : let dt := (nlit 1 10 : f64) in
  (nnormal (SpecFloat.S754_nan : f64) = false /\ nnormal (SpecFloat.S754_infinity false : f64) = false)
  /\ decide dt (SpecFloat.S754_nan : f64) = Accept (nlit 4 10) /\ decide dt (SpecFloat.S754_infinity false : f64) = Accept (nlit 4 10).
Proof. vm_compute. auto. Qed.

(** ** C23 *)
Theorem C23_above a r : 0 < r -> r ^ 7 = a -> 0 < sqrt7 a /\ r <= sqrt7 a.
Proof. exact (sqrt7_above a r). Qed.
Example C23_example : forall a, 0 < a -> exists r, 0 < r /\ r ^ 7 = a.
Proof. intros a Ha. exists (root7 a). exact (root7_pow a Ha). Qed.
(** the iteration converges, by at least a factor 6/7 each time *)
Theorem C23_limit r : 0 < r -> Un_cv (fun n => repeat_n n (sqrt7_next (r ^ 7)) 1) r
  /\ forall n, repeat_n (S n) (sqrt7_next (r ^ 7)) 1 - r <= (6 / 7) ^ n * (repeat_n 1 (sqrt7_next (r ^ 7)) 1 - r).
Proof. intro Hr. split; [exact (newton7_limit r Hr)|]. intro n. exact (newton7_bound r n Hr). Qed.
(** but the routine stops after twenty iterations, far from the root *)
Theorem C23_converges_refuted : exists r, 0 < r /\ 16 / 3 * r < sqrt7 (r ^ 7).
Proof. exists 3. split; [lra|]. pose proof sqrt7_2187. lra. Qed.
Theorem C23_small_refuted : exists r, 0 < r /\ 4 * r < sqrt7 (r ^ 7).
Proof. exists (1 / 100). split; [lra|]. exact sqrt7_small. Qed.
(** so that a step which the error estimate allows to grow threefold grows fourfold *)
Theorem C23_step_refuted (dt : R) : dt <> 0 -> exists err, / 1000000 / err = 3 ^ 7 /\ decide dt err = Accept (4 * dt).
Proof. exact (too_long dt). Qed.

(** ** C24 *)
Theorem C24_exact_total (l : list R) (p c : R) :
  fst (add_all (p, c) l) - snd (add_all (p, c) l) = p - c + Rsum l /\ (l <> [] \/ c = 0 -> snd (add_all (p, c) l) = 0).
Proof. exact (add_all_eq l p c). Qed.
Example C24_example : add_all (F := R) (1, 0) [2; 3] = (6, 0).
Proof. destruct (add_all_eq [2; 3] 1 0) as (A & B). destruct (add_all (1, 0) [2; 3]) as [p c]. cbn [fst snd] in *. rewrite (B (or_intror eq_refl)) in *. unfold Rsum in A. cbn in A. f_equal; lra. Qed.

(** ** C54 *)
Section Spin.
  Context {F : Type} `{Num F} `{Trans F} `{Floor F} `{Fuel}.
  Theorem C54_ias15_keeps n (s s' : ias (F := F)) : shaped s -> integrate_spin (ia_u s) = false -> ias_steps n s = Ok s' ->
    map p_L (u_particles (ia_u s')) = map p_L (u_particles (ia_u s)).
  Proof. exact (steps_keep_L n s s'). Qed.
End Spin.
(** the wind alone, on a star that LeapFrog slows down *)
Theorem C54_ias15_refuted `{Trans R} `{Floor R} `{Fuel} : fuel <> 0%nat -> exists (s s' : ias (F := R)) p p',
  wind_only (ia_u s) /\ ias_steps 1 s = Ok s' /\ nth_error (u_particles (ia_u s)) 0 = Some p /\ braked (1 / 2) (rotation p) /\
  nth_error (u_particles (ia_u s')) 0 = Some p' /\ p_L p' = p_L p.
Proof.
  intro Hf. destruct (lone_ias_step Hf) as (s' & E). assert (E1 : ias_steps 1 lone_ias = Ok s') by (cbn [ias_steps]; rewrite E; reflexivity).
  pose proof (steps_keep_L 1 lone_ias s' lone_shaped eq_refl E1) as K.
  assert (Ep : nth_error (u_particles (ia_u lone_ias)) 0 = Some (at_ (Vec (-1) 0 0) (Vec 0 (1/100) 0) sun)) by reflexivity.
  apply (f_equal (fun l => nth_error l 0)) in K. rewrite !nth_error_map, Ep in K. destruct (nth_error (u_particles (ia_u s')) 0) as [p'|] eqn:Ep'; [|discriminate K].
  exists lone_ias, s', (at_ (Vec (-1) 0 0) (Vec 0 (1/100) 0) sun), p'. split; [reflexivity|]. split; [exact E1|]. split; [exact Ep|]. split; [exact pair_braked|]. split; [exact Ep'|].
  cbn [option_map] in K. injection K as K. exact K.
Qed.

(** ** C70 *)
(** any number of steps, of any number of bodies *)
Theorem C70_conserves `{Trans R} `{Floor R} `{Fuel} n (s s' : ias (F := R)) :
  unpushed (u_effects (ia_u s)) -> roche_square (ia_u s) -> shaped s -> rested s -> balanced s ->
  ias_steps n s = Ok s' ->
  momentum (u_particles (ia_u s')) = momentum (u_particles (ia_u s)) /\
  Spec.UniverseSpec.weighted p_ipos (u_particles (ia_u s')) =
    vadd (Spec.UniverseSpec.weighted p_ipos (u_particles (ia_u s))) (vscale (ia_t s' - ia_t s) (momentum (u_particles (ia_u s)))) /\
  (unpushed (u_effects (ia_u s')) /\ roche_square (ia_u s') /\ shaped s' /\ rested s' /\ balanced s').
Proof. exact (ias_conserves n s s'). Qed.
(** every new integrator satisfies the hypotheses *)
Theorem C70_new (u : universe R) dt : unpushed (u_effects u) -> roche_square u ->
  let s := ias_new u dt in unpushed (u_effects (ia_u s)) /\ roche_square (ia_u s) /\ shaped s /\ rested s /\ balanced s.
Proof.
  intros Un Sq. cbn zeta. split; [exact Un|]. split; [exact Sq|].
  destruct (C21_new u dt) as (A & B); [destruct Sq as (L & _); exact L|]. split; [exact A|]. split; [exact B|]. apply new_balanced.
Qed.
Example C70_example `{Trans R} `{Floor R} `{Fuel} : fuel <> 0%nat -> unpushed (u_effects (ia_u lone_ias)) /\ roche_square (ia_u lone_ias) /\
  shaped lone_ias /\ rested lone_ias /\ balanced lone_ias /\ exists s', ias_steps 1 lone_ias = Ok s'.
Proof.
  intro Hf. split; [repeat split|]. split; [split; [reflexivity|repeat constructor]|]. split; [exact lone_shaped|]. split; [exact lone_rested|].
  split; [apply new_balanced|]. destruct (lone_ias_step Hf) as (s' & E). exists s'. cbn [ias_steps]. now rewrite E.
Qed.

Print Assumptions C20_prediction.
Print Assumptions C21_integrals.
Print Assumptions C21_motion.
Print Assumptions C21_accepted.
Print Assumptions C21_nodes.
Print Assumptions C21_new.
Print Assumptions C22_decision.
Print Assumptions C22_step.
Print Assumptions C22_any_number.
Print Assumptions C22_rejected.
Print Assumptions C22_not_normal.
Print Assumptions C23_above.
Print Assumptions C23_limit.
Print Assumptions C23_converges_refuted.
Print Assumptions C23_small_refuted.
Print Assumptions C23_step_refuted.
Print Assumptions C24_exact_total.
Print Assumptions C54_ias15_keeps.
Print Assumptions C54_ias15_refuted.
Print Assumptions C22_iterations.
Print Assumptions C22_failures.
Print Assumptions C70_conserves.
Print Assumptions C70_new.
