(** * Recovery period, command line, limits, sampling and termination (C01, C06-C10)
    Statements over exact (real) arithmetic for the fixed-step integrators. *)
From Coq Require Import List ZArith NArith Bool Reals Lra.
From Verif Require Import Base.Num Model.History Model.Run Model.Machine Model.Cli
  Spec.HistorySpec Spec.RunSpec Spec.ClockSpec
  Proofs.MachineProofs Proofs.MachineTheorems Proofs.ClockProofs Proofs.LossProofs
  Proofs.SettingsProofs Proofs.MachineExec Proofs.ClockExamples.
Import ListNotations.
Open Scope R_scope.

Section FixedStep.
  Variable phys : Type.
  Variable n_particles : nat.
  Variable record_of : phys -> R -> R -> nat -> hrecord.
  Variable observe : phys -> R -> phys.
  Variable lf_advance : phys -> R -> R -> R -> phys.
  Variable wh_advance : phys -> R -> R -> phys.
  Variable ias_advance : phys -> R -> R -> phys * R * R.
  Variable init_phys : phys -> phys.
  Variable evolution_on : phys -> bool.
  Variable table_ends : phys -> list R.
  Variable hash_of : integ (F:=R) phys -> N.
  Variable json_roundtrip : integ (F:=R) phys -> option (integ (F:=R) phys).
  Notation iterate := (iterate phys n_particles record_of observe lf_advance wh_advance ias_advance).
  Notation steps := (steps phys n_particles record_of observe lf_advance wh_advance ias_advance
                      init_phys evolution_on table_ends hash_of json_roundtrip).
  Notation start := (start phys n_particles init_phys evolution_on table_ends json_roundtrip).
  Notation runs := (runs iterate).
  Notation completes := (completes iterate).

  (** C01 for LeapFrog and WHFast with binary snapshots: nothing is assumed about
      the clock. *)
  Theorem C01_fixed_step (case p : path) (lim0 : bool) (d0 d1 : disk (F:=R) phys)
    (s0 : integ (F:=R) phys) ls d :
    (forall q f s, d_files d0 q = Some (Complete f s) -> q = case) ->
    start case p lim0 d0 = Up p lim0 s0 [] PLoop d1 ->
    fixed_step s0 -> 0 <= i_time s0 ->
    p_ext p = Bin -> (forall q, In (LResume q) ls -> p_ext q = Bin) ->
    steps ls (Up p lim0 s0 [] PLoop d1) (Finished d) ->
    exists h, d_hist d = Some h /\ completes s0 h.
  Proof.
    exact (fun Ho Hs Hf Ht Hp Hl Hst =>
      resumed_equals_uninterrupted phys n_particles record_of observe lf_advance wh_advance
        ias_advance init_phys evolution_on table_ends hash_of json_roundtrip neg_one_R
        case p lim0 d0 d1 s0 Ho Hs
        (clock_moves_R phys n_particles record_of observe lf_advance wh_advance ias_advance s0 Hf Ht)
        ls d (or_introl Hp) (fun q Hq => or_introl (Hl q Hq)) Hst).
  Qed.

  (** C06 (no limit).  Between iterations, the complete snapshot at the path of the
      running process is less than one recovery period plus one step old, through
      any sequence of crashes and resumes. *)
  Theorem C06_bounded_loss (case p : path) (lim0 : bool) (d0 d1 : disk (F:=R) phys)
    (s0 : integ (F:=R) phys) ls q s pend d :
    (forall q f s, d_files d0 q = Some (Complete f s) -> q = case) ->
    start case p lim0 d0 = Up p lim0 s0 [] PLoop d1 ->
    p_ext p = Bin -> p <> case ->
    fixed_step s0 -> fresh s0 -> 0 <= i_rec_period s0 ->
    (forall q, In (LResume q) ls -> p_ext q = Bin /\ q <> case) ->
    steps ls (Up p lim0 s0 [] PLoop d1) (Up q false s pend PLoop d) ->
    first_pending s \/
    exists s1, d_files d q = Some (Complete Bin s1) /\
      i_time s - i_time s1 < i_rec_period s + i_dt s.
  Proof.
    exact (bounded_loss phys n_particles record_of observe lf_advance wh_advance ias_advance
      init_phys evolution_on table_ends hash_of json_roundtrip case p lim0 d0 d1 s0 ls q s pend d).
  Qed.

  (** C08.  A positive new limit is adopted unless it precedes the current time or
      exceeds an evolution table, in which case the program refuses. *)
  Theorem C08_time_limit (s : integ (F:=R) phys) l : i_time s <= i_limit s ->
    let acceptable := i_time s <= l /\
      (evolution_on (i_phys s) = true -> i_limit s < l -> Forall (fun e => l <= e) (table_ends (i_phys s))) in
    (l <= 0 -> set_time_limit phys evolution_on table_ends s l = Some s) /\
    (0 < l -> acceptable -> set_time_limit phys evolution_on table_ends s l = Some (with_limit s l)) /\
    (0 < l -> ~ acceptable -> set_time_limit phys evolution_on table_ends s l = None).
  Proof. exact (set_time_limit_spec phys evolution_on table_ends s l). Qed.

  Theorem C08_snapshot_periods (s : integ (F:=R) phys) hist rec :
    set_snapshot_periods phys s hist rec =
      with_periods s (if Rlt_dec 0 hist then hist else i_hist_period s)
                     (if Rlt_dec 0 rec then rec else i_rec_period s).
  Proof. exact (set_periods_spec phys s hist rec). Qed.

  (** C09.  A record is written at step [n] iff it is due: at time zero and at the
      first step at or after each multiple of the period. *)
  Theorem C09_history_sampling n (s0 : integ (F:=R) phys) h s s' out r :
    fixed_step s0 -> fresh s0 -> i_dt s0 <= i_hist_period s0 ->
    runs n s0 h s -> iterate s = (s', out, r) ->
    (sample_due (i_dt s0) (i_hist_period s0) n ->
       out = snapshot_bytes phys n_particles record_of
               (observe (i_phys s) (INR n * i_dt s0)) (INR n * i_dt s0) (i_dt s0)
       /\ i_nhist s' = (i_nhist s + 1)%N) /\
    (~ sample_due (i_dt s0) (i_hist_period s0) n -> out = [] /\ i_nhist s' = i_nhist s).
  Proof.
    exact (history_sampling phys n_particles record_of observe lf_advance wh_advance ias_advance
      n s0 h s s' out r).
  Qed.

  (** C10.  A fixed-step run stops after [k+1 >= 1] steps, its clock is then
      (k+1) dt; this does not exceed the limit if the limit allows one step, and
      one more step would exceed it. *)
  Theorem C10_stops_at_limit (s0 : integ (F:=R) phys) : fixed_step s0 -> i_time s0 = 0 ->
    exists k h s s' out, runs k s0 h s /\ iterate s = (s', out, Completed) /\
      completes s0 (h ++ out) /\
      i_time s' = INR (S k) * i_dt s0 /\
      i_limit s0 < INR (S k) * i_dt s0 + i_dt s0 /\
      (i_dt s0 <= i_limit s0 -> INR (S k) * i_dt s0 <= i_limit s0) /\
      (i_limit s0 < i_dt s0 -> k = 0%nat).
  Proof.
    exact (fixed_run_stops phys n_particles record_of observe lf_advance wh_advance ias_advance s0).
  Qed.

  Theorem C10_clock n (s0 : integ (F:=R) phys) h s : fixed_step s0 -> i_time s0 = 0 ->
    runs n s0 h s -> i_time s = INR n * i_dt s0.
  Proof.
    exact (clock_at phys n_particles record_of observe lf_advance wh_advance ias_advance n s0 h s).
  Qed.
End FixedStep.
Print Assumptions C01_fixed_step.
Print Assumptions C06_bounded_loss.
Print Assumptions C08_time_limit.
Print Assumptions C08_snapshot_periods.
Print Assumptions C09_history_sampling.
Print Assumptions C10_stops_at_limit.
Print Assumptions C10_clock.

(** C09.  For each [k >= 1] exactly one step is the sample of [k] periods, and it
    comes less than one step late. *)
Theorem C09_sampling_error dt P k : 0 < dt -> dt <= P -> (1 <= k)%nat ->
  exists n, sample_due dt P n /\ INR k * P <= INR n * dt < INR k * P + dt /\
    forall m, (INR m - 1) * dt < INR k * P <= INR m * dt -> m = n.
Proof. exact (sampling_error dt P k). Qed.
Print Assumptions C09_sampling_error.

(** C09 needs the step not to exceed the period: with a step of 5 periods the
    records fall behind and the k-th record is taken long after k periods. *)
Theorem C09_step_larger_than_period_refuted :
  exists n h s s' out r,
    RunSpec.runs lagging_iterate n lagging h s /\ lagging_iterate s = (s', out, r) /\
    out <> [] /\ i_time s - i_last_hist s' > 2 * i_dt s.
Proof. exact lagging_history. Qed.
Print Assumptions C09_step_larger_than_period_refuted.

(** C07.  Without --time-limit, every other option sets its setting. *)
Theorem C07_other_options_usable {F} `{Num F} (l : option N) h r :
  resume_cli (F:=F) {| a_limit := option_map RInt l; a_hist_period := h; a_rec_period := r;
                a_time_limit := None |}
  = CliOk {| r_hist_period := match h with Some v => value_of v | None => nopp n1 end;
             r_rec_period := match r with Some v => value_of v | None => nopp n1 end;
             r_time_limit := nopp n1;
             r_limit := match l with Some n => n | None => 0%N end |}.
Proof. exact (other_options_usable l h r). Qed.
Print Assumptions C07_other_options_usable.

(** C07 is false for --time-limit: no value is usable, an integer value makes the
    program panic. *)
Theorem C07_time_limit_refuted {F} `{Num F} :
  (forall (a : resume_args (F:=F)) st, a_time_limit a <> None -> resume_cli a <> CliOk st) /\
  (forall n, resume_cli {| a_limit := None; a_hist_period := None; a_rec_period := None;
                  a_time_limit := Some (RInt (F:=F) n) |} = CliPanic).
Proof.
  exact (conj (fun a st Ht => time_limit_unusable a Ht st)
              (fun n => time_limit_integer_panics n None None None (fun x E => eq_ind (Some (RDec x)) (fun o => match o with None => False | _ => True end) I None (eq_sym E)))).
Qed.
Print Assumptions C07_time_limit_refuted.

(** C06 with a limit, and C10 in binary64: concrete counterexamples *)
Theorem C06_period_with_limit_refuted :
  exists m s p pend d,
    limited_run m /\ m = Up p true s pend PLoop d /\
    ((z 100) <=? i_time s)%num = true /\ i_rec_period s = z 2 /\
    (forall q, d_files d q = d_files MachineExec.toy_d1 q).
Proof. exact limited_run_exists. Qed.
Print Assumptions C06_period_with_limit_refuted.

Theorem C10_binary64_clock_refuted :
  exists h s, RunSpec.runs drift_iterate 10 drift h s /\
    i_dt s = tenth /\ (i_time s =? f64_mul (z 10) tenth)%num = false.
Proof. exact drift_exists. Qed.
Print Assumptions C10_binary64_clock_refuted.

(** What a freshly built fixed-step integrator looks like *)
Theorem C10_new_integrator phys k dt rec hist limit (p : phys) : k <> KIas15 -> 0 < dt ->
  fixed_step (new_integ phys k dt rec hist limit p) /\ fresh (new_integ phys k dt rec hist limit p) /\
  i_limit (new_integ phys k dt rec hist limit p) = limit /\ i_dt (new_integ phys k dt rec hist limit p) = dt.
Proof. exact (new_fixed phys k dt rec hist limit p). Qed.
Print Assumptions C10_new_integrator.

(** *** Non-vacuity *)
Example C10_example : fixed_step lagging /\ i_time lagging = 0 /\ fresh lagging.
Proof. exact lagging_fresh. Qed.
Example C09_example : fixed_step sampled /\ fresh sampled /\ i_dt sampled <= i_hist_period sampled.
Proof. exact sampled_ok. Qed.
Example C06_C01_example : exists d0 d1 s0 case p,
  (forall q f s, d_files d0 q = Some (Complete f s) -> q = case) /\
  start unit 2 (fun x => x) (fun _ => false) (fun _ => []) Some case p false d0 = Up p false s0 [] PLoop d1 /\
  p_ext p = Bin /\ p <> case /\ fixed_step s0 /\ fresh s0 /\ 0 <= i_rec_period s0.
Proof. exact real_start. Qed.
Example C08_example : exists (s : integ (F:=R) unit), i_time s <= i_limit s /\ 0 < i_time s.
Proof. exact started_state. Qed.
