From Coq Require Import List ZArith NArith Bool Lia Reals Lra.
From Verif Require Import Base.Num Model.Run Model.Cli Spec.RunSpec Proofs.NumLemmas.
Import ListNotations.

Section CliProofs.
  Context {F : Type} `{Num F}.

  (** any value given to --time-limit ends in a usage error or a panic *)
  Lemma time_limit_unusable (a : resume_args (F:=F)) :
    a_time_limit a <> None -> forall st, resume_cli a <> CliOk st.
  Proof.
    intros Ht st. unfold resume_cli, parse_opt.
    destruct (a_time_limit a) as [[n|x]|]; [| |congruence];
    repeat (match goal with
    | |- context [match ?o with Some _ => _ | None => _ end] => destruct o as [[?|?]|]; cbn
    end); try discriminate.
  Qed.

  Lemma time_limit_integer_panics (n : N) l h r :
    (forall x, l <> Some (RDec x)) ->
    resume_cli {| a_limit := l; a_hist_period := h; a_rec_period := r;
                  a_time_limit := Some (RInt (F:=F) n) |} = CliPanic.
  Proof.
    intros Hl. unfold resume_cli, parse_opt; cbn.
    destruct l as [[?|x]|]; [|exfalso; exact (Hl x eq_refl)|];
      destruct h as [[?|?]|]; destruct r as [[?|?]|]; reflexivity.
  Qed.

  (** without --time-limit every other option takes effect *)
  Lemma other_options_usable (l : option N) h r :
    resume_cli (F:=F) {| a_limit := option_map RInt l; a_hist_period := h; a_rec_period := r;
                  a_time_limit := None |}
    = CliOk {| r_hist_period := match h with Some v => value_of v | None => nopp n1 end;
               r_rec_period := match r with Some v => value_of v | None => nopp n1 end;
               r_time_limit := nopp n1;
               r_limit := match l with Some n => n | None => 0%N end |}.
  Proof.
    unfold resume_cli, parse_opt; cbn.
    destruct l as [?|]; destruct h as [[?|?]|]; destruct r as [[?|?]|]; reflexivity.
  Qed.
End CliProofs.

Section SettingsProofs.
  Open Scope R_scope.
  Variable phys : Type.
  Variable evolution_on : phys -> bool.
  Variable table_ends : phys -> list R.
  Notation state := (integ (F:=R) phys).

  Lemma with_limit_same (s : state) : with_limit s (i_limit s) = s.
  Proof. now destruct s. Qed.

  Lemma set_time_limit_spec (s : state) l : i_time s <= i_limit s ->
    let acceptable := i_time s <= l /\
      (evolution_on (i_phys s) = true -> i_limit s < l -> Forall (fun e => l <= e) (table_ends (i_phys s))) in
    (l <= 0 -> set_time_limit phys evolution_on table_ends s l = Some s) /\
    (0 < l -> acceptable -> set_time_limit phys evolution_on table_ends s l = Some (with_limit s l)) /\
    (0 < l -> ~ acceptable -> set_time_limit phys evolution_on table_ends s l = None).
  Proof.
    intros Ht. cbn zeta. unfold set_time_limit. num_simpl.
    assert (Hex : existsb (fun last => Rltb last l) (table_ends (i_phys s)) = true <->
                  ~ Forall (fun e => l <= e) (table_ends (i_phys s))).
    { induction (table_ends (i_phys s)) as [|e es IH]; simpl.
      - split; [discriminate|intros Hn; exfalso; apply Hn; constructor].
      - rewrite orb_true_iff, IH, Rltb_true. split.
        + intros [Hlt|Hn] Hall; inversion Hall; subst; [lra|auto].
        + intros Hn. destruct (Rlt_dec e l) as [?|Hge]; [auto|right].
          intros Hall. apply Hn. constructor; [lra|assumption]. }
    split; [|split].
    - intros Hl. destruct (Rltb_spec 0 l); [lra|reflexivity].
    - intros Hl [Ha1 Ha2]. destruct (Rltb_spec 0 l); [|lra].
      destruct (Reqb_spec (i_limit s) l) as [<-|Hne]; simpl; [now rewrite with_limit_same|].
      destruct (Rltb_spec (i_limit s) l); simpl.
      + destruct (evolution_on (i_phys s)) eqn:Ev; simpl.
        * destruct (existsb _ _) eqn:Eex; [|reflexivity].
          exfalso. apply (proj1 Hex eq_refl). apply Ha2; auto.
        * destruct (Rltb_spec l (i_limit s)); [lra|reflexivity].
      + destruct (Rltb_spec l (i_limit s)); [|lra].
        destruct (Rltb_spec l (i_time s)); [lra|reflexivity].
    - intros Hl Hna. destruct (Rltb_spec 0 l); [|lra].
      destruct (Reqb_spec (i_limit s) l) as [<-|Hne]; simpl.
      { exfalso. apply Hna. split; [assumption|]. intros; lra. }
      destruct (Rltb_spec (i_limit s) l); simpl.
      + destruct (evolution_on (i_phys s)) eqn:Ev; simpl.
        * destruct (existsb _ _) eqn:Eex; [reflexivity|].
          exfalso. apply Hna. split; [lra|]. intros _ _.
          assert (Hnn : ~ ~ Forall (fun e => l <= e) (table_ends (i_phys s))).
          { intros Hn. apply (proj2 Hex) in Hn. discriminate. }
          clear -Hnn. induction (table_ends (i_phys s)) as [|e es IH]; constructor.
          -- destruct (Rle_dec l e); auto. exfalso. apply Hnn. intros Hall. inversion Hall; subst; lra.
          -- apply IH. intros Hn. apply Hnn. intros Hall. inversion Hall; subst; auto.
        * exfalso. apply Hna. split; [lra|discriminate].
      + destruct (Rltb_spec l (i_limit s)); [|lra].
        destruct (Rltb_spec l (i_time s)); [reflexivity|].
        exfalso. apply Hna. split; [lra|]. intros; lra.
  Qed.

  Lemma set_periods_spec (s : state) hist rec :
    set_snapshot_periods phys s hist rec =
      with_periods s (if Rlt_dec 0 hist then hist else i_hist_period s)
                     (if Rlt_dec 0 rec then rec else i_rec_period s).
  Proof.
    unfold set_snapshot_periods, with_periods. num_simpl.
    f_equal.
    - unfold Rltb. destruct (Rlt_dec 0 rec); simpl; auto.
      destruct (Reqb_spec (i_rec_period s) rec); simpl; auto.
    - unfold Rltb. destruct (Rlt_dec 0 hist); simpl; auto.
      destruct (Reqb_spec (i_hist_period s) hist); simpl; auto.
  Qed.
End SettingsProofs.
