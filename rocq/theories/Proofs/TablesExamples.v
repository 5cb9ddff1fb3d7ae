(** Concrete tables and bodies, used as examples and counterexamples in
    Props/TablesProps.v *)
From Coq Require Import Reals List Arith Lra Lia Bool ZArith SpecFloat.
From Verif Require Import Base.Num Base.Result Base.Vec Base.Trans Model.Particle Model.Interp Model.Tools
  Spec.TablesSpec Proofs.NumLemmas Proofs.TablesProofs Proofs.EvolveProofs.
Import ListNotations.
Open Scope R_scope.

(** times 0, 1, ..., 19; radius i^2 at time i *)
Definition ages : list R := map INR (seq 0 20).
Definition radii : list R := map (fun i => INR i * INR i) (seq 0 20).
Definition star : evolver R := Evolver (Baraffe1998 1) ages radii [] [] [] 0.

Lemma nth_map_seq (f : nat -> R) n i : (i < n)%nat -> nth i (map f (seq 0 n)) 0 = f i.
Proof.
  intros Hi. rewrite (nth_indep _ 0 (f O)) by (rewrite map_length, seq_length; lia).
  rewrite map_nth, seq_nth by lia. reflexivity.
Qed.
Lemma ages_table : table ages radii.
Proof.
  split; [discriminate|]. split; [reflexivity|].
  intros i j Hij. change (length ages) with 20%nat in Hij. unfold ages.
  rewrite !nth_map_seq by lia. apply lt_INR. lia.
Qed.
Lemma star_well : well_tabulated star.
Proof. intros [] Hq; cbn in Hq; try discriminate. exact ages_table. Qed.

Lemma star_row : bracket ages (31/2) 15.
Proof.
  change (length ages) with 20%nat.
  unfold bracket. change (length ages) with 20%nat. unfold ages.
  split; [lia|]. split; [|split].
  - intros H. rewrite nth_map_seq in H by lia. simpl in H. lra.
  - intros _. rewrite nth_map_seq by lia. simpl. lra.
  - intros j Hj. rewrite nth_map_seq by lia.
    apply Rlt_le_trans with (INR 16); [simpl; lra|]. apply le_INR. lia.
Qed.

(** asked at 15.5, 15.5 and then at 12.5 the program answers 15^2, while the
    table says 12.5 interpolates to (144+169)/2 *)
Theorem star_back :
  exists v1 v2 v3,
    get_all star [(QRadius, 31/2, 0); (QRadius, 31/2, 0); (QRadius, 25/2, 0)] = Ok [v1; v2; v3]
    /\ v3 = 225 /\ forall w, expected star (QRadius, 25/2, 0) w -> w = 313/2.
Proof.
  destruct (going_back star (31/2) (25/2) 15 0 ages_table ltac:(discriminate) eq_refl star_row ltac:(lia))
    as (v1 & v2 & E).
  { cbn [ev_time star]. unfold ages. rewrite nth_map_seq by lia. simpl. lra. }
  exists v1, v2, (nth 15 (ev_radius star) 0). split; [exact E|]. split.
  - cbn [ev_radius star]. unfold radii. rewrite nth_map_seq by lia. simpl. lra.
  - intros w (_ & _ & Hw). rewrite (Hw 12%nat).
    + cbn [ev_time ev_radius star column]. unfold ages, radii. rewrite !nth_map_seq by lia. simpl. field.
    + change (length (ev_time star)) with 20%nat. lia.
    + cbn [ev_time star]. unfold ages. rewrite !nth_map_seq by lia. simpl. lra.
Qed.

(** a sequence of requests meeting the hypotheses of the positive theorem *)
Lemma star_forward :
  well_tabulated star /\ ev_left star = 0%nat /\
  nondecreasing (map (fun '(_, t, _) => t)
    [(QRadius, 1/2, 0); (QGyration, 1/2, 7); (QRadius, 31/2, 0); (QRadius, 100, 0)]).
Proof. split; [exact star_well|]. split; [reflexivity|]. simpl. repeat split; lra. Qed.

(** *** An evolving Love number is computed and dropped *)
Definition q64 (n : Z) (d : positive) : f64 := nlit n d.
Definition planet_evolver : evolver f64 :=
  Evolver (LeconteChabrier2013 false) [q64 0 1; q64 1 1] [q64 1 1; q64 1 1] [q64 1 4; q64 1 4]
    [q64 1 10; q64 1 2] [] 0.
Definition love_params (k : f64) := {| ctl_dissipation := n1; ctl_scale := n1; ctl_love := k |}.
Definition young_planet : particle f64 :=
  set_p_tides (new_tides (TidesOrbiting (ConstantTimeLag (love_params (q64 1 10)))))
    (set_p_evo (LeconteChabrier2013 false)
      (new_particle n1 n1 n1 (q64 1 2) vzero vzero vzero)).

Definition love_used (p : particle f64) : option f64 :=
  match t_effect (p_tides p) with
  | TidesCentral (ConstantTimeLag q) | TidesOrbiting (ConstantTimeLag q) => Some (ctl_love q)
  | _ => None
  end.
Definition love_check : bool :=
  match evolve_non_spin (q64 1 1) (young_planet, planet_evolver),
        evolver_love planet_evolver (q64 1 1) n0 with
  | Ok (p', _), Ok (v, _) =>
      match love_used p' with
      | Some k => neqb v (q64 1 2) && neqb k (q64 1 10) && negb (neqb v k)
      | None => false end
  | _, _ => false
  end.
Lemma love_lost :
  exists p' e' v e'' k,
    evolve_non_spin (q64 1 1) (young_planet, planet_evolver) = Ok (p', e') /\
    evolver_love planet_evolver (q64 1 1) n0 = Ok (v, e'') /\
    love_used p' = Some k /\ neqb v k = false.
Proof.
  assert (E : love_check = true) by (vm_compute; reflexivity).
  unfold love_check in E.
  destruct (evolve_non_spin _ _) as [[p' e']|]; [|discriminate E].
  destruct (evolver_love _ _ _) as [[v e'']|]; [|discriminate E].
  destruct (love_used p') as [k|] eqn:Ek; [|discriminate E].
  exists p', e', v, e'', k. repeat split; auto.
  apply andb_prop in E. destruct E as [_ E]. now destruct (neqb v k).
Qed.

(** *** Reducing a tiny negative angle in binary64 *)
Lemma modulus_tiny :
  exists a b : f64, (n0 <? b)%num = true /\ modulus a b = b.
Proof. exists (SFopp (q64 1 1152921504606846976)), (q64 360 1). split; vm_compute; reflexivity. Qed.

Lemma third_differs v1 v2 v3 :
  Forall2 (expected star) [(QRadius, 31/2, 0); (QRadius, 31/2, 0); (QRadius, 25/2, 0)] [v1; v2; v3] ->
  v3 = 225 -> (forall w, expected star (QRadius, 25/2, 0) w -> w = 313/2) -> False.
Proof.
  intros HF E Hw. inversion HF as [|? ? ? ? _ HF2]; subst.
  inversion HF2 as [|? ? ? ? _ HF3]; subst. inversion HF3 as [|? ? ? ? H3 _]; subst.
  specialize (Hw _ H3). lra.
Qed.
Lemma two_pi_positive : 0 < 2 * PI /\ -7 < 0.
Proof. pose proof PI_RGT_0. lra. Qed.
