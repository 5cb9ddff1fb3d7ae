(** The setters of a particle: what they accept, and what a program that uses them can reach *)
From Coq Require Import Reals Lra List Bool ZArith Arith.
From Verif Require Import Base.Num Base.Result Base.Vec Model.Particle Model.Setters Proofs.NumLemmas Spec.SettersSpec.
Import ListNotations.
Open Scope R_scope.

Definition laws (p : particle R) : law * law := (law_of_tides (t_effect (p_tides p)), law_of_flattening (rf_effect (p_rf p))).
Definition agree (p : particle R) : Prop := laws_agree (fst (laws p)) (snd (laws p)).

Lemma check_spec (p : particle R) : check_viscosity p = Ok tt <-> agree p.
Proof.
  assert (L : forall v w, (if Rltb (1 / 10000000000000000) (Rabs (v - w)) then Panic POther else Ok tt) = Ok tt
                          <-> Rabs (v - w) <= 1 / 10000000000000000).
  { intros v w. unfold Rltb. destruct (Rlt_dec _ _); split; intro E; try discriminate; try lra; auto. }
  unfold check_viscosity, agree, laws, law_of_tides, law_of_flattening. cbn [fst snd].
  destruct (t_effect (p_tides p)) as [[|v|]|[|v|]|], (rf_effect (p_rf p)) as [[|w]|[|w]|];
    cbn [negb andb orb tides_creep_law rf_creep_law laws_agree];
    try (split; intro E; [exact I|reflexivity]); try (split; intro E; [discriminate|contradiction]); apply L.
Qed.
Lemma check_not (p : particle R) : ~ agree p -> check_viscosity p = Panic POther.
Proof.
  intro N. destruct (check_viscosity p) as [[]|k] eqn:E; [exfalso; apply N, check_spec, E|].
  revert E. unfold check_viscosity.
  destruct (negb _ && negb _); [|discriminate]. destruct (tides_creep_law _) as [b1 v], (rf_creep_law _) as [b2 w].
  destruct (_ || _); [now intros [= <-]|]. destruct (b1 && b2); [|discriminate].
  destruct (_ <? _)%num; [now intros [= <-]|discriminate].
Qed.

Lemma attach_tides_spec t (p : particle R) :
  (laws_agree (law_of_tides (t_effect t)) (law_of_flattening (rf_effect (p_rf p))) -> attach_tides t p = Ok (set_p_tides t p)) /\
  (~ laws_agree (law_of_tides (t_effect t)) (law_of_flattening (rf_effect (p_rf p))) -> attach_tides t p = Panic POther).
Proof.
  unfold attach_tides. split; intro A.
  - now rewrite (proj2 (check_spec (set_p_tides t p)) A).
  - now rewrite (check_not (set_p_tides t p) A).
Qed.
Lemma attach_flattening_spec r (p : particle R) :
  (laws_agree (law_of_tides (t_effect (p_tides p))) (law_of_flattening (rf_effect r)) -> attach_flattening r p = Ok (set_p_rf r p)) /\
  (~ laws_agree (law_of_tides (t_effect (p_tides p))) (law_of_flattening (rf_effect r)) -> attach_flattening r p = Panic POther).
Proof.
  unfold attach_flattening. split; intro A.
  - now rewrite (proj2 (check_spec (set_p_rf r p)) A).
  - now rewrite (check_not (set_p_rf r p) A).
Qed.

Lemma attach_agree s (p q : particle R) : attach p s = Ok q -> agree q.
Proof.
  destruct s as [t|r]; cbn [attach]; [unfold attach_tides|unfold attach_flattening];
    destruct (check_viscosity _) as [[]|] eqn:E; cbn [rbind]; try discriminate; intros Q;
    apply check_spec in E; apply (f_equal (fun r => match r with Ok x => x | Panic _ => q end)) in Q; cbn beta iota in Q;
    now rewrite <- Q.
Qed.
Lemma attach_all_agree l : forall (p q : particle R), agree p -> attach_all p l = Ok q -> agree q.
Proof.
  unfold attach_all. induction l as [|s l IH]; cbn [rfold]; intros p q A E.
  - apply (f_equal (fun r => match r with Ok x => x | Panic _ => q end)) in E. cbn beta iota in E. now rewrite <- E.
  - destruct (attach p s) as [p1|] eqn:E1; cbn [rbind] in E; [|discriminate].
    eapply IH; [|exact E]. eapply attach_agree; eauto.
Qed.
Lemma new_agree k2 mass radius rg x v spin : agree (new_particle k2 mass radius rg x v spin).
Proof. exact I. Qed.

(** a body that has both effects never changes its law unless one of them is disabled in between *)
Definition enabling (s : setter R) : Prop :=
  match s with SetTides t => law_of_tides (t_effect t) <> NoLaw | SetFlattening r => law_of_flattening (rf_effect r) <> NoLaw end.
Definition both (p : particle R) : Prop := fst (laws p) <> NoLaw /\ snd (laws p) <> NoLaw.
Lemma agree_creep p : both p -> agree p -> (is_creep (fst (laws p)) <-> is_creep (snd (laws p))).
Proof.
  unfold both, agree. destruct (laws p) as [a b]. cbn [fst snd]. intros [Ha Hb] A.
  destruct a, b; cbn in A; try contradiction; try congruence; split; intros [x E]; try discriminate; eexists; reflexivity.
Qed.
Lemma attach_same_law s (p q : particle R) : enabling s -> both p -> agree p -> attach p s = Ok q ->
  both q /\ (is_creep (fst (laws p)) <-> is_creep (fst (laws q))).
Proof.
  intros Hs Hb A E. pose proof (attach_agree _ _ _ E) as Aq.
  assert (Hq : (fst (laws q) = fst (laws p) \/ snd (laws q) = snd (laws p)) /\ both q).
  { destruct s as [t|r]; cbn [attach enabling] in *; [unfold attach_tides in E|unfold attach_flattening in E];
      destruct (check_viscosity _) as [[]|]; cbn [rbind] in E; try discriminate;
      apply (f_equal (fun r => match r with Ok x => x | Panic _ => q end)) in E; cbn beta iota in E; rewrite <- E;
      destruct Hb as [Ha Hb]; (split; [|split]); auto. }
  destruct Hq as [Hl Hq]. split; [exact Hq|].
  pose proof (agree_creep p Hb A). pose proof (agree_creep q Hq Aq).
  destruct Hl as [-> |Hl]; [reflexivity|]. rewrite Hl in *. tauto.
Qed.
Lemma attach_all_same_law l : Forall enabling l -> forall (p q : particle R), both p -> agree p -> attach_all p l = Ok q ->
  (is_creep (fst (laws p)) <-> is_creep (fst (laws q))).
Proof.
  unfold attach_all. induction 1 as [|s l Hs Hl IH]; cbn [rfold]; intros p q Hb A E.
  - apply (f_equal (fun r => match r with Ok x => x | Panic _ => q end)) in E. cbn beta iota in E. now rewrite <- E.
  - destruct (attach p s) as [p1|] eqn:E1; cbn [rbind] in E; [|discriminate].
    destruct (attach_same_law _ _ _ Hs Hb A E1) as [Hb1 Hc]. rewrite Hc.
    eapply IH; eauto. eapply attach_agree; eauto.
Qed.
