(** * The iterations of an IAS15 step (C22) *)
From Coq Require Import ZArith List Bool Arith Lia.
From Verif Require Import Base.Num Base.Result Base.Trans Base.Vec Model.Particle Model.Creep Model.Universe Model.WHFast Model.IAS15
  Spec.CorrectorSpec Proofs.IAS15Step.
Import ListNotations.
Open Scope num_scope.

Section Any.
  Context {F : Type} `{Num F} `{Trans F} `{Floor F} `{Creep.Fuel}.
  Notation state := (universe F * list (work (F := F)))%type.
  Lemma sweeps_last spin t dt k : forall (s s1 s2 : state), sweeps spin t dt k s = Ok s1 ->
    rfold (node_step spin t dt) (seq 1 7) s1 = Ok s2 -> sweeps spin t dt (S k) s = Ok s2.
  Proof.
    induction k as [|k IH]; intros s s1 s2 E E2.
    - cbn [sweeps] in E. injection E as <-. cbn [sweeps]. rewrite E2. reflexivity.
    - cbn [sweeps] in E. change (sweeps spin t dt (S (S k)) s) with (rbind (rfold (node_step spin t dt) (seq 1 7) s) (fun s => sweeps spin t dt (S k) s)).
      destruct (rfold (node_step spin t dt) (seq 1 7) s) as [s0|]; [|discriminate]. cbn [rbind] in *. exact (IH s0 s1 s2 E E2).
  Qed.
  Variable spin : bool.
  Variables (t dt first : F) (s0 : state).
  Notation e := (error_after spin t dt first s0).

  Lemma not_settled k last : nltb (e k) (nlit 1%Z 10000000000000000%positive) = false -> (Nat.ltb 2 k && nleb last (e k))%bool = false ->
    (k = O \/ last = e (pred k)) -> ~ settled e k.
  Proof.
    intros A B L [X|(Y & X)]; [congruence|]. destruct L as [L|L]; [lia|]. rewrite L in B.
    apply andb_false_iff in B. destruct B as [B|B]; [apply Nat.ltb_ge in B; lia|congruence].
  Qed.
  Lemma corrector_from n : forall it s last s' o, (12 <= n + it)%nat -> (it <= 12)%nat -> sweeps spin t dt it s0 = Ok s ->
    (it = O \/ last = e (pred it)) -> (forall j, (j < it)%nat -> ~ settled e j) ->
    corrector n it spin t dt (e it) last s = Ok (s', o) ->
    exists k, (k <= 12)%nat /\ sweeps spin t dt k s0 = Ok s' /\ (forall j, (j < k)%nat -> ~ settled e j) /\
      (o = false /\ settled e k \/ o = true /\ k = 12%nat /\ ~ settled e k).
  Proof.
    induction n as [|n IH]; intros it s last s' o Hn Hi Hs Hl Hj E; cbn [corrector] in E.
    - destruct (nltb (e it) _) eqn:A. { injection E as <- <-. exists it. repeat split; auto. left. split; [reflexivity|now left]. }
      destruct (Nat.ltb 2 it && _) eqn:B.
      { injection E as <- <-. exists it. repeat split; auto. left. split; [reflexivity|]. right. apply andb_prop in B. destruct B as (B1 & B2).
        apply Nat.ltb_lt in B1. destruct Hl as [Hl|Hl]; [lia|]. subst last. split; [lia|exact B2]. }
      pose proof (not_settled it last A B Hl) as N.
      destruct (Nat.leb 12 it) eqn:C; [|apply Nat.leb_gt in C; lia].
      injection E as <- <-. apply Nat.leb_le in C. exists it. repeat split; auto. right. repeat split; auto. lia.
    - destruct (nltb (e it) _) eqn:A. { injection E as <- <-. exists it. repeat split; auto. left. split; [reflexivity|now left]. }
      destruct (Nat.ltb 2 it && _) eqn:B.
      { injection E as <- <-. exists it. repeat split; auto. left. split; [reflexivity|]. right. apply andb_prop in B. destruct B as (B1 & B2).
        apply Nat.ltb_lt in B1. destruct Hl as [Hl|Hl]; [lia|]. subst last. split; [lia|exact B2]. }
      pose proof (not_settled it last A B Hl) as N.
      destruct (Nat.leb 12 it) eqn:C.
      { injection E as <- <-. apply Nat.leb_le in C. exists it. repeat split; auto. right. repeat split; auto. lia. }
      apply Nat.leb_gt in C.
      destruct (rfold (node_step spin t dt) (seq 1 7) s) as [s1|] eqn:E1; [|discriminate]. cbn [rbind] in E.
      pose proof (sweeps_last spin t dt it s0 s s1 Hs E1) as Hs1.
      assert (Ee : corrector_error spin (snd s1) = e (S it)) by (unfold error_after; rewrite Hs1; reflexivity).
      rewrite Ee in E. apply (IH (S it) s1 (e it) s' o); auto; try lia.
      intros j Hlt. destruct (Nat.eq_dec j it) as [->|X]; [exact N|]. apply Hj. lia.
  Qed.
  Lemma corrector_panics n : forall it s err last p, (12 <= n + it)%nat -> sweeps spin t dt it s0 = Ok s ->
    corrector n it spin t dt err last s = Panic p ->
    exists k s1, (k < 12)%nat /\ sweeps spin t dt k s0 = Ok s1 /\ rfold (node_step spin t dt) (seq 1 7) s1 = Panic p.
  Proof.
    induction n as [|n IH]; intros it s err last p Hn Hs E; cbn [corrector] in E;
      (destruct (nltb err _); [discriminate|]); (destruct (_ && _); [discriminate|]); (destruct (Nat.leb 12 it) eqn:C; [discriminate|]); apply Nat.leb_gt in C; [lia|].
    destruct (rfold (node_step spin t dt) (seq 1 7) s) as [s1|q] eqn:E1; cbn [rbind] in E.
    - apply (IH (S it) s1 (corrector_error spin (snd s1)) err p); [lia| |exact E]. exact (sweeps_last spin t dt it s0 s s1 Hs E1).
    - injection E as ->. exists it, s. auto.
  Qed.
  Lemma corrector_stops last s' o : corrector 12 0 spin t dt first last s0 = Ok (s', o) ->
    exists k, (k <= 12)%nat /\ sweeps spin t dt k s0 = Ok s' /\ (forall j, (j < k)%nat -> ~ settled e j) /\
      (o = false /\ settled e k \/ o = true /\ k = 12%nat /\ ~ settled e k).
  Proof. intro E. apply (corrector_from 12 0 s0 last s' o); auto; try lia. Qed.
  Lemma corrector_fails last p : corrector 12 0 spin t dt first last s0 = Panic p ->
    exists k s1, (k < 12)%nat /\ sweeps spin t dt k s0 = Ok s1 /\ rfold (node_step spin t dt) (seq 1 7) s1 = Panic p.
  Proof. intro E. apply (corrector_panics 12 0 s0 first last p); auto. Qed.
End Any.

Section Attempt.
  Context {F : Type} `{Num F} `{Trans F} `{Floor F} `{Creep.Fuel}.
  Lemma attempt_iterations (s : ias (F := F)) r : attempt s = Ok r ->
    let start := (ia_u s, zip2 work_start (ia_tracks s) (u_particles (ia_u s))) in
    let spin := integrate_spin (ia_u s) in
    let e := error_after spin (ia_t s) (ia_dt s) (nlit (10 ^ 300) 1) start in
    let exceeded := match r with inl s' | inr s' => ia_exceeded s' end in
    exists k s1, (k <= 12)%nat /\ sweeps spin (ia_t s) (ia_dt s) k start = Ok s1 /\
      (forall j, (j < k)%nat -> ~ settled e j) /\
      (exceeded = ia_exceeded s /\ settled e k \/ exceeded = S (ia_exceeded s) /\ k = 12%nat /\ ~ settled e k).
  Proof.
    intro E. destruct (IAS15Step.attempt_inv s r E) as (s1 & o & C & D). cbv zeta in *.
    destruct (corrector_stops _ _ _ _ _ _ _ _ C) as (k & Hk & Hs & Hj & Ho).
    exists k, s1. split; [exact Hk|]. split; [exact Hs|]. split; [exact Hj|].
    assert (X : match r with inl s' | inr s' => ia_exceeded s' end = if o then S (ia_exceeded s) else ia_exceeded s).
    { destruct r as [s'|s']; destruct D as (new & _ & ->); reflexivity. }
    rewrite X. destruct Ho as [(-> & St)|(-> & ? & ?)]; auto.
  Qed.
  Lemma attempt_panics (s : ias (F := F)) p : attempt s = Panic p ->
    let start := (ia_u s, zip2 work_start (ia_tracks s) (u_particles (ia_u s))) in
    let spin := integrate_spin (ia_u s) in
    exists k s1, (k < 12)%nat /\ sweeps spin (ia_t s) (ia_dt s) k start = Ok s1 /\
      rfold (node_step spin (ia_t s) (ia_dt s)) (seq 1 7) s1 = Panic p.
  Proof.
    unfold attempt. intros E. cbv zeta.
    destruct (corrector _ _ _ _ _ _ _ _) as [[[u ws] o]|q] eqn:E1; cbn [rbind] in E.
    - destruct (decide _ _); discriminate.
    - injection E as ->. exact (corrector_fails _ _ _ _ _ _ _ E1).
  Qed.
End Attempt.
