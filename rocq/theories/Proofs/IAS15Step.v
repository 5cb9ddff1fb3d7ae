(** * Passes of the IAS15 main loop *)
From Coq Require Import Reals List Bool Lra Lia Arith.
From Verif Require Import Base.Num Base.Result Base.Trans Base.Vec Model.Constants Model.Particle Model.Host
  Model.Creep Model.Relativity Model.Universe Model.WHFast Model.IAS15
  Spec.EffectsSpec Spec.UniverseSpec Spec.IAS15Spec Proofs.NumLemmas Proofs.VecLemmas Proofs.GravityProofs Proofs.LeapFrogProofs
  Proofs.FrameProofs Proofs.EffectSums Proofs.WHFastStep.
Import ListNotations.

Lemma zip2_len {A B C} (f : A -> B -> C) a b : length a = length b -> length (zip2 f a b) = length b.
Proof. intro E. unfold zip2. rewrite map_length, combine_len; congruence. Qed.
Lemma zip2_right {A B C E} (f : A -> B -> C) (g : C -> E) (h : B -> E) a b : length a = length b ->
  (forall x y, g (f x y) = h y) -> map g (zip2 f a b) = map h b.
Proof.
  revert b. unfold zip2. induction a as [|x a IH]; intros [|y b] L Hf; try discriminate L; [reflexivity|].
  cbn [combine map fst snd]. f_equal; [apply Hf|]. apply IH; [now injection L|exact Hf].
Qed.
Lemma zip2_left {A B C E} (f : A -> B -> C) (g : C -> E) (h : A -> E) a b : length a = length b ->
  (forall x y, g (f x y) = h x) -> map g (zip2 f a b) = map h a.
Proof.
  revert b. unfold zip2. induction a as [|x a IH]; intros [|y b] L Hf; try discriminate L; [reflexivity|].
  cbn [combine map fst snd]. f_equal; [apply Hf|]. apply IH; [now injection L|exact Hf].
Qed.
Lemma zip2_nth {A B C} (f : A -> B -> C) a b i : nth_error (zip2 f a b) i =
  match nth_error a i, nth_error b i with Some x, Some y => Some (f x y) | _, _ => None end.
Proof.
  revert b i. unfold zip2. induction a as [|x a IH]; intros [|y b] [|i]; try reflexivity.
  - cbn. now destruct (nth_error a i).
  - cbn [combine map nth_error]. apply IH.
Qed.
Lemma axis_each {B} (x : forall A, vec A -> A) (f : (forall A, vec A -> A) -> B) : axis x -> x _ (each f) = f x.
Proof. intros [-> | [-> | ->]]; reflexivity. Qed.
Lemma each_eq {A} (v w : vec A) : (forall x, axis x -> x _ v = x _ w) -> v = w.
Proof.
  intro E. destruct v as [a b c], w as [a' b' c']. pose proof (E (@vx) (or_introl eq_refl)) as E1. pose proof (E (@vy) (or_intror (or_introl eq_refl))) as E2.
  pose proof (E (@vz) (or_intror (or_intror eq_refl))) as E3. cbn in *. now subst.
Qed.

Section Frame.
  Context {F : Type} `{Num F} `{Trans F} `{Floor F} `{Fuel}.
  Local Notation state := (universe F * list (work (F := F)))%type.

  Lemma evaluate_view {B} (c : particle F -> B) t u u' : blind_step (u_effects u) c -> (forall p v, c (set_p_iacc v p) = c p) ->
    length (u_roche u) = length (u_particles u) -> evaluate t u = Ok u' ->
    map c (u_particles u') = map c (u_particles u) /\ stays u u'.
  Proof.
    intros Hc Ha L E. unfold evaluate in E.
    destruct (gravity IgnoreNone u) as [u1|] eqn:E1; [|discriminate E]. cbn [rbind] in E.
    apply (gravity_view c) in E1; auto. destruct E1 as (A1 & S1).
    destruct (inertial_to_heliocentric u1) as [u2|] eqn:E2; [|discriminate E]. cbn [rbind] in E.
    destruct (additional_effects _ _ _ _ _ u2) as [u3|] eqn:E3; [|discriminate E]. cbn [rbind] in E. injection E as <-.
    assert (Hc1 : blind_step (u_effects u1) c) by (destruct S1 as (-> & _); exact Hc).
    destruct (evaluation_view c _ _ _ _ _ _ _ _ Hc1 E2 E3) as (A3 & S3).
    split.
    - unfold apply_corrections. cbn [u_particles set_particles]. rewrite map_map.
      erewrite map_ext; [rewrite A3; exact A1|]. intro p. apply Ha.
    - eapply stays_trans; [exact S1|]. eapply stays_trans; [exact S3|]. unfold stays. cbn. auto.
  Qed.
  Lemma evaluate_len t u u' : length (u_roche u) = length (u_particles u) -> evaluate t u = Ok u' -> length (u_particles u') = length (u_particles u) /\ stays u u'.
  Proof.
    intros L E. apply (evaluate_view (fun _ => tt)) in E; auto; [|apply blind_step_unit]. destruct E as (A & S). split; [now apply view_len|exact S].
  Qed.

  (** what a work record never changes *)
  Definition frozen (w : work (F := F)) := (w_x0 w, w_v0 w, w_a0 w, w_L0 w, w_dL0 w, w_track w).
  Definition fits (s : state) : Prop :=
    length (snd s) = length (u_particles (fst s)) /\ length (u_roche (fst s)) = length (u_particles (fst s)).
  Record blind_ias {B} (spin : bool) (e : effects) (c : particle F -> B) : Prop := {
    bi_step : blind_step e c; bi_v : forall p v, c (set_p_ivel v p) = c p; bi_x : forall p v, c (set_p_ipos v p) = c p;
    bi_a : forall p v, c (set_p_iacc v p) = c p; bi_L : spin = true -> forall p v, c (set_p_L v p) = c p }.
  Lemma blind_ias_unit spin e : blind_ias spin e (fun _ : particle F => tt).
  Proof. split; auto. apply blind_step_unit. Qed.
  Lemma place_view {B} spin e (c : particle F -> B) h dt w p : blind_ias spin e c -> c (place spin h dt w p) = c p.
  Proof. intros [_ Hv Hx _ HL]. unfold place. destruct spin; [rewrite (HL eq_refl)|]; now rewrite Hv, Hx. Qed.

  Definition placed (spin : bool) (dt : F) (n : nat) (s : state) : universe F :=
    set_particles (zip2 (place spin (node n) dt) (snd s) (u_particles (fst s))) (fst s).
  Lemma node_step_inv spin t dt s n s' : fits s -> node_step spin t dt s n = Ok s' ->
    evaluate (nadd t (nmul dt (node n))) (placed spin dt n s) = Ok (fst s') /\
    snd s' = zip2 (fit spin n) (snd s) (u_particles (fst s')) /\ fits s' /\ stays (fst s) (fst s') /\
    length (snd s') = length (snd s) /\ map frozen (snd s') = map frozen (snd s) /\
    (forall B (c : particle F -> B), blind_ias spin (u_effects (fst s)) c -> map c (u_particles (fst s')) = map c (u_particles (fst s))).
  Proof.
    destruct s as [u ws]. intros (L & Lr) E. cbn [fst snd] in *. unfold node_step in E.
    fold (placed spin dt n (u, ws)) in E. change (set_particles (zip2 (place spin (node n) dt) ws (u_particles u)) u) with (placed spin dt n (u, ws)) in E.
    destruct (evaluate _ (placed spin dt n (u, ws))) as [u'|] eqn:E1; [|discriminate E]. cbn [rbind] in E. injection E as <-. cbn [fst snd].
    assert (Lz : length (u_particles (placed spin dt n (u, ws))) = length (u_particles u)) by (cbn; now apply zip2_len).
    assert (Lr' : length (u_roche (placed spin dt n (u, ws))) = length (u_particles (placed spin dt n (u, ws)))) by (rewrite Lz; exact Lr).
    destruct (evaluate_len _ _ _ Lr' E1) as (Ll & St). pose proof St as (Se & Sh & Sg & Sr). cbn in Se, Sh, Sg, Sr.
    assert (Lw : length ws = length (u_particles u')) by congruence.
    split; [reflexivity|]. split; [reflexivity|]. split.
    { split; cbn [fst snd]; [rewrite zip2_len; congruence|]. rewrite Sr. congruence. }
    split; [unfold stays; auto|]. split; [rewrite zip2_len; congruence|].
    split; [apply zip2_left; [congruence|reflexivity]|].
    intros B c Hc. pose proof Hc as [Hs _ _ Ha _]. destruct (evaluate_view c _ (placed spin dt n (u, ws)) _ Hs Ha Lr' E1) as (A & _). rewrite A.
    cbn [placed u_particles set_particles fst snd]. apply zip2_right; [exact L|]. intros. eapply place_view; exact Hc.
  Qed.

  (** a relation between states that one node step preserves is preserved by everything *)
  Record moved (spin : bool) (s s' : state) : Prop := {
    mv_fits : fits s'; mv_stays : stays (fst s) (fst s'); mv_len : length (snd s') = length (snd s);
    mv_frozen : map frozen (snd s') = map frozen (snd s);
    mv_view : forall B (c : particle F -> B), blind_ias spin (u_effects (fst s)) c -> map c (u_particles (fst s')) = map c (u_particles (fst s)) }.
  Lemma moved_refl spin s : fits s -> moved spin s s.
  Proof. intro. split; auto. apply stays_refl. Qed.
  Lemma moved_trans spin a b d : moved spin a b -> moved spin b d -> moved spin a d.
  Proof.
    intros [A1 A2 A3 A4 A5] [B1 B2 B3 B4 B5]. split; [exact B1|eapply stays_trans; eauto|congruence|congruence|].
    intros B c Hc. rewrite B5; [now apply A5|]. destruct A2 as (-> & _). exact Hc.
  Qed.
  Lemma node_moved spin t dt s n s' : fits s -> node_step spin t dt s n = Ok s' -> moved spin s s'.
  Proof. intros Hf E. destruct (node_step_inv _ _ _ _ _ _ Hf E) as (_ & _ & A & B & C & D & G). split; auto. Qed.
  Lemma nodes_moved spin t dt ns : forall s s', fits s -> rfold (node_step spin t dt) ns s = Ok s' -> moved spin s s'.
  Proof.
    induction ns as [|n ns IH]; intros s s' Hf E; cbn [rfold] in E.
    - injection E as <-. now apply moved_refl.
    - destruct (node_step spin t dt s n) as [s1|] eqn:E1; [|discriminate E]. cbn [rbind] in E.
      pose proof (node_moved _ _ _ _ _ _ Hf E1) as M1. eapply moved_trans; [exact M1|]. apply IH; [apply M1|exact E].
  Qed.
  (** the iterations: a chain of passes *)
  Inductive chain (spin : bool) (t dt : F) (s : state) : state -> Prop :=
  | chain_0 : chain spin t dt s s
  | chain_S s1 s2 : chain spin t dt s s1 -> rfold (node_step spin t dt) (seq 1 7) s1 = Ok s2 -> chain spin t dt s s2.
  Lemma chain_front spin t dt s s1 s2 : rfold (node_step spin t dt) (seq 1 7) s = Ok s1 -> chain spin t dt s1 s2 -> chain spin t dt s s2.
  Proof. intros E C. induction C; [eapply chain_S; [apply chain_0|exact E]|]. eapply chain_S; eauto. Qed.
  Lemma corrector_chain spin t dt n : forall it err last s s' o, corrector n it spin t dt err last s = Ok (s', o) -> chain spin t dt s s'.
  Proof.
    induction n as [|n IH]; intros it err last s s' o E; cbn [corrector] in E.
    - destruct (nltb _ _); [injection E as <- _; apply chain_0|]. destruct (_ && _); [injection E as <- _; apply chain_0|].
      destruct (Nat.leb _ _); [injection E as <- _; apply chain_0|discriminate E].
    - destruct (nltb _ _); [injection E as <- _; apply chain_0|]. destruct (_ && _); [injection E as <- _; apply chain_0|].
      destruct (Nat.leb _ _); [injection E as <- _; apply chain_0|].
      destruct (rfold _ _ s) as [s1|] eqn:E1; [|discriminate E]. cbn [rbind] in E. apply IH in E. eapply chain_front; eauto.
  Qed.
  Lemma chain_moved spin t dt s s' : fits s -> chain spin t dt s s' -> moved spin s s'.
  Proof.
    intros Hf C. induction C; [now apply moved_refl|]. eapply moved_trans; [exact IHC|]. eapply nodes_moved; [apply IHC|eassumption].
  Qed.

  (** ** One attempt *)
  Definition begin (s : ias (F := F)) : state := (ia_u s, zip2 work_start (ia_tracks s) (u_particles (ia_u s))).
  Lemma begin_fits s : shaped s -> fits (begin s).
  Proof. intros (L & Lr). split; cbn [begin fst snd]; [now apply zip2_len|exact Lr]. Qed.
  Lemma attempt_inv s r : attempt s = Ok r -> exists s1 o,
    let spin := integrate_spin (ia_u s) in
    corrector 12 0 spin (ia_t s) (ia_dt s) (nlit (10 ^ 300) 1) (nlit 2 1) (begin s) = Ok (s1, o) /\
    let dec := decide (ia_dt s) (integrator_error spin (ia_dt s) (u_particles (fst s1)) (snd s1)) in
    let ex := if o then S (ia_exceeded s) else ia_exceeded s in
    match r with
    | inl s' => exists new, dec = Reject new /\
        s' = Ias (set_particles (zip2 (restore spin) (snd s1) (u_particles (fst s1))) (fst s1))
                 (let ks := map keep_b (snd s1) in if negb (neqb (ia_last s) n0) then map (predict_track spin (ndiv new (ia_last s))) ks else ks)
                 (ia_t s) new (ia_last s) ex
    | inr s' => exists new, dec = Accept new /\
        s' = Ias (set_particles (zip2 (finish spin (ia_dt s)) (snd s1) (u_particles (fst s1))) (fst s1))
                 (map (predict_track spin (ndiv new (ia_dt s))) (map (finish_track spin (ia_dt s)) (snd s1)))
                 (nadd (ia_t s) (ia_dt s)) new (ia_dt s) ex
    end.
  Proof.
    unfold attempt. fold (begin s). intro E.
    change (ia_u s, zip2 work_start (ia_tracks s) (u_particles (ia_u s))) with (begin s) in E.
    destruct (corrector _ _ _ _ _ _ _ _) as [[[u ws] o]|] eqn:E1; [|discriminate E]. cbn [rbind] in E.
    exists (u, ws), o. cbv zeta. split; [reflexivity|]. cbn [fst snd].
    destruct (decide _ _) as [new|new]; injection E as <-; exists new; split; reflexivity.
  Qed.
  Lemma L_blind e : blind_ias (B := vec F) false e p_L.
  Proof.
    split; auto; [|discriminate].
    split; unfold blind, blind_iadd, blind_dL, blind_effects, blind_spin, blind_evolution, blind_tides, blind_rf, blind_gr, blind_disk, blind_wind; auto 12.
  Qed.
  Lemma frozen_begin s : shaped s -> map frozen (snd (begin s)) = zip2 (fun k p => (p_ipos p, p_ivel p, p_iacc p, p_L p, p_dL p, k)) (ia_tracks s) (u_particles (ia_u s)).
  Proof. intros _. cbn [begin snd]. unfold zip2. rewrite map_map. apply map_ext. intros [k p]. reflexivity. Qed.
  Lemma map_combine_frozen {B} (f : vec F * vec F * vec F * vec F * vec F * track (F := F) -> B) (ws ws0 : list (work (F := F))) : map frozen ws = map frozen ws0 ->
    map (fun w => f (frozen w)) ws = map (fun w => f (frozen w)) ws0.
  Proof. intro E. rewrite <- (map_map frozen f ws), <- (map_map frozen f ws0). now rewrite E. Qed.
  Theorem rejected s s' : shaped s -> attempt s = Ok (inl s') ->
    map moves (u_particles (ia_u s')) = map moves (u_particles (ia_u s)) /\
    map p_iacc (u_particles (ia_u s')) = map p_iacc (u_particles (ia_u s)) /\
    ia_t s' = ia_t s /\ ia_last s' = ia_last s /\ stays (ia_u s) (ia_u s') /\ shaped s' /\
    map (fun k => (k_csx k, k_csv k, k_css k)) (ia_tracks s') = map (fun k => (k_csx k, k_csv k, k_css k)) (ia_tracks s) /\
    exists err, decide (ia_dt s) err = Reject (ia_dt s').
  Proof.
    intros Sh E. destruct (attempt_inv _ _ E) as (s1 & o & E1 & new & Ed & ->). cbv zeta. cbn [ia_u ia_t ia_last ia_tracks ia_dt u_particles set_particles].
    apply corrector_chain in E1. pose proof (begin_fits _ Sh) as Hf. apply chain_moved in E1; [|exact Hf]. destruct E1 as [(L1 & L2) St Ll Fr Vw].
    set (spin := integrate_spin (ia_u s)) in *.
    assert (Fx : forall B (f : _ -> B), map (fun w => f (frozen w)) (snd s1) = map (fun w => f (frozen w)) (snd (begin s))) by (intros; now apply map_combine_frozen).
    assert (FB : forall B (g : work -> B) (h : particle F -> B) f, (forall w, g w = f (frozen w)) -> (forall k p, f (frozen (work_start k p)) = h p) ->
      map g (snd s1) = map h (u_particles (ia_u s))).
    { intros B g h f Hg Hh. rewrite (map_ext _ _ Hg), Fx. cbn [begin snd]. apply zip2_right; [apply Sh|exact Hh]. }
    assert (Lp : length (u_particles (fst s1)) = length (u_particles (ia_u s))).
    { rewrite <- L1, Ll. cbn [begin snd]. apply zip2_len. apply Sh. }
    split; [|split; [|split; [reflexivity|split; [reflexivity|split; [|split; [|split]]]]]].
    - destruct spin eqn:Es.
      + transitivity (map (fun w : work => (w_x0 w, w_v0 w, w_L0 w)) (snd s1)).
        { apply zip2_left; [exact L1|]. intros; reflexivity. }
        apply (FB _ _ _ (fun f => (fst (fst (fst (fst (fst f)))), snd (fst (fst (fst (fst f)))), snd (fst (fst f))))); reflexivity.
      + assert (EL : map p_L (u_particles (fst s1)) = map p_L (u_particles (ia_u s))) by (apply (Vw _ p_L); apply L_blind).
        assert (EX : map (fun w : work => (w_x0 w, w_v0 w)) (snd s1) = map (fun p => (p_ipos p, p_ivel p)) (u_particles (ia_u s))).
        { apply (FB _ _ _ (fun f => (fst (fst (fst (fst (fst f)))), snd (fst (fst (fst (fst f))))))); reflexivity. }
        revert EL EX L1. generalize (snd s1) (u_particles (fst s1)) (u_particles (ia_u s)). clear.
        induction l as [|w ws IH]; intros [|p ps] [|p0 p0s] EL EX L; try discriminate; [reflexivity|].
        cbn [map] in *. apply cons_eq in EL. apply cons_eq in EX. destruct EL as (El & EL), EX as (Ex & EX).
        unfold zip2. cbn [combine map fst snd]. f_equal; [|apply IH; auto].
        unfold moves, restore. cbn [p_ipos p_ivel p_L set_p_iacc set_p_ivel set_p_ipos]. congruence.
    - transitivity (map (fun w : work => w_a0 w) (snd s1)).
      { apply zip2_left; [exact L1|]. intros w p. unfold restore. destruct spin; reflexivity. }
      apply (FB _ _ _ (fun f => snd (fst (fst (fst f))))); reflexivity.
    - unfold stays in *. cbn. exact St.
    - split; cbn [ia_tracks ia_u u_particles u_roche set_particles].
      + rewrite zip2_len by exact L1. destruct (negb _); rewrite ?map_length; congruence.
      + rewrite zip2_len by exact L1. exact L2.
    - transitivity (map (fun w => (fun f => let k := snd f in (k_csx k, k_csv k, k_css k)) (frozen w)) (snd s1)).
      { destruct (negb _); rewrite ?map_map; apply map_ext; intro w; reflexivity. }
      rewrite (Fx _ (fun f => let k := snd f in (k_csx k, k_csv k, k_css k))). cbn [begin snd]. apply zip2_left; [apply Sh|]. reflexivity.
    - exists (integrator_error spin (ia_dt s) (u_particles (fst s1)) (snd s1)). exact Ed.
  Qed.

  (** ** Acceptance *)
  Theorem accepted_frame s s' : shaped s -> attempt s = Ok (inr s') ->
    ia_t s' = nadd (ia_t s) (ia_dt s) /\ ia_last s' = ia_dt s /\ stays (ia_u s) (ia_u s') /\ shaped s' /\
    (exists err, decide (ia_dt s) err = Accept (ia_dt s')) /\
    (forall B (c : particle F -> B), blind_ias (integrate_spin (ia_u s)) (u_effects (ia_u s)) c -> map c (u_particles (ia_u s')) = map c (u_particles (ia_u s))).
  Proof.
    intros Sh E. destruct (attempt_inv _ _ E) as (s1 & o & E1 & new & Ed & ->). cbv zeta. cbn [ia_u ia_t ia_last ia_tracks ia_dt u_particles set_particles].
    apply corrector_chain in E1. pose proof (begin_fits _ Sh) as Hf. apply chain_moved in E1; [|exact Hf]. destruct E1 as [(L1 & L2) St Ll Fr Vw].
    set (spin := integrate_spin (ia_u s)) in *.
    assert (Lp : length (u_particles (fst s1)) = length (u_particles (ia_u s))).
    { rewrite <- L1, Ll. cbn [begin snd]. apply zip2_len. apply Sh. }
    split; [reflexivity|]. split; [reflexivity|]. split; [unfold stays in *; cbn; exact St|]. split.
    - split; cbn [ia_tracks ia_u u_particles u_roche set_particles].
      + rewrite zip2_len by exact L1. rewrite ?map_length; congruence.
      + rewrite zip2_len by exact L1. exact L2.
    - split; [exists (integrator_error spin (ia_dt s) (u_particles (fst s1)) (snd s1)); exact Ed|].
      intros B c Hc. transitivity (map c (u_particles (fst s1))); [|exact (Vw B c Hc)]. apply zip2_right; [exact L1|].
      intros w p. destruct Hc as [_ Hv Hx _ HL]. unfold finish. destruct spin; [rewrite (HL eq_refl)|]; now rewrite Hv, Hx.
  Qed.
  (** a view of the bodies through a whole call of the integrator *)
  Lemma passes_view {B} (c : particle F -> B) n : forall s s', shaped s -> blind_ias (integrate_spin (ia_u s)) (u_effects (ia_u s)) c ->
    (forall p a, c (set_p_dL a p) = c p) ->
    passes n s = Ok s' -> map c (u_particles (ia_u s')) = map c (u_particles (ia_u s)) /\ stays (ia_u s) (ia_u s') /\ shaped s'.
  Proof.
    induction n as [|n IH]; intros s s' Sh Hc Hd E; [discriminate E|]. cbn [passes] in E.
    destruct (attempt s) as [[s1|s1]|] eqn:E1; cbn [rbind] in E; try discriminate E.
    - pose proof (rejected _ _ Sh E1) as (_ & _ & _ & _ & St & Sh1 & _).
      assert (Ei : integrate_spin (ia_u s1) = integrate_spin (ia_u s)) by (unfold integrate_spin; destruct St as (-> & _ & -> & _); reflexivity).
      apply IH in E; auto; [|rewrite Ei; destruct St as (-> & _); exact Hc].
      destruct E as (A & S2 & Sh2). split; [|split; [eapply stays_trans; eauto|exact Sh2]]. rewrite A.
      destruct (attempt_inv _ _ E1) as (s2 & o & E2 & new & Ed & ->). cbn [ia_u u_particles set_particles].
      apply corrector_chain in E2. apply chain_moved in E2; [|now apply begin_fits]. destruct E2 as [(L1 & L2) _ Ll Fr Vw].
      transitivity (map c (u_particles (fst s2))); [|exact (Vw B c Hc)]. apply zip2_right; [exact L1|].
      intros w p. destruct Hc as [_ Hv Hx Ha HL]. unfold restore.
      destruct (integrate_spin (ia_u s)); [rewrite (HL eq_refl), Hd|]; now rewrite Ha, Hv, Hx.
    - injection E as <-. destruct (accepted_frame _ _ Sh E1) as (_ & _ & St & Sh1 & _ & V). auto.
  Qed.
End Frame.
