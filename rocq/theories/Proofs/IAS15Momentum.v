(** * IAS15 steps and the total momentum *)
From Coq Require Import Reals List Bool Lra Lia Arith ZArith.
From Verif Require Import Base.Num Base.Result Base.Trans Base.Vec Model.Constants Model.Particle Model.Host
  Model.Creep Model.Relativity Model.Universe Model.WHFast Model.IAS15
  Spec.EffectsSpec Spec.UniverseSpec Spec.IAS15Spec Spec.IAS15MomentumSpec Proofs.NumLemmas Proofs.VecLemmas Proofs.GravityProofs Proofs.LeapFrogProofs
  Proofs.FrameProofs Proofs.EffectSums Proofs.WHFastStep Proofs.IAS15Poly Proofs.IAS15Fit Proofs.IAS15Step.
Import ListNotations.
Open Scope R_scope.

Local Notation co := (coeffs (F := R)).
Local Notation ln := (line (F := R)).
Local Notation weighted := Spec.UniverseSpec.weighted.

(** ** Weighted sums *)
Lemma total_nil x : total [] x = 0. Proof. reflexivity. Qed.
Lemma total_cons m ms x xs : total (m :: ms) (x :: xs) = m * x + total ms xs.
Proof. reflexivity. Qed.
Definition c_axpy (m : R) (a b : co) : co := co_map2 (fun x y => m * x + y) a b.
Definition ctotal (ms : list R) (l : list co) : co :=
  Co (total ms (map q0 l)) (total ms (map q1 l)) (total ms (map q2 l)) (total ms (map q3 l)) (total ms (map q4 l)) (total ms (map q5 l)) (total ms (map q6 l)).
Lemma ctotal_nil ms : ctotal ms [] = co_zero.
Proof. unfold ctotal, total. cbn [map]. destruct ms; reflexivity. Qed.
Lemma total_nil_r ms : total ms [] = 0. Proof. destruct ms; reflexivity. Qed.
Lemma ctotal_cons m ms c l : ctotal (m :: ms) (c :: l) = c_axpy m c (ctotal ms l).
Proof. reflexivity. Qed.
Lemma ctotal_0 ms l : ctotal ms l = co_zero <-> forall q, In q [q0; q1; q2; q3; q4; q5; q6] -> total ms (map q l) = 0.
Proof.
  split.
  - intro E. unfold ctotal, co_zero in E. injection E as E0 E1 E2 E3 E4 E5 E6. intros q Hq. cbn [In] in Hq.
    repeat destruct Hq as [<-|Hq]; try assumption. contradiction.
  - intro Hq. unfold ctotal, co_zero. change (@n0 R NumR) with 0. f_equal; apply Hq; cbn; auto 10.
Qed.
Definition linear (f : co -> co) : Prop := forall m a b, f (c_axpy m a b) = c_axpy m (f a) (f b).
Lemma linear_0 f : linear f -> f co_zero = co_zero.
Proof.
  intro Hf. specialize (Hf (-1) co_zero co_zero).
  assert (Z : c_axpy (-1) co_zero co_zero = co_zero) by (unfold c_axpy, co_map2, co_zero; cbn [q0 q1 q2 q3 q4 q5 q6]; change (@n0 R NumR) with 0; f_equal; ring).
  rewrite Z in Hf. rewrite Hf at 1. destruct (f co_zero) as [a b c d e g h]. unfold c_axpy, co_map2, co_zero; cbn [q0 q1 q2 q3 q4 q5 q6]; change (@n0 R NumR) with 0; f_equal; ring.
Qed.
Lemma linear_total {A} f (g : A -> co) : linear f -> forall ms l, length ms = length l -> ctotal ms (map (fun a => f (g a)) l) = f (ctotal ms (map g l)).
Proof.
  intros Hf. induction ms as [|m ms IH]; intros [|a l] L; try discriminate L; cbn [map].
  - rewrite ctotal_nil. symmetry. now apply linear_0.
  - rewrite !ctotal_cons, Hf, IH by (now injection L). reflexivity.
Qed.
Lemma g_linear : linear (g_of_b (F := R)).
Proof.
  intros m a b. unfold g_of_b, c_axpy, co_map2. cbn [q0 q1 q2 q3 q4 q5 q6].
  repeat match goal with |- context [d ?i ?j] => generalize (d (F := R) i j); intro end. nums. f_equal; ring.
Qed.
Lemma expand_linear q : linear (expand (F := R) q).
Proof.
  intros m a b. unfold expand, c_axpy, co_map2. cbn [q0 q1 q2 q3 q4 q5 q6]. nums. f_equal; field.
Qed.
(** the correction at a node, for compensations that are zero *)
Definition upd (n : nat) (gk : R) (b g : co) : co * co :=
  let l := line_update n 0 gk (Line b co_zero g 0 0) in (l_b l, l_g l).
Lemma update_upd n a0 a (l : ln) : l_csb l = co_zero -> (l_b (line_update n a0 a l), l_g (line_update n a0 a l)) = upd n (a - a0) (l_b l) (l_g l).
Proof.
  intro Z. unfold upd, line_update. rewrite !gk_eq. rewrite Z. cbv zeta. cbn [l_b l_csb l_g]. rewrite Rminus_0_r. reflexivity.
Qed.
Lemma update_csb n a0 a (l : ln) : (1 <= n <= 7)%nat -> l_csb l = co_zero -> l_csb (line_update n a0 a l) = co_zero.
Proof.
  intros Hn Hc. unfold line_update. cbv zeta. cbn [l_b l_csb l_g]. rewrite Hc.
  destruct (l_b l) as [b0 b1 b2 b3 b4 b5 b6], (l_g l) as [g0 g1 g2 g3 g4 g5 g6].
  match goal with |- context [divided ?x ?y ?z] => generalize (divided x y z); intro new end.
  destruct n as [|n]; [lia|].
  do 7 (destruct n as [|n]; [unfold co_zero, co_list; cbn [q0 q1 q2 q3 q4 q5 q6 Nat.sub nth c_row map app bump fst snd];
    rewrite !add_cs_eq; reflexivity|]). lia.
Qed.
Lemma upd_linear n m x y b b' g g' : (1 <= n <= 7)%nat ->
  fst (upd n (m * x + y) (c_axpy m b b') (c_axpy m g g')) = c_axpy m (fst (upd n x b g)) (fst (upd n y b' g')) /\
  snd (upd n (m * x + y) (c_axpy m b b') (c_axpy m g g')) = c_axpy m (snd (upd n x b g)) (snd (upd n y b' g')).
Proof.
  intro Hn. unfold upd, line_update. rewrite !gk_eq. cbv zeta. cbn [l_b l_csb l_g fst snd]. rewrite !Rminus_0_r.
  destruct b as [b0 b1 b2 b3 b4 b5 b6], b' as [b0' b1' b2' b3' b4' b5' b6'], g as [g0 g1 g2 g3 g4 g5 g6], g' as [g0' g1' g2' g3' g4' g5' g6'].
  unfold c_axpy, co_map2, co_list, co_zero. cbn [q0 q1 q2 q3 q4 q5 q6].
  assert (D : divided (m * x + y) (spacings n) [m * g0 + g0'; m * g1 + g1'; m * g2 + g2'; m * g3 + g3'; m * g4 + g4'; m * g5 + g5'; m * g6 + g6']
    = m * divided x (spacings n) [g0; g1; g2; g3; g4; g5; g6] + divided y (spacings n) [g0'; g1'; g2'; g3'; g4'; g5'; g6']).
  { destruct n as [|n]; [lia|].
    do 7 (destruct n as [|n]; [
      cbn [spacings divided combine fold_left fst snd];
      repeat match goal with |- context [@nlit R NumR ?z ?p] => let s := fresh "s" in let Hs := fresh "Hs" in
        assert (Hs : (@nlit R NumR z p) <> 0) by (apply lit_nonzero; discriminate);
        set (s := @nlit R NumR z p) in *; clearbody s end;
      nums; field; repeat split; assumption|]). lia. }
  rewrite D. generalize (divided x (spacings n) [g0; g1; g2; g3; g4; g5; g6]) (divided y (spacings n) [g0'; g1'; g2'; g3'; g4'; g5'; g6']).
  intros nx ny. destruct n as [|n]; [lia|].
  do 7 (destruct n as [|n]; [
    cbn [Nat.sub nth c_row map app bump fst snd list_co set_nth]; rewrite !add_cs_eq; cbn [fst snd list_co nth q0 q1 q2 q3 q4 q5 q6];
    repeat match goal with |- context [@nlit R NumR ?z ?p] => let s := fresh "s" in set (s := @nlit R NumR z p) in *; clearbody s end;
    unfold list_co; cbn [nth q0 q1 q2 q3 q4 q5 q6]; nums; split; f_equal; ring|]). lia.
Qed.
Lemma upd_0 n : (1 <= n <= 7)%nat -> upd n 0 co_zero co_zero = (co_zero, co_zero).
Proof.
  intro Hn. destruct (upd_linear n (-1) 0 0 co_zero co_zero co_zero co_zero Hn) as (A & B).
  assert (Z : c_axpy (-1) co_zero co_zero = co_zero) by (unfold c_axpy, co_map2, co_zero; cbn [q0 q1 q2 q3 q4 q5 q6]; change (@n0 R NumR) with 0; f_equal; ring).
  assert (Y : forall c : co, c_axpy (-1) c c = co_zero).
  { intros [c0 c1 c2 c3 c4 c5 c6]. unfold c_axpy, co_map2, co_zero; cbn [q0 q1 q2 q3 q4 q5 q6]; change (@n0 R NumR) with 0; f_equal; ring. }
  rewrite Z, Y in A, B. replace (-1 * 0 + 0) with 0 in A, B by ring. destruct (upd n 0 co_zero co_zero). cbn [fst snd] in *. now subst.
Qed.
Lemma lines_total {W P} n (a0 : W -> R) (at' : P -> R) (f : W -> ln) : (1 <= n <= 7)%nat -> forall ms ws ps,
  length ms = length ws -> length ws = length ps -> Forall (fun w => l_csb (f w) = co_zero) ws ->
  let r := upd n (total ms (map at' ps) - total ms (map a0 ws)) (ctotal ms (map (fun w => l_b (f w)) ws)) (ctotal ms (map (fun w => l_g (f w)) ws)) in
  ctotal ms (map l_b (zip2 (fun w p => line_update n (a0 w) (at' p) (f w)) ws ps)) = fst r /\
  ctotal ms (map l_g (zip2 (fun w p => line_update n (a0 w) (at' p) (f w)) ws ps)) = snd r.
Proof.
  intro Hn. induction ms as [|m ms IH]; intros [|w ws] [|p ps] L1 L2 Hc; try discriminate; cbv zeta.
  - cbn [map zip2 combine]. unfold zip2. cbn [combine map]. rewrite !ctotal_nil, !total_nil. rewrite Rminus_0_r, upd_0 by exact Hn. auto.
  - inversion_clear Hc as [|? ? Hw Hws]. destruct (IH ws ps ltac:(now injection L1) ltac:(now injection L2) Hws) as (A & B).
    unfold zip2 in *. cbn [combine map fst snd]. rewrite !ctotal_cons, !total_cons, A, B.
    pose proof (update_upd n (a0 w) (at' p) (f w) Hw) as E.
    destruct (upd_linear n m (at' p - a0 w) (total ms (map at' ps) - total ms (map a0 ws)) (l_b (f w)) (ctotal ms (map (fun w => l_b (f w)) ws))
      (l_g (f w)) (ctotal ms (map (fun w => l_g (f w)) ws)) Hn) as (X & Y).
    replace (m * at' p + total ms (map at' ps) - (m * a0 w + total ms (map a0 ws)))
      with (m * (at' p - a0 w) + (total ms (map at' ps) - total ms (map a0 ws))) by ring.
    rewrite X, Y, <- E. cbn [fst snd]. split; reflexivity.
Qed.
(** ** Vectors *)
Lemma total_weighted (x : forall A, vec A -> A) (f : particle R -> vec R) l : axis x ->
  x _ (weighted f l) = total (map p_mass l) (map (fun p => x _ (f p)) l).
Proof.
  intro Hx. unfold weighted. induction l as [|p l IH]; [destruct Hx as [-> | [-> | ->]]; reflexivity|].
  cbn [map]. rewrite total_cons, <- IH. unfold Vsum. cbn [fold_right].
  generalize (fold_right vadd vzero (map (fun p => vscale (p_mass p) (f p)) l)). intro v.
  destruct Hx as [-> | [-> | ->]]; reflexivity.
Qed.
Lemma weighted_0 (f : particle R -> vec R) l : weighted f l = vzero -> forall x, axis x -> total (map p_mass l) (map (fun p => x _ (f p)) l) = 0.
Proof. intros E x Hx. rewrite <- total_weighted by exact Hx. rewrite E. destruct Hx as [-> | [-> | ->]]; reflexivity. Qed.
Lemma total_map_axis {A} ms (x : forall A, vec A -> A) (f g : A -> vec R) l : map f l = map g l -> total ms (map (fun a => x _ (f a)) l) = total ms (map (fun a => x _ (g a)) l).
Proof. intro E. rewrite <- (map_map f (x R)), <- (map_map g (x R)). now rewrite E. Qed.

(** ** The end of the step *)
Lemma Xp_total {A} dt (x0 v0 a0 : A -> R) (b : A -> co) : forall ms l, length ms = length l ->
  total ms (map (fun w => fst (final_x dt 0 (x0 w) (v0 w) (a0 w) (b w))) l) =
  Xp dt (total ms (map x0 l)) (total ms (map v0 l)) (total ms (map a0 l)) (ctotal ms (map b l)) 1.
Proof.
  induction ms as [|m ms IH]; intros [|w l] L; try discriminate L; cbn [map].
  - rewrite ctotal_nil, !total_nil. unfold Xp, co_zero. cbn [q0 q1 q2 q3 q4 q5 q6]. change (@n0 R NumR) with 0. field.
  - rewrite ctotal_cons, !total_cons, IH by (now injection L). rewrite final_x_eq. cbn [fst].
    generalize (total ms (map x0 l)) (total ms (map v0 l)) (total ms (map a0 l)) (ctotal ms (map b l)). intros X V Ac C.
    unfold Xp, c_axpy, co_map2. cbn [q0 q1 q2 q3 q4 q5 q6]. field.
Qed.
Lemma Vp_total {A} dt (v0 a0 : A -> R) (b : A -> co) : forall ms l, length ms = length l ->
  total ms (map (fun w => fst (final_v dt 0 (v0 w) (a0 w) (b w))) l) =
  Vp dt (total ms (map v0 l)) (total ms (map a0 l)) (ctotal ms (map b l)) 1.
Proof.
  induction ms as [|m ms IH]; intros [|w l] L; try discriminate L; cbn [map].
  - rewrite ctotal_nil, !total_nil. unfold Vp, co_zero. cbn [q0 q1 q2 q3 q4 q5 q6]. change (@n0 R NumR) with 0. field.
  - rewrite ctotal_cons, !total_cons, IH by (now injection L). rewrite final_v_eq. cbn [fst].
    generalize (total ms (map v0 l)) (total ms (map a0 l)) (ctotal ms (map b l)). intros V Ac C.
    unfold Vp, c_axpy, co_map2. cbn [q0 q1 q2 q3 q4 q5 q6]. field.
Qed.
Lemma Xp_0 dt x v : Xp dt x v 0 co_zero 1 = x + dt * v.
Proof. unfold Xp, co_zero. cbn [q0 q1 q2 q3 q4 q5 q6]. change (@n0 R NumR) with 0. field. Qed.
Lemma Vp_0 dt v : Vp dt v 0 co_zero 1 = v.
Proof. unfold Vp, co_zero. cbn [q0 q1 q2 q3 q4 q5 q6]. change (@n0 R NumR) with 0. field. Qed.

(** ** Predictions *)
Lemma predict_total q ms (mm : list (memory (F := R))) : length ms = length mm ->
  (forall f, In f [m_b; m_br; m_e; m_er] -> ctotal ms (map f mm) = co_zero) ->
  forall f, In f [m_b; m_br; m_e; m_er] -> ctotal ms (map f (map (predict_memory q) mm)) = co_zero.
Proof.
  intros L B.
  assert (Br : ctotal ms (map (fun m => m_br (predict_memory q m)) mm) = co_zero).
  { rewrite (map_ext _ m_br); [apply B; cbn; auto|]. intro m. unfold predict_memory. destruct (nltb _ _); reflexivity. }
  assert (Er : ctotal ms (map (fun m => m_er (predict_memory q m)) mm) = co_zero).
  { rewrite (map_ext _ m_er); [apply B; cbn; auto|]. intro m. unfold predict_memory. destruct (nltb _ _); reflexivity. }
  assert (Zc : ctotal ms (map (fun _ : memory => co_zero) mm) = co_zero).
  { apply (linear_total (fun _ => co_zero) (fun m : memory => m_b m)); [|exact L]. intros m a b. unfold c_axpy, co_map2, co_zero; cbn [q0 q1 q2 q3 q4 q5 q6]; change (@n0 R NumR) with 0; f_equal; ring. }
  assert (Ex : ctotal ms (map (fun m => expand q (m_br m)) mm) = co_zero).
  { rewrite (linear_total (expand q)); [|apply expand_linear|exact L]. rewrite (B m_br) by (cbn; auto). apply linear_0, expand_linear. }
  assert (E : ctotal ms (map (fun m => m_e (predict_memory q m)) mm) = co_zero /\ ctotal ms (map (fun m => m_b (predict_memory q m)) mm) = co_zero).
  { unfold predict_memory. destruct (nltb _ _); cbn [m_e m_b]; [split; exact Zc|]. split; [exact Ex|].
    assert (Sum : forall (u v w : memory (F := R) -> co) ms l, ctotal ms (map (fun m => co_map2 nadd (u m) (co_map2 nsub (v m) (w m))) l)
      = co_map2 Rplus (ctotal ms (map u l)) (co_map2 Rminus (ctotal ms (map v l)) (ctotal ms (map w l)))).
    { clear. intros u v w. induction ms as [|m ms IH]; intros l; [unfold ctotal; rewrite !total_nil; unfold co_map2; cbn [q0 q1 q2 q3 q4 q5 q6]; f_equal; ring|].
      destruct l as [|a l]; cbn [map].
      - rewrite !ctotal_nil. unfold co_map2, co_zero; cbn [q0 q1 q2 q3 q4 q5 q6]. change (@n0 R NumR) with 0. f_equal; ring.
      - rewrite !ctotal_cons, IH. generalize (ctotal ms (map u l)) (ctotal ms (map v l)) (ctotal ms (map w l)). intros U V W.
        unfold c_axpy, co_map2; cbn [q0 q1 q2 q3 q4 q5 q6]. nums. f_equal; ring. }
    rewrite Sum, Ex, (B m_br), (B m_er) by (cbn; auto 10). unfold co_map2, co_zero; cbn [q0 q1 q2 q3 q4 q5 q6]. change (@n0 R NumR) with 0. f_equal; ring. }
  intros f Hf. rewrite map_map. cbn [In] in Hf. destruct Hf as [<-|[<-|[<-|[<-|[]]]]]; [apply E|exact Br|apply E|exact Er].
Qed.

(** ** Steps *)
Definition relocated (p p' : particle R) : Prop :=
  exists x v a L d, p' = set_p_dL d (set_p_L L (set_p_iacc a (set_p_ivel v (set_p_ipos x p)))).
Definition steady (ms : list R) (ws : list (work (F := R))) : Prop :=
  Forall (fun w => forall x, axis x -> l_csb (x _ (w_a w)) = co_zero) ws /\
  forall x, axis x -> total ms (map (fun w => x _ (w_a0 w)) ws) = 0 /\
    ctotal ms (map (fun w => l_b (x _ (w_a w))) ws) = co_zero /\ ctotal ms (map (fun w => l_g (x _ (w_a w))) ws) = co_zero.
Definition kept (ms : list R) (ks : list (track (F := R))) : Prop :=
  forall x f, axis x -> In f [m_b; m_br; m_e; m_er] -> ctotal ms (map (fun k => f (x _ (k_a k))) ks) = co_zero.
Lemma balanced_kept s : balanced s <-> kept (map p_mass (u_particles (ia_u s))) (ia_tracks s).
Proof.
  split.
  - intros B x f Hx Hf. apply ctotal_0. intros q Hq. rewrite map_map. now apply B.
  - intros K x f q Hx Hf Hq. specialize (K x f Hx Hf). rewrite ctotal_0 in K. specialize (K q Hq). rewrite map_map in K. exact K.
Qed.
Lemma zip2_forall2 {A B} (f : A -> B -> B) (Q : B -> B -> Prop) : (forall a b, Q b (f a b)) -> forall la lb, length la = length lb -> Forall2 Q lb (zip2 f la lb).
Proof.
  intros Hf. unfold zip2. induction la as [|a la IH]; intros [|b lb] L; try discriminate L; cbn [combine map fst snd]; constructor; auto.
Qed.
Lemma zip2_forall {A B C} (f : A -> B -> C) (Q : A -> Prop) (Q' : C -> Prop) : (forall a b, Q a -> Q' (f a b)) -> forall la lb, Forall Q la -> Forall Q' (zip2 f la lb).
Proof.
  intros Hf. unfold zip2. induction la as [|a la IH]; intros [|b lb] HQ; cbn [combine map fst snd]; constructor; inversion_clear HQ; auto.
Qed.
Lemma map_zip2 {A B C D} (f : A -> B -> C) (g : C -> D) (h : A -> B -> D) : (forall a b, g (f a b) = h a b) -> forall la lb, map g (zip2 f la lb) = zip2 h la lb.
Proof. intros Hf la lb. unfold zip2. rewrite map_map. apply map_ext. intros [a b]. apply Hf. Qed.

Section Conserved.
  Context `{Trans R} `{Floor R} `{Fuel}.
  Local Notation state := (universe R * list (work (F := R)))%type.
  (** any kind of system whose forces always cancel *)
  Variable Inv : universe R -> Prop.
  Hypothesis Inv_set : forall u l, Inv u -> Forall2 relocated (u_particles u) l -> Inv (set_particles l u).
  Hypothesis Inv_eval : forall t u u', length (u_roche u) = length (u_particles u) -> Inv u -> evaluate t u = Ok u' ->
    Inv u' /\ weighted p_iacc (u_particles u') = vzero /\ map p_mass (u_particles u') = map p_mass (u_particles u).

  Lemma eta_moved (p : particle R) : p = set_p_dL (p_dL p) (set_p_L (p_L p) (set_p_iacc (p_iacc p) (set_p_ivel (p_ivel p) (set_p_ipos (p_ipos p) p)))).
  Proof. destruct p. reflexivity. Qed.
  Lemma place_relocated spin h dt (w : work (F := R)) p : relocated p (place spin h dt w p).
  Proof.
    exists (p_ipos (place spin h dt w p)), (p_ivel (place spin h dt w p)), (p_iacc p), (p_L (place spin h dt w p)), (p_dL p). destruct p, spin; reflexivity.
  Qed.
  Lemma restore_relocated spin (w : work (F := R)) p : relocated p (restore spin w p).
  Proof. exists (w_x0 w), (w_v0 w), (w_a0 w), (p_L (restore spin w p)), (p_dL (restore spin w p)). destruct p, spin; reflexivity. Qed.
  Lemma finish_relocated spin dt (w : work (F := R)) p : relocated p (finish spin dt w p).
  Proof. exists (p_ipos (finish spin dt w p)), (p_ivel (finish spin dt w p)), (p_iacc p), (p_L (finish spin dt w p)), (p_dL p). destruct p, spin; reflexivity. Qed.

  Definition good (ms : list R) (s : state) : Prop :=
    fits s /\ Inv (fst s) /\ map p_mass (u_particles (fst s)) = ms /\ steady ms (snd s).
  Lemma node_good ms spin t dt s n s' : (1 <= n <= 7)%nat -> good ms s -> node_step spin t dt s n = Ok s' -> good ms s'.
  Proof.
    intros Hn (Hf & Hi & Hm & Hc & Hs) E. pose proof Hf as (L1 & L2).
    destruct (node_step_inv _ _ _ _ _ _ Hf E) as (E1 & Ew & Hf' & _ & Lw & Fr & _).
    assert (I0 : Inv (placed spin dt n s)).
    { apply Inv_set; [exact Hi|]. apply zip2_forall2; [|exact L1]. intros w p. apply place_relocated. }
    assert (Lp : length (u_particles (placed spin dt n s)) = length (u_particles (fst s))) by (cbn; now apply zip2_len).
    apply Inv_eval in E1; [|cbn [placed u_roche set_particles]; congruence|exact I0]. destruct E1 as (I1 & W & M1).
    assert (M2 : map p_mass (u_particles (fst s')) = ms).
    { rewrite M1, <- Hm. cbn [placed u_particles set_particles]. apply zip2_right; [exact L1|]. intros w p. unfold place. destruct spin; reflexivity. }
    split; [exact Hf'|]. split; [exact I1|]. split; [exact M2|].
    destruct Hf' as (L1' & _).
    assert (Lm : length ms = length (snd s)) by (rewrite <- Hm, map_length; congruence).
    assert (Lx : length (snd s) = length (u_particles (fst s'))) by congruence.
    split.
    - rewrite Ew. eapply (zip2_forall _ (fun w => forall x, axis x -> l_csb (x _ (w_a w)) = co_zero)); [|exact Hc].
      intros w p Hw x Hx. cbn [fit w_a]. rewrite (axis_each x) by exact Hx. apply update_csb; [exact Hn|now apply Hw].
    - intros x Hx. destruct (Hs x Hx) as (A0 & B & Gg).
      assert (Wx := weighted_0 _ _ W x Hx). rewrite M2 in Wx.
      assert (Cx : Forall (fun w => l_csb (x _ (w_a w)) = co_zero) (snd s)) by (eapply Forall_impl; [|exact Hc]; intros w Hw; now apply Hw).
      destruct (lines_total n (fun w => x _ (w_a0 w)) (fun p => x _ (p_iacc p)) (fun w : work => x _ (w_a w)) Hn ms (snd s) (u_particles (fst s')) Lm Lx Cx) as (X & Y).
      rewrite Wx, A0, B, Gg, Rminus_0_r, upd_0 in X, Y by exact Hn. cbn [fst snd] in X, Y.
      split; [|split].
      + assert (Ea : map w_a0 (snd s') = map w_a0 (snd s)) by (rewrite Ew; apply zip2_left; [congruence|reflexivity]).
        rewrite <- (map_map w_a0 (x R)), Ea, map_map. exact A0.
      + rewrite <- X. f_equal. rewrite Ew. erewrite (map_zip2 _ l_b); [apply map_zip2|reflexivity]. intros w p. cbn [fit w_a]. now rewrite (axis_each x) by exact Hx.
      + rewrite <- Y. f_equal. rewrite Ew. erewrite (map_zip2 _ l_g); [apply map_zip2|reflexivity]. intros w p. cbn [fit w_a]. now rewrite (axis_each x) by exact Hx.
  Qed.
  Lemma nodes_good ms spin t dt ns : Forall (fun n => (1 <= n <= 7)%nat) ns -> forall s s', good ms s -> rfold (node_step spin t dt) ns s = Ok s' -> good ms s'.
  Proof.
    induction ns as [|n ns IH]; intros Hn s s' G E; cbn [rfold] in E; [injection E as <-; exact G|]. inversion_clear Hn.
    destruct (node_step spin t dt s n) as [s1|] eqn:E1; [|discriminate E]. cbn [rbind] in E. eapply IH; [assumption| |exact E]. eapply node_good; eassumption.
  Qed.
  Lemma chain_good ms spin t dt s s' : good ms s -> chain spin t dt s s' -> good ms s'.
  Proof. intros G C. induction C; [exact G|]. eapply nodes_good; [|exact IHC|eassumption]. repeat constructor. Qed.

  Definition state_ok (ms : list R) (s : ias (F := R)) : Prop :=
    shaped s /\ rested s /\ Inv (ia_u s) /\ map p_mass (u_particles (ia_u s)) = ms /\ kept ms (ia_tracks s).
  Lemma begin_good ms s : state_ok ms s -> weighted p_iacc (u_particles (ia_u s)) = vzero -> good ms (begin s).
  Proof.
    intros (Sh & _ & Hi & Hm & K) W. pose proof Sh as (L1 & _). split; [now apply begin_fits|]. split; [exact Hi|]. split; [exact Hm|]. cbn [begin snd].
    assert (Lm : length ms = length (ia_tracks s)) by (rewrite <- Hm, map_length; congruence).
    split.
    - apply (zip2_forall _ (fun _ => True)); [|apply Forall_forall; auto]. intros k p _ x Hx. cbn [work_start w_a]. rewrite (axis_each x) by exact Hx. reflexivity.
    - intros x Hx. pose proof (K x m_b Hx ltac:(cbn; auto)) as Kb. split; [|split].
      + rewrite (zip2_right _ _ (fun p => x _ (p_iacc p)) _ _ L1); [|reflexivity]. rewrite <- Hm. now apply weighted_0.
      + rewrite (zip2_left _ _ (fun k => m_b (x _ (k_a k))) _ _ L1); [exact Kb|]. intros k p. cbn [work_start w_a]. now rewrite (axis_each x) by exact Hx.
      + rewrite (zip2_left _ _ (fun k => g_of_b (m_b (x _ (k_a k)))) _ _ L1); [|intros k p; cbn [work_start w_a]; now rewrite (axis_each x) by exact Hx].
        rewrite (linear_total g_of_b (fun k => m_b (x _ (k_a k)))); [rewrite Kb; apply linear_0, g_linear|apply g_linear|exact Lm].
  Qed.
  (** the coefficients after the iterations *)
  Lemma keep_kept ms (ws : list (work (F := R))) : steady ms ws -> kept ms (map w_track ws) -> kept ms (map keep_b ws).
  Proof.
    intros (_ & Hs) K x f Hx Hf. rewrite map_map. destruct (Hs x Hx) as (_ & B & _).
    assert (Ko : forall f, In f [m_b; m_br; m_e; m_er] -> ctotal ms (map (fun w => f (x _ (k_a (w_track w)))) ws) = co_zero).
    { intros f' Hf'. specialize (K x f' Hx Hf'). now rewrite map_map in K. }
    cbn [In] in Hf. destruct Hf as [<-|[<-|[<-|[<-|[]]]]].
    - rewrite <- B. f_equal. apply map_ext. intro w. cbn [keep_b k_a]. now rewrite (axis_each x) by exact Hx.
    - rewrite <- (Ko m_br) by (cbn; auto). f_equal. apply map_ext. intro w. cbn [keep_b k_a]. now rewrite (axis_each x) by exact Hx.
    - rewrite <- (Ko m_e) by (cbn; auto). f_equal. apply map_ext. intro w. cbn [keep_b k_a]. now rewrite (axis_each x) by exact Hx.
    - rewrite <- (Ko m_er) by (cbn; auto). f_equal. apply map_ext. intro w. cbn [keep_b k_a]. now rewrite (axis_each x) by exact Hx.
  Qed.
  Lemma remember_kept ms spin dt (ws : list (work (F := R))) : kept ms (map keep_b ws) -> kept ms (map (finish_track spin dt) ws).
  Proof.
    intros K x f Hx Hf. rewrite map_map.
    assert (Ko : forall f, In f [m_b; m_br; m_e; m_er] -> ctotal ms (map (fun w => f (x _ (k_a (keep_b w)))) ws) = co_zero).
    { intros f' Hf'. specialize (K x f' Hx Hf'). now rewrite map_map in K. }
    cbn [In] in Hf. destruct Hf as [<-|[<-|[<-|[<-|[]]]]].
    - rewrite <- (Ko m_b) by (cbn; auto). f_equal. apply map_ext. intro w. cbn [finish_track k_a]. now rewrite (axis_each x) by exact Hx.
    - rewrite <- (Ko m_b) by (cbn; auto). f_equal. apply map_ext. intro w. cbn [finish_track k_a]. now rewrite (axis_each x) by exact Hx.
    - rewrite <- (Ko m_e) by (cbn; auto). f_equal. apply map_ext. intro w. cbn [finish_track k_a]. now rewrite (axis_each x) by exact Hx.
    - rewrite <- (Ko m_e) by (cbn; auto). f_equal. apply map_ext. intro w. cbn [finish_track k_a]. now rewrite (axis_each x) by exact Hx.
  Qed.
  Lemma predict_kept ms spin q (ks : list (track (F := R))) : length ms = length ks -> kept ms ks -> kept ms (map (predict_track spin q) ks).
  Proof.
    intros L K x f Hx Hf. rewrite map_map.
    transitivity (ctotal ms (map f (map (predict_memory q) (map (fun k => x _ (k_a k)) ks)))).
    - f_equal. rewrite !map_map. apply map_ext. intro k. cbn [predict_track k_a]. now rewrite (axis_each x) by exact Hx.
    - apply predict_total; [now rewrite map_length| |exact Hf]. intros f' Hf'. rewrite map_map. now apply K.
  Qed.
  Lemma corrected ms s s1 o : state_ok ms s -> weighted p_iacc (u_particles (ia_u s)) = vzero ->
    corrector 12 0 (integrate_spin (ia_u s)) (ia_t s) (ia_dt s) (nlit (10 ^ 300) 1) (nlit 2 1) (begin s) = Ok (s1, o) ->
    good ms s1 /\ length ms = length (snd s1) /\ map w_track (snd s1) = ia_tracks s /\ kept ms (map keep_b (snd s1)) /\
    map frozen (snd s1) = map frozen (snd (begin s)).
  Proof.
    intros Ho W E. pose proof Ho as (Sh & Re & Hi & Hm & K). pose proof (begin_good _ _ Ho W) as G0.
    apply corrector_chain in E. pose proof (chain_good _ _ _ _ _ _ G0 E) as G1. apply chain_moved in E; [|apply G0].
    destruct E as [_ _ Ll Fr _]. pose proof G1 as (_ & _ & _ & St).
    assert (Lm : length ms = length (snd s1)).
    { rewrite <- Hm, map_length, Ll. cbn [begin snd]. rewrite zip2_len; [reflexivity|apply Sh]. }
    assert (Tr : map w_track (snd s1) = ia_tracks s).
    { transitivity (map (fun w => snd (frozen w)) (snd (begin s))).
      - rewrite <- (map_combine_frozen snd _ _ Fr). reflexivity.
      - cbn [begin snd]. rewrite (zip2_left _ _ (fun k => k)); [apply map_id|apply Sh|reflexivity]. }
    split; [exact G1|]. split; [exact Lm|]. split; [exact Tr|]. split; [|exact Fr]. apply keep_kept; [exact St|]. rewrite Tr. exact K.
  Qed.
  Lemma rejected_ok ms s s' : state_ok ms s -> weighted p_iacc (u_particles (ia_u s)) = vzero -> attempt s = Ok (inl s') ->
    state_ok ms s' /\ weighted p_iacc (u_particles (ia_u s')) = vzero /\
    momentum (u_particles (ia_u s')) = momentum (u_particles (ia_u s)) /\ weighted p_ipos (u_particles (ia_u s')) = weighted p_ipos (u_particles (ia_u s)) /\
    ia_t s' = ia_t s.
  Proof.
    intros Ho W E. pose proof Ho as (Sh & Re & Hi & Hm & K).
    pose proof (rejected _ _ Sh E) as (Mv & Ac & Et & _ & St & Sh' & Cs & _).
    destruct (attempt_inv _ _ E) as (s1 & o & E1 & new & Ed & Es). destruct (corrected _ _ _ _ Ho W E1) as (G1 & Lm & Tr & Kb & Fr).
    pose proof G1 as ((L1 & L2) & I1 & M1 & St1).
    assert (Mm : map p_mass (u_particles (ia_u s')) = ms).
    { rewrite <- M1, Es. cbn [ia_u u_particles set_particles]. apply zip2_right; [exact L1|]. intros w p. unfold restore. destruct (integrate_spin _); reflexivity. }
    assert (Wq : forall f : particle R -> vec R, map f (u_particles (ia_u s')) = map f (u_particles (ia_u s)) -> weighted f (u_particles (ia_u s')) = weighted f (u_particles (ia_u s))).
    { intros f Ef. apply each_eq. intros x Hx. rewrite !total_weighted by exact Hx. rewrite Mm, Hm. rewrite <- !(map_map f (x R)). now rewrite Ef. }
    assert (Pm : forall B (g : _ -> B), map (fun p => g (moves p)) (u_particles (ia_u s')) = map (fun p => g (moves p)) (u_particles (ia_u s))).
    { intros B g. rewrite <- !(map_map moves g). now rewrite Mv. }
    split; [|split; [|split; [|split; [|exact Et]]]].
    - split; [exact Sh'|]. split; [|split; [|split; [exact Mm|]]].
      + unfold rested in *. eapply (forall_view (fun k : track => (k_csx k, k_csv k, k_css k)) (fun c => fst (fst c) = vzero /\ snd (fst c) = vzero /\ snd c = vzero)); [exact Cs|]. exact Re.
      + rewrite Es. cbn [ia_u]. apply Inv_set; [exact I1|]. apply zip2_forall2; [|exact L1]. intros. apply restore_relocated.
      + rewrite Es. cbn [ia_tracks]. destruct (negb _); [|exact Kb]. apply predict_kept; [now rewrite map_length|exact Kb].
    - rewrite (Wq _ Ac). exact W.
    - apply Wq. exact (Pm _ (fun m => snd (fst m))).
    - apply Wq. exact (Pm _ (fun m => fst (fst m))).
  Qed.
  Lemma accepted_ok ms s s' : state_ok ms s -> weighted p_iacc (u_particles (ia_u s)) = vzero -> attempt s = Ok (inr s') ->
    state_ok ms s' /\ momentum (u_particles (ia_u s')) = momentum (u_particles (ia_u s)) /\
    weighted p_ipos (u_particles (ia_u s')) = vadd (weighted p_ipos (u_particles (ia_u s))) (vscale (ia_t s' - ia_t s) (momentum (u_particles (ia_u s)))).
  Proof.
    intros Ho W E. pose proof Ho as (Sh & Re & Hi & Hm & K).
    pose proof (accepted_frame _ _ Sh E) as (Et & El & St & Sh' & _).
    destruct (attempt_inv _ _ E) as (s1 & o & E1 & new & Ed & Es). destruct (corrected _ _ _ _ Ho W E1) as (G1 & Lm & Tr & Kb & Fr).
    pose proof G1 as ((L1 & L2) & I1 & M1 & St1).
    set (spin := integrate_spin (ia_u s)) in *. set (dt := ia_dt s) in *.
    assert (Mm : map p_mass (u_particles (ia_u s')) = ms).
    { rewrite <- M1, Es. cbn [ia_u u_particles set_particles]. apply zip2_right; [exact L1|]. intros w p. unfold finish. destruct spin; reflexivity. }
    assert (Cz : Forall (fun w => k_csx (w_track w) = vzero /\ k_csv (w_track w) = vzero /\ k_css (w_track w) = vzero) (snd s1)).
    { unfold rested in Re. rewrite <- Tr in Re. apply (proj1 (Forall_map w_track _ _)) in Re. exact Re. }
    assert (Fx : forall (g : work -> vec R) (h : particle R -> vec R) f, (forall w, g w = f (frozen w)) -> (forall k p, f (frozen (work_start k p)) = h p) ->
      map g (snd s1) = map h (u_particles (ia_u s))).
    { intros g h f Hg Hh. rewrite (map_ext _ _ Hg), (map_combine_frozen f _ _ Fr). cbn [begin snd]. apply zip2_right; [apply Sh|exact Hh]. }
    assert (X0 : map w_x0 (snd s1) = map p_ipos (u_particles (ia_u s))) by (apply (Fx _ _ (fun f => fst (fst (fst (fst (fst f)))))); reflexivity).
    assert (V0 : map w_v0 (snd s1) = map p_ivel (u_particles (ia_u s))) by (apply (Fx _ _ (fun f => snd (fst (fst (fst (fst f)))))); reflexivity).
    assert (Zx : forall x, axis x -> x _ (vzero (F := R)) = 0) by (intros x [-> | [-> | ->]]; reflexivity).
    assert (Tot : forall x, axis x -> forall (g : work -> vec R) h, map g (snd s1) = map h (u_particles (ia_u s)) ->
      total ms (map (fun w => x _ (g w)) (snd s1)) = x _ (weighted h (u_particles (ia_u s)))).
    { intros x Hx g h Eg. rewrite total_weighted by exact Hx. rewrite Hm, <- (map_map g (x R)), Eg, map_map. reflexivity. }
    split; [|split].
    - split; [exact Sh'|]. split; [|split; [|split; [exact Mm|]]].
      + rewrite Es. unfold rested. cbn [ia_tracks]. apply Forall_forall. intros k Hk. apply in_map_iff in Hk. destruct Hk as (k1 & <- & Hk).
        apply in_map_iff in Hk. destruct Hk as (w & <- & Hw). cbn [predict_track k_csx k_csv k_css finish_track].
        rewrite Forall_forall in Cz. destruct (Cz w Hw) as (Z1 & Z2 & Z3).
        split; [|split].
        * apply each_eq. intros x Hx. unfold seconds, final_xs. rewrite !(axis_each x) by exact Hx. rewrite final_x_eq. cbn [snd]. symmetry. now apply Zx.
        * apply each_eq. intros x Hx. unfold seconds, final_vs. rewrite !(axis_each x) by exact Hx. rewrite final_v_eq. cbn [snd]. symmetry. now apply Zx.
        * destruct spin; [|exact Z3]. apply each_eq. intros x Hx. unfold seconds, final_Ls. rewrite !(axis_each x) by exact Hx. rewrite final_v_eq. cbn [snd]. symmetry. now apply Zx.
      + rewrite Es. cbn [ia_u]. apply Inv_set; [exact I1|]. apply zip2_forall2; [|exact L1]. intros. apply finish_relocated.
      + rewrite Es. cbn [ia_tracks]. apply predict_kept; [now rewrite map_length|]. now apply remember_kept.
    - apply each_eq. intros x Hx. unfold momentum. rewrite (total_weighted x p_ivel (u_particles (ia_u s')) Hx). rewrite Mm.
      transitivity (total ms (map (fun w => fst (final_v dt 0 (x _ (w_v0 w)) (x _ (w_a0 w)) (l_b (x _ (w_a w))))) (snd s1))).
      + f_equal. rewrite Es. cbn [ia_u u_particles set_particles].
        rewrite (zip2_left _ _ (fun w => x _ (firsts (final_vs dt w))) _ _ L1); [|intros w p; unfold finish; destruct spin; reflexivity].
        apply map_ext_in. intros w Hw. rewrite Forall_forall in Cz. destruct (Cz w Hw) as (_ & Z2 & _).
        unfold firsts, final_vs. rewrite !(axis_each x) by exact Hx. rewrite Z2, Zx by exact Hx. reflexivity.
      + destruct St1 as (_ & St1). destruct (St1 x Hx) as (A & B & _).
        rewrite (Vp_total dt (fun w => x _ (w_v0 w)) (fun w => x _ (w_a0 w)) (fun w : work => l_b (x _ (w_a w)))) by exact Lm.
        rewrite A, B, Vp_0. now apply Tot.
    - apply each_eq. intros x Hx. rewrite (total_weighted x p_ipos (u_particles (ia_u s')) Hx). rewrite Mm.
      transitivity (total ms (map (fun w => fst (final_x dt 0 (x _ (w_x0 w)) (x _ (w_v0 w)) (x _ (w_a0 w)) (l_b (x _ (w_a w))))) (snd s1))).
      + f_equal. rewrite Es. cbn [ia_u u_particles set_particles].
        rewrite (zip2_left _ _ (fun w => x _ (firsts (final_xs dt w))) _ _ L1); [|intros w p; unfold finish; destruct spin; reflexivity].
        apply map_ext_in. intros w Hw. rewrite Forall_forall in Cz. destruct (Cz w Hw) as (Z1 & _ & _).
        unfold firsts, final_xs. rewrite !(axis_each x) by exact Hx. rewrite Z1, Zx by exact Hx. reflexivity.
      + destruct St1 as (_ & St1). destruct (St1 x Hx) as (A & B & _).
        rewrite (Xp_total dt (fun w => x _ (w_x0 w)) (fun w => x _ (w_v0 w)) (fun w => x _ (w_a0 w)) (fun w : work => l_b (x _ (w_a w)))) by exact Lm.
        rewrite A, B, Xp_0. rewrite (Tot x Hx w_x0 p_ipos X0), (Tot x Hx w_v0 p_ivel V0).
        replace (ia_t s' - ia_t s) with dt by (rewrite Et; change (dt = ia_t s + dt - ia_t s); ring).
        unfold momentum. destruct Hx as [-> | [-> | ->]]; reflexivity.
  Qed.
  Lemma passes_ok ms n : forall s s', state_ok ms s -> weighted p_iacc (u_particles (ia_u s)) = vzero -> passes n s = Ok s' ->
    state_ok ms s' /\ momentum (u_particles (ia_u s')) = momentum (u_particles (ia_u s)) /\
    weighted p_ipos (u_particles (ia_u s')) = vadd (weighted p_ipos (u_particles (ia_u s))) (vscale (ia_t s' - ia_t s) (momentum (u_particles (ia_u s)))).
  Proof.
    induction n as [|n IH]; intros s s' Ho W E; [discriminate E|]. cbn [passes] in E.
    destruct (attempt s) as [[s1|s1]|] eqn:E1; cbn [rbind] in E; try discriminate E.
    - destruct (rejected_ok _ _ _ Ho W E1) as (Ho1 & W1 & P1 & X1 & T1). destruct (IH _ _ Ho1 W1 E) as (Ho2 & P2 & X2).
      split; [exact Ho2|]. rewrite P2, X2, P1, X1, T1. auto.
    - injection E as <-. eapply accepted_ok; eassumption.
  Qed.
  Lemma motion_blind e : blind_step (F := R) e (fun p => (p_mass p, p_ipos p, p_ivel p)).
  Proof. split; unfold blind, blind_iadd, blind_dL, blind_effects, blind_spin, blind_evolution, blind_tides, blind_rf, blind_gr, blind_disk, blind_wind; auto 12. Qed.
  Lemma evaluate_weighted t u u' : length (u_roche u) = length (u_particles u) -> evaluate t u = Ok u' ->
    momentum (u_particles u') = momentum (u_particles u) /\ weighted p_ipos (u_particles u') = weighted p_ipos (u_particles u).
  Proof.
    intros L E. apply (evaluate_view (fun p => (p_mass p, p_ipos p, p_ivel p))) in E; [|apply motion_blind|reflexivity|exact L]. destruct E as (A & _).
    assert (G : forall g : R * vec R * vec R -> vec R, map (fun p => g (p_mass p, p_ipos p, p_ivel p)) (u_particles u') = map (fun p => g (p_mass p, p_ipos p, p_ivel p)) (u_particles u)).
    { intro g. rewrite <- !(map_map (fun p => (p_mass p, p_ipos p, p_ivel p)) g). now rewrite A. }
    unfold momentum, Spec.UniverseSpec.weighted. split; f_equal.
    - exact (G (fun v => vscale (fst (fst v)) (snd v))).
    - exact (G (fun v => vscale (fst (fst v)) (snd (fst v)))).
  Qed.
  Lemma step_ok ms s s' : state_ok ms s -> ias_step s = Ok s' ->
    state_ok ms s' /\ momentum (u_particles (ia_u s')) = momentum (u_particles (ia_u s)) /\
    weighted p_ipos (u_particles (ia_u s')) = vadd (weighted p_ipos (u_particles (ia_u s))) (vscale (ia_t s' - ia_t s) (momentum (u_particles (ia_u s)))).
  Proof.
    intros (Sh & Re & Hi & Hm & K) E. pose proof Sh as (L1 & L2). unfold ias_step in E. destruct (evaluate (ia_t s) (ia_u s)) as [u1|] eqn:E1; [|discriminate E]. cbn [rbind] in E.
    destruct (evaluate_weighted _ _ _ L2 E1) as (P1 & X1). pose proof (evaluate_len _ _ _ L2 E1) as (Ll & (_ & _ & _ & Sr)).
    destruct (Inv_eval _ _ _ L2 Hi E1) as (I1 & W1 & M1).
    apply (passes_ok ms) in E; cbn [ia_u ia_t ia_tracks] in *; [|split; [|split; [|split; [|split]]]|exact W1]; cbn [ia_u ia_t ia_tracks].
    - rewrite P1, X1 in E. exact E.
    - split; cbn [ia_u ia_tracks]; congruence.
    - exact Re.
    - exact I1.
    - congruence.
    - exact K.
  Qed.
  Theorem steps_ok ms n : forall s s', state_ok ms s -> ias_steps n s = Ok s' ->
    state_ok ms s' /\ momentum (u_particles (ia_u s')) = momentum (u_particles (ia_u s)) /\
    weighted p_ipos (u_particles (ia_u s')) = vadd (weighted p_ipos (u_particles (ia_u s))) (vscale (ia_t s' - ia_t s) (momentum (u_particles (ia_u s)))).
  Proof.
    induction n as [|n IH]; intros s s' Ho E; cbn [ias_steps] in E.
    - injection E as <-. split; [exact Ho|]. split; [reflexivity|]. generalize (momentum (u_particles (ia_u s))) (weighted p_ipos (u_particles (ia_u s))). intros P X.
      unfold Rminus. rewrite Rplus_opp_r. destruct X, P. vunfold. f_equal; ring.
    - destruct (ias_step s) as [s1|] eqn:E1; [|discriminate E]. cbn [rbind] in E.
      destruct (step_ok _ _ _ Ho E1) as (Ho1 & P1 & X1). destruct (IH _ _ Ho1 E) as (Ho2 & P2 & X2).
      split; [exact Ho2|]. rewrite P2, X2, X1, P1. split; [reflexivity|].
      generalize (momentum (u_particles (ia_u s))) (weighted p_ipos (u_particles (ia_u s))). intros [p1 p2 p3] [x1 x2 x3]. vunfold. f_equal; ring.
  Qed.
End Conserved.

(** ** Systems in which nothing but gravity pushes *)
Section Free.
  Context `{Trans R} `{Floor R} `{Fuel}.
  Definition free (u : universe R) : Prop := roche_square u /\ unpushed (u_effects u).
  Lemma relocated_mass p p' : relocated p p' -> p_mass p' = p_mass p.
  Proof. intros (x & v & a & L & d & ->). reflexivity. Qed.
  Lemma free_set u l : free u -> Forall2 relocated (u_particles u) l -> free (set_particles l u).
  Proof.
    intros ((L & Rr) & Un) Fl. assert (Ll : length (u_particles u) = length l) by (clear - Fl; induction Fl; cbn; congruence). split; [|exact Un]. unfold roche_square. cbn [u_particles u_roche set_particles]. rewrite <- Ll. auto.
  Qed.
  Lemma accel_blind e : blind_step (F := R) e (fun p => (p_mass p, p_iacc p)).
  Proof. split; unfold blind, blind_iadd, blind_dL, blind_effects, blind_spin, blind_evolution, blind_tides, blind_rf, blind_gr, blind_disk, blind_wind; auto 12. Qed.
  Lemma free_eval t u u' : length (u_roche u) = length (u_particles u) -> free u -> evaluate t u = Ok u' ->
    free u' /\ weighted p_iacc (u_particles u') = vzero /\ map p_mass (u_particles u') = map p_mass (u_particles u).
  Proof.
    intros L (Sq & Un) E. pose proof (evaluate_len _ _ _ L E) as (Ll & (Se & _ & _ & Sr)).
    split; [|split].
    - split; [|now rewrite Se]. unfold roche_square in *. rewrite Sr, Ll. exact Sq.
    - unfold evaluate in E. destruct (gravity IgnoreNone u) as [u1|] eqn:E1; [|discriminate E]. cbn [rbind] in E.
      pose proof (gravity_no_force u u1 Sq E1) as W. pose proof (gravity_view (fun _ => tt) _ _ _ (fun _ _ => eq_refl) L E1) as (_ & (Se1 & _)).
      destruct (inertial_to_heliocentric u1) as [u2|] eqn:E2; [|discriminate E]. cbn [rbind] in E.
      destruct (additional_effects _ _ _ _ _ u2) as [u3|] eqn:E3; [|discriminate E]. cbn [rbind] in E. injection E as <-.
      destruct (evaluation_view _ _ _ _ _ _ _ _ _ (accel_blind (u_effects u1)) E2 E3) as (A3 & _).
      assert (E2' := i2h_rest _ _ E2). destruct E2' as (Se2 & _).
      pose proof (effects_added _ _ _ _ _ _ E3) as Ad. rewrite Se2, Se1 in Ad.
      rewrite <- W. unfold net_force, gravitational_acc, Spec.UniverseSpec.weighted.
      transitivity (Vsum (map (fun p => vscale (p_mass p) (p_iacc p)) (u_particles u3))).
      + unfold apply_corrections. cbn [u_particles set_particles]. rewrite map_map. f_equal. apply map_ext_in. intros p Hp.
        rewrite Forall_forall in Ad. specialize (Ad p Hp). cbn [p_mass p_iacc set_p_iacc]. f_equal. rewrite Ad. destruct Un as (Ut & Ud & Ur & Ug).
        unfold enabled_acceleration. rewrite Ut, Ud, Ur, Ug. unfold only_if, Vsum. cbn [fold_right]. destruct (p_iacc p). vunfold. f_equal; ring.
      + f_equal. transitivity (map (fun v => vscale (fst v) (snd v)) (map (fun p => (p_mass p, p_iacc p)) (u_particles u3))); [now rewrite map_map|].
        rewrite A3, map_map. reflexivity.
    - apply (evaluate_view p_mass) in E; [apply E| |reflexivity|exact L].
      split; unfold blind, blind_iadd, blind_dL, blind_effects, blind_spin, blind_evolution, blind_tides, blind_rf, blind_gr, blind_disk, blind_wind; auto 12.
  Qed.
  Theorem ias_conserves n (s s' : ias (F := R)) : unpushed (u_effects (ia_u s)) -> roche_square (ia_u s) -> shaped s -> rested s -> balanced s ->
    ias_steps n s = Ok s' ->
    momentum (u_particles (ia_u s')) = momentum (u_particles (ia_u s)) /\
    weighted p_ipos (u_particles (ia_u s')) = vadd (weighted p_ipos (u_particles (ia_u s))) (vscale (ia_t s' - ia_t s) (momentum (u_particles (ia_u s)))) /\
    (unpushed (u_effects (ia_u s')) /\ roche_square (ia_u s') /\ shaped s' /\ rested s' /\ balanced s').
  Proof.
    intros Un Sq Sh Re Ba E.
    destruct (steps_ok free free_set free_eval (map p_mass (u_particles (ia_u s))) n s s') as ((Sh' & Re' & (Sq' & Un') & Hm' & K') & P & X).
    - split; [exact Sh|]. split; [exact Re|]. split; [split; assumption|]. split; [reflexivity|]. now apply balanced_kept.
    - exact E.
    - split; [exact P|]. split; [exact X|]. split; [exact Un'|]. split; [exact Sq'|]. split; [exact Sh'|]. split; [exact Re'|]. apply balanced_kept. now rewrite Hm'.
  Qed.
  Lemma new_balanced (u : universe R) dt : balanced (ias_new u dt).
  Proof.
    intros x f q Hx Hf Hq. unfold ias_new. cbn [ia_u ia_tracks]. rewrite map_map.
    assert (Z : forall ms (l : list (particle R)), total ms (map (fun _ => q (f (x _ (k_a track_zero)))) l) = 0).
    { assert (Eq : q (f (x _ (k_a (track_zero (F := R))))) = 0).
      { cbn [In] in Hf, Hq. destruct Hx as [-> | [-> | ->]]; destruct Hf as [<-|[<-|[<-|[<-|[]]]]]; repeat destruct Hq as [<-|Hq]; try contradiction; reflexivity. }
      rewrite Eq. induction ms as [|m ms IH]; intros [|p l]; try reflexivity. cbn [map]. rewrite total_cons, IH. ring. }
    apply Z.
  Qed.
End Free.
