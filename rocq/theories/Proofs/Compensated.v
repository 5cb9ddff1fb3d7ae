(** * Compensated summation in binary64 *)
From Coq Require Import Reals List Floats.SpecFloat Bool ZArith Lia Lra Psatz.
From Flocq Require Import Core.Core IEEE754.BinarySingleNaN Plus_error Relative Pff2Flocq.
From Verif Require Import Base.Num Model.IAS15 Spec.Binary64Spec.
Import ListNotations.
Open Scope R_scope.

Local Notation prec := prec64.
Local Notation emax := emax64.
Lemma Hprec : FLX.Prec_gt_0 prec. Proof. reflexivity. Qed.
Lemma Hmax : Prec_lt_emax prec emax. Proof. reflexivity. Qed.
Local Existing Instance Hprec.
Local Existing Instance Hmax.
Local Notation fexp := (SpecFloat.fexp prec emax).
Local Notation rnd := (round radix2 fexp ZnearestE).

(** ** the standard library's doubles and Flocq's *)
Lemma aux_eq sx mx ex lx :
  SpecFloat.binary_round_aux prec emax sx mx ex lx = binary_round_aux prec emax mode_NE sx mx ex lx.
Proof.
  unfold SpecFloat.binary_round_aux, binary_round_aux.
  set (a := shr_fexp _ _ _ _ _). destruct a as [m e]. cbn [fst snd].
  assert (E : forall m l, round_nearest_even m l = choice_mode mode_NE sx m l).
  { intros m' l. case l; [reflexivity|]. intro c. case c; [|reflexivity..]. cbn. unfold Round.cond_incr. now case Z.even. }
  now rewrite E.
Qed.
Lemma norm_eq m e s : SpecFloat.binary_normalize prec emax m e s = B2SF (binary_normalize prec emax _ _ mode_NE m e s).
Proof.
  assert (E : forall s m e, SpecFloat.binary_round prec emax s m e = binary_round prec emax mode_NE s m e).
  { intros s' m' e'. unfold SpecFloat.binary_round, binary_round, shl_align_fexp.
    set (z := shl_align _ _ _); case z as [mz ez]. apply aux_eq. }
  case m as [|p|p]; [reflexivity|simpl; rewrite B2SF_SF2B; apply E..].
Qed.
Definition up (x : f64) (H : valid_binary prec emax x = true) : binary_float prec emax := SF2B x H.
Lemma add_eq x y Hx Hy : f64_add x y = B2SF (Bplus mode_NE (up x Hx) (up y Hy)).
Proof.
  unfold f64_add, up. rewrite <- (B2SF_SF2B _ _ x Hx) at 1. rewrite <- (B2SF_SF2B _ _ y Hy) at 1.
  case (SF2B x Hx) as [sx|sx| |sx mx ex Bx]; case (SF2B y Hy) as [sy|sy| |sy my ey By];
    [now (trivial || simpl; case Bool.eqb).. | ].
  apply norm_eq.
Qed.
Lemma sub_eq x y Hx Hy : f64_sub x y = B2SF (Bminus mode_NE (up x Hx) (up y Hy)).
Proof.
  unfold f64_sub, up. rewrite <- (B2SF_SF2B _ _ x Hx) at 1. rewrite <- (B2SF_SF2B _ _ y Hy) at 1.
  case (SF2B x Hx) as [sx|sx| |sx mx ex Bx]; case (SF2B y Hy) as [sy|sy| |sy my ey By];
    [now (trivial || simpl; case Bool.eqb).. | ].
  simpl. unfold Zminus. rewrite <- cond_Zopp_negb. apply norm_eq.
Qed.

(** ** additions as rounded real additions *)
Lemma value_up x Hx : B2R (up x Hx) = value x.
Proof. apply B2R_SF2B. Qed.
Lemma finite_up x Hx : is_finite (up x Hx) = is_finite_SF x.
Proof. apply is_finite_SF2B. Qed.
Lemma value_down (b : binary_float prec emax) : value (B2SF b) = B2R b.
Proof. now destruct b. Qed.
Lemma double_down (b : binary_float prec emax) : double (B2SF b) <-> is_finite b = true.
Proof.
  unfold double. rewrite is_finite_SF_B2SF. split; [tauto|]. intro E. split; [apply valid_binary_B2SF|exact E].
Qed.
Lemma double_format x : double x -> generic_format radix2 fexp (value x).
Proof. intros (V & _). rewrite <- (value_up x V). apply generic_format_B2R. Qed.
Lemma double_lt x : double x -> Rabs (value x) < bpow radix2 emax.
Proof. intros (V & _). rewrite <- (value_up x V). apply abs_B2R_lt_emax. Qed.

Lemma not_finite_overflow s : is_finite_SF (binary_overflow prec emax mode_NE s) = false.
Proof. reflexivity. Qed.

Lemma add_value x y : double x -> double y -> double (f64_add x y) -> value (f64_add x y) = rnd (value x + value y).
Proof.
  intros (Vx & Fx) (Vy & Fy). rewrite (add_eq x y Vx Vy). intro D. apply double_down in D.
  generalize (Bplus_correct prec emax _ _ mode_NE (up x Vx) (up y Vy)).
  rewrite !finite_up. intro C. specialize (C Fx Fy). rewrite !value_up in C.
  destruct (Rlt_bool _ _) in C.
  - rewrite value_down. apply C.
  - exfalso. destruct C as (C & _). rewrite <- is_finite_SF_B2SF in D. rewrite C in D. discriminate.
Qed.
Lemma sub_value x y : double x -> double y -> double (f64_sub x y) -> value (f64_sub x y) = rnd (value x - value y).
Proof.
  intros (Vx & Fx) (Vy & Fy). rewrite (sub_eq x y Vx Vy). intro D. apply double_down in D.
  generalize (Bminus_correct prec emax _ _ mode_NE (up x Vx) (up y Vy)).
  rewrite !finite_up. intro C. specialize (C Fx Fy). rewrite !value_up in C.
  destruct (Rlt_bool _ _) in C.
  - rewrite value_down. apply C.
  - exfalso. destruct C as (C & _). rewrite <- is_finite_SF_B2SF in D. rewrite C in D. discriminate.
Qed.
Lemma sub_double x y : double x -> double y -> Rabs (rnd (value x - value y)) < bpow radix2 emax -> double (f64_sub x y).
Proof.
  intros (Vx & Fx) (Vy & Fy) L. rewrite (sub_eq x y Vx Vy). apply double_down.
  generalize (Bminus_correct prec emax _ _ mode_NE (up x Vx) (up y Vy)).
  rewrite !finite_up. intro C. specialize (C Fx Fy). rewrite !value_up in C.
  cbn [round_mode] in C. rewrite Rlt_bool_true in C by exact L. apply C.
Qed.

(** ** one addition *)
Lemma fexp_FLT : fexp = FLT_exp (-1074) 53.
Proof. reflexivity. Qed.
Lemma between x y a : Rabs y <= Rabs x -> a = rnd (x + y) -> generic_format radix2 fexp x ->
  Rabs (a - x) <= Rabs a \/ Rabs (a - x) <= Rabs x.
Proof.
  intros L E Fx.
  assert (Z : rnd 0 = 0) by (apply round_0; apply valid_rnd_N).
  destruct (Rle_or_lt 0 x) as [P|N].
  - assert (A : 0 <= a).
    { rewrite E, <- Z. apply round_le; [apply fexp_correct; reflexivity|apply valid_rnd_N|].
      rewrite (Rabs_pos_eq x) in L by exact P. apply Rabs_le_inv in L. lra. }
    rewrite (Rabs_pos_eq a), (Rabs_pos_eq x) by assumption. unfold Rabs. destruct (Rcase_abs _); [right|left]; lra.
  - assert (A : a <= 0).
    { rewrite E, <- Z. apply round_le; [apply fexp_correct; reflexivity|apply valid_rnd_N|].
      rewrite (Rabs_left x) in L by exact N. apply Rabs_le_inv in L. lra. }
    rewrite (Rabs_left x) by exact N. rewrite (Rabs_left1 a) by exact A. unfold Rabs. destruct (Rcase_abs _); [left|right]; lra.
Qed.

Lemma step_exact p y : double p -> double y -> double (f64_add p y) -> Rabs (value y) <= Rabs (value p) ->
  let q := f64_add p y in let c := f64_sub (f64_sub q p) y in
  double c /\ value q - value c = value p + value y.
Proof.
  intros Dp Dy Dq L q c.
  pose proof (add_value p y Dp Dy Dq) as Eq. fold q in Eq, Dq.
  set (x := value p) in *. set (z := value y) in *. set (a := value q) in *.
  pose proof (double_format p Dp) as Fx. pose proof (double_format y Dy) as Fz. pose proof (double_format q Dq) as Fa.
  fold x in Fx. fold z in Fz. fold a in Fa.
  assert (V : Valid_exp fexp) by (apply fexp_correct; reflexivity).
  (* the first difference *)
  assert (D1 : double (f64_sub q p)).
  { apply sub_double; [exact Dq|exact Dp|]. fold a x.
    destruct (between x z a L Eq Fx) as [B|B].
    - apply Rle_lt_trans with (Rabs a); [|now apply double_lt].
      apply abs_round_le_generic; [exact V|apply valid_rnd_N|now apply generic_format_abs|exact B].
    - apply Rle_lt_trans with (Rabs x); [|now apply double_lt].
      apply abs_round_le_generic; [exact V|apply valid_rnd_N|now apply generic_format_abs|exact B]. }
  pose proof (sub_value q p Dq Dp D1) as E1. fold a x in E1.
  (* Dekker's sum *)
  assert (T : a + rnd (z + rnd (x - a)) = x + z).
  { rewrite Eq. rewrite fexp_FLT in *. apply (Fast2Sum_correct (-1074) 53 (fun n => negb (Z.even n))); try assumption; try lia.
    intro n. rewrite Z.even_opp, Z.even_add. cbn. destruct (Z.even n); reflexivity. }
  assert (S : rnd (rnd (a - x) - z) = - rnd (z + rnd (x - a))).
  { replace (a - x) with (- (x - a)) by ring. rewrite round_NE_opp. replace (- rnd (x - a) - z) with (- (z + rnd (x - a))) by ring.
    now rewrite round_NE_opp. }
  assert (D2 : double c).
  { apply sub_double; [exact D1|exact Dy|]. fold z. rewrite E1, S.
    replace (- rnd (z + rnd (x - a))) with (a - (x + z)) by lra.
    apply Rle_lt_trans with (Rabs z); [|now apply double_lt].
    rewrite Eq. destruct (round_N_pt radix2 fexp (fun n => negb (Z.even n)) (x + z)) as (_ & N).
    specialize (N x Fx). replace (x - (x + z)) with (- z) in N by ring. rewrite Rabs_Ropp in N. exact N. }
  split; [exact D2|].
  pose proof (sub_value _ _ D1 Dy D2) as E2. fold c z in E2. rewrite E2, E1, S. lra.
Qed.

Lemma sub_error i c : double i -> double c -> double (f64_sub i c) ->
  Rabs (value (f64_sub i c) - (value i - value c)) <= / 2 ^ 53 * Rabs (value i - value c).
Proof.
  intros Di Dc D. rewrite (sub_value i c Di Dc D).
  destruct (FLT_plus_error_N_ex radix2 (-1074) 53 (fun n => negb (Z.even n)) (value i) (- value c)) as (e & B & E).
  - rewrite <- fexp_FLT. now apply double_format.
  - rewrite <- fexp_FLT. apply generic_format_opp. now apply double_format.
  - rewrite fexp_FLT. unfold Rminus at 2. rewrite E. replace ((value i + - value c) * (1 + e) - (value i - value c)) with (e * (value i - value c)) by ring.
    rewrite Rabs_mult. apply Rmult_le_compat_r; [apply Rabs_pos|].
    apply Rle_trans with (1 := B).
    assert (U : u_ro radix2 53 = / 2 ^ 53).
    { unfold u_ro. cbn -[pow]. lra. }
    rewrite U. assert (P : 0 < / 2 ^ 53) by (apply Rinv_0_lt_compat; lra).
    apply Rmult_le_reg_r with (1 + / 2 ^ 53); [lra|]. unfold Rdiv. rewrite Rmult_assoc, Rinv_l by lra. nra.
Qed.

(** the relative error of a sum or difference *)
Lemma plus_rel x y : generic_format radix2 fexp x -> generic_format radix2 fexp y ->
  exists e, Rabs e <= / 2 ^ 53 /\ rnd (x + y) = (x + y) * (1 + e).
Proof.
  intros Fx Fy. destruct (FLT_plus_error_N_ex radix2 (-1074) 53 (fun n => negb (Z.even n)) x y Fx Fy) as (e & B & E).
  exists e. split; [|exact E]. apply Rle_trans with (1 := B).
  assert (U : u_ro radix2 53 = / 2 ^ 53) by (unfold u_ro; cbn -[pow]; lra).
  rewrite U. assert (P : 0 < / 2 ^ 53) by (apply Rinv_0_lt_compat; lra).
  apply Rmult_le_reg_r with (1 + / 2 ^ 53); [lra|]. unfold Rdiv. rewrite Rmult_assoc, Rinv_l by lra. nra.
Qed.

(** a larger increment loses no more than a rounding of the increment *)
Lemma large_bound (u p y a s c e1 e2 e3 : R) : 0 < u <= 1 / 64 -> Rabs p <= Rabs y ->
  Rabs e1 <= u -> Rabs e2 <= u -> Rabs e3 <= u ->
  a = (p + y) * (1 + e1) -> s = (a - p) * (1 + e2) -> c = (s - y) * (1 + e3) ->
  Rabs (a - c - (p + y)) <= 3 / 2 * u * Rabs y.
Proof.
  intros (U0 & U1) L B1 B2 B3 Ea Es Ec.
  assert (Y0 := Rabs_pos y). set (Y := Rabs y) in *.
  assert (M : forall e z m, Rabs e <= u -> Rabs z <= m -> Rabs (z * e) <= m * u).
  { intros e z m He Hz. rewrite Rabs_mult. apply Rmult_le_compat; auto using Rabs_pos. }
  assert (T1 : Rabs ((p + y) * e1) <= 2 * Y * u).
  { apply M; [exact B1|]. eapply Rle_trans; [apply Rabs_triang|]. fold Y. lra. }
  assert (H1 : Rabs (a - p) <= Y + 2 * Y * u).
  { replace (a - p) with (y + (p + y) * e1) by (rewrite Ea; ring). eapply Rle_trans; [apply Rabs_triang|]. fold Y. lra. }
  assert (T2 : Rabs ((a - p) * e2) <= (Y + 2 * Y * u) * u) by (apply M; assumption).
  assert (H2 : Rabs (s - y) <= 2 * Y * u + (Y + 2 * Y * u) * u).
  { replace (s - y) with ((p + y) * e1 + (a - p) * e2) by (rewrite Es, Ea; ring).
    eapply Rle_trans; [apply Rabs_triang|]. lra. }
  assert (T3 : Rabs ((s - y) * e3) <= (2 * Y * u + (Y + 2 * Y * u) * u) * u) by (apply M; assumption).
  replace (a - c - (p + y)) with (- ((a - p) * e2) + - ((s - y) * e3)) by (rewrite Ec, Es; ring).
  eapply Rle_trans; [apply Rabs_triang|]. rewrite !Rabs_Ropp.
  assert (W : 0 <= Y * u) by nra. assert (V : 5 * u + 2 * (u * u) <= 1 / 2) by nra.
  assert (X : Y * u * (5 * u + 2 * (u * u)) <= Y * u * (1 / 2)) by (apply Rmult_le_compat_l; assumption).
  apply Rle_trans with ((Y + 2 * Y * u) * u + (2 * Y * u + (Y + 2 * Y * u) * u) * u); [apply Rplus_le_compat; assumption|].
  lra.
Qed.

(** ** any number of additions *)
Lemma step_bound p c i : double p -> double c -> fits (p, c) [i] ->
  Rabs (value (fst (add_cs p c i)) - value (snd (add_cs p c i)) - (value p - value c + value i))
  <= 3 / 2 ^ 53 * Rabs (value i - value c).
Proof.
  intros Dp Dc (Di & Dy & Dq & Ds & Dr & _). cbn [fst snd] in *.
  change (add_cs p c i) with (f64_add p (f64_sub i c), f64_sub (f64_sub (f64_add p (f64_sub i c)) p) (f64_sub i c)).
  cbn [fst snd]. pose proof (sub_error i c Di Dc Dy) as S.
  set (y := f64_sub i c) in *. set (q := f64_add p y) in *. set (s := f64_sub q p) in *. set (r := f64_sub s y) in *.
  unfold Rdiv. set (u := / 2 ^ 53) in *. assert (U : 0 < u <= 1 / 64) by (unfold u; split; lra).
  set (D := Rabs (value i - value c)) in *. assert (D0 : 0 <= D) by apply Rabs_pos.
  assert (Yle : Rabs (value y) <= D + u * D).
  { replace (value y) with ((value i - value c) + (value y - (value i - value c))) by ring.
    eapply Rle_trans; [apply Rabs_triang|]. fold D. apply Rplus_le_compat_l. exact S. }
  assert (K : Rabs (value q - value r - (value p + value y)) <= 3 / 2 * u * Rabs (value y)).
  { destruct (Rle_or_lt (Rabs (value y)) (Rabs (value p))) as [L|L].
    - destruct (step_exact p y Dp Dy Dq L) as (_ & E). fold q in E. fold s in E. fold r in E. rewrite E.
      rewrite Rminus_eq_0, Rabs_R0. assert (Y0 := Rabs_pos (value y)). nra.
    - destruct (plus_rel (value p) (value y)) as (e1 & B1 & E1); [now apply double_format..|].
      rewrite <- (add_value p y Dp Dy Dq) in E1. fold q in E1.
      destruct (plus_rel (value q) (- value p)) as (e2 & B2 & E2); [now apply double_format|apply generic_format_opp; now apply double_format|].
      destruct (plus_rel (value s) (- value y)) as (e3 & B3 & E3); [now apply double_format|apply generic_format_opp; now apply double_format|].
      change (value q + - value p) with (value q - value p) in E2. rewrite <- (sub_value q p Dq Dp Ds) in E2. fold s in E2.
      change (value s + - value y) with (value s - value y) in E3. rewrite <- (sub_value s y Ds Dy Dr) in E3. fold r in E3.
      apply (large_bound u (value p) (value y) (value q) (value s) (value r) e1 e2 e3); auto. lra. }
  clearbody u D y q s r.
  replace (value q - value r - (value p - value c + value i))
    with ((value q - value r - (value p + value y)) + (value y - (value i - value c))) by ring.
  eapply Rle_trans; [apply Rabs_triang|]. apply Rle_trans with (3 / 2 * u * Rabs (value y) + u * D).
  - apply Rplus_le_compat; [exact K|exact S].
  - assert (3 / 2 * u * Rabs (value y) <= 3 / 2 * u * (D + u * D)) by (apply Rmult_le_compat_l; [lra|exact Yle]).
    assert (0 <= u * D) by nra. nra.
Qed.

Lemma fits_total l : forall p c, double p -> double c -> fits (p, c) l ->
  let r := add_all (p, c) l in
  double (fst r) /\ double (snd r) /\
  Rabs (value (fst r) - value (snd r) - (value p - value c + total l)) <= 3 / 2 ^ 53 * moved (p, c) l.
Proof.
  induction l as [|i l IH]; intros p c Dp Dc C.
  - cbn [add_all fold_left fst snd total fold_right moved]. split; [exact Dp|]. split; [exact Dc|].
    replace (value p - value c - (value p - value c + 0)) with 0 by ring. rewrite Rabs_R0. lra.
  - assert (S : fits (p, c) [i]) by (cbn [fits] in *; tauto). apply (step_bound p c i Dp Dc) in S.
    cbn [fits fst snd] in C. destruct C as (Di & Dy & Dq & Ds & Dr & C).
    change (f64_add p (f64_sub i c)) with (fst (add_cs p c i)) in Dq.
    change (f64_sub (f64_sub (f64_add p (f64_sub i c)) p) (f64_sub i c)) with (snd (add_cs p c i)) in Dr.
    cbv zeta. change (add_all (p, c) (i :: l)) with (add_all (add_cs p c i) l).
    cbn [moved total fold_right fst snd]. fold (total l).
    destruct (add_cs p c i) as [p' c']. cbn [fst snd] in *.
    destruct (IH p' c' Dq Dr C) as (A & B & I). split; [exact A|]. split; [exact B|].
    set (u := 3 / 2 ^ 53) in *. clearbody u.
    set (A' := value (fst _)) in *. set (B' := value (snd _)) in *.
    replace (A' - B' - (value p - value c + (value i + total l)))
      with ((A' - B' - (value p' - value c' + total l)) + (value p' - value c' - (value p - value c + value i))) by ring.
    eapply Rle_trans; [apply Rabs_triang|]. rewrite Rmult_plus_distr_l.
    rewrite (Rplus_comm (u * _)). exact (Rplus_le_compat _ _ _ _ I S).
Qed.

(** ** examples *)
Definition d (m : Z) (e : Z) : f64 := SpecFloat.binary_normalize prec emax m e false.
Fixpoint fitsb (pc : f64 * f64) (l : list f64) : bool :=
  let db x := (valid_binary prec emax x && is_finite_SF x)%bool in
  match l with
  | [] => true
  | i :: l' => let y := f64_sub i (snd pc) in let p' := f64_add (fst pc) y in
      (db i && db y && db p' && db (f64_sub p' (fst pc)) && db (f64_sub (f64_sub p' (fst pc)) y)
       && fitsb (add_cs (fst pc) (snd pc) i) l')%bool
  end.
Lemma fitsb_ok l : forall pc, fitsb pc l = true -> fits pc l.
Proof.
  induction l as [|i l IH]; intros pc E; [exact I|]. cbn [fitsb fits] in *.
  repeat (apply andb_prop in E; destruct E as (E & ?)).
  repeat match goal with H : (_ && _)%bool = true |- _ => apply andb_prop in H; destruct H end.
  unfold double. cbv zeta. repeat split; auto.
Qed.
(** three quarters of the last place of one, in three parts: each alone would be lost *)
Definition crumbs : list f64 := [d 1 (-54); d 1 (-54); d 1 (-54)].
Lemma crumbs_fit : fits (d 1 0, d 0 0) crumbs.
Proof. apply fitsb_ok. vm_compute. reflexivity. Qed.
Lemma crumbs_kept : add_all (d 1 0, d 0 0) crumbs = (d (2 ^ 52 + 1) (-52), d 1 (-54)).
Proof. vm_compute. reflexivity. Qed.
Lemma crumbs_lost : fold_left f64_add crumbs (d 1 0) = d 1 0.
Proof. vm_compute. reflexivity. Qed.
Lemma double_d x : (valid_binary prec emax x && is_finite_SF x)%bool = true -> double x.
Proof. intro E. apply andb_prop in E. exact E. Qed.
(** subtracting zero *)
Lemma sub_zero y : double y -> value (f64_sub y (S754_zero false)) = value y /\ double (f64_sub y (S754_zero false)).
Proof. intros D. destruct y as [s|s| |s m e]; destruct D as (V & E); try discriminate; destruct s; repeat split; auto. Qed.
Lemma added_exactly p y : double p -> double y -> double (f64_add p y) -> Rabs (value y) <= Rabs (value p) ->
  let r := add_cs p (S754_zero false) y in value (fst r) - value (snd r) = value p + value y.
Proof.
  intros Dp Dy Dq L. destruct (sub_zero y Dy) as (E & D). cbv zeta.
  change (add_cs p (S754_zero false) y) with
    (f64_add p (f64_sub y (S754_zero false)), f64_sub (f64_sub (f64_add p (f64_sub y (S754_zero false))) p) (f64_sub y (S754_zero false))).
  cbn [fst snd]. rewrite <- E. apply step_exact; [exact Dp|exact D| |now rewrite E].
  destruct y as [s|s| |s m e]; try exact Dq.
  destruct s; exact Dq || (destruct p as [t|t| |t m' e']; destruct Dp as (V & W); try discriminate; try destruct t; split; auto).
Qed.
(** an increment larger than the total: one unit is lost *)
Lemma large_lost : exists p i : f64, double p /\ double i /\ fits (p, S754_zero false) [i] /\
  let r := add_cs p (S754_zero false) i in value (fst r) - value (snd r) <> value p + value i.
Proof.
  exists (d (2 ^ 52 + 1) (-52)), (d 1 53). split; [apply double_d; vm_compute; reflexivity|]. split; [apply double_d; vm_compute; reflexivity|].
  split; [apply fitsb_ok; vm_compute; reflexivity|]. cbv zeta.
  assert (E : add_cs (d (2 ^ 52 + 1) (-52)) (S754_zero false) (d 1 53) = (S754_finite false 4503599627370497 1, S754_zero false)) by (vm_compute; reflexivity).
  assert (P : d (2 ^ 52 + 1) (-52) = S754_finite false 4503599627370497 (-52)) by (vm_compute; reflexivity).
  assert (I : d 1 53 = S754_finite false 4503599627370496 1) by (vm_compute; reflexivity).
  rewrite E, P, I. cbn [fst snd]. unfold value, SF2R, F2R, cond_Zopp, Defs.Fnum, Defs.Fexp. cbn [bpow radix_val radix2 Z.pow_pos Pos.iter Z.mul Pos.mul]. lra.
Qed.
