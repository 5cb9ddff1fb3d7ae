(** Vector algebra over the reals *)
From Coq Require Import Reals Lra Psatz List Bool ZArith.
From Verif Require Import Base.Num Base.Vec Model.Particle Proofs.NumLemmas Spec.EffectsSpec.
Import ListNotations.
Open Scope R_scope.

Ltac vunfold :=
  unfold vadd, vsub, vmap2, vscale, vmulr, vdivr, vneg, vdot, vcross, norm2, vzero in *;
  cbn [vx vy vz npow nadd nsub nmul ndiv nopp n0 n1 nabs nsqrt NumR pow] in *.
Ltac vdestruct := repeat match goal with v : vec R |- _ => destruct v as [?x ?y ?z] end.
Ltac vsplit := match goal with |- Vec _ _ _ = Vec _ _ _ => f_equal | _ => idtac end.
Ltac vring := intros; vdestruct; vunfold; vsplit; ring.

Lemma npow_pow (x : R) n : npow x n = x ^ n.
Proof.
  induction n as [|[|n] IH]; [reflexivity|cbn; num_simpl; ring|].
  change (npow x (S (S n))) with (nmul (npow x (S n)) x). rewrite IH. cbn. num_simpl. ring.
Qed.

Lemma vadd_0_l v : vadd vzero v = v :> vec R. Proof. vring. Qed.
Lemma vadd_0_r v : vadd v vzero = v :> vec R. Proof. vring. Qed.
Lemma vadd_comm a b : vadd a b = vadd b a :> vec R. Proof. vring. Qed.
Lemma vadd_assoc a b c : vadd a (vadd b c) = vadd (vadd a b) c :> vec R. Proof. vring. Qed.
Lemma vscale_0_r k : vscale k vzero = vzero :> vec R. Proof. vring. Qed.
Lemma vscale_0_l (v : vec R) : vscale 0 v = vzero. Proof. vring. Qed.
Lemma vscale_1 (v : vec R) : vscale 1 v = v. Proof. vring. Qed.
Lemma vscale_add k a b : vscale k (vadd a b) = vadd (vscale k a) (vscale k b) :> vec R. Proof. vring. Qed.
Lemma vscale_scale j k (a : vec R) : vscale j (vscale k a) = vscale (j * k) a. Proof. vring. Qed.
Lemma vcross_0_r (v : vec R) : vcross v vzero = vzero. Proof. vring. Qed.
Lemma vcross_add_l a b c : vcross (vadd a b) c = vadd (vcross a c) (vcross b c) :> vec R. Proof. vring. Qed.
Lemma vcross_add_r a b c : vcross a (vadd b c) = vadd (vcross a b) (vcross a c) :> vec R. Proof. vring. Qed.
Lemma vcross_scale_r a k b : vcross a (vscale k b) = vscale k (vcross a b) :> vec R. Proof. vring. Qed.
Lemma vdot_0_l (v : vec R) : vdot vzero v = 0. Proof. vring. Qed.
Lemma vdot_add_l a b c : vdot (vadd a b) c = vdot a c + vdot b c :> R. Proof. vring. Qed.
Lemma vdot_scale_l k a b : vdot (vscale k a) b = k * vdot a b :> R. Proof. vring. Qed.
Lemma vdot_comm a b : vdot a b = vdot b a :> R. Proof. vring. Qed.
Lemma norm2_dot (v : vec R) : norm2 v = vdot v v. Proof. vring. Qed.

Lemma vec_eq (a b : vec R) : vx a = vx b -> vy a = vy b -> vz a = vz b -> a = b.
Proof. destruct a, b; cbn; congruence. Qed.

Lemma norm2_nonneg (v : vec R) : 0 <= norm2 v.
Proof. vdestruct; vunfold; nra. Qed.
Lemma norm2_zero (v : vec R) : norm2 v = 0 -> v = vzero.
Proof. vdestruct; vunfold; intros; f_equal; nra. Qed.
Lemma norm2_pos (v : vec R) : v <> vzero -> 0 < norm2 v.
Proof.
  intro Hv. destruct (norm2_nonneg v) as [|E]; auto. exfalso; apply Hv, norm2_zero; auto.
Qed.
Lemma norm_pos (v : vec R) : v <> vzero -> 0 < sqrt (norm2 v).
Proof. intro. apply sqrt_lt_R0, norm2_pos; auto. Qed.
Lemma norm_sq (v : vec R) : sqrt (norm2 v) * sqrt (norm2 v) = norm2 v.
Proof. apply sqrt_sqrt, norm2_nonneg. Qed.
Lemma vsub_apart a b : p_ipos a <> p_ipos b -> vsub (p_ipos b) (p_ipos a) <> vzero :> vec R.
Proof.
  intros Hab E. apply Hab. destruct (p_ipos a), (p_ipos b). vunfold. injection E; intros.
  f_equal; lra.
Qed.

(** the code accumulates from the left *)
Lemma fold_left_vadd {A} (f : A -> vec R) l a :
  fold_left (fun s x => vadd s (f x)) l a = vadd a (Vsum (map f l)).
Proof.
  revert a; induction l as [|x l IH]; intro a; cbn.
  - now rewrite vadd_0_r.
  - rewrite IH. unfold Vsum; cbn. now rewrite vadd_assoc.
Qed.
Lemma Vsum_app l1 l2 : Vsum (l1 ++ l2) = vadd (Vsum l1) (Vsum l2).
Proof.
  induction l1 as [|a l1 IH]; cbn.
  - now rewrite vadd_0_l.
  - unfold Vsum in IH. now rewrite IH, vadd_assoc.
Qed.
Lemma Vsum_map_add {A} (f g : A -> vec R) l :
  Vsum (map (fun x => vadd (f x) (g x)) l) = vadd (Vsum (map f l)) (Vsum (map g l)).
Proof.
  induction l as [|a l IH]; cbn [map Vsum fold_right].
  - now rewrite vadd_0_l.
  - unfold Vsum in *. rewrite IH. vring.
Qed.
Lemma Vsum_map_scale {A} k (f : A -> vec R) l :
  Vsum (map (fun x => vscale k (f x)) l) = vscale k (Vsum (map f l)).
Proof.
  induction l as [|a l IH]; cbn [map Vsum fold_right].
  - now rewrite vscale_0_r.
  - unfold Vsum in *. rewrite IH. vring.
Qed.
Lemma Vsum_map_cross {A} v (f : A -> vec R) l :
  Vsum (map (fun x => vcross v (f x)) l) = vcross v (Vsum (map f l)).
Proof.
  induction l as [|a l IH]; cbn [map Vsum fold_right].
  - now rewrite vcross_0_r.
  - unfold Vsum in *. rewrite IH. vring.
Qed.
Lemma Vsum_map_dot {A} v (f : A -> vec R) l :
  Rsum (map (fun x => vdot (f x) v) l) = vdot (Vsum (map f l)) v.
Proof.
  induction l as [|a l IH]; cbn [map Vsum fold_right Rsum].
  - now rewrite vdot_0_l.
  - unfold Vsum, Rsum in *. rewrite IH. vring.
Qed.
Lemma Vsum_map_ext {A} (f g : A -> vec R) l :
  Forall (fun x => f x = g x) l -> Vsum (map f l) = Vsum (map g l).
Proof. induction 1 as [|a l E _ IH]; cbn; auto. unfold Vsum in *. now rewrite E, IH. Qed.
Lemma Rsum_map_ext {A} (f g : A -> R) l :
  Forall (fun x => f x = g x) l -> Rsum (map f l) = Rsum (map g l).
Proof. induction 1 as [|a l E _ IH]; cbn; auto. unfold Rsum in *. now rewrite E, IH. Qed.
Lemma Rsum_map_add {A} (f g : A -> R) l :
  Rsum (map (fun x => f x + g x) l) = Rsum (map f l) + Rsum (map g l).
Proof.
  induction l as [|a l IH]; cbn [map fold_right Rsum].
  - ring.
  - unfold Rsum in *. rewrite IH. ring.
Qed.
Lemma Rsum_map_scale {A} k (f : A -> R) l :
  Rsum (map (fun x => k * f x) l) = k * Rsum (map f l).
Proof.
  induction l as [|a l IH]; cbn [map fold_right Rsum].
  - ring.
  - unfold Rsum in *. rewrite IH. ring.
Qed.
Lemma Rsum_map_opp {A} (f : A -> R) l :
  Rsum (map (fun x => - f x) l) = - Rsum (map f l).
Proof.
  induction l as [|a l IH]; cbn [map fold_right Rsum].
  - ring.
  - unfold Rsum in *. rewrite IH. ring.
Qed.
Lemma Rsum_nonneg {A} (f : A -> R) l : Forall (fun x => 0 <= f x) l -> 0 <= Rsum (map f l).
Proof. induction 1; cbn; [lra|]. unfold Rsum in *. lra. Qed.

Lemma rsum_zero_each {A} (f : A -> R) l :
  Forall (fun x => 0 <= f x) l -> Rsum (map f l) = 0 -> Forall (fun x => f x = 0) l.
Proof.
  induction 1 as [|a l Ha Hl IH]; intro E; constructor.
  - pose proof (Rsum_nonneg f l Hl). cbn in E. unfold Rsum in *. lra.
  - apply IH. pose proof (Rsum_nonneg f l Hl). cbn in E. unfold Rsum in *. lra.
Qed.
