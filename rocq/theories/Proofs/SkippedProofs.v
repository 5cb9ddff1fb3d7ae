(** Relativity in WHFast: the Newtonian terms that its gravity leaves out are put back *)
From Coq Require Import Reals Lra Psatz List Bool ZArith Arith Lia.
From Verif Require Import Base.Num Base.Vec Model.Constants Model.Particle Model.Relativity
  Proofs.NumLemmas Proofs.VecLemmas Proofs.RelativityProofs Proofs.ShiftProofs Proofs.RelativityExamples Spec.EffectsSpec Spec.SkippedSpec.
Import ListNotations.
Open Scope R_scope.

(** the corrections see the stored accelerations only through the Newtonian ones *)
Definition z (p : particle R) : particle R := set_p_iacc vzero p.
Lemma z_prepare host l : gr_prepare (z host) (map z l) = (z (fst (gr_prepare host l)), map z (snd (gr_prepare host l))).
Proof.
  unfold gr_prepare, gr_inertial_to_heliocentric. change (gr_implemented (z host)) with (gr_implemented host).
  assert (A : forall h k, gr_initialize (z h) (map z k) = (z (fst (gr_initialize h k)), map z (snd (gr_initialize h k)))).
  { intros h k. unfold gr_initialize. change (p_gr (z h)) with (p_gr h).
    destruct (gr_effect (p_gr h)) as [[]| |]; try reflexivity; cbn [fst snd]; f_equal;
      rewrite !map_map; apply map_ext; intros p; change (gr_orbiting (z p)) with (gr_orbiting p); destruct (gr_orbiting p); reflexivity. }
  destruct (gr_implemented host); [|apply A]. rewrite <- A. f_equal.
  rewrite !map_map. apply map_ext. intros p. change (gr_orbiting (z p)) with (gr_orbiting p). destruct (gr_orbiting p); reflexivity.
Qed.
Lemma z_to_jacobi host l ha accs : to_jacobi (z host) (map z l) ha accs = to_jacobi host l ha accs.
Proof.
  unfold to_jacobi. rewrite combine_map_l, fold_left_map. rewrite (fold_left_ext_in _ to_jacobi_step); [reflexivity|].
  intros [p a] _ [s o]. reflexivity.
Qed.
Lemma z_from_jacobi l m js : from_jacobi (map z l) m js = from_jacobi l m js.
Proof. unfold from_jacobi. rewrite combine_map_l, fold_right_map. rewrite (fold_right_ext _ from_jacobi_step); [reflexivity|]. intros [p a] c. reflexivity. Qed.
Lemma z_store l (out : list (vec R)) :
  map relativistic_acc (map (fun pa => if gr_orbiting (fst pa) then on_gr (set_gr_acc (snd pa)) (fst pa) else fst pa) (combine (map z l) out)) =
  map relativistic_acc (map (fun pa => if gr_orbiting (fst pa) then on_gr (set_gr_acc (snd pa)) (fst pa) else fst pa) (combine l out)).
Proof.
  rewrite combine_map_l, !map_map. apply map_ext. intros [p a]. cbn [fst snd]. change (gr_orbiting (z p)) with (gr_orbiting p).
  destruct (gr_orbiting p); reflexivity.
Qed.
Lemma z_corrected l mu (js : list (vec R * vec R * vec R)) :
  map (fun pj : particle R * (vec R * vec R * vec R) => if gr_orbiting (fst pj) then anderson_correction mu (snd pj) else snd (snd pj)) (combine (map z l) js) =
  map (fun pj : particle R * (vec R * vec R * vec R) => if gr_orbiting (fst pj) then anderson_correction mu (snd pj) else snd (snd pj)) (combine l js).
Proof. rewrite combine_map_l, map_map. apply map_ext. intros [p j]. reflexivity. Qed.
Lemma z_sum_other bodies i f g : (forall k c, f k (z c) = g k c) -> sum_other (map z bodies) i f = sum_other bodies i g.
Proof. intros E. unfold sum_other. rewrite enumerate_map, fold_left_map. apply fold_left_ext_in. intros [k c] _ s. cbn [fst snd]. now rewrite E. Qed.
Lemma z_const bodies i a : newhall_const (map z bodies) i (z a) = newhall_const bodies i a.
Proof.
  unfold newhall_const. rewrite enumerate_map, fold_left_map. apply fold_left_ext_in.
  intros [j b] _ s. cbn [fst snd]. unfold newhall_const_pair.
  destruct (Nat.eqb j i); [reflexivity|]. change (pair_on (z a) (z b)) with (pair_on a b). destruct (pair_on a b); [|reflexivity].
  rewrite (z_sum_other bodies i _ (fun k c => (#4 / SPEED_OF_LIGHT_2 * G * p_mass c / newhall_r i k a c)%num)) by reflexivity.
  rewrite (z_sum_other bodies j _ (fun m c => (n1 / SPEED_OF_LIGHT_2 * G * p_mass c / newhall_r m j c b)%num)) by reflexivity.
  reflexivity.
Qed.
Lemma z_sweep bodies newton const old : newhall_sweep (map z bodies) newton const old = newhall_sweep bodies newton const old.
Proof.
  unfold newhall_sweep. rewrite !combine_map_l, !enumerate_map, !map_map. apply map_ext.
  intros [i [b k]]. cbn [fst snd]. f_equal. rewrite fold_left_map.
  apply fold_left_ext_in. intros [j [[c nw] od]] _ s. reflexivity.
Qed.
Lemma z_converged bodies a b : newhall_converged (map z bodies) a b = newhall_converged bodies a b.
Proof.
  unfold newhall_converged. rewrite !combine_map_l, fold_left_map. cbn [fst snd].
  f_equal. f_equal. apply fold_left_ext_in. intros [[c x] y] _ s. reflexivity.
Qed.
Lemma z_loop n bodies newton const : forall a, newhall_loop n (map z bodies) newton const a = newhall_loop n bodies newton const a.
Proof. induction n as [|n IH]; intros a; cbn [newhall_loop]; [reflexivity|]. now rewrite z_sweep, z_converged, IH. Qed.

Section Same.
  Variables (ig ig' : ignore_terms) (h h' : particle R) (l l' : list (particle R)).
  Hypotheses (Eh : z h = z h') (El : map z l = map z l') (En : newtonian_accelerations ig h l = newtonian_accelerations ig' h' l').
  Lemma anderson_same : same_accs (anderson ig h l) (anderson ig' h' l').
  Proof.
    unfold anderson. rewrite <- En. destruct (newtonian_accelerations ig h l) as [ha accs].
    assert (M : p_mass_g h = p_mass_g h') by (change (p_mass_g (z h) = p_mass_g (z h')); now rewrite Eh).
    assert (J : to_jacobi h l ha accs = to_jacobi h' l' ha accs) by (rewrite <- z_to_jacobi, Eh, El; apply z_to_jacobi).
    rewrite <- J. destruct (to_jacobi h l ha accs) as [sm js]. rewrite <- (z_corrected l), El, (z_corrected l'), M.
    rewrite <- (z_from_jacobi l), El, (z_from_jacobi l'). destruct (from_jacobi l' sm _) as [sa out].
    split; [reflexivity|]. cbn [snd]. rewrite <- (z_store l), El. apply z_store.
  Qed.
  Lemma newhall_same : same_accs (newhall ig h l) (newhall ig' h' l').
  Proof.
    unfold newhall. rewrite <- En. destruct (newtonian_accelerations ig h l) as [ha accs].
    assert (B : map z (h :: l) = map z (h' :: l')) by (cbn [map]; now rewrite Eh, El).
    assert (C : forall b : list (particle R), map (fun ib => newhall_const b (fst ib) (snd ib)) (enumerate b) =
      map (fun ib => newhall_const (map z b) (fst ib) (snd ib)) (enumerate (map z b))).
    { intros b. rewrite enumerate_map, map_map. apply map_ext. intros [i a]. cbn [fst snd]. symmetry. apply z_const. }
    rewrite (C (h :: l)), (C (h' :: l')), <- (z_loop _ (h :: l)), B, z_loop.
    assert (Z : map (fun _ : particle R => @vzero R _) (h :: l) = map (fun _ => vzero) (h' :: l')).
    { assert (X : forall b : list (particle R), map (fun _ : particle R => @vzero R _) b = map (fun _ => vzero) (map z b)) by (intros b; now rewrite map_map).
      rewrite (X (h :: l)), B. symmetry. apply X. }
    rewrite Z. split; [reflexivity|]. cbn [snd]. rewrite <- (z_store l), El. apply z_store.
  Qed.
End Same.

(** what the preparation gives *)
Lemma prepared (host : particle R) : is_anderson host \/ is_newhall host -> exists h f, (forall l, gr_prepare host l = (h, map f l)) /\
  z h = z (set_p_gr (p_gr h) host) /\ p_iacc h = p_iacc host /\
  (forall p, gr_orbiting p = true -> p_iacc (f p) = p_iacc p /\ p_mass (f p) = p_mass p /\ p_ipos (f p) = p_ipos p /\
    gr_pos (p_gr (f p)) = vsub (p_ipos p) (p_ipos host)).
Proof.
  intros [K|K]; unfold is_anderson, is_newhall in K; unfold gr_prepare, gr_inertial_to_heliocentric, gr_implemented; rewrite K.
  - unfold gr_initialize. set (h := set_gr_coords _ _ _ _ _ _ host).
    assert (Eh : gr_effect (p_gr h) = GrCentral Anderson1975) by exact K. rewrite Eh.
    eexists _, _. split; [intros l; rewrite map_map; reflexivity|]. split; [reflexivity|]. split; [reflexivity|].
    intros p Hp. cbv beta. rewrite Hp. match goal with |- context [gr_orbiting ?q] => change (gr_orbiting q) with (gr_orbiting p) end. rewrite Hp.
    repeat split; reflexivity.
  - unfold gr_initialize. set (h := set_gr_coords _ _ _ _ _ _ host).
    assert (Eh : gr_effect (p_gr h) = GrCentral Newhall1983) by exact K. rewrite Eh.
    eexists _, _. split; [intros l; reflexivity|]. split; [reflexivity|]. split; [reflexivity|].
    intros p Hp. cbv beta. rewrite Hp. repeat split; reflexivity.
Qed.
Lemma cube_norm (r : vec R) : norm2 r * sqrt (norm2 r) = sqrt (norm2 r) ^ 3.
Proof. assert (P : 0 <= norm2 r) by (destruct r; vunfold; num_simpl; nra). rewrite <- (sqrt_sqrt _ P) at 1. ring. Qed.
Lemma put_back (h : particle R) : p_ipos h = vzero -> forall k x o, Forall (fun q => gr_pos (p_gr q) = vsub (p_ipos q) (p_ipos h)) k ->
  fold_left (skipped_pair h) (combine k (map p_iacc k)) (x, o) =
  (vadd x (Vsum (map (attraction h) k)), o ++ map (fun q => vadd (p_iacc q) (attraction q h)) k).
Proof.
  intros Hh. induction k as [|q k IH]; intros x o Hk.
  - cbn. rewrite app_nil_r. f_equal. destruct x. vunfold. num_simpl. f_equal; ring.
  - inversion Hk as [|? ? Hq Hk']; subst. cbn [map combine fold_left]. unfold skipped_pair at 2. cbn [fst snd].
    rewrite IH by exact Hk'. rewrite <- app_assoc. cbn [app]. rewrite Hq, Hh.
    set (t := Vsum _). change (Vsum (attraction h q :: map (attraction h) k)) with (vadd (attraction h q) t).
    set (d := vsub vzero (vsub (p_ipos q) vzero)). assert (Ed : d = vsub vzero (p_ipos q)) by (unfold d; destruct (p_ipos q); vunfold; num_simpl; f_equal; ring).
    assert (N : norm2 (vsub (p_ipos q) vzero) = norm2 d) by (rewrite Ed; destruct (p_ipos q); vunfold; num_simpl; ring).
    assert (E2 : vsub (p_ipos q) vzero = vscale (-1) d) by (rewrite Ed; destruct (p_ipos q); vunfold; num_simpl; f_equal; ring).
    assert (A1 : attraction h q = vscale (G * p_mass q / sqrt (norm2 d) ^ 3) (vscale (-1) d)) by (unfold attraction; rewrite Hh, N, E2; reflexivity).
    assert (A2 : attraction q h = vscale (G * p_mass h / sqrt (norm2 d) ^ 3) d) by (unfold attraction; rewrite Hh, <- Ed; reflexivity).
    rewrite A1, A2. cbv zeta. change (nsqrt (norm2 d)) with (sqrt (norm2 d)).
    change (norm2 d * sqrt (norm2 d))%num with (norm2 d * sqrt (norm2 d)). rewrite cube_norm.
    generalize (sqrt (norm2 d) ^ 3). intros w. clear - w. clearbody t d. apply f_equal2.
    + destruct x, t, d. vunfold. num_simpl. unfold Rdiv. f_equal; ring.
    + f_equal. f_equal. destruct (p_iacc q), d. vunfold. num_simpl. unfold Rdiv. f_equal; ring.
Qed.

Lemma orbiting_positions (f : particle R -> particle R) h host l : p_ipos h = p_ipos host -> Forall (fun p => gr_orbiting p = true) l ->
  (forall p, gr_orbiting p = true -> p_iacc (f p) = p_iacc p /\ p_mass (f p) = p_mass p /\ p_ipos (f p) = p_ipos p /\
    gr_pos (p_gr (f p)) = vsub (p_ipos p) (p_ipos host)) ->
  Forall (fun q => gr_pos (p_gr q) = vsub (p_ipos q) (p_ipos h)) (map f l).
Proof.
  intros E Ho Hf. apply Forall_map. eapply Forall_impl; [|exact Ho]. intros p Hp. cbv beta in *.
  destruct (Hf p Hp) as (_ & _ & X & Y). now rewrite Y, X, E.
Qed.
Lemma z_eq_fields h host g : z h = z (set_p_gr g host) -> p_mass h = p_mass host /\ p_ipos h = p_ipos host.
Proof. intros E. split; [change (p_mass (z h) = p_mass (z (set_p_gr g host)))|change (p_ipos (z h) = p_ipos (z (set_p_gr g host)))]; now rewrite E. Qed.

(** the prepared bodies of the two sides *)
Lemma pass_same ig ig' (host host' : particle R) l l' : is_anderson host \/ is_newhall host -> z host = z host' -> map z l = map z l' ->
  newtonian_accelerations ig (fst (gr_prepare host l)) (snd (gr_prepare host l)) = newtonian_accelerations ig' (fst (gr_prepare host' l')) (snd (gr_prepare host' l')) ->
  same_accs (relativity_pass ig host l) (relativity_pass ig' host' l').
Proof.
  intros K Eh El En. unfold relativity_pass.
  pose proof (z_prepare host l) as P. pose proof (z_prepare host' l') as P'. rewrite Eh, El in P. rewrite P in P'. pose proof (f_equal fst P') as X1. pose proof (f_equal snd P') as X2. clear P P'.
  pose proof (prepare_effect host l) as E1. pose proof (prepare_effect host' l') as E2.
  assert (E3 : gr_effect (p_gr host) = gr_effect (p_gr host')) by (change (gr_effect (p_gr (z host)) = gr_effect (p_gr (z host'))); now rewrite Eh).
  destruct (gr_prepare host l) as [h k], (gr_prepare host' l') as [h' k']. cbn [fst snd] in *. rewrite E2, <- E3, E1.
  destruct K as [K|K]; rewrite K; [apply anderson_same|apply newhall_same]; assumption.
Qed.
Lemma newtonian_none (h : particle R) l : newtonian_accelerations IgnoreNone h l = (p_iacc h, map p_iacc l).
Proof. reflexivity. Qed.
Theorem skipped_two (host : particle R) l : is_anderson host \/ is_newhall host -> p_ipos host = vzero -> Forall (fun p => gr_orbiting p = true) l ->
  same_accs (relativity_pass WHFastTwo host l) (relativity_pass IgnoreNone (completed_host host l) (map (completed host) l)).
Proof.
  intros K H0 Ho. apply pass_same; [exact K|reflexivity|rewrite map_map; reflexivity|].
  destruct (prepared host K) as (h & f & E & Zh & Ah & Ef). rewrite E. cbn [fst snd].
  destruct (prepared (completed_host host l) K) as (h' & f' & E' & Zh' & Ah' & Ef'). rewrite E'. cbn [fst snd].
  rewrite newtonian_none, Ah'. destruct (z_eq_fields _ _ _ Zh) as [Mh Ph].
  unfold newtonian_accelerations. rewrite firstn_all2 by (rewrite combine_length, !map_length; lia).
  rewrite put_back by (try (rewrite Ph; exact H0); apply (orbiting_positions f h host l Ph Ho Ef)).
  rewrite skipn_all2 by (rewrite !map_length; lia). cbn [app]. rewrite app_nil_r, Ah. apply f_equal2.
  - unfold completed_host. cbn. f_equal. f_equal. rewrite map_map. apply map_ext_in. intros p Hp. rewrite Forall_forall in Ho.
    destruct (Ef p (Ho p Hp)) as (_ & M & X & _). unfold attraction. now rewrite M, X, Ph.
  - rewrite !map_map. apply map_ext_in. intros p Hp. rewrite Forall_forall in Ho.
    destruct (Ef p (Ho p Hp)) as (A & _ & X & _). destruct (Ef' (completed host p) (Ho p Hp)) as (A' & _).
    rewrite A', A. unfold completed, attraction. rewrite Mh, X, Ph. reflexivity.
Qed.
Theorem skipped_one (host p : particle R) l : is_anderson host \/ is_newhall host -> p_ipos host = vzero -> Forall (fun q => gr_orbiting q = true) (p :: l) ->
  same_accs (relativity_pass WHFastOne host (p :: l)) (relativity_pass IgnoreNone (completed_host host [p]) (completed host p :: l)).
Proof.
  intros K H0 Ho. apply pass_same; [exact K|reflexivity|reflexivity|].
  destruct (prepared host K) as (h & f & E & Zh & Ah & Ef). rewrite E. cbn [fst snd].
  destruct (prepared (completed_host host [p]) K) as (h' & f' & E' & Zh' & Ah' & Ef'). rewrite E'. cbn [fst snd].
  rewrite newtonian_none, Ah'. destruct (z_eq_fields _ _ _ Zh) as [Mh Ph].
  assert (Op : gr_orbiting p = true) by now inversion Ho. assert (Ol : Forall (fun q => gr_orbiting q = true) l) by now inversion Ho.
  unfold newtonian_accelerations. cbn [map combine firstn skipn].
  pose proof (put_back h ltac:(rewrite Ph; exact H0) [f p] (p_iacc h) [] (orbiting_positions f h host [p] Ph ltac:(repeat constructor; exact Op) Ef)) as PB.
  cbn [map combine] in PB. rewrite PB. cbn [app map]. rewrite Ah. destruct (Ef p Op) as (A & M & X & _). apply f_equal2.
  - unfold completed_host. cbn [map p_iacc set_p_iacc]. f_equal. unfold attraction. now rewrite M, X, Ph.
  - destruct (Ef' (completed host p) Op) as (A' & _). rewrite A', A. f_equal.
    + unfold completed, attraction. rewrite Mh, X, Ph. reflexivity.
    + rewrite !map_map. apply map_ext_in. intros q Hq. rewrite Forall_forall in Ol.
      destruct (Ef q (Ol q Hq)) as (B & _). destruct (Ef' q (Ol q Hq)) as (B' & _). now rewrite B, B'.
Qed.

Lemma completed_example : is_newhall (rest (GrCentral Newhall1983) 0 0) /\ p_ipos (rest (GrCentral Newhall1983) 0 0) = vzero /\
  gr_orbiting (rest GrOrbiting 1 0) = true /\
  p_iacc (completed (rest (GrCentral Newhall1983) 0 0) (rest GrOrbiting 1 0)) = Vec (- G) 0 0.
Proof.
  split; [reflexivity|]. split; [reflexivity|]. split; [reflexivity|].
  unfold completed. change (p_iacc (set_p_iacc ?a ?p)) with a. unfold attraction. rewrite !rest_pos, rest_acc, rest_mass.
  replace (norm2 (vsub (Vec 0 0 0) (Vec 1 0 0))) with 1 by (vunfold; num_simpl; ring). rewrite sqrt_1. vunfold. num_simpl. f_equal; field.
Qed.
