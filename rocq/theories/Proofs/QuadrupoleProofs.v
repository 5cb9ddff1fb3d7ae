(** Flattening: potential and rotations *)
From Coq Require Import Reals Lra Psatz List Bool ZArith Arith.
From Verif Require Import Base.Num Base.Result Base.Trans Base.Vec Model.Constants Model.Particle
  Model.Tools Model.Kaula Model.Creep Model.Tides Model.Flattening
  Proofs.NumLemmas Proofs.VecLemmas Proofs.TidesProofs Proofs.FlatteningProofs Proofs.Gradient Spec.EffectsSpec.
Import ListNotations.
Open Scope R_scope.

Section Symmetry.
  Context `{TR : Trans R} `{FL : Floor R} `{FU : Fuel}.

  Lemma gradient_plus V W r f g : gradient_at V r f -> gradient_at W r g ->
    gradient_at (fun r => V r + W r) r (vadd f g).
  Proof.
    intros Hf Hg v. rewrite vdot_add_l.
    apply (derivable_pt_lim_plus (fun t => V (vadd r (vscale t v))) (fun t => W (vadd r (vscale t v)))); auto.
  Qed.
  Lemma gradient_eq V r f g : f = g -> gradient_at V r f -> gradient_at V r g.
  Proof. now intros ->. Qed.

  Theorem oblate_gradient host l host' l' :
    oblate_host host -> Forall oblate_or_none l ->
    p_spin2 host = norm2 (p_spin host) -> p_spin host <> vzero ->
    rf_pass host l = Ok (host', l') ->
    Forall2 (fun p p' => forall k, rf_effect (p_rf p) = RfOrbiting (OblateSpheroid k) -> apart host p ->
      p_mass p <> 0 -> p_spin2 p = norm2 (p_spin p) -> p_spin p <> vzero ->
      gradient_at (fun r => quadrupole (kh_of host) (p_radius host) (p_mass p) (p_spin host) r
                            + quadrupole k (p_radius p) (p_mass host) (p_spin p) r)
        (vsub (p_ipos p) (p_ipos host)) (vscale (p_mass p') (flattening_acc p'))) l l'.
  Proof.
    intros Hh Hl Hs Hs0 E. rewrite rf_pass_oblate in E by auto. injection E as <- <-.
    clear Hh. induction l as [|p l IH]; constructor; [|apply IH; now inversion Hl].
    clear IH. inversion Hl as [|? ? Hp _]; subst. intros k Ek Ha Hm Hsp Hsp0.
    destruct (rf_final_spec host p Hp) as (Em & _ & _ & _ & Ef & _). cbn zeta in *.
    rewrite Em, (Ef Hm). clear Em Ef.
    pose proof (vsub_apart host p Ha) as Hr. pose proof (norm_pos _ Hr) as Hd.
    eapply gradient_eq; [|apply gradient_plus; apply quadrupole_gradient; exact Hr].
    destruct (rf_done_spec host p k Ek) as (_ & _ & _ & Es & Epos & Er & Eop & Eos). cbn zeta in *.
    unfold rf_pair_force. rewrite Ek. cbn [is_rf_orbiting]. unfold oblate_force.
    rewrite Epos, Er, Eop, Eos, Es. change (p_spin (rf_ready_host host)) with (p_spin host).
    unfold star_factor, planet_factor. rewrite Hs, Hsp.
    pose proof (norm2_pos _ Hs0) as N1. pose proof (norm2_pos _ Hsp0) as N2.
    set (r := vsub (p_ipos p) (p_ipos host)) in *.
    generalize dependent (sqrt (norm2 r)). intros d Hd.
    generalize (p_mass p) (p_mass host) (p_radius p) (p_radius host) (kh_of host) (vdot r (p_spin host)) (vdot r (p_spin p)).
    revert N1 N2. generalize (norm2 (p_spin host)) (norm2 (p_spin p)). intros n1' n2' N1 N2.
    generalize (p_spin host) (p_spin p). clearbody r. clear - Hd N1 N2. intros.
    vdestruct. vunfold. f_equal; field; lra.
  Qed.

  (** ** Rotations *)
  Lemma iso_sub q a b : iso q (vsub a b) = vsub (iso q a) (iso q b).
  Proof.
    replace (vsub a b) with (vadd a (vscale (- 1) b)) by vring. rewrite iso_add, iso_scale. vring.
  Qed.
  Lemma iso_zero q : iso q vzero = vzero.
  Proof. replace vzero with (vscale 0 (@vzero R _)) at 1 by vring. rewrite iso_scale. vring. Qed.
  Lemma iso_norm2 q a : norm2 (iso q a) = norm2 a.
  Proof. rewrite !norm2_dot. apply iso_dot. Qed.
  Lemma iso_Vsum q {A} (f : A -> vec R) l : iso q (Vsum (map f l)) = Vsum (map (fun x => iso q (f x)) l).
  Proof.
    induction l as [|a l IH]; cbn.
    - apply iso_zero.
    - rewrite iso_add. unfold Vsum in IH. now rewrite IH.
  Qed.

  Lemma turned_rf q p : p_rf (turned q p) = p_rf p. Proof. reflexivity. Qed.
  Lemma rf_pair_force_turned q host p : oblate_or_none p ->
    rf_pair_force (turned q host) (turned q p) = iso q (rf_pair_force host p).
  Proof.
    intros [[k E]|Hn].
    - assert (E' : rf_effect (p_rf (turned q p)) = RfOrbiting (OblateSpheroid k)) by exact E.
      destruct (rf_done_spec host p k E) as (_ & _ & _ & Es & Epos & Er & Eop & Eos).
      destruct (rf_done_spec (turned q host) (turned q p) k E') as (_ & _ & _ & Es' & Epos' & Er' & Eop' & Eos').
      cbn zeta in *. unfold rf_pair_force. rewrite E, E'. cbn [is_rf_orbiting]. unfold oblate_force.
      rewrite Epos, Er, Eop, Eos, Es, Epos', Er', Eop', Eos', Es'.
      change (p_ipos (turned q p)) with (iso q (p_ipos p)). change (p_ipos (turned q host)) with (iso q (p_ipos host)).
      change (p_spin (turned q p)) with (iso q (p_spin p)). change (p_spin (turned q host)) with (iso q (p_spin host)).
      change (p_spin (rf_ready_host host)) with (p_spin host).
      change (p_spin (rf_ready_host (turned q host))) with (iso q (p_spin host)).
      change (p_spin2 (turned q p)) with (p_spin2 p). change (p_spin2 (turned q host)) with (p_spin2 host).
      unfold star_factor, planet_factor, kh_of.
      change (rf_effect (p_rf (turned q host))) with (rf_effect (p_rf host)).
      change (p_mass (turned q p)) with (p_mass p). change (p_mass (turned q host)) with (p_mass host).
      change (p_radius (turned q p)) with (p_radius p). change (p_radius (turned q host)) with (p_radius host).
      change (p_spin2 (turned q p)) with (p_spin2 p). change (p_spin2 (turned q host)) with (p_spin2 host).
      rewrite <- !iso_sub, !iso_dot, !iso_norm2, !iso_add, !iso_scale. reflexivity.
    - destruct Hn as (E & _). unfold rf_pair_force. rewrite turned_rf, E. cbn. now rewrite iso_zero.
  Qed.

  Theorem oblate_turned q host l host' l' :
    oblate_host host -> Forall oblate_or_none l ->
    p_mass host <> 0 -> Forall (fun p => p_mass p <> 0) l ->
    rf_pass host l = Ok (host', l') ->
    exists host2 l2, rf_pass (turned q host) (map (turned q) l) = Ok (host2, l2) /\
      map flattening_acc (host2 :: l2) = map (fun b => iso q (flattening_acc b)) (host' :: l').
  Proof.
    intros Hh Hl Hm Hml E. rewrite rf_pass_oblate in E by auto. injection E as <- <-.
    exists (rf_final_host (turned q host) (map (turned q) l)), (map (rf_final (turned q host)) (map (turned q) l)).
    split.
    - apply rf_pass_oblate.
      + destruct Hh as [k E]. exists k. exact E.
      + rewrite Forall_map. eapply Forall_impl; [|exact Hl]. intros p [[k E]|Hn]; [left; exists k; exact E|right; exact Hn].
    - cbn [map]. f_equal.
      + unfold flattening_acc, rf_final_host, on_rf. rfproj. change (p_mass (turned q host)) with (p_mass host).
        rewrite iso_scale, iso_Vsum, map_map. f_equal. f_equal. apply map_ext_in. intros p Hp.
        rewrite Forall_forall in Hl. apply rf_pair_force_turned; auto.
      + rewrite !map_map. apply map_ext_in. intros p Hp.
        rewrite Forall_forall in *. specialize (Hl p Hp). specialize (Hml p Hp).
        pose proof (rf_pair_force_turned q host p Hl) as F.
        destruct Hl as [[k E]|Hn].
        * unfold rf_final. rewrite turned_rf, E. cbn [is_rf_orbiting]. unfold flattening_acc, on_rf. rfproj.
          change (p_mass (turned q p)) with (p_mass p). rewrite F, iso_scale. reflexivity.
        * destruct Hn as (E & A & _). unfold rf_final. rewrite turned_rf, E. cbn [is_rf_orbiting].
          unfold flattening_acc. rewrite turned_rf, A. now rewrite iso_zero.
  Qed.
End Symmetry.
