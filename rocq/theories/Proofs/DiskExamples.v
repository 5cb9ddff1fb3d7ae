(** Concrete systems with disk and wind *)
From Coq Require Import Reals Lra Psatz List Bool ZArith Lia SpecFloat.
From Verif Require Import Base.Num Base.Vec Base.Trans Model.Constants Model.Particle Model.Disk Model.Wind
  Proofs.NumLemmas Proofs.VecLemmas Proofs.DiskProofs Proofs.TidesExamples Spec.EffectsSpec.
Import ListNotations.
Open Scope R_scope.

Definition disk_d : disk_props R := DiskProps (1/2) 100 1000 (1/100) 1 2.
Definition disk_star : particle R := set_p_disk (new_disk (DiskCentral disk_d)) (new_particle K2 1 1 (1/2) vzero vzero vzero).
Definition disk_planet : particle R := set_p_disk (new_disk DiskOrbiting)
  (set_p_ipos (Vec 1 0 0) (new_particle K2 1 1 (1/2) vzero vzero vzero)).
Lemma unit_x : norm2 (vsub (Vec 1 0 0) vzero) = 1 :> R. Proof. vunfold. ring. Qed.
Lemma rest_0 : norm2 (vsub vzero vzero) = 0 :> R. Proof. vunfold. ring. Qed.
Lemma disk_system : disk_host disk_star disk_d /\ disk_ok disk_d /\ 0 < p_mass disk_star /\ 0 < p_mass_g disk_star /\
  Forall (fun p => if is_disk_orbiting p then migrating disk_d disk_star p else 0 < p_mass p /\ disk_acc p = vzero)
    [disk_planet].
Proof.
  pose proof K2_pos as HK.
  assert (Hg : 0 < 1 * @K2 R _) by lra.
  split; [reflexivity|]. split.
  { unfold disk_ok. cbn [dp_inner dp_density dp_alpha dp_weight disk_d]. lra. }
  split; [change (0 < 1); lra|]. split; [exact Hg|]. constructor; [|constructor].
  change (is_disk_orbiting disk_planet) with true. cbv iota. unfold migrating. cbv zeta.
  change (p_ipos disk_planet) with (Vec 1 0 (0:R)). change (p_ipos disk_star) with (@vzero R _).
  change (p_ivel disk_planet) with (@vzero R _). change (p_ivel disk_star) with (@vzero R _).
  rewrite unit_x, rest_0, sqrt_1. change (p_mass disk_planet) with 1.
  change (p_mass_g disk_planet) with (1 * @K2 R _). change (p_mass_g disk_star) with (1 * @K2 R _).
  change (dp_inner disk_d) with (1/2). lra.
Qed.

(** binary64; the transcendental functions do not matter *)
Definition edge_trans : Trans f64 :=
  Build_Trans f64 (fun _ => n1) (fun _ => n1) (fun _ => n1) (fun _ => n1) (fun _ => n1) (fun _ => n1) (fun _ => n1)
    (fun _ => n1) (fun _ => n1) (fun _ _ => n1) (fun _ _ => n1) n1.
Definition edge_disk : disk_props f64 := (DiskProps (#2) (#100) (#1000) (1//100) n1 (#2))%num.
Definition edge_star : particle f64 := (new_particle (1//4) n1 n1 (1//2) vzero vzero vzero)%num.
Definition edge_planet : particle f64 := (set_p_disk
  (set_dk_pos (Vec n1 n0 n0) (set_dk_vel (Vec n0 (1//2) (1//8)) (set_dk_distance n1 (set_dk_norm_vel2 (1//4) (new_disk DiskOrbiting)))))
  (new_particle (1//4) (1//8) n1 (1//2) vzero vzero vzero))%num.
Lemma edge_system :
  let k := p_disk edge_planet in
  let sma := ((p_mass_g edge_planet + p_mass_g edge_star) * dk_distance k
             / (#2 * (p_mass_g edge_planet + p_mass_g edge_star) - dk_distance k * dk_norm_vel2 k))%num in
  (dk_distance k <=? dp_inner edge_disk)%num = true /\
  fin sma /\ ~ isz sma /\ fin (sma * sma)%num /\
  fin (gas_radial_velocity (H0 := edge_trans) edge_disk (p_mass edge_star) (p_mass_g edge_star) (dk_distance k) sma) /\
  fin (p_mass edge_planet) /\ ~ isz (p_mass edge_planet) /\ fin (nopp (p_mass edge_planet) * #2)%num /\
  all_of fin (dk_pos k) /\ all_of fin (dk_vel k) /\
  fin (n1 / (dk_distance k * dk_distance k) * vdot (dk_pos k) (dk_vel k))%num.
Proof.
  cbv zeta. split; [vm_compute; reflexivity|]. split; [vm_compute; exact I|]. split; [vm_compute; auto|].
  split; [vm_compute; exact I|]. split; [vm_compute; exact I|]. split; [vm_compute; exact I|]. split; [vm_compute; auto|].
  split; [vm_compute; exact I|]. split; [vm_compute; auto|]. split; [vm_compute; auto|]. vm_compute; exact I.
Qed.

(** a star turning faster than the saturation of its wind *)
Definition windy : particle R := set_p_wind (new_wind true 1 2) (new_particle K2 1 1 (1/2) vzero vzero (Vec 3 0 0)).
Lemma windy_ok : wind_ok windy /\ w_on (p_wind windy) = true /\ 0 <= w_k_factor (p_wind windy) /\
  p_spin2 windy = norm2 (p_spin windy) /\ vx (wind_torque windy) = -4 * sqrt (1 / (R_SUN * 1)) * 3.
Proof.
  assert (Hok : wind_ok windy).
  { unfold wind_ok. change (w_saturation (p_wind windy)) with 2. change (p_mass windy) with 1.
    split; [lra|]. split; [reflexivity|lra]. }
  split; [exact Hok|]. split; [reflexivity|]. split; [change (0 <= 1); lra|]. split; [reflexivity|].
  change (wind_torque windy) with (wind_torque (spinning (Vec 3 0 0) windy)).
  rewrite (wind_formula _ _ Hok). unfold wind_strength.
  change (w_saturation (p_wind windy)) with 2. change (p_mass windy) with 1. change (p_radius windy) with 1.
  change (w_k_factor (p_wind windy)) with 1.
  assert (E : sqrt (norm2 (Vec 3 0 0)) = 3) by (replace (norm2 (Vec 3 0 0)) with (3 * 3) by (vunfold; ring); apply sqrt_square; lra).
  rewrite E. rewrite Rmin_right by lra. vunfold. ring.
Qed.
