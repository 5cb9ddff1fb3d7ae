(** * Effects that act between bodies (C71) *)
From Coq Require Import Reals List Bool Arith.
From Verif Require Import Base.Num Base.Vec Model.Particle Model.Host Model.Tides Model.Flattening Model.Relativity Model.Disk Model.Universe Model.WHFast Spec.EffectsSpec Spec.UniverseSpec Spec.WHFastSpec.
Import ListNotations.
Open Scope R_scope.

(** the body at a place of the list exists, and it and all the others satisfy a condition *)
Definition around (h : nat) (l : list (particle R)) (P : particle R -> list (particle R) -> Prop) : Prop :=
  exists host, nth_error l h = Some host /\ P host (others h l).
Definition kaula_host (p : particle R) : bool := match t_effect (p_tides p) with TidesCentral (Kaula _) => true | _ => false end.

(** A body that takes no part in an effect stores no acceleration of that effect, as in a new
    universe.  A host with Kaula tides acts on every body, so there all must take part. *)
Definition tides_fine (host : particle R) (o : list (particle R)) : Prop :=
  Forall (fun p => is_tides_orbiting (t_effect (p_tides p)) = true \/ (kaula_host host = false /\ t_acc (p_tides p) = vzero)) o.
Definition rf_fine (_ : particle R) (o : list (particle R)) : Prop :=
  Forall (fun p => is_rf_orbiting (rf_effect (p_rf p)) = true \/ rf_acc (p_rf p) = vzero) o.
Definition gr_fine (host : particle R) (o : list (particle R)) : Prop :=
  gr_effect (p_gr host) = GrCentral Kidder1995 /\ Forall (fun p => gr_orbiting p = true \/ gr_acc (p_gr p) = vzero) o.
Definition disk_fine (host : particle R) (o : list (particle R)) : Prop :=
  is_disk_central host = true /\ Forall (fun p => is_disk_orbiting p = true \/ dk_acc (p_disk p) = vzero) o.

(** massive bodies, at least two of them, with any of the tides (every model), the flattening
    (which runs around the host of the tides), the disk and the relativity of Kidder *)
Definition reciprocal (u : universe R) : Prop :=
  let l := u_particles u in
  let e := u_effects u in
  let h := u_hosts u in
  Forall (fun p => p_mass p <> 0) l /\ (2 <= length l)%nat /\
  (e_tides e = true -> around (h_tides h) l tides_fine) /\ (e_rf e = true -> around (h_tides h) l rf_fine) /\
  (e_gr e = true -> around (h_gr h) l gr_fine) /\ (e_disk e = true -> around (h_disk h) l disk_fine).

(** WHFast with such effects: as [ready], which is without effects *)
Definition engaged (w : whfast R) : Prop :=
  reciprocal (w_u w) /\ sized w /\ length (u_roche (w_u w)) = length (u_particles (w_u w)) /\ compensated (integrate_spin (w_u w)) w
  /\ exists star, nth_error (u_particles (w_u w)) (h_most_massive (u_hosts (w_u w))) = Some star
     /\ usable (w_type w) star (except (h_most_massive (u_hosts (w_u w))) (u_particles (w_u w))).
