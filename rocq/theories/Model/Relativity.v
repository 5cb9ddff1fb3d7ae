(** * General relativity (src/effects/general_relativity.rs) *)
From Coq Require Import List Bool ZArith Arith.
From Verif Require Import Base.Num Base.Vec Model.Constants Model.Particle.
Import ListNotations.

(** src/particles/universe.rs:66-70 [IgnoreGravityTerms] *)
Inductive ignore_terms := IgnoreNone | WHFastOne | WHFastTwo.

Section Relativity.
  Context {F : Type} `{Num F}.
  Local Open Scope num_scope.
  Implicit Types (host p : particle F) (l : list (particle F)).

  Definition on_gr (f : relativity F -> relativity F) (p : particle F) : particle F := set_p_gr (f (p_gr p)) p.
  Definition gr_orbiting (p : particle F) : bool := match gr_effect (p_gr p) with GrOrbiting => true | _ => false end.
  Definition gr_enabled (p : particle F) : bool := match gr_effect (p_gr p) with GrDisabled => false | _ => true end.
  (** a vector written component by component *)
  Definition each (f : (vec F -> F) -> F) : vec F := Vec (f vx) (f vy) (f vz).

  (** lines 87-110 [initialize] *)
  Definition gr_initialize host l : particle F * list (particle F) :=
    match gr_effect (p_gr host) with
    | GrCentral Kidder1995 | GrCentral Anderson1975 =>
        (on_gr (fun g => set_gr_dL vzero (set_gr_acc vzero (set_gr_factor n0 g))) host,
         map (fun p => if gr_orbiting p then
           on_gr (fun g => set_gr_dL vzero (set_gr_acc vzero
             (set_gr_factor (p_mass_g host * p_mass_g p / npow (p_mass_g host + p_mass_g p) 2) g))) p else p) l)
    | _ => (host, l)
    end.

  Definition set_gr_coords (pos vel : vec F) (d rv nv nv2 : F) (p : particle F) : particle F :=
    on_gr (fun g => set_gr_pos pos (set_gr_vel vel (set_gr_distance d (set_gr_radial_velocity rv
      (set_gr_norm_vel nv (set_gr_norm_vel2 nv2 g)))))) p.
  (** the effect is on at all: the host carries it with an implementation *)
  Definition gr_implemented host : bool :=
    match gr_effect (p_gr host) with GrCentral GrImplDisabled => false | GrCentral _ => true | _ => false end.
  (** lines 112-150 [inertial_to_heliocentric_coordinates] *)
  Definition gr_inertial_to_heliocentric host l : particle F * list (particle F) :=
    if gr_implemented host then
      (set_gr_coords vzero vzero n0 n0 n0 n0 host,
       map (fun p => if gr_orbiting p then
         let pos := vsub (p_ipos p) (p_ipos host) in
         let vel := vsub (p_ivel p) (p_ivel host) in
         let d := nsqrt (norm2 pos) in
         let nv2 := norm2 (vsub vel vzero) in
         set_gr_coords pos vel d (vdot pos vel / d) (nsqrt nv2) nv2 p else p) l)
    else (host, l).
  (** lines 152-172 [copy_heliocentric_coordinates] *)
  Definition gr_copy_one (p : particle F) : particle F :=
    set_gr_coords (p_hpos p) (p_hvel p) (p_hdist p) (p_hradvel p) (p_hnorm p) (p_hnorm2 p) p.
  Definition gr_copy_heliocentric host l : particle F * list (particle F) :=
    if gr_implemented host then
      (gr_copy_one host, map (fun p => if gr_orbiting p then gr_copy_one p else p) l)
    else (host, l).

  (** ** Kidder 1995 *)
  (** lines 187-220: first order acceleration of one body *)
  Definition kidder_first host p : vec F :=
    let g := p_gr p in
    let m := p_mass_g host + p_mass_g p in
    let distance_2 := npow (gr_distance g) 2 in
    let radial_velocity_2 := npow (gr_radial_velocity g) 2 in
    let radial := nopp m / (distance_2 * SPEED_OF_LIGHT_2)
      * ((n1 + #3 * gr_factor g) * gr_norm_vel2 g - #2 * (#2 + gr_factor g) * m / gr_distance g
         - 15//10 * gr_factor g * radial_velocity_2) in
    let orthogonal := m / (distance_2 * SPEED_OF_LIGHT_2)
      * #2 * (#2 - gr_factor g) * gr_radial_velocity g * gr_norm_vel g in
    each (fun c => radial * c (gr_pos g) / gr_distance g + orthogonal * c (gr_vel g) / gr_norm_vel g).
  (** lines 241-280: second order *)
  Definition kidder_second host p : vec F :=
    let g := p_gr p in
    let m := p_mass_g host + p_mass_g p in
    let d := gr_distance g in
    let distance_2 := npow d 2 in
    let v2 := gr_norm_vel2 g in
    let v4 := npow v2 2 in
    let rv2 := npow (gr_radial_velocity g) 2 in
    let rv4 := npow rv2 2 in
    let eta := gr_factor g in
    let eta2 := npow eta 2 in
    let radial := nopp m / (distance_2 * SPEED_OF_LIGHT_2)
      * (#3 / #4 * (#12 + #29 * eta) * (npow m 2 / distance_2)
         + eta * (#3 - #4 * eta) * v4
         + #15 / #8 * eta * (n1 - #3 * eta) * rv4
         - #3 / #2 * eta * (#3 - #4 * eta) * rv2 * v2
         - 1//2 * eta * (#13 - #4 * eta) * (m / d) * v2
         - (#2 + #25 * eta + #2 * eta2) * (m / d) * rv2) in
    let orthogonal := nopp m / (distance_2 * SPEED_OF_LIGHT_2) * nopp (1//2) * gr_radial_velocity g
      * (eta * (#15 + #4 * eta) * v2 - (#4 + #41 * eta + #8 * eta2) * (m / d) - #3 * eta * (#3 + #2 * eta) * rv2) in
    each (fun c => radial * c (gr_pos g) / d + orthogonal * c (gr_vel g)).
  (** the angular momentum of a body's rotation *)
  Definition spin_momentum (p : particle F) : vec F := vscale (p_inertia p) (p_spin p).
  (** lines 318-369: spin-orbit acceleration; note the componentwise products of the
      first element *)
  Definition kidder_spin_orbit host p : vec F :=
    let g := p_gr p in
    let star := spin_momentum host in
    let own := spin_momentum p in
    let m := p_mass host + p_mass p in
    let mass_factor := (p_mass host - p_mass p) / m in
    let n := vdivr (gr_pos g) (gr_distance g) in
    let factor := each (fun c => mass_factor * m * (c own / p_mass p - c star / p_mass host)) in
    let cross := vcross n (gr_vel g) in
    let element1 := each (fun c => #6 * c n * (c cross * (#2 * (c star + c own) + c factor))) in
    let element7s := each (fun c => #7 * (c star + c own) + #3 * c factor) in
    let element2 := vcross (gr_vel g) element7s in
    let element3s := each (fun c => #3 * (c star + c own) + c factor) in
    let element3 := vscale (#3 * gr_radial_velocity g) (vcross n element3s) in
    let factor_a := G / SPEED_OF_LIGHT_2 in
    each (fun c => factor_a * (c element1 - c element2 + c element3)).
  (** lines 371-437: precession of the spin of [a] (moment of inertia times spin
      [sa]) due to its companion *)
  Definition kidder_precession (orbital sa sb n : vec F) (mass_a mass_b : F) : vec F :=
    let factor_mass := #2 + #3 / #2 * mass_b / mass_a in
    let element1 := vscale factor_mass (vcross orbital sa) in
    let element2 := vcross sb sa in
    let element3 := vscale (#3 * vdot n sb) (vcross n sa) in
    let factor_a := G / SPEED_OF_LIGHT_2 in
    each (fun c => factor_a * (c element1 - c element2 + c element3)).
  Definition kidder_orbital host p : vec F :=
    vscale ((p_mass host * p_mass p) / (p_mass host + p_mass p)) (vcross (gr_pos (p_gr p)) (gr_vel (p_gr p))).
  Definition kidder_host_torque host p : vec F :=
    kidder_precession (kidder_orbital host p) (spin_momentum host) (spin_momentum p)
      (vdivr (gr_pos (p_gr p)) (gr_distance (p_gr p))) (p_mass host) (p_mass p).
  Definition kidder_own_torque host p : vec F :=
    kidder_precession (kidder_orbital host p) (spin_momentum p) (spin_momentum host)
      (vdivr (gr_pos (p_gr p)) (gr_distance (p_gr p))) (p_mass p) (p_mass host).

  (** the accumulation common to the three parts: sum of (m/M) a over the orbiting
      bodies, in order *)
  Definition kidder_sum (f : particle F -> particle F -> vec F) host l : vec F :=
    fold_left (fun s p => if gr_orbiting p then vadd s (vscale (p_mass p / p_mass host) (f host p)) else s) l vzero.
  Definition kidder_1 host l : particle F * list (particle F) :=
    (on_gr (set_gr_acc (vscale (nopp n1) (kidder_sum kidder_first host l))) host,
     map (fun p => if gr_orbiting p then on_gr (set_gr_acc (kidder_first host p)) p else p) l).
  Definition kidder_2 host l : particle F * list (particle F) :=
    (on_gr (fun g => set_gr_acc (vadd (gr_acc g) (vscale (nopp n1) (kidder_sum kidder_second host l))) g) host,
     map (fun p => if gr_orbiting p then
       on_gr (fun g => set_gr_acc (vadd (gr_acc g) (kidder_second host p)) g) p else p) l).
  Definition kidder_3 host l : particle F * list (particle F) :=
    let torque := fold_left (fun s p => if gr_orbiting p then vadd s (kidder_host_torque host p) else s) l vzero in
    (on_gr (fun g => set_gr_acc (vadd (gr_acc g) (vscale (nopp n1) (kidder_sum kidder_spin_orbit host l)))
       (set_gr_dL torque g)) host,
     map (fun p => if gr_orbiting p then
       on_gr (fun g => set_gr_dL (kidder_own_torque host p) (set_gr_acc (vadd (gr_acc g) (kidder_spin_orbit host p)) g)) p
       else p) l).
  (** lines 176-185 [calculate_kidder1995_general_relativity_acceleration] *)
  Definition kidder host l : particle F * list (particle F) :=
    let '(host, l) := kidder_1 host l in
    let '(host, l) := kidder_2 host l in
    kidder_3 host l.

  (** ** Newtonian accelerations including the terms skipped by the integrator,
      lines 641-678 *)
  Definition skipped_pair host (acc : vec F * list (vec F)) (pa : particle F * vec F) : vec F * list (vec F) :=
    let '(p, a) := pa in
    let d := vsub (p_ipos host) (gr_pos (p_gr p)) in
    let r2 := norm2 d in
    let r := nsqrt r2 in
    let prefac := G / (r2 * r) in
    (vsub (fst acc) (vscale (prefac * p_mass p) d), snd acc ++ [vadd a (vscale (prefac * p_mass host) d)]).
  (** [newtonian_inertial_accelerations[..n]] is cut from an array of
      MAX_PARTICLES-1: no panic for n <= 9; [zip] stops at the shorter one *)
  Definition newtonian_accelerations (ig : ignore_terms) host l : vec F * list (vec F) :=
    let accs := map p_iacc l in
    let n := match ig with IgnoreNone => O | WHFastOne => 1%nat | WHFastTwo => length l end in
    let '(h, front) := fold_left (skipped_pair host) (firstn n (combine l accs)) (p_iacc host, []) in
    (h, front ++ skipn n accs).

  (** ** Anderson 1975 *)
  (** lines 539-602 [inertial_to_jacobi]: state (eta, s, sv, sa) and the Jacobi
      coordinates of the bodies so far *)
  Record jacobi_sum := JSum { js_eta : F; js_x : vec F; js_v : vec F; js_a : vec F }.
  Definition to_jacobi_step (st : jacobi_sum * list (vec F * vec F * vec F)) (pa : particle F * vec F) :=
    let '(s, out) := st in
    let '(p, a) := pa in
    if gr_orbiting p then
      let ei := n1 / js_eta s in
      let eta := js_eta s + p_mass p in
      let pme := eta * ei in
      let jx := vsub (p_ipos p) (vmulr (js_x s) ei) in
      let jv := vsub (p_ivel p) (vmulr (js_v s) ei) in
      let ja := vsub a (vmulr (js_a s) ei) in
      (JSum eta (vadd (vmulr (js_x s) pme) (vscale (p_mass p) jx))
                (vadd (vmulr (js_v s) pme) (vscale (p_mass p) jv))
                (vadd (vmulr (js_a s) pme) (vscale (p_mass p) ja)),
       out ++ [(jx, jv, ja)])
    else (s, out ++ [(vzero, vzero, vzero)]).
  Definition to_jacobi host l (host_acc : vec F) (accs : list (vec F)) : F * list (vec F * vec F * vec F) :=
    let m0 := p_mass host in
    let '(s, out) := fold_left to_jacobi_step (combine l accs)
      (JSum m0 (vscale m0 (p_ipos host)) (vscale m0 (p_ivel host)) (vscale m0 host_acc), []) in
    (js_eta s, out).
  (** lines 486-507: the iteration for the velocity; at most ten rounds *)
  Fixpoint anderson_velocity (n : nat) (mu ri : F) (jv vi : vec F) (vi2 factor_a : F) : vec F * F * F :=
    match n with
    | O => (vi, vi2, factor_a)
    | S n =>
        let old := vi in
        let vi := vdivr jv (n1 - factor_a) in
        let vi2 := vdot vi vi in
        let factor_a := (5//10 * vi2 + #3 * mu / ri) / SPEED_OF_LIGHT_2 in
        let dv := vsub vi old in
        if vdot dv dv / vi2 <? DBL_EPSILON_2 then (vi, vi2, factor_a)
        else anderson_velocity n mu ri jv vi vi2 factor_a
    end.
  (** lines 476-521: the correction of one body in Jacobi coordinates *)
  Definition anderson_correction (mu : F) (j : vec F * vec F * vec F) : vec F :=
    let '(jx, jv, ja) := j in
    let vi2 := norm2 jv in
    let ri := nsqrt (norm2 jx) in
    let factor_a := (5//10 * vi2 + #3 * mu / ri) / SPEED_OF_LIGHT_2 in
    let '(vi, vi2, factor_a) := anderson_velocity 10 mu ri jv jv vi2 factor_a in
    let factor_b := (mu / ri - 15//10 * vi2) * mu / (ri * ri * ri) / SPEED_OF_LIGHT_2 in
    let rdotrdot := vdot jx jv in
    let vidot := vadd ja (vscale factor_b jx) in
    let vdotvdot := vdot vi vidot in
    let factor_d := (vdotvdot - #3 * mu / (ri * ri * ri) * rdotrdot) / SPEED_OF_LIGHT_2 in
    each (fun c => factor_b * (n1 - factor_a) * c jx - factor_a * c ja - factor_d * c vi).
  (** lines 604-638: back to the inertial frame, from the last body to the first *)
  Definition from_jacobi_step (pj : particle F * vec F) (st : F * vec F * list (vec F)) : F * vec F * list (vec F) :=
    let '(eta, s, out) := st in
    let '(p, ja) := pj in
    if gr_orbiting p then
      let ei := n1 / eta in
      let s := vmulr (vsub s (vscale (p_mass p) ja)) ei in
      let a := vadd ja s in
      let eta := eta - p_mass p in
      (eta, vmulr s eta, a :: out)
    else (eta, s, vzero :: out).
  Definition from_jacobi l (star_mass : F) (js : list (vec F)) : vec F * list (vec F) :=
    let '(eta, s, out) := fold_right from_jacobi_step (star_mass, vscale star_mass vzero, []) (combine l js) in
    (vmulr s (n1 / eta), out).
  (** lines 461-537 *)
  Definition anderson (ig : ignore_terms) host l : particle F * list (particle F) :=
    let '(host_acc, accs) := newtonian_accelerations ig host l in
    let '(star_mass, js) := to_jacobi host l host_acc accs in
    let mu := p_mass_g host in
    let corrected := map (fun pj : particle F * (vec F * vec F * vec F) =>
      if gr_orbiting (fst pj) then anderson_correction mu (snd pj) else snd (snd pj)) (combine l js) in
    let '(star_acc, out) := from_jacobi l star_mass corrected in
    (on_gr (set_gr_acc star_acc) host,
     map (fun pa => if gr_orbiting (fst pa) then on_gr (set_gr_acc (snd pa)) (fst pa) else fst pa) (combine l out)).

  (** ** Newhall 1983, lines 683-895: all pairs of [host :: l]
      Distances of pairs where both bodies have the effect disabled are left at 0. *)
  Definition pair_on (a b : particle F) : bool := gr_enabled a || gr_enabled b.
  Definition newhall_dr (i j : nat) (a b : particle F) : vec F :=
    if negb (Nat.eqb i j) && pair_on a b then vsub (p_ipos a) (p_ipos b) else vzero.
  Definition newhall_r (i j : nat) (a b : particle F) : F :=
    if negb (Nat.eqb i j) && pair_on a b then nsqrt (norm2 (vsub (p_ipos a) (p_ipos b))) else n0.
  Definition enumerate {A} (l : list A) : list (nat * A) := combine (seq 0 (length l)) l.
  Definition sum_other (bodies : list (particle F)) (i : nat) (f : nat -> particle F -> F) : F :=
    fold_left (fun s kp => if Nat.eqb (fst kp) i then s else s + f (fst kp) (snd kp)) (enumerate bodies) n0.
  Definition newhall_const_pair (bodies : list (particle F)) (i : nat) (a : particle F) (s : vec F) (jb : nat * particle F) : vec F :=
    let '(j, b) := jb in
    if Nat.eqb j i then s else if pair_on a b then
      let d := newhall_dr i j a b in
      let rij := newhall_r i j a b in
      let rij2 := npow rij 2 in
      let rij3 := rij2 * rij in
      let a1 := sum_other bodies i (fun k c => #4 / SPEED_OF_LIGHT_2 * G * p_mass c / newhall_r i k a c) in
      let a2 := sum_other bodies j (fun m c => n1 / SPEED_OF_LIGHT_2 * G * p_mass c / newhall_r m j c b) in
      let a3 := nopp (norm2 (p_ivel a)) / SPEED_OF_LIGHT_2 in
      let a4 := nopp (#2) * norm2 (p_ivel b) / SPEED_OF_LIGHT_2 in
      let a5 := #4 / SPEED_OF_LIGHT_2 * vdot (p_ivel a) (p_ivel b) in
      let a6 := #3 / (#2 * SPEED_OF_LIGHT_2) * npow (vdot d (p_ivel b)) 2 / rij2 in
      let factor1 := a1 + a2 + a3 + a4 + a5 + a6 in
      let s := each (fun c => c s + G * p_mass b * c d * factor1 / rij3) in
      let dv := vsub (p_ivel a) (p_ivel b) in
      let w := each (fun c => #4 * c (p_ivel a) - #3 * c (p_ivel b)) in
      let factor2 := vdot d w in
      each (fun c => c s + G * p_mass b * factor2 * c dv / rij3 / SPEED_OF_LIGHT_2)
    else s.
  Definition newhall_const (bodies : list (particle F)) (i : nat) (a : particle F) : vec F :=
    fold_left (newhall_const_pair bodies i a) (enumerate bodies) vzero.
  (** one sweep of the substitution for one body; [accs] pairs the bodies with their
      Newtonian acceleration and the last estimate *)
  Definition newhall_pair (i : nat) (a : particle F) (s : vec F) (jb : nat * (particle F * vec F * vec F)) : vec F :=
    let '(j, (b, newton, old)) := jb in
    if Nat.eqb j i then s else if pair_on a b then
      let d := newhall_dr i j a b in
      let rij := newhall_r i j a b in
      let rij3 := npow rij 2 * rij in
      let t := vadd newton old in
      each (fun c => c s + ((G * p_mass b * c d / rij3) * vdot d t / (#2 * SPEED_OF_LIGHT_2)
                            + #7 / (#2 * SPEED_OF_LIGHT_2) * G * p_mass b * c t / rij))
    else s.
  Definition newhall_sweep (bodies : list (particle F)) (newton const old : list (vec F)) : list (vec F) :=
    map (fun ibc => let '(i, (b, k)) := ibc in
           vadd k (fold_left (newhall_pair i b) (enumerate (combine (combine bodies newton) old)) vzero))
        (enumerate (combine bodies const)).
  (** lines 843-869: deviation between two sweeps; the components of the deviation are
      only set where the new value is {e below} the limit, and are carried over *)
  Definition newhall_dev (st : F * (F * F * F)) (x : particle F * vec F * vec F) : F * (F * F * F) :=
    let dev_limit := 1//1000000000000000000000000000000 in
    let '(maxdev, (dx, dy, dz)) := st in
    let '(b, a_new, a_old) := x in
    if gr_enabled b then
      let dx := if nabs (vx a_new) <? dev_limit then nabs (vx a_new - vx a_old) / vx a_new else dx in
      let dy := if nabs (vy a_new) <? dev_limit then nabs (vy a_new - vy a_old) / vy a_new else dy in
      let dz := if nabs (vz a_new) <? dev_limit then nabs (vz a_new - vz a_old) / vz a_new else dz in
      let maxdev := if dx >? maxdev then dx else maxdev in
      let maxdev := if dy >? maxdev then dy else maxdev in
      let maxdev := if dz >? maxdev then dz else maxdev in
      (maxdev, (dx, dy, dz))
    else st.
  Definition newhall_converged (bodies : list (particle F)) (a_new a_old : list (vec F)) : bool :=
    fst (fold_left newhall_dev (combine (combine bodies a_new) a_old) (n0, (n0, n0, n0)))
      <? 1//1000000000000000000000000000000.
  Fixpoint newhall_loop (n : nat) (bodies : list (particle F)) (newton const a : list (vec F)) : list (vec F) :=
    match n with
    | O => a
    | S n =>
        let a' := newhall_sweep bodies newton const a in
        if newhall_converged bodies a' a then a' else newhall_loop n bodies newton const a'
    end.
  Definition newhall (ig : ignore_terms) host l : particle F * list (particle F) :=
    let '(host_acc, accs) := newtonian_accelerations ig host l in
    let bodies := host :: l in
    let const := map (fun ib => newhall_const bodies (fst ib) (snd ib)) (enumerate bodies) in
    let a := newhall_loop 10 bodies (host_acc :: accs) const (map (fun _ => vzero) bodies) in
    (on_gr (set_gr_acc (hd vzero a)) host,
     map (fun pa => if gr_orbiting (fst pa) then on_gr (set_gr_acc (snd pa)) (fst pa) else fst pa) (combine l (tl a))).
End Relativity.
