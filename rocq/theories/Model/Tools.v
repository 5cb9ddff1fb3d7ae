(** * Orbital tools (src/tools.rs)

    The interpolation functions of the same file are in [Model/Interp.v]. *)
From Coq Require Import List Bool ZArith.
From Verif Require Import Base.Num Base.Trans Base.Vec Model.Constants.
Import ListNotations.

Section Tools.
  Context {F : Type} `{Num F} `{Trans F} `{Floor F}.
  Local Open Scope num_scope.

  Definition TWO_PI : F := tpi * #2.
  (** [f64::clamp] *)
  Definition nclamp (x lo hi : F) : F := if x <? lo then lo else if x >? hi then hi else x.
  (** [f64::signum] on non-NaN, non-zero arguments *)
  Definition nsignum (x : F) : F := if x <? n0 then nopp n1 else n1.

  (** src/tools.rs:832-838 [modulus] *)
  Definition modulus (a b : F) : F := a - nfloor (a / b) * b.

  (** src/tools.rs:8-44 [calculate_inclination_orbital_equatorial_plane] *)
  Definition orbital_equatorial_inclination (position velocity spin : vec F) : F :=
    let s := nsqrt (norm2 spin) in
    let hv := vcross position velocity in
    let h := nsqrt (norm2 hv) in
    let hr := vdivr hv h in
    let h_rel := nsqrt (norm2 hr) in
    let numerator := vdot hr spin in
    let denominator := h_rel * s in
    tacos (nclamp (numerator / denominator) (nopp n1) n1).

  (** src/tools.rs:46-75 [calculate_eccentricity_vector] *)
  Definition eccentricity_vector (gm : F) (position velocity : vec F) : vec F :=
    let h := vcross position velocity in
    let vh := vcross velocity h in
    let r := nsqrt (vdot position position) in
    vsub (vdivr vh gm) (vdivr position r).

  (** the eight results of [calculate_keplerian_orbital_elements] *)
  Record elements := Elements {
    el_a : F; el_q : F; el_e : F; el_i : F; el_p : F; el_n : F; el_l : F; el_period : F }.

  (** [hx.powf(2.) + hy.powf(2.) + hz.powf(2.)] *)
  Definition norm2_powf (h : vec F) : F :=
    tpow (vx h) (#2) + tpow (vy h) (#2) + tpow (vz h) (#2).

  (** src/tools.rs:117-142: inclination and longitude of the ascending node *)
  Definition inclination_node (h : vec F) (hn : F) : F * F :=
    let cos_i := nclamp (vz h / hn) (nopp n1) n1 in
    if nabs cos_i <? n1 then
      let i := tacos cos_i in
      let i := if vy h >? n0 then TWO_PI - i else i in
      let node := tatan2 (vx h) (nopp (vy h)) in
      let node := if node <? n0 then node + TWO_PI else node in
      let node := if i =? n0 then n0 else node in
      (i, node)
    else
      let i := if cos_i >? n0 then n0 else n0 in
      let i := if cos_i <? n0 then tpi else i in
      (i, n0).

  (** src/tools.rs:145-151: the eccentricity before the cut-off at 3e-8 *)
  Definition raw_eccentricity (gm s v2 r : F) : F :=
    let temp := n1 + s * (v2 / gm - #2 / r) in
    if temp <=? n0 then n0 else nsqrt temp.

  (** src/tools.rs:197-232: mean anomaly, before the final reduction *)
  Definition mean_anomaly_raw (e r a rv true_anomaly : F) : F :=
    if e =? n0 then true_anomaly
    else
      let cos_bige := nclamp (n1 / e * (n1 - r / a)) (nopp n1) n1 in
      if e <? n1 then
        let cos_bige := if nabs cos_bige >? n1 then nsignum cos_bige else cos_bige in
        let bige := tacos cos_bige in
        let bige := if rv <? n0 then TWO_PI - bige else bige in
        bige - e * tsin bige
      else
        let cos_bige := if cos_bige <? n1 then n1 else cos_bige in
        let bige := tln (cos_bige + nsqrt (cos_bige * cos_bige - n1)) in
        let bige := if rv <? n0 then nopp bige else bige in
        e * tsinh bige - bige.

  (** src/tools.rs:77-249 [calculate_keplerian_orbital_elements] *)
  Definition keplerian_elements (gm : F) (position velocity : vec F) : elements :=
    let ev := eccentricity_vector gm position velocity in
    let e_scal_r := vdot ev position in
    let hv := vcross position velocity in
    let h2 := norm2_powf hv in
    let v2 := vdot velocity velocity in
    let rv := vdot position velocity in
    let r := nsqrt (vdot position position) in
    let h := nsqrt h2 in
    let s := h2 / gm in
    let a := gm * r / (#2 * gm - r * v2) in
    let '(i, node) := inclination_node hv h in
    let e0 := raw_eccentricity gm s v2 r in
    let q := s / (n1 + e0) in
    let e := if e0 <? 3//100000000 then n0 else e0 in
    let arg :=
      if e =? n0 then n0 else
        let ex_rot := vx ev * tcos node + vy ev * tsin node in
        let ey_rot := nopp (vx ev) * tsin node + vy ev * tcos node in
        let ey_rot_2 := ey_rot * tcos i + vz ev * tsin i in
        tatan2 ey_rot_2 ex_rot in
    let true_anomaly :=
      if e =? n0 then
        let x_rot := vx position * tcos node + vy position * tsin node in
        tacos (nclamp (x_rot / r) (nopp n1) n1)
      else
        let f := tacos (nclamp (e_scal_r / (e * r)) (nopp n1) n1) in
        if rv <? n0 then TWO_PI - f else f in
    let m := mean_anomaly_raw e r a rv true_anomaly in
    let m := if m <? n0 then m + TWO_PI else m in
    let m := if m >? TWO_PI then modulus m TWO_PI else m in
    Elements a q e i (arg + node) node m (TWO_PI / nsqrt gm * tpow a (3//2)).

  (** src/tools.rs:251-285 [calculate_perihelion_distance_and_eccentricity] *)
  Definition perihelion_eccentricity (gm : F) (position velocity : vec F) : F * F :=
    let h2 := norm2_powf (vcross position velocity) in
    let v2 := vdot velocity velocity in
    let r := nsqrt (vdot position position) in
    let s := h2 / gm in
    let e := raw_eccentricity gm s v2 r in
    (s / (n1 + e), e).

  (** ** Kepler's equation *)

  (** src/tools.rs:421-432: reduction of the mean anomaly to [0, pi] with a sign *)
  Definition reduce_anomaly (oldl : F) : F * F :=
    let l := if oldl >=? n0 then modulus oldl TWO_PI else modulus oldl TWO_PI + TWO_PI in
    if l >? tpi then (TWO_PI - l, nopp n1) else (l, n1).

  (** src/tools.rs:434-491: starting value *)
  Definition kepler_start (e l : F) : F :=
    let piby2 := 5//10 * tpi in
    let ome := n1 - e in
    if (l >=? 45//100) || (e <? 55//100) then
      let u1 := if l <? ome then ome
                else if l >? (tpi - n1 - e) then (l + e * tpi) / (n1 + e) else l + e in
      let flag := u1 >? piby2 in
      let x := if flag then tpi - u1 else u1 in
      let x2 := x * x in
      let sn := x * (n1 + x2 * (nopp (16605//100000) + x2 * (761//100000))) in
      let dsn := n1 + x2 * (nopp (49815//100000) + x2 * (3805//100000)) in
      let dsn := if flag then nopp dsn else dsn in
      let f2 := e * sn in
      let f0 := u1 - f2 - l in
      let f1 := n1 - e * dsn in
      u1 - f0 / (f1 - 5//10 * f0 * f2 / f1)
    else
      let z1 := #4 * e + 5//10 in
      let p := ome / z1 in
      let q := 5//10 * l / z1 in
      let p2 := p * p in
      let z2 := texp (tln (nsqrt (p2 * p + q * q) + q) / (15//10)) in
      let u1 := #2 * q / (z2 + p + p2 / z2) in
      let z2 := u1 * u1 in
      let z3 := z2 * z2 in
      let u2 := u1 - 75//1000 * u1 * z3 / (ome + z1 * z2 + 375//1000 * z3) in
      l + e * u2 * (#3 - #4 * u2 * u2).

  (** nested series [1 - x2/k1*(1 - x2/k2*(...))] *)
  Fixpoint nested (x2 : F) (ks : list Z) : F :=
    match ks with
    | [] => n1
    | k :: ks => n1 - x2 / #k * nested x2 ks
    end.

  (** src/tools.rs:496-528: approximations of u - sin u and 1 - cos u *)
  Definition sin_cos_defects (u2 : F) : F * F :=
    let piby2 := 5//10 * tpi in
    let bigg := u2 >? piby2 in
    let z3 := if bigg then tpi - u2 else u2 in
    let big := z3 >? (5//10 * piby2) in
    let x := if big then piby2 - z3 else z3 in
    let x2 := x * x in
    let ss := x * x2 / #6 * nested x2 [20; 42; 72; 110; 156; 210; 272]%Z in
    let cc := x2 / #2 * nested x2 [12; 30; 56; 90; 132; 182; 240; 306]%Z in
    let '(z1, z2) := if big then (cc + z3 - n1, ss + z3 + n1 - piby2) else (ss, cc) in
    if bigg then (#2 * u2 + z1 - tpi, #2 - z2) else (z1, z2).

  (** src/tools.rs:530-537: one third-order Newton step *)
  Definition kepler_refine (e l u2 z1 z2 : F) : F :=
    let ome := n1 - e in
    let f0 := l - u2 * ome - e * z1 in
    let f1 := ome + e * z2 in
    let f2 := 5//10 * e * (u2 - z1) in
    let f3 := e / #6 * (n1 - z2) in
    let z1 := f0 / f1 in
    let z2 := f0 / (f2 * z1 + f1) in
    u2 + f0 / ((f3 * z1 + f2) * z2 + f1).

  (** src/tools.rs:391-537 [kepler_solution_for_eccentrities_smaller_than_one] *)
  Definition kepler_ellipse (e oldl : F) : F :=
    let '(l, sign) := reduce_anomaly oldl in
    let u2 := kepler_start e l in
    let '(z1, z2) := sin_cos_defects u2 in
    sign * kepler_refine e l u2 z1 z2.

  (** src/tools.rs:540-583 [kepler_solution_for_a_parabola] *)
  Definition kepler_parabola (q0 : F) : F * F :=
    let neg := q0 <? n0 in
    let q := if neg then nopp q0 else q0 in
    let u :=
      if q <? 1//1000 then q * (n1 - q * q / #3 * (n1 - q * q))
      else let x := 5//10 * (#3 * q + nsqrt (#9 * tpow q (#2) + #4)) in
           let tmp := tpow x (1//3) in
           tmp - n1 / tmp in
    if neg then (nopp q, nopp u) else (q, u).

  (** src/tools.rs:622-733 [..._hybrid_approach_for_low_n]: Newton's iteration
      ([for _ in 1..10], so nine rounds) on the series; the pair returned is
      (F, N).  The warning printed without convergence is not modelled, the
      value returned is the same. *)
  Fixpoint flon_loop (n : nat) (a0 a1 x : F) : F :=
    match n with
    | O => x
    | S n =>
        let x2 := x * x in
        let f := a0 + x * (a1 + x2 * (#1037836800 + x2 * (#51891840 + x2 * (#1235520
                   + x2 * (#17160 + x2 * (#156 + x2)))))) in
        let fp := a1 + x2 * (#3 * #1037836800 + x2 * (#5 * #51891840 + x2 * (#7 * #1235520
                   + x2 * (#9 * #17160 + x2 * (#11 * #156 + #13 * x2))))) in
        let dx := nopp f / fp in
        if nabs dx <? 4//1000000000000000 then x + dx else flon_loop n a0 a1 (x + dx)
    end.
  Definition hyperbola_low_n (e capn0 : F) : F * F :=
    let neg := capn0 <? n0 in
    let capn := if neg then nopp capn0 else capn0 in
    let a1 := #6227020800 * (n1 - n1 / e) in
    let a0 := nopp (#6227020800) * capn / e in
    let a := #6 * (e - n1) / e in
    let b := nopp (#6) * capn / e in
    let sq := nsqrt (25//100 * b * b + a * a * a / #27) in
    let third := 3333333333333333//10000000000000000 in
    let biga := tpow (nopp (5//10) * b + sq) third in
    let bigb := nopp (tpow (5//10 * b + sq) third) in
    let x := biga + bigb in
    let f := if capn >=? 4//1000000000000000 then flon_loop 9 a0 a1 x else x in
    if neg then (nopp f, nopp capn) else (f, capn).

  (** src/tools.rs:736-802 [kepler_solution_for_a_hyperbola_hybrid_approach] *)
  Fixpoint fget_loop (n : nat) (e capn x : F) : F :=
    match n with
    | O => x
    | S n =>
        let esh := e * tsinh x in
        let ech := e * tcosh x in
        let f := esh - x - capn in
        let fp := ech - n1 in
        let dx := nopp f / fp in
        let dx := nopp f / (fp + dx * esh / #2) in
        let dx := nopp f / (fp + dx * esh / #2 + dx * dx * ech / #6) in
        if nabs dx <=? 4//1000000000000000 then x + dx else fget_loop n e capn (x + dx)
    end.
  Definition hyperbola_fget (e capn : F) : F :=
    let x := if capn <? n0 then nopp (tln (nopp (#2) * capn / e + 18//10))
             else tln (#2 * capn / e + 18//10) in
    fget_loop 9 e capn x.

  (** src/tools.rs:586-619 [kepler_solution_for_a_hyperbola]: uses the second
      component of the pair returned by the low-N routine *)
  Definition kepler_hyperbola (e n : F) : F :=
    let abn := if n <? n0 then nopp n else n in
    if abn <? (636//1000 * e - 6//10) then snd (hyperbola_low_n e n)
    else hyperbola_fget e n.

  (** src/tools.rs:289-386 [calculate_cartesian_coordinates]: rotation of
      in-plane coordinates (z1,z2) and velocities (z3,z4) *)
  Definition rotate_orbit (i p n : F) (z1 z2 z3 z4 : F) : vec F * vec F :=
    let g := p - n in
    let si := tsin i in let ci := tcos i in
    let sg := tsin g in let cg := tcos g in
    let sn := tsin n in let cn := tcos n in
    let c1 := cg * cn in let c2 := cg * sn in
    let c3 := sg * cn in let c4 := sg * sn in
    let d11 := c1 - c4 * ci in
    let d12 := c2 + c3 * ci in
    let d13 := sg * si in
    let d21 := nopp c3 - c2 * ci in
    let d22 := nopp c4 + c1 * ci in
    let d23 := cg * si in
    (Vec (d11 * z1 + d21 * z2) (d12 * z1 + d22 * z2) (d13 * z1 + d23 * z2),
     Vec (d11 * z3 + d21 * z4) (d12 * z3 + d22 * z4) (d13 * z3 + d23 * z4)).
  (** in-plane state for a given eccentric anomaly: ellipse, lines 345-356 *)
  Definition ellipse_state (gm a e u : F) : F * F * F * F :=
    let romes := nsqrt (n1 - e * e) in
    let se := tsin u in let ce := tcos u in
    let temp := nsqrt (gm / a) / (n1 - e * ce) in
    (a * (ce - e), a * romes * se, nopp se * temp, romes * ce * temp).
  (** parabola, lines 359-365 *)
  Definition parabola_state (gm q u : F) : F * F * F * F :=
    let z4 := nsqrt (#2 * gm / q) / (n1 + u * u) in
    (q * (n1 - u * u), #2 * q * u, nopp u * z4, z4).
  (** hyperbola, lines 367-375 *)
  Definition hyperbola_state (gm a e u : F) : F * F * F * F :=
    let romes := nsqrt (e * e - n1) in
    let se := tsinh u in let ce := tcosh u in
    let temp := nsqrt (gm / nabs a) / (e * ce - n1) in
    (a * (ce - e), nopp a * romes * se, nopp se * temp, romes * ce * temp).
  Definition cartesian_coordinates (gm q e i p n l : F) : vec F * vec F :=
    let a := q / (n1 - e) in
    let '(z1, z2, z3, z4) :=
      if e <? n1 then ellipse_state gm a e (kepler_ellipse e l)
      else if e =? n1 then parabola_state gm q (snd (kepler_parabola l))
      else hyperbola_state gm a e (kepler_hyperbola e l) in
    rotate_orbit i p n z1 z2 z3 z4.

  (** src/tools.rs:909-917 [calculate_pseudo_synchronization_period] *)
  Definition pseudo_synchronization_period (sma e star_mass planet_mass : F) : F :=
    let alpha := (n1 + #15 / #2 * npow e 2 + #45 / #8 * npow e 4 + #5 / #16 * npow e 6) * n1
                 / (n1 + #3 * npow e 2 + #3 / #8 * npow e 4) * n1
                 / tpow (n1 - npow e 2) (3//2) in
    let pseudo_rot := alpha * nsqrt (G_SI * M_SUN * (star_mass + planet_mass)) in
    let w := pseudo_rot * tpow (sma * AU) (nopp (#3) / #2) * HOUR * #24 in
    TWO_PI / w.

  (** src/tools.rs:919-927 [calculate_spin] *)
  Definition calculate_spin (w inclination obliquity node : F) : vec F :=
    Vec (w * tsin (obliquity + inclination) * tsin node)
        (nopp w * tsin (obliquity + inclination) * tcos node)
        (w * tcos (obliquity + inclination)).

  (** src/effects/tides/creep_coplanar.rs:502-526 [calculate_true_anomaly]: the
      unbounded [while] loop is run with fuel; [None] means it has not stopped
      within [fuel] rounds.  The first round is always executed (10 > 1e-13). *)
  Fixpoint true_anomaly_loop (fuel : nat) (e m u0 : F) : option F :=
    match fuel with
    | O => None
    | S fuel =>
        let u1 := m + e * tsin u0 in
        let difference := nabs (u1 - u0) in
        if difference >? 1//10000000000000 then true_anomaly_loop fuel e m u1 else Some u1
    end.
  Definition true_anomaly (fuel : nat) (e m : F) : option F :=
    match true_anomaly_loop fuel e m m with
    | None => None
    | Some u => Some (#2 * tatan (tpow ((n1 + e) / (n1 - e)) (n1 / #2) * ttan (u / #2)))
    end.
End Tools.
Arguments elements F : clear implicits.
