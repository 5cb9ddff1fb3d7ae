(** * The WHFast integrator (src/integrator/whfast.rs)

    The update of the universe; clock, output and snapshots are in [Model/Run.v].
    Of the arrays of [MAX_PARTICLES] entries only the first [n_particles] are used,
    which is what the lists below hold.  [timestep_warning] only limits the number
    of printed warnings and is left out. *)
From Coq Require Import List Bool ZArith Arith.
From Verif Require Import Base.Num Base.Result Base.Trans Base.Vec Model.Constants Model.Particle Model.Host
  Model.Creep Model.Relativity Model.Universe.
Import ListNotations.

(** whfast.rs:91-96 *)
Inductive coordinates := Jacobi | DemocraticHeliocentric | WHDS.

Section WHFast.
  Context {F : Type} `{Num F} `{Trans F} `{Floor F} `{Fuel}.
  Local Open Scope num_scope.
  Local Notation P := (particle F).

  (** whfast.rs:124-132 [AlternativeCoordinates] *)
  Record alternative := Alt { a_mass : F; a_mass_g : F; a_pos : vec F; a_vel : vec F; a_acc : vec F }.
  Definition set_a_pos (x : vec F) (a : alternative) := Alt (a_mass a) (a_mass_g a) x (a_vel a) (a_acc a).
  Definition set_a_vel (x : vec F) (a : alternative) := Alt (a_mass a) (a_mass_g a) (a_pos a) x (a_acc a).
  Definition set_a_acc (x : vec F) (a : alternative) := Alt (a_mass a) (a_mass_g a) (a_pos a) (a_vel a) x.

  (** the bodies of the universe with their alternative coordinates, split around
      the most massive one: [self.universe.particles] and
      [self.particles_alternative_coordinates] are split at the same index *)
  Definition body : Type := P * alternative.
  Definition on_alt (f : alternative -> alternative) (b : body) : body := (fst b, f (snd b)).
  Definition on_p (f : P -> P) (b : body) : body := (f (fst b), snd b).

  (** ** Coordinate transformations *)

  (** whfast.rs:889-933 [inertial_to_jacobi_posvel]; the state of the loop is
      (eta, s, sv) *)
  Definition jacobi_in (s : F * vec F * vec F) (b : body) : F * vec F * vec F * body :=
    let '(eta, sx, sv) := s in
    let p := fst b in
    let ei := n1 / eta in
    let eta := eta + p_mass p in
    let pme := eta * ei in
    let pos := vsub (p_ipos p) (vmulr sx ei) in
    let vel := vsub (p_ivel p) (vmulr sv ei) in
    (eta, vadd (vmulr sx pme) (vscale (p_mass p) pos), vadd (vmulr sv pme) (vscale (p_mass p) vel),
     (p, Alt (p_mass p) (p_mass_g p) pos vel (a_acc (snd b)))).
  (** a loop with a state that rewrites the elements *)
  Fixpoint walk {S A : Type} (f : S -> A -> S * A) (s : S) (l : list A) : S * list A :=
    match l with
    | [] => (s, [])
    | a :: l => let '(s, a) := f s a in let '(s, l) := walk f s l in (s, a :: l)
    end.
  Definition inertial_to_jacobi (star : body) (o : list body) : body * list body :=
    let p := fst star in
    let eta := p_mass p in
    let '((eta, sx, sv), o) := walk jacobi_in (eta, vscale eta (p_ipos p), vscale eta (p_ivel p)) o in
    let mi := n1 / eta in
    ((p, Alt eta (a_mass_g (snd star)) (vmulr sx mi) (vmulr sv mi) (a_acc (snd star))), o).

  (** whfast.rs:935-963 [inertial_to_jacobi_acc] *)
  Definition jacobi_acc_in (s : F * vec F) (b : body) : F * vec F * body :=
    let '(eta, sa) := s in
    let p := fst b in
    let ei := n1 / eta in
    let eta := eta + p_mass p in
    let pme := eta * ei in
    let acc := vsub (p_iacc p) (vmulr sa ei) in
    (eta, vadd (vmulr sa pme) (vscale (p_mass p) acc), on_alt (set_a_acc acc) b).
  Definition inertial_to_jacobi_acc (star : body) (o : list body) : body * list body :=
    let p := fst star in
    let eta := p_mass p in
    let '((eta, sa), o) := walk jacobi_acc_in (eta, vscale eta (p_iacc p)) o in
    (on_alt (set_a_acc (vmulr sa (n1 / eta))) star, o).

  (** whfast.rs:973-1023 [inertial_to_whds_and_democratic_heliocentric_posvel] *)
  Definition com_in (s : F * F * vec F * vec F) (b : body) : F * F * vec F * vec F :=
    let '(m, mg, x, v) := s in
    let p := fst b in
    (m + p_mass p, mg + p_mass_g p, vadd x (vmulr (p_ipos p) (p_mass p)), vadd v (vmulr (p_ivel p) (p_mass p))).
  Definition inertial_to_heliocentric_alt (whds : bool) (star : body) (o : list body) : body * list body :=
    let '(m, mg, x, v) := fold_left com_in (star :: o) (n0, n0, vzero, vzero) in
    let x := vdivr x m in
    let v := vdivr v m in
    let s := fst star in
    ((s, Alt m mg x v (a_acc (snd star))),
     map (fun b : body =>
            let p := fst b in
            let vel := vsub (p_ivel p) v in
            let vel := if whds then vmulr vel ((p_mass s + p_mass p) / p_mass s) else vel in
            (p, Alt (p_mass p) (p_mass_g p) (vsub (p_ipos p) (p_ipos s)) vel (a_acc (snd b)))) o).
  (** whfast.rs:881-887 *)
  Definition to_alternative (c : coordinates) (star : body) (o : list body) : body * list body :=
    match c with
    | Jacobi => inertial_to_jacobi star o
    | DemocraticHeliocentric => inertial_to_heliocentric_alt false star o
    | WHDS => inertial_to_heliocentric_alt true star o
    end.

  (** whfast.rs:1034-1080 [jacobi_to_inertial_posvel]: the bodies are visited from
      the last to the first *)
  Definition jacobi_out (s : F * vec F * vec F) (b : body) : F * vec F * vec F * body :=
    let '(eta, sx, sv) := s in
    let '(p, a) := b in
    let ei := n1 / eta in
    let sx := vmulr (vsub sx (vscale (p_mass p) (a_pos a))) ei in
    let sv := vmulr (vsub sv (vscale (p_mass p) (a_vel a))) ei in
    let p := set_p_ivel (vadd (a_vel a) sv) (set_p_ipos (vadd (a_pos a) sx) p) in
    let eta := eta - p_mass p in
    (eta, vmulr sx eta, vmulr sv eta, (p, a)).
  Definition jacobi_to_inertial (star : body) (o : list body) : body * list body :=
    let a := snd star in
    let eta := a_mass a in
    let '((eta, sx, sv), o) := walk jacobi_out (eta, vscale eta (a_pos a), vscale eta (a_vel a)) (rev o) in
    let mi := n1 / eta in
    (on_p (fun p => set_p_ivel (vmulr sv mi) (set_p_ipos (vmulr sx mi) p)) star, rev o).

  (** whfast.rs:1128-1155 [.._to_inertial_pos] and 1090-1126 [.._to_inertial_posvel] *)
  Definition heliocentric_alt_to_inertial (whds : bool) (star : body) (o : list body) : body * list body :=
    let '(s, sa) := star in
    let x := fold_left (fun x (b : body) => vsub x (vdivr (vmulr (a_pos (snd b)) (p_mass (fst b))) (a_mass sa))) o (a_pos sa) in
    let m0 := p_mass s in
    let v := fold_left (fun v (b : body) =>
               vsub v (vmulr (a_vel (snd b)) (if whds then p_mass (fst b) / (m0 + p_mass (fst b)) else p_mass (fst b) / m0)))
               o (a_vel sa) in
    ((set_p_ivel v (set_p_ipos x s), sa),
     map (fun b : body =>
            let '(p, a) := b in
            let vel := if whds then vdivr (a_vel a) ((m0 + p_mass p) / m0) else a_vel a in
            (set_p_ivel (vadd vel (a_vel sa)) (set_p_ipos (vadd (a_pos a) x) p), a)) o).
  (** whfast.rs:1026-1032 *)
  Definition to_inertial (c : coordinates) (star : body) (o : list body) : body * list body :=
    match c with
    | Jacobi => jacobi_to_inertial star o
    | DemocraticHeliocentric => heliocentric_alt_to_inertial false star o
    | WHDS => heliocentric_alt_to_inertial true star o
    end.

  (** ** Jump step, whfast.rs:495-556 *)
  Definition jump (c : coordinates) (dt : F) (star : body) (o : list body) : body * list body :=
    let m0 := p_mass (fst star) in
    match c with
    | Jacobi => (star, o)
    | DemocraticHeliocentric =>
        let p := fold_left (fun s (b : body) => vadd s (vscale (p_mass (fst b)) (a_vel (snd b)))) o vzero in
        (star, map (on_alt (fun a => set_a_pos (vadd (a_pos a) (vdivr (vscale dt p) m0)) a)) o)
    | WHDS =>
        let part (b : body) := vdivr (vscale (p_mass (fst b)) (a_vel (snd b))) (m0 + p_mass (fst b)) in
        let p := fold_left (fun s b => vadd s (part b)) o vzero in
        (star, map (fun b : body => on_alt (fun a => set_a_pos (vadd (a_pos a) (vscale dt (vsub p (part b)))) a) b) o)
    end.

  (** ** Interaction step, whfast.rs:558-625 *)
  Definition SOFTENING : F := 1//1000000000000.
  (** the state of the loop is the mass inside the orbit and whether this is the
      first body *)
  Definition jacobi_kick (dt : F) (s : F * bool) (b : body) : F * bool * body :=
    let '(eta, first) := s in
    let '(p, a) := b in
    let eta := eta + a_mass a in
    let v := vadd (a_vel a) (vscale dt (a_acc a)) in
    let v := if first then v
             else
               let rj2i := n1 / (norm2 (a_pos a) + SOFTENING) in
               let rji := nsqrt rj2i in
               let rj3im := rji * rj2i * G * eta in
               vadd v (vscale (dt * rj3im) (a_pos a)) in
    ((eta, false), (p, set_a_vel v a)).
  Definition interaction (c : coordinates) (dt : F) (star : body) (o : list body) : body * list body :=
    let m0 := p_mass (fst star) in
    match c with
    | Jacobi =>
        let '(star, o) := inertial_to_jacobi_acc star o in
        (star, snd (walk (jacobi_kick dt) (m0, true) o))
    | DemocraticHeliocentric =>
        (star, map (fun b : body => on_alt (fun a => set_a_vel (vadd (a_vel a) (vscale dt (p_iacc (fst b)))) a) b) o)
    | WHDS =>
        (star, map (fun b : body => on_alt (fun a => set_a_vel (vadd (a_vel a)
            (vdivr (vscale (dt * (m0 + p_mass (fst b))) (p_iacc (fst b))) m0)) a) b) o)
    end.

  (** ** Keplerian motion *)

  (** whfast.rs:844-876 [stumpff_cs3].  [while z.abs() > 0.1] with fuel *)
  Fixpoint quarter (n : nat) (z : F) (k : nat) : option (F * nat) :=
    match n with
    | O => None
    | S n => if nabs z >? 1//10 then quarter n (z / #4) (S k) else Some (z, k)
    end.
  (** the table of inverse factorials (entries 14 to 34 are not used) *)
  Definition inv_factorial (k : nat) : F :=
    n1 / nlit (nth k [1; 1; 2; 6; 24; 120; 720; 5040; 40320; 362880; 3628800; 39916800; 479001600; 6227020800]%Z 1%Z) 1.
  (** rounds [np = 11, 9, 7, 5, 3] of the loop *)
  Definition stumpff_base (z : F) : F * F :=
    fold_left (fun c np => (inv_factorial np - z * fst c, inv_factorial (np - 1) - z * snd c))
      [11%nat; 9%nat; 7%nat; 5%nat; 3%nat] (inv_factorial 13, inv_factorial 12).
  (** entries 0 to 3 of the array (4 and 5 stay zero) *)
  Record stumpff := Cs { cs0 : F; cs1 : F; cs2 : F; cs3 : F }.
  Definition double (c : stumpff) : stumpff :=
    Cs (#2 * cs0 c * cs0 c - n1) (cs0 c * cs1 c) (cs1 c * cs1 c * (5//10)) ((cs2 c + cs0 c * cs3 c) * (25//100)).
  Fixpoint doubles (k : nat) (c : stumpff) : stumpff :=
    match k with O => c | S k => doubles k (double c) end.
  Definition stumpff_small (z : F) : stumpff :=
    let '(c_odd, c_even) := stumpff_base z in
    Cs (inv_factorial 0 - z * c_even) (inv_factorial 1 - z * c_odd) c_even c_odd.
  Definition stumpff_cs3 (z : F) : res stumpff :=
    match quarter fuel z 0 with
    | None => Panic PNoTermination
    | Some (z, k) => Ok (doubles k (stumpff_small z))
    end.
  (** whfast.rs:835-842 [stiefel_gs3] *)
  Definition stiefel_gs3 (beta x : F) : res stumpff :=
    let x2 := npow x 2 in
    do c <- stumpff_cs3 (beta * x2);
    Ok (Cs (cs0 c) (cs1 c * x) (cs2 c * x2) (cs3 c * (x2 * x))).

  (** the quantities fixed during the solution of Kepler's equation, whfast.rs:686-691 *)
  Record kepler := Kepler { k_mu : F; k_dt : F; k_r0 : F; k_beta : F; k_eta0 : F; k_zeta0 : F; k_v2 : F }.
  Definition kepler_setup (mass_g dt : F) (x v : vec F) : kepler :=
    let r0 := nsqrt (norm2 x) in
    let beta := #2 * mass_g * (n1 / r0) - norm2 v in
    Kepler mass_g dt r0 beta (vdot x v) (mass_g - beta * r0) (norm2 v).
  Definition radius_inverse (k : kepler) (g : stumpff) : F :=
    n1 / (k_r0 k + (k_eta0 k * cs1 g + k_zeta0 k * cs2 g)).
  Definition newton_update (k : kepler) (g : stumpff) (x : F) : F :=
    let e := k_eta0 k * cs1 g + k_zeta0 k * cs2 g in
    radius_inverse k g * (x * e - k_eta0 k * cs2 g - k_zeta0 k * cs3 g + k_dt k).

  (** whfast.rs:756-773: Newton's method; [old_x2] is the value before [old_x].  The
      result tells whether it converged, the Stiefel functions of the last
      evaluation, and the last [ri] *)
  Fixpoint newton (n : nat) (k : kepler) (x old_x : F) (g : stumpff) : res (bool * stumpff * F) :=
    match n with
    | O => Ok (false, g, radius_inverse k g)
    | S n =>
        do g <- stiefel_gs3 (k_beta k) x;
        let x' := newton_update k g x in
        if (x' =? x) || (x' =? old_x) then Ok (true, g, radius_inverse k g) else newton n k x' x g
    end.
  (** whfast.rs:732-755: the quartic solver; [seen] are the previous values
      [prev_x[1..n_lag]] *)
  Fixpoint quartic (n : nat) (k : kepler) (x : F) (seen : list F) (g : stumpff) : res (bool * stumpff) :=
    match n with
    | O => Ok (false, g)
    | S n =>
        do g <- stiefel_gs3 (k_beta k) x;
        let f := k_r0 k * x + k_eta0 k * cs2 g + k_zeta0 k * cs3 g - k_dt k in
        let fp := k_r0 k + k_eta0 k * cs1 g + k_zeta0 k * cs2 g in
        let fpp := k_eta0 k * cs0 g + k_zeta0 k * cs1 g in
        let denom := fp + nsqrt (nabs (#16 * fp * fp - #20 * f * fpp)) in
        let x := (x * denom - #5 * f) / denom in
        if existsb (fun y => x =? y) seen then Ok (true, g) else quartic n k x (seen ++ [x]) g
    end.
  (** whfast.rs:791-805: bisection, [loop] with fuel *)
  Fixpoint bisection (n : nat) (k : kepler) (x_min x_max x : F) : res stumpff :=
    match n with
    | O => Panic PNoTermination
    | S n =>
        do g <- stiefel_gs3 (k_beta k) x;
        let s := k_r0 k * x + k_eta0 k * cs2 g + k_zeta0 k * cs3 g - k_dt k in
        let '(x_min, x_max) := if s >=? n0 then (x_min, x) else (x, x_max) in
        let x := (x_max + x_min) / #2 in
        if nabs (x_max - x_min) / x_max <=? 1//1000000000000000 then Ok g else bisection n k x_min x_max x
    end.
  Definition bisection_bounds (k : kepler) : F * F :=
    if k_beta k >? n0 then
      let sqrt_beta := nsqrt (k_beta k) in
      let invperiod := sqrt_beta * k_beta k / (#2 * tpi * k_mu k) in
      let x_per_period := #2 * tpi / sqrt_beta in
      let x_min := x_per_period * nfloor (k_dt k * invperiod) in
      (x_min, x_min + x_per_period)
    else
      let h2 := k_r0 k * k_r0 k * k_v2 k - k_eta0 k * k_eta0 k in
      let q := h2 / k_mu k / (n1 + nsqrt (n1 - h2 * k_beta k / (k_mu k * k_mu k))) in
      let vq := nsqrt h2 / q in
      (n1 / (vq + k_r0 k / k_dt k), k_dt k / q).

  Definition WHFAST_NMAX_QUART : nat := 64.
  Definition WHFAST_NMAX_NEWT : nat := 32.
  (** whfast.rs:692-815: the whole solution of Kepler's equation *)
  Definition solve_kepler (k : kepler) : res (stumpff * F) :=
    let elliptic := k_beta k >? n0 in
    let r0i := n1 / k_r0 k in
    let dtr0i := k_dt k * r0i in
    let x0 := if elliptic then dtr0i * (n1 - dtr0i * k_eta0 k * (5//10) * r0i) else n0 in
    do g <- stiefel_gs3 (k_beta k) x0;
    let x := newton_update k g x0 in
    let x_per_period := #2 * tpi / nsqrt (k_beta k) in
    do r <- (if elliptic && (nabs (x - x0) >? (1//100) * x_per_period)
             then do r <- quartic (WHFAST_NMAX_QUART - 1) k (k_beta k * k_dt k / k_mu k) [] g;
                  Ok (fst r, snd r, radius_inverse k (snd r))
             else newton (WHFAST_NMAX_NEWT - 1) k x x0 g);
    let '(converged, g, ri) := r in
    do r <- (if converged then Ok (g, ri)
             else let '(x_min, x_max) := bisection_bounds k in
                  do g <- bisection fuel k x_min x_max ((x_max + x_min) / #2);
                  Ok (g, radius_inverse k g));
    let '(g, ri) := r in
    Ok (if negb (ri =? ri) then (Cs (cs0 g) n0 n0 n0, n0) else (g, ri)).   (* ri is NaN *)

  (** whfast.rs:816-832: the drift, given the Stiefel functions and 1/r *)
  Definition kepler_drift (k : kepler) (g : stumpff) (ri : F) (x v : vec F) : vec F * vec F :=
    let r0i := n1 / k_r0 k in
    let f := nopp (k_mu k) * cs2 g * r0i in
    let gg := k_dt k - k_mu k * cs3 g in
    let fd := nopp (k_mu k) * cs1 g * r0i * ri in
    let gd := nopp (k_mu k) * cs2 g * ri in
    (vadd x (vadd (vscale f x) (vscale gg v)), vadd v (vadd (vscale fd x) (vscale gd v))).
  (** whfast.rs:676-833 [kepler_individual_step] *)
  Definition kepler_step (mass_g dt : F) (a : alternative) : res alternative :=
    let k := kepler_setup mass_g dt (a_pos a) (a_vel a) in
    do r <- solve_kepler k;
    let '(x, v) := kepler_drift k (fst r) (snd r) (a_pos a) (a_vel a) in
    Ok (set_a_vel v (set_a_pos x a)).
  (** whfast.rs:628-672 [kepler_steps]; the loops visit the bodies but the host in order *)
  Fixpoint kepler_walk (mass : F -> alternative -> F) (keep : F -> alternative -> F) (mg dt : F) (l : list body) : res (list body) :=
    match l with
    | [] => Ok []
    | (p, a) :: l =>
        do a' <- kepler_step (mass mg a) dt a;
        do l <- kepler_walk mass keep (keep mg a) dt l;
        Ok ((p, a') :: l)
    end.
  Definition kepler_steps (c : coordinates) (dt : F) (star : body) (o : list body) : res (body * list body) :=
    let mg := p_mass_g (fst star) in
    let plus m a := m + a_mass_g a in
    do o <- match c with
            | Jacobi => kepler_walk plus plus mg dt o
            | DemocraticHeliocentric => kepler_walk (fun m _ => m) (fun m _ => m) mg dt o
            | WHDS => kepler_walk plus (fun m _ => m) mg dt o
            end;
    Ok (on_alt (fun a => set_a_pos (vadd (a_pos a) (vscale dt (a_vel a))) a) star, o).

  (** ** The integrator *)

  (** whfast.rs:99-122, without clock and output (see [Model/Run.v]) *)
  Record whfast := WH {
    w_u : universe F; w_alt : list alternative; w_type : coordinates;
    w_verr : list (vec F); w_Lerr : list (vec F) }.
  Definition ignored (c : coordinates) : ignore_terms :=
    match c with Jacobi => WHFastOne | _ => WHFastTwo end.

  (** apply a function to the bodies split around the host *)
  Definition with_bodies (w : whfast) (f : body -> list body -> res (body * list body)) : res whfast :=
    do l <- with_host (h_most_massive (u_hosts (w_u w))) (combine (u_particles (w_u w)) (w_alt w)) f;
    Ok (WH (set_particles (map fst l) (w_u w)) (map snd l) (w_type w) (w_verr w) (w_Lerr w)).
  (** whfast.rs:469-479 and 482-491 *)
  Definition part1 (half : F) (w : whfast) : res whfast :=
    with_bodies w (fun star o =>
      let c := w_type w in
      let '(star, o) := to_alternative c star o in
      do r <- kepler_steps c half star o;
      let '(star, o) := jump c half (fst r) (snd r) in
      Ok (to_inertial c star o)).
  Definition part2 (dt half : F) (w : whfast) : res whfast :=
    with_bodies w (fun star o =>
      let c := w_type w in
      let '(star, o) := interaction c dt star o in
      let '(star, o) := jump c half star o in
      do r <- kepler_steps c half star o;
      Ok (to_inertial c (fst r) (snd r))).

  (** *** The implicit midpoint, whfast.rs:322-422 *)
  Definition IMPLICIT_MIDPOINT_MIN_ITER : nat := 3.
  Definition IMPLICIT_MIDPOINT_MAX_ITER : nat := 10.
  (** velocity and angular momentum of a body *)
  Definition vl : Type := vec F * vec F.
  Definition vl_of (p : P) : vl := (p_ivel p, p_L p).
  (** 352-378: the changes and the final values, from the averaged body, the
      original values, the running compensations and the previous changes (the
      spin part of which stays zero when the spin is not integrated) *)
  Definition midpoint_change (dt : F) (spin : bool) (p : P) (err : vl) (old : vl) : vl :=
    (vsub (vscale dt (p_iadd p)) (fst err),
     if spin then vsub (vscale dt (p_dL p)) (snd err) else snd old).
  Definition midpoint_final (spin : bool) (orig change final : vl) : vl :=
    (vadd (fst orig) (fst change), if spin then vadd (snd orig) (snd change) else snd final).
  (** 424-451 *)
  Definition sum_norm2 (l : list (vec F)) : F := fold_left (fun s v => s + norm2 v) l n0.
  Definition converged (spin : bool) (final prev : list vl) : bool :=
    let d := map (fun fp => (vsub (fst (fst fp)) (fst (snd fp)), vsub (snd (fst fp)) (snd (snd fp)))) (combine final prev) in
    let rv := sum_norm2 (map fst d) / sum_norm2 (map fst final) in
    let rl := sum_norm2 (map snd d) / sum_norm2 (map snd final) in
    (spin && (rv <? DBL_EPSILON_2) && (rl <? DBL_EPSILON_2)) || (negb spin && (rv <? DBL_EPSILON_2)).
  (** 453-466 *)
  Definition average (spin : bool) (orig final : vl) (p : P) : P :=
    let p := set_p_ivel (vscale (5//10) (vadd (fst orig) (fst final))) p in
    if spin then set_p_L (vscale (5//10) (vadd (snd orig) (snd final))) p else p.
  Definition zip3 {A B C D} (f : A -> B -> C -> D) (a : list A) (b : list B) (c : list C) : list D :=
    map (fun t => f (fst (fst t)) (snd (fst t)) (snd t)) (combine (combine a b) c).

  (** 339-391: the iterations; [i] counts them, [n] are left.  Returns the universe
      of the last evaluation, the final values and the changes *)
  Fixpoint midpoint (n i : nat) (t dt : F) (spin evolution : bool) (c : coordinates)
      (err orig final changes : list vl) (u : universe F) : res (universe F * list vl * list vl) :=
    match n with
    | O => Ok (u, final, changes)
    | S n =>
        let prev := final in
        do u <- inertial_to_heliocentric u;
        do u <- additional_effects t (evolution && Nat.eqb i 0) spin true (ignored c) u;
        let changes := zip3 (midpoint_change dt spin) (u_particles u) err changes in
        let final := zip3 (midpoint_final spin) orig changes final in
        if Nat.leb (IMPLICIT_MIDPOINT_MIN_ITER - 1) i && converged spin final prev then Ok (u, final, changes)
        else
          let u := set_particles (zip3 (average spin) orig final (u_particles u)) u in
          midpoint n (S i) t dt spin evolution c err orig final changes u
    end.
  (** 322-422 [integrate_velocity_dependent_forces] *)
  Definition velocity_dependent (t dt : F) (spin evolution : bool) (w : whfast) : res whfast :=
    let orig := map vl_of (u_particles (w_u w)) in
    let err := combine (w_verr w) (w_Lerr w) in
    do r <- midpoint IMPLICIT_MIDPOINT_MAX_ITER 0 t dt spin evolution (w_type w) err orig orig
              (map (fun _ => (vzero, vzero)) orig) (w_u w);
    let '(u, final, changes) := r in
    let l := map (fun pf : P * vl =>
                    let '(p, f) := pf in
                    let p := set_p_ivel (fst f) p in
                    if spin then set_p_L (snd f) p else p) (combine (u_particles u) final) in
    let verr := zip3 (fun f o c : vl => vsub (vsub (fst f) (fst o)) (fst c)) final orig changes in
    let Lerr := if spin then zip3 (fun f o c : vl => vsub (vsub (snd f) (snd o)) (snd c)) final orig changes
                else w_Lerr w in
    Ok (WH (set_particles l u) (w_alt w) (w_type w) verr Lerr).

  (** whfast.rs:261-292: the part of [iterate] after the output *)
  Definition integrate_spin (u : universe F) : bool :=
    let c := u_effects u in
    e_tides c || e_rf c || e_evolution c || (e_gr c && gr_impl_eqb (u_gr u) Kidder1995).
  Definition wh_step (t dt half : F) (w : whfast) : res whfast :=
    let spin := integrate_spin (w_u w) in
    do w <- velocity_dependent t half spin true w;
    do w <- part1 half w;
    do u <- gravity (ignored (w_type w)) (w_u w);
    let w := WH u (w_alt w) (w_type w) (w_verr w) (w_Lerr w) in
    do w <- part2 dt half w;
    velocity_dependent t half spin false w.
  (** [n] steps, clock included (whfast.rs:293) *)
  Fixpoint wh_steps (n : nat) (t dt half : F) (w : whfast) : res whfast :=
    match n with
    | O => Ok w
    | S n => do w <- wh_step t dt half w; wh_steps n (t + dt) dt half w
    end.

  (** whfast.rs:143-168 [WHFast::new] *)
  Definition new_whfast (u : universe F) (c : coordinates) : whfast :=
    let n := length (u_particles u) in
    WH u (repeat (Alt n0 n0 vzero vzero vzero) n) c (repeat vzero n) (repeat vzero n).
End WHFast.
Arguments alternative F : clear implicits.
Arguments whfast F : clear implicits.
Arguments stumpff F : clear implicits.
Arguments kepler F : clear implicits.
Arguments body F : clear implicits.
