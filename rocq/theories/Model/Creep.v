(** * Creep tide: the shape of a coplanar body (src/effects/tides/creep_coplanar.rs)

    The force and torque that use the shape are in [Model/Tides.v] and
    [Model/Flattening.v]. *)
From Coq Require Import List Bool ZArith.
From Verif Require Import Base.Num Base.Result Base.Trans Base.Vec Model.Constants Model.Particle Model.Tools.
Import ListNotations.

(** rounds granted to the unbounded loop of [calculate_true_anomaly] *)
Class Fuel := { fuel : nat }.

Section Creep.
  Context {F : Type} `{Num F} `{Trans F} `{Floor F} `{Fuel}.
  Local Open Scope num_scope.

  (** src/effects/tides/creep_coplanar.rs:453-500 [calculate_cayley_coefficients] *)
  Definition cayley_coefficients (e : F) : list F * list F :=
    let e2 := npow e 2 in
    let e3 := e * e2 in
    let e4 := e2 * e2 in
    let e5 := e4 * e in
    let e6 := e5 * e in
    let e7 := e6 * e in
    let c_0_0 := #432091 / #30720 * e7 in
    let c_0_1 := #3167 / #320 * e6 in
    let c_0_2 := #1773 / #256 * e5 - #4987 / #6144 * e7 in
    let c_0_3 := #77 / #16 * e4 + #129 / #160 * e6 in
    let c_0_4 := #53 / #16 * e3 + #393 / #256 * e5 + #24753 / #10240 * e7 in
    let c_0_5 := #9 / #4 * e2 + #7 / #4 * e4 + #141 / #64 * e6 in
    let c_0_6 := #3 / #2 * e + #27 / #16 * e3 - #261 / #128 * e5 + #14309 / #6144 * e7 in
    let c_0_7 := n1 + #3 / #2 * e2 + #15 / #8 * e4 - #35 / #16 * e6 in
    let c_0_8 := c_0_6 in
    let c_0_9 := c_0_5 in
    let c_0_10 := c_0_4 in
    let c_0_11 := c_0_3 in
    let c_0_12 := c_0_2 in
    let c_0_13 := c_0_1 in
    let c_0_14 := c_0_0 in
    let c_1_0 := #12144273 / #71680 * e7 in
    let c_1_1 := #73369 / #720 * e6 in
    let c_1_2 := #228347 / #3840 * e5 - #3071075 / #18432 * e7 in
    let c_1_3 := #533 / #16 * e4 - #13827 / #160 * e6 in
    let c_1_4 := #845 / #48 * e3 - #32525 / #768 * e5 + #208225 / #6144 * e7 in
    let c_1_5 := #17 / #2 * e2 - #115 / #6 * e4 + #601 / #48 * e6 in
    let c_1_6 := #7 / #2 * e - #123 / #16 * e3 + #489 / #128 * e5 - #1763 / #2048 * e7 in
    let c_1_7 := n1 - #5 / #2 * e2 + #13 / #16 * e4 - #35 / #288 * e6 in
    let c_1_8 := nopp n1 / #2 * e + n1 / #16 * e3 - #5 / #384 * e5 - #143 / #18432 * e7 in
    let c_1_9 := n0 in
    let c_1_10 := n1 / #48 * e3 + #11 / #768 * e5 + #313 / #30720 * e7 in
    let c_1_11 := n1 / #24 * e4 + #7 / #240 * e6 in
    let c_1_12 := #81 / #1280 * e5 + #81 / #2048 * e7 in
    let c_1_13 := #4 / #45 * e6 in
    let c_1_14 := #15625 / #129024 * e7 in
    ([ c_0_0; c_0_1; c_0_2; c_0_3; c_0_4; c_0_5; c_0_6; c_0_7; c_0_8; c_0_9; c_0_10; c_0_11; c_0_12; c_0_13; c_0_14 ],
     [ c_1_0; c_1_1; c_1_2; c_1_3; c_1_4; c_1_5; c_1_6; c_1_7; c_1_8; c_1_9; c_1_10; c_1_11; c_1_12; c_1_13; c_1_14 ]).

  (** one round of the [while k < 15] loop, creep_coplanar.rs:392-425 *)
  Definition cayley_round (gam n spin m v : F) (acc : vec F) (dk c0 c1 : F) : vec F :=
    let equatorial_angles := (#9 - dk) * m - #2 * v in
    let polar_angles := (nopp (#7) + dk) * m in
    let w := #2 * spin - (#9 - dk) * n in
    Vec (vx acc + gam * c1 / (npow gam 2 + npow w 2) * (gam * tcos equatorial_angles - w * tsin equatorial_angles))
        (vy acc + gam * c1 / (npow gam 2 + npow w 2) * (gam * tsin equatorial_angles + w * tcos equatorial_angles))
        (vz acc + c0 / (npow (dk - #7) 2 * npow n 2 + npow gam 2)
           * (npow (dk - #7) 2 * npow n 2 * tsin polar_angles + npow gam 2 * tcos polar_angles)).
  Definition cayley_sums (gam n spin m v e : F) : vec F :=
    let c := cayley_coefficients e in
    fold_left (fun acc kc => cayley_round gam n spin m v acc (nlit (Z.of_nat (fst kc)) 1) (fst (snd kc)) (snd (snd kc)))
      (combine (seq 0 15) (combine (fst c) (snd c))) vzero.

  (** creep_coplanar.rs:297-371: Equation 49 of Folonier et al. (2018) *)
  Definition shape_slow (rho_bar z_bar ratio n gam e m : F) : vec F :=
    let alpha := n1 - (#3 * ratio * rho_bar) in
    let x := n / gam in
    let x2 := npow x 2 in
    let e2 := npow e 2 in
    let rho_const := rho_bar * (n1 + 3//2 * e2 - (#4 * x2 * e2 / (n1 + alpha * alpha * x2))) in
    let rho_cos := #3 * rho_bar * e / (n1 + x2) in
    let rho_sin := #3 * rho_bar * e * x / (n1 + x2) in
    let z_const := rho_bar * (1//2 + 3//4 * e2)
      + z_bar * (n1 + #12 * e2 * (n1 + alpha * x2) / ((n1 + x2) * (n1 + alpha * alpha * x2))
                 + #2 * (n1 - alpha) * (n1 - alpha) * x2 * e2 / (n1 + alpha * alpha * x2)) in
    let z_cos := (3//2 * rho_bar * e / (n1 + x2))
      * (n1 - (#16 * ratio * x2 * z_bar / (n1 + alpha * alpha * x2))) in
    let z_sin := (3//2 * rho_bar * e / (n1 + x2))
      * (x + (#8 * ratio * x * (n1 - alpha * x2) * z_bar / (n1 + alpha * alpha * x2))) in
    let d_const := (#3 * x * e2 / (n1 + x2)) * (#2 + (n1 + alpha) * x2) / (n1 + alpha * alpha * x2) in
    let d_cos := nopp (#2) * x * e / (n1 + alpha * alpha * x2) in
    let d_sin := nopp (#2) * e * x2 * alpha / (n1 + alpha * alpha * x2) in
    let ep_rho := rho_const + rho_cos * tcos m + rho_sin * tsin m in
    let epsilon_z := z_const + z_cos * tcos m + z_sin * tsin m in
    let delta := d_const + d_cos * tcos m + d_sin * tsin m in
    let delta2 := #2 * delta in
    Vec (ep_rho * tcos delta2) (ep_rho * tsin delta2) epsilon_z.

  (** src/effects/tides/creep_coplanar.rs:225-451 [calculate_particle_shape] *)
  Definition particle_shape (a e m period primary companion radius viscosity spin : F)
      (consider_tides consider_rotation : bool) : res (vec F) :=
    let gam := #3 * K2 * primary * primary / (#8 * tpi * npow radius 4 * viscosity) in
    let n := #2 * tpi / period in
    let rho_bar := if consider_tides
                   then #15 * companion * npow radius 3 / (#4 * primary * npow a 3) else n0 in
    let z_bar := if consider_rotation
                 then #5 * spin * spin * npow radius 3 / (#4 * K2 * primary) else n0 in
    let ratio := companion / (primary + companion) in
    let pseudo := if gam <? n then 9//10 * n else n1 * n + #7 * e * e * n in
    if spin <? pseudo then Ok (shape_slow rho_bar z_bar ratio n gam e m)
    else
      match true_anomaly fuel e m with
      | None => Panic PNoTermination
      | Some v =>
          let v := if v <? n0 then v + #2 * tpi else v in
          let s := cayley_sums gam n spin m v e in
          Ok (Vec (vx s * rho_bar) (vy s * rho_bar) ((vz s * rho_bar / #2) + z_bar))
      end.

  Definition creep_viscosity (e : tides_effect F) (central : bool) : F :=
    match e with
    | TidesCentral (CreepCoplanar v) => if central then v else n0
    | TidesOrbiting (CreepCoplanar v) => if central then n0 else v
    | _ => n0
    end.

  (** src/effects/tides/creep_coplanar.rs:150-223 [calculate_creep_coplanar_shape] *)
  Definition creep_shape (host particle : particle F) (consider_tides consider_rotation central : bool) : res (vec F) :=
    let gm := p_mass_g host + p_mass_g particle in
    let els := keplerian_elements gm (t_pos (p_tides particle)) (t_vel (p_tides particle)) in
    let primary := if central then host else particle in
    let companion := if central then particle else host in
    particle_shape (el_a els) (el_e els) (el_l els) (el_period els)
      (p_mass primary) (p_mass companion) (p_radius primary)
      (creep_viscosity (t_effect (p_tides primary)) central)
      (vz (p_spin primary)) consider_tides consider_rotation.
End Creep.
