(** * Vectors of state: bodies and the data of their effects

    The Rust structs are plain data; every assignment through [&mut] becomes a
    functional setter [set_<field>].  Nested Rust structs are flattened (one
    record per effect); nothing else is dropped, except where said. *)
From Coq Require Import List Bool.
From Verif Require Import Base.Num Base.Vec.
Import ListNotations.

(** src/effects/evolution.rs:9-17 [EvolutionType] *)
Inductive evolution (F : Type) :=
| GalletBolmont2017 (m : F) | BolmontMathis2016 (m : F) | Baraffe2015 (m : F)
| Leconte2011 (m : F) | Baraffe1998 (m : F) | LeconteChabrier2013 (dynamical : bool)
| NonEvolving.
Arguments GalletBolmont2017 {F} m. Arguments BolmontMathis2016 {F} m.
Arguments Baraffe2015 {F} m. Arguments Leconte2011 {F} m. Arguments Baraffe1998 {F} m.
Arguments LeconteChabrier2013 {F} dynamical. Arguments NonEvolving {F}.

(** the three models with a frequency-dependent (dynamical) tide, matched
    together everywhere in src/effects/tides/constant_time_lag.rs and
    src/effects/evolution.rs *)
Definition dynamical_tide {F} (e : evolution F) : bool :=
  match e with
  | BolmontMathis2016 _ | GalletBolmont2017 _ | LeconteChabrier2013 true => true
  | _ => false
  end.
Definition evolves {F} (e : evolution F) : bool :=
  match e with NonEvolving => false | _ => true end.

(** src/effects/tides/constant_time_lag.rs:12-18 [ConstantTimeLagParameters] *)
Record ctl_params (F : Type) := CtlParams
  { ctl_dissipation : F; ctl_scale : F; ctl_love : F }.
Arguments CtlParams {F}. Arguments ctl_dissipation {F}. Arguments ctl_scale {F}. Arguments ctl_love {F}.

(** src/effects/tides/kaula.rs:12-26 [KaulaParameters]: the three Love-number
    tables, the number of data points and the secular force left by the last
    force evaluation, which the torque reads (the cached polynomials, which are
    recomputed before every use, are left out) *)
Record kaula_params (F : Type) := KaulaParams
  { kl_freq : list F; kl_re : list F; kl_im : list F; kl_num : F; kl_force : vec F }.
Arguments KaulaParams {F}. Arguments kl_freq {F}. Arguments kl_re {F}.
Arguments kl_im {F}. Arguments kl_num {F}. Arguments kl_force {F}.
Definition set_kl_force {F} (x : vec F) (r : kaula_params F) : kaula_params F :=
  KaulaParams (kl_freq r) (kl_re r) (kl_im r) (kl_num r) x.

(** src/effects/tides/common.rs:81-85 [TidalModel] *)
Inductive tidal_model (F : Type) :=
| ConstantTimeLag (p : ctl_params F)
| CreepCoplanar (viscosity : F)
| Kaula (p : kaula_params F).
Arguments ConstantTimeLag {F} p. Arguments CreepCoplanar {F} viscosity. Arguments Kaula {F} p.

(** src/effects/tides/common.rs:87-92 [TidesEffect] *)
Inductive tides_effect (F : Type) :=
| TidesCentral (m : tidal_model F) | TidesOrbiting (m : tidal_model F) | TidesDisabled.
Arguments TidesCentral {F} m. Arguments TidesOrbiting {F} m. Arguments TidesDisabled {F}.

(** src/effects/rotational_flattening/common.rs:44-55 *)
Inductive rf_model (F : Type) := OblateSpheroid (love : F) | CreepCoplanarRf (viscosity : F).
Arguments OblateSpheroid {F} love. Arguments CreepCoplanarRf {F} viscosity.
Inductive rf_effect_t (F : Type) :=
| RfCentral (m : rf_model F) | RfOrbiting (m : rf_model F) | RfDisabled.
Arguments RfCentral {F} m. Arguments RfOrbiting {F} m. Arguments RfDisabled {F}.

(** src/effects/general_relativity.rs:39-52 *)
Inductive gr_impl := Kidder1995 | Anderson1975 | Newhall1983 | GrImplDisabled.
Inductive gr_effect_t := GrCentral (i : gr_impl) | GrOrbiting | GrDisabled.
Definition gr_impl_eqb (a b : gr_impl) : bool :=
  match a, b with
  | Kidder1995, Kidder1995 | Anderson1975, Anderson1975
  | Newhall1983, Newhall1983 | GrImplDisabled, GrImplDisabled => true
  | _, _ => false
  end.

(** src/effects/disk.rs:6-14 [DiskProperties], 44-49 [DiskEffect] *)
Record disk_props (F : Type) := DiskProps
  { dp_inner : F; dp_outer : F; dp_lifetime : F; dp_alpha : F; dp_density : F; dp_weight : F }.
Arguments DiskProps {F}. Arguments dp_inner {F}. Arguments dp_outer {F}. Arguments dp_lifetime {F}.
Arguments dp_alpha {F}. Arguments dp_density {F}. Arguments dp_weight {F}.
Inductive disk_effect_t (F : Type) := DiskCentral (d : disk_props F) | DiskOrbiting | DiskDisabled.
Arguments DiskCentral {F} d. Arguments DiskOrbiting {F}. Arguments DiskDisabled {F}.

(** src/effects/tides/common.rs:44-92 [Tides] with its nested [parameters.internal], [parameters.output] and [coordinates] structs flattened *)
Record tides (F : Type) := Mk_tides {
  t_effect : tides_effect F;
  t_distance : F;
  t_radial_velocity : F;
  t_sigma : F;
  t_pos_dot_star_spin : F;
  t_pos_dot_planet_spin : F;
  t_orth_star : F;
  t_orth_planet : F;
  t_radial : F;
  t_radial_diss_point : F;
  t_shape : vec F;
  t_denergy_dt : F;
  t_lag_angle : F;
  t_acc : vec F;
  t_dL : vec F;
  t_pos : vec F;
  t_vel : vec F }.
Arguments Mk_tides {F}.
Arguments t_effect {F} _. Arguments t_distance {F} _. Arguments t_radial_velocity {F} _. Arguments t_sigma {F} _. Arguments t_pos_dot_star_spin {F} _. Arguments t_pos_dot_planet_spin {F} _. Arguments t_orth_star {F} _. Arguments t_orth_planet {F} _. Arguments t_radial {F} _. Arguments t_radial_diss_point {F} _. Arguments t_shape {F} _. Arguments t_denergy_dt {F} _. Arguments t_lag_angle {F} _. Arguments t_acc {F} _. Arguments t_dL {F} _. Arguments t_pos {F} _. Arguments t_vel {F} _.
Definition set_t_effect {F} (x : tides_effect F) (r : tides F) : tides F :=
  Mk_tides x (t_distance r) (t_radial_velocity r) (t_sigma r) (t_pos_dot_star_spin r) (t_pos_dot_planet_spin r) (t_orth_star r) (t_orth_planet r) (t_radial r) (t_radial_diss_point r) (t_shape r) (t_denergy_dt r) (t_lag_angle r) (t_acc r) (t_dL r) (t_pos r) (t_vel r).
Definition set_t_distance {F} (x : F) (r : tides F) : tides F :=
  Mk_tides (t_effect r) x (t_radial_velocity r) (t_sigma r) (t_pos_dot_star_spin r) (t_pos_dot_planet_spin r) (t_orth_star r) (t_orth_planet r) (t_radial r) (t_radial_diss_point r) (t_shape r) (t_denergy_dt r) (t_lag_angle r) (t_acc r) (t_dL r) (t_pos r) (t_vel r).
Definition set_t_radial_velocity {F} (x : F) (r : tides F) : tides F :=
  Mk_tides (t_effect r) (t_distance r) x (t_sigma r) (t_pos_dot_star_spin r) (t_pos_dot_planet_spin r) (t_orth_star r) (t_orth_planet r) (t_radial r) (t_radial_diss_point r) (t_shape r) (t_denergy_dt r) (t_lag_angle r) (t_acc r) (t_dL r) (t_pos r) (t_vel r).
Definition set_t_sigma {F} (x : F) (r : tides F) : tides F :=
  Mk_tides (t_effect r) (t_distance r) (t_radial_velocity r) x (t_pos_dot_star_spin r) (t_pos_dot_planet_spin r) (t_orth_star r) (t_orth_planet r) (t_radial r) (t_radial_diss_point r) (t_shape r) (t_denergy_dt r) (t_lag_angle r) (t_acc r) (t_dL r) (t_pos r) (t_vel r).
Definition set_t_pos_dot_star_spin {F} (x : F) (r : tides F) : tides F :=
  Mk_tides (t_effect r) (t_distance r) (t_radial_velocity r) (t_sigma r) x (t_pos_dot_planet_spin r) (t_orth_star r) (t_orth_planet r) (t_radial r) (t_radial_diss_point r) (t_shape r) (t_denergy_dt r) (t_lag_angle r) (t_acc r) (t_dL r) (t_pos r) (t_vel r).
Definition set_t_pos_dot_planet_spin {F} (x : F) (r : tides F) : tides F :=
  Mk_tides (t_effect r) (t_distance r) (t_radial_velocity r) (t_sigma r) (t_pos_dot_star_spin r) x (t_orth_star r) (t_orth_planet r) (t_radial r) (t_radial_diss_point r) (t_shape r) (t_denergy_dt r) (t_lag_angle r) (t_acc r) (t_dL r) (t_pos r) (t_vel r).
Definition set_t_orth_star {F} (x : F) (r : tides F) : tides F :=
  Mk_tides (t_effect r) (t_distance r) (t_radial_velocity r) (t_sigma r) (t_pos_dot_star_spin r) (t_pos_dot_planet_spin r) x (t_orth_planet r) (t_radial r) (t_radial_diss_point r) (t_shape r) (t_denergy_dt r) (t_lag_angle r) (t_acc r) (t_dL r) (t_pos r) (t_vel r).
Definition set_t_orth_planet {F} (x : F) (r : tides F) : tides F :=
  Mk_tides (t_effect r) (t_distance r) (t_radial_velocity r) (t_sigma r) (t_pos_dot_star_spin r) (t_pos_dot_planet_spin r) (t_orth_star r) x (t_radial r) (t_radial_diss_point r) (t_shape r) (t_denergy_dt r) (t_lag_angle r) (t_acc r) (t_dL r) (t_pos r) (t_vel r).
Definition set_t_radial {F} (x : F) (r : tides F) : tides F :=
  Mk_tides (t_effect r) (t_distance r) (t_radial_velocity r) (t_sigma r) (t_pos_dot_star_spin r) (t_pos_dot_planet_spin r) (t_orth_star r) (t_orth_planet r) x (t_radial_diss_point r) (t_shape r) (t_denergy_dt r) (t_lag_angle r) (t_acc r) (t_dL r) (t_pos r) (t_vel r).
Definition set_t_radial_diss_point {F} (x : F) (r : tides F) : tides F :=
  Mk_tides (t_effect r) (t_distance r) (t_radial_velocity r) (t_sigma r) (t_pos_dot_star_spin r) (t_pos_dot_planet_spin r) (t_orth_star r) (t_orth_planet r) (t_radial r) x (t_shape r) (t_denergy_dt r) (t_lag_angle r) (t_acc r) (t_dL r) (t_pos r) (t_vel r).
Definition set_t_shape {F} (x : vec F) (r : tides F) : tides F :=
  Mk_tides (t_effect r) (t_distance r) (t_radial_velocity r) (t_sigma r) (t_pos_dot_star_spin r) (t_pos_dot_planet_spin r) (t_orth_star r) (t_orth_planet r) (t_radial r) (t_radial_diss_point r) x (t_denergy_dt r) (t_lag_angle r) (t_acc r) (t_dL r) (t_pos r) (t_vel r).
Definition set_t_denergy_dt {F} (x : F) (r : tides F) : tides F :=
  Mk_tides (t_effect r) (t_distance r) (t_radial_velocity r) (t_sigma r) (t_pos_dot_star_spin r) (t_pos_dot_planet_spin r) (t_orth_star r) (t_orth_planet r) (t_radial r) (t_radial_diss_point r) (t_shape r) x (t_lag_angle r) (t_acc r) (t_dL r) (t_pos r) (t_vel r).
Definition set_t_lag_angle {F} (x : F) (r : tides F) : tides F :=
  Mk_tides (t_effect r) (t_distance r) (t_radial_velocity r) (t_sigma r) (t_pos_dot_star_spin r) (t_pos_dot_planet_spin r) (t_orth_star r) (t_orth_planet r) (t_radial r) (t_radial_diss_point r) (t_shape r) (t_denergy_dt r) x (t_acc r) (t_dL r) (t_pos r) (t_vel r).
Definition set_t_acc {F} (x : vec F) (r : tides F) : tides F :=
  Mk_tides (t_effect r) (t_distance r) (t_radial_velocity r) (t_sigma r) (t_pos_dot_star_spin r) (t_pos_dot_planet_spin r) (t_orth_star r) (t_orth_planet r) (t_radial r) (t_radial_diss_point r) (t_shape r) (t_denergy_dt r) (t_lag_angle r) x (t_dL r) (t_pos r) (t_vel r).
Definition set_t_dL {F} (x : vec F) (r : tides F) : tides F :=
  Mk_tides (t_effect r) (t_distance r) (t_radial_velocity r) (t_sigma r) (t_pos_dot_star_spin r) (t_pos_dot_planet_spin r) (t_orth_star r) (t_orth_planet r) (t_radial r) (t_radial_diss_point r) (t_shape r) (t_denergy_dt r) (t_lag_angle r) (t_acc r) x (t_pos r) (t_vel r).
Definition set_t_pos {F} (x : vec F) (r : tides F) : tides F :=
  Mk_tides (t_effect r) (t_distance r) (t_radial_velocity r) (t_sigma r) (t_pos_dot_star_spin r) (t_pos_dot_planet_spin r) (t_orth_star r) (t_orth_planet r) (t_radial r) (t_radial_diss_point r) (t_shape r) (t_denergy_dt r) (t_lag_angle r) (t_acc r) (t_dL r) x (t_vel r).
Definition set_t_vel {F} (x : vec F) (r : tides F) : tides F :=
  Mk_tides (t_effect r) (t_distance r) (t_radial_velocity r) (t_sigma r) (t_pos_dot_star_spin r) (t_pos_dot_planet_spin r) (t_orth_star r) (t_orth_planet r) (t_radial r) (t_radial_diss_point r) (t_shape r) (t_denergy_dt r) (t_lag_angle r) (t_acc r) (t_dL r) (t_pos r) x.

(** src/effects/rotational_flattening/common.rs:8-62 [RotationalFlattening], flattened in the same way *)
Record flattening (F : Type) := Mk_flattening {
  rf_effect : rf_effect_t F;
  rf_distance : F;
  rf_pos_dot_star_spin : F;
  rf_pos_dot_planet_spin : F;
  rf_radial : F;
  rf_factor_star : F;
  rf_factor_planet : F;
  rf_orth_star : F;
  rf_orth_planet : F;
  rf_shape : vec F;
  rf_acc : vec F;
  rf_dL : vec F;
  rf_pos : vec F;
  rf_vel : vec F }.
Arguments Mk_flattening {F}.
Arguments rf_effect {F} _. Arguments rf_distance {F} _. Arguments rf_pos_dot_star_spin {F} _. Arguments rf_pos_dot_planet_spin {F} _. Arguments rf_radial {F} _. Arguments rf_factor_star {F} _. Arguments rf_factor_planet {F} _. Arguments rf_orth_star {F} _. Arguments rf_orth_planet {F} _. Arguments rf_shape {F} _. Arguments rf_acc {F} _. Arguments rf_dL {F} _. Arguments rf_pos {F} _. Arguments rf_vel {F} _.
Definition set_rf_effect {F} (x : rf_effect_t F) (r : flattening F) : flattening F :=
  Mk_flattening x (rf_distance r) (rf_pos_dot_star_spin r) (rf_pos_dot_planet_spin r) (rf_radial r) (rf_factor_star r) (rf_factor_planet r) (rf_orth_star r) (rf_orth_planet r) (rf_shape r) (rf_acc r) (rf_dL r) (rf_pos r) (rf_vel r).
Definition set_rf_distance {F} (x : F) (r : flattening F) : flattening F :=
  Mk_flattening (rf_effect r) x (rf_pos_dot_star_spin r) (rf_pos_dot_planet_spin r) (rf_radial r) (rf_factor_star r) (rf_factor_planet r) (rf_orth_star r) (rf_orth_planet r) (rf_shape r) (rf_acc r) (rf_dL r) (rf_pos r) (rf_vel r).
Definition set_rf_pos_dot_star_spin {F} (x : F) (r : flattening F) : flattening F :=
  Mk_flattening (rf_effect r) (rf_distance r) x (rf_pos_dot_planet_spin r) (rf_radial r) (rf_factor_star r) (rf_factor_planet r) (rf_orth_star r) (rf_orth_planet r) (rf_shape r) (rf_acc r) (rf_dL r) (rf_pos r) (rf_vel r).
Definition set_rf_pos_dot_planet_spin {F} (x : F) (r : flattening F) : flattening F :=
  Mk_flattening (rf_effect r) (rf_distance r) (rf_pos_dot_star_spin r) x (rf_radial r) (rf_factor_star r) (rf_factor_planet r) (rf_orth_star r) (rf_orth_planet r) (rf_shape r) (rf_acc r) (rf_dL r) (rf_pos r) (rf_vel r).
Definition set_rf_radial {F} (x : F) (r : flattening F) : flattening F :=
  Mk_flattening (rf_effect r) (rf_distance r) (rf_pos_dot_star_spin r) (rf_pos_dot_planet_spin r) x (rf_factor_star r) (rf_factor_planet r) (rf_orth_star r) (rf_orth_planet r) (rf_shape r) (rf_acc r) (rf_dL r) (rf_pos r) (rf_vel r).
Definition set_rf_factor_star {F} (x : F) (r : flattening F) : flattening F :=
  Mk_flattening (rf_effect r) (rf_distance r) (rf_pos_dot_star_spin r) (rf_pos_dot_planet_spin r) (rf_radial r) x (rf_factor_planet r) (rf_orth_star r) (rf_orth_planet r) (rf_shape r) (rf_acc r) (rf_dL r) (rf_pos r) (rf_vel r).
Definition set_rf_factor_planet {F} (x : F) (r : flattening F) : flattening F :=
  Mk_flattening (rf_effect r) (rf_distance r) (rf_pos_dot_star_spin r) (rf_pos_dot_planet_spin r) (rf_radial r) (rf_factor_star r) x (rf_orth_star r) (rf_orth_planet r) (rf_shape r) (rf_acc r) (rf_dL r) (rf_pos r) (rf_vel r).
Definition set_rf_orth_star {F} (x : F) (r : flattening F) : flattening F :=
  Mk_flattening (rf_effect r) (rf_distance r) (rf_pos_dot_star_spin r) (rf_pos_dot_planet_spin r) (rf_radial r) (rf_factor_star r) (rf_factor_planet r) x (rf_orth_planet r) (rf_shape r) (rf_acc r) (rf_dL r) (rf_pos r) (rf_vel r).
Definition set_rf_orth_planet {F} (x : F) (r : flattening F) : flattening F :=
  Mk_flattening (rf_effect r) (rf_distance r) (rf_pos_dot_star_spin r) (rf_pos_dot_planet_spin r) (rf_radial r) (rf_factor_star r) (rf_factor_planet r) (rf_orth_star r) x (rf_shape r) (rf_acc r) (rf_dL r) (rf_pos r) (rf_vel r).
Definition set_rf_shape {F} (x : vec F) (r : flattening F) : flattening F :=
  Mk_flattening (rf_effect r) (rf_distance r) (rf_pos_dot_star_spin r) (rf_pos_dot_planet_spin r) (rf_radial r) (rf_factor_star r) (rf_factor_planet r) (rf_orth_star r) (rf_orth_planet r) x (rf_acc r) (rf_dL r) (rf_pos r) (rf_vel r).
Definition set_rf_acc {F} (x : vec F) (r : flattening F) : flattening F :=
  Mk_flattening (rf_effect r) (rf_distance r) (rf_pos_dot_star_spin r) (rf_pos_dot_planet_spin r) (rf_radial r) (rf_factor_star r) (rf_factor_planet r) (rf_orth_star r) (rf_orth_planet r) (rf_shape r) x (rf_dL r) (rf_pos r) (rf_vel r).
Definition set_rf_dL {F} (x : vec F) (r : flattening F) : flattening F :=
  Mk_flattening (rf_effect r) (rf_distance r) (rf_pos_dot_star_spin r) (rf_pos_dot_planet_spin r) (rf_radial r) (rf_factor_star r) (rf_factor_planet r) (rf_orth_star r) (rf_orth_planet r) (rf_shape r) (rf_acc r) x (rf_pos r) (rf_vel r).
Definition set_rf_pos {F} (x : vec F) (r : flattening F) : flattening F :=
  Mk_flattening (rf_effect r) (rf_distance r) (rf_pos_dot_star_spin r) (rf_pos_dot_planet_spin r) (rf_radial r) (rf_factor_star r) (rf_factor_planet r) (rf_orth_star r) (rf_orth_planet r) (rf_shape r) (rf_acc r) (rf_dL r) x (rf_vel r).
Definition set_rf_vel {F} (x : vec F) (r : flattening F) : flattening F :=
  Mk_flattening (rf_effect r) (rf_distance r) (rf_pos_dot_star_spin r) (rf_pos_dot_planet_spin r) (rf_radial r) (rf_factor_star r) (rf_factor_planet r) (rf_orth_star r) (rf_orth_planet r) (rf_shape r) (rf_acc r) (rf_dL r) (rf_pos r) x.

(** src/effects/general_relativity.rs:10-59 [GeneralRelativity], flattened *)
Record relativity (F : Type) := Mk_relativity {
  gr_effect : gr_effect_t;
  gr_distance : F;
  gr_radial_velocity : F;
  gr_norm_vel : F;
  gr_norm_vel2 : F;
  gr_factor : F;
  gr_acc : vec F;
  gr_dL : vec F;
  gr_pos : vec F;
  gr_vel : vec F }.
Arguments Mk_relativity {F}.
Arguments gr_effect {F} _. Arguments gr_distance {F} _. Arguments gr_radial_velocity {F} _. Arguments gr_norm_vel {F} _. Arguments gr_norm_vel2 {F} _. Arguments gr_factor {F} _. Arguments gr_acc {F} _. Arguments gr_dL {F} _. Arguments gr_pos {F} _. Arguments gr_vel {F} _.
Definition set_gr_effect {F} (x : gr_effect_t) (r : relativity F) : relativity F :=
  Mk_relativity x (gr_distance r) (gr_radial_velocity r) (gr_norm_vel r) (gr_norm_vel2 r) (gr_factor r) (gr_acc r) (gr_dL r) (gr_pos r) (gr_vel r).
Definition set_gr_distance {F} (x : F) (r : relativity F) : relativity F :=
  Mk_relativity (gr_effect r) x (gr_radial_velocity r) (gr_norm_vel r) (gr_norm_vel2 r) (gr_factor r) (gr_acc r) (gr_dL r) (gr_pos r) (gr_vel r).
Definition set_gr_radial_velocity {F} (x : F) (r : relativity F) : relativity F :=
  Mk_relativity (gr_effect r) (gr_distance r) x (gr_norm_vel r) (gr_norm_vel2 r) (gr_factor r) (gr_acc r) (gr_dL r) (gr_pos r) (gr_vel r).
Definition set_gr_norm_vel {F} (x : F) (r : relativity F) : relativity F :=
  Mk_relativity (gr_effect r) (gr_distance r) (gr_radial_velocity r) x (gr_norm_vel2 r) (gr_factor r) (gr_acc r) (gr_dL r) (gr_pos r) (gr_vel r).
Definition set_gr_norm_vel2 {F} (x : F) (r : relativity F) : relativity F :=
  Mk_relativity (gr_effect r) (gr_distance r) (gr_radial_velocity r) (gr_norm_vel r) x (gr_factor r) (gr_acc r) (gr_dL r) (gr_pos r) (gr_vel r).
Definition set_gr_factor {F} (x : F) (r : relativity F) : relativity F :=
  Mk_relativity (gr_effect r) (gr_distance r) (gr_radial_velocity r) (gr_norm_vel r) (gr_norm_vel2 r) x (gr_acc r) (gr_dL r) (gr_pos r) (gr_vel r).
Definition set_gr_acc {F} (x : vec F) (r : relativity F) : relativity F :=
  Mk_relativity (gr_effect r) (gr_distance r) (gr_radial_velocity r) (gr_norm_vel r) (gr_norm_vel2 r) (gr_factor r) x (gr_dL r) (gr_pos r) (gr_vel r).
Definition set_gr_dL {F} (x : vec F) (r : relativity F) : relativity F :=
  Mk_relativity (gr_effect r) (gr_distance r) (gr_radial_velocity r) (gr_norm_vel r) (gr_norm_vel2 r) (gr_factor r) (gr_acc r) x (gr_pos r) (gr_vel r).
Definition set_gr_pos {F} (x : vec F) (r : relativity F) : relativity F :=
  Mk_relativity (gr_effect r) (gr_distance r) (gr_radial_velocity r) (gr_norm_vel r) (gr_norm_vel2 r) (gr_factor r) (gr_acc r) (gr_dL r) x (gr_vel r).
Definition set_gr_vel {F} (x : vec F) (r : relativity F) : relativity F :=
  Mk_relativity (gr_effect r) (gr_distance r) (gr_radial_velocity r) (gr_norm_vel r) (gr_norm_vel2 r) (gr_factor r) (gr_acc r) (gr_dL r) (gr_pos r) x.

(** src/effects/wind.rs:6-39 [Wind], flattened *)
Record windp (F : Type) := Mk_windp {
  w_on : bool;
  w_k_factor : F;
  w_saturation : F;
  w_saturation2 : F;
  w_dL : vec F }.
Arguments Mk_windp {F}.
Arguments w_on {F} _. Arguments w_k_factor {F} _. Arguments w_saturation {F} _. Arguments w_saturation2 {F} _. Arguments w_dL {F} _.
Definition set_w_on {F} (x : bool) (r : windp F) : windp F :=
  Mk_windp x (w_k_factor r) (w_saturation r) (w_saturation2 r) (w_dL r).
Definition set_w_k_factor {F} (x : F) (r : windp F) : windp F :=
  Mk_windp (w_on r) x (w_saturation r) (w_saturation2 r) (w_dL r).
Definition set_w_saturation {F} (x : F) (r : windp F) : windp F :=
  Mk_windp (w_on r) (w_k_factor r) x (w_saturation2 r) (w_dL r).
Definition set_w_saturation2 {F} (x : F) (r : windp F) : windp F :=
  Mk_windp (w_on r) (w_k_factor r) (w_saturation r) x (w_dL r).
Definition set_w_dL {F} (x : vec F) (r : windp F) : windp F :=
  Mk_windp (w_on r) (w_k_factor r) (w_saturation r) (w_saturation2 r) x.

(** src/effects/disk.rs:17-56 [Disk], flattened *)
Record diskp (F : Type) := Mk_diskp {
  dk_effect : disk_effect_t F;
  dk_distance : F;
  dk_norm_vel : F;
  dk_norm_vel2 : F;
  dk_timescale : F;
  dk_acc : vec F;
  dk_pos : vec F;
  dk_vel : vec F }.
Arguments Mk_diskp {F}.
Arguments dk_effect {F} _. Arguments dk_distance {F} _. Arguments dk_norm_vel {F} _. Arguments dk_norm_vel2 {F} _. Arguments dk_timescale {F} _. Arguments dk_acc {F} _. Arguments dk_pos {F} _. Arguments dk_vel {F} _.
Definition set_dk_effect {F} (x : disk_effect_t F) (r : diskp F) : diskp F :=
  Mk_diskp x (dk_distance r) (dk_norm_vel r) (dk_norm_vel2 r) (dk_timescale r) (dk_acc r) (dk_pos r) (dk_vel r).
Definition set_dk_distance {F} (x : F) (r : diskp F) : diskp F :=
  Mk_diskp (dk_effect r) x (dk_norm_vel r) (dk_norm_vel2 r) (dk_timescale r) (dk_acc r) (dk_pos r) (dk_vel r).
Definition set_dk_norm_vel {F} (x : F) (r : diskp F) : diskp F :=
  Mk_diskp (dk_effect r) (dk_distance r) x (dk_norm_vel2 r) (dk_timescale r) (dk_acc r) (dk_pos r) (dk_vel r).
Definition set_dk_norm_vel2 {F} (x : F) (r : diskp F) : diskp F :=
  Mk_diskp (dk_effect r) (dk_distance r) (dk_norm_vel r) x (dk_timescale r) (dk_acc r) (dk_pos r) (dk_vel r).
Definition set_dk_timescale {F} (x : F) (r : diskp F) : diskp F :=
  Mk_diskp (dk_effect r) (dk_distance r) (dk_norm_vel r) (dk_norm_vel2 r) x (dk_acc r) (dk_pos r) (dk_vel r).
Definition set_dk_acc {F} (x : vec F) (r : diskp F) : diskp F :=
  Mk_diskp (dk_effect r) (dk_distance r) (dk_norm_vel r) (dk_norm_vel2 r) (dk_timescale r) x (dk_pos r) (dk_vel r).
Definition set_dk_pos {F} (x : vec F) (r : diskp F) : diskp F :=
  Mk_diskp (dk_effect r) (dk_distance r) (dk_norm_vel r) (dk_norm_vel2 r) (dk_timescale r) (dk_acc r) x (dk_vel r).
Definition set_dk_vel {F} (x : vec F) (r : diskp F) : diskp F :=
  Mk_diskp (dk_effect r) (dk_distance r) (dk_norm_vel r) (dk_norm_vel2 r) (dk_timescale r) (dk_acc r) (dk_pos r) x.

(** src/particles/particle.rs:15-56 [Particle] (without [reference], which only the history writer reads) *)
Record particle (F : Type) := Mk_particle {
  p_id : nat;
  p_mass : F;
  p_mass_g : F;
  p_radius : F;
  p_ipos : vec F;
  p_ivel : vec F;
  p_iacc : vec F;
  p_iadd : vec F;
  p_hpos : vec F;
  p_hvel : vec F;
  p_hdist : F;
  p_hradvel : F;
  p_hnorm : F;
  p_hnorm2 : F;
  p_spin : vec F;
  p_spin2 : F;
  p_L : vec F;
  p_dL : vec F;
  p_rg2 : F;
  p_inertia : F;
  p_tides : tides F;
  p_rf : flattening F;
  p_gr : relativity F;
  p_wind : windp F;
  p_disk : diskp F;
  p_evo : evolution F }.
Arguments Mk_particle {F}.
Arguments p_id {F} _. Arguments p_mass {F} _. Arguments p_mass_g {F} _. Arguments p_radius {F} _. Arguments p_ipos {F} _. Arguments p_ivel {F} _. Arguments p_iacc {F} _. Arguments p_iadd {F} _. Arguments p_hpos {F} _. Arguments p_hvel {F} _. Arguments p_hdist {F} _. Arguments p_hradvel {F} _. Arguments p_hnorm {F} _. Arguments p_hnorm2 {F} _. Arguments p_spin {F} _. Arguments p_spin2 {F} _. Arguments p_L {F} _. Arguments p_dL {F} _. Arguments p_rg2 {F} _. Arguments p_inertia {F} _. Arguments p_tides {F} _. Arguments p_rf {F} _. Arguments p_gr {F} _. Arguments p_wind {F} _. Arguments p_disk {F} _. Arguments p_evo {F} _.
Definition set_p_id {F} (x : nat) (r : particle F) : particle F :=
  Mk_particle x (p_mass r) (p_mass_g r) (p_radius r) (p_ipos r) (p_ivel r) (p_iacc r) (p_iadd r) (p_hpos r) (p_hvel r) (p_hdist r) (p_hradvel r) (p_hnorm r) (p_hnorm2 r) (p_spin r) (p_spin2 r) (p_L r) (p_dL r) (p_rg2 r) (p_inertia r) (p_tides r) (p_rf r) (p_gr r) (p_wind r) (p_disk r) (p_evo r).
Definition set_p_mass {F} (x : F) (r : particle F) : particle F :=
  Mk_particle (p_id r) x (p_mass_g r) (p_radius r) (p_ipos r) (p_ivel r) (p_iacc r) (p_iadd r) (p_hpos r) (p_hvel r) (p_hdist r) (p_hradvel r) (p_hnorm r) (p_hnorm2 r) (p_spin r) (p_spin2 r) (p_L r) (p_dL r) (p_rg2 r) (p_inertia r) (p_tides r) (p_rf r) (p_gr r) (p_wind r) (p_disk r) (p_evo r).
Definition set_p_mass_g {F} (x : F) (r : particle F) : particle F :=
  Mk_particle (p_id r) (p_mass r) x (p_radius r) (p_ipos r) (p_ivel r) (p_iacc r) (p_iadd r) (p_hpos r) (p_hvel r) (p_hdist r) (p_hradvel r) (p_hnorm r) (p_hnorm2 r) (p_spin r) (p_spin2 r) (p_L r) (p_dL r) (p_rg2 r) (p_inertia r) (p_tides r) (p_rf r) (p_gr r) (p_wind r) (p_disk r) (p_evo r).
Definition set_p_radius {F} (x : F) (r : particle F) : particle F :=
  Mk_particle (p_id r) (p_mass r) (p_mass_g r) x (p_ipos r) (p_ivel r) (p_iacc r) (p_iadd r) (p_hpos r) (p_hvel r) (p_hdist r) (p_hradvel r) (p_hnorm r) (p_hnorm2 r) (p_spin r) (p_spin2 r) (p_L r) (p_dL r) (p_rg2 r) (p_inertia r) (p_tides r) (p_rf r) (p_gr r) (p_wind r) (p_disk r) (p_evo r).
Definition set_p_ipos {F} (x : vec F) (r : particle F) : particle F :=
  Mk_particle (p_id r) (p_mass r) (p_mass_g r) (p_radius r) x (p_ivel r) (p_iacc r) (p_iadd r) (p_hpos r) (p_hvel r) (p_hdist r) (p_hradvel r) (p_hnorm r) (p_hnorm2 r) (p_spin r) (p_spin2 r) (p_L r) (p_dL r) (p_rg2 r) (p_inertia r) (p_tides r) (p_rf r) (p_gr r) (p_wind r) (p_disk r) (p_evo r).
Definition set_p_ivel {F} (x : vec F) (r : particle F) : particle F :=
  Mk_particle (p_id r) (p_mass r) (p_mass_g r) (p_radius r) (p_ipos r) x (p_iacc r) (p_iadd r) (p_hpos r) (p_hvel r) (p_hdist r) (p_hradvel r) (p_hnorm r) (p_hnorm2 r) (p_spin r) (p_spin2 r) (p_L r) (p_dL r) (p_rg2 r) (p_inertia r) (p_tides r) (p_rf r) (p_gr r) (p_wind r) (p_disk r) (p_evo r).
Definition set_p_iacc {F} (x : vec F) (r : particle F) : particle F :=
  Mk_particle (p_id r) (p_mass r) (p_mass_g r) (p_radius r) (p_ipos r) (p_ivel r) x (p_iadd r) (p_hpos r) (p_hvel r) (p_hdist r) (p_hradvel r) (p_hnorm r) (p_hnorm2 r) (p_spin r) (p_spin2 r) (p_L r) (p_dL r) (p_rg2 r) (p_inertia r) (p_tides r) (p_rf r) (p_gr r) (p_wind r) (p_disk r) (p_evo r).
Definition set_p_iadd {F} (x : vec F) (r : particle F) : particle F :=
  Mk_particle (p_id r) (p_mass r) (p_mass_g r) (p_radius r) (p_ipos r) (p_ivel r) (p_iacc r) x (p_hpos r) (p_hvel r) (p_hdist r) (p_hradvel r) (p_hnorm r) (p_hnorm2 r) (p_spin r) (p_spin2 r) (p_L r) (p_dL r) (p_rg2 r) (p_inertia r) (p_tides r) (p_rf r) (p_gr r) (p_wind r) (p_disk r) (p_evo r).
Definition set_p_hpos {F} (x : vec F) (r : particle F) : particle F :=
  Mk_particle (p_id r) (p_mass r) (p_mass_g r) (p_radius r) (p_ipos r) (p_ivel r) (p_iacc r) (p_iadd r) x (p_hvel r) (p_hdist r) (p_hradvel r) (p_hnorm r) (p_hnorm2 r) (p_spin r) (p_spin2 r) (p_L r) (p_dL r) (p_rg2 r) (p_inertia r) (p_tides r) (p_rf r) (p_gr r) (p_wind r) (p_disk r) (p_evo r).
Definition set_p_hvel {F} (x : vec F) (r : particle F) : particle F :=
  Mk_particle (p_id r) (p_mass r) (p_mass_g r) (p_radius r) (p_ipos r) (p_ivel r) (p_iacc r) (p_iadd r) (p_hpos r) x (p_hdist r) (p_hradvel r) (p_hnorm r) (p_hnorm2 r) (p_spin r) (p_spin2 r) (p_L r) (p_dL r) (p_rg2 r) (p_inertia r) (p_tides r) (p_rf r) (p_gr r) (p_wind r) (p_disk r) (p_evo r).
Definition set_p_hdist {F} (x : F) (r : particle F) : particle F :=
  Mk_particle (p_id r) (p_mass r) (p_mass_g r) (p_radius r) (p_ipos r) (p_ivel r) (p_iacc r) (p_iadd r) (p_hpos r) (p_hvel r) x (p_hradvel r) (p_hnorm r) (p_hnorm2 r) (p_spin r) (p_spin2 r) (p_L r) (p_dL r) (p_rg2 r) (p_inertia r) (p_tides r) (p_rf r) (p_gr r) (p_wind r) (p_disk r) (p_evo r).
Definition set_p_hradvel {F} (x : F) (r : particle F) : particle F :=
  Mk_particle (p_id r) (p_mass r) (p_mass_g r) (p_radius r) (p_ipos r) (p_ivel r) (p_iacc r) (p_iadd r) (p_hpos r) (p_hvel r) (p_hdist r) x (p_hnorm r) (p_hnorm2 r) (p_spin r) (p_spin2 r) (p_L r) (p_dL r) (p_rg2 r) (p_inertia r) (p_tides r) (p_rf r) (p_gr r) (p_wind r) (p_disk r) (p_evo r).
Definition set_p_hnorm {F} (x : F) (r : particle F) : particle F :=
  Mk_particle (p_id r) (p_mass r) (p_mass_g r) (p_radius r) (p_ipos r) (p_ivel r) (p_iacc r) (p_iadd r) (p_hpos r) (p_hvel r) (p_hdist r) (p_hradvel r) x (p_hnorm2 r) (p_spin r) (p_spin2 r) (p_L r) (p_dL r) (p_rg2 r) (p_inertia r) (p_tides r) (p_rf r) (p_gr r) (p_wind r) (p_disk r) (p_evo r).
Definition set_p_hnorm2 {F} (x : F) (r : particle F) : particle F :=
  Mk_particle (p_id r) (p_mass r) (p_mass_g r) (p_radius r) (p_ipos r) (p_ivel r) (p_iacc r) (p_iadd r) (p_hpos r) (p_hvel r) (p_hdist r) (p_hradvel r) (p_hnorm r) x (p_spin r) (p_spin2 r) (p_L r) (p_dL r) (p_rg2 r) (p_inertia r) (p_tides r) (p_rf r) (p_gr r) (p_wind r) (p_disk r) (p_evo r).
Definition set_p_spin {F} (x : vec F) (r : particle F) : particle F :=
  Mk_particle (p_id r) (p_mass r) (p_mass_g r) (p_radius r) (p_ipos r) (p_ivel r) (p_iacc r) (p_iadd r) (p_hpos r) (p_hvel r) (p_hdist r) (p_hradvel r) (p_hnorm r) (p_hnorm2 r) x (p_spin2 r) (p_L r) (p_dL r) (p_rg2 r) (p_inertia r) (p_tides r) (p_rf r) (p_gr r) (p_wind r) (p_disk r) (p_evo r).
Definition set_p_spin2 {F} (x : F) (r : particle F) : particle F :=
  Mk_particle (p_id r) (p_mass r) (p_mass_g r) (p_radius r) (p_ipos r) (p_ivel r) (p_iacc r) (p_iadd r) (p_hpos r) (p_hvel r) (p_hdist r) (p_hradvel r) (p_hnorm r) (p_hnorm2 r) (p_spin r) x (p_L r) (p_dL r) (p_rg2 r) (p_inertia r) (p_tides r) (p_rf r) (p_gr r) (p_wind r) (p_disk r) (p_evo r).
Definition set_p_L {F} (x : vec F) (r : particle F) : particle F :=
  Mk_particle (p_id r) (p_mass r) (p_mass_g r) (p_radius r) (p_ipos r) (p_ivel r) (p_iacc r) (p_iadd r) (p_hpos r) (p_hvel r) (p_hdist r) (p_hradvel r) (p_hnorm r) (p_hnorm2 r) (p_spin r) (p_spin2 r) x (p_dL r) (p_rg2 r) (p_inertia r) (p_tides r) (p_rf r) (p_gr r) (p_wind r) (p_disk r) (p_evo r).
Definition set_p_dL {F} (x : vec F) (r : particle F) : particle F :=
  Mk_particle (p_id r) (p_mass r) (p_mass_g r) (p_radius r) (p_ipos r) (p_ivel r) (p_iacc r) (p_iadd r) (p_hpos r) (p_hvel r) (p_hdist r) (p_hradvel r) (p_hnorm r) (p_hnorm2 r) (p_spin r) (p_spin2 r) (p_L r) x (p_rg2 r) (p_inertia r) (p_tides r) (p_rf r) (p_gr r) (p_wind r) (p_disk r) (p_evo r).
Definition set_p_rg2 {F} (x : F) (r : particle F) : particle F :=
  Mk_particle (p_id r) (p_mass r) (p_mass_g r) (p_radius r) (p_ipos r) (p_ivel r) (p_iacc r) (p_iadd r) (p_hpos r) (p_hvel r) (p_hdist r) (p_hradvel r) (p_hnorm r) (p_hnorm2 r) (p_spin r) (p_spin2 r) (p_L r) (p_dL r) x (p_inertia r) (p_tides r) (p_rf r) (p_gr r) (p_wind r) (p_disk r) (p_evo r).
Definition set_p_inertia {F} (x : F) (r : particle F) : particle F :=
  Mk_particle (p_id r) (p_mass r) (p_mass_g r) (p_radius r) (p_ipos r) (p_ivel r) (p_iacc r) (p_iadd r) (p_hpos r) (p_hvel r) (p_hdist r) (p_hradvel r) (p_hnorm r) (p_hnorm2 r) (p_spin r) (p_spin2 r) (p_L r) (p_dL r) (p_rg2 r) x (p_tides r) (p_rf r) (p_gr r) (p_wind r) (p_disk r) (p_evo r).
Definition set_p_tides {F} (x : tides F) (r : particle F) : particle F :=
  Mk_particle (p_id r) (p_mass r) (p_mass_g r) (p_radius r) (p_ipos r) (p_ivel r) (p_iacc r) (p_iadd r) (p_hpos r) (p_hvel r) (p_hdist r) (p_hradvel r) (p_hnorm r) (p_hnorm2 r) (p_spin r) (p_spin2 r) (p_L r) (p_dL r) (p_rg2 r) (p_inertia r) x (p_rf r) (p_gr r) (p_wind r) (p_disk r) (p_evo r).
Definition set_p_rf {F} (x : flattening F) (r : particle F) : particle F :=
  Mk_particle (p_id r) (p_mass r) (p_mass_g r) (p_radius r) (p_ipos r) (p_ivel r) (p_iacc r) (p_iadd r) (p_hpos r) (p_hvel r) (p_hdist r) (p_hradvel r) (p_hnorm r) (p_hnorm2 r) (p_spin r) (p_spin2 r) (p_L r) (p_dL r) (p_rg2 r) (p_inertia r) (p_tides r) x (p_gr r) (p_wind r) (p_disk r) (p_evo r).
Definition set_p_gr {F} (x : relativity F) (r : particle F) : particle F :=
  Mk_particle (p_id r) (p_mass r) (p_mass_g r) (p_radius r) (p_ipos r) (p_ivel r) (p_iacc r) (p_iadd r) (p_hpos r) (p_hvel r) (p_hdist r) (p_hradvel r) (p_hnorm r) (p_hnorm2 r) (p_spin r) (p_spin2 r) (p_L r) (p_dL r) (p_rg2 r) (p_inertia r) (p_tides r) (p_rf r) x (p_wind r) (p_disk r) (p_evo r).
Definition set_p_wind {F} (x : windp F) (r : particle F) : particle F :=
  Mk_particle (p_id r) (p_mass r) (p_mass_g r) (p_radius r) (p_ipos r) (p_ivel r) (p_iacc r) (p_iadd r) (p_hpos r) (p_hvel r) (p_hdist r) (p_hradvel r) (p_hnorm r) (p_hnorm2 r) (p_spin r) (p_spin2 r) (p_L r) (p_dL r) (p_rg2 r) (p_inertia r) (p_tides r) (p_rf r) (p_gr r) x (p_disk r) (p_evo r).
Definition set_p_disk {F} (x : diskp F) (r : particle F) : particle F :=
  Mk_particle (p_id r) (p_mass r) (p_mass_g r) (p_radius r) (p_ipos r) (p_ivel r) (p_iacc r) (p_iadd r) (p_hpos r) (p_hvel r) (p_hdist r) (p_hradvel r) (p_hnorm r) (p_hnorm2 r) (p_spin r) (p_spin2 r) (p_L r) (p_dL r) (p_rg2 r) (p_inertia r) (p_tides r) (p_rf r) (p_gr r) (p_wind r) x (p_evo r).
Definition set_p_evo {F} (x : evolution F) (r : particle F) : particle F :=
  Mk_particle (p_id r) (p_mass r) (p_mass_g r) (p_radius r) (p_ipos r) (p_ivel r) (p_iacc r) (p_iadd r) (p_hpos r) (p_hvel r) (p_hdist r) (p_hradvel r) (p_hnorm r) (p_hnorm2 r) (p_spin r) (p_spin2 r) (p_L r) (p_dL r) (p_rg2 r) (p_inertia r) (p_tides r) (p_rf r) (p_gr r) (p_wind r) (p_disk r) x.


(** ** Constructors *)
Section New.
  Context {F : Type} `{Num F}.
  Local Open Scope num_scope.

  (** src/effects/tides/common.rs:101-142 [Tides::new] *)
  Definition new_tides (e : tides_effect F) : tides F :=
    let sigma := match e with
                 | TidesCentral (ConstantTimeLag q) | TidesOrbiting (ConstantTimeLag q) =>
                     ctl_scale q * ctl_dissipation q
                 | _ => n0 end in
    Mk_tides e n0 n0 sigma n0 n0 n0 n0 n0 n0 vzero n0 n0 vzero vzero vzero vzero.
  (** src/effects/rotational_flattening/common.rs:64-91 [RotationalFlattening::new] *)
  Definition new_flattening (e : rf_effect_t F) : flattening F :=
    Mk_flattening e n0 n0 n0 n0 n0 n0 n0 n0 vzero vzero vzero vzero vzero.
  (** src/effects/general_relativity.rs:61-85 [GeneralRelativity::new] *)
  Definition new_relativity (e : gr_effect_t) : relativity F :=
    Mk_relativity e n0 n0 n0 n0 n0 vzero vzero vzero vzero.
  (** src/effects/wind.rs:42-59 [Wind::new] *)
  Definition new_wind (on : bool) (k sat : F) : windp F := Mk_windp on k sat (npow sat 2) vzero.
  (** src/effects/disk.rs:58-80 [Disk::new] *)
  Definition new_disk (e : disk_effect_t F) : diskp F :=
    Mk_diskp e n0 n0 n0 n0 vzero vzero vzero.

  (** src/particles/particle.rs:60-105 [Particle::new]; [k2] is [constants::K2] *)
  Definition new_particle (k2 mass radius rg : F) (position velocity spin : vec F) : particle F :=
    let rg2 := npow rg 2 in
    let inertia := mass * rg2 * npow radius 2 in
    Mk_particle 0 mass (mass * k2) radius vzero vzero vzero vzero position velocity n0 n0 n0 n0
      spin (norm2 spin) (vscale inertia spin) vzero rg2 inertia
      (new_tides TidesDisabled) (new_flattening RfDisabled) (new_relativity GrDisabled)
      (new_wind false n0 n0) (new_disk DiskDisabled) NonEvolving.
  (** src/particles/particle.rs:107-140 [Particle::new_dummy] *)
  Definition dummy_particle : particle F :=
    Mk_particle 0 n0 n0 n0 vzero vzero vzero vzero vzero vzero n0 n0 n0 n0
      vzero n0 vzero vzero n0 n0
      (new_tides TidesDisabled) (new_flattening RfDisabled) (new_relativity GrDisabled)
      (new_wind false n0 n0) (new_disk DiskDisabled) NonEvolving.
End New.
