(** * Attaching tides and flattening to a particle (src/particles/particle.rs) *)
From Coq Require Import List Bool ZArith.
From Verif Require Import Base.Num Base.Result Base.Vec Model.Particle.
Import ListNotations.

Section Setters.
  Context {F : Type} `{Num F}.
  Local Open Scope num_scope.

  (** is the tidal (flattening) law the creep law, and with which viscosity? *)
  Definition tides_creep_law (e : tides_effect F) : bool * F :=
    match e with
    | TidesCentral (CreepCoplanar v) | TidesOrbiting (CreepCoplanar v) => (true, v)
    | _ => (false, n0)
    end.
  Definition rf_creep_law (e : rf_effect_t F) : bool * F :=
    match e with
    | RfCentral (CreepCoplanarRf v) | RfOrbiting (CreepCoplanarRf v) => (true, v)
    | _ => (false, n0)
    end.

  (** src/particles/particle.rs:143-184 [check_uniform_viscosity_coefficient] *)
  Definition check_viscosity (p : particle F) : res unit :=
    let disabled_tides := match t_effect (p_tides p) with TidesDisabled => true | _ => false end in
    let disabled_flattening := match rf_effect (p_rf p) with RfDisabled => true | _ => false end in
    if negb disabled_tides && negb disabled_flattening then
      let '(creep_t, v_t) := tides_creep_law (t_effect (p_tides p)) in
      let '(creep_r, v_r) := rf_creep_law (rf_effect (p_rf p)) in
      if (creep_t && negb creep_r) || (negb creep_t && creep_r) then Panic POther
      else if creep_t && creep_r then
        if nabs (v_t - v_r) >? 1//10000000000000000 then Panic POther else Ok tt
      else Ok tt
    else Ok tt.

  (** src/particles/particle.rs:133-136 [set_tides] *)
  Definition attach_tides (t : tides F) (p : particle F) : res (particle F) :=
    let p := set_p_tides t p in
    do _ <- check_viscosity p; Ok p.
  (** src/particles/particle.rs:138-141 [set_rotational_flattening] *)
  Definition attach_flattening (r : flattening F) (p : particle F) : res (particle F) :=
    let p := set_p_rf r p in
    do _ <- check_viscosity p; Ok p.

  (** a program that calls the two setters, in any order and any number of times *)
  Inductive setter := SetTides (t : tides F) | SetFlattening (r : flattening F).
  Definition attach (p : particle F) (s : setter) : res (particle F) :=
    match s with SetTides t => attach_tides t p | SetFlattening r => attach_flattening r p end.
  Definition attach_all (p : particle F) (l : list setter) : res (particle F) := rfold attach l p.
End Setters.
Arguments setter F : clear implicits.
