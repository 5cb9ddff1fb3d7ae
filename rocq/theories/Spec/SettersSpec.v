(** * Which tides and which flattening go together on one body (property C74) *)
From Coq Require Import Reals.
From Verif Require Import Model.Particle.
Open Scope R_scope.

(** the laws: none, the creep law with a viscosity, any other *)
Inductive law := NoLaw | CreepLaw (viscosity : R) | OtherLaw.
Definition law_of_tides (e : tides_effect R) : law :=
  match e with
  | TidesDisabled => NoLaw
  | TidesCentral (CreepCoplanar v) | TidesOrbiting (CreepCoplanar v) => CreepLaw v
  | TidesCentral _ | TidesOrbiting _ => OtherLaw
  end.
Definition law_of_flattening (e : rf_effect_t R) : law :=
  match e with
  | RfDisabled => NoLaw
  | RfCentral (CreepCoplanarRf v) | RfOrbiting (CreepCoplanarRf v) => CreepLaw v
  | RfCentral _ | RfOrbiting _ => OtherLaw
  end.
(** both laws are the creep law with one viscosity, or neither is, or one effect is off *)
Definition laws_agree (t r : law) : Prop :=
  match t, r with
  | NoLaw, _ | _, NoLaw => True
  | CreepLaw v, CreepLaw w => Rabs (v - w) <= 1 / 10000000000000000
  | OtherLaw, OtherLaw => True
  | _, _ => False
  end.
Definition is_creep (x : law) : Prop := exists v, x = CreepLaw v.
