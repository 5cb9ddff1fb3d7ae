(** * Stellar wind (src/effects/wind.rs:61-91) *)
From Coq Require Import List Bool ZArith.
From Verif Require Import Base.Num Base.Vec Model.Constants Model.Particle.

Section Wind.
  Context {F : Type} `{Num F}.
  Local Open Scope num_scope.

  Definition set_wind_dL (v : vec F) (p : particle F) : particle F :=
    set_p_wind (set_w_dL v (p_wind p)) p.

  (** src/effects/wind.rs:61-69 [initialize] *)
  Definition wind_initialize (l : list (particle F)) : list (particle F) :=
    map (fun p => if w_on (p_wind p) then set_wind_dL vzero p else p) l.

  (** one component of the torque, wind.rs:79-86 *)
  Definition wind_component (p : particle F) (w2 s : F) : F :=
    nopp n1 * w_k_factor (p_wind p) * s * w2
    * nsqrt (p_radius p / R_SUN * n1 / p_mass p).

  (** src/effects/wind.rs:71-91 [calculate_wind_factor], one body *)
  Definition wind_torque (p : particle F) : vec F :=
    let threshold := nsqrt (p_spin2 p) in
    let w2 := if threshold >=? w_saturation (p_wind p)
              then w_saturation2 (p_wind p) else p_spin2 p in
    Vec (wind_component p w2 (vx (p_spin p)))
        (wind_component p w2 (vy (p_spin p)))
        (wind_component p w2 (vz (p_spin p))).

  Definition calculate_wind_factor (l : list (particle F)) : list (particle F) :=
    map (fun p => if w_on (p_wind p) then set_wind_dL (wind_torque p) p else p) l.
End Wind.
