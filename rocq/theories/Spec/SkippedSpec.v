(** * The attraction between the host and the bodies that WHFast leaves to its Kepler steps *)
From Coq Require Import Reals List.
From Verif Require Import Base.Num Base.Vec Model.Constants Model.Particle Spec.EffectsSpec.
Import ListNotations.
Open Scope R_scope.

(** Newton's law: the acceleration of [a] by [b] *)
Definition attraction (a b : particle R) : vec R :=
  let r := vsub (p_ipos b) (p_ipos a) in vscale (G * p_mass b / sqrt (norm2 r) ^ 3) r.
(** the bodies with the attraction between the host and those of [l] included *)
Definition completed_host (host : particle R) (l : list (particle R)) : particle R :=
  set_p_iacc (vadd (p_iacc host) (Vsum (map (attraction host) l))) host.
Definition completed (host p : particle R) : particle R := set_p_iacc (vadd (p_iacc p) (attraction p host)) p.
