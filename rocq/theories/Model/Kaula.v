(** * The Kaula tidal model (src/effects/tides/kaula.rs)

    The arguments keep the Rust naming: for a planetary tide ([central = false])
    [particle] is the planet and [host] the tidal host; for a stellar tide
    ([central = true]) the caller swaps them, [particle] is the star whose tide is
    computed and [host] is the planet.

    The cached [Polynomials] are recomputed before each use in the sources and are
    plain local values here.  [slice::binary_search_by] is the standard library's
    halving loop; [total_cmp] is compared with [<?]/[=?], which is the same order on
    numbers that are neither NaN nor zeros of opposite sign. *)
From Coq Require Import List Bool ZArith Arith.
From Verif Require Import Base.Num Base.Result Base.Trans Base.Vec Model.Constants Model.Particle Model.Tools.
Import ListNotations.

Section Kaula.
  Context {F : Type} `{Num F} `{Trans F} `{Floor F}.
  Local Open Scope num_scope.

  Definition nofnat (n : nat) : F := nlit (Z.of_nat n) 1.

  (** [for (i, x) in l.iter().enumerate() { acc = step(acc, i, x) }] *)
  Definition efold {A B : Type} (step : B -> nat -> A -> B) (l : list A) (acc : B) : B :=
    fold_left (fun acc ix => step acc (fst ix) (snd ix)) (combine (seq 0 (length l)) l) acc.
  (** [for (i, x) in l.iter().enumerate() { sum += f(i, x) }] *)
  Definition esum {A : Type} (l : list A) (f : nat -> A -> F) : F :=
    efold (fun acc i x => acc + f i x) l n0.
  (** [.iter().skip(q_min).take(q_max)] with [q_min = 7 - order], [q_max = 2 * order + 1] *)
  Definition window {A : Type} (order : nat) (l : list A) : list A :=
    firstn (2 * order + 1)%nat (skipn (7 - order)%nat l).
  (** [q as f64 - order as f64] *)
  Definition offset (order q : nat) : F := nofnat q - nofnat order.

  (** src/effects/tides/kaula.rs:205-215, 444-454, 703-713, 762-772: the truncation order of the eccentricity series *)
  Definition series_order (eccentricity : F) : nat :=
    if eccentricity >? 3//10 then 7
    else if eccentricity >? 1//4 then 6
    else if eccentricity >? 1//5 then 5
    else if eccentricity >? 15//100 then 4
    else if eccentricity >? 1//10 then 3
    else if eccentricity <=? 1//10 then 2
    else 0.

  (** src/effects/tides/kaula.rs:989-991 [calculate_tidal_excitation_frequency_mode_sigma_2mpq] *)
  Definition sigma_2mpq (m p q spin orbital_frequency : F) : F :=
    (#2 - #2 * p + q) * orbital_frequency - m * spin.
  (** src/effects/tides/kaula.rs:993-995 [alpha_pqkj] *)
  Definition alpha_pqkj (p q k j mean_anomaly argument_perihelion : F) : F :=
    (#2 * p - #2 * k + j - q) * mean_anomaly + #2 * (p - k) * argument_perihelion.
  (** src/effects/tides/kaula.rs:998-1012; [spin_angle] and [varphi] are passed as 0 everywhere *)
  Definition phase_beta (p q k j mean_anomaly spin_angle argument_perihelion node varphi : F) : F :=
    (#4 - #2 * p - #2 * k + q - j) * mean_anomaly + (#4 - #2 * (k + p)) * argument_perihelion + spin_angle - node + varphi.
  Definition phase_alpha_1 (p q k j mean_anomaly spin_angle argument_perihelion node varphi : F) : F :=
    (#2 * k - #2 * p + q - j) * mean_anomaly + #2 * (k - p) * argument_perihelion + spin_angle - node - varphi.
  Definition phase_alpha_2 (p q k j mean_anomaly spin_angle argument_perihelion node varphi : F) : F :=
    (#2 * k - #2 * p + q - j) * mean_anomaly + #2 * (k - p) * argument_perihelion - spin_angle + node + varphi.
  Definition phase_alpha_3 (p q k j mean_anomaly spin_angle argument_perihelion node varphi : F) : F :=
    (#2 * k - #2 * p + q - j - n1) * mean_anomaly + #2 * (k - p - n1) * argument_perihelion + spin_angle - node - varphi.
  Definition phase_alpha_4 (p q k j mean_anomaly spin_angle argument_perihelion node varphi : F) : F :=
    (#2 * k - #2 * p + q - j - n1) * mean_anomaly + #2 * (k - p - n1) * argument_perihelion - spin_angle + node - varphi.

  (** [slice::binary_search_by]: [inl i] for [Ok(i)], [inr i] for [Err(i)]; [fuel]
      bounds the halvings ([length l] of them are always enough) *)
  Fixpoint bsearch_loop (fuel base size : nat) (l : list F) (x : F) : nat :=
    match fuel with
    | O => base
    | S f =>
        if Nat.leb size 1 then base
        else let half := Nat.div2 size in
             let mid := (base + half)%nat in
             bsearch_loop f (if x <? nth mid l n0 then base else mid) (size - half)%nat l x
    end.
  Definition bsearch (l : list F) (x : F) : nat + nat :=
    match l with
    | [] => inr O
    | _ => let base := bsearch_loop (length l) 0 (length l) l x in
           let v := nth base l n0 in
           if v =? x then inl base
           else inr (if v <? x then S base else base)
    end.

  (** src/effects/tides/kaula.rs:1016-1064 [calculate_kaula_numbers] *)
  Definition kaula_numbers (wk2 : F) (params : kaula_params F) (central : bool) : F * F :=
    let parity := andb (negb central) (wk2 <? n0) in
    let wk2 := if parity then nabs wk2 else wk2 in
    let freq := kl_freq params in
    let last := (length freq - 1)%nat in
    let '(re, im) :=
      if wk2 <=? nth 0 freq n0 then (nth 0 (kl_re params) n0, nth 0 (kl_im params) n0)
      else if wk2 >=? nth last freq n0 then (nth last (kl_re params) n0, nth last (kl_im params) n0)
      else match bsearch freq wk2 with
           | inl i => (nth i (kl_re params) n0, nth i (kl_im params) n0)
           | inr i =>
               let prev := nth (i - 1) freq n0 in
               let next := nth i freq n0 in
               let delta := (wk2 - prev) / (next - prev) in
               ((n1 - delta) * nth (i - 1) (kl_re params) n0 + delta * nth i (kl_re params) n0,
                (n1 - delta) * nth (i - 1) (kl_im params) n0 + delta * nth i (kl_im params) n0)
           end in
    if parity then (nopp re, nopp im) else (nopp re, im).

  (** src/effects/tides/kaula.rs:1127-1135 [calculate_inclination_function_f_20p] *)
  Definition inclination_f_20p (inclination : F) : list F :=
    let sin_incl := (tsin inclination) in
    let sin_incl_2 := sin_incl * sin_incl in
    let g_0 := -(#3 / #8) * sin_incl_2 in
    let g_1 := (#3 / #4) * sin_incl_2 - (n1 / #2) in
    let g_2 := -(#3 / #8) * sin_incl_2 in
    [ g_0; g_1; g_2 ].

  (** src/effects/tides/kaula.rs:1137-1144 [calculate_inclination_function_f_21p] *)
  Definition inclination_f_21p (inclination : F) : list F :=
    let sin_incl := (tsin inclination) in
    let cos_incl := (tcos inclination) in
    let g_0 := (#3 / #4) * sin_incl * (n1 + cos_incl) in
    let g_1 := -(#3 / #2) * sin_incl * cos_incl in
    let g_2 := (#3 / #4) * sin_incl * (cos_incl - n1) in
    [ g_0; g_1; g_2 ].

  (** src/effects/tides/kaula.rs:1146-1153 [calculate_inclination_function_f_22p] *)
  Definition inclination_f_22p (inclination : F) : list F :=
    let sin_incl := (tsin inclination) in
    let cos_incl := (tcos inclination) in
    let g_0 := (#3 / #4) * (npow (n1 + cos_incl) 2) in
    let g_1 := (#3 / #2) * (npow sin_incl 2) in
    let g_2 := (#3 / #4) * (npow (n1 - cos_incl) 2) in
    [ g_0; g_1; g_2 ].

  (** src/effects/tides/kaula.rs:1156-1165 [calculate_inclination_function_f_30p] *)
  Definition inclination_f_30p (inclination : F) : list F :=
    let sin_incl := (tsin inclination) in
    let sin_3_factor_1 := (#5 / #16) * (npow sin_incl 3) in
    let sin_factor_2 := (#3 / #4) * sin_incl in
    let g_0 := -sin_3_factor_1 in
    let g_1 := sin_3_factor_1 - sin_factor_2 in
    let g_2 := -sin_3_factor_1 + sin_factor_2 in
    let g_3 := -g_0 in
    [ g_0; g_1; g_2; g_3 ].

  (** src/effects/tides/kaula.rs:1167-1179 [calculate_inclination_function_f_31p] *)
  Definition inclination_f_31p (inclination : F) : list F :=
    let sin_incl := (tsin inclination) in
    let sin_2_factor_1 := (#15 / #16) * (npow sin_incl 2) in
    let sin_2_factor_43 := sin_2_factor_1 - (#3 / #4) in
    let cos_incl := (tcos inclination) in
    let cos_incl_factor_1 := n1 + #3 * cos_incl in
    let cos_incl_factor_2 := n1 - #3 * cos_incl in
    let g_0 := -sin_2_factor_1 * cos_incl_factor_1 in
    let g_1 := sin_2_factor_43 * cos_incl_factor_1 in
    let g_2 := sin_2_factor_43 * cos_incl_factor_2 in
    let g_3 := -sin_2_factor_1 * cos_incl_factor_2 in
    [ g_0; g_1; g_2; g_3 ].

  (** src/effects/tides/kaula.rs:1181-1191 [calculate_inclination_function_f_32p] *)
  Definition inclination_f_32p (inclination : F) : list F :=
    let sin_incl := (tsin inclination) in
    let sin_2_factor_1 := (#15 / #8) * (npow sin_incl 2) in
    let cos_incl := (tcos inclination) in
    let cos_incl_2 := (npow cos_incl 2) in
    let g_0 := sin_2_factor_1 * (npow (n1 + cos_incl) 2) in
    let g_1 := sin_2_factor_1 * (n1 - #2 * cos_incl - #3 * cos_incl_2) in
    let g_2 := -sin_2_factor_1 * (n1 + #2 * cos_incl - #3 * cos_incl_2) in
    let g_3 := -sin_2_factor_1 * (npow (n1 - cos_incl) 2) in
    [ g_0; g_1; g_2; g_3 ].

  (** src/effects/tides/kaula.rs:1193-1204 [calculate_inclination_function_f_33p] *)
  Definition inclination_f_33p (inclination : F) : list F :=
    let sin_incl := (tsin inclination) in
    let sin_2_factor_1 := (#48 / #8) * (npow sin_incl 2) in
    let cos_incl := (tcos inclination) in
    let cos_incl_factor_1 := n1 + cos_incl in
    let cos_incl_factor_2 := n1 - cos_incl in
    let g_0 := (#15 / #8) * (npow cos_incl_factor_1 3) in
    let g_1 := sin_2_factor_1 * cos_incl_factor_1 in
    let g_2 := sin_2_factor_1 * cos_incl_factor_2 in
    let g_3 := (#15 / #8) * (npow cos_incl_factor_2 3) in
    [ g_0; g_1; g_2; g_3 ].

  (** src/effects/tides/kaula.rs:1207-1280 [calculate_eccentricity_function_g_2pq] *)
  Definition eccentricity_g_2pq (eccentricity : F) : list (list F) :=
    let ecc := eccentricity in
    let ecc_2 := ecc * ecc in
    let ecc_3 := ecc_2 * ecc in
    let ecc_4 := ecc_3 * ecc in
    let ecc_5 := ecc_4 * ecc in
    let ecc_6 := ecc_5 * ecc in
    let ecc_7 := ecc_6 * ecc in
    let g_0_0 := (#15625 / #129024) * ecc_7 in
    let g_0_1 := (#4 / #45) * ecc_6 in
    let g_0_2 := (#81 / #1280) * ecc_5 + (#81 / #2048) * ecc_7 in
    let g_0_3 := (n1 / #24) * ecc_4 + (#7 / #240) * ecc_6 in
    let g_0_4 := (n1 / #48) * ecc_3 + (#11 / #768) * ecc_5 + (#313 / #30720) * ecc_7 in
    let g_0_5 := n0 in
    let g_0_6 := -(1//2) * ecc + (n1 / #16) * ecc_3 - (#5 / #384) * ecc_5 - (#143 / #18432) * ecc_7 in
    let g_0_7 := n1 - (#5 / #2) * ecc_2 + (#13 / #16) * ecc_4 - (#35 / #288) * ecc_6 in
    let g_0_8 := (#7 / #2) * ecc - (#123 / #16) * ecc_3 + (#489 / #128) * ecc_5 - (#1763 / #2048) * ecc_7 in
    let g_0_9 := (#17 / #2) * ecc_2 - (#115 / #16) * ecc_4 + (#601 / #48) * ecc_6 in
    let g_0_10 := (#845 / #48) * ecc_3 - (#32525 / #768) * ecc_5 + (#208225 / #6144) * ecc_7 in
    let g_0_11 := (#533 / #16) * ecc_4 - (#13827 / #160) * ecc_6 in
    let g_0_12 := (#228347 / #3840) * ecc_5 - (#3071075 / #18432) * ecc_7 in
    let g_0_13 := (#73369 / #720) * ecc_6 in
    let g_0_14 := (#12144273 / #71680) * ecc_7 in
    let g_1_0 := (#432091 / #30720) * ecc_7 in
    let g_1_1 := (#3167 / #320) * ecc_6 in
    let g_1_2 := (#1773 / #256) * ecc_5 - (#4987 / #6144) * ecc_7 in
    let g_1_3 := (#77 / #16) * ecc_4 + (#129 / #160) * ecc_6 in
    let g_1_4 := (#53 / #16) * ecc_3 + (#393 / #256) * ecc_5 + (#24753 / #10240) * ecc_7 in
    let g_1_5 := (#9 / #4) * ecc_2 + (#7 / #4) * ecc_4 + (#141 / #64) * ecc_6 in
    let g_1_6 := (#3 / #2) * ecc + (#27 / #16) * ecc_3 + (#261 / #128) * ecc_5 + (#14309 / #6144) * ecc_7 in
    let g_1_7 := (tpow (n1 - ecc_2) (-#3 / #2)) in
    let g_1_8 := g_1_6 in
    let g_1_9 := g_1_5 in
    let g_1_10 := g_1_4 in
    let g_1_11 := g_1_3 in
    let g_1_12 := g_1_2 in
    let g_1_13 := g_1_1 in
    let g_1_14 := g_1_0 in
    let g_2_0 := g_0_14 in
    let g_2_1 := g_0_13 in
    let g_2_2 := g_0_12 in
    let g_2_3 := g_0_11 in
    let g_2_4 := g_0_10 in
    let g_2_5 := g_0_9 in
    let g_2_6 := g_0_8 in
    let g_2_7 := g_0_7 in
    let g_2_8 := g_0_6 in
    let g_2_9 := g_0_5 in
    let g_2_10 := g_0_4 in
    let g_2_11 := g_0_3 in
    let g_2_12 := g_0_2 in
    let g_2_13 := g_0_1 in
    let g_2_14 := g_0_0 in
    [ [ g_0_0; g_0_1; g_0_2; g_0_3; g_0_4; g_0_5; g_0_6; g_0_7; g_0_8; g_0_9; g_0_10; g_0_11; g_0_12; g_0_13; g_0_14 ];
      [ g_1_0; g_1_1; g_1_2; g_1_3; g_1_4; g_1_5; g_1_6; g_1_7; g_1_8; g_1_9; g_1_10; g_1_11; g_1_12; g_1_13; g_1_14 ];
      [ g_2_0; g_2_1; g_2_2; g_2_3; g_2_4; g_2_5; g_2_6; g_2_7; g_2_8; g_2_9; g_2_10; g_2_11; g_2_12; g_2_13; g_2_14 ] ].

  (** src/effects/tides/kaula.rs:1283-1324 [calculate_eccentricity_function_g_20q] *)
  Definition eccentricity_g_20q (eccentricity : F) : list F :=
    let ecc := eccentricity in
    let ecc_2 := ecc * ecc in
    let ecc_3 := ecc_2 * ecc in
    let ecc_4 := ecc_3 * ecc in
    let ecc_5 := ecc_4 * ecc in
    let ecc_6 := ecc_5 * ecc in
    let ecc_7 := ecc_6 * ecc in
    let g_0 := (#15625 / #129024) * ecc_7 in
    let g_1 := (#4 / #45) * ecc_6 in
    let g_2 := (#81 / #1280) * ecc_5 + (#81 / #2048) * ecc_7 in
    let g_3 := (n1 / #24) * ecc_4 + (#7 / #240) * ecc_6 in
    let g_4 := (n1 / #48) * ecc_3 + (#11 / #768) * ecc_5 + (#313 / #30720) * ecc_7 in
    let g_5 := n0 in
    let g_6 := -(1//2) * ecc + (n1 / #16) * ecc_3 - (#5 / #384) * ecc_5 - (#143 / #18432) * ecc_7 in
    let g_7 := n1 - (#5 / #2) * ecc_2 + (#13 / #16) * ecc_4 - (#35 / #288) * ecc_6 in
    let g_8 := (#7 / #2) * ecc - (#123 / #16) * ecc_3 + (#489 / #128) * ecc_5 - (#1763 / #2048) * ecc_7 in
    let g_9 := (#17 / #2) * ecc_2 - (#115 / #16) * ecc_4 + (#601 / #48) * ecc_6 in
    let g_10 := (#845 / #48) * ecc_3 - (#32525 / #768) * ecc_5 + (#208225 / #6144) * ecc_7 in
    let g_11 := (#533 / #16) * ecc_4 - (#13827 / #160) * ecc_6 in
    let g_12 := (#228347 / #3840) * ecc_5 - (#3071075 / #18432) * ecc_7 in
    let g_13 := (#73369 / #720) * ecc_6 in
    let g_14 := (#12144273 / #71680) * ecc_7 in
    [ g_0; g_1; g_2; g_3; g_4; g_5; g_6; g_7; g_8; g_9; g_10; g_11; g_12; g_13; g_14 ].

  (** src/effects/tides/kaula.rs:1327-1368 [calculate_eccentricity_function_g_21q] *)
  Definition eccentricity_g_21q (eccentricity : F) : list F :=
    let ecc := eccentricity in
    let ecc_2 := ecc * ecc in
    let ecc_3 := ecc_2 * ecc in
    let ecc_4 := ecc_3 * ecc in
    let ecc_5 := ecc_4 * ecc in
    let ecc_6 := ecc_5 * ecc in
    let ecc_7 := ecc_6 * ecc in
    let g_0 := (#432091 / #30720) * ecc_7 in
    let g_1 := (#3167 / #320) * ecc_6 in
    let g_2 := (#1773 / #256) * ecc_5 - (#4987 / #6144) * ecc_7 in
    let g_3 := (#77 / #16) * ecc_4 + (#129 / #160) * ecc_6 in
    let g_4 := (#53 / #16) * ecc_3 + (#393 / #256) * ecc_5 + (#24753 / #10240) * ecc_7 in
    let g_5 := (#9 / #4) * ecc_2 + (#7 / #4) * ecc_4 + (#141 / #64) * ecc_6 in
    let g_6 := (#3 / #2) * ecc + (#27 / #16) * ecc_3 + (#261 / #128) * ecc_5 + (#14309 / #6144) * ecc_7 in
    let g_7 := (tpow (n1 - ecc_2) (-#3 / #2)) in
    let g_8 := g_6 in
    let g_9 := g_5 in
    let g_10 := g_4 in
    let g_11 := g_3 in
    let g_12 := g_2 in
    let g_13 := g_1 in
    let g_14 := g_0 in
    [ g_0; g_1; g_2; g_3; g_4; g_5; g_6; g_7; g_8; g_9; g_10; g_11; g_12; g_13; g_14 ].

  (** src/effects/tides/kaula.rs:1371-1460 [calculate_eccentricity_function_g_3pq] *)
  Definition eccentricity_g_3pq (eccentricity : F) : list (list F) :=
    let ecc := eccentricity in
    let ecc_2 := (npow ecc 2) in
    let ecc_3 := (npow ecc 3) in
    let ecc_4 := (npow ecc 4) in
    let ecc_5 := (npow ecc 5) in
    let ecc_6 := (npow ecc 6) in
    let ecc_7 := (npow ecc 7) in
    let g_0_0 := (#8 / #315) * ecc_7 in
    let g_0_1 := (#81 / #5120) * ecc_6 in
    let g_0_2 := (n1 / #120) * ecc_5 + (#13 / #1440) * ecc_7 in
    let g_0_3 := (n1 / #384) * ecc_4 + (n1 / #384) * ecc_6 in
    let g_0_4 := n0 in
    let g_0_5 := (n1 / #8) * ecc_2 + (n1 / #48) * ecc_4 + (#55 / #3072) * ecc_6 in
    let g_0_6 := -ecc + (#5 / #4) * ecc_3 - (#7 / #48) * ecc_5 + (#23 / #288) * ecc_7 in
    let g_0_7 := n1 - #6 * ecc_2 + (#423 / #64) * ecc_4 - (#125 / #64) * ecc_6 in
    let g_0_8 := #5 * ecc - #22 * ecc_3 + (#607 / #24) * ecc_5 - (#98 / #9) * ecc_7 in
    let g_0_9 := (#127 / #8) * ecc_2 - (#3065 / #48) * ecc_4 + (#243805 / #3072) * ecc_6 in
    let g_0_10 := (#163 / #4) * ecc_3 - (#2577 / #16) * ecc_5 + (#1089 / #5) * ecc_7 in
    let g_0_11 := (#35413 / #384) * ecc_4 - (#709471 / #1920) * ecc_6 in
    let g_0_12 := (#23029 / #120) * ecc_5 - (#35614 / #45) * ecc_7 in
    let g_0_13 := (#385095 / #1024) * ecc_6 in
    let g_0_14 := (#44377 / #63) * ecc_7 in
    let g_1_0 := (#16337 / #2240) * ecc_7 in
    let g_1_1 := (#48203 / #9240) * ecc_6 in
    let g_1_2 := (#899 / #240) * ecc_5 + (#2441 / #480) * ecc_7 in
    let g_1_3 := (#343 / #128) * ecc_4 + (#2819 / #640) * ecc_6 in
    let g_1_4 := (#23 / #12) * ecc_3 + (#89 / #24) * ecc_5 + (#5663 / #960) * ecc_7 in
    let g_1_5 := (#11 / #8) * ecc_2 + (#49 / #16) * ecc_4 + (#15665 / #3072) * ecc_6 in
    let g_1_6 := ecc * (tpow (n1 - ecc_2) (-#5 / #2)) in
    let g_1_7 := n1 + (n1 / #2) * ecc_2 + (#239 / #64) * ecc_4 - (#3323 / #576) * ecc_6 in
    let g_1_8 := #3 * ecc + (#11 / #4) * ecc_3 + (#245 / #48) * ecc_5 + (#463 / #64) * ecc_7 in
    let g_1_9 := (#53 / #8) * ecc_2 + (#39 / #16) * ecc_4 + (#7041 / #1024) * ecc_6 in
    let g_1_10 := (#163 / #4) * ecc_3 - (#2577 / #16) * ecc_5 + (#1089 / #5) * ecc_7 in
    let g_1_11 := (#35413 / #384) * ecc_4 - (#709471 / #1920) * ecc_6 in
    let g_1_12 := (#23029 / #120) * ecc_5 - (#35614 / #45) * ecc_7 in
    let g_1_13 := (#385095 / #1024) * ecc_6 in
    let g_1_14 := (#44377 / #63) * ecc_7 in
    let g_2_0 := g_1_14 in
    let g_2_1 := g_1_13 in
    let g_2_2 := g_1_12 in
    let g_2_3 := g_1_11 in
    let g_2_4 := g_1_10 in
    let g_2_5 := g_1_9 in
    let g_2_6 := g_1_8 in
    let g_2_7 := g_1_7 in
    let g_2_8 := g_1_6 in
    let g_2_9 := g_1_5 in
    let g_2_10 := g_1_4 in
    let g_2_11 := g_1_3 in
    let g_2_12 := g_1_2 in
    let g_2_13 := g_1_1 in
    let g_2_14 := g_1_0 in
    let g_3_0 := g_0_14 in
    let g_3_1 := g_0_13 in
    let g_3_2 := g_0_12 in
    let g_3_3 := g_0_11 in
    let g_3_4 := g_0_10 in
    let g_3_5 := g_0_9 in
    let g_3_6 := g_0_8 in
    let g_3_7 := g_0_7 in
    let g_3_8 := g_0_6 in
    let g_3_9 := g_0_5 in
    let g_3_10 := g_0_4 in
    let g_3_11 := g_0_3 in
    let g_3_12 := g_0_2 in
    let g_3_13 := g_0_1 in
    let g_3_14 := g_0_0 in
    [ [ g_0_0; g_0_1; g_0_2; g_0_3; g_0_4; g_0_5; g_0_6; g_0_7; g_0_8; g_0_9; g_0_10; g_0_11; g_0_12; g_0_13; g_0_14 ];
      [ g_1_0; g_1_1; g_1_2; g_1_3; g_1_4; g_1_5; g_1_6; g_1_7; g_1_8; g_1_9; g_1_10; g_1_11; g_1_12; g_1_13; g_1_14 ];
      [ g_2_0; g_2_1; g_2_2; g_2_3; g_2_4; g_2_5; g_2_6; g_2_7; g_2_8; g_2_9; g_2_10; g_2_11; g_2_12; g_2_13; g_2_14 ];
      [ g_3_0; g_3_1; g_3_2; g_3_3; g_3_4; g_3_5; g_3_6; g_3_7; g_3_8; g_3_9; g_3_10; g_3_11; g_3_12; g_3_13; g_3_14 ] ].
  (** what every component starts from: the truncated orbit description of
      src/effects/tides/kaula.rs:139-168 (and 380-404, 636-678) *)
  Record orbit := Orbit {
    ob_a : F; ob_e : F; ob_m : F; ob_omega : F; ob_node : F; ob_freq : F; ob_obliquity : F; ob_spin : F }.
  Definition kaula_orbit (host particle : particle F) (els : elements F) (central : bool) : orbit :=
    let planet := if central then host else particle in
    Orbit (el_a els) (el_e els) (el_l els) (el_p els - el_n els) (el_n els)
      (TWO_PI / (el_period els * DAY))
      (orbital_equatorial_inclination (p_hpos planet) (p_hvel planet) (p_spin particle))
      (nsqrt (p_spin2 particle) / DAY).
  Definition love (o : orbit) (params : kaula_params F) (central : bool) (m p q : F) : F * F :=
    kaula_numbers (sigma_2mpq m p q (ob_spin o) (ob_freq o)) params central.

  (** ** Radial component (src/effects/tides/kaula.rs:133-368) *)
  (** 188-195: circular coplanar orbit *)
  Definition radial_circular (cste : F) (o : orbit) (params : kaula_params F) (central : bool) : F * F :=
    let '(rek2_2010, _) := love o params central n0 n1 n0 in
    let '(_, imk2_2200) := love o params central (#2) n0 n0 in
    let radial_force := cste * ((#3 / #4) * rek2_2010 + (#9 / #4) * imk2_2200) in
    (radial_force, radial_force).
  (** 196-250: eccentric coplanar orbit *)
  Definition radial_eccentric (cste : F) (o : orbit) (params : kaula_params F) (central : bool) : F * F :=
    let order := series_order (ob_e o) in
    let g := window order (combine (eccentricity_g_20q (ob_e o)) (eccentricity_g_21q (ob_e o))) in
    let step (acc : F * F) (q : nat) (g_201q : F * F) : F * F :=
      let tq := offset order q in
      let '(rek2_201q, imk2_201q) := love o params central n0 n1 tq in
      let '(rek2_220q, imk2_220q) := love o params central (#2) n0 tq in
      let angle j := alpha_pqkj n0 tq n0 (offset order j) (ob_m o) (ob_omega o) in
      let sum_over_j_1 := esum g (fun j g_201j =>
        snd g_201j * (tcos (angle j) * rek2_201q - tsin (angle j) * imk2_201q)) in
      let sum_over_j_3 := esum g (fun j g_201j =>
        fst g_201j * (tcos (angle j) * rek2_220q - tsin (angle j) * imk2_220q)) in
      let sum_over_j_1_secular := efold (fun acc j g_201j =>
        if Nat.eqb q j then acc + snd g_201j * rek2_201q else acc) g n0 in
      let sum_over_j_3_secular := efold (fun acc j g_201j =>
        if Nat.eqb q j then acc + fst g_201j * rek2_220q else acc) g n0 in
      let '(g_20q, g_21q) := g_201q in
      (fst acc + ((#3 / #4) * g_21q * sum_over_j_1 + (#9 / #4) * g_20q * sum_over_j_3),
       snd acc + ((#3 / #4) * g_21q * sum_over_j_1_secular + (#9 / #4) * g_20q * sum_over_j_3_secular)) in
    let '(sum_over_q, sum_over_q_secular) := efold step g (n0, n0) in
    (cste * sum_over_q, cste * sum_over_q_secular).
  (** 251-366: the sums over p, q, k, j for one order m ([f] is the table F_2mp) *)
  Definition radial_sum (m : F) (f : list F) (o : orbit) (params : kaula_params F) (central : bool) : F :=
    let order := series_order (ob_e o) in
    let g := eccentricity_g_2pq (ob_e o) in
    esum f (fun p f_2mp =>
      f_2mp * esum (window order (nth p g [])) (fun q g_2pq =>
        let '(rek2, imk2) := love o params central m (nofnat p) (offset order q) in
        g_2pq * esum f (fun k f_2mk =>
          f_2mk * esum (window order (nth k g [])) (fun j g_2kj =>
            let alpha := alpha_pqkj (nofnat p) (offset order q) (nofnat k) (offset order j) (ob_m o) (ob_omega o) in
            g_2kj * (tcos alpha * rek2 - tsin alpha * imk2))))).
  Definition radial_sum_secular (m : F) (f : list F) (o : orbit) (params : kaula_params F) (central : bool) : F :=
    let order := series_order (ob_e o) in
    let g := eccentricity_g_2pq (ob_e o) in
    esum f (fun p f_2mp =>
      npow f_2mp 2 * esum (window order (nth p g [])) (fun q g_2pq =>
        let '(rek2, _) := love o params central m (nofnat p) (offset order q) in
        npow g_2pq 2 * rek2)).
  Definition radial_3d (cste : F) (o : orbit) (params : kaula_params F) (central : bool) : F * F :=
    let f20 := inclination_f_20p (ob_obliquity o) in
    let f21 := inclination_f_21p (ob_obliquity o) in
    let f22 := inclination_f_22p (ob_obliquity o) in
    ((radial_sum n0 f20 o params central + (n1 / #3) * radial_sum n1 f21 o params central
      + (n1 / #12) * radial_sum (#2) f22 o params central) * cste,
     (radial_sum_secular n0 f20 o params central + (n1 / #3) * radial_sum_secular n1 f21 o params central
      + (n1 / #12) * radial_sum_secular (#2) f22 o params central) * cste).
  (** 174-250: no obliquity *)
  Definition radial_planar (host particle : particle F) (o : orbit) (central : bool) (params : kaula_params F) : F * F :=
    let tem_radius := if central then nopp (p_hdist host) else p_hdist particle in
    let cste := nopp (G * npow (p_mass host) 2 * npow (p_radius particle) 5) / (npow (ob_a o) 6 * tem_radius) in
    if ob_e o =? n0 then radial_circular cste o params central
    else radial_eccentric cste o params central.
  (** 251-366: any obliquity *)
  Definition radial_inclined (host particle : particle F) (o : orbit) (central : bool) (params : kaula_params F) : F * F :=
    let heliocentric_r := if central then p_hdist host else p_hdist particle in
    let particle_star_2 := if central then npow (p_mass particle) 2 else npow (p_mass host) 2 in
    let cste := (G * particle_star_2 * npow (p_radius particle) 5 * #3) / (npow (ob_a o) 6 * heliocentric_r) in
    radial_3d cste o params central.
  Definition kaula_radial (host particle : particle F) (els : elements F) (central : bool)
      (params : kaula_params F) : F * F :=
    let o := kaula_orbit host particle els central in
    if ob_obliquity o <=? 1//100000000 then radial_planar host particle o central params
    else radial_inclined host particle o central params.

  (** ** Normal component (src/effects/tides/kaula.rs:371-620) *)
  (** 456-500: order m = 0 *)
  Definition normal_m0 (o : orbit) (params : kaula_params F) (central secular : bool) : F :=
    let order := series_order (ob_e o) in
    let g := eccentricity_g_2pq (ob_e o) in
    esum (inclination_f_20p (ob_obliquity o)) (fun p f_20p =>
      f_20p * esum (window order (nth p g [])) (fun q g_2pq =>
        let '(re, im) := love o params central n0 (nofnat p) (offset order q) in
        g_2pq * esum (inclination_f_21p (ob_obliquity o)) (fun k f_21k =>
          f_21k * esum (window order (nth k g [])) (fun j g_2kj =>
            if secular then g_2kj * (1//2 * re + 3//2 * re)
            else
              let beta := phase_beta (nofnat p) (offset order q) (nofnat k) (offset order j) (ob_m o) n0 (ob_omega o) (ob_node o) n0 in
              let alpha_1 := phase_alpha_1 (nofnat p) (offset order q) (nofnat k) (offset order j) (ob_m o) n0 (ob_omega o) (ob_node o) n0 in
              g_2kj * (1//2 * (tcos alpha_1 * re - tsin alpha_1 * im) + 3//2 * (tcos beta * re - tsin beta * im)))))).
  (** 502-561: order m = 1 *)
  Definition normal_m1 (o : orbit) (params : kaula_params F) (central secular : bool) : F :=
    let order := series_order (ob_e o) in
    let g := eccentricity_g_2pq (ob_e o) in
    let f_22_20 := combine (inclination_f_22p (ob_obliquity o)) (inclination_f_20p (ob_obliquity o)) in
    esum (inclination_f_21p (ob_obliquity o)) (fun p f_21p =>
      f_21p * esum (window order (nth p g [])) (fun q g_2pq =>
        let '(re, im) := love o params central n1 (nofnat p) (offset order q) in
        let term phase k g_2k :=
          esum g_2k (fun j g_2kj =>
            if secular then g_2kj * re
            else let a := phase (nofnat p) (offset order q) (nofnat k) (offset order j) (ob_m o) n0 (ob_omega o) (ob_node o) n0 in
                 g_2kj * (tcos a * re - tsin a * im)) in
        let sum_over_k_m2 := esum f_22_20 (fun k f => fst f * term phase_alpha_1 k (window order (nth k g []))) in
        let sum_over_k_m0 := esum f_22_20 (fun k f => snd f * term phase_alpha_2 k (window order (nth k g []))) in
        g_2pq * (1//2 * sum_over_k_m2 - #3 * sum_over_k_m0))).
  (** 563-612: order m = 2 *)
  Definition normal_m2 (o : orbit) (params : kaula_params F) (central secular : bool) : F :=
    let order := series_order (ob_e o) in
    let g := eccentricity_g_2pq (ob_e o) in
    esum (inclination_f_22p (ob_obliquity o)) (fun p f_22p =>
      f_22p * esum (window order (nth p g [])) (fun q g_2pq =>
        let '(re, im) := love o params central (#2) (nofnat p) (offset order q) in
        g_2pq * esum (inclination_f_21p (ob_obliquity o)) (fun k f_21k =>
          f_21k * esum (window order (nth k g [])) (fun j g_2kj =>
            if secular then g_2kj * re
            else let a := phase_alpha_2 (nofnat p) (offset order q) (nofnat k) (offset order j) (ob_m o) n0 (ob_omega o) (ob_node o) n0 in
                 g_2kj * (tcos a * re - tsin a * im))))).
  Definition normal_inclined (host particle : particle F) (o : orbit) (central : bool) (params : kaula_params F) : F * F :=
    let heliocentric_r := if central then p_hdist host else p_hdist particle in
    let particle_star_2 := if central then npow (p_mass particle) 2 else npow (p_mass host) 2 in
    let particle_radius_5 := if central then npow (p_radius host) 5 else npow (p_radius particle) 5 in
    let cste := (G * particle_star_2 * particle_radius_5) / (npow (ob_a o) 6 * heliocentric_r) in
    let total secular :=
      normal_m0 o params central secular + (n1 / #3) * normal_m1 o params central secular
      + (nopp (n1 / #6)) * normal_m2 o params central secular in
    (cste * total false, cste * total true).
  Definition kaula_normal (host particle : particle F) (els : elements F) (central : bool)
      (params : kaula_params F) : F * F :=
    let o := kaula_orbit host particle els central in
    if ob_obliquity o <=? 1//100000000 then (n0, n0)
    else normal_inclined host particle o central params.

  (** ** Orthogonal component (src/effects/tides/kaula.rs:623-907) *)
  (** 687-693: circular coplanar orbit *)
  Definition orthogonal_circular (cste : F) (o : orbit) (params : kaula_params F) (central : bool) : F * F :=
    let '(_, imk2_2200) := love o params central (#2) n0 n0 in
    let orthogonal_force := cste * (#3 / #2) * imk2_2200 in
    (orthogonal_force, orthogonal_force).
  (** 694-741: eccentric coplanar orbit *)
  Definition orthogonal_eccentric (cste : F) (o : orbit) (params : kaula_params F) (central : bool) : F * F :=
    let order := series_order (ob_e o) in
    let g := window order (eccentricity_g_20q (ob_e o)) in
    let sum_over_q := esum g (fun q g_20q =>
      let '(re, im) := love o params central (#2) n0 (offset order q) in
      g_20q * (#3 / #2) * esum g (fun j g_20j =>
        let a := alpha_pqkj n0 (offset order q) n0 (offset order j) (ob_m o) (ob_omega o) in
        g_20j * (tsin a * re + tcos a * im))) in
    let sum_over_q_secular := esum g (fun q g_20q =>
      let '(_, im) := love o params central (#2) n0 (offset order q) in
      g_20q * (#3 / #2) * efold (fun acc j g_20j =>
        if Nat.eqb q j then acc + g_20j * im else acc) g n0) in
    (cste * sum_over_q, cste * sum_over_q_secular).
  (** 782-839 and 841-896: the sums of one order m; [fa]/[fb] are the two tables
      F_3(m+1)k and F_3(m-1)k, [c1]/[c2] their weights *)
  Definition orthogonal_sum (m : F) (f : list F) (fa fb : list F) (weigh : F -> F -> F)
      (o : orbit) (params : kaula_params F) (central secular : bool) : F :=
    let order := series_order (ob_e o) in
    let g := eccentricity_g_2pq (ob_e o) in
    let g3 := eccentricity_g_3pq (ob_e o) in
    esum f (fun p f_2mp =>
      f_2mp * esum (window order (nth p g [])) (fun q g_2pq =>
        let '(re, im) := love o params central m (nofnat p) (offset order q) in
        let term phase k g_3k :=
          efold (fun acc j g_3kj =>
            if secular then acc - g_3kj * im
            else let a := phase (nofnat p) (offset order q) (nofnat k) (offset order j) (ob_m o) n0 (ob_omega o) (ob_node o) n0 in
                 acc + g_3kj * (tsin a * re - tcos a * im)) g_3k n0 in
        let sum_over_k_term1 := esum (combine fa fb) (fun k ff => fst ff * term phase_alpha_3 k (window order (nth k g3 []))) in
        let sum_over_k_term2 := esum (combine fa fb) (fun k ff => snd ff * term phase_alpha_4 k (window order (nth k g3 []))) in
        g_2pq * weigh sum_over_k_term1 sum_over_k_term2)).
  Definition orthogonal_3d (cste : F) (o : orbit) (params : kaula_params F) (central : bool) : F * F :=
    let i := ob_obliquity o in
    let m1 secular := nopp (#4) / nsqrt (#15)
      * orthogonal_sum n1 (inclination_f_21p i) (inclination_f_32p i) (inclination_f_30p i)
          (fun t1 t2 => n1 / #6 * t1 + t2) o params central secular in
    let m2 secular := nopp (#5) / (#48 * nsqrt (#6))
      * orthogonal_sum (#2) (inclination_f_22p i) (inclination_f_33p i) (inclination_f_31p i)
          (fun t1 t2 => t1 + #2 * t2) o params central secular in
    (cste * (m1 false + m2 false), cste * (m1 true + m2 true)).
  Definition raised_by (host particle : particle F) (central : bool) : F :=
    G * (if central then npow (p_mass particle) 2 else npow (p_mass host) 2)
      * (if central then npow (p_radius host) 5 else npow (p_radius particle) 5).
  Definition orthogonal_planar (host particle : particle F) (o : orbit) (central : bool) (params : kaula_params F) : F * F :=
    let planet := if central then host else particle in
    let tem_radius := if central then nopp (p_hdist host) else p_hdist particle in
    let pos := t_pos (p_tides planet) in
    let distance := nsqrt (norm2 pos) in
    let coplanar_distance := nsqrt (npow (vx pos) 2 + npow (vy pos) 2) in
    let sin_theta := coplanar_distance / distance in
    let cste_2d := nopp (raised_by host particle central) / (npow (ob_a o) 6 * tem_radius * sin_theta) in
    if ob_e o =? n0 then orthogonal_circular cste_2d o params central
    else orthogonal_eccentric cste_2d o params central.
  Definition orthogonal_inclined (host particle : particle F) (o : orbit) (central : bool) (params : kaula_params F) : F * F :=
    orthogonal_3d (nopp (raised_by host particle central) / npow (ob_a o) 7) o params central.
  Definition kaula_orthogonal (host particle : particle F) (els : elements F) (central : bool)
      (params : kaula_params F) : F * F :=
    let o := kaula_orbit host particle els central in
    if ob_obliquity o <=? 1//100000000 then orthogonal_planar host particle o central params
    else orthogonal_inclined host particle o central params.

  (** ** Force and torque *)
  Definition kaula_of (e : tides_effect F) : option (kaula_params F) :=
    match e with
    | TidesCentral (Kaula p) | TidesOrbiting (Kaula p) => Some p
    | _ => None
    end.
  Definition set_kaula (p' : kaula_params F) (e : tides_effect F) : tides_effect F :=
    match e with
    | TidesCentral (Kaula _) => TidesCentral (Kaula p')
    | TidesOrbiting (Kaula _) => TidesOrbiting (Kaula p')
    | _ => e
    end.
  (** the projection of spherical components on the axes (99-101, 114-116) *)
  Definition spherical_to_cartesian (radial normal orthogonal sin_theta cos_theta sin_phi cos_phi : F) : vec F :=
    Vec (radial * sin_theta * cos_phi + normal * cos_theta * cos_phi - orthogonal * sin_phi)
        (radial * sin_theta * sin_phi + normal * cos_theta * sin_phi + orthogonal * cos_phi)
        (radial * cos_theta - normal * sin_theta).
  (** src/effects/tides/kaula.rs:28-125 [calculate_tidal_force]: the force, and the
      two bodies with the stored orthogonal component and the stored secular force.
      [unreachable!()] panics when [particle] has no Kaula parameters. *)
  Definition kaula_force (host particle : particle F) (central : bool)
      : res (vec F * Particle.particle F * Particle.particle F) :=
    match kaula_of (t_effect (p_tides particle)) with
    | None => Panic POther
    | Some params =>
        let planet := if central then host else particle in
        let gm := G * (p_mass host + p_mass particle) in
        let els := keplerian_elements gm (p_hpos planet) (p_hvel planet) in
        let pos := t_pos (p_tides planet) in
        let radial_distance := t_distance (p_tides planet) in
        let coplanar_distance := nsqrt (npow (vx pos) 2 + npow (vy pos) 2) in
        let cos_theta := vz pos / radial_distance in
        let cos_phi := vx pos / coplanar_distance in
        let sin_phi := vy pos / coplanar_distance in
        let sin_theta := coplanar_distance / radial_distance in
        let '(radial, radial_s) := kaula_radial host particle els central params in
        let '(normal, normal_s) := kaula_normal host particle els central params in
        let '(orthogonal, orthogonal_s) := kaula_orthogonal host particle els central params in
        let force := spherical_to_cartesian radial normal orthogonal sin_theta cos_theta sin_phi cos_phi in
        let secular := spherical_to_cartesian radial_s normal_s orthogonal_s sin_theta cos_theta sin_phi cos_phi in
        let store t := set_t_effect (set_kaula (set_kl_force secular params) (t_effect t)) t in
        if central then
          Ok (force,
              set_p_tides (set_t_orth_star orthogonal (p_tides host)) host,
              set_p_tides (store (p_tides particle)) particle)
        else
          Ok (force, host,
              set_p_tides (store (set_t_orth_planet orthogonal (p_tides particle))) particle)
    end.

  (** src/effects/tides/kaula.rs:911-965 [calculate_torque_due_to_tides] *)
  Definition kaula_torque (host particle : particle F) (central : bool) : res (vec F) :=
    let pos := t_pos (p_tides particle) in
    if central then
      match t_effect (p_tides host) with
      | TidesCentral (Kaula params) => Ok (vcross (vneg pos) (kl_force params))
      | _ => Panic POther
      end
    else
      match t_effect (p_tides particle) with
      | TidesOrbiting (Kaula params) => Ok (vcross pos (kl_force params))
      | _ => Panic POther
      end.
End Kaula.
