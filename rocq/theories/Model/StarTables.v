(** * Tables of stellar and planetary models (src/effects/evolution.rs:61-444, [Evolver::new])
    The files are arguments: [files] are those of the model, by position of their mass in the lists
    below, and [aux] the one with the radii of gyration of brown dwarfs (rg2BD.dat).  A row is the list of its fields; [None] is a field that
    does not parse as a number.  [half_up] is [math::round::half_up(_, 7)] of the math crate. *)
From Coq Require Import List Bool Arith ZArith.
From Verif Require Import Base.Num Base.Result Base.Trans Model.Constants Model.Particle Model.Interp.
Import ListNotations.

Section StarTables.
  Context {F : Type} `{Num F} `{Trans F}.
  Variable half_up : F -> F.
  Local Open Scope num_scope.
  Definition row := list (option F).

  (** lines 68-236: which file; here the position of the mass in the list of files of the model
      ([None] is the panic for masses that are not supported) *)
  Definition between (lo hi m : F) : bool := (m <=? hi) && (m >=? lo).
  Definition thousandth (m : F) (n : Z) : bool := between (nlit (100 * n - 1) 1000) (nlit (100 * n + 1) 1000) m.
  Definition ten_thousandth (m : F) (n : Z) : bool := between (nlit (n - 1) 10000) (nlit (n + 1) 10000) m.
  Definition hundredths (m : F) (n : Z) : bool := nabs (m - nlit n 100) <? 1//10000000.
  Definition gallet_masses : list Z := [3; 4; 6; 7; 8; 9; 10; 11; 12; 14]%Z.
  Definition mathis_masses : list Z := [4; 5; 6; 7; 8; 9; 10; 11; 12; 13; 14; 15]%Z.
  Definition leconte_masses : list Z := [100; 120; 150; 200; 300; 400; 500; 600; 700; 720; 750; 800]%Z.
  Definition baraffe_small : list Z := [100; 150; 200; 300; 400; 500; 600; 700; 720; 750; 800]%Z.
  Definition baraffe_large : list Z := [9; 11; 13; 15; 17; 20; 30; 40; 50; 60; 70; 80; 90; 100; 110; 120; 130; 140]%Z.
  Definition model_file (e : evolution F) : option nat :=
    match e with
    | GalletBolmont2017 m => position (thousandth m) gallet_masses
    | BolmontMathis2016 m => position (thousandth m) mathis_masses
    | Leconte2011 m => position (ten_thousandth m) leconte_masses
    | Baraffe2015 m =>
        match position (ten_thousandth m) baraffe_small with
        | Some i => Some i
        | None => option_map (fun i => (length baraffe_small + i)%nat) (position (hundredths m) baraffe_large)
        end
    | Baraffe1998 m => if nabs (m - 10//100) <=? 1//10000000 then Some 0%nat
                       else if nabs (m - n1) <=? 1//10000000 then Some 1%nat else None
    | LeconteChabrier2013 _ | NonEvolving => Some 0%nat
    end.

  (** [row[k].parse::<f64>().unwrap()] *)
  Definition cell (k : nat) (r : row) : res F :=
    match nth_error r k with Some (Some x) => Ok x | _ => Panic POther end.
  (** line 242: [row[0].parse::<f64>().unwrap_or(-1.)] *)
  Definition raw_time (r : row) : res F :=
    match r with [] => Panic POther | None :: _ => Ok (nopp n1) | Some x :: _ => Ok x end.
  Definition year : F := 36525//100.
  Definition M2AU : F := n1 / AU.

  Record star_row := StarRow { sr_time : F; sr_radius : F; sr_rg2 : F; sr_love : F; sr_invq : F }.
  (** lines 247-327 *)
  Definition read_row (e : evolution F) (initial t : F) (r : row) : res star_row :=
    do raw_radius <- cell (match e with Baraffe2015 _ => 2 | GalletBolmont2017 _ => 3 | _ => 1 end) r;
    let '(time, radius) :=
      match e with
      | Leconte2011 _ => (t, raw_radius * R_SUN)
      | Baraffe1998 m =>
          if nabs (m - 10//100) <=? 1//10000000 then (t * year - initial, raw_radius * R_SUN)
          else if nabs (m - n1) <=? 1//10000000 then (t * year - initial, raw_radius * M2AU)
          else (n0, n0)
      | Baraffe2015 _ | BolmontMathis2016 _ => (t * year - initial, raw_radius * R_SUN)
      | GalletBolmont2017 _ => (tpow (#10) t * year - initial, raw_radius * R_SUN)
      | LeconteChabrier2013 _ => (t * year - initial, raw_radius * M2AU)
      | NonEvolving => (n0, n0)
      end in
    do rg2 <- match e with LeconteChabrier2013 _ | Baraffe2015 _ => cell 3 r | _ => Ok n0 end;
    do love <- match e with LeconteChabrier2013 _ => cell 2 r | _ => Ok n0 end;
    do invq <- match e with
               | BolmontMathis2016 _ => cell 2 r
               | GalletBolmont2017 _ => do x <- cell 10 r; Ok (n1 / tpow (#10) x)
               | LeconteChabrier2013 true => cell 5 r
               | _ => Ok n0
               end;
    Ok (StarRow time radius rg2 love invq).
  (** lines 241-363: a first row with a negative or unreadable time is taken for a header *)
  Fixpoint read_rows (first : bool) (e : evolution F) (initial : F) (rows : list row) : res (list star_row) :=
    match rows with
    | [] => Ok []
    | r :: rows =>
        do t <- raw_time r;
        if first && (t <? n0) then read_rows false e initial rows
        else do s <- read_row e initial t r; do l <- read_rows false e initial rows; Ok (s :: l)
    end.

  (** lines 366-427: the radius of gyration of brown dwarfs is interpolated at the times of the
      main file that the auxiliary one covers *)
  Definition restrict_and_interpolate (initial : F) (column : nat) (aux : list row) (time radius : list F)
      : res (list F * list F * list F) :=
    do aux_time <- rmap (cell 0) aux;
    do aux_rg2 <- rmap (cell column) aux;
    match time with
    | [] => Ok ([], radius, [])
    | _ =>
        do first <- index aux_time 0;
        do last <- index aux_time (pred (length aux_time));
        let '(time, radius) := match position (fun x => x >=? first) time with
                               | Some k => (skipn k time, skipn k radius) | None => (time, radius) end in
        let '(time, radius) := match position (fun x => x >? last) time with
                               | Some k => (firstn k time, firstn k radius) | None => (time, radius) end in
        do rg2 <- rmap (fun t => do r <- linear_interpolation t aux_time aux_rg2; Ok (half_up (fst r))) time;
        Ok (map (fun t => t * year - initial) time, radius, rg2)
    end.

  (** lines 61-444 *)
  Definition new_evolver (e : evolution F) (initial limit : F) (files : nat -> list row) (aux : list row) : res (evolver F) :=
    match model_file e with
    | None => Panic POther
    | Some file =>
        do l <- read_rows true e initial (files file);
        let kept := match e with NonEvolving => [] | _ => l end in
        let time := map sr_time kept in
        let radius := map sr_radius kept in
        do trr <- match e with
                  | Leconte2011 _ => restrict_and_interpolate initial (S file) aux time radius
                  | Baraffe2015 _ | LeconteChabrier2013 _ => Ok (time, radius, map sr_rg2 kept)
                  | _ => Ok (time, radius, [])
                  end;
        let '(time, radius, rg2) := trr in
        let love := match e with LeconteChabrier2013 _ => map sr_love kept | _ => [] end in
        let invq := if dynamical_tide e then map sr_invq kept else [] in
        if match time with [] => false | t :: _ => t >? n0 end then Panic POther
        else if match time with [] => false | t :: l => last l t <? limit end then Panic POther
        else Ok (Evolver e time radius rg2 love invq 0)
    end.
End StarTables.
Arguments row F : clear implicits.
Arguments star_row F : clear implicits.
