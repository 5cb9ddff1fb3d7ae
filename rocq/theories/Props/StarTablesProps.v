(** * The tables of stellar and planetary models (property C79) *)
From Coq Require Import Reals List.
From Verif Require Import Base.Num Base.Result Base.Trans Model.Particle Model.Interp Model.StarTables
  Spec.TablesSpec Spec.StarTablesSpec Proofs.StarTablesProofs.
Import ListNotations.
Open Scope R_scope.

(** ** The file *)
(** At most one file is for a given mass; without one the program stops. *)
Theorem C79_one_file e i j : file_of e i -> file_of e j -> i = j.
Proof. exact (file_unique e i j). Qed.
Print Assumptions C79_one_file.
Theorem C79_unsupported_mass half_up e initial limit files aux :
  (forall i, ~ file_of e i) -> exists k, new_evolver half_up e initial limit files aux = Panic k.
Proof. exact (unsupported half_up e initial limit files aux). Qed.
Print Assumptions C79_unsupported_mass.

(** ** Units *)
(** The table of an accepted body has one line for each row of the file for its mass: the days since
    the start of the simulation and every quantity of the model, lengths in AU. *)
Theorem C79_rows half_up e initial limit files aux ev :
  new_evolver half_up e initial limit files aux = Ok ev ->
  (forall m, e <> Leconte2011 m) -> e <> NonEvolving ->
  ev_type ev = e /\ exists i, file_of e i /\
    ev_time ev = map (fun r => days initial (age e (raw_age r))) (data (files i)) /\
    forall q, tabulates e q = true -> map Some (column ev q) = map (entry e q) (data (files i)).
Proof.
  exact (fun A B N => conj (proj1 (accepted_type _ _ _ _ _ _ _ A)) (accepted_rows _ _ _ _ _ _ _ A (not_dwarf e B) N)).
Qed.
Print Assumptions C79_rows.
(** Brown dwarfs take the radii of gyration from another file, by interpolation, and keep the rows
    within its times. *)
Theorem C79_brown_dwarfs half_up m initial limit files aux ev i times gyrations :
  new_evolver half_up (Leconte2011 m) initial limit files aux = Ok ev -> file_of (Leconte2011 m) i ->
  map (number 0) aux = map Some times -> map (number (S i)) aux = map Some gyrations -> table times gyrations ->
  increasing (map raw_age (data (files i))) -> (exists r, In r (data (files i)) /\ covered times (raw_age r) = true) ->
  let kept := filter (fun r => covered times (raw_age r)) (data (files i)) in
  ev_time ev = map (fun r => days initial (raw_age r)) kept /\
  map Some (ev_radius ev) = map (entry (Leconte2011 m) QRadius) kept /\
  Forall2 (fun r v => exists w, interpolates times gyrations (raw_age r) w /\ v = half_up w) kept (ev_rg2 ev).
Proof. exact (fun A F T G U I O => dwarf_rows half_up m initial limit files aux ev A i times gyrations F T G U I O). Qed.
Print Assumptions C79_brown_dwarfs.

(** ** Use *)
(** An accepted table covers the simulation. *)
Theorem C79_covers half_up e initial limit files aux ev :
  new_evolver half_up e initial limit files aux = Ok ev -> ev_time ev <> [] ->
  nth 0 (ev_time ev) 0 <= 0 /\ limit <= nth (length (ev_time ev) - 1) (ev_time ev) 0.
Proof. exact (accepted_covers half_up e initial limit files aux ev). Qed.
Print Assumptions C79_covers.
(** A readable file is accepted exactly if its table covers the simulation (or is empty, see below). *)
Theorem C79_accepted half_up e initial limit files aux i : (forall m, e <> Leconte2011 m) -> e <> NonEvolving -> file_of e i ->
  (forall r, In r (files i) -> r <> []) -> (forall r, In r (data (files i)) -> readable e r) ->
  let time := map (fun r => days initial (age e (raw_age r))) (data (files i)) in
  (exists ev, new_evolver half_up e initial limit files aux = Ok ev) <->
  (time <> [] -> nth 0 time 0 <= 0 /\ limit <= nth (length time - 1) time 0).
Proof. exact (star_accepted half_up e initial limit files aux i). Qed.
Print Assumptions C79_accepted.
(** If the file has data with increasing ages, every quantity at every time is answered by the
    interpolation of the table (times that do not decrease, see C41). *)
Theorem C79_usable half_up e initial limit files aux ev i :
  new_evolver half_up e initial limit files aux = Ok ev -> e <> NonEvolving -> file_of e i ->
  data (files i) <> [] -> increasing (map raw_age (data (files i))) ->
  (forall m, e = Leconte2011 m -> exists times gyrations,
     map (number 0) aux = map Some times /\ map (number (S i)) aux = map Some gyrations /\ table times gyrations /\
     exists r, In r (data (files i)) /\ covered times (raw_age r) = true) ->
  well_tabulated ev /\ forall reqs, nondecreasing (map (fun '(_, t, _) => t) reqs) ->
    exists vs, get_all ev reqs = Ok vs /\ Forall2 (expected ev) reqs vs.
Proof. exact (all_usable half_up e initial limit files aux ev i). Qed.
Print Assumptions C79_usable.

(** No answer leaves the range of the file's values: a star with positive radii in the file never
    has another one. *)
Theorem C79_range half_up e initial limit files aux ev i q lo hi reqs :
  new_evolver half_up e initial limit files aux = Ok ev -> (forall m, e <> Leconte2011 m) -> e <> NonEvolving ->
  file_of e i -> data (files i) <> [] -> increasing (map raw_age (data (files i))) ->
  tabulates e q = true -> (forall r x, In r (data (files i)) -> entry e q r = Some x -> lo <= x <= hi) ->
  nondecreasing (map (fun '(_, t, _) => t) reqs) ->
  exists vs, get_all ev reqs = Ok vs /\ Forall2 (fun '(q', _, _) v => q' = q -> lo <= v <= hi) reqs vs.
Proof. exact (fun A B => star_range half_up e initial limit files aux ev i q lo hi reqs A (not_dwarf e B)). Qed.
Print Assumptions C79_range.

Example C79_example : exists ev, new_evolver (fun x => x) (LeconteChabrier2013 true) 365 3000 (fun _ => jupiter_file) [] = Ok ev /\
  data jupiter_file <> [] /\ increasing (map raw_age (data jupiter_file)).
Proof. exact (match jupiter_accepted with ex_intro _ ev E => ex_intro _ ev (conj E jupiter_ordered) end). Qed.
Example C79_brown_dwarfs_example : file_of (Leconte2011 (1/100)) 0 /\
  (exists ev, new_evolver (fun x => x) (Leconte2011 (1/100)) 731 (-1) (fun _ => dwarf_rows_file) gyration_file = Ok ev) /\
  table [1; 3] [1/5; 1/4] /\ increasing (map raw_age (data dwarf_rows_file)) /\
  exists r, In r (data dwarf_rows_file) /\ covered [1; 3] (raw_age r) = true.
Proof. exact (conj dwarf_file (conj dwarf_accepted dwarf_conditions)). Qed.

(** ** What is not checked *)
(** A file without data is accepted; the first request for any quantity then stops the program. *)
Theorem C79_accepted_usable_refuted half_up initial limit : exists e files ev,
  new_evolver half_up e initial limit files [] = Ok ev /\ forall q t current, get ev q t current = Panic PSplit.
Proof.
  exact (match empty_accepted half_up initial limit with ex_intro _ ev E => ex_intro _ (LeconteChabrier2013 true) (ex_intro _ (fun _ => [[None; None]]) (ex_intro _ ev E)) end).
Qed.
Print Assumptions C79_accepted_usable_refuted.
(** A row with an unreadable age (but the first) is accepted as one of age -1 year. *)
Theorem C79_readable_ages_refuted : exists ev,
  new_evolver (fun x => x) (LeconteChabrier2013 false) 0 3000 (fun _ => bad_file) [] = Ok ev /\
  (exists r, In r (data bad_file) /\ number 0 r = None) /\ ev_time ev = [days 0 0; days 0 (-1); days 0 10].
Proof. exact unreadable_refuted. Qed.
Print Assumptions C79_readable_ages_refuted.
