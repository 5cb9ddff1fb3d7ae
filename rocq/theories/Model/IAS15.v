(** * The IAS15 integrator (src/integrator/ias15.rs)

    The update of the universe; clock output and snapshots are in [Model/Run.v].
    The code keeps every coefficient in an array indexed by body and axis, once for
    the accelerations and once (prefix [s]) for the torques; all operations act on
    one entry at a time.  The model has one record per entry.  Arrays which are
    written before they are read in every step ([x0], [v0], [a0], [at], [g], [s],
    [angular_momentum0], ...) are local values here. *)
From Coq Require Import List Bool ZArith.
From Verif Require Import Base.Num Base.Result Base.Trans Base.Vec Model.Constants Model.Particle
  Model.Creep Model.Relativity Model.Universe Model.WHFast.
Import ListNotations.

(** apply a scalar function to the three axes of any number of vectors *)
Definition each {B : Type} (f : (forall A : Type, vec A -> A) -> B) : vec B :=
  Vec (f (@vx)) (f (@vy)) (f (@vz)).
Definition axes {A : Type} (v : vec A) : list A := [vx v; vy v; vz v].
Definition zip2 {A B C : Type} (f : A -> B -> C) (a : list A) (b : list B) : list C :=
  map (fun ab => f (fst ab) (snd ab)) (combine a b).

Section IAS15.
  Context {F : Type} `{Num F} `{Trans F} `{Floor F} `{Fuel}.
  Local Open Scope num_scope.
  Local Notation P := (particle F).

  (** src/constants.rs:10-17 *)
  Definition INTEGRATOR_EPSILON : F := 1//1000000.
  Definition INTEGRATOR_MIN_DT : F := n0.
  Definition INTEGRATOR_MAX_DT : F := n0.
  Definition SAFETY_FACTOR : F := 1//4.

  (** ** Small helpers *)

  (** 1471-1476 *)
  Definition add_cs (p csp inp : F) : F * F :=
    let y := inp - csp in
    let new_p := p + y in
    (new_p, (new_p - p) - y).
  (** 1453-1461 *)
  Definition sqrt7_next (a x : F) : F := x + (a / (x * x * x * x * x * x) - x) / #7.
  Fixpoint repeat_n {A : Type} (n : nat) (f : A -> A) (x : A) : A :=
    match n with O => x | S n => repeat_n n f (f x) end.
  Definition sqrt7 (a : F) : F := repeat_n 20 (sqrt7_next a) n1.
  (** 1463-1469 *)
  Definition larger (a b : F) : F := if a >? b then a else b.

  (** ** Constants *)

  (** 482: the Gauss-Radau nodes *)
  Definition node (n : nat) : F :=
    match n with
    | 1 => 562625605369221464656521910318//10000000000000000000000000000000
    | 2 => 180240691736892364987579942780//1000000000000000000000000000000
    | 3 => 352624717113169637373907769648//1000000000000000000000000000000
    | 4 => 547153626330555383001448554766//1000000000000000000000000000000
    | 5 => 734210177215410531523210605558//1000000000000000000000000000000
    | 6 => 885320946839095768090359771030//1000000000000000000000000000000
    | 7 => 977520613561287501891174488626//1000000000000000000000000000000
    | _ => n0
    end%nat.
  (** 497: the differences [h_n - h_k], [k < n] (row [n]) *)
  Definition spacings (n : nat) : list F :=
    match n with
    | 1 => [562625605369221464656522//10000000000000000000000000]
    | 2 => [1802406917368923649875799//10000000000000000000000000;
            1239781311999702185219278//10000000000000000000000000]
    | 3 => [3526247171131696373739078//10000000000000000000000000;
            2963621565762474909082556//10000000000000000000000000;
            1723840253762772723863278//10000000000000000000000000]
    | 4 => [5471536263305553830014486//10000000000000000000000000;
            4908910657936332365357964//10000000000000000000000000;
            3669129345936630180138686//10000000000000000000000000;
            1945289092173857456275408//10000000000000000000000000]
    | 5 => [7342101772154105315232106//10000000000000000000000000;
            6779476166784883850575584//10000000000000000000000000;
            5539694854785181665356307//10000000000000000000000000;
            3815854601022408941493028//10000000000000000000000000;
            1870565508848551485217621//10000000000000000000000000]
    | 6 => [8853209468390957680903598//10000000000000000000000000;
            8290583863021736216247076//10000000000000000000000000;
            7050802551022034031027798//10000000000000000000000000;
            5326962297259261307164520//10000000000000000000000000;
            3381673205085403850889112//10000000000000000000000000;
            1511107696236852365671492//10000000000000000000000000]
    | 7 => [9775206135612875018911745//10000000000000000000000000;
            9212580530243653554255223//10000000000000000000000000;
            7972799218243951369035945//10000000000000000000000000;
            6248958964481178645172667//10000000000000000000000000;
            4303669872307321188897259//10000000000000000000000000;
            2433104363458769703679639//10000000000000000000000000;
            921996667221917338008147//10000000000000000000000000]
    | _ => []
    end%nat.
  (** 522: row [n] is used at node [n] *)
  Definition c_row (n : nat) : list F :=
    match n with
    | 2 => [(-562625605369221464656522)//10000000000000000000000000]
    | 3 => [101408028300636299864818//10000000000000000000000000;
            (-2365032522738145114532321)//10000000000000000000000000]
    | 4 => [(-35758977292516175949345)//10000000000000000000000000;
            935376952594620658957485//10000000000000000000000000;
            (-5891279693869841488271399)//10000000000000000000000000]
    | 5 => [19565654099472210769006//10000000000000000000000000;
            (-547553868890686864408084)//10000000000000000000000000;
            4158812000823068616886219//10000000000000000000000000;
            (-11362815957175395318285885)//10000000000000000000000000]
    | 6 => [(-14365302363708915424460)//10000000000000000000000000;
            421585277212687077072973//10000000000000000000000000;
            (-3600995965020568122897665)//10000000000000000000000000;
            12501507118406910258505441//10000000000000000000000000;
            (-18704917729329500633517991)//10000000000000000000000000]
    | 7 => [12717903090268677492943//10000000000000000000000000;
            (-387603579159067703699046)//10000000000000000000000000;
            3609622434528459832253398//10000000000000000000000000;
            (-14668842084004269643701553)//10000000000000000000000000;
            29061362593084293014237913//10000000000000000000000000;
            (-27558127197720458314421588)//10000000000000000000000000]
    | _ => []
    end%nat.
  (** 524: row [n] multiplies [b_n] *)
  Definition d_row (n : nat) : list F :=
    match n with
    | 1 => [562625605369221464656522//10000000000000000000000000]
    | 2 => [31654757181708292499905//10000000000000000000000000;
            2365032522738145114532321//10000000000000000000000000]
    | 3 => [1780977692217433881125//10000000000000000000000000;
            457929855060279188954539//10000000000000000000000000;
            5891279693869841488271399//10000000000000000000000000]
    | 4 => [100202365223291272096//10000000000000000000000000;
            84318571535257015445000//10000000000000000000000000;
            2535340690545692665214616//10000000000000000000000000;
            11362815957175395318285885//10000000000000000000000000]
    | 5 => [5637641639318207610//10000000000000000000000000;
            15297840025004658189490//10000000000000000000000000;
            978342365324440053653648//10000000000000000000000000;
            8752546646840910912297246//10000000000000000000000000;
            18704917729329500633517991//10000000000000000000000000]
    | 6 => [317188154017613665//10000000000000000000000000;
            2762930909826476593130//10000000000000000000000000;
            360285539837364596003871//10000000000000000000000000;
            5767330002770787313544596//10000000000000000000000000;
            22485887607691597933926895//10000000000000000000000000;
            27558127197720458314421588//10000000000000000000000000]
    | _ => []
    end%nat.

  (** ** Coefficients of one component *)
  Record coeffs := Co { q0 : F; q1 : F; q2 : F; q3 : F; q4 : F; q5 : F; q6 : F }.
  Definition co_list (b : coeffs) : list F := [q0 b; q1 b; q2 b; q3 b; q4 b; q5 b; q6 b].
  Definition list_co (l : list F) : coeffs :=
    Co (nth 0 l n0) (nth 1 l n0) (nth 2 l n0) (nth 3 l n0) (nth 4 l n0) (nth 5 l n0) (nth 6 l n0).
  Definition co_zero : coeffs := Co n0 n0 n0 n0 n0 n0 n0.
  Definition co_map2 (f : F -> F -> F) (a b : coeffs) : coeffs :=
    Co (f (q0 a) (q0 b)) (f (q1 a) (q1 b)) (f (q2 a) (q2 b)) (f (q3 a) (q3 b))
       (f (q4 a) (q4 b)) (f (q5 a) (q5 b)) (f (q6 a) (q6 b)).

  (** 552-574 *)
  Definition d (n i : nat) : F := nth i (d_row n) n0.
  Definition g_of_b (b : coeffs) : coeffs :=
    Co (q6 b * d 6 0 + q5 b * d 5 0 + q4 b * d 4 0 + q3 b * d 3 0 + q2 b * d 2 0 + q1 b * d 1 0 + q0 b)
       (q6 b * d 6 1 + q5 b * d 5 1 + q4 b * d 4 1 + q3 b * d 3 1 + q2 b * d 2 1 + q1 b)
       (q6 b * d 6 2 + q5 b * d 5 2 + q4 b * d 4 2 + q3 b * d 3 2 + q2 b)
       (q6 b * d 6 3 + q5 b * d 5 3 + q4 b * d 4 3 + q3 b)
       (q6 b * d 6 4 + q5 b * d 5 4 + q4 b)
       (q6 b * d 6 5 + q5 b)
       (q6 b).

  (** one component during a step: [b], its compensations [csb] (548-549), [g], the
      last acceleration (or torque) [at] and the last change of a [g] ([tmp]) *)
  Record line := Line { l_b : coeffs; l_csb : coeffs; l_g : coeffs; l_at : F; l_tmp : F }.
  Definition line_start (b : coeffs) : line := Line b co_zero (g_of_b b) n0 n0.

  (** [b_j, csb_j := add_cs(b_j, csb_j, inc_j)] for the leading coefficients *)
  Fixpoint bump (incs b cs : list F) : list F * list F :=
    match incs, b, cs with
    | i :: incs, x :: b, c :: cs =>
        let xc := add_cs x c i in
        let r := bump incs b cs in
        (fst xc :: fst r, snd xc :: snd r)
    | _, _, _ => (b, cs)
    end.
  (** [((gk/r_0 - g_0)/r_1 - g_1)/r_2 ...] *)
  Definition divided (gk : F) (rs g : list F) : F :=
    match rs with
    | [] => gk
    | r :: rs => fold_left (fun a gr => (a - fst gr) / snd gr) (combine g rs) (gk / r)
    end.
  Fixpoint set_nth {A : Type} (n : nat) (x : A) (l : list A) : list A :=
    match l with
    | [] => []
    | y :: l => match n with O => x :: l | S n => y :: set_nth n x l end
    end.
  (** 718-1016: one entry of the arm of [match n] for node [n] *)
  Definition line_update (n : nat) (a0 at' : F) (l : line) : line :=
    let gk := fst (let r := add_cs at' n0 (- a0) in add_cs (fst r) (snd r) n0) in
    let g := co_list (l_g l) in
    let new := divided gk (spacings n) g in
    let tmp := new - nth (n - 1) g n0 in
    let r := bump (map (fun c => tmp * c) (c_row n) ++ [tmp]) (co_list (l_b l)) (co_list (l_csb l)) in
    Line (list_co (fst r)) (list_co (snd r)) (list_co (set_nth (n - 1) new g)) at' tmp.

  (** ** Predictions inside the step *)

  (** 622-653, one component *)
  Definition predict_x (h dt csx x0 v0 a0 : F) (b : coeffs) : F :=
    let s0 := dt * h in
    let s1 := s0 * s0 / #2 in
    let s2 := s1 * h / #3 in
    let s3 := s2 * h / #2 in
    let s4 := #3 * s3 * h / #5 in
    let s5 := #2 * s4 * h / #3 in
    let s6 := #5 * s5 * h / #7 in
    let s7 := #3 * s6 * h / #4 in
    let s8 := #7 * s7 * h / #9 in
    (- csx + (s8 * q6 b + s7 * q5 b + s6 * q4 b + s5 * q3 b + s4 * q2 b + s3 * q1 b + s2 * q0 b + s1 * a0 + s0 * v0)) + x0.
  (** 656-690, one component (velocity, or angular momentum) *)
  Definition predict_v (h dt csv v0 a0 : F) (b : coeffs) : F :=
    let s0 := dt * h in
    let s1 := s0 * h / #2 in
    let s2 := #2 * s1 * h / #3 in
    let s3 := #3 * s2 * h / #4 in
    let s4 := #4 * s3 * h / #5 in
    let s5 := #5 * s4 * h / #6 in
    let s6 := #6 * s5 * h / #7 in
    let s7 := #7 * s6 * h / #8 in
    (- csv + s7 * q6 b + s6 * q5 b + s5 * q4 b + s4 * q3 b + s3 * q2 b + s2 * q1 b + s1 * q0 b + s0 * a0) + v0.

  (** ** What is kept between steps *)

  (** one component: [b], [br], [e], [er] *)
  Record memory := Mem { m_b : coeffs; m_br : coeffs; m_e : coeffs; m_er : coeffs }.
  (** one body: accelerations, torques, and the compensations [csx], [csv], [css] *)
  Record track := Track {
    k_a : vec memory; k_s : vec memory; k_csx : vec F; k_csv : vec F; k_css : vec F }.
  (** ias15.rs:83-232, without output fields *)
  Record ias := Ias {
    ia_u : universe F; ia_tracks : list track; ia_t : F; ia_dt : F; ia_last : F; ia_exceeded : nat }.
  Definition mem_zero : memory := Mem co_zero co_zero co_zero co_zero.
  Definition track_zero : track :=
    Track (Vec mem_zero mem_zero mem_zero) (Vec mem_zero mem_zero mem_zero) vzero vzero vzero.
  (** 236-410 [new] *)
  Definition ias_new (u : universe F) (dt : F) : ias :=
    Ias u (map (fun _ => track_zero) (u_particles u)) n0 dt n0 0.

  (** one body during a step *)
  Record work := Work {
    w_x0 : vec F; w_v0 : vec F; w_a0 : vec F; w_L0 : vec F; w_dL0 : vec F;
    w_a : vec line; w_s : vec line; w_track : track }.
  (** 534-574 *)
  Definition work_start (k : track) (p : P) : work :=
    Work (p_ipos p) (p_ivel p) (p_iacc p) (p_L p) (p_dL p)
         (each (fun x => line_start (m_b (x _ (k_a k))))) (each (fun x => line_start (m_b (x _ (k_s k))))) k.

  (** 634-690 *)
  Definition place (spin : bool) (h dt : F) (w : work) (p : P) : P :=
    let k := w_track w in
    let p := set_p_ipos (each (fun x => predict_x h dt (x _ (k_csx k)) (x _ (w_x0 w)) (x _ (w_v0 w)) (x _ (w_a0 w)) (l_b (x _ (w_a w))))) p in
    let p := set_p_ivel (each (fun x => predict_v h dt (x _ (k_csv k)) (x _ (w_v0 w)) (x _ (w_a0 w)) (l_b (x _ (w_a w))))) p in
    if spin then set_p_L (each (fun x => predict_v h dt (x _ (k_css k)) (x _ (w_L0 w)) (x _ (w_dL0 w)) (l_b (x _ (w_s w))))) p
    else p.
  (** 703-1016 *)
  Definition fit (spin : bool) (n : nat) (w : work) (p : P) : work :=
    Work (w_x0 w) (w_v0 w) (w_a0 w) (w_L0 w) (w_dL0 w)
         (each (fun x => line_update n (x _ (w_a0 w)) (x _ (p_iacc p)) (x _ (w_a w))))
         (if spin then each (fun x => line_update n (x _ (w_dL0 w)) (x _ (p_dL p)) (x _ (w_s w))) else w_s w)
         (w_track w).
  (** 448-458 and 692-701 *)
  Definition evaluate (t : F) (u : universe F) : res (universe F) :=
    do u <- gravity IgnoreNone u;
    do u <- inertial_to_heliocentric u;
    do u <- additional_effects t true true true IgnoreNone u;
    Ok (apply_corrections u).
  (** 618-1055: one node *)
  Definition node_step (spin : bool) (t dt : F) (s : universe F * list work) (n : nat) : res (universe F * list work) :=
    let '(u, ws) := s in
    let h := node n in
    let u := set_particles (zip2 (place spin h dt) ws (u_particles u)) u in
    do u <- evaluate (t + dt * h) u;
    Ok (u, zip2 (fit spin n) ws (u_particles u)).

  (** 1018-1032: the largest normal magnitude *)
  Definition largest (l : list F) : F :=
    fold_left (fun m x => let a := nabs x in if nnormal a && (a >? m) then a else m) l n0.
  Definition components (f : work -> vec F) (ws : list work) : list F := flat_map (fun w => axes (f w)) ws.
  Definition at_of (v : vec line) : vec F := each (fun x => l_at (x _ v)).
  Definition tmp_of (v : vec line) : vec F := each (fun x => l_tmp (x _ v)).
  Definition b6_of (v : vec line) : vec F := each (fun x => q6 (l_b (x _ v))).
  (** 1049-1051 *)
  Definition corrector_error (spin : bool) (ws : list work) : F :=
    let s f := if spin then largest (components (fun w => f (w_s w)) ws) else n0 in
    larger (largest (components (fun w => tmp_of (w_a w)) ws)) (s tmp_of)
    / larger (largest (components (fun w => at_of (w_a w)) ws)) (s at_of).

  (** 583-1057: the predictor-corrector loop; the boolean tells that it was left
      after twelve iterations *)
  Fixpoint corrector (n it : nat) (spin : bool) (t dt err last : F) (s : universe F * list work)
      : res (universe F * list work * bool) :=
    if err <? 1//10000000000000000 then Ok (s, false)
    else if Nat.ltb 2 it && (last <=? err) then Ok (s, false)
    else if Nat.leb 12 it then Ok (s, true)
    else
      match n with
      | O => Panic PNoTermination
      | S n =>
          do s <- rfold (node_step spin t dt) (seq 1 7) s;
          corrector n (S it) spin t dt (corrector_error spin (snd s)) err s
      end.

  (** ** Step size control *)

  (** 1083-1135: the error estimate of one body *)
  Definition slow (x v : vec F) (dt : F) : bool :=
    let sq (a : vec F) := vx a * vx a + vy a * vy a + vz a * vz a in
    nabs (sq v * dt * dt / sq x) <? 1//10000000000000000.
  (** [(maxak, maxb6k, max_dangular_momentum_dtk, maxb6ks)]; the third maximum is
      compared with the first one (line 1126) *)
  Definition error_component (spin : bool) (m : F * F * F * F) (c : line * line) : F * F * F * F :=
    let '(ma, mb, ms, mbs) := m in
    let up (x y old : F) := if nnormal x && (x >? y) then x else old in
    let ma := up (nabs (l_at (fst c))) ma ma in
    let mb := up (nabs (q6 (l_b (fst c)))) mb mb in
    if spin then (ma, mb, up (nabs (l_at (snd c))) ma ms, up (nabs (q6 (l_b (snd c)))) mbs mbs)
    else (ma, mb, ms, mbs).
  Definition error_body (spin : bool) (dt : F) (m : F * F * F * F) (pw : P * work) : F * F * F * F :=
    let '(p, w) := pw in
    if slow (p_ipos p) (p_ivel p) dt && (negb spin || slow (p_L p) (p_dL p) dt) then m
    else fold_left (error_component spin) (combine (axes (w_a w)) (axes (w_s w))) m.
  Definition integrator_error (spin : bool) (dt : F) (l : list P) (ws : list work) : F :=
    let '(ma, mb, ms, mbs) := fold_left (error_body spin dt) (combine l ws) (n0, n0, n0, n0) in
    larger mb mbs / larger ma ms.

  (** 1161-1222 *)
  Inductive decision := Reject (dt : F) | Accept (dt : F).
  Definition proposed (dt err : F) : F :=
    let n := if nnormal err then sqrt7 (INTEGRATOR_EPSILON / err) * dt else dt / SAFETY_FACTOR in
    let n := if nabs n <? INTEGRATOR_MIN_DT
             then if n >? n0 then nabs INTEGRATOR_MIN_DT else nopp n1 * nabs INTEGRATOR_MIN_DT
             else n in
    if (INTEGRATOR_MAX_DT >? n0) && (nabs n >? INTEGRATOR_MAX_DT) then nabs INTEGRATOR_MAX_DT else n.
  Definition decide (dt err : F) : decision :=
    let n := proposed dt err in
    if nabs (n / dt) <? SAFETY_FACTOR then Reject n
    else if (nabs (n / dt) >? n1) && (n / dt >? n1 / SAFETY_FACTOR) then Accept (dt / SAFETY_FACTOR)
    else Accept n.

  (** ** Prediction of the next coefficients, 1342-1451 *)
  Definition expand (q : F) (b : coeffs) : coeffs :=
    let r1 := q in
    let r2 := r1 * r1 in
    let r3 := r1 * r2 in
    let r4 := r2 * r2 in
    let r5 := r2 * r3 in
    let r6 := r3 * r3 in
    let r7 := r3 * r4 in
    Co (r1 * (q6 b * #7 + q5 b * #6 + q4 b * #5 + q3 b * #4 + q2 b * #3 + q1 b * #2 + q0 b))
       (r2 * (q6 b * #21 + q5 b * #15 + q4 b * #10 + q3 b * #6 + q2 b * #3 + q1 b))
       (r3 * (q6 b * #35 + q5 b * #20 + q4 b * #10 + q3 b * #4 + q2 b))
       (r4 * (q6 b * #35 + q5 b * #15 + q4 b * #5 + q3 b))
       (r5 * (q6 b * #21 + q5 b * #6 + q4 b))
       (r6 * (q6 b * #7 + q5 b))
       (r7 * q6 b).
  Definition predict_memory (q : F) (m : memory) : memory :=
    if q >? #20 then Mem co_zero (m_br m) co_zero (m_er m)
    else
      let e := expand q (m_br m) in
      Mem (co_map2 nadd e (co_map2 nsub (m_br m) (m_er m))) (m_br m) e (m_er m).
  Definition predict_track (spin : bool) (q : F) (k : track) : track :=
    Track (each (fun x => predict_memory q (x _ (k_a k))))
          (if spin then each (fun x => predict_memory q (x _ (k_s k))) else k_s k)
          (k_csx k) (k_csv k) (k_css k).

  (** ** End of the step, 1232-1336 *)

  Definition add_all (p : F * F) (incs : list F) : F * F :=
    fold_left (fun pc i => add_cs (fst pc) (snd pc) i) incs p.
  Definition final_x (dt csx x0 v0 a0 : F) (b : coeffs) : F * F :=
    let dt2 := dt * dt in
    add_all (x0, csx)
      [q6 b / #72 * dt2; q5 b / #56 * dt2; q4 b / #42 * dt2; q3 b / #30 * dt2; q2 b / #20 * dt2;
       q1 b / #12 * dt2; q0 b / #6 * dt2; a0 / #2 * dt2; v0 * dt].
  Definition final_v (dt csv v0 a0 : F) (b : coeffs) : F * F :=
    add_all (v0, csv)
      [q6 b / #8 * dt; q5 b / #7 * dt; q4 b / #6 * dt; q3 b / #5 * dt; q2 b / #4 * dt;
       q1 b / #3 * dt; q0 b / #2 * dt; a0 * dt].
  Definition store (b : coeffs) (m : memory) : memory := Mem b (m_br m) (m_e m) (m_er m).
  (** 1300-1328: [er := e], [br := b] *)
  Definition remember (m : memory) : memory := Mem (m_b m) (m_b m) (m_e m) (m_e m).
  Definition final_xs (dt : F) (w : work) : vec (F * F) :=
    each (fun x => final_x dt (x _ (k_csx (w_track w))) (x _ (w_x0 w)) (x _ (w_v0 w)) (x _ (w_a0 w)) (l_b (x _ (w_a w)))).
  Definition final_vs (dt : F) (w : work) : vec (F * F) :=
    each (fun x => final_v dt (x _ (k_csv (w_track w))) (x _ (w_v0 w)) (x _ (w_a0 w)) (l_b (x _ (w_a w)))).
  Definition final_Ls (dt : F) (w : work) : vec (F * F) :=
    each (fun x => final_v dt (x _ (k_css (w_track w))) (x _ (w_L0 w)) (x _ (w_dL0 w)) (l_b (x _ (w_s w)))).
  Definition firsts (v : vec (F * F)) : vec F := each (fun x => fst (x _ v)).
  Definition seconds (v : vec (F * F)) : vec F := each (fun x => snd (x _ v)).
  Definition finish (spin : bool) (dt : F) (w : work) (p : P) : P :=
    let p := set_p_ivel (firsts (final_vs dt w)) (set_p_ipos (firsts (final_xs dt w)) p) in
    if spin then set_p_L (firsts (final_Ls dt w)) p else p.
  (** the coefficients of the last iteration *)
  Definition keep_b (w : work) : track :=
    let k := w_track w in
    Track (each (fun x => store (l_b (x _ (w_a w))) (x _ (k_a k)))) (each (fun x => store (l_b (x _ (w_s w))) (x _ (k_s k))))
          (k_csx k) (k_csv k) (k_css k).
  Definition finish_track (spin : bool) (dt : F) (w : work) : track :=
    let k := keep_b w in
    Track (each (fun x => remember (x _ (k_a k)))) (each (fun x => remember (x _ (k_s k))))
          (seconds (final_xs dt w)) (seconds (final_vs dt w))
          (if spin then seconds (final_Ls dt w) else k_css k).
  (** 1186-1210: back to the start *)
  Definition restore (spin : bool) (w : work) (p : P) : P :=
    let p := set_p_iacc (w_a0 w) (set_p_ivel (w_v0 w) (set_p_ipos (w_x0 w) p)) in
    if spin then set_p_L (w_L0 w) (set_p_dL (w_dL0 w) p) else p.

  (** ** One pass of the main loop, 532-1338: [inl] rejected, [inr] accepted *)
  Definition attempt (s : ias) : res (ias + ias) :=
    let spin := integrate_spin (ia_u s) in
    let t := ia_t s in
    let dt := ia_dt s in
    let ws := zip2 work_start (ia_tracks s) (u_particles (ia_u s)) in
    do r <- corrector 12 0 spin t dt (nlit (10 ^ 300) 1) (#2) (ia_u s, ws);
    let '(u, ws, over) := r in
    let exceeded := if over then S (ia_exceeded s) else ia_exceeded s in
    match decide dt (integrator_error spin dt (u_particles u) ws) with
    | Reject new =>
        let u := set_particles (zip2 (restore spin) ws (u_particles u)) u in
        let ks := map keep_b ws in
        let ks := if negb (ia_last s =? n0) then map (predict_track spin (new / ia_last s)) ks else ks in
        Ok (inl (Ias u ks t new (ia_last s) exceeded))
    | Accept new =>
        let u := set_particles (zip2 (finish spin dt) ws (u_particles u)) u in
        let ks := map (predict_track spin (new / dt)) (map (finish_track spin dt) ws) in
        Ok (inr (Ias u ks (t + dt) new dt exceeded))
    end.
  (** the main loop: passes until one is accepted *)
  Fixpoint passes (n : nat) (s : ias) : res ias :=
    match n with
    | O => Panic PNoTermination
    | S n => do r <- attempt s; match r with inl s => passes n s | inr s => Ok s end
    end.
  (** 446-461: the part of [iterate] after the output *)
  Definition ias_step (s : ias) : res ias :=
    do u <- evaluate (ia_t s) (ia_u s);
    passes fuel (Ias u (ia_tracks s) (ia_t s) (ia_dt s) (ia_last s) (ia_exceeded s)).
  (** [n] consecutive steps *)
  Fixpoint ias_steps (n : nat) (s : ias) : res ias :=
    match n with O => Ok s | S n => do s <- ias_step s; ias_steps n s end.
End IAS15.
