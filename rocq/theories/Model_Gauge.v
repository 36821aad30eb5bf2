(** Gauges: src/fclaw_gauges.c, src/solvers/fc2d_geoclaw/fc2d_geoclaw_gauges_default.c.

    Every process keeps all gauges.  The functions are called collectively; the actions of the processes in one
    call happen in any order, and each call is complete on all processes before the next one starts writing
    (between two calls there is a global reduction: fclaw2d_domain_search_points in fclaw_locate_gauges,
    fclaw2d_domain_global_maximum in the time loop, fclaw2d_run.c:206, 379).  Times are exact numbers.
    A gauge file is the list of samples appended to it after its header.
    A failed FCLAW_ASSERT, an index out of range or the use of an uninitialised value is [None]. *)
From Coq Require Import ZArith QArith List Bool.
From Verif Require Import Model_Search Model_Brick.
Import ListNotations.
Open Scope Z_scope.

Section Values.
  (** the data of one sample (level, q and aux values) *)
  Variable V : Type.
  (** fc2d_geoclaw_gauges_default.c:36-46 geoclaw_user_t: time and data *)
  Definition sample : Type := Q * V.

  (** fclaw_gauges.h:46-88 struct fclaw_gauge *)
  Record gauge := mkGauge {
    num : Z; xc : Q; yc : Q; t1 : Q; t2 : Q; min_time_increment : Q;
    last_time : Q; blockno : Z; patchno : Z; location : Z; is_local : option bool;
    buffer : list (option sample); next : Z }.

  (** ** Initialisation *)

  (** fclaw_gauges.c:103-113: buffer_len is the option gauge_buffer_length; FCLAW_ALLOC of a negative length fails *)
  Definition gauge_start (len : Z) (g : gauge) : option gauge :=
    check (0 <=? len) (Some (mkGauge (num g) (xc g) (yc g) (t1 g) (t2 g) (min_time_increment g)
                                     (t1 g) (-1) (-1) (-1) (is_local g) (repeat None (Z.to_nat len)) 0)).
  Definition set_place (g : gauge) (b loc : Z) : gauge :=
    mkGauge (num g) (xc g) (yc g) (t1 g) (t2 g) (min_time_increment g) (last_time g) b (patchno g) loc (is_local g) (buffer g) (next g).

  Section Place.
    Variable rnd : Q -> Q.
    Variables mi mj : Z.                                   (* options mi, mj *)
    (** the virtual function normalize_coordinates: block number and user coordinates *)
    Variable normalize : Z -> Q * Q -> Q * Q.
    (** corners (xll, yll), (xur, yur) of a block *)
    Variable box : Z -> option ((Q * Q) * (Q * Q)).

    (** gauges, coordinates, number_of_gauges_set *)
    Definition place_state : Type := list gauge * list (Q * Q) * Z.
    (** fclaw_gauges.c:187-214: body of the loop over the gauges for block [nb] *)
    Definition place (nb : Z) (corners : (Q * Q) * (Q * Q)) (i : nat) (st : place_state) : option place_state :=
      let '(gs, coordinates, ng) := st in
      let '((xll, yll), (xur, yur)) := corners in
      bind (nth_error gs i) (fun g =>
      let '(x, y) := normalize nb (xc g, yc g) in
      if Qle_bool xll x && Qle_bool x xur && Qle_bool yll y && Qle_bool y yur then
        bind (zput coordinates ng (rnd (inject_Z mi * rnd (x - xll)), rnd (inject_Z mj * rnd (y - yll)))%Q) (fun coordinates =>
        bind (put gs i (set_place g nb ng)) (fun gs => Some (gs, coordinates, ng + 1)))
      else Some st).
    Fixpoint foldM {A B} (f : A -> B -> option B) (l : list A) (b : B) : option B :=
      match l with [] => Some b | x :: l => bind (f x b) (foldM f l) end.
    (** fclaw_gauges.c:155-218: body of the loop over the blocks *)
    Definition place_block (n : nat) (nb : nat) (st : place_state * list Z) : option (place_state * list Z) :=
      let '(st, offsets) := st in
      bind (box (Z.of_nat nb)) (fun corners =>
      bind (foldM (place (Z.of_nat nb) corners) (seq 0 n) st) (fun st =>
      bind (zput offsets (Z.of_nat nb + 1) (snd st)) (fun offsets => Some (st, offsets)))).
    (** fclaw_gauges.c:62-221 gauge_initialize for at least one gauge; [coordinates] and [offsets] are the
        uninitialised arrays of num_gauges and num_blocks + 1 elements *)
    Definition gauge_initialize (len : Z) (num_blocks : nat) (gs : list gauge) (coordinates : list (Q * Q)) (offsets : list Z)
        : option (list gauge * list (Q * Q) * list Z) :=
      bind (mapM (gauge_start len) gs) (fun gs =>
      bind (zput offsets 0 0) (fun offsets =>
      bind (foldM (place_block (length gs)) (seq 0 num_blocks) ((gs, coordinates, 0), offsets)) (fun '((gs, coordinates, _), offsets) =>
      Some (gs, coordinates, offsets)))).
  End Place.

  (** fclaw_gauges.c:158-186: corners of the blocks *)
  Definition gauge_box (rnd : Q -> Q) (is_brick : bool) (brick : option block_ll) (nb : Z) : option ((Q * Q) * (Q * Q)) :=
    if is_brick then
      bind (c2m_nomap_brick rnd brick nb 0 0) (fun ll => bind (c2m_nomap_brick rnd brick nb 1 1) (fun ur => Some (ll, ur)))
    else Some ((0, 0), (1, 1))%Q.

  (** fc2d_geoclaw_gauges_default.c:203-230 geoclaw_gauge_normalize_coordinates *)
  Definition geoclaw_normalize (rnd : Q -> Q) (ax bx ay by_ : Q) (nb : Z) (p : Q * Q) : Q * Q :=
    (rnd (rnd (fst p - ax) / rnd (bx - ax)), rnd (rnd (snd p - ay) / rnd (by_ - ay)))%Q.

  (** ** Sampling *)

  Definition set_buffer (g : gauge) (b : list (option sample)) (n : Z) : gauge :=
    mkGauge (num g) (xc g) (yc g) (t1 g) (t2 g) (min_time_increment g) (last_time g) (blockno g) (patchno g) (location g) (is_local g) b n.
  Definition set_last (g : gauge) (t : Q) : gauge :=
    mkGauge (num g) (xc g) (yc g) (t1 g) (t2 g) (min_time_increment g) t (blockno g) (patchno g) (location g) (is_local g) (buffer g) (next g).
  Definition set_patch (g : gauge) (p : Z) : gauge :=
    mkGauge (num g) (xc g) (yc g) (t1 g) (t2 g) (min_time_increment g) (last_time g) (blockno g) p (location g) (Some (0 <=? p)) (buffer g) (next g).

  (** fc2d_geoclaw_gauges_default.c:233-279 geoclaw_gauge_update_default: the sample [v] of the patch at time
      [t] is stored by fclaw_gauges.c:517-523 fclaw_gauge_set_buffer_entry *)
  Definition update_gauge (t : Q) (v : V) (g : gauge) : option gauge :=
    bind (zput (buffer g) (next g) (Some (t, v))) (fun b => Some (set_buffer g b (next g))).
  (** fc2d_geoclaw_gauges_default.c:281-316 geoclaw_print_gauges_default: the lines appended to the file *)
  Definition print_gauge_buffer (g : gauge) : option (list sample) := mapM (fun x => x) (firstn (Z.to_nat (next g)) (buffer g)).
  Definition print_and_reset (g : gauge) : option (gauge * list sample) :=
    bind (print_gauge_buffer g) (fun out => Some (set_buffer g (buffer g) 0, out)).

  (** fclaw_gauges.c:224-273: body of the loop of gauge_update; new gauge and appended lines *)
  Definition gauge_update (len : Z) (tcurr : Q) (v : V) (g : gauge) : option (gauge * list sample) :=
    if Qle_bool (t1 g) tcurr && Qle_bool tcurr (t2 g) && Qle_bool (min_time_increment g) (tcurr - last_time g) then
      let g := set_last g tcurr in
      bind (is_local g) (fun loc =>
      if loc : bool then
        bind (update_gauge tcurr v g) (fun g =>
        let g := set_buffer g (buffer g) (next g + 1) in
        if next g =? len then print_and_reset g else Some (g, []))
      else check (next g =? 0) (Some (g, [])))
    else Some (g, []).

  (** fclaw_gauges.c:298-322: body of the loop of fclaw_locate_gauges; [results] is the output of
      fclaw2d_domain_search_points on this process *)
  Definition locate_gauge (num_gauges : Z) (results : list Z) (g : gauge) : option (gauge * list sample) :=
    let index := location g in
    check ((0 <=? index) && (index <? num_gauges))
    (bind (zget results index) (fun p =>
     let g := set_patch g p in
     if negb (0 <=? p) && (0 <? next g) then print_and_reset g else Some (g, []))).

  (** fclaw_gauges.c:334-346: body of the loop of gauge_finalize *)
  Definition finalize_gauge (g : gauge) : option (gauge * list sample) :=
    bind (is_local g) (fun loc => if loc : bool then bind (print_gauge_buffer g) (fun out => Some (g, out)) else Some (g, [])).

  (** ** All processes *)

  (** gauges of all processes (process, number) and the gauge files, numbered by [num] *)
  Record world := mkW { gauges : nat -> nat -> gauge; files : Z -> list sample }.
  (** one process treats one gauge *)
  Definition act (f : nat -> nat -> gauge -> option (gauge * list sample)) (pi : nat * nat) (w : world) : option world :=
    let '(p, i) := pi in
    let g := gauges w p i in
    bind (f p i g) (fun '(g', out) =>
    Some (mkW (fun p' i' => if Nat.eqb p' p && Nat.eqb i' i then g' else gauges w p' i')
              (fun id => if id =? num g then files w id ++ out else files w id))).

  (** collective calls: update at a time with the value each process would sample, locate with the results of
      the search on each process; [order]: the order in which the loop bodies are executed *)
  Inductive call := Update (t : Q) (v : nat -> nat -> V) | Locate (results : nat -> list Z) | Finalize.
  Definition body (len num_gauges : Z) (c : call) (p i : nat) (g : gauge) : option (gauge * list sample) :=
    match c with
    | Update t v => gauge_update len t (v p i) g
    | Locate r => locate_gauge num_gauges (r p) g
    | Finalize => finalize_gauge g
    end.
  Definition run_call (len num_gauges : Z) (c : call * list (nat * nat)) (w : world) : option world :=
    foldM (act (body len num_gauges (fst c))) (snd c) w.
  Definition run_calls (len num_gauges : Z) (cs : list (call * list (nat * nat))) (w : world) : option world :=
    foldM (run_call len num_gauges) cs w.
End Values.
