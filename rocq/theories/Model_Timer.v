(** Model of ForestClaw's timers: the stop watches themselves
    (src/fclaw_timer.c), every place in the core library where one is started
    or stopped, and the report printed at the end of a run. *)

From Coq Require Import NArith ZArith QArith Qround List Bool.
Import ListNotations.
Open Scope Q_scope.

(** ** The stop watches *)

(** Names of timers: the enumeration of src/fclaw_timer.h:53-103.  The
    entries that are only columns of the report (UNACCOUNTED, the counters,
    LOCAL_COMM and GLOBAL_COMM) are never started and are omitted. *)
Definition INIT : N := 0.
Definition ADVANCE : N := 1.
Definition ELLIPTIC_SOLVE : N := 2.
Definition GHOSTFILL : N := 3.
Definition REGRID : N := 4.
Definition DIAGNOSTICS : N := 5.
Definition OUTPUT : N := 6.
Definition GHOSTPATCH_COMM : N := 7.
Definition ADAPT_COMM : N := 8.
Definition PARTITION_COMM : N := 9.
Definition DIAGNOSTICS_COMM : N := 10.
Definition CFL_COMM : N := 11.
Definition WALLTIME : N := 12.
Definition REGRID_BUILD : N := 20.
Definition REGRID_TAGGING : N := 21.
Definition TIMESYNC : N := 22.
Definition GHOSTPATCH_BUILD : N := 23.
Definition PARTITION : N := 24.
Definition PARTITION_BUILD : N := 25.
Definition ADVANCE_STEP2 : N := 26.
Definition ADVANCE_B4STEP2 : N := 27.
Definition GHOSTFILL_COPY : N := 28.
Definition GHOSTFILL_AVERAGE : N := 29.
Definition GHOSTFILL_INTERP : N := 30.
Definition GHOSTFILL_PHYSBC : N := 31.
Definition GHOSTFILL_STEP1 : N := 32.
Definition GHOSTFILL_STEP2 : N := 33.
Definition GHOSTFILL_STEP3 : N := 34.
Definition NEIGHBOR_SEARCH : N := 35.
Definition CUDA_ALLOCATE : N := 38.
Definition CUDA_MEMCOPY_H2H : N := 39.
Definition CUDA_MEMCOPY_H2D : N := 40.
Definition CUDA_MEMCOPY_D2H : N := 41.
Definition EXTRA1 : N := 42.
Definition EXTRA2 : N := 43.
Definition EXTRA3 : N := 44.
Definition EXTRA4 : N := 45.

(** One timer.  src/fclaw_timer.h (fclaw2d_timer_t): running, started,
    stopped, cumulative.  [stopped] is only an intermediate of
    [fclaw2d_timer_stop] and is left out; times are exact rationals. *)
Record cell := Cell { running : bool; started : Q; cumulative : Q }.

(** fclaw2d_timer_init, src/fclaw_timer.c:74-78. *)
Definition timer_init : cell := Cell false 0 0.

(** fclaw2d_timer_start, src/fclaw_timer.c:80-93; [None] is
    SC_ABORT_NOT_REACHED; [now] is the clock reading. *)
Definition timer_start (now : Q) (c : cell) : option cell :=
  if running c then None else Some (Cell true now (cumulative c)).

(** fclaw2d_timer_stop, src/fclaw_timer.c:95-108. *)
Definition timer_stop (now : Q) (c : cell) : option cell :=
  if running c then Some (Cell false (started c) (cumulative c + (now - started c)))
  else None.

(** The array glob->timers. *)
Definition timers := N -> cell.

Definition set_timer (t : N) (c : cell) (st : timers) : timers :=
  fun u => if N.eqb u t then c else st u.

(** What the code does to timers. *)
Inductive event := Start (t : N) | Stop (t : N).

Definition do_event (e : event) (now : Q) (st : timers) : option timers :=
  match e with
  | Start t => match timer_start now (st t) with Some c => Some (set_timer t c st) | None => None end
  | Stop t => match timer_stop now (st t) with Some c => Some (set_timer t c st) | None => None end
  end.

(** A sequence of timer calls, each with the reading of the clock. *)
Fixpoint do_events (tr : list (event * Q)) (st : timers) : option timers :=
  match tr with
  | [] => Some st
  | (e, now) :: r =>
      match do_event e now st with Some st' => do_events r st' | None => None end
  end.

(** ** Control flow

    The functions below are written in a small language that keeps only the
    timer calls and the control flow around them.  Conditions on options, on
    the grid and on computed values become nondeterministic choices and loop
    counts, so one program stands for every option setting, every grid and
    every number of steps.  User call-backs are taken not to touch timers. *)
Inductive prog :=
| Skip
| Ev (e : event)
| Seq (p q : prog)
| Choice (p q : prog)
| Loop (p : prog)
| Any (f : nat -> prog).

Inductive exec : prog -> list event -> Prop :=
| exec_skip : exec Skip []
| exec_ev e : exec (Ev e) [e]
| exec_seq p q a b : exec p a -> exec q b -> exec (Seq p q) (a ++ b)
| exec_left p q a : exec p a -> exec (Choice p q) a
| exec_right p q a : exec q a -> exec (Choice p q) a
| exec_done p : exec (Loop p) []
| exec_again p a b : exec p a -> exec (Loop p) b -> exec (Loop p) (a ++ b)
| exec_any f n a : exec (f n) a -> exec (Any f) a.

Definition start (t : N) : prog := Ev (Start t).
Definition stop (t : N) : prog := Ev (Stop t).
Definition maybe (p : prog) : prog := Choice p Skip.

Fixpoint block (l : list prog) : prog :=
  match l with [] => Skip | p :: r => Seq p (block r) end.

(** The idiom [if (running != FCLAW2D_TIMER_NONE) ...]. *)
Definition stop_caller (r : option N) : prog :=
  match r with Some t => stop t | None => Skip end.
Definition start_caller (r : option N) : prog :=
  match r with Some t => start t | None => Skip end.

(** get_face_neighbors, src/fclaw2d_face_neighbors.c:95-105, and
    get_corner_neighbor, src/fclaw2d_corner_neighbors.c:155-167. *)
Definition neighbor_search : prog := block [start NEIGHBOR_SEARCH; stop NEIGHBOR_SEARCH].

(** copy_samelevel, src/fclaw2d_ghost_fill.c:342-366: a loop over levels,
    patches, faces and corners. *)
Definition copy_samelevel : prog :=
  block [start GHOSTFILL_COPY; Loop neighbor_search; stop GHOSTFILL_COPY].

(** average_fine2coarse_ghost, src/fclaw2d_ghost_fill.c:370-401. *)
Definition average_fine2coarse_ghost : prog :=
  block [start GHOSTFILL_AVERAGE; Loop neighbor_search; stop GHOSTFILL_AVERAGE].

(** interpolate_coarse2fine_ghost, src/fclaw2d_ghost_fill.c:403-430. *)
Definition interpolate_coarse2fine_ghost : prog :=
  block [start GHOSTFILL_INTERP; Loop neighbor_search; stop GHOSTFILL_INTERP].

(** fill_physical_ghost, src/fclaw2d_ghost_fill.c:432-460. *)
Definition fill_physical_ghost : prog :=
  block [start GHOSTFILL_PHYSBC; stop GHOSTFILL_PHYSBC].

(** fclaw2d_exchange_ghost_patches_begin, src/fclaw2d_exchange.c:308-370. *)
Definition exchange_ghost_patches_begin (r : option N) : prog :=
  block [start GHOSTPATCH_BUILD; stop GHOSTPATCH_BUILD; stop_caller r;
         start GHOSTPATCH_COMM; stop GHOSTPATCH_COMM; start_caller r].

(** fclaw2d_exchange_ghost_patches_end, src/fclaw2d_exchange.c:373-413. *)
Definition exchange_ghost_patches_end (r : option N) : prog :=
  block [stop_caller r; start GHOSTPATCH_COMM; stop GHOSTPATCH_COMM; start_caller r;
         start GHOSTPATCH_BUILD; stop GHOSTPATCH_BUILD].

(** fclaw2d_ghost_update, src/fclaw2d_ghost_fill.c:836-853, which calls
    fclaw2d_ghost_update_async, :611-830.  fclaw2d_face_neighbor_ghost has no
    timer calls. *)
Definition ghost_update (r : option N) : prog :=
  block [stop_caller r; start GHOSTFILL;
         start GHOSTFILL_STEP1;
         average_fine2coarse_ghost; copy_samelevel; fill_physical_ghost;
         stop GHOSTFILL_STEP1;
         exchange_ghost_patches_begin (Some GHOSTFILL);
         start GHOSTFILL_STEP2;
         average_fine2coarse_ghost; copy_samelevel; fill_physical_ghost;
         interpolate_coarse2fine_ghost; fill_physical_ghost;
         stop GHOSTFILL_STEP2;
         exchange_ghost_patches_end (Some GHOSTFILL);
         start GHOSTFILL_STEP3;
         average_fine2coarse_ghost; copy_samelevel; fill_physical_ghost;
         interpolate_coarse2fine_ghost; fill_physical_ghost;
         stop GHOSTFILL_STEP3;
         stop GHOSTFILL; start_caller r].

(** The second variant, selected by editing the source:
    fclaw2d_ghost_update_nonasync, src/fclaw2d_ghost_fill.c:466-608. *)
Definition ghost_update_nonasync (r : option N) : prog :=
  block [stop_caller r; start GHOSTFILL;
         start GHOSTFILL_STEP1;
         average_fine2coarse_ghost; copy_samelevel; fill_physical_ghost;
         stop GHOSTFILL_STEP1;
         exchange_ghost_patches_begin (Some GHOSTFILL);
         exchange_ghost_patches_end (Some GHOSTFILL);
         start GHOSTFILL_STEP3;
         average_fine2coarse_ghost; copy_samelevel; fill_physical_ghost;
         interpolate_coarse2fine_ghost; fill_physical_ghost;
         stop GHOSTFILL_STEP3;
         stop GHOSTFILL; start_caller r].

(** fclaw2d_exchange_setup, src/fclaw2d_exchange.c:171-259. *)
Definition exchange_setup (r : option N) : prog :=
  block [start GHOSTPATCH_BUILD; stop GHOSTPATCH_BUILD; stop_caller r;
         start GHOSTPATCH_COMM; stop GHOSTPATCH_COMM; start_caller r;
         start GHOSTPATCH_BUILD; stop GHOSTPATCH_BUILD; stop_caller r;
         start GHOSTPATCH_COMM; stop GHOSTPATCH_COMM; start_caller r].

(** fclaw2d_exchange_delete, src/fclaw2d_exchange.c:262-300. *)
Definition exchange_delete : prog := block [start GHOSTPATCH_BUILD; stop GHOSTPATCH_BUILD].

(** fclaw2d_domain_reset, src/fclaw2d_domain.c:221-259: deletes the exchange
    data if the domain has any. *)
Definition domain_reset : prog := maybe exchange_delete.

(** fclaw2d_partition_domain, src/fclaw2d_partition.c:113-193. *)
Definition partition_domain (r : option N) : prog :=
  block [start PARTITION; start PARTITION_BUILD; stop PARTITION_BUILD;
         stop PARTITION; stop_caller r;
         start PARTITION_COMM; stop PARTITION_COMM;
         start PARTITION; start_caller r;
         maybe (block [start PARTITION_BUILD; domain_reset; stop PARTITION_BUILD]);
         stop PARTITION].

(** fclaw2d_regrid_set_neighbor_types, src/fclaw2d_regrid.c:395-400. *)
Definition regrid_set_neighbor_types : prog :=
  block [start NEIGHBOR_SEARCH; stop NEIGHBOR_SEARCH].

(** fclaw2d_regrid, src/fclaw2d_regrid.c:234-335. *)
Definition regrid : prog :=
  block [start REGRID; start REGRID_TAGGING; stop REGRID_TAGGING;
         stop REGRID; start ADAPT_COMM; stop ADAPT_COMM; start REGRID;
         maybe (block [start REGRID_BUILD; stop REGRID_BUILD; domain_reset;
                       partition_domain (Some REGRID); exchange_setup (Some REGRID);
                       regrid_set_neighbor_types; ghost_update (Some REGRID)]);
         stop REGRID].

(** fclaw2d_time_sync, src/fclaw2d_time_sync.c:157-202: the corrections query
    face neighbours (cb_face_fill, :98 and :115). *)
Definition time_sync : prog :=
  block [start TIMESYNC; Loop neighbor_search; stop TIMESYNC].

(** The update of one patch in a build without OpenMP:
    fc2d_clawpack46.cpp:416-434, fc2d_clawpack5.cpp:380-395,
    fc3d_clawpack46.cpp:421-439 (the same calls), and fc2d_geoclaw.cpp (no
    timer calls). *)
Definition patch_update : prog :=
  maybe (block [maybe (block [start ADVANCE_B4STEP2; stop ADVANCE_B4STEP2]);
                start ADVANCE_STEP2; stop ADVANCE_STEP2]).

(** fclaw2d_update_single_step, src/fclaw2d_update_single_step.c:72-105. *)
Definition update_single_step : prog := Loop patch_update.

(** advance_level, src/fclaw2d_advance.c:187-241; [n] is the number of levels
    below the one advanced. *)
Fixpoint advance_level (n : nat) : prog :=
  Seq update_single_step
      (match n with
       | O => Skip
       | S k => maybe (Seq (advance_level k) (maybe (block [start EXTRA1; stop EXTRA1])))
       end).

(** fclaw2d_advance_all_levels, src/fclaw2d_advance.c:246-358; both branches
    of [if (subcycle)] make the same calls. *)
Definition advance_all_levels : prog :=
  block [start ADVANCE;
         Loop (Seq (Any advance_level)
                   (maybe (Seq (ghost_update (Some ADVANCE)) (maybe time_sync))));
         ghost_update (Some ADVANCE); maybe time_sync;
         stop ADVANCE].

(** fclaw2d_output_frame, src/fclaw2d_output.c:35-66. *)
Definition output_frame : prog := maybe (block [start OUTPUT; stop OUTPUT]).

(** fclaw2d_diagnostics_reset, src/fclaw2d_diagnostics.c:183-207. *)
Definition diagnostics_reset : prog := block [start DIAGNOSTICS; stop DIAGNOSTICS].

(** fclaw2d_diagnostics_gather, src/fclaw2d_diagnostics.c:122-181. *)
Definition diagnostics_gather : prog :=
  block [start DIAGNOSTICS; stop DIAGNOSTICS; start DIAGNOSTICS_COMM; stop DIAGNOSTICS_COMM;
         diagnostics_reset].

(** fclaw2d_diagnostics_finalize, src/fclaw2d_diagnostics.c:209-233. *)
Definition diagnostics_finalize : prog := block [start DIAGNOSTICS; stop DIAGNOSTICS].

(** fclaw2d_elliptic_solve, src/fclaw2d_elliptic_solver.c:101-118. *)
Definition elliptic_solve : prog := block [start ELLIPTIC_SOLVE; stop ELLIPTIC_SOLVE].

Definition reduce_cfl : prog := maybe (block [start CFL_COMM; stop CFL_COMM]).

(** outstyle_0, src/fclaw2d_run.c:88-113. *)
Definition outstyle_0 : prog := Seq output_frame diagnostics_gather.

(** outstyle_1, src/fclaw2d_run.c:120-298; the inner [continue] when a step is
    rejected is the empty branch. *)
Definition outstyle_1 : prog :=
  block [diagnostics_gather; output_frame;
         Loop (block
           [Loop (block [advance_all_levels; reduce_cfl;
                         maybe (Seq (maybe diagnostics_gather) (maybe regrid))]);
            diagnostics_gather; output_frame])].

(** outstyle_3, src/fclaw2d_run.c:308-447. *)
Definition outstyle_3 : prog :=
  block [diagnostics_gather; output_frame;
         Loop (block [advance_all_levels; reduce_cfl;
                      maybe (Seq (maybe regrid)
                                 (maybe (Seq diagnostics_gather output_frame)))])].

(** outstyle_4, src/fclaw2d_run.c:450-509. *)
Definition outstyle_4 : prog :=
  block [output_frame; diagnostics_gather;
         Loop (block [advance_all_levels; maybe regrid;
                      maybe (Seq diagnostics_gather output_frame)])].

(** fclaw2d_run, src/fclaw2d_run.c:516-545; [None] is exit(0). *)
Definition run (outstyle : Z) : option prog :=
  match outstyle with
  | 0%Z => Some outstyle_0
  | 1%Z => Some outstyle_1
  | 3%Z => Some outstyle_3
  | 4%Z => Some outstyle_4
  | _ => None
  end.

(** fclaw2d_initialize, src/fclaw2d_initialize.c:86-248, after the timers were
    cleared (:98-101).  The level loop stops at the first level that produced
    no new patches (the [break]). *)
Definition initialize : prog :=
  block [start WALLTIME; start INIT;
         start REGRID_BUILD; stop REGRID_BUILD;
         exchange_setup (Some INIT); regrid_set_neighbor_types;
         maybe (ghost_update (Some INIT));
         (let tag := block [start REGRID_TAGGING; stop REGRID_TAGGING; stop INIT;
                            start ADAPT_COMM; stop ADAPT_COMM; start INIT] in
          Seq (Loop (block [tag; start REGRID_BUILD; stop REGRID_BUILD; domain_reset;
                            partition_domain (Some INIT); exchange_setup (Some INIT);
                            regrid_set_neighbor_types]))
              (maybe tag));
         maybe (ghost_update (Some INIT));
         stop INIT].

(** A program using the library: set-up, any sequence of runs and elliptic
    solves, and the first part of fclaw2d_finalize
    (src/fclaw2d_finalize.c:172-175), up to the report. *)
Definition application (outstyle : Z) : option prog :=
  match run outstyle with
  | Some r => Some (block [initialize; Loop (Choice r elliptic_solve); diagnostics_finalize])
  | None => None
  end.

(** The end of fclaw2d_finalize, src/fclaw2d_finalize.c:200. *)
Definition finalize_tail : prog := domain_reset.

(** ** The report *)

(** The timers passed to FCLAW2D_STATS_SET, src/fclaw_timer.c:135-171. *)
Definition reported : list N :=
  [INIT; OUTPUT; DIAGNOSTICS; REGRID; ADVANCE; GHOSTFILL; ADAPT_COMM; PARTITION_COMM;
   GHOSTPATCH_COMM; DIAGNOSTICS_COMM; CFL_COMM; WALLTIME; REGRID_BUILD; REGRID_TAGGING;
   TIMESYNC; PARTITION; PARTITION_BUILD; ADVANCE_STEP2; ADVANCE_B4STEP2; GHOSTPATCH_BUILD;
   GHOSTFILL_COPY; GHOSTFILL_AVERAGE; GHOSTFILL_INTERP; GHOSTFILL_PHYSBC; GHOSTFILL_STEP1;
   GHOSTFILL_STEP2; GHOSTFILL_STEP3; NEIGHBOR_SEARCH; CUDA_ALLOCATE; CUDA_MEMCOPY_H2H;
   CUDA_MEMCOPY_H2D; CUDA_MEMCOPY_D2H; ELLIPTIC_SOLVE; EXTRA1; EXTRA2; EXTRA3; EXTRA4].

(** Conversion of a double to int: towards zero; undefined outside the range
    of int. *)
Definition to_int (q : Q) : option Z :=
  let z := if Qle_bool 0 q then Qfloor q else Qceiling q in
  if (Z.leb (-2147483648) z && Z.leb z 2147483647)%bool then Some z else None.

Definition total (ts : list N) (st : timers) : Q :=
  fold_right (fun t s => cumulative (st t) + s) 0 ts.

(** The counters of the run used in the report, src/fclaw2d_global.h:59-68. *)
Record counts := Counts
  { n_advance : Z; n_grids : Z; n_local_boundary : Z; n_remote_boundary : Z }.

Record report := Report
  { shown : list (N * Q); unaccounted : Q; global_comm : Q; local_comm : Q;
    grids_per_proc : Z; grids_interior : Z; grids_local : Z; grids_remote : Z }.

(** [d > 0 ? d : 1], src/fclaw_timer.c:173-176. *)
Definition at_least_one (d : Z) : Z := if Z.ltb 0 d then d else 1%Z.

(** fclaw2d_timer_report, src/fclaw_timer.c:125-258: WALLTIME is stopped, every
    timer must be stopped, and the derived columns are computed.  [summary]
    says that the verbosity is FCLAW_TIMER_PRIORITY_SUMMARY.  The statistics
    over the processes and the printing (libsc) are not modelled: this is the
    contribution of one process. *)
Definition timer_report (summary : bool) (k : counts) (now : Q) (st0 : timers)
  : option (timers * report) :=
  match do_event (Stop WALLTIME) now st0 with
  | None => None
  | Some st =>
      if existsb (fun t => running (st t)) reported then None else
      let g := at_least_one (n_grids k) in
      let a := at_least_one (n_advance k) in
      let gpp := Z.quot g a in
      let glb := Z.quot (n_local_boundary k) a in
      let grb := Z.quot (n_remote_boundary k) a in
      match to_int (total [REGRID; ADVANCE; GHOSTFILL; ADAPT_COMM; ELLIPTIC_SOLVE;
                           GHOSTPATCH_COMM] st),
            to_int (total [INIT; OUTPUT; DIAGNOSTICS; PARTITION_COMM; DIAGNOSTICS_COMM;
                           CFL_COMM] st) with
      | Some ex1, Some ex2 =>
          let wall := cumulative (st WALLTIME) in
          let comm := total [ADAPT_COMM; GHOSTPATCH_COMM; PARTITION_COMM; DIAGNOSTICS_COMM;
                             CFL_COMM] st in
          Some (st,
                Report (map (fun t => (t, cumulative (st t))) reported)
                       (if summary then wall - inject_Z ex1
                        else wall - inject_Z ex1 - inject_Z ex2)
                       comm (wall - comm) gpp (gpp - glb)%Z glb grb)
      | _, _ => None
      end
  end.

(** The update of one patch with clawpack 5.x: the calls of
    fc2d_clawpack5.cpp:380-395, which are made in a build with OpenMP, too,
    where update_single_step runs the patches of a level on several threads
    (src/fclaw2d_update_single_step.c:87-90). *)
Definition patch_update_clawpack5 : prog :=
  block [maybe (block [start ADVANCE_B4STEP2; stop ADVANCE_B4STEP2]);
         start ADVANCE_STEP2; stop ADVANCE_STEP2].

(** The same with clawpack 4.6: the _threadsafe variants of
    src/fclaw_timer.c:110-123, which do nothing with OpenMP. *)
Definition patch_update_clawpack46 (openmp : bool) : prog :=
  if openmp then Skip else
  block [maybe (block [start ADVANCE_B4STEP2; stop ADVANCE_B4STEP2]);
         start ADVANCE_STEP2; stop ADVANCE_STEP2].
