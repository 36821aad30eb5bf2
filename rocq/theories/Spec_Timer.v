(** What a user expects of the timing report. *)

From Coq Require Import NArith ZArith QArith List Bool.
From Verif Require Import Model_Timer.
Import ListNotations.
Open Scope Q_scope.

(** The clock never goes back. *)
Fixpoint forward (last : Q) (tr : list (event * Q)) : Prop :=
  match tr with
  | [] => True
  | (_, now) :: r => last <= now /\ forward now r
  end.

(** An execution of a program with clock readings attached. *)
Definition timed (p : prog) (tr : list (event * Q)) : Prop := exec p (map fst tr).

(** All timers cleared. *)
Definition cleared : timers := fun _ => timer_init.

(** The time during which timer [t] is switched on, between reading [last] and
    reading [now] at the end of the trace. *)
Fixpoint on_time (t : N) (on : bool) (last : Q) (tr : list (event * Q)) (end_ : Q) : Q :=
  match tr with
  | [] => if on then end_ - last else 0
  | (e, now) :: r =>
      (if on then now - last else 0) +
      on_time t (match e with
                 | Start u => if N.eqb u t then true else on
                 | Stop u => if N.eqb u t then false else on
                 end) now r end_
  end.

(** How many of the timers [ts] are on. *)
Definition how_many (ts : list N) (st : timers) : nat :=
  length (filter (fun t => running (st t)) ts).

(** The sum of the times shown for [ts]. *)
Definition shown_for (r : report) (t : N) : Q :=
  match find (fun x => N.eqb (fst x) t) (shown r) with Some (_, q) => q | None => 0 end.

Definition shown_sum (r : report) (ts : list N) : Q :=
  fold_right (fun t s => shown_for r t + s) 0 ts.

(** The timers the report calls exclusive (src/fclaw_timer.c, groups
    EXCLUSIVE1 and EXCLUSIVE2). *)
Definition exclusive1 : list N :=
  [REGRID; ADVANCE; GHOSTFILL; ADAPT_COMM; GHOSTPATCH_COMM; ELLIPTIC_SOLVE].
Definition exclusive2 : list N :=
  [INIT; OUTPUT; DIAGNOSTICS; PARTITION_COMM; DIAGNOSTICS_COMM; CFL_COMM].
Definition exclusive : list N := exclusive1 ++ exclusive2.

(** "The timers [fst] run, one at a time, only while one of [snd] runs." *)
Definition nested : list (list N * list N) :=
  [(exclusive, [WALLTIME]);
   ([GHOSTFILL_STEP1; GHOSTFILL_STEP2; GHOSTFILL_STEP3], [GHOSTFILL]);
   ([GHOSTFILL_COPY; GHOSTFILL_AVERAGE; GHOSTFILL_INTERP; GHOSTFILL_PHYSBC],
    [GHOSTFILL_STEP1; GHOSTFILL_STEP2; GHOSTFILL_STEP3]);
   ([ADVANCE_STEP2; ADVANCE_B4STEP2; TIMESYNC; EXTRA1], [ADVANCE]);
   ([REGRID_TAGGING; REGRID_BUILD], [INIT; REGRID]);
   ([PARTITION_BUILD], [PARTITION]);
   ([PARTITION; PARTITION_COMM], [WALLTIME]);
   ([GHOSTPATCH_BUILD; NEIGHBOR_SEARCH], [WALLTIME])].

(** Two threads: their calls in some interleaved order. *)
Inductive shuffle {A} : list A -> list A -> list A -> Prop :=
| shuffle_nil : shuffle [] [] []
| shuffle_left x a b c : shuffle a b c -> shuffle (x :: a) b (x :: c)
| shuffle_right x a b c : shuffle a b c -> shuffle a (x :: b) (x :: c).
