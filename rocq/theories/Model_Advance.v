(** Model of the level-by-level time stepping, /repo/src/fclaw2d_advance.c.

    Simplifications: times are exact rationals (the code uses double); pow_int
    (2, n) is 2^n; solver, ghost update and synchronisation are external and
    recorded as events; timers and counters of calls are left out.  A failed
    FCLAW_ASSERT, a division by zero and an endless loop are [None]. *)
From Coq Require Import ZArith QArith Qminmax List Bool Lia.
Import ListNotations.
Open Scope Z_scope.

(** Observable actions of fclaw2d_advance_all_levels. *)
Inductive event :=
| Step (level : Z) (t dt : Q)                 (* fclaw2d_update_single_step *)
| Interp (level : Z) (alpha : Q)              (* fclaw2d_timeinterp *)
| Ghost (lo hi : Z) (t : Q) (interp : bool)   (* fclaw2d_ghost_update *)
| Sync (lo hi : Z).                           (* fclaw2d_time_sync *)

(** Options and domain data used. *)
Record config := mkCfg {
  minlevel : Z; maxlevel : Z;                 (* fclaw_opt *)
  subcycle : bool; advance_one_step : bool; time_sync : bool;
  global_min : Z; global_max : Z; local_min : Z }. (* domain levels *)

(** fclaw2d_level_data_t, lines 41-50: entries that change, as functions of the
    level; [c_inc], [c_dt], [c_total] are set once. *)
Record counters := mkCnt {
  c_last : Z -> Z; c_time : Z -> Q;
  c_inc : Z -> Z; c_dt : Z -> Q; c_total : Z -> Z }.

Definition updl {A} (f : Z -> A) (l : Z) (v : A) : Z -> A := fun k => if k =? l then v else f k.

(** lines 55-116 initialize_timestep_counters: values set in iteration
    k = level - minlevel of the loop over levels *)
Definition init_counters (cfg : config) (t dt : Q) : counters :=
  let k l := Z.to_nat (l - minlevel cfg) in
  if subcycle cfg then
    mkCnt (fun _ => 0) (fun _ => t)
          (fun l => Nat.iter (k l) (fun s => s / 2) (2 ^ (global_max cfg - minlevel cfg)))
          (fun l => Nat.iter (k l) (fun d => d / 2)%Q dt)
          (fun l => Nat.iter (k l) (fun n => n * 2) 1)
  else
    let rf := 2 ^ (maxlevel cfg - minlevel cfg) in
    if advance_one_step cfg then
      mkCnt (fun _ => 0) (fun _ => t) (fun _ => 1) (fun _ => dt) (fun _ => 1)
    else
      mkCnt (fun _ => 0) (fun _ => t) (fun _ => 1) (fun _ => dt / inject_Z rf)%Q (fun _ => rf).

(** lines 126-138 increment_step_counter, increment_time *)
Definition increment (c : counters) (l : Z) : counters :=
  mkCnt (updl (c_last c) l (c_last c l + c_inc c l)) (updl (c_time c) l (c_time c l + c_dt c l)%Q)
        (c_inc c) (c_dt c) (c_total c).

(** lines 140-150 timeinterp_level; [fuel] bounds the loop *)
Fixpoint timeinterp_level (fuel : nat) (c : counters) (last_step ti : Z) : option Z :=
  match fuel with
  | O => None
  | S fuel' =>
    if c_inc c ti =? 0 then None else
    if last_step mod c_inc c ti =? 0 then timeinterp_level fuel' c last_step (ti - 1) else Some ti
  end.

Section Advance.
  Variable cfg : config.
  (** CFL number returned by the solver for a step (external) *)
  Variable cfl : Z -> Q -> Q -> Q.

  (** lines 152-168 compute_alpha *)
  Definition compute_alpha (c : counters) (level : Z) : option Q :=
    if negb (local_min cfg <? level) then None else
    let coarse_inc := c_inc c (level - 1) in
    if coarse_inc =? 0 then None else
    Some (inject_Z (c_last c level mod coarse_inc) / inject_Z coarse_inc)%Q.

  (** lines 187-241 advance_level: new counters, events, maxcfl *)
  Fixpoint advance_level (fuel : nat) (level curr_fine_step : Z) (maxcfl : Q) (c : counters)
    : option (counters * list event * Q) :=
    let t_level := c_time c level in
    let dt_level := c_dt c level in
    let cfl_step := cfl level t_level dt_level in
    let maxcfl := Qmax maxcfl cfl_step in
    let ev := [Step level t_level dt_level] in
    let c := increment c level in
    if (local_min cfg <? level) && (c_last c (level - 1) =? curr_fine_step) then
      match fuel with
      | O => None
      | S fuel' =>
        match advance_level fuel' (level - 1) (c_last c (level - 1)) maxcfl c with
        | None => None
        | Some (c', evs, cfl_step) =>
          let maxcfl := Qmax maxcfl cfl_step in
          if subcycle cfg then
            match compute_alpha c' level with
            | None => None
            | Some alpha => Some (c', ev ++ evs ++ [Interp (level - 1) alpha], maxcfl)
            end
          else Some (c', ev ++ evs, maxcfl)
        end
      end
    else Some (c, ev, maxcfl).

  (** lines 276-323: body of the fine step loop *)
  Definition fine_step (nf : Z) (maxcfl : Q) (c : counters) : option (counters * list event * Q) :=
    let M := global_max cfg in
    match advance_level (Z.to_nat (M - local_min cfg)) M nf maxcfl c with
    | None => None
    | Some (c, evs, cfl_step) =>
      let maxcfl := Qmax cfl_step maxcfl in
      let last_step := c_last c M in
      if last_step <? c_total c M then
        let sync_time := c_time c M in
        if subcycle cfg then
          match timeinterp_level (Z.to_nat (M - minlevel cfg)) c last_step (M - 1) with
          | None => None
          | Some ti =>
            Some (c, evs ++ [Ghost (ti + 1) M sync_time true] ++
                     (if time_sync cfg then [Sync (ti + 1) M] else []), maxcfl)
          end
        else
          Some (c, evs ++ [Ghost (global_min cfg) M sync_time false] ++
                   (if time_sync cfg then [Sync (global_min cfg) M] else []), maxcfl)
      else Some (c, evs, maxcfl)
    end.

  Fixpoint fine_steps (n : nat) (nf : Z) (maxcfl : Q) (c : counters)
    : option (counters * list event * Q) :=
    match n with
    | O => Some (c, [], maxcfl)
    | S n' =>
      match fine_step nf maxcfl c with
      | None => None
      | Some (c, evs, maxcfl) =>
        match fine_steps n' (nf + 1) maxcfl c with
        | None => None
        | Some (c, evs', maxcfl) => Some (c, evs ++ evs', maxcfl)
        end
      end
    end.

  (** lines 327-331: final assertions, level = local_minlevel .. global_maxlevel *)
  Definition levels_done (c : counters) : bool :=
    forallb (fun k => let l := local_min cfg + Z.of_nat k in
                      c_last c l =? c_inc c l * c_total c l)
            (seq 0 (Z.to_nat (global_max cfg + 1 - local_min cfg))).

  (** lines 247-357 fclaw2d_advance_all_levels: events and returned maxcfl *)
  Definition advance_all_levels (t dt : Q) : option (list event * Q) :=
    let c := init_counters cfg t dt in
    let M := global_max cfg in
    if negb (c_inc c M =? 1) then None else
    match fine_steps (Z.to_nat (c_total c M)) 0 0%Q c with
    | None => None
    | Some (c, evs, maxcfl) =>
      if negb (levels_done c) then None else
      Some (evs ++ [Ghost (global_min cfg) M (c_time c M) false] ++
            (if time_sync cfg then [Sync (global_min cfg) M] else []), maxcfl)
    end.
End Advance.
