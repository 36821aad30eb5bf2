(** Model of the time loops, /repo/src/fclaw2d_run.c.

    Simplifications: exact rational times.  fclaw2d_advance_all_levels, regridding and
    the reduction of the CFL number over processes are external functions of the
    solution state.  save_time_step/restore_time_step copy the solution state (see
    C16).  Log messages and timers are left out.  Diagnostics and frames are
    recorded as events with the time and the solution they see.  Division by a zero
    CFL number and the remainder by a zero step count are [Stuck]; [More] means that the
    loop has not ended after [fuel] passes. *)
From Coq Require Import ZArith QArith List Bool Lia.
Import ListNotations.
Open Scope Z_scope.

Record ropts := mkRopts {
  tfinal : Q; nout : Z; nstep : Z; initial_dt : Q; r_minlevel : Z; r_maxlevel : Z;
  use_fixed_dt : bool; reduce_cfl : bool; max_cfl : Q; desired_cfl : Q;
  r_subcycle : bool; r_advance_one_step : bool; outstyle_uses_maxlevel : bool;
  regrid_interval : Z }.

Inductive outcome (A : Type) := Ok (a : A) | Stuck | More.
Arguments Ok {A} a. Arguments Stuck {A}. Arguments More {A}.

Section Run.
  Variable St : Type.                          (* solution on all patches *)
  Variable advance : St -> Q -> Q -> St * Q.   (* fclaw2d_advance_all_levels *)
  Variable regrid : St -> St.                  (* fclaw2d_regrid *)
  Variable gmax : Q -> Q.                      (* fclaw2d_domain_global_maximum *)

  Inductive revent :=
  | Frame (iframe : Z) (t : Q) (s : St)        (* fclaw2d_output_frame *)
  | Diag (init : bool) (t : Q) (s : St)        (* fclaw2d_diagnostics_gather *)
  | Accept (t dt : Q) (s s' : St)              (* an accepted step *)
  | Reject (t dt : Q) (s s' : St)              (* a retaken step; [s'] after restoring *)
  | Regrid (t : Q).                            (* fclaw2d_regrid *)

  (** [r_time] is t_curr, [r_glob] glob->curr_time (what output sees) *)
  Record rstate := mkRst {
    r_sol : St; r_time : Q; r_glob : Q; r_dt : Q; r_n : Z; r_frame : Z; r_log : list revent }.

  Variable o : ropts.

  Definition level_factor : Z := 2 ^ (r_maxlevel o - r_minlevel o).

  Definition emit (r : rstate) (e : revent) : rstate :=
    mkRst (r_sol r) (r_time r) (r_glob r) (r_dt r) (r_n r) (r_frame r) (r_log r ++ [e]).
  Definition output_frame (r : rstate) : rstate := emit r (Frame (r_frame r) (r_glob r) (r_sol r)).
  Definition diagnostics (init : bool) (r : rstate) : rstate := emit r (Diag init (r_glob r) (r_sol r)).
  Definition next_frame (r : rstate) : rstate :=
    mkRst (r_sol r) (r_time r) (r_glob r) (r_dt r) (r_n r) (r_frame r + 1) (r_log r).

  (** lines 271-278, 414-421, 483-491 *)
  Definition maybe_regrid (r : rstate) : rstate :=
    if (0 <? regrid_interval o) && (r_n r mod regrid_interval o =? 0) then
      emit (mkRst (regrid (r_sol r)) (r_time r) (r_glob r) (r_dt r) (r_n r) (r_frame r) (r_log r))
           (Regrid (r_time r))
    else r.

  (** start of a run: solution, curr_time = 0 (set by fclaw2d_initialize), t0 = 0 *)
  Definition start (s : St) : rstate := mkRst s 0 0 (initial_dt o) 0 0 [].

  (** lines 153-280: body of the inner loop of outstyle_1 *)
  Definition pass1 (tend : Q) (r : rstate) : outcome rstate :=
    let saved := if use_fixed_dt o then None else Some (r_sol r) in
    let dt_step := if r_advance_one_step o then (r_dt r / inject_Z level_factor)%Q else r_dt r in
    let tol := ((1 # 100) * dt_step)%Q in
    let small_step := (tend - (r_time r + dt_step))%Q in
    let adjust := negb (use_fixed_dt o) && negb (Qle_bool tol small_step) in
    let took_small_step := adjust && negb (Qle_bool 0 small_step) in
    let dt_step := if adjust then (tend - r_time r)%Q else dt_step in
    let '(s', c) := advance (r_sol r) (r_time r) dt_step in
    let c := if reduce_cfl o then gmax c else c in
    if negb (Qle_bool c (max_cfl o)) && reduce_cfl o && negb (use_fixed_dt o) then
      if Qeq_bool c 0 then Stuck else
      match saved with
      | None => Stuck
      | Some s0 =>
        Ok (mkRst s0 (r_time r) (r_glob r) (r_dt r * desired_cfl o / c)%Q (r_n r) (r_frame r)
                  (r_log r ++ [Reject (r_time r) dt_step (r_sol r) s0]))
      end
    else
      if negb (use_fixed_dt o) && Qeq_bool c 0 then Stuck else
      let dt' := if negb (use_fixed_dt o) && negb took_small_step
                 then (r_dt r * desired_cfl o / c)%Q else r_dt r in
      let t' := (r_time r + dt_step)%Q in
      let r' := mkRst s' t' t' dt' (r_n r + 1) (r_frame r)
                      (r_log r ++ [Accept (r_time r) dt_step (r_sol r) s']) in
      let r' := if r_advance_one_step o then diagnostics false r' else r' in
      Ok (maybe_regrid r').

  (** line 152: while (t_curr < tend) *)
  Fixpoint while1 (fuel : nat) (tend : Q) (r : rstate) : outcome rstate :=
    if Qle_bool tend (r_time r) then Ok r else
    match fuel with
    | O => More
    | S fuel' => match pass1 tend r with Ok r' => while1 fuel' tend r' | Stuck => Stuck | More => More end
    end.

  (** lines 145-287: for (n = 0; n < nout; n++) *)
  Fixpoint for1 (fuel : nat) (n : nat) (dt_outer : Q) (r : rstate) : outcome rstate :=
    match n with
    | O => Ok r
    | S n' =>
      let r := mkRst (r_sol r) (r_time r) (r_time r) (r_dt r) (r_n r) (r_frame r) (r_log r) in
      match while1 fuel (r_time r + dt_outer)%Q r with
      | Ok r =>
        let r := diagnostics false r in
        let r := mkRst (r_sol r) (r_time r) (r_time r) (r_dt r) (r_n r) (r_frame r) (r_log r) in
        for1 fuel n' dt_outer (output_frame (next_frame r))
      | Stuck => Stuck
      | More => More
      end
    end.

  (** lines 119-290 outstyle_1 ([nout o] = 0 makes dt_outer infinite, but it is not used) *)
  Definition outstyle_1 (fuel : nat) (s : St) : outcome rstate :=
    let r := output_frame (diagnostics true (start s)) in
    let dt_outer := ((tfinal o - 0) / inject_Z (nout o))%Q in
    for1 fuel (Z.to_nat (nout o)) dt_outer r.

  (** lines 330-347 of outstyle_3 *)
  Definition step_factor : Z :=
    if negb (r_subcycle o) && r_advance_one_step o && negb (outstyle_uses_maxlevel o)
    then level_factor else 1.

  (** lines 353-442: one pass of the loop of outstyle_3 *)
  Definition pass3 (nstep_inner : Z) (r : rstate) : outcome rstate :=
    let dt_step := if negb (r_subcycle o) && r_advance_one_step o
                   then (r_dt r / inject_Z level_factor)%Q else r_dt r in
    let saved := if use_fixed_dt o then None else Some (r_sol r) in
    let '(s', c) := advance (r_sol r) (r_time r) dt_step in
    let c := if reduce_cfl o then gmax c else c in
    let tc := (r_time r + dt_step)%Q in
    if reduce_cfl o && negb (Qle_bool c (max_cfl o)) && negb (use_fixed_dt o) then
      if Qeq_bool c 0 then Stuck else
      match saved with
      | None => Stuck
      | Some s0 =>
        Ok (mkRst s0 (r_time r) (r_glob r) (r_dt r * desired_cfl o / c)%Q (r_n r) (r_frame r)
                  (r_log r ++ [Reject (r_time r) dt_step (r_sol r) s0]))
      end
    else
      if negb (use_fixed_dt o) && Qeq_bool c 0 then Stuck else
      let dt' := if negb (use_fixed_dt o) then (r_dt r * desired_cfl o / c)%Q else r_dt r in
      let r' := mkRst s' tc tc dt' (r_n r + 1) (r_frame r)
                      (r_log r ++ [Accept (r_time r) dt_step (r_sol r) s']) in
      let r' := maybe_regrid r' in
      if nstep_inner =? 0 then Stuck else
      if r_n r' mod nstep_inner =? 0 then Ok (output_frame (diagnostics false (next_frame r')))
      else Ok r'.

  Fixpoint while3 (fuel : nat) (nstep_outer nstep_inner : Z) (r : rstate) : outcome rstate :=
    if nstep_outer <=? r_n r then Ok r else
    match fuel with
    | O => More
    | S fuel' =>
      match pass3 nstep_inner r with
      | Ok r' => while3 fuel' nstep_outer nstep_inner r' | Stuck => Stuck | More => More end
    end.

  (** lines 308-446 outstyle_3 *)
  Definition outstyle_3 (fuel : nat) (s : St) : outcome rstate :=
    while3 fuel (nout o * step_factor) (nstep o * step_factor)
           (output_frame (diagnostics true (start s))).

  (** lines 470-507: one pass of the loop of outstyle_4 *)
  Definition pass4 (r : rstate) : outcome rstate :=
    let '(s', _) := advance (r_sol r) (r_time r) (r_dt r) in
    let t' := (r_time r + r_dt r)%Q in
    let r' := mkRst s' t' t' (r_dt r) (r_n r + 1) (r_frame r)
                    (r_log r ++ [Accept (r_time r) (r_dt r) (r_sol r) s']) in
    let r' := maybe_regrid r' in
    if nstep o =? 0 then Stuck else
    if r_n r' mod nstep o =? 0 then Ok (output_frame (next_frame (diagnostics false r')))
    else Ok r'.

  Fixpoint while4 (fuel : nat) (r : rstate) : outcome rstate :=
    if nout o <=? r_n r then Ok r else
    match fuel with
    | O => More
    | S fuel' => match pass4 r with Ok r' => while4 fuel' r' | Stuck => Stuck | More => More end
    end.

  (** lines 449-509 outstyle_4 *)
  Definition outstyle_4 (fuel : nat) (s : St) : outcome rstate :=
    while4 fuel (diagnostics true (output_frame (start s))).
End Run.
