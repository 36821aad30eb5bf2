(** Model of GeoClaw's time loops, /repo/src/solvers/fc2d_geoclaw/fc2d_geoclaw_run.c: the
    loops of fclaw2d_run.c with extra steps while the sea floor moves.

    Simplifications as in Model_Run: exact rational times, external solver, regridding and
    reduction, no log messages and timers; glob->curr_dt (read by nobody in the library) is
    left out.  Output style 4 is the one of Model_Run.  [Stuck] is undefined behaviour
    (division by zero, a step count that does not fit into an int) or the exit of
    step_dtopo. *)
From Coq Require Import ZArith QArith Qround Qabs List Bool Lia.
From Verif Require Import Model_Run.
Import ListNotations.
Open Scope Z_scope.

Section GeoRun.
  Variable St : Type.                          (* solution on all patches *)
  Variable advance : St -> Q -> Q -> St * Q.   (* fclaw2d_advance_all_levels *)
  Variable regrid : St -> St.                  (* fclaw2d_regrid *)
  Variable gmax : Q -> Q.                      (* fclaw2d_domain_global_maximum *)
  Variable o : ropts.
  (** dtopo_interval (FC2D_GEOCLAW_GET_DTOPO_INTERVAL) and dt_max_dtopo *)
  Variables iv0 iv1 dt_max_dtopo : Q.

  Notation event := (revent St).
  Definition qlt (a b : Q) : bool := negb (Qle_bool b a).

  (** what step_dtopo changes: solution, glob->curr_time, maxcfl, and the calls made *)
  Record sub := mkSub { d_sol : St; d_glob : Q; d_cfl : Q; d_log : list event }.

  (** one call of fclaw2d_advance_all_levels: maxcfl becomes the larger number, and
      curr_time moves by the step (lines 157-162, 174-177) *)
  Definition sub_step (t dt : Q) (x : sub) : sub :=
    let '(s', c) := advance (d_sol x) t dt in
    mkSub s' (d_glob x + dt)%Q (if qlt (d_cfl x) c then c else d_cfl x)
          (d_log x ++ [Accept St t dt (d_sol x) s']).

  (** lines 155-163: for (n = 0; n < M; n++) *)
  Fixpoint sub_steps (M : nat) (dt1 : Q) (x : sub) : sub :=
    match M with
    | O => x
    | S k => sub_steps k dt1 (sub_step (d_glob x) dt1 x)
    end.

  (** lines 93-183 step_dtopo; curr_time is [glob] on entry *)
  Definition step_dtopo (tstart_outer tend_outer : Q) (s : St) (glob : Q) (log : list event)
    : outcome sub :=
    if Qle_bool iv1 tstart_outer || Qle_bool tend_outer iv0 then Stuck else
    (* step 1, lines 106-132: to the start of the motion; here maxcfl is just assigned *)
    let '(x, tstart_local) :=
      if qlt tstart_outer iv0 then
        let dt0 := (iv0 - tstart_outer)%Q in
        let '(s', c) := advance s tstart_outer dt0 in
        (mkSub s' (tstart_outer + dt0)%Q c (log ++ [Accept St tstart_outer dt0 s s']),
         (tstart_outer + dt0)%Q)
      else (mkSub s glob 0 log, tstart_outer) in
    (* step 2, lines 134-163 *)
    let tend_local := if qlt iv1 tend_outer then iv1 else tend_outer in
    let tend_local := if qlt (Qabs (tend_outer - tend_local))
                             ((1 # 100) * (tend_outer - tstart_outer))
                      then tend_outer else tend_local in
    let dt_dtopo := (tend_local - tstart_local)%Q in
    let dtmin := if qlt dt_dtopo dt_max_dtopo then dt_dtopo else dt_max_dtopo in
    if Qeq_bool dtmin 0 then Stuck else
    let M := Qceiling (dt_dtopo / dtmin) + 1 in
    if (M <? -2147483648) || (2147483647 <? M) || (M =? 0) then Stuck else
    let dt1 := (dt_dtopo / inject_Z M)%Q in
    let x := sub_steps (Z.to_nat M) dt1 x in
    (* step 3, lines 165-178 *)
    Ok (if qlt tend_local tend_outer
        then sub_step tend_local (tend_outer - tend_local)%Q x else x).

  (** lines 281-302 and 485-507: one outer step: state, CFL number, tc, took_step *)
  Definition outer_step (dt_step : Q) (r : rstate St) : outcome (sub * Q * bool) :=
    let tend_outer := (r_time _ r + dt_step)%Q in
    if negb (Qle_bool iv1 (r_time _ r) || Qle_bool tend_outer iv0) then
      match step_dtopo (r_time _ r) tend_outer (r_sol _ r) (r_glob _ r) (r_log _ r) with
      | Ok x => Ok (x, d_glob x, true)
      | Stuck => Stuck
      | More => More
      end
    else
      let '(s', c) := advance (r_sol _ r) (r_time _ r) dt_step in
      Ok (mkSub s' (r_glob _ r) c (r_log _ r ++ [Accept St (r_time _ r) dt_step (r_sol _ r) s']),
          tend_outer, false).

  (** lines 236-395: body of the inner loop of outstyle_1 *)
  Definition gpass1 (tend : Q) (r : rstate St) : outcome (rstate St) :=
    let saved := if use_fixed_dt o then None else Some (r_sol _ r) in
    let dt_step := if r_advance_one_step o then (r_dt _ r / inject_Z (level_factor o))%Q
                   else r_dt _ r in
    let tol := ((1 # 100) * dt_step)%Q in
    let small_step := (tend - (r_time _ r + dt_step))%Q in
    let adjust := negb (use_fixed_dt o) && negb (Qle_bool tol small_step) in
    let took_small_step := adjust && negb (Qle_bool 0 small_step) in
    let dt_step := if adjust then (tend - r_time _ r)%Q else dt_step in
    match outer_step dt_step r with
    | Stuck => Stuck
    | More => More
    | Ok (x, _, took_step) =>
      let c := if reduce_cfl o then gmax (d_cfl x) else d_cfl x in
      if negb took_step && (negb (Qle_bool c (max_cfl o)) && reduce_cfl o && negb (use_fixed_dt o))
      then
        if Qeq_bool c 0 then Stuck else
        match saved with
        | None => Stuck
        | Some s0 =>
          Ok (mkRst St s0 (r_time _ r) (r_glob _ r) (r_dt _ r * desired_cfl o / c)%Q (r_n _ r)
                    (r_frame _ r) (r_log _ r ++ [Reject St (r_time _ r) dt_step (r_sol _ r) s0]))
        end
      else
        if negb (use_fixed_dt o) && Qeq_bool c 0 then Stuck else
        let dt' := if negb (use_fixed_dt o) && negb took_small_step
                   then (r_dt _ r * desired_cfl o / c)%Q else r_dt _ r in
        let t' := (r_time _ r + dt_step)%Q in
        let r' := mkRst St (d_sol x) t' t' dt' (r_n _ r + 1) (r_frame _ r) (d_log x) in
        let r' := if r_advance_one_step o then diagnostics St false r' else r' in
        Ok (maybe_regrid St regrid o r')
    end.

  (** line 235: while (t_curr < tend) *)
  Fixpoint gwhile1 (fuel : nat) (tend : Q) (r : rstate St) : outcome (rstate St) :=
    if Qle_bool tend (r_time _ r) then Ok r else
    match fuel with
    | O => More
    | S fuel' =>
      match gpass1 tend r with Ok r' => gwhile1 fuel' tend r' | Stuck => Stuck | More => More end
    end.

  (** lines 229-402: for (n = 0; n < nout; n++) *)
  Fixpoint gfor1 (fuel : nat) (n : nat) (dt_outer : Q) (r : rstate St) : outcome (rstate St) :=
    match n with
    | O => Ok r
    | S n' =>
      let r := mkRst St (r_sol _ r) (r_time _ r) (r_time _ r) (r_dt _ r) (r_n _ r) (r_frame _ r)
                     (r_log _ r) in
      match gwhile1 fuel (r_time _ r + dt_outer)%Q r with
      | Ok r =>
        let r := diagnostics St false r in
        let r := mkRst St (r_sol _ r) (r_time _ r) (r_time _ r) (r_dt _ r) (r_n _ r) (r_frame _ r)
                       (r_log _ r) in
        gfor1 fuel n' dt_outer (output_frame St (next_frame St r))
      | Stuck => Stuck
      | More => More
      end
    end.

  (** lines 190-403 outstyle_1; unlike fclaw2d_run.c the frame comes before the
      diagnostics *)
  Definition goutstyle_1 (fuel : nat) (s : St) : outcome (rstate St) :=
    let r := diagnostics St true (output_frame St (start St o s)) in
    let dt_outer := ((tfinal o - 0) / inject_Z (nout o))%Q in
    gfor1 fuel (Z.to_nat (nout o)) dt_outer r.

  (** lines 468-589: one pass of the loop of outstyle_3; the diagnostics before a frame are
      commented out (line 586) *)
  Definition gpass3 (nstep_inner : Z) (r : rstate St) : outcome (rstate St) :=
    let dt_step := if negb (r_subcycle o) && r_advance_one_step o
                   then (r_dt _ r / inject_Z (level_factor o))%Q else r_dt _ r in
    let saved := if use_fixed_dt o then None else Some (r_sol _ r) in
    match outer_step dt_step r with
    | Stuck => Stuck
    | More => More
    | Ok (x, tc, took_step) =>
      let c := if reduce_cfl o then gmax (d_cfl x) else d_cfl x in
      if negb took_step && (reduce_cfl o && negb (Qle_bool c (max_cfl o)) && negb (use_fixed_dt o))
      then
        if Qeq_bool c 0 then Stuck else
        match saved with
        | None => Stuck
        | Some s0 =>
          Ok (mkRst St s0 (r_time _ r) (r_glob _ r) (r_dt _ r * desired_cfl o / c)%Q (r_n _ r)
                    (r_frame _ r) (r_log _ r ++ [Reject St (r_time _ r) dt_step (r_sol _ r) s0]))
        end
      else
        if negb (use_fixed_dt o) && Qeq_bool c 0 then Stuck else
        let dt' := if negb (use_fixed_dt o) then (r_dt _ r * desired_cfl o / c)%Q
                   else r_dt _ r in
        let r' := mkRst St (d_sol x) tc tc dt' (r_n _ r + 1) (r_frame _ r) (d_log x) in
        let r' := maybe_regrid St regrid o r' in
        let r' := if r_advance_one_step o then diagnostics St false r' else r' in
        if nstep_inner =? 0 then Stuck else
        if r_n _ r' mod nstep_inner =? 0 then Ok (output_frame St (next_frame St r')) else Ok r'
    end.

  Fixpoint gwhile3 (fuel : nat) (nstep_outer nstep_inner : Z) (r : rstate St)
    : outcome (rstate St) :=
    if nstep_outer <=? r_n _ r then Ok r else
    match fuel with
    | O => More
    | S fuel' =>
      match gpass3 nstep_inner r with
      | Ok r' => gwhile3 fuel' nstep_outer nstep_inner r' | Stuck => Stuck | More => More end
    end.

  (** lines 417-590 outstyle_3 *)
  Definition goutstyle_3 (fuel : nat) (s : St) : outcome (rstate St) :=
    gwhile3 fuel (nout o * step_factor o) (nstep o * step_factor o)
            (output_frame St (diagnostics St true (start St o s))).
End GeoRun.
