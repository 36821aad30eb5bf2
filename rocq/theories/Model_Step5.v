(** One step of the wave propagation algorithm on a patch (clawpack 5.x, 2D).

    src/solvers/fc2d_clawpack5/fortran_source: clawpack5_step2.f90, clawpack5_step2_wrap.f, clawpack5_flux2.f,
    clawpack5_inlinelimiter.f, clawpack5_set_amr_module.f90; src/solvers/fc2d_clawpack5/fc2d_clawpack5.cpp:243-350,
    fc2d_clawpack5_options.c:90-109.

    Numbers, memory and Riemann solvers as in Model_Step; the component is the first index of the arrays here and the
    last one there, which plays no role in the model.  Parts that are the same in both programs are those of Model_Step
    (the limiter's loops, the calls of the Riemann solvers, the Courant number, the correction at one interface).
    The 1d arrays are local variables of clawpack5_step2, the work array of the wrapper is only measured. *)
From Coq Require Import ZArith QArith Qminmax Qabs List Lia Bool.
From Verif Require Import Base_Float Model_Face Model_Grid Model_Step.
Import ListNotations.
Open Scope Z_scope.

(** clawpack5_inlinelimiter.f:59 "go to (10,20,30,40,50)": numbers beyond 5 continue with the next statement, minmod.
    The number is used there and in the tests for 0 and for more than 0 only, so numbers beyond 5 can be replaced by 1. *)
Definition five (S : solver) : solver :=
  mkS (mwaves S) (maux S) (mcapa S) (method2 S) (method3 S) (fun mw => if 5 <? mthlim S mw then 1 else mthlim S mw) (use_fwaves S) (rpn S) (rpt S).

Section Step5.
  Variable A : arith.
  Notation "x +. y" := (add A x y) (at level 50, left associativity).
  Notation "x -. y" := (sub A x y) (at level 50, left associativity).
  Notation "x *. y" := (mul A x y) (at level 40, left associativity).
  Notation "x /. y" := (quo A x y) (at level 40, left associativity).
  Infix ";;" := sq (at level 60, right associativity).
  Variable d : dims.
  (** the variables of clawpack5_amr_module, limiter numbers as in [five], and the Riemann solvers *)
  Variable S : solver.
  Local Notation wrm := (wrm d S).
  Local Notation rdm := (rdm d S).

  Section Slice.
    Variable ixy n : Z.            (* direction and number of cells ("mx" of the routine) *)
    Variable dt1 : nm.             (* the actual argument for dtdx1d *)
    (** flux2.f:101-110 *)
    Definition f_init5 : mem -> option mem :=
      loop (1 - mbc d) (n + mbc d) (fun i => loop 1 (meqn d) (fun m =>
        wrm (a1 FADDM i m) 0 ;; wrm (a1 FADDP i m) 0 ;; wrm (GADDM, (i, m, 1)) 0 ;; wrm (GADDP, (i, m, 1)) 0 ;;
        wrm (GADDM, (i, m, 2)) 0 ;; wrm (GADDP, (i, m, 2)) 0)).
    (** flux2.f:120-125 *)
    Definition f_godunov5 : mem -> option mem :=
      loop 1 (n + 1) (fun i => loop 1 (meqn d) (fun m s =>
        bind (rdm s (a1 APDQ i m)) (fun ap => bind (rdm s (a1 AMDQ i m)) (fun am =>
        (decm A d S (a1 FADDP i m) ap ;; incm A d S (a1 FADDM i m) am) s)))).
    (** flux2.f:145-175 *)
    Definition f_correct5 : mem -> option mem :=
      cond (limit S) (inlinelimiter A d S n) ;;
      loop 1 (n + 1) (fun i s =>
        bind (rdm s (a1 dt1 (i - 1) 1)) (fun dm => bind (rdm s (a1 dt1 i 1)) (fun di =>
        loop 1 (meqn d) (fun m => f_cq1 A d S i m ((1 # 2) *. (dm +. di))) s))).
    (** flux2.f:184-189 *)
    Definition f_split5 : mem -> option mem :=
      loop 1 (n + 1) (fun i => loop 1 (meqn d) (fun m s =>
        bind (rdm s (a1 CQXX i m)) (fun c => (incm A d S (a1 AMDQ i m) c ;; decm A d S (a1 APDQ i m) c) s))).
    (** flux2.f:182-231 *)
    Definition f_transverse5 : mem -> option mem :=
      cond ((1 <? method2 S) && (method3 S =? 2)) f_split5 ;;
      f_rpt d S ixy n 1 AMDQ ;;
      loop 1 (n + 1) (fun i => loop 1 (meqn d) (fun m => f_gadd1 A d S dt1 i (i - 1) (i - 1) m)) ;;
      f_rpt d S ixy n 2 APDQ ;;
      loop 1 (n + 1) (fun i => loop 1 (meqn d) (fun m => f_gadd1 A d S dt1 i i i m)).
    (** flux2.f:1-235 clawpack5_flux2 *)
    Definition flux2_5 (s : mem) : option (mem * Q) :=
      bind ((f_init5 ;; f_rpn d S ixy n ;; f_godunov5) s) (fun s =>
      bind (f_cfl A d S n dt1 s) (fun cfl1d =>
      bind ((cond (negb (method2 S =? 1)) f_correct5 ;; cond (negb (method3 S =? 0)) f_transverse5) s) (fun s =>
      Some (s, cfl1d)))).
  End Slice.

  (** step2.f90:91-105, 134-149; assignments of whole sections, element by element here (the arrays are different) *)
  Definition s_copy5 (n : Z) (dt1 : nm) (dtd : Q) (at_ : Z -> Z -> Z -> cell) (p : Z) : mem -> option mem :=
    cond (negb (0 <? mcapa S)) (loop (1 - mbc d) (maxm d + mbc d) (fun i => wrm (a1 dt1 i 1) dtd)) ;;
    s_copy A d S n dt1 dtd at_ p.
  (** step2.f90:118-123, 162-167 *)
  Definition s_update5 (n : Z) (ma pa mb pb : nm) (at_ : Z -> Z -> Z -> cell) (p : Z) : mem -> option mem :=
    loop 1 (meqn d) (fun m => loop 1 (n + 1) (fun i =>
      accm A d S (ma, at_ p i m) (a1 FADDM i m) ;; accm A d S (pa, at_ p i m) (a1 FADDP i m) ;;
      accm A d S (mb, at_ p i m) (GADDM, (i, m, 1)) ;; accm A d S (pb, at_ p i m) (GADDP, (i, m, 1)) ;;
      accm A d S (mb, at_ (p + 1) i m) (GADDM, (i, m, 2)) ;; accm A d S (pb, at_ (p + 1) i m) (GADDP, (i, m, 2)))).
  (** step2.f90:89-126, 131-169 *)
  Definition sweep5 (ixy n np : Z) (dt1 : nm) (dtd : Q) (ma pa mb pb : nm) (at_ : Z -> Z -> Z -> cell) : mem * Q -> option (mem * Q) :=
    loop (2 - mbc d) (np + mbc d - 1) (fun p '(s, cflgrid) =>
      bind (s_copy5 n dt1 dtd at_ p s) (fun s =>
      bind (flux2_5 ixy n dt1 s) (fun '(s, cfl1d) =>
      bind (s_update5 n ma pa mb pb at_ p s) (fun s =>
      Some (s, Qmax cflgrid cfl1d))))).
  (** step2.f90:1-172 clawpack5_step2; the corners (177-245) are set before the sweeps in x and not again *)
  Definition step2_5 (bcc : Z -> Z) (dx dy dt : Q) (s : mem) : option (mem * Q) :=
    let dtdx := dt /. dx in
    let dtdy := dt /. dy in
    bind ((s_zero d S ;; fix_corners d S bcc 0) s) (fun s =>
    bind (sweep5 1 (mx d) (my d) DTDX1 dtdx FM FP GM GP at_x (s, 0%Q)) (fun '(s, cfl) =>
    sweep5 2 (my d) (mx d) DTDY1 dtdy GM GP FM FP at_y (s, cfl))).

  (** what the caller passes: mwaves and mcapa of the options of the solver *)
  Variable capa waves : Z.
  (** step2_wrap.f:97-113 *)
  Definition w_update5 (dtdx dtdy : Q) : mem -> option mem :=
    loop 1 (meqn d) (fun m => loop 1 (mx d) (fun i => loop 1 (my d) (fun j s =>
      bind (rdm s (QOLD, (i, j, m))) (fun q =>
      bind (rdm s (FM, (i + 1, j, m))) (fun fme => bind (rdm s (FP, (i, j, m))) (fun fpw =>
      bind (rdm s (GM, (i, j + 1, m))) (fun gmn => bind (rdm s (GP, (i, j, m))) (fun gps =>
      if capa =? 0 then
        wrm (QOLD, (i, j, m)) ((q -. dtdx *. (fme -. fpw)) -. dtdy *. (gmn -. gps)) s
      else
        bind (rdm s (AUX, (i, j, capa))) (fun c =>
        wrm (QOLD, (i, j, m)) (q -. (dtdx *. (fme -. fpw) +. dtdy *. (gmn -. gps)) /. c) s))))))))).
  (** fc2d_clawpack5.cpp:313 (mwork) and step2_wrap.f:56-75 (mused); false is ierror = 1 *)
  Definition work_check5 : bool :=
    let w := maxm d + 2 * mbc d in
    let mwork := w * (12 * meqn d + (meqn d + 1) * waves + 3 * maux S + 2) in
    let faddp := 1 + w * meqn d in
    let gaddm := faddp + w * meqn d in
    let gaddp := gaddm + 2 * w * meqn d in
    let q1d := gaddp + 2 * w * meqn d in
    let dtdx1 := q1d + w * meqn d in
    let dtdy1 := dtdx1 + w in
    let aux1 := dtdy1 + w in
    let aux2 := aux1 + w * maux S in
    let aux3 := aux2 + w * maux S in
    let next := aux3 + w * maux S in
    negb (mwork <? next - 1).
  (** step2_wrap.f:1-115 clawpack5_step2_wrap: the memory and the Courant number *)
  Definition step2_wrap5 (bcc : Z -> Z) (dx dy dt : Q) (s : mem) : option (mem * Q) :=
    if work_check5 then
      bind (step2_5 bcc dx dy dt s) (fun '(s, cfl) =>
      bind (w_update5 (dt /. dx) (dt /. dy) s) (fun s => Some (s, cfl)))
    else None.
  (** fc2d_clawpack5.cpp:243-350 clawpack5_step2: the new solution and the Courant number; the parts for time_sync are
      those of Model_Sync *)
  Definition clawpack5_step2 (bcc : Z -> Z) (dx dy dt : Q) (garbage : mem) (q aux : arr) : option (arr * Q) :=
    bind (step2_wrap5 bcc dx dy dt (fun a => match fst a with QOLD => q (snd a) | AUX => aux (snd a) | _ => garbage a end)) (fun '(s, cfl) =>
    Some (fun c => s (QOLD, c), cfl)).
End Step5.

(** The options of a solver instance; [o_] what the user has set. *)
Record options5 := mkO5 { o_mwaves : Z; o_mcapa : Z; o_method2 : Z; o_method3 : Z; o_mthlim : Z -> Z; o_use_fwaves : bool }.
(** fc2d_clawpack5_options.c:90-109 (clawpack5_check) and set_amr_module.f90:1-22: the variables of the Fortran module are
    overwritten; [None] is "stop" (mthlim_len = 20, clawpack5_amr_module.f90:269) *)
Definition set_amr_module (o : options5) : option options5 := if 20 <? o_mwaves o then None else Some o.
(** the module after the options of all instances have been processed, in this order *)
Fixpoint module_after (module : options5) (l : list options5) : option options5 :=
  match l with [] => Some module | o :: l => bind (set_amr_module o) (fun m => module_after m l) end.
(** the solver as seen by clawpack5_step2: the module, the Riemann solvers and maux of the patch *)
Definition solver_of (module : options5) (maux : Z) rpn rpt : solver :=
  mkS (o_mwaves module) maux (o_mcapa module) (o_method2 module) (o_method3 module) (o_mthlim module) (o_use_fwaves module) rpn rpt.
(** fc2d_clawpack5.cpp:243: a step of the instance with options [o] *)
Definition instance_step A d (module o : options5) maux rpn rpt :=
  clawpack5_step2 A d (five (solver_of module maux rpn rpt)) (o_mcapa o) (o_mwaves o).
