(** The solution on all processes: what the calls of the ghost filling do to the arrays of the patches, the messages
    between processes, the step of the solver on all patches, and the sequence of these in a run (2D, clawpack 4.6).

    src/patches/clawpatch/fclaw2d_clawpatch.cpp:530-804, src/fclaw2d_patch.c:396-480, src/fclaw2d_exchange.c:303-413,
    src/fclaw2d_ghost_fill.c:466-860, src/fclaw2d_update_single_step.c, src/fclaw2d_advance.c,
    src/solvers/fc2d_clawpack4.6/fc2d_clawpack46.cpp:94-146, 260-440.

    Simplifications: those of Model_Fill, Model_Grid, Model_Corner, Model_Bc, Model_Ghost, Model_Step and Model_Advance.
    The processes make the same calls of the library in the same order, the messages of an exchange are all delivered
    (a process that fails stops all of them, [None]).  When two arguments of a routine are the same array, the routine sees the
    values before the call.  Memory of a patch other than the solution is not sent.  The user routines b4step2 and src2
    are absent; auxiliary arrays do not change; time_sync is off and time interpolation is not modelled here
    ([None]). *)
From Coq Require Import ZArith QArith List Bool.
From Verif Require Import Base_Float Model_Face Model_Mesh Spec_Mesh Model_Fill Model_FillExec.
From Verif Require Model_Grid Model_Corner Model_Bc Model_Ghost Model_Step Model_Advance.
Import ListNotations.
Open Scope Z_scope.

(** The program as configured by the user: rounding in the index transformations, arithmetic and Riemann solvers of the
    step, options of the patches and messages, boundary conditions, manifold, timeinterp2fillghost; and for each patch the
    quadrant, the area of its cells, the auxiliary array, the grid spacing and the number of blocks at its corners. *)
Record setup := mkSetup {
  s_rnd : Q -> Q; s_arith : Model_Step.arith; s_solver : Model_Step.solver; s_opts : Model_Ghost.gopts; s_mthbc : Z -> Z;
  s_manifold : bool; s_interp2fill : bool;
  s_geom : patch -> Model_Face.patch; s_area : patch -> Model_Grid.area_t; s_aux : patch -> Model_Grid.arr;
  s_dx : patch -> Q; s_dy : patch -> Q; s_corners : patch -> Z -> Z }.

(** the arrays of a process: those of its own patches and of its ghosts; the second one is griddata_time_interpolated *)
Definition dstate := patch -> bool -> Model_Grid.arr.
Definition put (D : dstate) (x : patch) (ti : bool) (q : Model_Grid.arr) : dstate :=
  fun y tj => if patch_eqb y x && eqb tj ti then q else D y tj.

Section Solve.
  Variable w : world.
  Variable views : Z -> view.
  Variable U : setup.
  Let d := Model_Ghost.g_d (s_opts U).

  (** forestclaw2d.c:583-588, fclaw2d_patch_transform.c: the integers of a transformation *)
  Definition ftrans_of (t : trans) : option ftrans :=
    match t with Inter f rf => Some (expand_face_transform_2d f rf) | Intra => Some face_transformation_intra | Unset => None end.
  (** the transform_data of a call *)
  Definition data_of (r : Z) (t : tdata) : option Model_Corner.cdata :=
    bind (gid w r (t_this t)) (fun a => bind (gid w r (t_nbr t)) (fun b => bind (ftrans_of (t_trans t)) (fun ft =>
    Some (Model_Corner.mkC (Model_Grid.mkT (s_geom U a) (s_geom U b) ft) (t_block_iface t) (t_icorner t) (t_block_corner t))))).
  (** fclaw2d_clawpatch.cpp:103-117 fill_ghost *)
  Definition fill_ghost (ti : bool) : bool := s_interp2fill U || negb ti.
  Definition store (D : dstate) (x : patch) (ti : bool) (q : option Model_Grid.arr) : option dstate :=
    bind q (fun q => Some (put D x ti q)).

  (** fclaw2d_clawpatch.cpp:532-804, fclaw2d_patch.c:396-480 (both entries of the corner routines are the same functions,
      fclaw2d_clawpatch.cpp:1353-1360); refratio is 2 *)
  Definition do_op (r : Z) (D : dstate) (op : op) : option dstate :=
    match op with
    | CopyFace x y f ti t =>
        with_patches w r x y (fun p q => bind (data_of r t) (fun c =>
        if fill_ghost ti then store D p ti (Model_Grid.copy_face (s_rnd U) d (D p ti) (D q ti) f (Model_Corner.face_data c)) else Some D))
    | AvgFace x y idir f _ ti t =>
        with_patches w r x y (fun p q => bind (data_of r t) (fun c =>
        store D p ti (Model_Grid.average_face (s_rnd U) d (D p ti) (D q false) (s_area U q) idir f 2 (s_manifold U) (Model_Corner.face_data c))))
    | IntFace x y idir f _ ti t =>
        with_patches w r x y (fun p q => bind (data_of r t) (fun c =>
        if fill_ghost ti then store D q false (Model_Corner.interpolate_face (s_rnd U) d (D p ti) (D q false) idir f 2 (Model_Corner.face_data c)) else Some D))
    | CopyCorner x y _ _ _ k ti t =>
        with_patches w r x y (fun p q => bind (data_of r t) (fun c =>
        if fill_ghost ti then store D p ti (Model_Corner.copy_corner (s_rnd U) d (D p ti) (D q ti) k c) else Some D))
    | AvgCorner x y _ _ _ k ti t =>
        with_patches w r x y (fun p q => bind (data_of r t) (fun c =>
        if fill_ghost ti then store D p ti (Model_Corner.average_corner (s_rnd U) d (D p ti) (D q false) (s_area U q) 2 (s_manifold U) k c) else Some D))
    | IntCorner x y _ _ _ k ti t =>
        with_patches w r x y (fun p q => bind (data_of r t) (fun c =>
        if fill_ghost ti then store D q false (Model_Corner.interpolate_corner (s_rnd U) d (D p ti) (D q false) 2 k c) else Some D))
    | Physical x _ _ faces ti =>
        bind (gid w r x) (fun p => store D p ti (Model_Bc.clawpack46_bc2 d (s_mthbc U) faces (D p ti)))
    | SyncF2C _ _ _ _ _ _ _ _ _ _ | SyncSame _ _ _ _ _ => None
    end.
  Fixpoint do_ops (r : Z) (ops : list op) (D : dstate) : option dstate :=
    match ops with [] => Some D | op :: ops => bind (do_op r D op) (do_ops r ops) end.

  (** the solution as part of the memory of a patch *)
  Definition memory_of (q : Model_Grid.arr) : Model_Ghost.memory := fun l => match l with Model_Ghost.LQ c => q c | _ => None end.
  (** fclaw2d_exchange.c:327-352, 389-413: the owner packs the patch into the message, the receiver unpacks it; [old] is the message
      buffer before *)
  Definition pack (q : Model_Grid.arr) (old : Model_Ghost.buffer) : option Model_Ghost.buffer :=
    Model_Ghost.local_ghost_pack (s_opts U) (memory_of q) old.
  Definition unpack_one (q : Model_Grid.arr) (b : Model_Ghost.buffer) : option Model_Grid.arr :=
    bind (Model_Ghost.remote_ghost_unpack (s_opts U) (memory_of q) b) (fun m => Some (fun c => m (Model_Ghost.LQ c))).

  (** fclaw2d_exchange.c:303-413, as in Model_FillExec.unpack: the ghosts of level at least minlevel - 1 are unpacked, those
      without a message from the old contents of the buffer *)
  Definition unpack_ghost (minlevel maxlevel : Z) (ti : bool) (old : patch -> Model_Ghost.buffer) (sent : Z -> dstate)
      (D : dstate) (x : patch) : option dstate :=
    if minlevel - 1 <=? level_of w x then
      let tj := ti && (level_of w x =? minlevel - 1) in
      bind (if ((if ti then minlevel - 1 else minlevel) <=? level_of w x) && (level_of w x <=? maxlevel)
               && v_on_boundary (views (fst x)) (block_of w x) (snd x - before w (fst x) (block_of w x))
            then pack (sent (fst x) x tj) (old x) else Some (old x)) (fun b =>
      store D x tj (unpack_one (D x tj) b))
    else Some D.
  Fixpoint unpack_ghosts (minlevel maxlevel : Z) (ti : bool) (old : patch -> Model_Ghost.buffer) (sent : Z -> dstate)
      (l : list patch) (D : dstate) : option dstate :=
    match l with [] => Some D | x :: l => bind (unpack_ghost minlevel maxlevel ti old sent D x) (unpack_ghosts minlevel maxlevel ti old sent l) end.

  (** all processes *)
  Definition everywhere (f : Z -> option dstate) (G : Z -> dstate) : option (Z -> dstate) :=
    check (forallb (fun q => match f q with Some _ => true | None => false end) (zrange 0 (procs w)))
          (Some (fun q => match f q with Some D => D | None => G q end)).

  (** fclaw2d_ghost_fill.c:466-860 fclaw2d_ghost_update *)
  Definition fill_update (async : bool) (minlevel maxlevel : Z) (ti : bool) (old : Z -> patch -> Model_Ghost.buffer)
      (G : Z -> dstate) : option (Z -> dstate) :=
    bind (everywhere (fun r => bind (before_send (views r) minlevel maxlevel ti) (fun ops => do_ops r ops (G r))) G) (fun sent =>
    everywhere (fun r =>
      bind (while_sending (views r) async minlevel maxlevel ti) (fun ops =>
      bind (do_ops r ops (sent r)) (fun D =>
      bind (unpack_ghosts minlevel maxlevel ti (old r) sent (layer w r) D) (fun D =>
      bind (after_receive (views r) async minlevel maxlevel ti) (fun ops => do_ops r ops D))))) G).

  (** fclaw2d_update_single_step.c:46-72 cb_single_step, fc2d_clawpack46.cpp:399-440 clawpack46_update *)
  Definition single_step (r : Z) (dt : Q) (garbage : patch -> Model_Step.mem) (D : dstate) (bn : Z * Z) : option dstate :=
    let x := (r, before w r (fst bn) + snd bn) in
    bind (Model_Step.clawpack46_step2 (s_arith U) d (s_solver U) (s_corners U x) (s_dx U x) (s_dy U x) dt (garbage x) (D x false) (s_aux U x)) (fun '(q, _) =>
    Some (put D x false q)).
  (** fclaw2d_update_single_step.c:75-106: all patches of a level *)
  Fixpoint step_patches (r : Z) (dt : Q) (garbage : patch -> Model_Step.mem) (l : list (Z * Z)) (D : dstate) : option dstate :=
    match l with [] => Some D | bn :: l => bind (single_step r dt garbage D bn) (step_patches r dt garbage l) end.
  Definition update_single_step (level : Z) (dt : Q) (garbage : patch -> Model_Step.mem) (G : Z -> dstate) : option (Z -> dstate) :=
    everywhere (fun r => step_patches r dt garbage (v_level (views r) level) (G r)) G.

  (** contents of memory that is not initialised, depending on the time: work arrays, message buffers *)
  Record rubbish := mkRubbish { r_work : Q -> patch -> Model_Step.mem; r_buffer : Q -> Z -> patch -> Model_Ghost.buffer }.

  (** the actions of fclaw2d_advance.c *)
  Definition act (async : bool) (R : rubbish) (G : Z -> dstate) (e : Model_Advance.event) : option (Z -> dstate) :=
    match e with
    | Model_Advance.Step level t dt => update_single_step level dt (r_work R t) G
    | Model_Advance.Ghost lo hi t ti => fill_update async lo hi ti (r_buffer R t) G
    | Model_Advance.Interp _ _ | Model_Advance.Sync _ _ => None
    end.
  Fixpoint acts (async : bool) (R : rubbish) (l : list Model_Advance.event) (G : Z -> dstate) : option (Z -> dstate) :=
    match l with [] => Some G | e :: l => bind (act async R G e) (acts async R l) end.
  (** fclaw2d_advance.c:247-357 fclaw2d_advance_all_levels *)
  Definition advance (async : bool) (R : rubbish) (cfg : Model_Advance.config) (cfl : Z -> Q -> Q -> Q) (G : Z -> dstate) (t dt : Q) : option (Z -> dstate) :=
    bind (Model_Advance.advance_all_levels cfg cfl t dt) (fun '(l, _) => acts async R l G).
  (** calls of fclaw2d_advance_all_levels at the times and with the steps in the list (fclaw2d_run.c:199, 371, 474) *)
  Fixpoint advances (async : bool) (R : rubbish) (cfg : Model_Advance.config) (cfl : Z -> Q -> Q -> Q) (l : list (Q * Q)) (G : Z -> dstate) : option (Z -> dstate) :=
    match l with [] => Some G | (t, dt) :: l => bind (advance async R cfg cfl G t dt) (advances async R cfg cfl l) end.
  (** fclaw2d_initialize.c:140-145 (or 230-235): ghost cells are filled if init_ghostcell is set; then the time steps *)
  Definition solve (init_ghostcell async : bool) (R : rubbish) (cfg : Model_Advance.config) (cfl : Z -> Q -> Q -> Q) (l : list (Q * Q)) (G : Z -> dstate) : option (Z -> dstate) :=
    bind (if init_ghostcell then fill_update async (Model_Advance.global_min cfg) (Model_Advance.global_max cfg) false (r_buffer R 0%Q) G else Some G) (advances async R cfg cfl l).
End Solve.
