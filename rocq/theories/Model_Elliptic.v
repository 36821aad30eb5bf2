(** Elliptic solves with ThunderEgg: the operators on a patch, the boundary conditions and the vectors.

    src/solvers/fc2d_thunderegg/operators/fc2d_thunderegg_fivepoint.cpp, fc2d_thunderegg_varpoisson.cpp,
    fc2d_thunderegg_heat.cpp (the classes fivePoint, varpoisson and heat), src/solvers/fc2d_thunderegg/fort_4.6/
    thunderegg_apply_bc_default.f90, src/solvers/fc2d_thunderegg/fc2d_thunderegg_vector.cpp.

    Simplifications: those of Model_Grid (exact rationals, reading an unassigned cell or outside an array is None).
    ThunderEgg itself (iterative solvers, multigrid, ghost fillers) is not modelled.  Its views count cells and fields
    from 0; (vw i j m) is the cell of Model_Grid that the view calls (i, j, m).  The slice getGhostSliceOn(side, {0}) is
    the layer of ghost cells next to the side, indexed by (cell along the side, field).  u.getEnd()[2] + 1 is the number
    of fields. *)
From Coq Require Import ZArith QArith List Lia Bool.
From Verif Require Import Base_Float Model_Face Model_Grid.
Import ListNotations.
Open Scope Z_scope.

(** ThunderEgg PatchInfo<2>: hasNbr for the sides west 0, east 1, south 2, north 3; spacings *)
Record pinfo := mkPinfo { has_nbr : Z -> bool; sx : Q; sy : Q }.

Definition vw (i j m : Z) : cell := (i + 1, j + 1, m + 1).

Section Elliptic.
  Variable d : dims.
  Variable pi : pinfo.

  (** ghosts(j,m) = g(u(0,j,m)) for all j, m and likewise for the other sides:
      fc2d_thunderegg_fivepoint.cpp:153-186 (and 96-128), varpoisson.cpp:168-211 (and 114-149), heat.cpp:185-223 (and 125-162) *)
  Definition fill_side (side : Z) (g : Q -> Q) (u : arr) : option arr :=
    loop 0 (meqn d - 1) (fun m =>
      if side =? 0 then loop 0 (my d - 1) (fun j u => bind (rd d u (vw 0 j m)) (fun x => wr d u (vw (-1) j m) (g x)))
      else if side =? 1 then
        loop 0 (my d - 1) (fun j u => bind (rd d u (vw (mx d - 1) j m)) (fun x => wr d u (vw (mx d) j m) (g x)))
      else if side =? 2 then
        loop 0 (mx d - 1) (fun i u => bind (rd d u (vw i 0 m)) (fun x => wr d u (vw i (-1) m) (g x)))
      else
        loop 0 (mx d - 1) (fun i u => bind (rd d u (vw i (my d - 1) m)) (fun x => wr d u (vw i (my d) m) (g x)))) u.
  (** if (...hasNbr(side)) { ... } for the four sides *)
  Definition fill_sides (where_ : Z -> bool) (g : Z -> Q -> Q) (u : arr) : option arr :=
    loop 0 3 (fun side u => if where_ side then fill_side side (g side) u else Some u) u.

  (** f(i,j,m) = value of the stencil *)
  Definition each_cell (st : Z -> Z -> Z -> option Q) (f : arr) : option arr :=
    loop 0 (meqn d - 1) (fun m => loop 0 (my d - 1) (fun j => loop 0 (mx d - 1) (fun i f =>
      bind (st i j m) (fun x => wr d f (vw i j m) x)))) f.

  (** fc2d_thunderegg_fivepoint.cpp:188-200 (and heat.cpp:225-242): the five-point Laplacian in a cell *)
  Definition laplacian (u : arr) (i j m : Z) : option Q :=
    let dx2 := (sx pi * sx pi)%Q in
    let dy2 := (sy pi * sy pi)%Q in
    bind (rd d u (vw i j m)) (fun uij =>
    bind (rd d u (vw (i + 1) j m)) (fun ue =>
    bind (rd d u (vw (i - 1) j m)) (fun uw =>
    bind (rd d u (vw i (j + 1) m)) (fun un =>
    bind (rd d u (vw i (j - 1) m)) (fun us =>
    Some ((ue - 2 * uij + uw) / dx2 + (un - 2 * uij + us) / dy2)%Q))))).

  (** fivepoint.cpp:131-218 applySinglePatch: the ghost cells of u at physical boundaries are overwritten, then f.
      The result is (u, f). *)
  Definition fivepoint_apply (u f : arr) : option (arr * arr) :=
    bind (fill_sides (fun side => negb (has_nbr pi side)) (fun _ => Qopp) u) (fun u =>
    bind (each_cell (laplacian u) f) (fun f => Some (u, f))).

  (** fivepoint.cpp:88-130 applySinglePatchWithInternalBoundaryConditions *)
  Definition fivepoint_apply_internal (u f : arr) : option (arr * arr) :=
    bind (fill_sides (has_nbr pi) (fun _ => Qopp) u) (fun u => fivepoint_apply u f).

  (** f(cell) += value *)
  Definition add_to (f : arr) (c : cell) (x : Q) : option arr := bind (rd d f c) (fun y => wr d f c (y + x)%Q).

  (** one statement f(c) += -b*(u(g)+u(c))/h2 with the ghost cell g next to the cell c; b is 1 for the Laplacian *)
  Definition move_ghost (u : arr) (b : option Q) (h2 : Q) (c g : cell) (f : arr) : option arr :=
    bind b (fun b => bind (rd d u g) (fun x => bind (rd d u c) (fun y => add_to f c (- b * (x + y) / h2)%Q))).
  (** if (hasNbr(side)) *)
  Definition if_nbr (side : Z) (k : arr -> option arr) (f : arr) : option arr :=
    if has_nbr pi side then k f else Some f.
  (** fivepoint.cpp:221-262 modifyRHSForInternalBoundaryConditions (heat.cpp:262-327 is the same);
      bx i j is the coefficient between the cells (i-1,j) and (i,j), by i j the one between (i,j-1) and (i,j) *)
  Definition modify_rhs (bx by_ : Z -> Z -> option Q) (u f : arr) : option arr :=
    let dx2 := (sx pi * sx pi)%Q in
    let dy2 := (sy pi * sy pi)%Q in
    loop 0 (meqn d - 1) (fun m f =>
      bind (loop 0 (my d - 1) (fun j f =>
              bind (if_nbr 0 (move_ghost u (bx 0 j) dx2 (vw 0 j m) (vw (-1) j m)) f)
                   (if_nbr 1 (move_ghost u (bx (mx d) j) dx2 (vw (mx d - 1) j m) (vw (mx d) j m)))) f)
           (loop 0 (mx d - 1) (fun i f =>
              bind (if_nbr 2 (move_ghost u (by_ i 0) dy2 (vw i 0 m) (vw i (-1) m)) f)
                   (if_nbr 3 (move_ghost u (by_ i (my d)) dy2 (vw i (my d - 1) m) (vw i (my d) m)))))) f.
  Definition fivepoint_modify : arr -> arr -> option arr := modify_rhs (fun _ _ => Some 1%Q) (fun _ _ => Some 1%Q).

  (* ------------------------------------------------------------------ variable coefficient *)

  (** beta.getComponentView(0, local_index): one field, with ghost cells *)
  Definition bd : dims := mkDims (mx d) (my d) (mbc d) 1.
  Variable beta : arr.
  Definition b_at (i j : Z) : option Q := rd bd beta (vw i j 0).
  (** varpoisson.cpp:213-233: the stencil *)
  Definition divgrad (u : arr) (i j m : Z) : option Q :=
    let dx2 := (2 * sx pi * sx pi)%Q in
    let dy2 := (2 * sy pi * sy pi)%Q in
    let sum a b := bind a (fun x => bind b (fun y => Some (x + y)%Q)) in
    bind (sum (b_at i j) (b_at (i - 1) j)) (fun b0 =>
    bind (sum (b_at (i + 1) j) (b_at i j)) (fun b1 =>
    bind (sum (b_at i j) (b_at i (j - 1))) (fun b2 =>
    bind (sum (b_at i (j + 1)) (b_at i j)) (fun b3 =>
    bind (rd d u (vw i j m)) (fun uij =>
    bind (rd d u (vw (i + 1) j m)) (fun ue =>
    bind (rd d u (vw (i - 1) j m)) (fun uw =>
    bind (rd d u (vw i (j + 1) m)) (fun un =>
    bind (rd d u (vw i (j - 1) m)) (fun us =>
    let flux0 := (b0 * (uij - uw))%Q in
    let flux1 := (b1 * (ue - uij))%Q in
    let flux2 := (b2 * (uij - us))%Q in
    let flux3 := (b3 * (un - uij))%Q in
    Some ((flux1 - flux0) / dx2 + (flux3 - flux2) / dy2)%Q))))))))).
  (** varpoisson.cpp:153-267 applySinglePatch *)
  Definition varpoisson_apply (u f : arr) : option (arr * arr) :=
    bind (fill_sides (fun side => negb (has_nbr pi side)) (fun _ => Qopp) u) (fun u =>
    bind (each_cell (divgrad u) f) (fun f => Some (u, f))).
  (** varpoisson.cpp:103-152 applySinglePatchWithInternalBoundaryConditions *)
  Definition varpoisson_apply_internal (u f : arr) : option (arr * arr) :=
    bind (fill_sides (has_nbr pi) (fun _ => Qopp) u) (fun u => varpoisson_apply u f).
  (** varpoisson.cpp:270-315 modifyRHSForInternalBoundaryConditions; the coefficients of sides without neighbor are
      computed there also, which matters only if they are unassigned *)
  Definition half (a b : option Q) : option Q := bind a (fun x => bind b (fun y => Some ((x + y) / 2)%Q)).
  Definition varpoisson_modify : arr -> arr -> option arr :=
    modify_rhs (fun i j => half (b_at i j) (b_at (i - 1) j)) (fun i j => half (b_at i j) (b_at i (j - 1))).

  (* ------------------------------------------------------------------ heat equation *)

  (** mg_opt->boundary_conditions and heat::lambda *)
  Variable bctype : Z -> Z.
  Variable lambda : Q.
  (** heat.cpp:110-113: s[m] = 2*boundary_conditions[m] - 3 *)
  Definition heat_sign (side : Z) : Q := inject_Z (2 * bctype side - 3).
  (** heat.cpp:165-259 applySinglePatch, with the assertion of line 229 *)
  Definition heat_apply (u f : arr) : option (arr * arr) :=
    bind (fill_sides (fun side => negb (has_nbr pi side)) (fun side x => (heat_sign side * x)%Q) u) (fun u =>
    if negb (Qle_bool lambda 0) then None else
    bind (each_cell (fun i j m => bind (rd d u (vw i j m)) (fun uij =>
                                  bind (laplacian u i j m) (fun lap => Some (lap + lambda * uij)%Q))) f) (fun f =>
    Some (u, f))).
  (** heat.cpp:117-164 applySinglePatchWithInternalBoundaryConditions *)
  Definition heat_apply_internal (u f : arr) : option (arr * arr) :=
    bind (fill_sides (has_nbr pi) (fun _ => Qopp) u) (fun u => heat_apply u f).
End Elliptic.

(* -------------------------------------------------------------------- boundary conditions *)

Section Bc.
  Variable d : dims.
  (** the arguments xlower, ylower, dx, dy, t, intersects_bc, bctype and the function g_bc *)
  Variable xlower ylower dx dy t : Q.
  Variable intersects : Z -> bool.
  Variable bctype : Z -> Z.
  Variable g_bc : Z -> Q -> Q -> Q -> Q.

  (** thunderegg_apply_bc_default.f90:19-23: q = 0 everywhere (one field) *)
  Definition q_zero : arr := fun c => Some 0%Q.
  Definition d1 : dims := mkDims (mx d) (my d) (mbc d) 1.

  (** a, b: set by bctype 1 and 2, otherwise as left by an earlier face *)
  Definition ab : Type := option (Q * Q).
  Definition set_ab (k : Z) (old : ab) : ab :=
    if k =? 1 then Some (1%Q, 0%Q) else if k =? 2 then Some (0%Q, 1%Q) else old.

  (** thunderegg_apply_bc_default.f90:49-89: the ghost cells of one face *)
  Definition bc_ghosts (iface : Z) (dd : Q) (q : arr) : option arr :=
    if iface <? 2 then
      let i1 := if iface =? 0 then 1 else mx d + 1 in
      let ig := if iface =? 0 then 0 else mx d + 1 in
      let x := (xlower + inject_Z (i1 - 1) * dx)%Q in
      loop 1 (my d) (fun j q =>
        let y := (ylower + (inject_Z j - (1 # 2)) * dy)%Q in
        wr d1 q (ig, j, 1) (g_bc iface t x y / dd)%Q) q
    else
      let j1 := if iface =? 2 then 1 else my d + 1 in
      let jg := if iface =? 2 then 0 else my d + 1 in
      let y := (ylower + inject_Z (j1 - 1) * dy)%Q in
      loop 1 (mx d) (fun i q =>
        let x := (xlower + (inject_Z i - (1 # 2)) * dx)%Q in
        wr d1 q (i, jg, 1) (g_bc iface t x y / dd)%Q) q.

  (** thunderegg_apply_bc_default.f90:91-103: rhs = rhs - Laplacian of q.  rhs is declared without the fields, so only
      the first one is addressed. *)
  Definition bc_subtract (q rhs : arr) : option arr :=
    loop 1 (mx d) (fun i => loop 1 (my d) (fun j rhs =>
      bind (rd d1 q (i - 1, j, 1)) (fun qw => bind (rd d1 q (i, j, 1)) (fun qc => bind (rd d1 q (i + 1, j, 1)) (fun qe =>
      bind (rd d1 q (i, j - 1, 1)) (fun qs => bind (rd d1 q (i, j + 1, 1)) (fun qn =>
      let qlap := ((qw - 2 * qc + qe) / (dx * dx) + (qs - 2 * qc + qn) / (dy * dy))%Q in
      bind (rd d rhs (i, j, 1)) (fun r => wr d rhs (i, j, 1) (r - qlap)%Q)))))))) rhs.

  (** thunderegg_apply_bc_default.f90:25-105: one face, state (q, rhs, (a, b)) *)
  Definition bc_face (iface : Z) (s : arr * arr * ab) : option (arr * arr * ab) :=
    let '(q, rhs, c) := s in
    if intersects iface then
      let c := set_ab (bctype iface) c in
      bind c (fun '(a, b) =>
      let h := if iface <? 2 then dx else dy in
      let dd := (a / 2 + b / h)%Q in
      if Qeq_bool dd 0 then None else
      bind (bc_ghosts iface dd q) (fun q =>
      bind (bc_subtract q rhs) (fun rhs => Some (q, rhs, c))))
    else Some (q, rhs, c).
  (** thunderegg_apply_bc_default.f90:1-107 thunderegg_fort_apply_bc_default *)
  Definition apply_bc (rhs : arr) : option arr :=
    bind (loop 0 3 bc_face (q_zero, rhs, None)) (fun '(_, rhs, _) => Some rhs).
End Bc.

(* -------------------------------------------------------------------- vectors *)

(** memory of the patches: the doubles of patch [p] of block [b] of a kind of data (RHS or SOLN), counted from the
    pointer that fclaw2d_clawpatch_rhs_data or _soln_data returns *)
Definition pmem : Type := Z -> Z -> Z -> Q.

(** what a ThunderEgg::Vector<2> made from pointers is: the patch that holds the data of patch number k, and strides.
    view(i,j,m) of patch k is the double at start[k] + (i+mbc)*s0 + (j+mbc)*s1 + m*s2 (contract of the constructor
    Vector(comm, starts, strides, lengths, num_ghost_cells), see fc2d_thunderegg_vector_TEST.cpp). *)
Record tvec := mkTvec { starts : Z -> option (Z * Z); strides : Z * Z * Z; v_mbc : Z }.
Definition view_addr (v : tvec) (i j m : Z) : Z :=
  let '(s0, s1, s2) := strides v in (i + v_mbc v) * s0 + (j + v_mbc v) * s1 + m * s2.
Definition view (M : pmem) (v : tvec) (k i j m : Z) : option Q :=
  option_map (fun '(b, p) => M b p (view_addr v i j m)) (starts v k).

(** a block: num_patches_before and num_patches *)
Record vblock := mkVblock { before : Z; patches_in : Z }.

Section Vec.
  Variable d : dims.
  Variable num_blocks : Z.
  Variable block : Z -> vblock.

  (** fc2d_thunderegg_vector.cpp:52-86 fc2d_thunderegg_get_vector *)
  Definition get_vector : option tvec :=
    let s0 := 1 in
    let s1 := s0 * (mx d + 2 * mbc d) in
    let s2 := s1 * (my d + 2 * mbc d) in
    bind (loop 0 (num_blocks - 1) (fun b => loop 0 (patches_in (block b) - 1) (fun p st =>
            Some (fun k => if k =? before (block b) + p then Some (b, p) else st k))) (fun _ => None)) (fun st =>
    Some (mkTvec st (s0, s1, s2) (mbc d))).

  (** fc2d_thunderegg_vector.cpp:87-112 fc2d_thunderegg_store_vector; [vec k i j m] is vec.getPatchView(k)(i,j,m); the
      state is the memory and the pointer data *)
  Definition store_patch (vec : Z -> Z -> Z -> Q) (M : Z -> Q) : option (Z -> Q) :=
    bind (loop 0 (meqn d - 1) (fun eqn => loop (- mbc d) (my d + mbc d - 1) (fun j =>
            loop (- mbc d) (mx d + mbc d - 1) (fun i '(M, data) =>
              Some ((fun a => if a =? data then vec i j eqn else M a), data + 1)))) (M, 0)) (fun '(M, _) => Some M).
  Definition store_vector (vec : Z -> Z -> Z -> Z -> Q) (M : pmem) : option pmem :=
    loop 0 (num_blocks - 1) (fun b => loop 0 (patches_in (block b) - 1) (fun p M =>
      bind (store_patch (vec (before (block b) + p)) (M b p)) (fun X =>
      Some (fun b' p' => if (b' =? b) && (p' =? p) then X else M b' p')))) M.
End Vec.
