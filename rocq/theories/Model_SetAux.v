(** Model of the bathymetry that GeoClaw gives to the cells of a patch, ghost cells included:
    /repo/src/solvers/fc2d_geoclaw/fortran_source/geoclaw_setaux_fort.f90 and its call in
    /repo/src/solvers/fc2d_geoclaw/fc2d_geoclaw.cpp 178-205.

    Simplifications: exact rational numbers; coordinate_system 1 with topography files
    (test_topography 0); only aux(1,.,.); loops over rows and columns are loops over the list of
    positions in the same order, and a condition on the row is tested at every position. *)
From Coq Require Import ZArith QArith Qround Qminmax List Bool.
From Verif Require Import Model_Topo.
Import ListNotations.
Open Scope Q_scope.

(** the patch (mx, my, mbc, xlow, ylow, dx, dy), the corners of the domain (amr_module), and
    whether it is a copy of another process's patch *)
Record grid := mkGrid {
  g_mx : Z; g_my : Z; g_mbc : Z; g_xlow : Q; g_ylow : Q; g_dx : Q; g_dy : Q;
  g_xlower : Q; g_xupper : Q; g_ylower : Q; g_yupper : Q; g_ghost : bool }.

(** aux(1,i,j); [None] is an element that has not been set *)
Definition auxarr := Z -> Z -> option Q.
Definition upd (a : auxarr) (i j : Z) (v : option Q) : auxarr :=
  fun i' j' => if ((i' =? i) && (j' =? j))%Z then v else a i' j'.

(** geoclaw_setaux_fort.f90:276-288 ghost_invalid *)
Definition ghost_invalid (i j mx my nghost mint : Z) : bool :=
  let inner := ((mint <? i) && (i <? mx - mint + 1) && ((mint <? j) && (j <? my - mint + 1)))%Z in
  let outer := ((i <? 1 - nghost) || (mx + nghost <? i) || (j <? 1 - nghost) || (my + nghost <? j))%Z in
  inner || outer.
(** fc2d_geoclaw.cpp:198-199: mint = 2*mbc, nghost = mbc *)
Definition skip (g : grid) (i j : Z) : bool :=
  g_ghost g && ghost_invalid i j (g_mx g) (g_my g) (g_mbc g) (2 * g_mbc g).

(** lines 134-135 *)
Definition ilo (g : grid) : Z := Qfloor ((g_xlow g - g_xlower g + (5 # 100) * g_dx g) / g_dx g).
Definition jlo (g : grid) : Z := Qfloor ((g_ylow g - g_ylower g + (5 # 100) * g_dy g) / g_dy g).

(** do jj=1-mbc,my+mbc / do ii=1-mbc,mx+mbc *)
Definition by_rows (g : grid) : list (Z * Z) :=
  flat_map (fun j => map (fun i => (i, j)) (range (1 - g_mbc g) (g_mx g + g_mbc g))) (range (1 - g_mbc g) (g_my g + g_mbc g)).
Definition by_columns (g : grid) : list (Z * Z) :=
  flat_map (fun i => map (fun j => (i, j)) (range (1 - g_mbc g) (g_my g + g_mbc g))) (range (1 - g_mbc g) (g_mx g + g_mbc g)).

(** lines 139-207 *)
Definition set_cell (fs : list topofile) (g : grid) (st : option auxarr) (p : Z * Z) : option auxarr :=
  match st with
  | None => None
  | Some a =>
    let (ii, jj) := p in
    let ym := g_ylower g + inject_Z (jlo g + jj - 1) * g_dy g in
    let yp := g_ylower g + inject_Z (jlo g + jj) * g_dy g in
    let y := (1 # 2) * (ym + yp) in
    let xm := g_xlower g + inject_Z (ilo g + ii - 1) * g_dx g in
    let xp := g_xlower g + inject_Z (ilo g + ii) * g_dx g in
    let x := (1 # 2) * (xm + xp) in
    if skip g ii jj then Some a
    else if qltb (g_yupper g) y || qltb y (g_ylower g) || qltb (g_xupper g) x || qltb x (g_xlower g) then Some a
    else match cell_bathymetry fs (mkRect xm xp ym yp) with
         | Some b => Some (upd a ii jj (Some b))
         | None => None
         end
  end.

(** lines 215-225 and 234-243: the cell copied *)
Definition xc (g : grid) (ii : Z) : Q := g_xlower g + (inject_Z (ilo g + ii) - (1 # 2)) * g_dx g.
Definition yc (g : grid) (jj : Z) : Q := g_ylower g + (inject_Z (jlo g + jj) - (1 # 2)) * g_dy g.
Definition iint (g : grid) (ii : Z) : Z :=
  (ii + Z.max 0 (Qceiling ((g_xlower g - xc g ii) / g_dx g)) - Z.max 0 (Qceiling ((xc g ii - g_xupper g) / g_dx g)))%Z.
Definition jint (g : grid) (jj : Z) : Z :=
  (jj + Z.max 0 (Qceiling ((g_ylower g - yc g jj) / g_dy g)) - Z.max 0 (Qceiling ((yc g jj - g_yupper g) / g_dy g)))%Z.
(** lines 212-227 *)
Definition copy_row (g : grid) (a : auxarr) (p : Z * Z) : auxarr :=
  let (ii, jj) := p in
  if qltb (yc g jj) (g_ylower g) || qltb (g_yupper g) (yc g jj) then
    if skip g ii jj then a else upd a ii jj (a (iint g ii) (jint g jj))
  else a.
(** lines 230-245 *)
Definition copy_column (g : grid) (a : auxarr) (p : Z * Z) : auxarr :=
  let (ii, jj) := p in
  if qltb (xc g ii) (g_xlower g) || qltb (g_xupper g) (xc g ii) then
    if skip g ii jj then a else upd a ii jj (a (iint g ii) (jint g jj))
  else a.

(** fc2d_geoclaw_setaux; [None]: the program stops *)
Definition setaux (fs : list topofile) (g : grid) (a : auxarr) : option auxarr :=
  match fold_left (set_cell fs g) (by_rows g) (Some a) with
  | None => None
  | Some a1 => Some (fold_left (copy_column g) (by_columns g) (fold_left (copy_row g) (by_rows g) a1))
  end.
