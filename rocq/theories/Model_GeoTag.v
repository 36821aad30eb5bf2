(** GeoClaw: which patches are refined and coarsened.
    src/solvers/fc2d_geoclaw/fc2d_geoclaw.cpp:398-498,
    fclaw2d_source/fc2d_geoclaw_flag2refine_fort.f90, fc2d_geoclaw_tag4refinement_fort.f90,
    fc2d_geoclaw_tag4coarsening_fort.f90, fc2d_geoclaw_test_regions.f90; allowflag of
    geolib_source/allowflag.f is a parameter (the version there always says yes).

    Simplifications: exact arithmetic; the comparison of the speed, a square root divided by the depth,
    with a tolerance is made without the square root; [None] is a division by a depth that is not
    positive (possible with a negative dry_tolerance only). *)
From Coq Require Import ZArith QArith Qabs List Bool.
Import ListNotations.
Open Scope Z_scope.

Definition Qltb (a b : Q) : bool := negb (Qle_bool b a).
Definition bind {A B} (x : option A) (f : A -> option B) : option B := match x with Some a => f a | None => None end.
Definition arr := Z -> Z -> Z -> Q.   (* m, i, j *)
(** do i = 1,n *)
Definition upto (n : Z) : list Z := map Z.of_nat (seq 1 (Z.to_nat n)).

(** ** Regions *)
(** amrlib_source/regions_module.f90:12-15 *)
Record region := mkR { min_level : Z; max_level : Z; x_low : Q; y_low : Q; x_hi : Q; y_hi : Q; t_low : Q; t_hi : Q }.

(** fc2d_geoclaw_test_regions.f90:70-96 fc2d_geoclaw_P_intersects_R *)
Definition P_intersects_R (xlower ylower xupper yupper t : Q) (r : region) : bool :=
  if Qltb t (t_low r) || Qltb (t_hi r) t then false
  else if Qltb xupper (x_low r) || Qltb (x_hi r) xlower then false
  else if Qltb yupper (y_low r) || Qltb (y_hi r) ylower then false
  else true.

(** fc2d_geoclaw_test_regions.f90:2-65 *)
Definition test_regions (regions : list region) (level : Z) (xlower ylower xupper yupper t : Q) (refine : bool) : Z :=
  let inregion := map (P_intersects_R xlower ylower xupper yupper t) regions in
  let region_found := existsb (fun b => b) inregion in
  if negb region_found then -1
  else
    let minmax := fold_left (fun (mm : Z * Z) (rb : region * bool) =>
                     if snd rb then (Z.min (fst mm) (min_level (fst rb)), Z.max (snd mm) (max_level (fst rb))) else mm)
                   (combine regions inregion) (100, 0) in
    if refine then
      if level <? fst minmax then 1 else if snd minmax <=? level then 0 else -1
    else
      if level <=? fst minmax then 0 else if snd minmax <? level then 1 else -1.

(** ** Water *)
(** geoclaw_module and refinement_module *)
Record geodata := mkGeo { dry_tolerance : Q; sea_level : Q; wave_tolerance : Q; speed_tolerance : list Q;
                          regions_of : list region; allowflag : Q -> Q -> Q -> Z -> bool }.

(** sqrt (x) > y *)
Definition sqrt_gt (x y : Q) : bool := Qltb y 0 || Qltb (y * y) x.

(** fc2d_geoclaw_flag2refine_fort.f90:1-59; [h], [hu], [hv], [b] are qvec(1:3) and auxvec(1) *)
Definition flag2refine (g : geodata) (h hu hv b xc yc t : Q) (level maxlevel init_flag : Z) (is_coarsening : bool) : option Z :=
  if negb (init_flag =? 0) && is_coarsening then Some 0
  else if negb (allowflag g xc yc t level) then Some (-1)
  else
    let max_num_speeds := Z.min (Z.of_nat (length (speed_tolerance g))) maxlevel in
    let th_factor := if is_coarsening then (1 # 2)%Q else 1%Q in
    if Qltb (dry_tolerance g) h then
      let eta := (h + b)%Q in
      if Qltb (th_factor * wave_tolerance g) (Qabs (eta - sea_level g)) then Some 1
      else if Qle_bool h 0 then None
      else Some (if existsb (fun m => sqrt_gt (hu * hu + hv * hv) (th_factor * nth (Z.to_nat (m - 1)) (speed_tolerance g) 0%Q * h) && (level <=? m))
                            (upto max_num_speeds)
                 then 1 else 0)
    else Some 0.

Record tpatch := mkT { g_mx : Z; g_my : Z; g_xlower : Q; g_ylower : Q; g_dx : Q; g_dy : Q; g_q : arr; g_aux : arr; g_level : Z }.

(** the flags of the cells in the order of the loops, until one is positive *)
Fixpoint any_flag (flag : Z * Z -> option Z) (cells : list (Z * Z)) : option bool :=
  match cells with
  | [] => Some false
  | c :: cs => bind (flag c) (fun f => if 0 <? f then Some true else any_flag flag cs)
  end.
Definition cells (mx my : Z) : list (Z * Z) := concat (map (fun j => map (fun i => (i, j)) (upto mx)) (upto my)).
Definition flag_cell (g : geodata) (p : tpatch) (t : Q) (level maxlevel init_flag : Z) (is_coarsening : bool) (ij : Z * Z) : option Z :=
  let (i, j) := ij in
  flag2refine g (g_q p 1 i j) (g_q p 2 i j) (g_q p 3 i j) (g_aux p 1 i j)
    (g_xlower p + (inject_Z i - (1 # 2)) * g_dx p)%Q (g_ylower p + (inject_Z j - (1 # 2)) * g_dy p)%Q t level maxlevel init_flag is_coarsening.

(** fc2d_geoclaw_tag4refinement_fort.f90:1-59 *)
Definition fort_tag4refinement (g : geodata) (p : tpatch) (t : Q) (level maxlevel init_flag : Z) : option Z :=
  bind (any_flag (flag_cell g p t level maxlevel init_flag false) (cells (g_mx p) (g_my p))) (fun b => Some (if b then 1 else 0)).

(** fc2d_geoclaw_tag4coarsening_fort.f90:56-124 fc2d_geoclaw_test_coarsen *)
Definition test_coarsen (g : geodata) (p : tpatch) (t : Q) (level maxlevel init_flag : Z) : option Z :=
  bind (any_flag (flag_cell g p t level maxlevel init_flag true) (cells (g_mx p) (g_my p))) (fun b => Some (if b then 0 else 1)).
(** fc2d_geoclaw_tag4coarsening_fort.f90:1-53 *)
Definition fort_tag4coarsening (g : geodata) (p0 p1 p2 p3 : tpatch) (t : Q) (level maxlevel init_flag : Z) : option Z :=
  bind (test_coarsen g p0 t level maxlevel init_flag) (fun tag => if tag =? 0 then Some 0 else
  bind (test_coarsen g p1 t level maxlevel init_flag) (fun tag => if tag =? 0 then Some 0 else
  bind (test_coarsen g p2 t level maxlevel init_flag) (fun tag => if tag =? 0 then Some 0 else
  test_coarsen g p3 t level maxlevel init_flag))).

(** fc2d_geoclaw.cpp:398-450 geoclaw_patch_tag4refinement *)
Definition tag4refinement (g : geodata) (maxlevel : Z) (t : Q) (p : tpatch) (initflag : Z) : option Z :=
  let xupper := (g_xlower p + inject_Z (g_mx p) * g_dx p)%Q in
  let yupper := (g_ylower p + inject_Z (g_my p) * g_dy p)%Q in
  let tag := test_regions (regions_of g) (g_level p) (g_xlower p) (g_ylower p) xupper yupper t true in
  if tag <? 0 then fort_tag4refinement g p t (g_level p) maxlevel initflag else Some tag.

(** fc2d_geoclaw.cpp:454-498 geoclaw_patch_tag4coarsening: the four siblings in Morton order; the sizes
    used are those of the last (which [fort_tag4coarsening] takes from each patch for the cell centres) *)
Definition tag4coarsening (g : geodata) (maxlevel : Z) (t : Q) (p0 p1 p2 p3 : tpatch) (initflag : Z) : option Z :=
  let level := g_level p0 in
  let xupper := (g_xlower p1 + inject_Z (g_mx p3) * g_dx p3)%Q in
  let yupper := (g_ylower p2 + inject_Z (g_my p3) * g_dy p3)%Q in
  let tag := test_regions (regions_of g) level (g_xlower p0) (g_ylower p0) xupper yupper t false in
  if tag <? 0 then fort_tag4coarsening g p0 p1 p2 p3 t level maxlevel initflag else Some tag.

(** The decisions above in a regridding: src/fclaw2d_regrid.c:45-72 and 76-107 (only between minlevel and
    maxlevel).  [refined p]: the patch is marked for refinement; [coarsened]: a family is marked. *)
Definition marked_refine (g : geodata) (maxlevel : Z) (t : Q) (p : tpatch) (init : Z) : option bool :=
  if g_level p <? maxlevel then bind (tag4refinement g maxlevel t p init) (fun tag => Some (tag =? 1)) else Some false.
Definition marked_coarsen (g : geodata) (minlevel maxlevel : Z) (t : Q) (p0 p1 p2 p3 : tpatch) (init : Z) : option bool :=
  if minlevel <? g_level p0 then bind (tag4coarsening g maxlevel t p0 p1 p2 p3 init) (fun tag => Some (tag =? 1)) else Some false.
