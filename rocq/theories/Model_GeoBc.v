(** Model of GeoClaw's boundary conditions:
    /repo/src/solvers/fc2d_geoclaw/fortran_source/geoclaw_bc2_fort.f (fc2d_geoclaw_bc2) and
    geoclaw_bc2 in /repo/src/solvers/fc2d_geoclaw/fc2d_geoclaw.cpp:122-176.

    The routine is the list of its assignments, in the order of the loops.  The arrays q(m,i,j) and aux(1,i,j) are kept
    in one array: element (i, j, m) is q(m,i,j) for m up to meqn, and (i, j, meqn + 1) is the bathymetry aux(1,i,j).

    Simplifications: cell values are exact rational numbers; an element that has never been assigned is [None]; an index
    outside of the declared bounds and "stop" are the outcome [None]; the other components of aux are not touched by the
    routine and left out; t, dt and the grid spacing are not used by it. *)
From Coq Require Import ZArith QArith List Lia Bool.
From Verif Require Import Base_Float Model_Face Model_Mesh Model_Grid Model_Fill Model_Bc.
Import ListNotations.
Open Scope Z_scope.

Record asgn := mkA { a_dst : cell; a_src : cell; a_neg : bool }.
Definition zrange (lo hi : Z) : list Z := map (fun k => lo + Z.of_nat k) (seq 0 (Z.to_nat (hi - lo + 1))).

Section GeoBc.
  Variable d : dims.
  (** q and aux(1) together *)
  Definition both : dims := mkDims (mx d) (my d) (mbc d) (meqn d + 1).

  (** a sequence of assignments *)
  Fixpoint run (l : list asgn) (w : arr) : option arr :=
    match l with
    | [] => Some w
    | a :: l => bind (asg both (a_dst a) (a_src a) (if a_neg a then Qopp else fun x => x) w) (run l)
    end.
  (** aux(1,i,j) = aux(1,i',j'); do m=1,meqn: q(m,i,j) = q(m,i',j') *)
  Definition body (i j i' j' : Z) : list asgn :=
    mkA (i, j, meqn d + 1) (i', j', meqn d + 1) false ::
    map (fun m => mkA (i, j, m) (i', j', m) false) (zrange 1 (meqn d)).
  (** do j = 1-mbc, my+mbc; do ibc = 1, mbc *)
  Definition sides (f : Z -> Z -> list asgn) : list asgn :=
    flat_map (fun j => flat_map (fun ibc => f ibc j) (zrange 1 (mbc d))) (zrange (1 - mbc d) (my d + mbc d)).
  (** do jbc = 1, mbc; do i = 1-mbc, mx+mbc *)
  Definition ends (f : Z -> Z -> list asgn) : list asgn :=
    flat_map (fun jbc => flat_map (fun i => f jbc i) (zrange (1 - mbc d) (mx d + mbc d))) (zrange 1 (mbc d)).

  (** geoclaw_bc2_fort.f:38-81 left boundary *)
  Definition geo_left (k : Z) (w : arr) : option arr :=
    if k =? 0 then None                                                                       (* line 49, stop *)
    else if k =? 1 then run (sides (fun ibc j => body (1 - ibc) j 1 j)) w                     (* line 52 *)
    else if k =? 2 then Some w                                                                (* line 62 *)
    else if k =? 3 then                                                                       (* line 66 *)
      bind (run (sides (fun ibc j => body (1 - ibc) j ibc j)) w)
        (run (sides (fun ibc j => [mkA (1 - ibc, j, 2) (ibc, j, 2) true])))
    else Some w.
  (** geoclaw_bc2_fort.f:83-124 right boundary *)
  Definition geo_right (k : Z) (w : arr) : option arr :=
    if k =? 0 then None
    else if k =? 1 then run (sides (fun ibc j => body (mx d + ibc) j (mx d) j)) w
    else if k =? 2 then Some w
    else if k =? 3 then
      bind (run (sides (fun ibc j => body (mx d + ibc) j (mx d + 1 - ibc) j)) w)
        (run (sides (fun ibc j => [mkA (mx d + ibc, j, 2) (mx d + 1 - ibc, j, 2) true])))
    else Some w.
  (** geoclaw_bc2_fort.f:126-168 bottom boundary *)
  Definition geo_bottom (k : Z) (w : arr) : option arr :=
    if k =? 0 then None
    else if k =? 1 then run (ends (fun jbc i => body i (1 - jbc) i 1)) w
    else if k =? 2 then Some w
    else if k =? 3 then
      bind (run (ends (fun jbc i => body i (1 - jbc) i jbc)) w)
        (run (ends (fun jbc i => [mkA (i, 1 - jbc, 3) (i, jbc, 3) true])))
    else Some w.
  (** geoclaw_bc2_fort.f:170-211 top boundary *)
  Definition geo_top (k : Z) (w : arr) : option arr :=
    if k =? 0 then None
    else if k =? 1 then run (ends (fun jbc i => body i (my d + jbc) i (my d))) w
    else if k =? 2 then Some w
    else if k =? 3 then
      bind (run (ends (fun jbc i => body i (my d + jbc) i (my d + 1 - jbc))) w)
        (run (ends (fun jbc i => [mkA (i, my d + jbc, 3) (i, my d + 1 - jbc, 3) true])))
    else Some w.
  (** geoclaw_bc2_fort.f:4-214; [mthbc f] is mthbc(f+1) *)
  Definition geo_bc2_fort (mthbc : Z -> Z) (w : arr) : option arr :=
    bind (geo_left (mthbc 0) w) (fun w =>
    bind (geo_right (mthbc 1) w) (fun w =>
    bind (geo_bottom (mthbc 2) w) (fun w =>
    geo_top (mthbc 3) w))).
  (** fc2d_geoclaw.cpp:122-176 geoclaw_bc2 *)
  Definition geo_bc2 (block_mthbc : Z -> Z) (intersects : list bool) (w : arr) : option arr :=
    geo_bc2_fort (fun f => if nth (Z.to_nat f) intersects false then block_mthbc f else -1) w.
End GeoBc.
