(** Physical boundary conditions of extruded (3D) patches, clawpack 4.6:
    src/solvers/fc3d_clawpack46/fortran_source/fc3d_clawpack46_bc3_default.f90 and
    clawpack46_bc3 in src/solvers/fc3d_clawpack46/fc3d_clawpack46.cpp.

    Simplifications: cell values are exact rational numbers; an element that has never been
    assigned is [None] and is copied as such; indices outside of the declared bounds and
    "stop" are the outcome [None].  The arguments t, dt, aux and the grid spacing are not used
    by the default routine, and time_interp only selects the array. *)
From Coq Require Import ZArith QArith List Lia Bool.
From Verif Require Import Base_Float Model_Face Model_Grid.
Import ListNotations.
Open Scope Z_scope.

(** (i, j, k, m) *)
Definition cell3 : Type := (Z * Z * Z * Z)%type.
Definition arr3 : Type := cell3 -> option Q.
Record dims3 := mkDims3 { mx3 : Z; my3 : Z; mz3 : Z; mbc3 : Z; meqn3 : Z }.

Section Bc3.
  Variable d : dims3.
  Notation mx := (mx3 d). Notation my := (my3 d). Notation mz := (mz3 d).
  Notation mbc := (mbc3 d). Notation meqn := (meqn3 d).

  (** line 27: q(1-mbc:mx+mbc, 1-mbc:my+mbc, 1-mbc:mz+mbc, meqn) *)
  Definition in_q3 (c : cell3) : bool :=
    let '(i, j, k, m) := c in
    (1 - mbc <=? i) && (i <=? mx + mbc) && (1 - mbc <=? j) && (j <=? my + mbc) &&
    (1 - mbc <=? k) && (k <=? mz + mbc) && (1 <=? m) && (m <=? meqn).
  Definition cell3_eqb (a b : cell3) : bool :=
    let '(i, j, k, m) := a in let '(i', j', k', m') := b in
    (i =? i') && (j =? j') && (k =? k') && (m =? m').

  (** q(dst) = f(q(src)) *)
  Definition asg3 (f : Q -> Q) (dst src : cell3) (q : arr3) : option arr3 :=
    if in_q3 dst && in_q3 src
    then Some (fun c => if cell3_eqb c dst then option_map f (q src) else q c) else None.
  Definition cpy3 : cell3 -> cell3 -> arr3 -> option arr3 := asg3 (fun x => x).
  Definition neg3 : cell3 -> cell3 -> arr3 -> option arr3 := asg3 Qopp.

  (** do ibc = 1,mbc; do s = 1-mbc, n1+mbc; do t = 1-mbc, n2+mbc *)
  Definition one_eqn3 (n1 n2 : Z) (f : Z -> Z -> Z -> arr3 -> option arr3) (q : arr3) : option arr3 :=
    loop 1 mbc (fun b => loop (1 - mbc) (n1 + mbc) (fun s => loop (1 - mbc) (n2 + mbc) (fun t => f b s t))) q.
  (** do m = 1,meqn around it *)
  Definition all_eqns3 (n1 n2 : Z) (f : Z -> Z -> Z -> Z -> arr3 -> option arr3) (q : arr3) : option arr3 :=
    loop 1 meqn (fun m => one_eqn3 n1 n2 (f m)) q.

  (** lines 33-88, left boundary; case 2 prints a message, and any other number falls through *)
  Definition bc3_xlower (mthbc : Z) (q : arr3) : option arr3 :=
    if mthbc =? 0 then None
    else if mthbc =? 1 then
      all_eqns3 my mz (fun m ibc j k => cpy3 (1 - ibc, j, k, m) (1, j, k, m)) q
    else if mthbc =? 3 then
      bind (all_eqns3 my mz (fun m ibc j k => cpy3 (1 - ibc, j, k, m) (ibc, j, k, m)) q) (fun q =>
      one_eqn3 my mz (fun ibc j k => neg3 (1 - ibc, j, k, 2) (ibc, j, k, 2)) q)
    else Some q.
  (** lines 90-144, right boundary *)
  Definition bc3_xupper (mthbc : Z) (q : arr3) : option arr3 :=
    if mthbc =? 0 then None
    else if mthbc =? 1 then
      all_eqns3 my mz (fun m ibc j k => cpy3 (mx + ibc, j, k, m) (mx, j, k, m)) q
    else if mthbc =? 3 then
      bind (all_eqns3 my mz (fun m ibc j k => cpy3 (mx + ibc, j, k, m) (mx + 1 - ibc, j, k, m)) q) (fun q =>
      one_eqn3 my mz (fun ibc j k => neg3 (mx + ibc, j, k, 2) (mx + 1 - ibc, j, k, 2)) q)
    else Some q.
  (** lines 146-199, front boundary *)
  Definition bc3_ylower (mthbc : Z) (q : arr3) : option arr3 :=
    if mthbc =? 0 then None
    else if mthbc =? 1 then
      all_eqns3 mx mz (fun m jbc i k => cpy3 (i, 1 - jbc, k, m) (i, 1, k, m)) q
    else if mthbc =? 3 then
      bind (all_eqns3 mx mz (fun m jbc i k => cpy3 (i, 1 - jbc, k, m) (i, jbc, k, m)) q) (fun q =>
      one_eqn3 mx mz (fun jbc i k => neg3 (i, 1 - jbc, k, 3) (i, jbc, k, 3)) q)
    else Some q.
  (** lines 201-255, back boundary *)
  Definition bc3_yupper (mthbc : Z) (q : arr3) : option arr3 :=
    if mthbc =? 0 then None
    else if mthbc =? 1 then
      all_eqns3 mx mz (fun m jbc i k => cpy3 (i, my + jbc, k, m) (i, my, k, m)) q
    else if mthbc =? 3 then
      bind (all_eqns3 mx mz (fun m jbc i k => cpy3 (i, my + jbc, k, m) (i, my + 1 - jbc, k, m)) q) (fun q =>
      one_eqn3 mx mz (fun jbc i k => neg3 (i, my + jbc, k, 3) (i, my + 1 - jbc, k, 3)) q)
    else Some q.
  (** lines 258-319, bottom boundary; here case 2 is implemented *)
  Definition bc3_zlower (mthbc : Z) (q : arr3) : option arr3 :=
    if mthbc =? 0 then None
    else if mthbc =? 1 then
      all_eqns3 mx my (fun m kbc i j => cpy3 (i, j, 1 - kbc, m) (i, j, 1, m)) q
    else if mthbc =? 2 then
      all_eqns3 mx my (fun m kbc i j => cpy3 (i, j, 1 - kbc, m) (i, j, mz + 1 - kbc, m)) q
    else if mthbc =? 3 then
      bind (all_eqns3 mx my (fun m kbc i j => cpy3 (i, j, 1 - kbc, m) (i, j, kbc, m)) q) (fun q =>
      one_eqn3 mx my (fun kbc i j => neg3 (i, j, 1 - kbc, 4) (i, j, kbc, 4)) q)
    else Some q.
  (** lines 321-383, top boundary *)
  Definition bc3_zupper (mthbc : Z) (q : arr3) : option arr3 :=
    if mthbc =? 0 then None
    else if mthbc =? 1 then
      all_eqns3 mx my (fun m kbc i j => cpy3 (i, j, mz + kbc, m) (i, j, mz, m)) q
    else if mthbc =? 2 then
      all_eqns3 mx my (fun m kbc i j => cpy3 (i, j, mz + kbc, m) (i, j, kbc, m)) q
    else if mthbc =? 3 then
      bind (all_eqns3 mx my (fun m kbc i j => cpy3 (i, j, mz + kbc, m) (i, j, mz + 1 - kbc, m)) q) (fun q =>
      one_eqn3 mx my (fun kbc i j => neg3 (i, j, mz + kbc, 4) (i, j, mz + 1 - kbc, 4)) q)
    else Some q.

  (** lines 1-386; [mthbc f] is mthbc(f+1) *)
  Definition bc3_default (mthbc : Z -> Z) (q : arr3) : option arr3 :=
    bind (bc3_xlower (mthbc 0) q) (fun q =>
    bind (bc3_xupper (mthbc 1) q) (fun q =>
    bind (bc3_ylower (mthbc 2) q) (fun q =>
    bind (bc3_yupper (mthbc 3) q) (fun q =>
    bind (bc3_zlower (mthbc 4) q) (fun q =>
    bc3_zupper (mthbc 5) q))))).

  (** fc3d_clawpack46.cpp:97-151 clawpack46_bc3 *)
  Definition clawpack46_bc3 (block_mthbc : Z -> Z) (intersects : list bool) (q : arr3) : option arr3 :=
    bc3_default (fun f => if f <? 4 then (if nth (Z.to_nat f) intersects false then block_mthbc f else -1)
                          else block_mthbc f) q.
End Bc3.
