(** Model of the values GeoClaw records at a gauge:
    /repo/src/solvers/fc2d_geoclaw/fortran_source/geoclaw_gauges_fort.f90.

    Simplifications: exact rational numbers; arrays are functions of their indices (bounds are not checked: the cell of the
    gauge and the cells to its right and above are in the patch or its first ghost cells). *)
From Coq Require Import ZArith QArith Qabs Bool.
Open Scope Q_scope.

(** Fortran's int: towards zero *)
Definition fint (x : Q) : Z := Z.quot (Qnum x) (Zpos (Qden x)).
(** geoclaw_gauges_fort.f90:20-21 *)
Definition cell_of (lower d x : Q) : Z := (fint ((x - lower) / d) + 1)%Z.
(** lines 23-26 *)
Definition offset (lower d x : Q) : Q := (x - (lower + (inject_Z (cell_of lower d x) - (1 # 2)) * d)) / d.
Definition less (x y : Q) : bool := negb (Qle_bool y x).
(** lines 72-74 *)
Definition tiny : Q := 1 # (10 ^ 99).
Definition flush (x : Q) : Q := if less (Qabs x) tiny then 0 else x.
(** lines 52-58 and 59-62 *)
Definition bilinear (xoff yoff v1 v2 v3 v4 : Q) : Q :=
  (1 - xoff) * (1 - yoff) * v1 + xoff * (1 - yoff) * v2 + (1 - xoff) * yoff * v3 + xoff * yoff * v4.
(** lines 1-77; the result is qvar(1:3) and avar(1) *)
Definition gauge_values (dry xlower ylower dx dy : Q) (q aux : Z -> Z -> Z -> Q) (xc yc : Q) : (Z -> Q) * Q :=
  let i := cell_of xlower dx xc in
  let j := cell_of ylower dy yc in
  let xoff := offset xlower dx xc in
  let yoff := offset ylower dy yc in
  let drytol2 := (1 # 10) * dry in
  let some_dry := less (q 1%Z i j) drytol2 || less (q 1%Z (i + 1)%Z j) drytol2 ||
                  less (q 1%Z i (j + 1)%Z) drytol2 || less (q 1%Z (i + 1)%Z (j + 1)%Z) drytol2 in
  let v := fun (f : Z -> Z -> Q) =>
    if some_dry then f i j else bilinear xoff yoff (f i j) (f (i + 1)%Z j) (f i (j + 1)%Z) (f (i + 1)%Z (j + 1)%Z) in
  (fun mq => flush (v (q mq)), v (aux 1%Z)).
