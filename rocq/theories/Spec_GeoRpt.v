(** Vocabulary for GeoClaw's transverse Riemann solver. *)
From Coq Require Import ZArith QArith Qminmax.
From Verif Require Import Model_GeoStep.   (* slice *)
Open Scope Q_scope.

(** Water can move across the rows at interface i: one of the cells beside it is wet, and the surface in the cell the fluctuation
    goes to (the left one for imp 1, else the right one) is not below the land on either side of it. *)
Definition wet (tol : Q) (q : slice) (i : Z) : Prop := tol < q 1%Z (i - 1)%Z \/ tol < q 1%Z i.
Definition receiver (imp i : Z) : Z := if Z.eq_dec imp 1 then (i - 1)%Z else i.
Definition open_to (imp i : Z) (q aux1 aux2 aux3 : slice) : Prop :=
  let c := receiver imp i in aux1 1%Z c <= q 1%Z c + aux2 1%Z c /\ aux3 1%Z c <= q 1%Z c + aux2 1%Z c.
(** A square root, up to rounding. *)
Definition positive (root : Q -> Q) : Prop := (forall x, 0 < x -> 0 < root x).
(** Momentum along and across the slice. *)
Definition along (ixy : Z) : Z := if Z.eq_dec ixy 1 then 2%Z else 3%Z.
Definition across (ixy : Z) : Z := if Z.eq_dec ixy 1 then 3%Z else 2%Z.
(** Depth and velocity across the slice in cell i, where cells below the tolerance count as empty. *)
Definition depth (tol : Q) (q : slice) (i : Z) : Q := if Qlt_le_dec (q 1%Z i) tol then 0 else q 1%Z i.
Definition cross (tol : Q) (ixy : Z) (q : slice) (i : Z) : Q := if Qlt_le_dec (q 1%Z i) tol then 0 else q (across ixy) i / q 1%Z i.
(** Roe's average of the velocity across, and the smallest and largest speed the solver uses. *)
Definition roe (root : Q -> Q) (tol : Q) (ixy : Z) (q : slice) (i : Z) : Q :=
  (cross tol ixy q i * root (depth tol q i) + cross tol ixy q (i - 1)%Z * root (depth tol q (i - 1)%Z)) / (root (depth tol q i) + root (depth tol q (i - 1)%Z)).
Definition is_slowest (root : Q -> Q) (grav tol : Q) (ixy : Z) (q : slice) (i : Z) (s : Q) : Prop :=
  s == Qmin (roe root tol ixy q i - root (grav * ((depth tol q i + depth tol q (i - 1)%Z) / 2))) (cross tol ixy q (i - 1)%Z - root (grav * depth tol q (i - 1)%Z)).
Definition is_fastest (root : Q -> Q) (grav tol : Q) (ixy : Z) (q : slice) (i : Z) (s : Q) : Prop :=
  s == Qmax (roe root tol ixy q i + root (grav * ((depth tol q i + depth tol q (i - 1)%Z) / 2))) (cross tol ixy q i + root (grav * depth tol q i)).
