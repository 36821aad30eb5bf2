(** The built-in tagging criteria on extruded patches, independent of the routines. *)
From Coq Require Import ZArith QArith Qabs.
From Verif Require Import Model_Face Model_Grid Spec_Grid Model_Extruded Spec_Extruded.   (* types only *)
Open Scope Z_scope.

(** a cell (g, i, j, k) of a family: patch g, column (i, j), layer k *)
Definition fcell : Type := (Z * Z * Z * Z)%type.
Definition in_array3 (d : dims3) (c : fcell) : Prop :=
  let '(_, i, j, k) := c in
  1 - mbc (flat d) <= i <= mx (flat d) + mbc (flat d) /\ 1 - mbc (flat d) <= j <= my (flat d) + mbc (flat d) /\
  1 - mbc (flat d) <= k <= mz d + mbc (flat d).
Definition in_patch3 (d : dims3) (c : fcell) : Prop :=
  let '(_, i, j, k) := c in 1 <= i <= mx (flat d) /\ 1 <= j <= my (flat d) /\ 1 <= k <= mz d.
Definition usual3 (d : dims3) : Prop :=
  1 <= mx (flat d) /\ 1 <= my (flat d) /\ 1 <= mz d /\ 1 <= mbc (flat d) /\ 1 <= meqn (flat d).

(** every cell of the array, ghost cells on all six sides included, has a value *)
Definition all_set3 (d : dims3) (q : arr3) (f : data3) : Prop :=
  forall i j k mq, in_array3 d (0, i, j, k) -> 1 <= mq <= meqn (flat d) -> q (i, j, k, mq) = Some (f i j k mq).

Definition value (f : Z -> data3) (tv : Z) (c : fcell) : Q := let '(g, i, j, k) := c in f g i j k tv.

(** One of the differences across the cell, in x, y or z, is above the threshold. *)
Definition jumps (f : Z -> data3) (tv : Z) (th : Q) (c : fcell) : Prop :=
  let '(g, i, j, k) := c in
  (th < Qabs (f g (i + 1)%Z j k tv - f g (i - 1)%Z j k tv) \/ th < Qabs (f g i (j + 1)%Z k tv - f g i (j - 1)%Z k tv) \/
   th < Qabs (f g i j (k + 1)%Z tv - f g i j (k - 1)%Z tv))%Q.
(** The length of the centred gradient is above the (nonnegative) threshold. *)
Definition steep (f : Z -> data3) (tv : Z) (th dx dy dz : Q) (c : fcell) : Prop :=
  let '(g, i, j, k) := c in
  let gx := ((f g (i + 1)%Z j k tv - f g (i - 1)%Z j k tv) / (2 * dx))%Q in
  let gy := ((f g i (j + 1)%Z k tv - f g i (j - 1)%Z k tv) / (2 * dy))%Q in
  let gz := ((f g i j (k + 1)%Z tv - f g i j (k - 1)%Z tv) / (2 * dz))%Q in
  (th * th < gx * gx + gy * gy + gz * gz)%Q.

(** The criterion is met by the cells [S]: 0 a value, 1 a difference, 2 the range, 3 a gradient above the threshold. *)
Definition meets (d : dims3) (crit tv : Z) (th dx dy dz : Q) (f : Z -> data3) (S : fcell -> Prop) : Prop :=
  match crit with
  | 0 => exists c, S c /\ (th < value f tv c)%Q
  | 1 => exists c, S c /\ in_patch3 d c /\ jumps f tv th c
  | 2 => exists c c', S c /\ S c' /\ (th < value f tv c - value f tv c')%Q
  | _ => exists c, S c /\ in_patch3 d c /\ steep f tv th dx dy dz c
  end.

Definition good_options (d : dims3) (crit tv : Z) (dx dy dz : Q) : Prop :=
  0 <= crit <= 3 /\ 1 <= tv <= meqn (flat d) /\ (crit = 3 -> ~ (dx == 0)%Q /\ ~ (dy == 0)%Q /\ ~ (dz == 0)%Q).
