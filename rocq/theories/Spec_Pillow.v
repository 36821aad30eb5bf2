(** Vocabulary for the block corners of the pillow sphere, independent of the routines.

    The sphere is made of two blocks, glued along their whole boundary.  At a corner of the blocks one patch of each block meets the
    other one.  Ghost cells diagonally beyond the corner stand for the cells of the patch of the other block that lie as far inside. *)
From Coq Require Import ZArith QArith List Bool.
From Verif Require Import Model_Grid Spec_Grid.   (* types and sums only *)
Import ListNotations.
Open Scope Z_scope.

(** corners are numbered with x fastest; [a] and [b] count from the corner, in x and in y, outwards or inwards *)
Definition upper_x (c : Z) : bool := (c =? 1) || (c =? 3).
Definition upper_y (c : Z) : bool := (c =? 2) || (c =? 3).
Definition step_out (u : bool) (m a : Z) : Z := if u then m + a else 1 - a.
Definition step_in (u : bool) (m a : Z) : Z := if u then m + 1 - a else a.
Definition beyond (d : dims) (c a b : Z) : Z * Z := (step_out (upper_x c) (mx d) a, step_out (upper_y c) (my d) b).
Definition inside (d : dims) (c a b : Z) : Z * Z := (step_in (upper_x c) (mx d) a, step_in (upper_y c) (my d) b).

(** ghost cells diagonally beyond corner c *)
Definition corner_ghost (d : dims) (c i j : Z) : Prop := exists a b, 1 <= a <= mbc d /\ 1 <= b <= mbc d /\ (i, j) = beyond d c a b.

(** the four fine cells that are as far inside as the coarse ghost cell (a, b) is outside *)
Definition mirror_sum (d : dims) (c a b : Z) (f : Z -> Z -> Q) : Q :=
  let at_ s t := f (fst (inside d c (2 * a - s) (2 * b - t))) (snd (inside d c (2 * a - s) (2 * b - t))) in
  (at_ 1%Z 1%Z + at_ 1%Z 0%Z + at_ 0%Z 1%Z + at_ 0%Z 0%Z)%Q.

(** data that are affine functions of the position, in units of a cell; the center of cell i is at i *)
Definition affine_data (z p r : Q) : data := fun i j _ => (z + p * inject_Z i + r * inject_Z j)%Q.
(** where the center of the fine cell number a, counted inwards from the end of a row of coarse cells, lies in that row *)
Definition place (u : bool) (m a : Z) : Q :=
  if u then (inject_Z m + (3 # 4) - inject_Z a / 2)%Q else ((1 # 4) + inject_Z a / 2)%Q.
