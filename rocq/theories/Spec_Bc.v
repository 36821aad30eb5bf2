(** Vocabulary for boundary conditions, independent of the routines. *)
From Coq Require Import ZArith QArith List Lia Bool.
From Verif Require Import Base_Float Model_Face Model_Grid Spec_Grid.   (* types only *)
Import ListNotations.
Open Scope Z_scope.

(** What happens at one of the four sides (left, right, bottom, top) of a patch: the domain continues there, or it is
    an open boundary, or a wall. *)
Inductive side := Continues | Open | Wall.

(** The index a position is filled from, along one direction with n cells: beyond an open end, the last cell; beyond a
    wall, the mirror image. *)
Definition image (lo hi : side) (n i : Z) : Z :=
  if i <? 1 then match lo with Continues => i | Open => 1 | Wall => 1 - i end
  else if n <? i then match hi with Continues => i | Open => n | Wall => 2 * n + 1 - i end
  else i.
(** Beyond a wall. *)
Definition mirrored (lo hi : side) (n i : Z) : bool :=
  (i <? 1) && match lo with Wall => true | _ => false end ||
  (n <? i) && match hi with Wall => true | _ => false end.

(** The value the boundary conditions give to a cell: that of the image; a wall turns the velocity normal to it, which
    is component 2 for walls on the left and right and component 3 for walls at the bottom and top. *)
Definition bc_value (d : dims) (s : Z -> side) (q : arr) (i j mq : Z) : option Q :=
  let v := q (image (s 0) (s 1) (mx d) i, image (s 2) (s 3) (my d) j, mq) in
  if mirrored (s 0) (s 1) (mx d) i && (mq =? 2) || mirrored (s 2) (s 3) (my d) j && (mq =? 3)
  then option_map Qopp v else v.

(** The number given by the user for a boundary: 1 is open, 3 a wall.  [faces] says which sides lie on the boundary of
    the domain. *)
Definition side_of (block_mthbc : Z -> Z) (faces : Z -> bool) (f : Z) : side :=
  if faces f then (if block_mthbc f =? 3 then Wall else Open) else Continues.
Definition usable (d : dims) (block_mthbc : Z -> Z) (faces : Z -> bool) : Prop :=
  forall f, 0 <= f < 4 -> faces f = true ->
    block_mthbc f = 1 \/ block_mthbc f = 3 /\ (if f <? 2 then 2 else 3) <= meqn d.
