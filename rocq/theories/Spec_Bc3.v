(** Vocabulary for the boundary conditions of extruded patches, independent of the routines. *)
From Coq Require Import ZArith QArith List Bool.
From Verif Require Import Model_Bc3.   (* types only *)
Open Scope Z_scope.

(** What happens at one of the six sides (left, right, front, back, bottom, top). *)
Inductive side3 := Untouched | Open3 | Wall3 | Periodic3.

(** The index a position is filled from, along one direction with n cells. *)
Definition image3 (lo hi : side3) (n i : Z) : Z :=
  if i <? 1 then match lo with Untouched => i | Open3 => 1 | Wall3 => 1 - i | Periodic3 => i + n end
  else if n <? i then match hi with Untouched => i | Open3 => n | Wall3 => 2 * n + 1 - i | Periodic3 => i - n end
  else i.
Definition mirrored3 (lo hi : side3) (n i : Z) : bool :=
  (i <? 1) && match lo with Wall3 => true | _ => false end ||
  (n <? i) && match hi with Wall3 => true | _ => false end.

(** The value the boundary conditions give to a cell: that of its image; a wall turns the
    velocity normal to it (component 2, 3, 4 for walls across x, y, z). *)
Definition bc3_value (d : dims3) (s : Z -> side3) (q : arr3) (i j k m : Z) : option Q :=
  let v := q (image3 (s 0) (s 1) (mx3 d) i, image3 (s 2) (s 3) (my3 d) j,
              image3 (s 4) (s 5) (mz3 d) k, m) in
  if mirrored3 (s 0) (s 1) (mx3 d) i && (m =? 2) || mirrored3 (s 2) (s 3) (my3 d) j && (m =? 3) ||
     mirrored3 (s 4) (s 5) (mz3 d) k && (m =? 4)
  then option_map Qopp v else v.

(** The user's numbers: 1 open, 2 periodic (bottom and top only), 3 wall.  Horizontal sides
    count only where the patch touches the boundary of the domain, bottom and top always. *)
Definition applied (faces : Z -> bool) (f : Z) : bool := (4 <=? f) || faces f.
Definition side3_of (block_mthbc : Z -> Z) (faces : Z -> bool) (f : Z) : side3 :=
  if applied faces f then
    if block_mthbc f =? 1 then Open3 else if block_mthbc f =? 3 then Wall3
    else if (block_mthbc f =? 2) && (4 <=? f) then Periodic3 else Untouched
  else Untouched.
(** No user-supplied condition (0), and the velocity a wall turns must exist. *)
Definition usable3 (d : dims3) (block_mthbc : Z -> Z) (faces : Z -> bool) : Prop :=
  forall f, 0 <= f < 6 -> applied faces f = true ->
    block_mthbc f <> 0 /\ (block_mthbc f = 3 -> f / 2 + 2 <= meqn3 d).
