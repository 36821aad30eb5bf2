(** How a program reads a VTK file with an unstructured grid (VTK file format, "XML formats", raw appended data), and what the file of a
    forest should hold. *)
From Coq Require Import String.
From Coq Require Import ZArith List Bool.
From Verif Require Import Base_Mem Model_Mesh Model_Vtk.
Import ListNotations.
Open Scope Z_scope.

(** ** Reading *)
Definition attribute (t : tag) (name : string) : option attr :=
  option_map snd (find (fun a => String.eqb (fst a) name) (t_attrs t)).
Definition number (a : option attr) : option Z := match a with Some (Num n) => Some n | _ => None end.
Definition word (a : option attr) : option string := match a with Some (Str x) => Some x | _ => None end.
Definition is_tag (name : string) (t : tag) : bool := String.eqb (t_name t) name.
(** the tags between <name> and </name> *)
Fixpoint until (name : string) (l : list tag) : list tag := match l with [] => [] | t :: l => if is_tag name t then [] else t :: until name l end.
Fixpoint section (name : string) (l : list tag) : list tag :=
  match l with [] => [] | t :: l => if is_tag name t then until ("/" ++ name)%string l else section name l end.
(** type, number of components (1 if absent) and offset of a data array *)
Definition array_tag (h : list tag) (part name : string) : option (string * Z * Z) :=
  bind (find (fun t => is_tag "DataArray" t && match word (attribute t "Name") with Some n => String.eqb n name | None => false end) (section part h)) (fun t =>
  bind (word (attribute t "type")) (fun ty => bind (number (attribute t "offset")) (fun o =>
  Some (ty, match number (attribute t "NumberOfComponents") with Some c => c | None => 1 end, o)))).
Definition width (type : string) : Z :=
  if String.eqb type "UInt8" then 1 else if String.eqb type "Int32" || String.eqb type "Float32" then 4 else 8.

Definition bytes_at (F : file) (o n : Z) : option (list Z) := mapM (bytes F) (zrange o (o + n)).
Section Read.
  Variable h : list tag.
  Variable F : file.
  (** the position after the underscore that starts the appended data *)
  Variable begin : Z.
  (** the number of values in an array, and the bytes of value [n]: the array starts with its number of bytes *)
  Definition values (part name : string) : option Z :=
    bind (array_tag h part name) (fun '(ty, _, o) => bind (bytes_at F (begin + o) 8) (fun c => Some (le_val c / width ty))).
  Definition value (part name : string) (n : Z) : option (list Z) :=
    bind (array_tag h part name) (fun '(ty, _, o) => bind (bytes_at F (begin + o) 8) (fun c =>
    check ((0 <=? n) && ((n + 1) * width ty <=? le_val c)) (bytes_at F (begin + o + 8 + n * width ty) (width ty)))).
  Definition whole (part name : string) (n : Z) : option Z := option_map le_val (value part name n).
End Read.
Definition piece (h : list tag) (name : string) : option Z := bind (find (is_tag "Piece") h) (fun t => number (attribute t name)).

(** ** The forest *)
(** what the domains of the processes say about it: blocks and processes are counted in order *)
Fixpoint counts_ok (b : Z) (l : list (Z * Z)) : Prop := match l with [] => True | (num, before) :: l => 0 <= num /\ before = b /\ counts_ok (b + num) l end.
Definition local_num (D : dom) : Z := fold_right (fun x a => fst x + a) 0 (blocks D).
Fixpoint ranks_ok (r b : Z) (l : list dom) : Prop :=
  match l with [] => True | D :: l => mpirank D = r /\ global_num_patches_before D = b /\ counts_ok 0 (blocks D) /\ ranks_ok (r + 1) (b + local_num D) l end.
Definition domains_ok (n : Z) (Ds : list dom) : Prop :=
  Ds <> [] /\ ranks_ok 0 0 Ds /\ (forall D, In D Ds -> global_num_patches D = n) /\ n = fold_right (fun D a => local_num D + a) 0 Ds.
(** patch number [g] of the forest is patch n of block b on process r *)
Definition is_number (Ds : list dom) (g r b n : Z) : Prop :=
  exists D num before, zget Ds r = Some D /\ zget (blocks D) b = Some (num, before) /\ 0 <= n < num /\ g = global_num_patches_before D + before + n.

(** ** Cells and their corners *)
Definition points (d : grid) : Z := (mx d + 1) * (my d + 1) * (if cube d then mz d + 1 else 1).
Definition cells (d : grid) : Z := mx d * my d * layers d.
Definition in_grid (d : grid) (i j k : Z) : Prop := 0 <= i < mx d /\ 0 <= j < my d /\ 0 <= k < layers d.
(** the first index changes fastest *)
Definition cell_index (d : grid) (i j k : Z) : Z := i + mx d * (j + my d * k).
Definition point_index (d : grid) (i j k : Z) : Z := i + (mx d + 1) * (j + (my d + 1) * k).
(** the corners of a cell in the order of VTK_QUAD (type 9) and VTK_HEXAHEDRON (12): around the bottom, then around the top *)
Definition corner (v : Z) : Z * Z * Z :=
  (match v mod 4 with 1 | 2 => 1 | _ => 0 end, match v mod 4 with 2 | 3 => 1 | _ => 0 end, v / 4).
Definition cell_type (d : grid) : Z := if cube d then 12 else 9.
Definition corners (d : grid) : Z := if cube d then 8 else 4.

(** numbers that the program computes as int *)
Definition sizes_ok (d : grid) (n : Z) : Prop :=
  1 <= mx d /\ 1 <= my d /\ 1 <= mz d /\ 1 <= meqn d /\ 0 <= n /\
  24 * points d <= INT_MAX /\ 64 * cells d <= INT_MAX /\ 4 * meqn d * cells d <= INT_MAX /\
  n * (24 * points d + 96 * cells d + 4 * meqn d * cells d) < 2 ^ 62.

(** [w] bytes at position [i * w] of [l] *)
Definition slice (l : list Z) (w i : Z) : option (list Z) := mapM (zget l) (zrange (i * w) (i * w + w)).
(** the callbacks fill their buffers *)
Definition right_sizes (d : grid) (Ds : list dom) (coordinates data : Z -> Z -> Z -> list Z) : Prop :=
  forall g r b p, is_number Ds g r b p -> Z.of_nat (length (coordinates r b p)) = 24 * points d /\ Z.of_nat (length (data r b p)) = 4 * meqn d * cells d.
Definition callbacks_give (d : grid) (Ds : list dom) (cc vc : Z -> Z -> Z -> option (list Z)) (coordinates data : Z -> Z -> Z -> list Z) : Prop :=
  right_sizes d Ds coordinates data /\ forall g r b p, is_number Ds g r b p -> cc r b p = Some (coordinates r b p) /\ vc r b p = Some (data r b p).
(** process and block numbers are ints *)
Definition few_blocks (Ds : list dom) : Prop := Z.of_nat (length Ds) <= INT_MAX /\ forall D, In D Ds -> Z.of_nat (length (blocks D)) <= INT_MAX.

(** The file holds the forest: [coordinates r b n] are the positions of the corners of the cells of a patch as doubles (three for each), [data r b n]
    the values in the cells as floats. *)
Definition holds (d : grid) (n : Z) (coordinates data : Z -> Z -> Z -> list Z) (Ds : list dom) (h : list tag) (F : file) (begin : Z) : Prop :=
  let np := n * points d in
  let nc := n * cells d in
  piece h "NumberOfPoints" = Some np /\ piece h "NumberOfCells" = Some nc /\
  (exists o, array_tag h "Points" "Position" = Some ("Float64"%string, 3, o)) /\ values h F begin "Points" "Position" = Some (3 * np) /\
  values h F begin "Cells" "connectivity" = Some (corners d * nc) /\ values h F begin "Cells" "offsets" = Some nc /\
  values h F begin "Cells" "types" = Some nc /\
  values h F begin "CellData" "mpirank" = Some nc /\ values h F begin "CellData" "blockno" = Some nc /\ values h F begin "CellData" "patchno" = Some nc /\
  (exists o, array_tag h "CellData" "meqn" = Some ("Float32"%string, meqn d, o)) /\ values h F begin "CellData" "meqn" = Some (meqn d * nc) /\
  forall g r b p, is_number Ds g r b p -> forall i j k, in_grid d i j k ->
    let c := g * cells d + cell_index d i j k in
    whole h F begin "Cells" "types" c = Some (cell_type d) /\
    whole h F begin "Cells" "offsets" c = Some (corners d * (c + 1)) /\
    whole h F begin "CellData" "mpirank" c = Some r /\ whole h F begin "CellData" "blockno" c = Some b /\ whole h F begin "CellData" "patchno" c = Some g /\
    (forall m, 0 <= m < meqn d -> exists v, slice (data r b p) 4 (meqn d * cell_index d i j k + m) = Some v /\ value h F begin "CellData" "meqn" (meqn d * c + m) = Some v) /\
    forall v, 0 <= v < corners d -> exists l, whole h F begin "Cells" "connectivity" (corners d * c + v) = Some l /\ 0 <= l < np /\
      forall a, 0 <= a < 3 -> exists x, let '(di, dj, dk) := corner v in
        slice (coordinates r b p) 8 (3 * point_index d (i + di) (j + dj) (k + dk) + a) = Some x /\ value h F begin "Points" "Position" (3 * l + a) = Some x.

(** ** Clawpatches *)
(** the corner (i, j, k) of the cells of a patch of block [b], and its coordinates in the file *)
Definition corner_position {R} (zero : R) (place : R -> Z -> R -> R) (c2m : Z -> R -> R -> R -> R * R * R) (manifold : bool) (b : Z) (p : clawpatch R) (i j k : Z) : R * R * R :=
  let x := place (xlower _ p) i (dx _ p) in
  let y := place (ylower _ p) j (dy _ p) in
  let z := if cube (c_grid _ p) then place (zlower _ p) k (dz _ p) else zero in
  if manifold then c2m b x y z else (x, y, z).
Definition coordinate {R} (x : R * R * R) (a : Z) : R := let '(x, y, z) := x in if a =? 0 then x else if a =? 1 then y else z.
(** component [m] of cell (i, j, k): an array of Fortran with [mbc] layers of ghost cells, the component is the last index *)
Definition q_index (d : grid) (mbc i j k m : Z) : Z :=
  if cube d then (i + mbc) + (mx d + 2 * mbc) * ((j + mbc) + (my d + 2 * mbc) * ((k + mbc) + (mz d + 2 * mbc) * m))
  else (i + mbc) + (mx d + 2 * mbc) * ((j + mbc) + (my d + 2 * mbc) * m).
