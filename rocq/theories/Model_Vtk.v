(** Output of the solution in a VTK file: src/patches/clawpatch/fclaw2d_clawpatch_output_vtk.c, for patches in two and in three
    dimensions (PATCH_DIM 2 and 3).

    Simplifications: the text of the header is a list of tags with their attributes, printed in a way that is a parameter; a single
    I/O call writes all of its bytes or ends the program (SC_CHECK_ABORT, SC_CHECK_MPI), except in header and footer; the file
    name is left out.  Overflow of int or int64_t and writing past the end of a buffer is [None]. *)
From Coq Require Import String.
From Coq Require Import ZArith List Bool.
From Verif Require Import Base_Mem Model_Mesh.
Import ListNotations.
Open Scope Z_scope.

Definition INT_MAX : Z := 2147483647.
(** an int, an int64_t *)
Definition int32 (x : Z) : option Z := if (- INT_MAX - 1 <=? x) && (x <=? INT_MAX) then Some x else None.
Definition int64 (x : Z) : option Z := if (- 9223372036854775808 <=? x) && (x <=? 9223372036854775807) then Some x else None.

(** mx, my, mz, meqn; [cube]: PATCH_DIM == 3 *)
Record grid := mkGrid { mx : Z; my : Z; mz : Z; meqn : Z; cube : bool }.
(** fclaw2d_clawpatch_output_vtk.c:41, 52 PATCH_CHILDREN *)
Definition PATCH_CHILDREN (d : grid) : Z := if cube d then 8 else 4.
(** loops over k are absent in two dimensions *)
Definition layers (d : grid) : Z := if cube d then mz d else 1.

(** the data arrays, in the order in which they are written *)
Inductive field := Position | Connectivity | Offsets | Types | Mpirank | Blockno | Patchno | Meqn.
Definition fields : list field := [Position; Connectivity; Offsets; Types; Mpirank; Blockno; Patchno; Meqn].

(** fclaw2d_clawpatch_output_vtk.c:62-94 fclaw2d_vtk_state *)
Record state := mkState {
  s_grid : grid; points_per_patch : Z; cells_per_patch : Z; fits32 : bool; intsize : Z;
  global_num_points : Z; global_num_cells : Z; psize : field -> Z; offset : field -> Z; offset_end : Z }.
(** fclaw2d_clawpatch_output_vtk.c:625 *)
Definition ndsize : Z := 8.

(** fclaw2d_clawpatch_output_vtk.c:601-661, without the names; [n] is domain->global_num_patches *)
Definition set_up (d : grid) (n : Z) : option state :=
  bind (int32 (mx d + 1)) (fun px => bind (int32 (my d + 1)) (fun py => bind (int32 (px * py)) (fun points2 =>
  bind (int32 (mx d * my d)) (fun cells2 =>
  bind (if cube d then bind (int32 (mz d + 1)) (fun pz => int32 (points2 * pz)) else Some points2) (fun points =>
  bind (if cube d then int32 (cells2 * mz d) else Some cells2) (fun cells =>
  bind (int64 (points * n)) (fun npoints => bind (int64 (cells * n)) (fun ncells =>
  bind (int64 (PATCH_CHILDREN d * (ncells + 1))) (fun nconn =>
  let fits := (npoints <=? INT_MAX) && (nconn <=? INT_MAX) in
  let isize := if fits then 4 else 8 in
  bind (int32 (points * 3)) (fun p3 => bind (int32 (cells * PATCH_CHILDREN d)) (fun c4 => bind (int32 (c4 * isize)) (fun pconn =>
  bind (int32 (cells * isize)) (fun pint => bind (int32 (cells * 4)) (fun p4 => bind (int32 (cells * meqn d)) (fun pm =>
  let ps f := match f with Position => p3 * 8 | Connectivity => pconn | Offsets => pint | Types => cells * 1 | Mpirank => p4 | Blockno => p4
                         | Patchno => pint | Meqn => pm * 4 end in
  let o_position := 0 in
  let o_connectivity := ndsize + o_position + ps Position * n in
  let o_offsets := ndsize + o_connectivity + ps Connectivity * n in
  let o_types := ndsize + o_offsets + ps Offsets * n in
  let o_mpirank := ndsize + o_types + ps Types * n in
  let o_blockno := ndsize + o_mpirank + ps Mpirank * n in
  let o_patchno := ndsize + o_blockno + ps Blockno * n in
  let o_meqn := ndsize + o_patchno + ps Patchno * n in
  let o_end := ndsize + o_meqn + ps Meqn * n in
  bind (int64 o_end) (fun _ =>
  Some (mkState d points cells fits isize npoints ncells ps
    (fun f => match f with Position => o_position | Connectivity => o_connectivity | Offsets => o_offsets | Types => o_types
                         | Mpirank => o_mpirank | Blockno => o_blockno | Patchno => o_patchno | Meqn => o_meqn end) o_end))))))))))))))))).

(** ** The header *)
Inductive attr := Str (s : string) | Num (n : Z).
Record tag := mkTag { t_name : string; t_attrs : list (string * attr) }.
Section Header.
  Open Scope string_scope.
  Variable s : state.
  Definition inttype : string := if fits32 s then "Int32" else "Int64".
  Definition data_array (type name : string) (components : option Z) (o : Z) : list tag :=
    [mkTag "DataArray" ([("type", Str type); ("Name", Str name)] ++ match components with Some c => [("NumberOfComponents", Num c)] | None => [] end ++
                        [("format", Str "appended"); ("offset", Num o)]);
     mkTag "/DataArray" []].
  (** fclaw2d_clawpatch_output_vtk.c:96-190 fclaw2d_vtk_write_header *)
  Definition header : list tag :=
    [mkTag "VTKFile" [("type", Str "UnstructuredGrid"); ("version", Str "0.1"); ("byte_order", Str "LittleEndian"); ("header_type", Str "UInt64")];
     mkTag "UnstructuredGrid" [];
     mkTag "Piece" [("NumberOfPoints", Num (global_num_points s)); ("NumberOfCells", Num (global_num_cells s))];
     mkTag "Points" []] ++ data_array "Float64" "Position" (Some 3%Z) (offset s Position) ++
    [mkTag "/Points" []; mkTag "Cells" []] ++
    data_array inttype "connectivity" None (offset s Connectivity) ++ data_array inttype "offsets" None (offset s Offsets) ++
    data_array "UInt8" "types" None (offset s Types) ++
    [mkTag "/Cells" []; mkTag "CellData" [("Scalars", Str "mpirank,blockno,patchno"); ("Fields", Str "meqn")]] ++
    data_array "Int32" "mpirank" None (offset s Mpirank) ++ data_array "Int32" "blockno" None (offset s Blockno) ++
    data_array inttype "patchno" None (offset s Patchno) ++
    data_array "Float32" "meqn" (if (meqn (s_grid s) =? 1)%Z then None else Some (meqn (s_grid s))) (offset s Meqn) ++
    [mkTag "/CellData" []; mkTag "PointData" []; mkTag "/PointData" []; mkTag "/Piece" []; mkTag "/UnstructuredGrid" [];
     mkTag "AppendedData" [("encoding", Str "raw")]].
End Header.

(** ** The data of a patch *)
(** the part of a domain that is used: mpirank, global_num_patches, global_num_patches_before, and num_patches and
    num_patches_before of the blocks *)
Record dom := mkDom { mpirank : Z; global_num_patches : Z; global_num_patches_before : Z; blocks : list (Z * Z) }.
Definition before_block (D : dom) (b : Z) : option Z := option_map snd (zget (blocks D) b).
(** forestclaw2d.c:246-264: the calls of fclaw2d_domain_iterate_patches *)
Fixpoint patches_from (b : Z) (l : list (Z * Z)) : list (Z * Z) :=
  match l with [] => [] | (num, _) :: l => map (fun n => (b, n)) (zrange 0 num) ++ patches_from (b + 1) l end.
Definition local_patches (D : dom) : list (Z * Z) := patches_from 0 (blocks D).

(** integers of the two sizes; a number that does not fit is [None] *)
Definition integers (s : state) (l : list Z) : option (list Z) :=
  check (forallb (fun x => match (if fits32 s then int32 x else int64 x) with Some _ => true | None => false end) l)
        (Some (flat_map (le_bytes (if fits32 s then 4 else 8)) l)).
Definition ints (l : list Z) : list Z := flat_map (le_bytes 4) l.

(** fclaw2d_clawpatch_output_vtk.c:228-320: the corners of the cells *)
Definition connectivity (d : grid) (pbefore : Z) : list Z :=
  flat_map (fun k => flat_map (fun j => flat_map (fun i =>
    let l := pbefore + i + j * (mx d + 1) + (if cube d then k * (my d + 1) * (mx d + 1) else 0) + 0 in
    [l; l + 1; l + (mx d + 2); l + (mx d + 1)] ++
    (if cube d then [l + (mx d + 1) * (my d + 1); l + (mx d + 1) * (my d + 1) + 1; l + (mx d + 1) * (my d + 1) + (mx d + 2); l + (mx d + 1) * (my d + 1) + (mx d + 1)] else []))
    (zrange 0 (mx d))) (zrange 0 (my d))) (zrange 0 (layers d)).

Section Data.
  Variable s : state.
  Variable D : dom.
  Let cells := zrange 0 (cells_per_patch s).
  (** coordinate_cb and value_cb, as arguments of fclaw2d_vtk_write_file: the bytes they put into the buffer *)
  Variable coordinate_cb value_cb : Z -> Z -> option (list Z).

  (** fclaw2d_clawpatch_output_vtk.c:216-452: the callbacks, up to write_buffer *)
  Definition callback (f : field) (blockno patchno : Z) : option (list Z) :=
    match f with
    | Position => coordinate_cb blockno patchno
    | Connectivity =>
        bind (before_block D blockno) (fun b =>
        bind (int64 (points_per_patch s * (global_num_patches_before D + b + patchno))) (fun pbefore =>
        integers s (connectivity (s_grid s) pbefore)))
    | Offsets =>
        bind (before_block D blockno) (fun b =>
        bind (int64 (cells_per_patch s * (global_num_patches_before D + b + patchno))) (fun cbefore =>
        (* k is increased once more after the last cell *)
        bind (integers s [PATCH_CHILDREN (s_grid s) * (cbefore + 1 + cells_per_patch s)]) (fun _ =>
        integers s (map (fun c => PATCH_CHILDREN (s_grid s) * (cbefore + 1) + PATCH_CHILDREN (s_grid s) * c) cells))))
    | Types => Some (map (fun _ => if cube (s_grid s) then 12 else 9) cells)
    | Mpirank => Some (ints (map (fun _ => mpirank D) cells))
    | Blockno => Some (ints (map (fun _ => blockno) cells))
    | Patchno =>
        bind (before_block D blockno) (fun b =>
        bind (int64 (global_num_patches_before D + b + patchno)) (fun gpno =>
        integers s (map (fun _ => gpno) cells)))
    | Meqn => value_cb blockno patchno
    end.

  (** the buffer of psize bytes; a callback that writes less leaves [junk] *)
  Definition buffer (junk : Z -> Z) (size : Z) (data : list Z) : option (list Z) :=
    check (Z.of_nat (length data) <=? size) (Some (data ++ map junk (zrange (Z.of_nat (length data)) size))).

  (** [mpiio]: P4EST_ENABLE_MPIIO; without it, the file has been opened by process 0 only, and the others use a pointer that has not
      been set.  The number of bytes is an int in MPI_File_write; fwrite of no bytes returns 0.  A write is a position and bytes *)
  Variable mpiio : bool.
  (** fclaw2d_clawpatch_output_vtk.c:198-214 write_buffer *)
  Definition write_buffer (pos : Z) (b : list Z) : option (Z * list Z) :=
    check (if mpiio then Z.of_nat (length b) <=? INT_MAX else (mpirank D =? 0) && (0 <? Z.of_nat (length b))) (Some (pos, b)).
  Fixpoint write_patches (junk : Z -> Z) (f : field) (l : list (Z * Z)) (pos : Z) : option (list (Z * list Z) * Z) :=
    match l with
    | [] => Some ([], pos)
    | (b, n) :: l =>
        bind (callback f b n) (fun data => bind (buffer junk (psize s f) data) (fun buf => bind (write_buffer pos buf) (fun w =>
        bind (write_patches junk f l (pos + psize s f)) (fun '(ws, pos) => Some (w :: ws, pos)))))
    end.
  (** fclaw2d_clawpatch_output_vtk.c:455-516 fclaw2d_vtk_write_field; [begin] is mpibegin; [pos] is where the file pointer is *)
  Definition write_field (junk : field -> Z -> Z) (begin : Z) (f : field) (pos : Z) : option (list (Z * list Z) * Z) :=
    let pos := if mpiio then begin + offset s f + (if 0 <? mpirank D then ndsize + psize s f * global_num_patches_before D else 0) else pos in
    let count := if mpirank D =? 0 then [(pos, le_bytes 8 (psize s f * global_num_patches D))] else [] in
    bind (write_patches (junk f) f (local_patches D) (if mpirank D =? 0 then pos + ndsize else pos)) (fun '(ws, pos) => Some (count ++ ws, pos)).
  Fixpoint write_fields (junk : field -> Z -> Z) (begin : Z) (fs : list field) (pos : Z) : option (list (Z * list Z)) :=
    match fs with
    | [] => Some []
    | f :: fs => bind (write_field junk begin f pos) (fun '(ws, pos) => bind (write_fields junk begin fs pos) (fun ws' => Some (ws ++ ws')))
    end.
  (** fclaw2d_clawpatch_output_vtk.c:518-563 fclaw2d_vtk_write_data: what a process writes *)
  Definition write_data (junk : field -> Z -> Z) (begin : Z) : option (list (Z * list Z)) := write_fields junk begin fields begin.
End Data.

(** ** The file *)
(** bytes and size; [None] is a byte that was not written *)
Record file := mkFile { bytes : Z -> option Z; size : Z }.
Definition empty_file : file := mkFile (fun _ => None) 0.
Definition write_at (F : file) (w : Z * list Z) : file :=
  mkFile (fun o => if (fst w <=? o) && (o <? fst w + Z.of_nat (length (snd w))) then zget (snd w) (o - fst w) else bytes F o)
         (if 0 <? Z.of_nat (length (snd w)) then Z.max (size F) (fst w + Z.of_nat (length (snd w))) else size F).
Definition write_all (F : file) (ws : list (Z * list Z)) : file := fold_left write_at ws F.
(** MPI_File_preallocate *)
Definition reserve (F : file) (n : Z) : file := mkFile (bytes F) (Z.max (size F) n).

(** the writes of several processes, those of each one in order *)
Inductive shuffle {A} : list (list A) -> list A -> Prop :=
| sh_done : forall ls, Forall (eq []) ls -> shuffle ls []
| sh_step : forall a x l b t, shuffle (a ++ l :: b) t -> shuffle (a ++ (x :: l) :: b) (x :: t).

(** fclaw2d_clawpatch_output_vtk.c:663-697: process 0 writes header and footer ([ok]: this succeeds), all processes get the least return value *)
Definition returned (nprocs : nat) (ok : bool) : Z := fold_left Z.min (map (fun r => if Nat.eqb r 0 then if ok then 0 else -1 else 0) (seq 0 nprocs)) 0.

(** fclaw2d_clawpatch_output_vtk.c:578-700 fclaw2d_vtk_write_file on all processes [Ds].  [text] are the bytes of the header; [vtkspace] and
    [vtkwrite] are not used.  Result: return value and, if it is 0, the file. *)
Section Write.
  Variable text : list tag -> list Z.
  Variable footer : list Z.
  Variable mpiio : bool.
  Variable junk : Z -> field -> Z -> Z.
  Inductive write_file {V} (d : grid) (vtkspace : V) (vtkwrite : Z) (coordinate_cb value_cb : Z -> Z -> Z -> option (list Z)) (Ds : list dom) :
      bool -> bool -> Z -> option (state * file) -> Prop :=
  | no_header : forall fok, returned (length Ds) false = -1 -> write_file d vtkspace vtkwrite coordinate_cb value_cb Ds false fok (-1) None
  | written : forall fok s lists ws,
      (forall D, In D Ds -> set_up d (global_num_patches D) = Some s) -> 0 <= returned (length Ds) true ->
      let h := text (header s) in
      let begin := Z.of_nat (length h) in
      let F := write_at empty_file (0, h) in
      Forall2 (fun D l => write_data s D (coordinate_cb (mpirank D)) (value_cb (mpirank D)) mpiio (junk (mpirank D)) begin = Some l) Ds lists ->
      shuffle lists ws ->
      let F := write_all (if mpiio then reserve F (begin + offset_end s) else F) ws in
      write_file d vtkspace vtkwrite coordinate_cb value_cb Ds true fok (if fok then 0 else returned (length Ds) false)
        (if fok then Some (s, write_at F (size F, footer)) else None).
End Write.

(** ** The callbacks for clawpatches *)
Section Callbacks.
  (** numbers: lower + i * width in floating point, the bytes of a double, the bytes of a number converted to float *)
  Variable R : Type.
  Variable zero : R.
  Variable place : R -> Z -> R -> R.
  Variable double : R -> list Z.
  Variable float : R -> list Z.
  (** the mapping: block and coordinates *)
  Variable c2m : Z -> R -> R -> R -> R * R * R.
  (** fclaw2d_clawpatch_grid_data, fclaw2d_clawpatch_soln_data *)
  Record clawpatch := mkPatch { c_grid : grid; mbc : Z; xlower : R; ylower : R; zlower : R; dx : R; dy : R; dz : R; q : Z -> option R }.

  (** fclaw2d_clawpatch_output_vtk.c:702-778 fclaw2d_output_vtk_coordinate_cb *)
  Definition output_coordinates (manifold : bool) (blockno : Z) (p : clawpatch) : list Z :=
    let d := c_grid p in
    flat_map (fun k => flat_map (fun j => flat_map (fun i =>
      let x := place (xlower p) i (dx p) in let y := place (ylower p) j (dy p) in let z := if cube d then place (zlower p) k (dz p) else zero in
      let '(a, b, c) := if manifold then c2m blockno x y z else (x, y, z) in double a ++ double b ++ double c)
      (zrange 0 (mx d + 1))) (zrange 0 (my d + 1))) (zrange 0 (if cube d then mz d + 1 else 1)).

  (** fclaw2d_clawpatch_output_vtk.c:781-850 fclaw2d_output_vtk_value_cb; reading outside of q is [None] *)
  Definition output_values (p : clawpatch) : option (list Z) :=
    let d := c_grid p in
    let xlane := mx d + 2 * mbc p in let ylane := my d + 2 * mbc p in let zlane := mz d + 2 * mbc p in
    option_map (flat_map float) (mapM (fun x => x)
      (flat_map (fun k => flat_map (fun j => flat_map (fun i => map (fun m =>
        q p (if cube d then m * zlane * ylane * xlane + (k + mbc p) * ylane * xlane + (j + mbc p) * xlane + i + mbc p
             else (m * ylane + j + mbc p) * xlane + i + mbc p))
        (zrange 0 (meqn d))) (zrange 0 (mx d))) (zrange 0 (my d))) (zrange 0 (layers d)))).
End Callbacks.
