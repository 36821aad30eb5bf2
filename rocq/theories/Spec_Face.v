(** Geometry of neighbor blocks, independent of the code.

    Every block is the unit square (cube).  A point is a function from axis
    number to coordinate; points may lie outside of the unit cube, which is how
    ghost cells beyond a face are described. *)
From Coq Require Import ZArith QArith List Permutation.
From Verif Require Import Base_Float Model_Face.   (* only the record types *)
Import ListNotations.
Open Scope Z_scope.

Definition point := Z -> Q.
Definition pt (x y z : Q) : point :=
  fun a => match a with 0 => x | 1 => y | _ => z end.

(** A face is an axis normal to it and a side (true = upper). *)
Record face := mkFace { normal_axis : Z; upper : bool }.

(** Signed distance of a point beyond a face (positive outside the block). *)
Definition beyond (f : face) (p : point) : Q :=
  if upper f then (p (normal_axis f) - 1)%Q else (- p (normal_axis f))%Q.

(** Two blocks glued along a face: the faces on either side and, for each
    tangential direction, the axis on this side, the axis on the other side and
    whether the directions are opposite. *)
Record gluing := mkGluing {
  here : face; there : face;
  tangential : list (Z * Z * bool) }.

(** [p] in the coordinates of this block and [p'] in those of the other one are
    the same point of space: going out by some distance through my face is
    going in by the same distance through the other face, and tangential
    positions agree. *)
Definition same_point (g : gluing) (p p' : point) : Prop :=
  (beyond (here g) p == - beyond (there g) p')%Q /\
  (forall ma tb rev, In (ma, tb, rev) (tangential g) ->
     (p' tb == if rev : bool then 1 - p ma else p ma)%Q).

(** Gluings that make sense in two dimensions: one tangential direction. *)
Definition gluing2 (g : gluing) : Prop :=
  exists n t rev n' t', tangential g = [(t, t', rev)] /\
    normal_axis (here g) = n /\ normal_axis (there g) = n' /\
    ((n = 0 /\ t = 1) \/ (n = 1 /\ t = 0)) /\
    ((n' = 0 /\ t' = 1) \/ (n' = 1 /\ t' = 0)).

(** (a,b,c) is a permutation of the axes (0,1,2). *)
Definition axes3 (a b c : Z) : Prop :=
  0 <= a <= 2 /\ 0 <= b <= 2 /\ 0 <= c <= 2 /\ a <> b /\ a <> c /\ b <> c.

Definition gluing3 (g : gluing) : Prop :=
  exists t0 t1 t0' t1' r0 r1, tangential g = [(t0, t0', r0); (t1, t1', r1)] /\
    axes3 t0 t1 (normal_axis (here g)) /\ axes3 t0' t1' (normal_axis (there g)).

(** The two dimensional gluing described by a face number 0..3 (left, right,
    bottom, top), the face number on the other side and the orientation. *)
Definition face2d (f : Z) : face := mkFace (f / 2) (Z.odd f).
Definition glue2d (f nf : Z) (opposite : bool) : gluing :=
  mkGluing (face2d f) (face2d nf) [(1 - f / 2, 1 - nf / 2, opposite)].

(** Coordinate of index [i] of a grid of [m] cells on a quadrant with lower
    coordinate [low] and width 2^-lev: node i if based = 0, center of cell i if
    based = 1. *)
Definition index_coord (low : Q) (lev m based i : Z) : Q :=
  (low + (inject_Z i - inject_Z based / 2) / (inject_Z m * inject_Z (2 ^ lev)))%Q.

(** Center of the half [s] (0 lower, 1 upper) of cell [i]; cells count from
    [based]. *)
Definition half_cell_coord (low : Q) (lev m based i s : Z) : Q :=
  (low + (inject_Z (i - based) + (1 # 4) + inject_Z s / 2) /
         (inject_Z m * inject_Z (2 ^ lev)))%Q.

(** Center of cell [i]; cells count from [based]. *)
Definition cell_coord (low : Q) (lev m based i : Z) : Q :=
  (low + (inject_Z (i - based) + (1 # 2)) /
         (inject_Z m * inject_Z (2 ^ lev)))%Q.

(** [low] is the lower coordinate of a quadrant of level [lev]. *)
Definition on_grid (lev : Z) (low : Q) : Prop :=
  exists a, 0 <= a < 2 ^ lev /\ (low == inject_Z a / inject_Z (2 ^ lev))%Q.

(** ** Reading the code's data structures as geometry *)

(** A patch occupies a quadrant of its level. *)
Definition quadrant (d : dim) (p : patch) : Prop :=
  0 <= level p < (match d with D2 => 30 | D3 => 19 end) /\
  on_grid (level p) (xlower p) /\ on_grid (level p) (ylower p) /\
  (d = D3 -> on_grid (level p) (zlower p)).

(** Position of index triple (i,j,k) of a patch with mx by my (by mz) cells. *)
Definition index_point (p : patch) (mx my mz based i j k : Z) : point :=
  pt (index_coord (xlower p) (level p) mx based i)
     (index_coord (ylower p) (level p) my based j)
     (index_coord (zlower p) (level p) mz based k).

Definition cell_center (p : patch) (mx my mz based i j k : Z) : point :=
  pt (cell_coord (xlower p) (level p) mx based i)
     (cell_coord (ylower p) (level p) my based j)
     (cell_coord (zlower p) (level p) mz based k).

(** Center of child (sx,sy,sz) of cell (i,j,k). *)
Definition child_center (p : patch) (mx my mz based i j k sx sy sz : Z) : point :=
  pt (half_cell_coord (xlower p) (level p) mx based i sx)
     (half_cell_coord (ylower p) (level p) my based j sy)
     (half_cell_coord (zlower p) (level p) mz based k sz).

(** The nine integers describe the gluing, as documented for
    fclaw2d_patch_face_transformation in forestclaw2d.h. *)
Definition b2z (b : bool) : Z := if b then 1 else 0.
Definition face_code (g : gluing) : Z := 2 * b2z (upper (here g)) + b2z (upper (there g)).
Definition describes (d : dim) (g : gluing) (ft : ftrans) : Prop :=
  match d, tangential g with
  | D2, [(t, t', r)] =>
      gluing2 g /\
      ft = mkF t 0 (normal_axis (here g)) t' 0 (normal_axis (there g))
               (b2z r) 0 (face_code g)
  | D3, [(t0, t0', r0); (t1, t1', r1)] =>
      gluing3 g /\
      ft = mkF t0 t1 (normal_axis (here g)) t0' t1' (normal_axis (there g))
               (b2z r0) (b2z r1) (face_code g)
  | _, _ => False
  end.

(** Number of cells along an axis. *)
Definition cells_along (mx my mz a : Z) : Z :=
  match a with 0 => mx | 1 => my | _ => mz end.

(** Number of cells agrees along identified directions. *)
Definition sizes_match (g : gluing) (mx my mz : Z) : Prop :=
  let m := cells_along mx my mz in
  m (normal_axis (here g)) = m (normal_axis (there g)) /\
  (forall ma tb rev, In (ma, tb, rev) (tangential g) -> m ma = m tb).

(** Patch sizes for which block-wide cell numbers stay well within 52 bits. *)
Definition size_ok (lev m : Z) : Prop := 1 <= m /\ 2 ^ lev * m <= 2 ^ 49.
Definition sizes_ok (d : dim) (lev mx my mz : Z) : Prop :=
  size_ok lev mx /\ size_ok lev my /\ (d = D3 -> size_ok lev mz).

(** Axes of the dimension. *)
Definition axis (d : dim) (a : Z) : Prop := 0 <= a < (match d with D2 => 2 | D3 => 3 end).

(** Two points with the same coordinates up to a translation of the block
    coordinate system by whole blocks. *)
Definition translated (d : dim) (shift : Z -> Z) (p p' : point) : Prop :=
  forall a, axis d a -> (p' a == p a + inject_Z (shift a))%Q.

(** Crossing corner c of a block (bit a of c: upper side along axis a) into the
    diagonally adjacent, equally oriented block: leaving through a lower side
    enters at the upper side of the other block. *)
Definition corner_move (c : Z) (a : Z) : Z := if Z.testbit c a then -1 else 1.
Definition no_move (a : Z) : Z := 0.

(** The patch touches the corner of its block opposite to c. *)
Definition at_opposite_corner (d : dim) (c : Z) (p : patch) : Prop :=
  let lo := pt (xlower p) (ylower p) (zlower p) in
  let up := pt (xupper p) (yupper p) (zupper p) in
  forall a, axis d a -> (if Z.testbit c a then lo a == 0 else up a == 1)%Q.

(** A child of a cell and its number (x fastest). *)
Definition child (d : dim) (sx sy sz : Z) : Prop :=
  0 <= sx <= 1 /\ 0 <= sy <= 1 /\ 0 <= sz <= (match d with D2 => 0 | D3 => 1 end).
Definition child_number (sx sy sz : Z) : Z := 4 * sz + 2 * sy + sx.

(** What a function that fills 2^d output slots must deliver: every slot is
    assigned exactly once, and the slot of each child holds the cell with the
    same center as that child. *)
Definition delivers (d : dim) (outs : outputs)
    (same : Z -> Z -> Z -> Z * Z * Z -> Prop) : Prop :=
  Permutation (map fst outs)
     (match d with D2 => [0; 1; 2; 3] | D3 => [0; 1; 2; 3; 4; 5; 6; 7] end) /\
  forall sx sy sz, child d sx sy sz ->
    exists c, In (child_number sx sy sz, c) outs /\ same sx sy sz c.

(** Reading the gluing from the other side. *)
Definition glue_inv (g : gluing) : gluing :=
  mkGluing (there g) (here g) (map (fun '(a, b, r) => (b, a, r)) (tangential g)).


(** ** Ghost layers beyond a face (two dimensions, 1-based cells) *)

(** index pairs beyond and inside a face, at depth [dep] and position [t] *)
Definition ghost_cell (f m dep t : Z) : Z * Z :=
  match f with 0 => (1 - dep, t) | 1 => (m + dep, t) | 2 => (t, 1 - dep) | _ => (t, m + dep) end.
Definition inner_cell (f m dep t : Z) : Z * Z :=
  match f with 0 => (dep, t) | 1 => (m + 1 - dep, t) | 2 => (t, dep) | _ => (t, m + 1 - dep) end.

(** lower coordinate of the patch along / normal to a face *)
Definition along (f : Z) (p : patch) : Q := match f with 0 | 1 => ylower p | _ => xlower p end.
Definition across (f : Z) (p : patch) : Q := match f with 0 | 1 => xlower p | _ => ylower p end.
Definition width (p : patch) : Q := (1 / inject_Z (2 ^ level p))%Q.
Definition touches_face (f : Z) (p : patch) : Prop :=
  Qeq (across f p) (match f with 0 | 2 => 0%Q | _ => (1 - width p)%Q end).

