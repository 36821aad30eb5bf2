(** Reference for the metric terms: the points of the mesh, areas, and the geometry of faces.  Uses only [point], [dot], [cross]
    (Spec_Map) and the data of a patch, none of the routines. *)
From Coq Require Import ZArith Reals List Bool.
From Verif Require Import Model_Map Spec_Map Model_Metric.
Open Scope R_scope.

Definition sub (p q : point) : point := let '(a, b, c) := p in let '(x, y, z) := q in (a - x, b - y, c - z).
Definition add (p q : point) : point := let '(a, b, c) := p in let '(x, y, z) := q in (a + x, b + y, c + z).
Definition scale (s : R) (p : point) : point := let '(a, b, c) := p in (s * a, s * b, s * c).
Definition norm (v : point) : R := sqrt (dot v v).
Definition zero : point := (0, 0, 0).
Definition parallel (u v : point) : Prop := cross u v = zero.

(** f 0 + ... + f (n-1) *)
Fixpoint sum (n : nat) (f : nat -> R) : R := match n with O => 0 | S n => sum n f + f n end.

(** The vector area of a quadrilateral is half of the cross product of its diagonals; its length is the area of a plane convex
    quadrilateral.  a, b, c, d: lower left, lower right, upper right, upper left. *)
Definition quad_area (a b c d : point) : R := norm (cross (sub c a) (sub d b)) / 2.

(** the lower left corner of cell (i,j) of a patch, and its centre, in the coordinates of the block *)
Definition corner_x (p : mpatch) (i : Z) : R := xlower p + (IZR i - 1) * pdx p.
Definition corner_y (p : mpatch) (j : Z) : R := ylower p + (IZR j - 1) * pdy p.
Definition centre_x (p : mpatch) (i : Z) : R := xlower p + (IZR i - 1 / 2) * pdx p.
Definition centre_y (p : mpatch) (j : Z) : R := ylower p + (IZR j - 1 / 2) * pdy p.

Section Map.
  Variable M : R -> R -> point.
  (** the rectangle [x, x+w] x [y, y+h] *)
  Definition rectangle_area (x y w h : R) : R := quad_area (M x y) (M (x + w) y) (M (x + w) (y + h)) (M x (y + h)).
  (** ... cut into n by n rectangles *)
  Definition divided_area (n : nat) (x y w h : R) : R :=
    sum n (fun a => sum n (fun b => rectangle_area (x + INR a * (w / INR n)) (y + INR b * (h / INR n)) (w / INR n) (h / INR n))).
  (** x -> A x + b *)
  Definition affine : Prop := exists o u v : point, forall x y, M x y = add o (add (scale x u) (scale y v)).
  (** the mesh points of a patch *)
  Definition node (p : mpatch) (i j : Z) : point := M (corner_x p i) (corner_y p j).
  Definition centre (p : mpatch) (i j : Z) : point := M (centre_x p i) (centre_y p j).
  (** the area of cell (i,j): that of its parts on the finest level *)
  Definition cell_area (maxlevel : Z) (p : mpatch) (i j : Z) : R :=
    divided_area (Z.to_nat (2 ^ (maxlevel - plevel p))) (corner_x p i) (corner_y p j) (pdx p) (pdy p).
  (** every difference of two points is orthogonal to e *)
  Definition in_plane (e : point) : Prop := norm e = 1 /\ forall x y x' y', dot (sub (M x y) (M x' y')) e = 0.
End Map.

(** The indices of the arrays of cells and of nodes: the interior is 1..mx, and there is one more layer than there are ghost cells. *)
Definition cell_index (p : mpatch) (i j : Z) : Prop := (- pmbc p <= i <= pmx p + pmbc p + 1 /\ - pmbc p <= j <= pmy p + pmbc p + 1)%Z.
Definition node_index (p : mpatch) (i j : Z) : Prop := (- pmbc p <= i <= pmx p + pmbc p + 2 /\ - pmbc p <= j <= pmy p + pmbc p + 2)%Z.
(** left faces of cells that have a neighbour to the left, and lower faces of cells that have one below *)
Definition x_face (p : mpatch) (i j : Z) : Prop := (1 - pmbc p <= i <= pmx p + pmbc p + 1 /\ - pmbc p <= j <= pmy p + pmbc p + 1)%Z.
Definition y_face (p : mpatch) (i j : Z) : Prop := (- pmbc p <= i <= pmx p + pmbc p + 1 /\ 1 - pmbc p <= j <= pmy p + pmbc p + 1)%Z.
(** interior cells and ghost cells *)
Definition data_cell (p : mpatch) (i j : Z) : Prop := (1 - pmbc p <= i <= pmx p + pmbc p /\ 1 - pmbc p <= j <= pmy p + pmbc p)%Z.

(** A unit normal to [edge] that is tangent to the surface and points the way of [across]. *)
Definition face_normal (edge across n : point) : Prop :=
  norm n = 1 /\ dot n edge = 0 /\ 0 < dot n across /\ exists a b, n = add (scale a across) (scale b edge).

(** The four children of a patch, x fastest. *)
Definition child (p : mpatch) (k : Z) : mpatch :=
  mkPatch (pmx p) (pmy p) (pmbc p) (xlower p + IZR (k mod 2) * (IZR (pmx p) * pdx p / 2)) (ylower p + IZR (k / 2) * (IZR (pmy p) * pdy p / 2))
    (pdx p / 2) (pdy p / 2) (pblock p) (plevel p + 1).

(** The areas of the interior cells of a patch. *)
Definition patch_area (p : mpatch) (area : Z -> Z -> R) : R :=
  sum (Z.to_nat (pmx p)) (fun a => sum (Z.to_nat (pmy p)) (fun b => area (Z.of_nat a + 1)%Z (Z.of_nat b + 1)%Z)).

(** The leaves of a tree of patches. *)
Inductive tree := Leaf | Node (t0 t1 t2 t3 : tree).
Fixpoint depth (t : tree) : Z :=
  match t with Leaf => 0 | Node a b c d => (1 + Z.max (Z.max (depth a) (depth b)) (Z.max (depth c) (depth d)))%Z end.
(** a sum over the leaves *)
Fixpoint over_leaves (f : mpatch -> R) (p : mpatch) (t : tree) : R :=
  match t with
  | Leaf => f p
  | Node a b c d => over_leaves f (child p 0) a + over_leaves f (child p 1) b + over_leaves f (child p 2) c + over_leaves f (child p 3) d
  end.

(** Two patches of one block, on the same level, whose cells are aligned: cell (i,j) of [q] is cell (i+a,j+b) of [p]. *)
Definition aligned (p q : mpatch) (a b : Z) : Prop :=
  pblock q = pblock p /\ plevel q = plevel p /\ pdx q = pdx p /\ pdy q = pdy p /\ xlower q = xlower p + IZR a * pdx p /\ ylower q = ylower p + IZR b * pdy p.

(** Square patches with an even number of cells and at least one ghost cell, on a level that is allowed. *)
Definition usable (maxlevel : Z) (p : mpatch) : Prop :=
  pmx p = pmy p /\ Z.even (pmx p) = true /\ (0 < pmx p)%Z /\ (1 <= pmbc p)%Z /\ (plevel p <= maxlevel)%Z.

Section History.
  Variable c2m : Z -> R -> R -> point.
  Variable isaffine isflat : bool.
  Variable maxlevel : Z.
  (** The metric terms that a patch can have in a run: built from scratch, or from four finer patches that were themselves built in one of
      these ways. *)
  Inductive built : mpatch -> metric -> Prop :=
  | From_scratch : forall p g, patch_build c2m isaffine isflat maxlevel p = Some g -> built p g
  | From_fine : forall p fine g, (forall k, (0 <= k < 4)%Z -> built (child p k) (fine k)) ->
      patch_build_from_fine c2m isaffine isflat maxlevel p (fun k => m_area (fine k)) = Some g -> built p g.
  (** [mesh_area p t s]: s is the sum of the areas of all interior cells of a mesh that refines p as t says. *)
  Inductive mesh_area : mpatch -> tree -> R -> Prop :=
  | One_patch : forall p g area, built p g -> (forall i j, (1 <= i <= pmx p)%Z -> (1 <= j <= pmy p)%Z -> m_area g (i, j) = Some (area i j)) ->
      mesh_area p Leaf (patch_area p area)
  | Four_patches : forall p t0 t1 t2 t3 s0 s1 s2 s3, mesh_area (child p 0) t0 s0 -> mesh_area (child p 1) t1 s1 -> mesh_area (child p 2) t2 s2 -> mesh_area (child p 3) t3 s3 ->
      mesh_area p (Node t0 t1 t2 t3) (s0 + s1 + s2 + s3).
End History.
