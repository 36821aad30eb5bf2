(** Grids of patches: what is promised. *)
From Coq Require Import ZArith QArith List Bool.
From Verif Require Import Base_Float Model_Face Model_Domain Model_Brick Spec_Brick Model_Geom.
Import ListNotations.
Open Scope Z_scope.

(** a mesh: block number and quadrant of every patch *)
Definition mesh := list (Z * quad).
Definition root : Z := root_len D2.
Definition side (q : quad) : Z := quadrant_len D2 (q_level q).
Definition quad_ok (q : quad) : Prop :=
  0 <= q_level q <= 29 /\ 0 <= q_x q /\ q_x q + side q <= root /\ 0 <= q_y q /\ q_y q + side q <= root.
Definition holds (q : quad) (X Y : Z) : Prop := q_x q <= X < q_x q + side q /\ q_y q <= Y < q_y q + side q.
(** what p4est guarantees: the quadrants of a block cover it without overlap *)
Definition mesh_ok (nblocks : Z) (M : mesh) : Prop :=
  (forall b q, In (b, q) M -> 0 <= b < nblocks /\ quad_ok q) /\
  (forall b X Y, 0 <= b < nblocks -> 0 <= X < root -> 0 <= Y < root ->
     exists k, (exists q, nth_error M k = Some (b, q) /\ holds q X Y) /\
       forall k' q', nth_error M k' = Some (b, q') -> holds q' X Y -> k' = k).

Definition options_ok (o : gopts) : Prop := (o_ax o < o_bx o)%Q /\ (o_ay o < o_by o)%Q /\ 1 <= o_mx o /\ 1 <= o_my o.
(** cell (i, j) of a grid, left and lower edges included *)
Definition in_cell (g : geom) (i j : Z) (x y : Q) : Prop :=
  (c_xlower g + inject_Z (i - 1) * c_dx g <= x /\ x < c_xlower g + inject_Z i * c_dx g)%Q /\
  (c_ylower g + inject_Z (j - 1) * c_dy g <= y /\ y < c_ylower g + inject_Z j * c_dy g)%Q.
(** patch number k of the mesh has the point in its cell (i, j) *)
Definition cell_at (grid : Z -> quad -> option geom) (o : gopts) (M : mesh) (x y : Q) (k : nat) (i j : Z) : Prop :=
  exists b q g, nth_error M k = Some (b, q) /\ grid b q = Some g /\ 1 <= i <= o_mx o /\ 1 <= j <= o_my o /\ in_cell g i j x y.
Definition exactly_one (P : nat -> Z -> Z -> Prop) : Prop :=
  exists k i j, P k i j /\ forall k' i' j', P k' i' j' -> k' = k /\ i' = i /\ j' = j.

Definition exact (x : Q) : Q := x.
(** the quadrant [c] is child (kx, ky) of [q] *)
Definition child_quad (q c : quad) (kx ky : Z) : Prop :=
  q_level c = q_level q + 1 /\ q_x c = q_x q + kx * side c /\ q_y c = q_y q + ky * side c.
