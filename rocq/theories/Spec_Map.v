(** What a mapping of a domain made of blocks should do. *)
From Coq Require Import ZArith Reals List Bool.
From Verif Require Import Model_Map.
Import ListNotations.
Open Scope R_scope.

(** ** Blocks *)
(** a block is the unit square *)
Definition square (x y : R) : Prop := 0 <= x <= 1 /\ 0 <= y <= 1.
Definition inside (x y : R) : Prop := 0 < x < 1 /\ 0 < y < 1.
(** the point of face 0 (left), 1 (right), 2 (bottom), 3 (top) at distance [s] from its first corner *)
Definition on_face (f : Z) (s : R) : R * R := match f with 0%Z => (0, s) | 1%Z => (1, s) | 2%Z => (s, 0) | _ => (s, 1) end.
(** corners of a square are numbered 0 1 / 2 3 from the bottom *)
Definition face_corners (f : Z) : option (nat * nat) :=
  match f with 0%Z => Some (0, 2)%nat | 1%Z => Some (1, 3)%nat | 2%Z => Some (0, 1)%nat | 3%Z => Some (2, 3)%nat | _ => None end.

(** ** Connectivities: the vertices at the corners of the blocks (tree_to_vertex), as created by p4est *)
Definition connectivity := list (list Z).
(** p4est_connectivity_new_cubed *)
Definition cubed : connectivity := [[0; 2; 1; 3]; [2; 6; 3; 7]; [0; 4; 2; 6]; [4; 5; 6; 7]; [0; 1; 4; 5]; [1; 3; 5; 7]]%Z.
(** p4est_connectivity_new_disk, not periodic *)
Definition disk : connectivity := [[4; 5; 0; 1]; [4; 0; 6; 2]; [0; 1; 2; 3]; [1; 5; 3; 7]; [2; 3; 6; 7]]%Z.
(** p4est_connectivity_new_pillow *)
Definition pillow : connectivity := [[0; 1; 2; 3]; [0; 1; 2; 3]]%Z.
(** p4est_connectivity_new_brick (2, 2) *)
Definition brick22 : connectivity := [[0; 1; 3; 4]; [1; 2; 4; 5]; [3; 4; 6; 7]; [4; 5; 7; 8]]%Z.

(** the vertices at the ends of a face *)
Definition face_ends (c : connectivity) (b f : Z) : option (Z * Z) :=
  if (b <? 0)%Z then None else
  match nth_error c (Z.to_nat b), face_corners f with
  | Some vs, Some (i, j) => match nth_error vs i, nth_error vs j with Some v, Some w => Some (v, w) | _, _ => None end
  | _, _ => None
  end.

(** ** Mappings *)
Definition mapping := Z -> R -> R -> option point.
Definition at_ (M : mapping) (b : Z) (xy : R * R) : option point := M b (fst xy) (snd xy).
(** faces with the same vertices are mapped to the same curve, point by point *)
Definition continuous_across (c : connectivity) (M : mapping) : Prop :=
  forall b f b' f' v w s, face_ends c b f = Some (v, w) -> 0 <= s <= 1 ->
    (face_ends c b' f' = Some (v, w) -> at_ M b (on_face f s) = at_ M b' (on_face f' s) /\ at_ M b (on_face f s) <> None) /\
    (face_ends c b' f' = Some (w, v) -> at_ M b (on_face f s) = at_ M b' (on_face f' (1 - s)) /\ at_ M b (on_face f s) <> None).
(** the image is inside of a set; it is the whole set; no point is reached twice but at the boundaries of blocks *)
Definition maps_into (M : mapping) (S : point -> Prop) : Prop := forall b x y p, square x y -> M b x y = Some p -> S p.
Definition maps_onto (M : mapping) (S : point -> Prop) : Prop := forall p, S p -> exists b x y, square x y /\ M b x y = Some p.
Definition one_to_one (M : mapping) : Prop :=
  forall b x y b' x' y' p, inside x y -> square x' y' -> M b x y = Some p -> M b' x' y' = Some p -> b = b' /\ x = x' /\ y = y'.
(** blocks do not overlap *)
Definition blocks_disjoint (M : mapping) : Prop :=
  forall b x y b' x' y' p, inside x y -> inside x' y' -> M b x y = Some p -> M b' x' y' = Some p -> b = b'.
Definition one_block (m : R -> R -> point) : mapping := fun b x y => if (b =? 0)%Z then Some (m x y) else None.

(** ** Surfaces *)
Definition sphere (p : point) : Prop := let '(x, y, z) := p in x ^ 2 + y ^ 2 + z ^ 2 = 1.
Definition unit_disk (p : point) : Prop := let '(x, y, z) := p in x ^ 2 + y ^ 2 <= 1 /\ z = 0.
Definition circle (p : point) : Prop := let '(x, y, z) := p in x ^ 2 + y ^ 2 = 1 /\ z = 0.
Definition big_square (p : point) : Prop := let '(x, y, z) := p in -1 <= x <= 1 /\ -1 <= y <= 1 /\ z = 0.
Definition ring (inner : R) (p : point) : Prop := let '(x, y, z) := p in inner ^ 2 <= x ^ 2 + y ^ 2 <= 1 /\ z = 0.
(** a tube around the circle of radius 1 in the plane z = 0: its radius is alpha (1 + beta sin t) at the angle t *)
Definition tube (alpha beta : R) (p : point) : Prop :=
  let '(x, y, z) := p in let rho := sqrt (x ^ 2 + y ^ 2) in (rho - 1) ^ 2 + z ^ 2 = (alpha * (1 + beta * (y / rho))) ^ 2.

(** ** Rigid motions *)
Definition sub (p q : point) : point := let '(a, b, c) := p in let '(x, y, z) := q in (a - x, b - y, c - z).
Definition dot (p q : point) : R := let '(a, b, c) := p in let '(x, y, z) := q in a * x + b * y + c * z.
Definition cross (p q : point) : point := let '(a, b, c) := p in let '(x, y, z) := q in (b * z - c * y, c * x - a * z, a * y - b * x).
(** turn about the z axis, from x to y; about the y axis, from x to z; about the x axis, from y to z *)
Definition turn_z (t : R) (p : point) : point := let '(x, y, z) := p in (x * cos t - y * sin t, x * sin t + y * cos t, z).
Definition turn_y (t : R) (p : point) : point := let '(x, y, z) := p in (x * cos t - z * sin t, y, x * sin t + z * cos t).
Definition turn_x (t : R) (p : point) : point := let '(x, y, z) := p in (x, y * cos t - z * sin t, y * sin t + z * cos t).
