(** Vocabulary for the properties of domain construction and iteration,
    independent of the algorithms: positions of quadrants in a forest, parent
    and child relations, what a patch must record about its quadrant. *)
From Coq Require Import ZArith QArith List Bool Lia.
From Verif Require Import Model_Face Model_Domain.
Import ListNotations.
Open Scope Z_scope.

(** The root cube has side 2^M units; a quadrant of level l has side 2^(M-l). *)
Definition side (d : dim) (l : Z) : Z :=
  match d with D2 => 2 ^ (30 - l) | D3 => 2 ^ (19 - l) end.
Definition maxl (d : dim) : Z := match d with D2 => 29 | D3 => 18 end.

(** A quadrant of the uniform grid of its level inside the root cube. *)
Definition aligned (d : dim) (l x : Z) : Prop :=
  exists k, x = k * side d l /\ 0 <= x /\ x + side d l <= side d 0.
Definition wf_quad (d : dim) (q : quad) : Prop :=
  0 <= q_level q <= maxl d /\
  aligned d (q_level q) (q_x q) /\ aligned d (q_level q) (q_y q) /\
  match d with D2 => q_z q = 0 | D3 => aligned d (q_level q) (q_z q) end.
Definition wf_forest (d : dim) (trees : list (list quad)) : Prop :=
  Forall (Forall (wf_quad d)) trees.

(** All local patches of the forest, block by block: (block, patch). *)
Fixpoint positions_from (i : nat) (trees : list (list quad)) : list (nat * nat) :=
  match trees with
  | [] => []
  | t :: ts => map (fun j => (i, j)) (seq 0 (length t)) ++ positions_from (S i) ts
  end.
Definition positions (trees : list (list quad)) := positions_from 0 trees.
Definition quad_at (trees : list (list quad)) (ij : nat * nat) : option quad :=
  match nth_error trees (fst ij) with
  | Some t => nth_error t (snd ij)
  | None => None
  end.
Definition has_level (trees : list (list quad)) (l : Z) (ij : nat * nat) : bool :=
  match quad_at trees ij with Some q => q_level q =? l | None => false end.

(** Child number k (bits: x, y, z) of a parent quadrant. *)
Definition bitof (k : Z) (n : Z) : Z := (k / 2 ^ n) mod 2.
Definition is_child (d : dim) (parent q : quad) (k : Z) : Prop :=
  q_level q = q_level parent + 1 /\
  q_x q = q_x parent + bitof k 0 * side d (q_level q) /\
  q_y q = q_y parent + bitof k 1 * side d (q_level q) /\
  match d with D2 => True | D3 => q_z q = q_z parent + bitof k 2 * side d (q_level q) end.
Definition nchild (d : dim) : Z := match d with D2 => 4 | D3 => 8 end.

(** All 2^d siblings, in order, start at position (i, j). *)
Definition family_at (d : dim) (trees : list (list quad)) (ij : nat * nat) : Prop :=
  exists parent, wf_quad d parent /\
    forall k, 0 <= k < nchild d ->
    exists q, quad_at trees (fst ij, (snd ij + Z.to_nat k)%nat) = Some q /\ is_child d parent q k.

(** The quadrant is child k of its parent; the root counts as child 0. *)
Definition child_number (d : dim) (q : quad) (k : Z) : Prop :=
  0 <= k < nchild d /\
  ((q_level q = 0 /\ k = 0) \/ exists parent, wf_quad d parent /\ is_child d parent q k).

(** Quadrant face f lies on the block face f. *)
Definition on_block_face (d : dim) (q : quad) (f : Z) : Prop :=
  (f = 0 /\ q_x q = 0) \/ (f = 1 /\ q_x q + side d (q_level q) = side d 0) \/
  (f = 2 /\ q_y q = 0) \/ (f = 3 /\ q_y q + side d (q_level q) = side d 0) \/
  (d = D3 /\ f = 4 /\ q_z q = 0) \/
  (d = D3 /\ f = 5 /\ q_z q + side d (q_level q) = side d 0).

(** Position of integer coordinate x inside the unit block. *)
Definition unit_coord (d : dim) (x : Z) : Q := (inject_Z x / inject_Z (side d 0))%Q.

(** What a patch records about its quadrant: geometry, level, child number,
    block faces. *)
Definition records (d : dim) (q : quad) (p : patch_t) : Prop :=
  p_level p = q_level q /\ p_target p = q_level q /\
  (p_xl p == unit_coord d (q_x q))%Q /\ (p_xu p == unit_coord d (q_x q + side d (q_level q)))%Q /\
  (p_yl p == unit_coord d (q_y q))%Q /\ (p_yu p == unit_coord d (q_y q + side d (q_level q)))%Q /\
  (d = D3 -> (p_zl p == unit_coord d (q_z q))%Q /\
             (p_zu p == unit_coord d (q_z q + side d (q_level q)))%Q) /\
  child_number d q (Z.land (p_flags p) 7) /\
  (forall f, 0 <= f < 6 -> (Z.testbit (p_flags p) (6 + f) = true <-> on_block_face d q f)).

Definition count (trees : list (list quad)) : Z :=
  fold_right (fun t n => Z.of_nat (length t) + n) 0 trees.

(** lo / hi are the least / greatest level of a list of quadrants; an empty list
    has the conventional values maxl and -1. *)
Definition level_range (d : dim) (t : list quad) (lo hi : Z) : Prop :=
  (forall q, In q t -> lo <= q_level q <= hi) /\
  (t = [] -> lo = maxl d /\ hi = -1) /\
  (t <> [] -> (exists q, In q t /\ q_level q = lo) /\ (exists q, In q t /\ q_level q = hi)).

(** Mirror numbers: strictly increasing local patch numbers. *)
Fixpoint increasing_from (n : Z) (l : list Z) : Prop :=
  match l with [] => True | m :: r => n <= m /\ increasing_from (m + 1) r end.
Definition wf_mirrors (trees : list (list quad)) (mirrors : list Z) : Prop :=
  increasing_from 0 mirrors /\ Forall (fun m => m < count trees) mirrors.

(** The domain represents the forest. *)
Definition represents (d : dim) (trees : list (list quad)) (mirrors : list Z)
           (dom : domain_t) : Prop :=
  dom_num dom = count trees /\
  level_range d (concat trees) (dom_min dom) (dom_max dom) /\
  map Some (dom_exchange dom) = map (fun m => nth_error (positions trees) (Z.to_nat m)) mirrors /\
  length (dom_blocks dom) = length trees /\
  forall i t, nth_error trees i = Some t ->
  exists b, nth_error (dom_blocks dom) i = Some b /\
    b_before b = count (firstn i trees) /\
    length (b_patches b) = length t /\
    level_range d t (b_min b) (b_max b) /\
    forall j q, nth_error t j = Some q ->
    exists p, nth_error (b_patches b) j = Some p /\ records d q p /\
      (Z.testbit (p_flags p) 3 = true <-> family_at d trees (i, j)) /\
      (Z.testbit (p_flags p) 4 = true <->
         exists m, In m mirrors /\ nth_error (positions trees) (Z.to_nat m) = Some (i, j)) /\
      Z.testbit (p_flags p) 5 = false.
