(** Points in patches, and what is known about the search of p4est. *)
From Coq Require Import ZArith QArith List Bool Permutation.
From Verif Require Import Model_Face Model_Domain Spec_Domain Model_Search.
Import ListNotations.
Open Scope Z_scope.

(** the closed box of a quadrant contains the point; blocks are unit squares or cubes *)
Definition between (d : dim) (x : Q) (c h : Z) : Prop := (unit_coord d c <= x)%Q /\ (x <= unit_coord d (c + h))%Q.
Definition contains (d : dim) (q : quad) (p : point) : Prop :=
  between d (pt_x p) (q_x q) (side d (q_level q)) /\ between d (pt_y p) (q_y q) (side d (q_level q)) /\
  match d with D2 => True | D3 => between d (pt_z p) (q_z q) (side d (q_level q)) end.

(** the box of [q] lies in the box of [a] *)
Definition within (d : dim) (q a : quad) : Prop :=
  (q_x a <= q_x q /\ q_x q + side d (q_level q) <= q_x a + side d (q_level a)) /\
  (q_y a <= q_y q /\ q_y q + side d (q_level q) <= q_y a + side d (q_level a)) /\
  match d with D2 => True | D3 => q_z a <= q_z q /\ q_z q + side d (q_level q) <= q_z a + side d (q_level a) end.

(** Search tree of p4est for the local patches of one block: each patch is one leaf with its local number, and
    every branch contains the leaves below it. *)
Fixpoint leaves (t : stree) : list (quad * Z) :=
  match t with Leaf q n => [(q, n)] | Node _ ch => flat_map leaves ch end.
Inductive nested (d : dim) : stree -> Prop :=
| n_leaf : forall q n, nested d (Leaf q n)
| n_node : forall q ch, wf_quad d q -> (forall t, In t ch -> nested d t) ->
    (forall l, In l (flat_map leaves ch) -> within d (fst l) q) -> nested d (Node q ch).
Definition numbered (b : block) : list (quad * Z) :=
  combine (b_patches b) (map (fun i => b_before b + Z.of_nat i) (seq 0 (length (b_patches b)))).
Definition search_tree_of (d : dim) (b : block) (t : option stree) : Prop :=
  match t with
  | None => b_patches b = []
  | Some t => nested d t /\ Permutation (leaves t) (numbered b)
  end.
Definition block_ok (d : dim) (b : block) : Prop := 0 <= b_before b /\ Forall (wf_quad d) (b_patches b).
Definition process_ok (d : dim) (pr : list block * list (option stree)) : Prop :=
  Forall (block_ok d) (fst pr) /\ Forall2 (search_tree_of d) (fst pr) (snd pr).

(** the arguments of search_points: offsets of the blocks into the array of points *)
Definition offsets_ok (num_blocks : nat) (offsets : list Z) (num_points : nat) : Prop :=
  length offsets = S num_blocks /\ nth 0 offsets 0 = 0 /\ nth num_blocks offsets 0 = Z.of_nat num_points /\
  forall i, (i < num_blocks)%nat -> nth i offsets 0 <= nth (S i) offsets 0.

(** on process [pr], patch number [i] of block [jb] contains the point *)
Definition has (d : dim) (pr : list block * list (option stree)) (jb : nat) (pt : point) (i : Z) : Prop :=
  exists b q, nth_error (fst pr) jb = Some b /\ zget (b_patches b) i = Some q /\ contains d q pt.

(** the leaves of all processes: (block, patch number, quadrant) *)
Definition leaves_of (pr : list block * list (option stree)) : list (Z * Z * quad) :=
  flat_map (fun '(jb, b) => map (fun '(i, q) => (jb, i, q)) (number (b_patches b))) (number (fst pr)).
Definition all_leaves (procs : list (list block * list (option stree))) : list (Z * Z * quad) := flat_map leaves_of procs.
Definition Qsum (l : list Q) : Q := fold_right Qplus 0%Q l.

(** The callback is consistent with nesting: a quadrant around a leaf that contributes is reported as intersected. *)
Definition consistent {ray} (d : dim) (integrate_ray : quad -> Z -> Z -> ray -> bool * Q) : Prop :=
  forall q a jb i r, 0 <= i -> within d q a -> ~ (snd (integrate_ray q jb i r) == 0)%Q -> fst (integrate_ray a jb (-1) r) = true.

(** process [p] is the lowest with a patch that contains the point *)
Definition lowest (d : dim) (procs : list (list block * list (option stree))) (p jb : nat) (pt : point) : Prop :=
  (exists pr i, nth_error procs p = Some pr /\ has d pr jb pt i) /\
  forall p' pr' i, (p' < p)%nat -> nth_error procs p' = Some pr' -> ~ has d pr' jb pt i.
