(** Vocabulary for cell data, independent of the routines. *)
From Coq Require Import ZArith QArith Qminmax Qabs List Lia.
From Verif Require Import Base_Float Model_Face Spec_Face Model_Grid.   (* types only *)
Import ListNotations.
Open Scope Z_scope.

(** Cell data as a function of (i, j, equation); areas as a function of (i, j). *)
Definition data : Type := Z -> Z -> Z -> Q.
Definition areas : Type := Z -> Z -> Q.

Definition interior (d : dims) (c : cell) : Prop :=
  let '(i, j, mq) := c in 1 <= i <= mx d /\ 1 <= j <= my d /\ 1 <= mq <= meqn d.

(** The array holds the data in the interior; nothing is said about ghost cells, which
    may be unassigned. *)
Definition holds (d : dims) (q : arr) (f : data) : Prop :=
  forall i j mq, interior d (i, j, mq) -> q (i, j, mq) = Some (f i j mq).
Definition area_holds (d : dims) (a : area_t) (k : areas) : Prop :=
  forall i j, 1 <= i <= mx d -> 1 <= j <= my d -> a (i, j) = Some (k i j).

(** As above, and one layer of ghost cells beyond the faces (no corners). *)
Definition holds_layer (d : dims) (q : arr) (f : data) : Prop :=
  forall i j mq, 1 <= mq <= meqn d ->
    (0 <= i <= mx d + 1 /\ 1 <= j <= my d) \/ (1 <= i <= mx d /\ 0 <= j <= my d + 1) ->
    q (i, j, mq) = Some (f i j mq).

(** The array has the value x in a cell. *)
Definition at_cell (q : arr) (c : cell) (x : Q) : Prop := exists v, q c = Some v /\ (v == x)%Q.

(** f(lo) + ... + f(hi) *)
Fixpoint qsum_n (n : nat) (lo : Z) (f : Z -> Q) : Q :=
  match n with O => 0%Q | S n => (f lo + qsum_n n (lo + 1) f)%Q end.
Definition qsum (lo hi : Z) (f : Z -> Q) : Q := qsum_n (Z.to_nat (hi - lo + 1)) lo f.

(** Sum over the interior cells. *)
Definition total (d : dims) (f : Z -> Z -> Q) : Q := qsum 1 (mx d) (fun i => qsum 1 (my d) (fun j => f i j)).

(** The four children of a patch, numbered 0..3 with x fastest; child number [g] covers
    the coarse cells i in [ox + 1, ox + mx/2], likewise j. *)
Definition child_x (g : Z) : Z := g mod 2.
Definition child_y (g : Z) : Z := g / 2.
Definition off_x (d : dims) (g : Z) : Z := child_x g * (mx d / 2).
Definition off_y (d : dims) (g : Z) : Z := child_y g * (my d / 2).

(** Child [g] covers coarse cell (i, j). *)
Definition covers (d : dims) (g i j : Z) : Prop :=
  0 <= g < 4 /\ off_x d g + 1 <= i <= off_x d g + mx d / 2 /\ off_y d g + 1 <= j <= off_y d g + my d / 2.

(** Half [a] (0 or 1) of coarse cell [i] is cell number ... of a child with offset [off]. *)
Definition sub (off i a : Z) : Z := 2 * (i - off) - 1 + a.

(** Sum of [f] over the four fine cells of child [g] that cover coarse cell (i, j). *)
Definition four (d : dims) (g i j : Z) (f : Z -> Z -> Q) : Q :=
  let x a := sub (off_x d g) i a in
  let y b := sub (off_y d g) j b in
  (f (x 0%Z) (y 0%Z) + f (x 1%Z) (y 0%Z) + f (x 0%Z) (y 1%Z) + f (x 1%Z) (y 1%Z))%Q.

(** Between the least and the largest of some values. *)
Definition within (l : list Q) (x : Q) : Prop :=
  (exists a, In a l /\ (a <= x)%Q) /\ (exists b, In b l /\ (x <= b)%Q).

(** Sizes for which the routines are meant. *)
Definition even_size (d : dims) : Prop :=
  Z.Even (mx d) /\ Z.Even (my d) /\ 2 <= mx d /\ 2 <= my d /\ 0 <= meqn d.

(** ** Face neighbors *)

Definition other_side (f : Z) : Z := match f with 0 => 1 | 1 => 0 | 2 => 3 | _ => 2 end.

(** Patch [op] lies beyond face [f] of patch [ip] and meets it with its face [nf]; the
    directions along the face are opposite if [o].  Either the face is part of the
    boundary between two blocks, or the two patches are in the same block.  [ft] is the
    index transformation the library supplies in these cases.  [pos] and [w] say where
    along the face the neighbor begins. *)
Definition beyond_face (f nf : Z) (o : bool) (start : Q) (ip op : patch) (ft : ftrans) : Prop :=
  0 <= f < 4 /\ 0 <= nf < 4 /\ quadrant D2 ip /\ quadrant D2 op /\
  ((touches_face f ip /\ touches_face nf op /\
    ft = expand_face_transform_2d f (b2z o * 4 + nf) /\
    (along nf op == if o then 1 - start - width op else start)%Q) \/
   (nf = other_side f /\ o = false /\ ft = face_transformation_intra /\
    (along f op == start)%Q /\
    (across f op == if Z.odd f then across f ip + width ip else across f ip - width op)%Q)).

(** a neighbor of the same size *)
Definition same_size (f nf : Z) (o : bool) (ip op : patch) (ft : ftrans) : Prop :=
  level ip = level op /\ beyond_face f nf o (along f ip) ip op ft.

(** the first (pos = 0) or second (pos = 1) of two neighbors of half the size, counted in
    the direction of the coarse patch *)
Definition half_size (f nf : Z) (o : bool) (pos : Z) (ip op : patch) (ft : ftrans) : Prop :=
  level op = level ip + 1 /\ 0 <= pos <= 1 /\
  beyond_face f nf o (along f ip + inject_Z pos * width op)%Q ip op ft.

(** patch sizes: square, block-wide cell numbers below 2^49 *)
Definition square (d : dims) (m : Z) (lev : Z) : Prop :=
  mx d = m /\ my d = m /\ 1 <= m < 2 ^ 28 /\ 2 ^ lev * m <= 2 ^ 49.

(** (i, j, mq) is the ghost cell at depth dep and position t beyond face f *)
Definition at3 (p : Z * Z) (mq : Z) : cell := (fst p, snd p, mq).
Definition flip (o : bool) (m t : Z) : Z := if o then m + 1 - t else t.
