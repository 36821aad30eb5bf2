(** What a test function is shown, and the built-in criteria in words. *)
From Coq Require Import ZArith QArith Qminmax Qabs List Sorted Lia.
From Verif Require Import Model_Face Model_Grid Spec_Grid Model_Tag.   (* types only *)
Import ListNotations.
Open Scope Z_scope.

(** Every cell of the array, ghost cells included, has a value. *)
Definition all_set (d : dims) (q : arr) (f : data) : Prop :=
  forall i j mq, 1 - mbc d <= i <= mx d + mbc d -> 1 - mbc d <= j <= my d + mbc d -> 1 <= mq <= meqn d ->
    q (i, j, mq) = Some (f i j mq).

Definition in_array (d : dims) (c : Z * Z) : Prop :=
  1 - mbc d <= fst c <= mx d + mbc d /\ 1 - mbc d <= snd c <= my d + mbc d.
Definition in_patch (d : dims) (c : Z * Z) : Prop := 1 <= fst c <= mx d /\ 1 <= snd c <= my d.
Definition usual (d : dims) : Prop := 1 <= mx d /\ 1 <= my d /\ 1 <= mbc d /\ 1 <= meqn d.

(** An order in which all cells of the array are visited once. *)
Definition visits_all (d : dims) (l : list (Z * Z)) : Prop := NoDup l /\ forall c, In c l <-> in_array d c.

(** ... row by row, and column by column *)
Definition by_rows (c c' : Z * Z) : Prop := snd c < snd c' \/ snd c = snd c' /\ fst c < fst c'.
Definition by_cols (c c' : Z * Z) : Prop := fst c < fst c' \/ fst c = fst c' /\ snd c < snd c'.
Definition row_major (d : dims) (l : list (Z * Z)) : Prop := StronglySorted by_rows l /\ visits_all d l.
Definition col_major (d : dims) (l : list (Z * Z)) : Prop := StronglySorted by_cols l /\ visits_all d l.

(** [x] is the least (greatest) of the values of equation [mq] in a list of cell values. *)
Definition least (mq : Z) (seen : list (Z -> Q)) (x : Q) : Prop :=
  (forall v, In v seen -> (x <= v mq)%Q) /\ exists v, In v seen /\ (x == v mq)%Q.
Definition greatest (mq : Z) (seen : list (Z -> Q)) (x : Q) : Prop :=
  (forall v, In v seen -> (v mq <= x)%Q) /\ exists v, In v seen /\ (x == v mq)%Q.

(** the setting of one call: block, dx, dy, threshold, initialisation flag *)
Record setting := mkSet { t_block : Z; t_dx : Q; t_dy : Q; t_th : Q; t_init : Z }.

(** The arguments at cell [c] of a patch with data [f] after [seen] (the values at [c]
    included). *)
Definition shows (d : dims) (t : setting) (f : data) (xlower ylower : Q) (seen : list (Z -> Q)) (c : Z * Z) (a : cargs)
    : Prop :=
  let '(i, j) := c in
  c_block a = t_block t /\ (c_dx a == t_dx t)%Q /\ (c_dy a == t_dy t)%Q /\ (c_th a == t_th t)%Q /\ c_init a = t_init t /\
  (c_xc a == xlower + (inject_Z i - (1 # 2)) * t_dx t)%Q /\ (c_yc a == ylower + (inject_Z j - (1 # 2)) * t_dy t)%Q /\
  (c_ghost a = false <-> in_patch d c) /\
  (forall mq, 1 <= mq <= meqn d ->
     (exists x, c_qval a mq = Some x /\ (x == f i j mq)%Q) /\
     (exists x, c_qmin a mq = Some x /\ least mq seen x) /\
     (exists x, c_qmax a mq = Some x /\ greatest mq seen x)) /\
  (in_patch d c -> forall ii jj mq, -1 <= ii <= 1 -> -1 <= jj <= 1 -> 1 <= mq <= meqn d ->
     exists x, c_quad a ii jj mq = Some x /\ (x == f (i + ii)%Z (j + jj)%Z mq)%Q).

(** Two calls that differ in nothing a test function may look at: numbers are compared by
    value, and the values around a ghost cell are not meaningful. *)
Definition same_q (x y : option Q) : Prop :=
  match x, y with Some a, Some b => (a == b)%Q | None, None => True | _, _ => False end.
Definition same_args (d : dims) (a b : cargs) : Prop :=
  c_block a = c_block b /\ (c_dx a == c_dx b)%Q /\ (c_dy a == c_dy b)%Q /\ (c_th a == c_th b)%Q /\ c_init a = c_init b /\
  (c_xc a == c_xc b)%Q /\ (c_yc a == c_yc b)%Q /\ c_ghost a = c_ghost b /\
  (forall mq, 1 <= mq <= meqn d -> same_q (c_qval a mq) (c_qval b mq) /\ same_q (c_qmin a mq) (c_qmin b mq) /\
     same_q (c_qmax a mq) (c_qmax b mq)) /\
  (c_ghost a = false -> forall ii jj mq, -1 <= ii <= 1 -> -1 <= jj <= 1 -> 1 <= mq <= meqn d ->
     same_q (c_quad a ii jj mq) (c_quad b ii jj mq)).

(** A usable test function: it returns on all arguments it can be shown, with an answer
    that only depends on them. *)
Definition usable (d : dims) (t : setting) (crit : cargs -> option Z) : Prop :=
  (forall a b, same_args d a b -> crit a = crit b) /\
  (forall f xl yl seen c a, shows d t f xl yl seen c a -> exists r, crit a = Some r).

(** The test holds at a cell. *)
Definition holds_at d t crit f xlower ylower seen c : Prop :=
  exists a r, shows d t f xlower ylower seen c a /\ crit a = Some r /\ 0 < r.

(** values of the cells in a list *)
Definition vals (f : data) (l : list (Z * Z)) : list (Z -> Q) := map (fun c mq => f (fst c) (snd c) mq) l.

(** The test holds at some cell when the cells are visited in the order [l], starting
    with cell (1,1) of data [f0] and the values [before] as already seen. *)
Definition holds_somewhere d t crit f xlower ylower before l : Prop :=
  exists pre c post, l = pre ++ c :: post /\ holds_at d t crit f xlower ylower (before ++ vals f (pre ++ [c])) c.

(** The values seen before sibling [g] of a family: cell (1,1) of sibling 0, then all cells
    of the siblings before [g]. *)
Fixpoint before (f : Z -> data) (l : list (Z * Z)) (g : nat) : list (Z -> Q) :=
  match g with O => [f 0 1 1] | S g => before f l g ++ vals (f (Z.of_nat g)) l end.

(** *** built-in criteria in terms of the data *)
Definition value_at (v : Z) (th : Q) (f : data) (c : Z * Z) : Prop := (th < f (fst c) (snd c) v)%Q.
Definition difference_at (v : Z) (th : Q) (f : data) (c : Z * Z) : Prop :=
  let '(i, j) := c in
  (th < Qabs (f (i + 1)%Z j v - f (i - 1)%Z j v))%Q \/ (th < Qabs (f i (j + 1)%Z v - f i (j - 1)%Z v))%Q.
(** square of the length of the gradient, no map *)
Definition gradient_at (v : Z) (dx dy th : Q) (f : data) (c : Z * Z) : Prop :=
  let '(i, j) := c in
  let gx := ((f (i + 1)%Z j v - f (i - 1)%Z j v) / (2 * dx))%Q in
  let gy := ((f i (j + 1)%Z v - f i (j - 1)%Z v) / (2 * dy))%Q in
  (th * th < gx * gx + gy * gy)%Q.
