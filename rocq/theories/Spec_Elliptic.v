(** Vocabulary for discrete elliptic problems, independent of the routines. *)
From Coq Require Import ZArith QArith List Lia.
From Verif Require Import Base_Float Model_Face Model_Grid Spec_Grid.   (* types only *)
Import ListNotations.
Open Scope Z_scope.

(** ** The operators.  Cells have the size hx by hy. *)

(** The five-point Laplacian. *)
Definition lap (hx hy : Q) (U : Z -> Z -> Q) (i j : Z) : Q :=
  ((U (i + 1)%Z j + U (i - 1)%Z j - 2 * U i j) / (hx * hx) + (U i (j + 1)%Z + U i (j - 1)%Z - 2 * U i j) / (hy * hy))%Q.

(** The divergence of B times the gradient; between two cells B is the mean of the two. *)
Definition mean2 (a b : Q) : Q := ((a + b) / 2)%Q.
Definition divg (hx hy : Q) (B U : Z -> Z -> Q) (i j : Z) : Q :=
  ((mean2 (B i j) (B (i + 1)%Z j) * (U (i + 1)%Z j - U i j) - mean2 (B (i - 1)%Z j) (B i j) * (U i j - U (i - 1)%Z j)) / (hx * hx)
 + (mean2 (B i j) (B i (j + 1)%Z) * (U i (j + 1)%Z - U i j) - mean2 (B i (j - 1)%Z) (B i j) * (U i j - U i (j - 1)%Z)) / (hy * hy))%Q.

(** ** The sides of a patch: 0 left, 1 right, 2 bottom, 3 top. *)

Definition side_len (d : dims) (f : Z) : Z := if f <? 2 then my d else mx d.
(** Ghost cell number k beyond side f and the cell of the patch it touches. *)
Definition ghost_at (d : dims) (f k : Z) : Z * Z :=
  if f =? 0 then (0, k) else if f =? 1 then (mx d + 1, k) else if f =? 2 then (k, 0) else (k, my d + 1).
Definition inside_at (d : dims) (f k : Z) : Z * Z :=
  if f =? 0 then (1, k) else if f =? 1 then (mx d, k) else if f =? 2 then (k, 1) else (k, my d).
Definition on (U : Z -> Z -> Q) (c : Z * Z) : Q := U (fst c) (snd c).

(** Boundary conditions: the value in the middle between ghost cell and cell, or the slope from the cell to the ghost
    cell, is given. *)
Inductive condition := Value | Slope.
Definition bc_code (c : condition) : Z := match c with Value => 1 | Slope => 2 end.
Definition spacing (hx hy : Q) (f : Z) : Q := if f <? 2 then hx else hy.
Definition bc_at (h : Q) (c : condition) (g ghost inside : Q) : Prop :=
  match c with Value => ((ghost + inside) / 2 == g)%Q | Slope => ((ghost - inside) / h == g)%Q end.
Definition meets (d : dims) (hx hy : Q) (f : Z) (c : condition) (g : Z -> Q) (U : Z -> Z -> Q) : Prop :=
  forall k, 1 <= k <= side_len d f -> bc_at (spacing hx hy f) c (g k) (on U (ghost_at d f k)) (on U (inside_at d f k)).
Definition zero (k : Z) : Q := 0%Q.

(** Field number m of cell data. *)
Definition field (U : data) (m : Z) : Z -> Z -> Q := fun i j => U i j m.

(** The array holds the data in the patch and in the ghost cells beyond the sides in [S]. *)
Definition holds_with (d : dims) (S : Z -> bool) (u : arr) (U : data) : Prop :=
  holds d u U /\
  forall f k m, 0 <= f < 4 -> S f = true -> 1 <= k <= side_len d f -> 1 <= m <= meqn d ->
    u (ghost_at d f k, m) = Some (on (field U m) (ghost_at d f k)).

(** The cell is a ghost cell beyond one of the sides in [S]. *)
Definition beyond_side (d : dims) (S : Z -> bool) (c : cell) : Prop :=
  exists f k m, 0 <= f < 4 /\ S f = true /\ 1 <= k <= side_len d f /\ 1 <= m <= meqn d /\ c = (ghost_at d f k, m).

(** [f'] is [f] with the values [F] in the cells of the patch. *)
Definition becomes (d : dims) (f f' : arr) (F : data) : Prop :=
  (forall i j m, interior d (i, j, m) -> at_cell f' (i, j, m) (F i j m)) /\
  (forall c, ~ interior d c -> f' c = f c).

(** A patch with cells, ghost cells and at least one field. *)
Definition usable (d : dims) : Prop := 1 <= mx d /\ 1 <= my d /\ 1 <= mbc d /\ 1 <= meqn d.

(** ** A uniform mesh: P by R patches; global cell (I, J) counts from 1.  Patch (a, b) has neighbors inside the mesh. *)
Definition in_mesh (P R a b : Z) : Prop := 0 <= a < P /\ 0 <= b < R.
Definition mesh_nbr (P R a b : Z) (f : Z) : bool :=
  if f =? 0 then 0 <? a else if f =? 1 then a <? P - 1 else if f =? 2 then 0 <? b else b <? R - 1.
(** The part of global data that a patch sees. *)
Definition part (d : dims) (a b : Z) (U : data) : data := fun i j m => U (a * mx d + i) (b * my d + j) m.
Definition whole (d : dims) (P R : Z) : dims := mkDims (P * mx d) (R * my d) (mbc d) (meqn d).

(** ** Given boundary values *)

(** The middle of edge number k of side f of a patch with lower left corner (xl, yl). *)
Definition edge_mid (d : dims) (xl yl hx hy : Q) (f k : Z) : Q * Q :=
  if f =? 0 then (xl, yl + (inject_Z k - (1 # 2)) * hy)%Q
  else if f =? 1 then (xl + inject_Z (mx d) * hx, yl + (inject_Z k - (1 # 2)) * hy)%Q
  else if f =? 2 then (xl + (inject_Z k - (1 # 2)) * hx, yl)%Q
  else (xl + (inject_Z k - (1 # 2)) * hx, yl + inject_Z (my d) * hy)%Q.
(** What a function of side, time and place gives there. *)
Definition given (d : dims) (xl yl hx hy t : Q) (g : Z -> Q -> Q -> Q -> Q) (f k : Z) : Q :=
  g f t (fst (edge_mid d xl yl hx hy f k)) (snd (edge_mid d xl yl hx hy f k)).
(** A function of numbers, not of the fractions that represent them. *)
Definition respects (g : Z -> Q -> Q -> Q -> Q) : Prop :=
  forall f t x y x' y', (x == x')%Q -> (y == y')%Q -> (g f t x y == g f t x' y')%Q.

(** How much the ghost cell moves when the given value goes from zero to g. *)
Definition ghost_shift (h : Q) (c : condition) (g : Q) : Q := match c with Value => (2 * g)%Q | Slope => (h * g)%Q end.

(** Number of the edge of side f that belongs to cell (i, j), and whether there is one. *)
Definition edge_no (f i j : Z) : Z := if f <? 2 then j else i.
Definition at_side (d : dims) (f i j : Z) : bool :=
  if f =? 0 then i =? 1 else if f =? 1 then i =? mx d else if f =? 2 then j =? 1 else j =? my d.
(** What a given value g on side f adds to the Laplacian in the cells at that side. *)
Definition push (d : dims) (hx hy : Q) (cond : Z -> condition) (g : Z -> Z -> Q) (f i j : Z) : Q :=
  if at_side d f i j
  then (ghost_shift (spacing hx hy f) (cond f) (g f (edge_no f i j)) / (spacing hx hy f * spacing hx hy f))%Q else 0%Q.
(** The number of sides s, ..., 3 that are in [S], as a rational number. *)
Definition later (S : Z -> bool) (s : Z) : Q := qsum s 3 (fun f => if S f then 1%Q else 0%Q).

(** ** The problems: Poisson, Poisson with a coefficient B, and an implicit step of the heat equation. *)
Inductive problem := Poisson | VarPoisson (B : Z -> Z -> Q) | Heat (cond : Z -> condition) (lambda : Q).
(** The left hand side of the equations in the cells. *)
Definition left_side (p : problem) (hx hy : Q) (U : Z -> Z -> Q) (i j : Z) : Q :=
  match p with
  | Poisson => lap hx hy U i j
  | VarPoisson B => divg hx hy B U i j
  | Heat _ lambda => (lap hx hy U i j + lambda * U i j)%Q
  end.
(** The boundary conditions: values, except that the heat equation has a choice. *)
Definition cond_of (p : problem) (f : Z) : condition := match p with Heat cond _ => cond f | _ => Value end.
(** The problem seen from patch (a, b) of a mesh. *)
Definition problem_part (d : dims) (a b : Z) (p : problem) : problem :=
  match p with VarPoisson B => VarPoisson (fun i j => B (a * mx d + i) (b * my d + j)) | _ => p end.
(** Problems with a solution that is unique: the coefficient is positive, lambda is not positive, and there is a side
    where the value is given or lambda is negative. *)
Definition well_posed (d : dims) (p : problem) : Prop :=
  match p with
  | Poisson => True
  | VarPoisson B =>
      forall i j, (0 <= i <= mx d + 1 /\ 1 <= j <= my d) \/ (1 <= i <= mx d /\ 0 <= j <= my d + 1) -> (0 < B i j)%Q
  | Heat cond lambda => (lambda <= 0)%Q /\ ((lambda < 0)%Q \/ exists f, 0 <= f < 4 /\ cond f = Value)
  end.

(** ** Vectors.  The patches of a domain are numbered block by block; the numbers before block b. *)
Definition numbered (num_blocks : Z) (first count : Z -> Z) : Prop :=
  first 0 = 0 /\ forall b, 0 <= b < num_blocks -> 0 <= count b /\ first (b + 1) = first b + count b.
(** Number of doubles of a patch with its ghost cells, and where cell (i, j) (from 0, ghost cells negative) of field m
    is: i fastest, then j, then the field. *)
Definition patch_doubles (d : dims) : Z := meqn d * ((my d + 2 * mbc d) * (mx d + 2 * mbc d)).
Definition double_at (d : dims) (i j m : Z) : Z :=
  (m * (my d + 2 * mbc d) + (j + mbc d)) * (mx d + 2 * mbc d) + (i + mbc d).
Definition with_ghosts (d : dims) (i j m : Z) : Prop :=
  - mbc d <= i < mx d + mbc d /\ - mbc d <= j < my d + mbc d /\ 0 <= m < meqn d.
