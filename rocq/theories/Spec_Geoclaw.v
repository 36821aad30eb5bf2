(** Vocabulary for water on a bottom, independent of the routines. *)
From Coq Require Import ZArith QArith Qminmax Qabs List Lia Bool.
From Verif Require Import Base_Float Model_Face Spec_Face Model_Grid Spec_Grid.   (* types only *)
Import ListNotations.
Open Scope Z_scope.

(** An array holds the data everywhere, in all its ghost cells too. *)
Definition holds_all (d : dims) (q : arr) (f : data) : Prop :=
  forall i j mq, 1 - mbc d <= i <= mx d + mbc d -> 1 - mbc d <= j <= my d + mbc d -> 1 <= mq <= meqn d ->
    q (i, j, mq) = Some (f i j mq).

(** Sizes of the aux array: those of the patch, with [maux] entries per cell. *)
Definition with_entries (d : dims) (maux : Z) : dims := mkDims (mx d) (my d) (mbc d) maux.

(** Data at a cell: depth of the water, momenta, height of the bottom, capacity (1 without a capacity function). *)
Definition water (F : data) (p : Z * Z) : Q := F (fst p) (snd p) 1.
Definition momentum (F : data) (k : Z) (p : Z * Z) : Q := F (fst p) (snd p) (1 + k).
Definition bottom (A : data) (p : Z * Z) : Q := A (fst p) (snd p) 1.
Definition cap (mcapa : Z) (A : data) (p : Z * Z) : Q := if mcapa =? 0 then 1%Q else A (fst p) (snd p) mcapa.

(** More water than the tolerance. *)
Definition is_wet (tol w h : Q) : bool := negb (Qle_bool (w * h) tol).

(** [S] adds up the values in four cells. *)
Definition adds_four (S : (Z * Z -> Q) -> Q) (ps : list (Z * Z)) : Prop :=
  length ps = 4%nat /\ forall v, (S v == fold_right (fun p s => v p + s) 0 ps)%Q.

(** A coarse cell with bottom [bc] and capacity [wc] that replaces four fine cells (added up by [S]) has depth [h] and
    momenta [hu], [hv]: nothing if no fine cell is wet; otherwise the surface would be the mean surface of the wet
    cells, but there is not more water than all of the fine water spread over as many cells as are wet; the velocity
    is that of the fine water. *)
Definition coarsened (S : (Z * Z -> Q) -> Q) (tol : Q) (w : Z * Z -> Q) (F A : data) (bc wc h hu hv : Q) : Prop :=
  let wet p := is_wet tol (w p) (water F p) in
  let n := S (fun p => if wet p then 1 else 0)%Q in
  let all := S (fun p => w p * water F p)%Q in
  let surface := S (fun p => if wet p then w p * (water F p + bottom A p) else 0)%Q in
  let mom k := S (fun p => if wet p then w p * momentum F k p else 0)%Q in
  ((n == 0 /\ h == 0 /\ hu == 0 /\ hv == 0) \/
   (0 < n /\ wc * h == Qmin (all / n) (Qmax (surface / n - wc * bc) 0) /\
    hu * all == h * mom 1%Z /\ hv * all == h * mom 2%Z))%Q.

(** The surface seen by the interpolation: dry cells count as sea level. *)
Definition surface_of (tol sea : Q) (F A : data) : data := fun i j mq =>
  if mq =? 1 then (if Qle_bool tol (F i j 1%Z) then F i j 1%Z + A i j 1%Z else sea)%Q else F i j mq.

(** In the interior of a patch no depth and no capacity is negative. *)
Definition sane (d : dims) (mcapa : Z) (F A : data) : Prop :=
  forall i j, 1 <= i <= mx d -> 1 <= j <= my d -> (0 <= water F (i, j) /\ 0 <= cap mcapa A (i, j))%Q.

(** Depth over a bottom when the surface is [v]; ghost cells never get a negative depth. *)
Definition depth_over (clip : bool) (v b : Q) : Q := if clip then Qmax (v - b) 0 else (v - b)%Q.
