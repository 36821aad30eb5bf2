(** Specification vocabulary for the bathymetry of grid cells. *)
From Coq Require Import ZArith QArith Qround List Bool Sorted.
From Verif Require Import Model_Topo.   (* types only *)
Import ListNotations.
Open Scope Q_scope.

(** A point of a rectangle (with its edges). *)
Definition inside (r : rect) (x y : Q) : bool :=
  Qle_bool (r_x1 r) x && Qle_bool x (r_x2 r) && (Qle_bool (r_y1 r) y && Qle_bool y (r_y2 r)).

(** Position of the grid lines, and the height given at a node, counted from the south-west. *)
Definition xline (f : topofile) (i : Z) : Q := t_xlow f + inject_Z (i - 1) * t_dx f.
Definition yline (f : topofile) (j : Z) : Q := t_ylow f + inject_Z (j - 1) * t_dy f.
Definition node (f : topofile) (i j : Z) : Q := t_zz f i (t_my f - j + 1)%Z.

(** The height of the sea floor according to one file: interpolation between the four nodes
    around the point. *)
Definition height (f : topofile) (x y : Q) : Q :=
  let i := (Qfloor ((x - t_xlow f) / t_dx f) + 1)%Z in
  let j := (Qfloor ((y - t_ylow f) / t_dy f) + 1)%Z in
  let s := (x - xline f i) / t_dx f in
  let t := (y - yline f j) / t_dy f in
  (1 - s) * (1 - t) * node f i j + s * (1 - t) * node f (i + 1) j +
  (1 - s) * t * node f i (j + 1) + s * t * node f (i + 1) (j + 1).

(** Where several files have data the first one (the finest) counts; 0 where none has. *)
Fixpoint surface (fs : list topofile) (x y : Q) : Q :=
  match fs with
  | [] => 0
  | f :: rest => if inside (extent f) x y then height f x y else surface rest x y
  end.
Fixpoint covered (fs : list topofile) (x y : Q) : Q :=
  match fs with
  | [] => 0
  | f :: rest => if inside (extent f) x y then 1 else covered rest x y
  end.

(** A midpoint sum over the rectangles of a partition; it is a Riemann sum of g. *)
Fixpoint pairs (l : list Q) : list (Q * Q) :=
  match l with a :: ((b :: _) as t) => (a, b) :: pairs t | _ => [] end.
Definition width (p : Q * Q) : Q := snd p - fst p.
Definition mid (p : Q * Q) : Q := (1 # 2) * (fst p + snd p).
Definition riemann (xs ys : list Q) (g : Q -> Q -> Q) : Q :=
  fold_right Qplus 0 (map (fun p => fold_right Qplus 0
    (map (fun q => width p * width q * g (mid p) (mid q)) (pairs ys))) (pairs xs)).
Definition over (r : rect) (g : Q -> Q -> Q) (x y : Q) : Q := if inside r x y then g x y else 0.

(** Partitions that have the edges of the cell and all grid lines of all files among their
    lines.  Every finer partition is one, too. *)
Definition has (l : list Q) (c : Q) : Prop := exists x, In x l /\ x == c.
Definition fine (fs : list topofile) (r : rect) (xs ys : list Q) : Prop :=
  StronglySorted Qlt xs /\ StronglySorted Qlt ys /\
  has xs (r_x1 r) /\ has xs (r_x2 r) /\ has ys (r_y1 r) /\ has ys (r_y2 r) /\
  forall f, In f fs ->
    (forall i, (1 <= i <= t_mx f)%Z -> has xs (xline f i)) /\
    (forall j, (1 <= j <= t_my f)%Z -> has ys (yline f j)).

Definition valid (f : topofile) : Prop :=
  0 < t_dx f /\ 0 < t_dy f /\ (2 <= t_mx f)%Z /\ (2 <= t_my f)%Z.
Definition proper (r : rect) : Prop := r_x1 r < r_x2 r /\ r_y1 r < r_y2 r.
