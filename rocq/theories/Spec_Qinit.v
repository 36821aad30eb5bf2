(** Specification vocabulary for the initial state. *)
From Coq Require Import ZArith QArith.
From Verif Require Import Model_Topo Model_Qinit Spec_Topo.   (* types and Riemann sums *)
Open Scope Q_scope.

(** An element q(m,i,j) of the patch. *)
Definition element (p : ipatch) (m i j : Z) : Prop :=
  (1 <= m <= i_meqn p /\ 1 - i_mbc p <= i <= i_mx p + i_mbc p /\ 1 - i_mbc p <= j <= i_my p + i_mbc p)%Z.
(** Cell (i, j) of the patch. *)
Definition cell_of (p : ipatch) (i j : Z) (r : rect) : Prop :=
  r_x1 r == i_xlow p + inject_Z (i - 1) * i_dx p /\ r_x2 r == i_xlow p + inject_Z i * i_dx p /\
  r_y1 r == i_ylow p + inject_Z (j - 1) * i_dy p /\ r_y2 r == i_ylow p + inject_Z j * i_dy p.
(** A cell and a file have a common interior point. *)
Definition meets (r : rect) (f : topofile) : Prop :=
  t_xlow f < r_x2 r /\ r_x1 r < t_xhi f /\ t_ylow f < r_y2 r /\ r_y1 r < t_yhi f.
(** v is the average of the data of the file over the part of the cell that it covers. *)
Definition average_on (f : topofile) (r : rect) (v : Q) : Prop :=
  forall xs ys, fine (cons f nil) r xs ys ->
  v * riemann xs ys (over r (fun x y => if inside (extent f) x y then 1 else 0)) ==
  riemann xs ys (over r (fun x y => if inside (extent f) x y then height f x y else 0)) /\
  0 < riemann xs ys (over r (fun x y => if inside (extent f) x y then 1 else 0)).
