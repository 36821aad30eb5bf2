(** The wave propagation method of clawpack 5.x as a formula: that of Spec_Step, in which the ratio used for the part of
    the transverse correction that moves right is the one of the cell it moves into, for waves and for f-waves. *)
From Coq Require Import ZArith QArith Qminmax Qabs List Lia Bool.
From Verif Require Import Base_Float Model_Face Model_Grid Model_Step Spec_Step.
Import ListNotations.
Open Scope Z_scope.

Section Method.
  Variable A : arith.
  Variable S : solver.
  Variable meqn : Z.
  Local Notation "x +. y" := (add A x y) (at level 50, left associativity).
  Local Notation "x -. y" := (sub A x y) (at level 50, left associativity).
  Local Notation "x *. y" := (mul A x y) (at level 40, left associativity).
  Local Notation "x /. y" := (quo A x y) (at level 40, left associativity).
  (** what a line adds to the flux through side 1 or 2 of its cell i *)
  Definition aside5 (ixy : Z) (u b a c : line) (r : Z -> Q) (i side m : Z) : Q :=
    if method3 S =? 0 then 0%Q
    else (0 -. (1 # 2) *. r i *. part side (transverse S meqn ixy u b a c 1 (i + 1) (amdq A S meqn ixy u a r (i + 1))) m)
         -. (1 # 2) *. r i *. part side (transverse S meqn ixy u b a c 2 i (apdq A S meqn ixy u a r i)) m.
  Section Plane.
    Variable ux uy aux : field.
    Variable dtdx dtdy : Q.
    Definition row_aside5 j := in_row A S ux aux dtdx aside5 j.
    Definition col_aside5 i := in_col A S uy aux dtdy aside5 i.
    (** flux through the interface between cells (i-1,j) and (i,j), and between (i,j-1) and (i,j) *)
    Definition west_left5 (i j m : Z) : Q := ((0 +. row_left A S meqn ux aux dtdx j i m) +. col_aside5 (i - 1) j 2 m) +. col_aside5 i j 1 m.
    Definition west_right5 (i j m : Z) : Q := ((0 +. row_right A S meqn ux aux dtdx j i m) +. col_aside5 (i - 1) j 2 m) +. col_aside5 i j 1 m.
    Definition south_left5 (i j m : Z) : Q := ((0 +. row_aside5 (j - 1) i 2 m) +. row_aside5 j i 1 m) +. col_left A S meqn uy aux dtdy i j m.
    Definition south_right5 (i j m : Z) : Q := ((0 +. row_aside5 (j - 1) i 2 m) +. row_aside5 j i 1 m) +. col_right A S meqn uy aux dtdy i j m.
  End Plane.
  (** The solution after one step; [u] are the values before. *)
  Definition advanced5 (u ux uy aux : field) (dx dy dt : Q) (i j m : Z) : Q :=
    let dtdx := dt /. dx in let dtdy := dt /. dy in
    let ew := west_left5 ux uy aux dtdx dtdy (i + 1) j m -. west_right5 ux uy aux dtdx dtdy i j m in
    let ns := south_left5 ux uy aux dtdx dtdy i (j + 1) m -. south_right5 ux uy aux dtdx dtdy i j m in
    if mcapa S =? 0 then (u i j m -. dtdx *. ew) -. dtdy *. ns
    else u i j m -. (dtdx *. ew +. dtdy *. ns) /. aux i j (mcapa S).
End Method.

(** In exact arithmetic: the amount that passes from cell (i-1,j) to (i,j), and from (i,j-1) to (i,j). *)
Definition through_x5 (S : solver) (meqn : Z) (f : Z -> list Q -> list Q -> Z -> Q) (u aux : field) (dtdx dtdy : Q) (i j m : Z) : Q :=
  Qplus (f 1 (vec meqn (u (i - 1) j)) (vec (maux S) (aux (i - 1) j)) m) (west_left5 exact S meqn u u aux dtdx dtdy i j m).
Definition through_y5 (S : solver) (meqn : Z) (f : Z -> list Q -> list Q -> Z -> Q) (u aux : field) (dtdx dtdy : Q) (i j m : Z) : Q :=
  Qplus (f 2 (vec meqn (u i (j - 1))) (vec (maux S) (aux i (j - 1))) m) (south_left5 exact S meqn u u aux dtdx dtdy i j m).
