(** The routines for each elliptic problem, on a patch and on a mesh of patches. *)
From Coq Require Import ZArith QArith List Lia.
From Verif Require Import Base_Float Model_Face Model_Grid Spec_Grid Model_Elliptic Spec_Elliptic.
Import ListNotations.
Open Scope Z_scope.

(** The routines for a problem: the operator, the operator of the patch problem, the right hand side of the patch problem. *)
Definition codes (c : Z -> condition) : Z -> Z := fun f => bc_code (c f).
Definition apply_of (p : problem) (d : dims) (pi : pinfo) (beta : arr) : arr -> arr -> option (arr * arr) :=
  match p with
  | Poisson => fivepoint_apply d pi
  | VarPoisson _ => varpoisson_apply d pi beta
  | Heat c l => heat_apply d pi (codes c) l
  end.
Definition internal_of (p : problem) (d : dims) (pi : pinfo) (beta : arr) : arr -> arr -> option (arr * arr) :=
  match p with
  | Poisson => fivepoint_apply_internal d pi
  | VarPoisson _ => varpoisson_apply_internal d pi beta
  | Heat c l => heat_apply_internal d pi (codes c) l
  end.
Definition modify_of (p : problem) (d : dims) (pi : pinfo) (beta : arr) : arr -> arr -> option arr :=
  match p with VarPoisson _ => varpoisson_modify d pi beta | _ => fivepoint_modify d pi end.
(** What they need: the coefficient in the cells and beyond the sides; lambda not positive. *)
Definition ready (p : problem) (d : dims) (beta : arr) : Prop :=
  match p with
  | Poisson => True
  | VarPoisson B => holds_with (bd d) (fun _ => true) beta (fun i j _ => B i j)
  | Heat _ l => (l <= 0)%Q
  end.


(** A mesh of P by R patches with cells of the size hx by hy. *)
Definition info (P R : Z) (hx hy : Q) (a b : Z) : pinfo := mkPinfo (mesh_nbr P R a b) hx hy.
(** Applied patch by patch to arrays that hold U (the ghost cells next to neighbors filled from them), the operator
    gives F. *)
Definition yields (p : problem) (d : dims) (P R : Z) (hx hy : Q) (beta : Z -> Z -> arr) (U F : data) : Prop :=
  forall a b u f, in_mesh P R a b -> holds_with d (mesh_nbr P R a b) u (part d a b U) ->
    exists u' f', apply_of p d (info P R hx hy a b) (beta a b) u f = Some (u', f') /\
      forall i j m, interior d (i, j, m) -> at_cell f' (i, j, m) (part d a b F i j m).
(** The data meet the boundary conditions of the mesh with the value zero. *)
Definition homogeneous (p : problem) (d : dims) (P R : Z) (hx hy : Q) (U : data) : Prop :=
  forall s m, 0 <= s < 4 -> 1 <= m <= meqn d -> meets (whole d P R) hx hy s (cond_of p s) zero (field U m).
