(** Vocabulary for GeoClaw's boundary conditions; sides and images of cells are those of Spec_Bc. *)
From Coq Require Import ZArith QArith List Lia Bool.
From Verif Require Import Base_Float Model_Face Model_Grid Spec_Grid Spec_Bc.   (* types, sides *)
Open Scope Z_scope.

(** The number given by the user: 1 is open, 3 a wall; with any other (2 is periodic), or where the patch does not touch
    the boundary of the domain, ghost cells are left to the exchange between patches. *)
Definition geo_side (block_mthbc : Z -> Z) (faces : Z -> bool) (f : Z) : side :=
  if faces f then (if block_mthbc f =? 1 then Open else if block_mthbc f =? 3 then Wall else Continues) else Continues.
(** No side of the patch on the boundary is left to the user (0). *)
Definition none_missing (block_mthbc : Z -> Z) (faces : Z -> bool) : Prop :=
  forall f, 0 <= f < 4 -> faces f = true -> block_mthbc f <> 0.
(** A cell of the array, ghost cells included. *)
Definition cell_in (d : dims) (i j : Z) : Prop :=
  1 - mbc d <= i <= mx d + mbc d /\ 1 - mbc d <= j <= my d + mbc d.
(** Water at rest in cell (i, j) with its surface at eta, or a dry cell: [b] is the bathymetry, component 1 the depth,
    2 and 3 the momentum. *)
Definition at_rest (eta : Q) (b h hu hv : option Q) : Prop :=
  exists bv hv' u v, b = Some bv /\ h = Some hv' /\ hu = Some u /\ hv = Some v /\
    (u == 0)%Q /\ (v == 0)%Q /\ ((hv' + bv == eta)%Q \/ (hv' == 0)%Q /\ (eta <= bv)%Q).
