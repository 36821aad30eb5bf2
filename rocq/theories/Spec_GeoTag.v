(** GeoClaw tagging: what is promised. *)
From Coq Require Import ZArith QArith Qabs List Bool.
From Verif Require Import Model_GeoTag.
Import ListNotations.
Open Scope Z_scope.

(** the closed box and the region have a point in common, at this time *)
Definition meets (xl yl xu yu t : Q) (r : region) : Prop :=
  (t_low r <= t <= t_hi r)%Q /\
  exists x y, (xl <= x <= xu)%Q /\ (yl <= y <= yu)%Q /\ (x_low r <= x <= x_hi r)%Q /\ (y_low r <= y <= y_hi r)%Q.
(** regions that are not empty *)
Definition proper (r : region) : Prop := (x_low r <= x_hi r)%Q /\ (y_low r <= y_hi r)%Q.
(** levels as users give them *)
Definition sane (r : region) : Prop := 0 <= min_level r <= 100 /\ 0 <= max_level r.

Definition xupper_of (p : tpatch) : Q := (g_xlower p + inject_Z (g_mx p) * g_dx p)%Q.
Definition yupper_of (p : tpatch) : Q := (g_ylower p + inject_Z (g_my p) * g_dy p)%Q.
Definition patch_meets (t : Q) (p : tpatch) (r : region) : Prop :=
  meets (g_xlower p) (g_ylower p) (xupper_of p) (yupper_of p) t r.
(** a patch of cells of positive size *)
Definition patch_ok (p : tpatch) : Prop := 0 < g_mx p /\ 0 < g_my p /\ (0 < g_dx p)%Q /\ (0 < g_dy p)%Q.

(** the four children of a patch, with any data *)
Definition child_of (p c : tpatch) (kx ky : Z) : Prop :=
  g_level c = g_level p + 1 /\ g_mx c = g_mx p /\ g_my c = g_my p /\
  (g_dx c == g_dx p / 2)%Q /\ (g_dy c == g_dy p / 2)%Q /\
  (g_xlower c == g_xlower p + inject_Z kx * inject_Z (g_mx p) * g_dx c)%Q /\
  (g_ylower c == g_ylower p + inject_Z ky * inject_Z (g_my p) * g_dy c)%Q.
Definition family (p p0 p1 p2 p3 : tpatch) : Prop :=
  child_of p p0 0 0 /\ child_of p p1 1 0 /\ child_of p p2 0 1 /\ child_of p p3 1 1.

(** the criterion for a cell, with tolerances scaled by a factor: enough water, and the surface away from
    sea level or the water faster than the tolerance of some level not below this one *)
Definition exceeds (g : geodata) (factor : Q) (level maxlevel : Z) (p : tpatch) (i j : Z) : Prop :=
  let h := g_q p 1 i j in
  (dry_tolerance g < h)%Q /\
  ((factor * wave_tolerance g < Qabs (h + g_aux p 1%Z i j - sea_level g))%Q \/
   exists m tol, 1 <= m <= maxlevel /\ level <= m /\ nth_error (speed_tolerance g) (Z.to_nat (m - 1)) = Some tol /\
     (* |(hu, hv)| / h > factor tol *)
     (factor * tol * h < 0 \/ (factor * tol * h) * (factor * tol * h) < g_q p 2%Z i j * g_q p 2%Z i j + g_q p 3%Z i j * g_q p 3%Z i j)%Q).
Definition some_cell (p : tpatch) (P : Z -> Z -> Prop) : Prop :=
  exists i j, 1 <= i <= g_mx p /\ 1 <= j <= g_my p /\ P i j.
Definition allowed (g : geodata) (t : Q) (level : Z) (p : tpatch) (i j : Z) : Prop :=
  allowflag g (g_xlower p + (inject_Z i - (1 # 2)) * g_dx p)%Q (g_ylower p + (inject_Z j - (1 # 2)) * g_dy p)%Q t level = true.

(** what the regions say of a patch: at least one meets it, and all that do agree *)
Definition all_say (g : geodata) (t : Q) (p : tpatch) (P : region -> Prop) : Prop :=
  (exists r, In r (regions_of g) /\ patch_meets t p r) /\ (forall r, In r (regions_of g) -> patch_meets t p r -> P r).
Definition must_refine (g : geodata) (t : Q) (p : tpatch) : Prop := all_say g t p (fun r => g_level p < min_level r).
Definition must_not_refine (g : geodata) (t : Q) (p : tpatch) : Prop := all_say g t p (fun r => max_level r <= g_level p).
(** for the children of [p] *)
Definition must_keep (g : geodata) (t : Q) (p : tpatch) : Prop := all_say g t p (fun r => g_level p + 1 <= min_level r).
Definition must_coarsen (g : geodata) (t : Q) (p : tpatch) : Prop := all_say g t p (fun r => max_level r < g_level p + 1).

Definition data_ok (g : geodata) : Prop := (0 <= dry_tolerance g)%Q /\ Forall proper (regions_of g) /\ Forall sane (regions_of g).

(** ** Histories: the patch at a place through a sequence of regriddings *)
Definition covers (p : tpatch) (x y : Q) : Prop :=
  (g_xlower p <= x <= xupper_of p)%Q /\ (g_ylower p <= y <= yupper_of p)%Q.
(** the same patch, with other data *)
Definition same_patch (p p' : tpatch) : Prop :=
  g_level p' = g_level p /\ g_mx p' = g_mx p /\ g_my p' = g_my p /\ (g_dx p' == g_dx p)%Q /\ (g_dy p' == g_dy p)%Q /\
  (g_xlower p' == g_xlower p)%Q /\ (g_ylower p' == g_ylower p)%Q.
Definition some_child (p c : tpatch) : Prop :=
  exists kx ky, (kx = 0 \/ kx = 1) /\ (ky = 0 \/ ky = 1) /\ child_of p c kx ky.
(** a regridding at time [t], seen at the point (x, y).  A marked patch is refined.  One that is not marked
    may stay, may be refined all the same (2:1 balance), or may disappear in its parent, but only with a
    family that is marked. *)
Inductive regrid (g : geodata) (minlevel maxlevel : Z) (t : Q) (x y : Q) (p p' : tpatch) : Prop :=
| regrid_refine : some_child p p' -> covers p' x y -> regrid g minlevel maxlevel t x y p p'
| regrid_stay : marked_refine g maxlevel t p 0 = Some false -> same_patch p p' -> regrid g minlevel maxlevel t x y p p'
| regrid_coarsen : forall p0 p1 p2 p3, marked_refine g maxlevel t p 0 = Some false ->
    family p' p0 p1 p2 p3 -> In p [p0; p1; p2; p3] ->
    marked_coarsen g minlevel maxlevel t p0 p1 p2 p3 0 = Some true -> regrid g minlevel maxlevel t x y p p'.
(** the times of the regriddings and the patch at (x, y) at each; between two regriddings the data changes *)
Inductive history (g : geodata) (minlevel maxlevel : Z) (x y : Q) (p : tpatch) : list Q -> tpatch -> Prop :=
| history_start : history g minlevel maxlevel x y p [] p
| history_step : forall ts p1 p2 p3 t, history g minlevel maxlevel x y p ts p1 -> same_patch p1 p2 ->
    regrid g minlevel maxlevel t x y p2 p3 -> history g minlevel maxlevel x y p (ts ++ [t]) p3.
