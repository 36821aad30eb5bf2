(** One grid for the whole domain, and a mesh of equal patches on it; independent of the routines. *)
From Coq Require Import ZArith QArith List Bool.
From Verif Require Import Base_Float Model_Face Model_Mesh Spec_Mesh Model_Fill Model_FillExec Spec_Fill Model_Solve.   (* types and the forest *)
From Verif Require Base_Float Spec_Face Model_Grid Spec_Grid Spec_Bc Spec_Ghost Model_Step Spec_Step Prop_Step Model_Ghost Model_Advance.
Import ListNotations.
Open Scope Z_scope.

Notation field := Spec_Step.field.

(** ** The solution on one grid *)
(** A rectangle of nx by ny cells, numbered from 1; periodic or bounded in each direction; what is at its left, right, lower and
    upper side if bounded. *)
Record rectangle := mkRect { nx : Z; ny : Z; perx : bool; pery : bool; sides : Z -> Spec_Bc.side }.

(** the cell of the rectangle that stands for position i beyond it, and whether it is seen in a mirror *)
Definition stands (per : bool) (lo hi : Spec_Bc.side) (n i : Z) : Z := if per then (i - 1) mod n + 1 else Spec_Bc.image lo hi n i.
Definition seen_in_mirror (per : bool) (lo hi : Spec_Bc.side) (n i : Z) : bool := negb per && Spec_Bc.mirrored lo hi n i.
(** Values continued beyond the rectangle: periodically, or by the boundary conditions; walls turn the normal velocity, which is
    component 2 in x and component 3 in y. *)
Definition continued (B : rectangle) (u : field) : field := fun i j k =>
  let v := u (stands (perx B) (sides B 0) (sides B 1) (nx B) i) (stands (pery B) (sides B 2) (sides B 3) (ny B) j) k in
  if seen_in_mirror (perx B) (sides B 0) (sides B 1) (nx B) i && (k =? 2) || seen_in_mirror (pery B) (sides B 2) (sides B 3) (ny B) j && (k =? 3)
  then (- v)%Q else v.
(** One step of the method on the rectangle, and several. *)
Definition evolve (A : Model_Step.arith) (S : Model_Step.solver) (meqn : Z) (B : rectangle) (X : field) (dx dy dt : Q) (u : field) : field :=
  let c := continued B u in Spec_Step.advanced A S meqn c c c X dx dy dt.
Definition evolves (A : Model_Step.arith) (S : Model_Step.solver) (meqn : Z) (B : rectangle) (X : field) (dx dy : Q) (dts : list Q) (u : field) : field :=
  fold_left (fun u dt => evolve A S meqn B X dx dy dt u) dts u.

(** Values that repeat after n cells in x and after m in y; the sum over n by m cells. *)
Definition periodic (n m : Z) (u : field) : Prop := forall i j k, u (i + n) j k = u i j k /\ u i (j + m) k = u i j k.
Definition grid_total (n m : Z) (f : Z -> Z -> Q) : Q := Spec_Grid.qsum 1 n (fun i => Spec_Grid.qsum 1 m (fun j => f i j)).

(** ** The mesh *)
(** A brick of bx by by blocks, all refined to level lvl; place of each patch, counted in patches from the lower left corner. *)
Record layout := mkLayout { lvl : Z; bx : Z; by_ : Z; per_x : bool; per_y : bool; pos : patch -> Z * Z }.
Definition across_x (L : layout) : Z := bx L * 2 ^ lvl L.
Definition across_y (L : layout) : Z := by_ L * 2 ^ lvl L.

(** a place, moved by one patch or less in each direction *)
Definition moved (p : Z * Z) (a b : Z) : Z * Z := (fst p + a, snd p + b).
Definition inside (n c : Z) : bool := (0 <=? c) && (c <? n).
(** there is a patch at this place, possibly after going around *)
Definition exists_at (L : layout) (p : Z * Z) : bool := (per_x L || inside (across_x L) (fst p)) && (per_y L || inside (across_y L) (snd p)).
Definition wrapped (L : layout) (p : Z * Z) : Z * Z :=
  (if per_x L then fst p mod across_x L else fst p, if per_y L then snd p mod across_y L else snd p).
(** the steps across face f and across corner c *)
Definition step_of (f : Z) : Z * Z := match f with 0 => (-1, 0) | 1 => (1, 0) | 2 => (0, -1) | _ => (0, 1) end.
Definition corner_step (c : Z) : Z * Z := ((if Z.odd c then 1 else -1), (if c / 2 =? 1 then 1 else -1)).
(** the place across *)
Definition beside (L : layout) (p : Z * Z) (s : Z * Z) : Z * Z := moved p (fst s) (snd s).

(** the position inside of its block *)
Definition in_block_x (L : layout) (x : patch) : Z := fst (pos L x) mod 2 ^ lvl L.
Definition in_block_y (L : layout) (x : patch) : Z := snd (pos L x) mod 2 ^ lvl L.
(** face f of the patch is part of the boundary of its block *)
Definition at_block_face (L : layout) (x : patch) (f : Z) : bool :=
  match f with 0 => in_block_x L x =? 0 | 1 => in_block_x L x =? 2 ^ lvl L - 1
             | 2 => in_block_y L x =? 0 | _ => in_block_y L x =? 2 ^ lvl L - 1 end.

Section Mesh.
  Variable w : world.
  Variable geo : geometry.
  Variable L : layout.

  (** the forest is this brick, with the neighbors that follow *)
  Definition laid_out : Prop :=
    0 <= lvl L < 30 /\ 1 <= bx L /\ 1 <= by_ L /\
    forall x, is_patch w x ->
      level_of w x = lvl L /\ 0 <= fst (pos L x) < across_x L /\ 0 <= snd (pos L x) < across_y L /\
      (forall f, 0 <= f < 4 ->
         bface geo x f = at_block_face L x f /\
         let p := beside L (pos L x) (step_of f) in
         if exists_at L p then exists y, is_patch w y /\ face_of w x f = Same y (Spec_Grid.other_side f) /\ pos L y = wrapped L p
         else face_of w x f = Edge) /\
      (forall c, 0 <= c < 4 ->
         let p := beside L (pos L x) (corner_step c) in
         exists_at L p = true -> exists y, is_patch w y /\ diag w x c = Some (y, 3 - c) /\ pos L y = wrapped L p).

  (** the quadrant of a patch in its block *)
  Definition right_quadrant (x : patch) (q : Model_Face.patch) : Prop :=
    let h := inject_Z (2 ^ lvl L) in
    Model_Face.level q = lvl L /\ (xlower q == inject_Z (in_block_x L x) / h)%Q /\ (ylower q == inject_Z (in_block_y L x) / h)%Q /\
    (xupper q == (inject_Z (in_block_x L x) + 1) / h)%Q /\ (yupper q == (inject_Z (in_block_y L x) + 1) / h)%Q.

  (** [m] cells in each direction: cell (i, j) of patch x is this cell of the grid *)
  Definition col (m : Z) (x : patch) (i : Z) : Z := fst (pos L x) * m + i.
  Definition row (m : Z) (x : patch) (j : Z) : Z := snd (pos L x) * m + j.

  Definition rect (m : Z) (mthbc : Z -> Z) : rectangle :=
    mkRect (across_x L * m) (across_y L * m) (per_x L) (per_y L) (fun f => if mthbc f =? 3 then Spec_Bc.Wall else Spec_Bc.Open).

  Variable U : setup.
  Notation d := (Model_Ghost.g_d (s_opts U)).
  Notation m := (Model_Grid.mx (Model_Ghost.g_d (s_opts U))).

  (** The options are such as the documentation demands: square patches, wide enough for the messages and for the method; the sides
      of the domain are open or walls; no three blocks meet; the patches have the data of the grid. *)
  Definition setup_ok (dx dy : Q) (X : field) : Prop :=
    rounding (s_rnd U) /\ Spec_Grid.square d m (lvl L) /\ Spec_Ghost.large_enough (s_opts U) /\ Spec_Ghost.extra_ok (s_opts U) /\
    Prop_Step.usable d (s_solver U) /\
    (forall f, 0 <= f < 4 -> (if f <? 2 then per_x L else per_y L) = false ->
       s_mthbc U f = 1 \/ s_mthbc U f = 3 /\ (if f <? 2 then 2 else 3) <= Model_Grid.meqn d) /\
    forall x, is_patch w x -> right_quadrant x (s_geom U x) /\ (forall k, 0 <= k <= 3 -> s_corners U x k <> 3) /\ s_dx U x = dx /\ s_dy U x = dy /\
      Prop_Step.holds d (Model_Step.maux (s_solver U)) (s_aux U x) (fun i j => X (col m x i) (row m x j)).

  (** The patches of all processes have the values [u] in their cells, and in their ghost cells if [ghosts]; all memory has values. *)
  Definition has (ghosts : bool) (u : field) (G : Z -> dstate) : Prop :=
    forall r, 0 <= r < procs w -> forall x, is_patch w x ->
      (forall i j k, Model_Grid.in_q d (i, j, k) = true -> G r x false (i, j, k) <> None) /\
      (fst x = r -> forall i j k, Model_Grid.in_q d (i, j, k) = true -> ghosts = true \/ 1 <= i <= m /\ 1 <= j <= m ->
         G r x false (i, j, k) = Some (u (col m x i) (row m x j) k)).

  (** every process goes over each of its patches once *)
  Definition once (views : Z -> view) : Prop := forall r, 0 <= r < procs w -> NoDup (v_level (views r) (lvl L)).

  (** options for a mesh with one level *)
  Definition one_level (cfg : Model_Advance.config) : Prop :=
    Model_Advance.minlevel cfg = lvl L /\ Model_Advance.maxlevel cfg = lvl L /\ Model_Advance.global_min cfg = lvl L /\
    Model_Advance.global_max cfg = lvl L /\ Model_Advance.local_min cfg = lvl L /\ Model_Advance.time_sync cfg = false.
  (** the steps; without subcycling, a step is divided by the number of steps of the finest level *)
  Definition taken (cfg : Model_Advance.config) (dt : Q) : Q :=
    if Model_Advance.subcycle cfg || Model_Advance.advance_one_step cfg then dt else (dt / 1)%Q.
End Mesh.
