(** Physical boundary conditions (2D, clawpack 4.6).

    src/fclaw2d_physical_bc.c, src/solvers/fc2d_clawpack4.6/fc2d_clawpack46.cpp:94-146,
    src/solvers/fc2d_clawpack4.6/fortran_source/clawpack46_bc2_default.f.

    Simplifications: cell values are exact rational numbers; an element that has never been assigned is [None] and is
    copied as such; indices outside of the declared bounds, "stop" and failed assertions are the outcome [None].  The
    arguments t, dt, aux and the grid spacing are not used by the default routine.  [time_interp] only selects the array
    (fclaw2d_clawpatch_timesync_data), so a patch is represented by the array that is selected. *)
From Coq Require Import ZArith QArith List Lia Bool.
From Verif Require Import Base_Float Model_Face Model_Mesh Model_Grid Model_Fill.
Import ListNotations.
Open Scope Z_scope.

Section Bc.
  Variable d : dims.

  (** q(dst) = f(q(src)) *)
  Definition asg (dst src : cell) (f : Q -> Q) (q : arr) : option arr :=
    if in_q d dst && in_q d src
    then Some (fun c => if cell_eqb c dst then option_map f (q src) else q c) else None.
  (** q(dst) = q(src) and q(dst) = -q(src) *)
  Definition cpy (dst src : cell) : arr -> option arr := asg dst src (fun x => x).
  Definition neg (dst src : cell) : arr -> option arr := asg dst src Qopp.

  (** do m=1,meqn; do ibc=1,mbc; do j = 1-mbc, n+mbc *)
  Definition all_eqns (n : Z) (f : Z -> Z -> Z -> arr -> option arr) (q : arr) : option arr :=
    loop 1 (meqn d) (fun m => loop 1 (mbc d) (fun ibc => loop (1 - mbc d) (n + mbc d) (fun j => f m ibc j))) q.
  (** do ibc=1,mbc; do j = 1-mbc, n+mbc *)
  Definition one_eqn (n : Z) (f : Z -> Z -> arr -> option arr) (q : arr) : option arr :=
    loop 1 (mbc d) (fun ibc => loop (1 - mbc d) (n + mbc d) (fun j => f ibc j)) q.

  (** clawpack46_bc2_default.f:14-63, left boundary *)
  Definition bc_left (mthbc : Z) (q : arr) : option arr :=
    if mthbc =? 0 then None                                                        (* line 22, stop *)
    else if mthbc =? 1 then all_eqns (my d) (fun m ibc j => cpy (1 - ibc, j, m) (1, j, m)) q      (* line 28 *)
    else if mthbc =? 2 then None                                                   (* line 39, stop *)
    else if mthbc =? 3 then                                                        (* line 46 *)
      bind (all_eqns (my d) (fun m ibc j => cpy (1 - ibc, j, m) (ibc, j, m)) q) (fun q =>
      one_eqn (my d) (fun ibc j => neg (1 - ibc, j, 2) (ibc, j, 2)) q)
    else Some q.
  (** clawpack46_bc2_default.f:65-112, right boundary *)
  Definition bc_right (mthbc : Z) (q : arr) : option arr :=
    if mthbc =? 0 then None
    else if mthbc =? 1 then all_eqns (my d) (fun m ibc j => cpy (mx d + ibc, j, m) (mx d, j, m)) q
    else if mthbc =? 2 then None
    else if mthbc =? 3 then
      bind (all_eqns (my d) (fun m ibc j => cpy (mx d + ibc, j, m) (mx d + 1 - ibc, j, m)) q) (fun q =>
      one_eqn (my d) (fun ibc j => neg (mx d + ibc, j, 2) (mx d + 1 - ibc, j, 2)) q)
    else Some q.
  (** clawpack46_bc2_default.f:114-161, bottom boundary *)
  Definition bc_bottom (mthbc : Z) (q : arr) : option arr :=
    if mthbc =? 0 then None
    else if mthbc =? 1 then all_eqns (mx d) (fun m jbc i => cpy (i, 1 - jbc, m) (i, 1, m)) q
    else if mthbc =? 2 then None
    else if mthbc =? 3 then
      bind (all_eqns (mx d) (fun m jbc i => cpy (i, 1 - jbc, m) (i, jbc, m)) q) (fun q =>
      one_eqn (mx d) (fun jbc i => neg (i, 1 - jbc, 3) (i, jbc, 3)) q)
    else Some q.
  (** clawpack46_bc2_default.f:163-210, top boundary *)
  Definition bc_top (mthbc : Z) (q : arr) : option arr :=
    if mthbc =? 0 then None
    else if mthbc =? 1 then all_eqns (mx d) (fun m jbc i => cpy (i, my d + jbc, m) (i, my d, m)) q
    else if mthbc =? 2 then None
    else if mthbc =? 3 then
      bind (all_eqns (mx d) (fun m jbc i => cpy (i, my d + jbc, m) (i, my d + 1 - jbc, m)) q) (fun q =>
      one_eqn (mx d) (fun jbc i => neg (i, my d + jbc, 3) (i, my d + 1 - jbc, 3)) q)
    else Some q.
  (** clawpack46_bc2_default.f:1-213; [mthbc i] is mthbc(i+1) *)
  Definition bc2_default (mthbc : Z -> Z) (q : arr) : option arr :=
    bind (bc_left (mthbc 0) q) (fun q =>
    bind (bc_right (mthbc 1) q) (fun q =>
    bind (bc_bottom (mthbc 2) q) (fun q =>
    bc_top (mthbc 3) q))).

  (** fc2d_clawpack46.cpp:94-146 clawpack46_bc2 *)
  Definition clawpack46_bc2 (block_mthbc : Z -> Z) (intersects : list bool) (q : arr) : option arr :=
    bc2_default (fun i => if nth (Z.to_nat i) intersects false then block_mthbc i else -1) q.

  (** the arrays of all local patches, by block and patch number *)
  Definition store : Type := Z -> Z -> arr.
  Definition upd_store (s : store) (b n : Z) (q : arr) : store :=
    fun b' n' => if (b' =? b) && (n' =? n) then q else s b' n'.

  (** fclaw2d_physical_bc.c:45-75 cb_fclaw2d_physical_set_bc *)
  Definition cb_set_bc (v : view) (block_mthbc : Z -> Z) (b n : Z) (s : store) : option store :=
    bind (get_bc v b n) (fun l =>
    bind (clawpack46_bc2 block_mthbc l (s b n)) (fun q => Some (upd_store s b n q))).
  (** fclaw2d_physical_bc.c:99-112 fclaw2d_physical_set_bc *)
  Fixpoint set_bc_list (v : view) (block_mthbc : Z -> Z) (l : list (Z * Z)) (s : store) : option store :=
    match l with
    | [] => Some s
    | (b, n) :: l => bind (cb_set_bc v block_mthbc b n s) (set_bc_list v block_mthbc l)
    end.
  Definition physical_set_bc (v : view) (block_mthbc : Z -> Z) (level : Z) (s : store) : option store :=
    set_bc_list v block_mthbc (v_level v level) s.
End Bc.
