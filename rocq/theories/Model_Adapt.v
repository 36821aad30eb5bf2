(** Refinement marks, the regridding tags and smooth refinement.

    src/forestclaw2d.c:1386-1450, src/fclaw2d_regrid.c:45-107, 241-257,
    src/fclaw2d_convenience.c:474-679.

    The state of one process: local patches by block and patch number, ghost patches,
    and the refinement flags of p4est_wrap.  [None] is a failed assertion. *)
From Coq Require Import ZArith List Lia Bool.
Import ListNotations.
Local Open Scope Z_scope.

Definition bind {A B} (x : option A) (f : A -> option B) : option B :=
  match x with Some a => f a | None => None end.

(** forestclaw2d.h:96-110, the fields used here *)
Record patch := mkP { level : Z; target : Z }.

(** p4est_wrap flags of a quadrant: none, refine, coarsen (external: marking one
    clears the other). *)
Inductive mark := NoMark | Refine | Coarsen.

Record proc := mkD {
  mpirank : Z;
  num_blocks : nat; num_patches : nat -> nat;
  pat : nat -> nat -> patch;
  flag : nat -> nat -> mark;
  num_ghost : nat; ghost : nat -> patch; ghost_block : nat -> nat;
  smooth_refine : bool; smooth_level : Z }.

Definition set2 {A} (f : nat -> nat -> A) (b p : nat) (x : A) : nat -> nat -> A :=
  fun b' p' => if Nat.eqb b' b && Nat.eqb p' p then x else f b' p'.

Definition with_pat (d : proc) (b p : nat) (x : patch) : proc :=
  mkD (mpirank d) (num_blocks d) (num_patches d) (set2 (pat d) b p x) (flag d)
      (num_ghost d) (ghost d) (ghost_block d) (smooth_refine d) (smooth_level d).
Definition with_flag (d : proc) (b p : nat) (m : mark) : proc :=
  mkD (mpirank d) (num_blocks d) (num_patches d) (pat d) (set2 (flag d) b p m)
      (num_ghost d) (ghost d) (ghost_block d) (smooth_refine d) (smooth_level d).

(** fclaw2d_domain_get_patch: asserts the numbers are in range. *)
Definition exists_patch (d : proc) (b p : nat) : bool :=
  (b <? num_blocks d)%nat && (p <? num_patches d b)%nat.

Section Marks.
  (** P4EST_QMAXLEVEL: 29 in 2D, 18 in 3D *)
  Variable qmaxlevel : Z.

  (** forestclaw2d.c:1399-1429 fclaw2d_patch_mark_refine *)
  Definition mark_refine (d : proc) (b p : nat) : option proc :=
    if exists_patch d b p then
      let x := pat d b p in
      let d := with_pat d b p (mkP (level x) (Z.min (level x + 1) qmaxlevel)) in
      Some (if negb (smooth_refine d) then with_flag d b p Refine else d)
    else None.

  (** forestclaw2d.c:1431-1450 fclaw2d_patch_mark_coarsen *)
  Definition mark_coarsen (d : proc) (b p : nat) : option proc :=
    if exists_patch d b p then
      let x := pat d b p in
      let d := with_pat d b p (mkP (level x) (Z.max (level x - 1) 0)) in
      Some (if negb (smooth_refine d) then with_flag d b p Coarsen else d)
    else None.

  (** Results of the user's fclaw2d_patch_tag4refinement / tag4coarsening. *)
  Variable tagR tagC : nat -> nat -> Z.
  (** fclaw_opt->minlevel, maxlevel *)
  Variable minlevel maxlevel : Z.

  (** fclaw2d_regrid.c:45-72 cb_fclaw2d_regrid_tag4refinement *)
  Definition cb_tag4refinement (d : proc) (b p : nat) : option proc :=
    if level (pat d b p) <? maxlevel then
      if tagR b p =? 1 then mark_refine d b p else Some d
    else Some d.

  (** fclaw2d_regrid.c:76-107 cb_regrid_tag4coarsening; the four siblings are the
      patches p, ..., p + 3. *)
  Definition cb_tag4coarsening (d : proc) (b p : nat) : option proc :=
    if level (pat d b p) >? minlevel then
      if tagC b p =? 1 then
        bind (mark_coarsen d b p) (fun d =>
        bind (mark_coarsen d b (p + 1)) (fun d =>
        bind (mark_coarsen d b (p + 2)) (fun d =>
        mark_coarsen d b (p + 3))))
      else Some d
    else Some d.

  Fixpoint iterate (f : proc -> nat -> nat -> option proc) (d : proc) (l : list (nat * nat))
    : option proc :=
    match l with
    | [] => Some d
    | (b, p) :: tl => bind (f d b p) (fun d => iterate f d tl)
    end.

  (** all local patches, block by block (fclaw2d_domain_iterate_patches) *)
  Definition all_patches (d : proc) : list (nat * nat) :=
    flat_map (fun b => map (fun p => (b, p)) (seq 0 (num_patches d b))) (seq 0 (num_blocks d)).

  (** fclaw2d_regrid.c:242-248 (and fclaw2d_initialize.c:168-172): families first,
      then patches.  [families] is what fclaw2d_domain_iterate_families visits (C07). *)
  Definition regrid_tags (families : list (nat * nat)) (d : proc) : option proc :=
    bind (iterate cb_tag4coarsening d families) (fun d =>
    iterate cb_tag4refinement d (all_patches d)).
End Marks.

(* ------------------------------------------------------------ smooth refinement *)

(** A neighbor as returned by the neighbor queries: process, block, patch number. *)
Definition ref : Type := (Z * nat * nat)%type.

(** result of fclaw2d_patch_face_neighbors *)
Inductive face_nbr := Boundary | Samesize (r : ref) | Doublesize (r : ref)
  | Halfsize (l : list ref).

(** fclaw2d_convenience.c:474-495 fclaw2d_domain_get_neighbor_patch *)
Definition get_neighbor (d : proc) (r : ref) : option patch :=
  let '(nproc, nb, np) := r in
  if negb (nb <? num_blocks d)%nat then None
  else if negb (nproc =? mpirank d) then
    if (np <? num_ghost d)%nat && Nat.eqb (ghost_block d np) nb then Some (ghost d np) else None
  else if (np <? num_patches d nb)%nat then Some (pat d nb np) else None.

Section Smooth.
  (** 4 faces and 4 corners in 2D, 6 and 8 in 3D *)
  Variable faces corners : nat.
  (** fclaw2d_patch_face_neighbors, fclaw2d_patch_corner_neighbors (None: no
      neighbor at this corner) of this process *)
  Variable face_neighbors : nat -> nat -> nat -> face_nbr.
  Variable corner_neighbors : nat -> nat -> nat -> option ref.

  (** "if (npatch->level >= smooth_level) max_tlevel = SC_MAX (max_tlevel,
      npatch->target_level)" *)
  Definition pull (d : proc) (m : Z) (n : patch) : Z :=
    if level n >=? smooth_level d then Z.max m (target n) else m.

  (** the loop over the small neighbors, fclaw2d_convenience.c:580-592 *)
  Fixpoint pull_half (d : proc) (lev : Z) (l : list ref) (m : Z) : option Z :=
    match l with
    | [] => Some m
    | r :: tl => bind (get_neighbor d r) (fun n =>
                 if level n =? lev + 1 then pull_half d lev tl (pull d m n) else None)
    end.

  (** fclaw2d_convenience.c:547-597, one face *)
  Definition pull_face (d : proc) (b p : nat) (lev m : Z) (face : nat) : option Z :=
    match face_neighbors b p face with
    | Samesize r => bind (get_neighbor d r) (fun n =>
                    if level n =? lev then Some (pull d m n) else None)
    | Doublesize r => bind (get_neighbor d r) (fun n =>
                      if level n =? lev - 1 then Some (pull d m n) else None)
    | Halfsize l => pull_half d lev l m
    | Boundary => Some m
    end.

  (** fclaw2d_convenience.c:609-625, one corner *)
  Definition pull_corner (d : proc) (b p : nat) (lev m : Z) (corner : nat) : option Z :=
    match corner_neighbors b p corner with
    | Some r => bind (get_neighbor d r) (fun n => Some (pull d m n))
    | None => Some m
    end.

  (** "for (i = 0; max_tlevel <= level && i < count; ++i)" *)
  Fixpoint pull_loop (f : Z -> nat -> option Z) (lev : Z) (i n : nat) (m : Z) : option Z :=
    match n with
    | O => Some m
    | S n => if m <=? lev then bind (f m i) (pull_loop f lev (S i) n) else Some m
    end.

  (** fclaw2d_convenience.c:538-643, one patch *)
  Definition smooth_patch (d : proc) (b p : nat) : option proc :=
    let lev := level (pat d b p) in
    bind (pull_loop (pull_face d b p lev) lev 0 faces (target (pat d b p))) (fun m =>
    bind (pull_loop (pull_corner d b p lev) lev 0 corners m) (fun m =>
    if m <? lev then
      if m =? lev - 1 then Some (with_flag d b p Coarsen) else None
    else if m >? lev then
      if m <=? lev + 2 then Some (with_flag d b p Refine) else None
    else Some d)).

  (** fclaw2d_convenience.c:519-530: p4est_ghost_exchange_custom delivers into
      ghost_target_levels ([recv]) and the levels are stored in the ghost patches. *)
  Definition store_ghost_targets (d : proc) (recv : nat -> Z) : proc :=
    mkD (mpirank d) (num_blocks d) (num_patches d) (pat d) (flag d) (num_ghost d)
        (fun g => if (g <? num_ghost d)%nat then mkP (level (ghost d g)) (recv g) else ghost d g)
        (ghost_block d) (smooth_refine d) (smooth_level d).

  (** fclaw2d_convenience.c:507-646; the patches are processed in the given order. *)
  Definition smooth_marks_in (order : list (nat * nat)) (d : proc) (recv : nat -> Z)
    : option proc :=
    if smooth_refine d
    then iterate smooth_patch (store_ghost_targets d recv) order
    else Some d.

  Definition smooth_marks (d : proc) (recv : nat -> Z) : option proc :=
    smooth_marks_in (all_patches d) d recv.
End Smooth.

(** fclaw2d_convenience.c:662-676: adapt changed nothing, requests are withdrawn. *)
Definition clean_targets (d : proc) : proc :=
  mkD (mpirank d) (num_blocks d) (num_patches d)
      (fun b p => if exists_patch d b p then mkP (level (pat d b p)) (level (pat d b p)) else pat d b p)
      (flag d) (num_ghost d) (ghost d) (ghost_block d) (smooth_refine d) (smooth_level d).
