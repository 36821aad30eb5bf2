(** Model of domain construction and of the patch iterators:
    /repo/src/fclaw2d_convenience.c (fclaw2d_domain_new) and
    /repo/src/forestclaw2d.c (the functions fclaw2d_domain_iterate_level, _patches, _families), 2D and 3D.

    Simplifications: the forest is given by the per-tree lists of local
    quadrants (tree->quadrants) and the list of local numbers of the mirror
    quadrants (ghost->mirrors[].p.piggy3.local_num); block vertices, is_boundary
    and the MPI reduction of levels are not modelled here.  Pointers to patches
    of a block are indices into its patch array; NULL is [None].  A failed
    FCLAW_ASSERT is the outcome [None]. *)
From Coq Require Import ZArith QArith List Bool Lia.
From Verif Require Import Base_Float Model_Face.
Import ListNotations.
Open Scope Z_scope.

(** p4est_quadrant_t (external): level and integer lower corner. *)
Record quad := mkQuad { q_level : Z; q_x : Z; q_y : Z; q_z : Z }.

(** P4EST_MAXLEVEL (30 in 2D, 19 in 3D), P4EST_QMAXLEVEL = P4EST_MAXLEVEL - 1,
    P4EST_ROOT_LEN = 2^MAXLEVEL, P4EST_QUADRANT_LEN (l) = 2^(MAXLEVEL-l)
    (external constants of p4est). *)
Definition qmaxlevel (d : dim) : Z := maxlevel_of d - 1.
Definition root_len (d : dim) : Z := 2 ^ maxlevel_of d.
Definition quadrant_len (d : dim) (l : Z) : Z := 2 ^ (maxlevel_of d - l).
Definition num_children (d : dim) : nat := match d with D2 => 4%nat | D3 => 8%nat end.

(** External p4est_quadrant_child_id: bit "level" of each coordinate. *)
Definition bit (b : bool) : Z := if b then 1 else 0.
Definition child_id (d : dim) (q : quad) : Z :=
  if q_level q =? 0 then 0 else
  let s := maxlevel_of d - q_level q in
  bit (Z.testbit (q_x q) s) + 2 * bit (Z.testbit (q_y q) s) +
  (match d with D2 => 0 | D3 => 4 * bit (Z.testbit (q_z q) s) end).

(** External p4est_quadrant_is_familyv: the 2^d quadrants starting at the given
    one are the children of one parent in order. *)
Fixpoint match_children (d : dim) (q0 : quad) (cs : list (Z * Z * Z)) (qs : list quad) : bool :=
  match cs, qs with
  | [], _ => true
  | (sx, sy, sz) :: cs', q :: qs' =>
      (q_level q =? q_level q0) &&
      (q_x q =? q_x q0 + sx * quadrant_len d (q_level q0)) &&
      (q_y q =? q_y q0 + sy * quadrant_len d (q_level q0)) &&
      (match d with D2 => true
               | D3 => q_z q =? q_z q0 + sz * quadrant_len d (q_level q0) end) &&
      match_children d q0 cs' qs'
  | _, [] => false
  end.
Definition is_familyv (d : dim) (qs : list quad) : bool :=
  match qs with
  | [] => false
  | q0 :: _ => (0 <? q_level q0) && (child_id d q0 =? 0) && match_children d q0 (children d) qs
  end.

(** Patch flags, /repo/src/forestclaw2d.h (fclaw2d_patch_flags_t) and
    /repo/src/forestclaw3d.h. *)
Definition FLAG_FIRST_SIBLING : Z := 8.
Definition FLAG_ON_PARALLEL_BOUNDARY : Z := 16.
Definition FLAG_IS_GHOST : Z := 32.
Definition FLAG_ON_BLOCK_FACE (f : Z) : Z := Z.shiftl 64 f.

(** fclaw2d_patch_t without the union u (u.next is kept in the block). *)
Record patch_t := mkP {
  p_level : Z; p_target : Z; p_flags : Z;
  p_xl : Q; p_xu : Q; p_yl : Q; p_yu : Q; p_zl : Q; p_zu : Q }.

Definition set_flag (fl f : Z) (c : bool) : Z := if c then Z.lor fl f else fl.

Section New.
  Variable rnd : Q -> Q.   (* rounding of double operations *)
  Variable d : dim.

  (** fclaw2d_smallest_h, fclaw2d_convenience.c:40: 1. / (double) P4EST_ROOT_LEN *)
  Definition smallest_h : Q := rnd (1 / dbl rnd (root_len d))%Q.
  Definition coord (x : Z) : Q := fmul rnd (dbl rnd x) smallest_h.

  (** fclaw2d_convenience.c:42-86 fclaw2d_patch_set_boundary_xylower *)
  Definition set_boundary_xylower (fl : Z) (lvl tlvl : Z) (q : quad) : patch_t :=
    let qh := quadrant_len d (q_level q) in
    let fl := set_flag fl (FLAG_ON_BLOCK_FACE 0) (q_x q =? 0) in
    let fl := set_flag fl (FLAG_ON_BLOCK_FACE 1) (q_x q + qh =? root_len d) in
    let fl := set_flag fl (FLAG_ON_BLOCK_FACE 2) (q_y q =? 0) in
    let fl := set_flag fl (FLAG_ON_BLOCK_FACE 3) (q_y q + qh =? root_len d) in
    let fl := match d with D2 => fl | D3 =>
                let fl := set_flag fl (FLAG_ON_BLOCK_FACE 4) (q_z q =? 0) in
                set_flag fl (FLAG_ON_BLOCK_FACE 5) (q_z q + qh =? root_len d) end in
    mkP lvl tlvl fl (coord (q_x q)) (coord (q_x q + qh)) (coord (q_y q)) (coord (q_y q + qh))
        (match d with D2 => 0%Q | D3 => coord (q_z q) end)
        (match d with D2 => 0%Q | D3 => coord (q_z q + qh) end).

  (** State of the patch loop, fclaw2d_convenience.c:204-274.  [s_pbl] is
      block->patchbylevel, [s_cur] is currentbylevel (kept across blocks),
      [s_next] are the u.next pointers of the block's patches. *)
  Record bstate := mkS {
    s_patches : list patch_t;          (* block->patches[0..j) *)
    s_next : nat -> option nat;
    s_pbl : Z -> option nat;
    s_cur : Z -> option nat;
    s_min : Z; s_max : Z;              (* tree_minlevel, tree_maxlevel *)
    s_nm : nat;                        (* nm *)
    s_mqn : Z;                         (* mirror_quadrant_num *)
    s_exch : list (nat * nat);         (* exchange_patches[0..nm) *)
    s_num : Z }.                       (* local_num_patches *)

  Definition upd {A} (f : nat -> A) (k : nat) (v : A) : nat -> A :=
    fun j => if Nat.eqb j k then v else f j.
  Definition updz {A} (f : Z -> A) (k : Z) (v : A) : Z -> A :=
    fun j => if j =? k then v else f j.

  Variable mirrors : list Z.

  (** one iteration of the patch loop; [rest] are the quadrants from j on *)
  Definition patch_step (i j : nat) (rest : list quad) (st : bstate) : option bstate :=
    match rest with
    | [] => Some st
    | q :: _ =>
      let level := q_level q in
      let fl := child_id d q in
      let fl := set_flag fl FLAG_FIRST_SIBLING
                  (Nat.leb (num_children d) (length rest) && is_familyv d rest) in
      if negb ((0 <=? level) && (level <=? qmaxlevel d)) then None else
      let on_boundary := s_mqn st =? s_num st in
      let fl := set_flag fl FLAG_ON_PARALLEL_BOUNDARY on_boundary in
      let nm' := if on_boundary then S (s_nm st) else s_nm st in
      let exch' := if on_boundary then s_exch st ++ [(i, j)] else s_exch st in
      let mqn' := if on_boundary then
                    (if Nat.ltb nm' (length mirrors) then nth nm' mirrors 0 else -1)
                  else s_mqn st in
      if on_boundary && Nat.ltb nm' (length mirrors) && negb (s_num st <? mqn') then None else
      let p := set_boundary_xylower fl level level q in
      let next' :=
        match s_pbl st level with
        | None => Some (s_next st)
        | Some _ => match s_cur st level with
                    | Some c => Some (upd (s_next st) c (Some j))
                    | None => None
                    end
        end in
      match next' with
      | None => None
      | Some nx =>
        Some (mkS (s_patches st ++ [p]) nx
                (match s_pbl st level with None => updz (s_pbl st) level (Some j)
                                         | Some _ => s_pbl st end)
                (updz (s_cur st) level (Some j))
                (Z.min (s_min st) level) (Z.max (s_max st) level)
                nm' mqn' exch' (s_num st + 1))
      end
    end.

  Fixpoint patch_loop (i j : nat) (rest : list quad) (st : bstate) : option bstate :=
    match rest with
    | [] => Some st
    | _ :: tl => match patch_step i j rest st with
                 | None => None
                 | Some st' => patch_loop i (S j) tl st'
                 end
    end.

  Record block_t := mkB {
    b_before : Z;                      (* num_patches_before *)
    b_patches : list patch_t;
    b_next : nat -> option nat;        (* u.next *)
    b_bylevel : Z -> option nat;       (* patchbylevel *)
    b_min : Z; b_max : Z;
    b_nexch : nat }.                   (* num_exchange_patches *)

  Record dstate := mkD {
    ds_blocks : list block_t; ds_cur : Z -> option nat;
    ds_min : Z; ds_max : Z; ds_nm : nat; ds_mqn : Z;
    ds_exch : list (nat * nat); ds_num : Z }.

  (** one iteration of the block loop, fclaw2d_convenience.c:159-287;
      arrays are zero-allocated: no next pointers, empty patchbylevel *)
  Definition block_step (i : nat) (quads : list quad) (ds : dstate) : option dstate :=
    let st := mkS [] (fun _ => None) (fun _ => None) (ds_cur ds)
                  (qmaxlevel d) (-1) (ds_nm ds) (ds_mqn ds) (ds_exch ds) (ds_num ds) in
    match patch_loop i 0 quads st with
    | None => None
    | Some s =>
      Some (mkD (ds_blocks ds ++
                 [mkB (ds_num ds) (s_patches s) (s_next s) (s_pbl s) (s_min s) (s_max s)
                      (s_nm s - ds_nm ds)%nat])
                (s_cur s) (Z.min (ds_min ds) (s_min s)) (Z.max (ds_max ds) (s_max s))
                (s_nm s) (s_mqn s) (s_exch s) (s_num s))
    end.

  Fixpoint block_loop (i : nat) (trees : list (list quad)) (ds : dstate) : option dstate :=
    match trees with
    | [] => Some ds
    | t :: tl => match block_step i t ds with
                 | None => None
                 | Some ds' => block_loop (S i) tl ds'
                 end
    end.

  (** fclaw2d_domain_t, the fields used *)
  Record domain_t := mkDom {
    dom_blocks : list block_t;
    dom_num : Z;                       (* local_num_patches *)
    dom_min : Z; dom_max : Z;          (* local_minlevel, local_maxlevel *)
    dom_exchange : list (nat * nat) }. (* exchange_patches: (block, patch) *)

  (** fclaw2d_convenience.c:90-295 fclaw2d_domain_new (local patches) *)
  Definition domain_new (trees : list (list quad)) : option domain_t :=
    let mqn := match mirrors with [] => -1 | m :: _ => m end in
    match block_loop 0 trees (mkD [] (fun _ => None) (qmaxlevel d) (-1) 0 mqn [] 0) with
    | None => None
    | Some ds =>
      if Nat.eqb (ds_nm ds) (length mirrors)
      then Some (mkDom (ds_blocks ds) (ds_num ds) (ds_min ds) (ds_max ds) (ds_exch ds))
      else None
    end.

  (** fclaw2d_convenience.c:297-311: ghost patches *)
  Definition ghost_patch (q : quad) : patch_t :=
    set_boundary_xylower (Z.lor (child_id d q) FLAG_IS_GHOST) (q_level q) (q_level q) q.

  (** ** Iterators.  The result is the list of callback invocations. *)

  (** forestclaw2d.c:233-242: chase the level list of one block; [fuel] bounds
      the chase, running out means the loop does not end. *)
  Fixpoint chase (fuel : nat) (b : block_t) (level : Z) (i : nat) (p : option nat)
    : option (list (nat * nat)) :=
    match p with
    | None => Some []
    | Some j =>
      match fuel with
      | O => None
      | S fuel' =>
        match nth_error (b_patches b) j with
        | None => None                                   (* j < num_patches *)
        | Some pa =>
          if negb (p_level pa =? level) then None else   (* level assertion *)
          match chase fuel' b level i (b_next b j) with
          | None => None
          | Some l => Some ((i, j) :: l)
          end
        end
      end
    end.

  Fixpoint iterate_level_blocks (i : nat) (bs : list block_t) (level : Z)
    : option (list (nat * nat)) :=
    match bs with
    | [] => Some []
    | b :: bs' =>
      match chase (length (b_patches b)) b level i (b_bylevel b level),
            iterate_level_blocks (S i) bs' level with
      | Some l, Some r => Some (l ++ r)
      | _, _ => None
      end
    end.

  (** forestclaw2d.c:223-244 fclaw2d_domain_iterate_level *)
  Definition iterate_level (dom : domain_t) (level : Z) : option (list (nat * nat)) :=
    if negb ((0 <=? level) && (level <=? qmaxlevel d)) then None
    else iterate_level_blocks 0 (dom_blocks dom) level.

  (** forestclaw2d.c:246-264 fclaw2d_domain_iterate_patches *)
  Fixpoint iterate_patches_blocks (i : nat) (bs : list block_t) : list (nat * nat) :=
    match bs with
    | [] => []
    | b :: bs' => map (fun j => (i, j)) (seq 0 (length (b_patches b))) ++
                  iterate_patches_blocks (S i) bs'
    end.
  Definition iterate_patches (dom : domain_t) := iterate_patches_blocks 0 (dom_blocks dom).

  (** forestclaw2d.c:149-153 fclaw2d_patch_is_first_sibling, 138-147 childid *)
  Definition is_first_sibling (p : patch_t) : bool :=
    negb (Z.land (p_flags p) FLAG_FIRST_SIBLING =? 0).
  Definition patch_childid (p : patch_t) : Z := Z.land (p_flags p) 7.

  (** forestclaw2d.c:266-294: one block of fclaw2d_domain_iterate_families;
      [skip] counts the patches jumped over by j += P4EST_CHILDREN - 1. *)
  Fixpoint families_block (i j : nat) (skip : nat) (ps : list patch_t)
    : option (list (nat * nat)) :=
    match ps with
    | [] => Some []
    | p :: tl =>
      match skip with
      | S s => families_block i (S j) s tl
      | O =>
        if is_first_sibling p then
          if Nat.leb (num_children d) (length ps) &&
             forallb (fun k => match nth_error ps k with
                               | Some pk => patch_childid pk =? Z.of_nat k
                               | None => false end) (seq 0 (num_children d))
          then match families_block i (S j) (num_children d - 1) tl with
               | Some l => Some ((i, j) :: l)
               | None => None
               end
          else None
        else families_block i (S j) 0 tl
      end
    end.
  Fixpoint families_blocks (i : nat) (bs : list block_t) : option (list (nat * nat)) :=
    match bs with
    | [] => Some []
    | b :: bs' =>
      match families_block i 0 0 (b_patches b), families_blocks (S i) bs' with
      | Some l, Some r => Some (l ++ r)
      | _, _ => None
      end
    end.
  Definition iterate_families (dom : domain_t) := families_blocks 0 (dom_blocks dom).
End New.
