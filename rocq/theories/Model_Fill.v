(** Which patch routines are called to fill ghost cells, with which arguments and in which order:
    src/fclaw2d_face_neighbors.c, src/fclaw2d_corner_neighbors.c, src/fclaw2d_ghost_fill.c.

    The callbacks of the patch library (fclaw2d_patch_copy_face and so on) are not executed here; a run of the code is
    the list of calls it makes.  Timers and log messages are left out.  [None] is a failed assertion, exit() or the
    use of a value that was not set.  Two space dimensions. *)
From Coq Require Import ZArith List Bool.
From Verif Require Import Model_Face Model_Mesh.
Import ListNotations.
Open Scope Z_scope.

(** a pointer to a patch: &domain->blocks[b].patches[n] or &domain->ghost_patches[n] *)
Inductive pref := Loc (b n : Z) | Gho (n : Z).
Definition is_ghost (x : pref) : bool := match x with Gho _ => true | Loc _ _ => false end.

(** a face transformation: fclaw2d_patch_transform_blockface (iface, rface), ..._intra, or not set *)
Inductive trans := Inter (iface rface : Z) | Intra | Unset.
(** fclaw2d_patch_transform_data_t as far as it is used: transform, this_patch, neighbor_patch, block_iface, icorner,
    is_block_corner.  The last three are not used for faces; they are -1, -1 and false there. *)
Record tdata := mkT { t_trans : trans; t_this : pref; t_nbr : pref; t_block_iface : Z; t_icorner : Z; t_block_corner : bool }.
Definition face_data (tr : trans) (this nbr : pref) : tdata := mkT tr this nbr (-1) (-1) false.

(** calls of patch routines; [ti] is time_interp *)
Inductive op :=
| CopyFace (this nbr : pref) (iface : Z) (ti : bool) (t : tdata)
| AvgFace (coarse fine : pref) (idir iface igrid : Z) (ti : bool) (t : tdata)
| IntFace (coarse fine : pref) (idir iface igrid : Z) (ti : bool) (t : tdata)
| SyncF2C (coarse fine : pref) (coarse_block fine_block coarse_patch idir igrid iface : Z) (ti : bool) (t : tdata)
| SyncSame (this nbr : pref) (iface idir : Z) (t : tdata)
| CopyCorner (this nbr : pref) (this_block nbr_block : Z) (is_block_corner : bool) (icorner : Z) (ti : bool) (t : tdata)
| AvgCorner (coarse fine : pref) (coarse_block fine_block : Z) (is_block_corner : bool) (icorner : Z) (ti : bool) (t : tdata)
| IntCorner (coarse fine : pref) (coarse_block fine_block : Z) (is_block_corner : bool) (icorner : Z) (ti : bool) (t : tdata)
| Physical (this : pref) (b n : Z) (faces : list bool) (ti : bool).

(** fclaw2d_exchange_info_t: exchange_type, grid_type, read_parallel_patches, time_interp *)
Inductive extype := COPY | AVERAGE | INTERPOLATE | TIME_SYNC_F2C | TIME_SYNC_SAMESIZE.
Inductive gridtype := IS_COARSE | IS_FINE.
Record exinfo := mkE { e_type : extype; e_grid : gridtype; e_parallel : bool; e_ti : bool }.
Definition ex_eqb (a b : extype) : bool :=
  match a, b with COPY, COPY | AVERAGE, AVERAGE | INTERPOLATE, INTERPOLATE | TIME_SYNC_F2C, TIME_SYNC_F2C | TIME_SYNC_SAMESIZE, TIME_SYNC_SAMESIZE => true | _, _ => false end.

(** what a process knows: the domain, the answers of the indirect exchange, and flags *)
Record view := mkView {
  v_dom : domain;
  v_indirect : list (list Z);
  v_block_face : pref -> Z -> bool;        (* FCLAW2D_PATCH_ON_BLOCK_FACE_x *)
  v_on_boundary : Z -> Z -> bool;          (* FCLAW2D_PATCH_ON_PARALLEL_BOUNDARY, patch n of block b *)
  v_level : Z -> list (Z * Z);             (* the patches visited by fclaw2d_global_iterate_level, in order *)
  v_pillow : bool }.                       (* fclaw2d_map_pillowsphere *)

Section Fill.
  Variable v : view.
  Notation dom := (v_dom v).

  (** fclaw2d_physical_bc.c:79-93 fclaw2d_physical_get_bc *)
  Definition get_bc (b n : Z) : option (list bool) :=
    bind (boundary_type D2 dom b n) (fun '(l, _) => Some (map (fun x => x =? 1) l)).
  (** fclaw2d_block.c:33-47 fclaw2d_block_get_block_boundary *)
  Definition get_block_boundary (x : pref) : list bool := map (v_block_face v x) (zrange 0 4).

  (** the patch found at a rank: fclaw2d_face_neighbors.c:172-186, fclaw2d_corner_neighbors.c:306-315 *)
  Definition pointer (rproc rblock rpatch : Z) : pref := if rproc =? mpirank dom then Loc rblock rpatch else Gho rpatch.

  (** COARSER_GRID, SAMESIZE_GRID, FINER_GRID *)
  Inductive rellevel := COARSER | SAME | FINER.

  (** fclaw2d_face_neighbors.c:67-190 get_face_neighbors: neighbor_block_idx, neighbor patches, relative level, fine_grid_pos
      (-1 if not set), iface_neighbor, the transformation and the one for the other side *)
  Record face_nb := mkFN { fn_block : Z; fn_patches : list pref; fn_level : rellevel; fn_pos : Z; fn_iface : Z; fn_trans : trans; fn_ftrans : trans }.
  Definition get_face_neighbors (b n iface : Z) (is_block_face : bool) : option face_nb :=
    bind (face_neighbors D2 dom b n iface) (fun a =>
    let block := if is_block_face then fa_block a else -1 in
    let (iface1, rface1) := face_swap D2 iface (fa_face a) in
    let tr := if is_block_face then Inter iface (fa_face a) else Intra in
    let ftr := if is_block_face then Inter iface1 rface1 else Intra in
    let nth k := bind (zget (fa_proc a) k) (fun rp => bind (zget (fa_patch a) k) (fun rn => Some (pointer rp (fa_block a) rn))) in
    match fa_rel a with
    | BOUNDARY => None
    | SAMESIZE => bind (nth 0) (fun p0 => Some (mkFN block [p0] SAME (-1) iface1 tr ftr))
    | DOUBLESIZE => bind (nth 0) (fun p0 => bind (zget (fa_proc a) 1) (fun pos => Some (mkFN block [p0] COARSER pos iface1 tr ftr)))
    | HALFSIZE => bind (nth 0) (fun p0 => bind (nth 1) (fun p1 => Some (mkFN block [p0; p1] FINER (-1) iface1 tr ftr)))
    end).

  (** fclaw2d_face_neighbors.c:195-451 cb_face_fill, the body of the loop over faces *)
  Definition face_fill_at (e : exinfo) (b n : Z) (bc blk : list bool) (iface : Z) : option (list op) :=
    let this := Loc b n in
    let idir := iface / 2 in
    let is t := ex_eqb (e_type e) t in
    bind (zget bc iface) (fun phys => bind (zget blk iface) (fun is_block_face =>
    if phys then Some [] else
    bind (get_face_neighbors b n iface is_block_face) (fun fn =>
    bind (zget (fn_patches fn) 0) (fun nb0 =>
    match e_grid e with
    | IS_COARSE =>
        match fn_level fn with
        | FINER =>
            bind (mapM (fun igrid =>
              bind (zget (fn_patches fn) igrid) (fun fine =>
              if negb (negb (is_ghost fine) || (e_parallel e && is_ghost fine)) then Some [] else
              let t := face_data (fn_trans fn) this fine in
              if is TIME_SYNC_F2C then Some [SyncF2C this fine b (fn_block fn) n idir igrid iface (e_ti e) t]
              else if is INTERPOLATE && negb (is_ghost fine) then Some [IntFace this fine idir iface igrid (e_ti e) t]
              else if is AVERAGE then Some [AvgFace this fine idir iface igrid (e_ti e) t]
              else Some [])) (zrange 0 2)) (fun l => Some (concat l))
        | SAME =>
            if is COPY || is TIME_SYNC_SAMESIZE then
              let t := face_data (fn_trans fn) this nb0 in
              let ft := face_data (fn_ftrans fn) nb0 this in
              let first := if is TIME_SYNC_SAMESIZE then [SyncSame this nb0 iface idir t] else [CopyFace this nb0 iface (e_ti e) t] in
              let second := if is_ghost nb0 then
                              if is TIME_SYNC_SAMESIZE then [SyncSame nb0 this (fn_iface fn) idir ft] else [CopyFace nb0 this (fn_iface fn) (e_ti e) ft]
                            else [] in
              Some (first ++ second)
            else Some []
        | COARSER => Some []
        end
    | IS_FINE =>
        match fn_level fn with
        | COARSER =>
            if is_ghost nb0 && e_parallel e then
              let ft := face_data (fn_ftrans fn) nb0 this in
              let iface_coarse := fn_iface fn in
              if is AVERAGE then Some [AvgFace nb0 this (iface_coarse / 2) iface_coarse (fn_pos fn) (e_ti e) ft]
              else if is INTERPOLATE then Some [IntFace nb0 this (iface_coarse / 2) iface_coarse (fn_pos fn) (e_ti e) ft]
              else Some []
            else Some []
        | _ => Some []
        end
    end)))).
  Definition cb_face_fill (e : exinfo) (b n : Z) : option (list op) :=
    bind (get_bc b n) (fun bc => let blk := get_block_boundary (Loc b n) in
    bind (mapM (face_fill_at e b n bc blk) (zrange 0 4)) (fun l => Some (concat l))).

  (** fclaw2d_corner_neighbors.c:49-97 get_corner_type: interior_corner, is_block_corner, block_iface.
      p4est_corner_faces[c] is {c mod 2, 2 + c / 2} *)
  Definition get_corner_type (icorner : Z) (bc blk : list bool) : option (bool * bool * Z) :=
    let f0 := icorner mod 2 in let f1 := 2 + icorner / 2 in
    bind (zget bc f0) (fun p0 => bind (zget bc f1) (fun p1 =>
    bind (zget blk f0) (fun b0 => bind (zget blk f1) (fun b1 =>
    let is_phys_corner := p0 && p1 in
    let corner_on_phys_face := negb is_phys_corner && (p0 || p1) in
    let interior_corner := negb corner_on_phys_face && negb is_phys_corner in
    let is_block_corner := b0 && b1 in
    let block_iface := if is_block_corner then -1 else if b0 then f0 else if b1 then f1 else -1 in
    Some (interior_corner, is_block_corner, block_iface))))).

  (** fclaw2d_corner_neighbors.c:128-330 get_corner_neighbor.  [NoNb]: no neighbor (hanging node, or three patches meet).
      Otherwise corner_block_idx, the patch, rcornerno, relative level, the transformations and block_iface of the other side.
      block_corner_count is left out. *)
  Inductive corner_nb := NoNb | Nb (block : Z) (patch : pref) (rcorner : Z) (lev : rellevel) (tr ftr : trans) (fblock_iface : Z).
  Definition lev_of (r : relation) : rellevel := match r with HALFSIZE => FINER | SAMESIZE => SAME | _ => COARSER end.
  Definition get_corner_neighbor (b n icorner block_iface : Z) (is_block_corner : bool) : option corner_nb :=
    bind (corner_neighbors D2 dom b n icorner) (fun a =>
    let found block tr ftr fbi :=
      bind (ca_proc a) (fun rp => bind (ca_patch a) (fun rn => Some (Nb block (pointer rp block rn) (ca_corner a) (lev_of (ca_rel a)) tr ftr fbi))) in
    match ca_rel a with
    | BOUNDARY =>
        if negb is_block_corner then Some NoNb
        else if negb (v_pillow v) then Some NoNb
        else
          bind (face_neighbors D2 dom b n (icorner mod 2)) (fun fa =>
          let igrid := match fa_rel fa with HALFSIZE => (icorner / 2) * (2 - 1) | _ => 0 end in
          match fa_rel fa with
          | BOUNDARY => None
          | rel => bind (zget (fa_patch fa) igrid) (fun rn => bind (zget (fa_proc fa) igrid) (fun rp =>
                   Some (Nb (fa_block fa) (pointer rp (fa_block fa) rn) icorner (lev_of rel) Unset Unset (-1))))
          end)
    | _ =>
        if is_block_corner then found (ca_block a) Intra Intra (-1)
        else if 0 <=? block_iface then
          bind (face_neighbors D2 dom b n block_iface) (fun fa =>
          check (fa_block fa =? ca_block a) (
          let (iface1, rface1) := face_swap D2 block_iface (fa_face fa) in
          found (ca_block a) (Inter block_iface (fa_face fa)) (Inter iface1 rface1) iface1))
        else if b =? ca_block a then found (ca_block a) Intra Intra (-1)
        else None
    end).

  (** fclaw2d_corner_neighbors.c:333-535 cb_corner_fill, the body of the loop over corners *)
  Definition corner_fill_at (e : exinfo) (b n : Z) (bc blk : list bool) (icorner : Z) : option (list op) :=
    let this := Loc b n in
    let is t := ex_eqb (e_type e) t in
    bind (get_corner_type icorner bc blk) (fun '(interior, isb, block_iface) =>
    if negb interior then Some [] else
    bind (get_corner_neighbor b n icorner block_iface isb) (fun r =>
    match r with
    | NoNb => Some []
    | Nb corner_block nb rcorner lev tr ftr fbi =>
        let t := mkT tr this nb block_iface icorner isb in
        let ft := mkT ftr nb this fbi rcorner isb in
        let remote := is_ghost nb in
        match e_grid e with
        | IS_COARSE =>
            if (e_parallel e && remote) || negb remote then
              match lev with
              | FINER =>
                  if is INTERPOLATE && negb remote then Some [IntCorner this nb b corner_block isb icorner (e_ti e) t]
                  else if is AVERAGE then Some [AvgCorner this nb b corner_block isb icorner (e_ti e) t]
                  else Some []
              | SAME => if is COPY then Some [CopyCorner this nb b corner_block isb icorner (e_ti e) t] else Some []
              | COARSER => Some []
              end
            else Some []
        | IS_FINE =>
            match lev with
            | COARSER =>
                if remote && e_parallel e then
                  let fine_blockno := n in
                  if is INTERPOLATE then Some [IntCorner nb this corner_block fine_blockno isb rcorner (e_ti e) ft] else Some []
                else Some []
            | _ => Some []
            end
        end
    end)).
  Definition cb_corner_fill (e : exinfo) (b n : Z) : option (list op) :=
    bind (get_bc b n) (fun bc => let blk := get_block_boundary (Loc b n) in
    bind (mapM (corner_fill_at e b n bc blk) (zrange 0 4)) (fun l => Some (concat l))).

  (** fclaw2d_physical_bc.c:45-76 cb_fclaw2d_physical_set_bc *)
  Definition cb_physical (ti : bool) (b n : Z) : option (list op) := bind (get_bc b n) (fun bc => Some [Physical (Loc b n) b n bc ti]).

  (** fclaw2d_regrid.c:337-389 cb_set_neighbor_types, fclaw2d_patch.c:975-1034 fclaw2d_patch_neighbors_set,
      fclaw2d_patch_on_coarsefine_interface *)
  Definition on_interface (b n : Z) : option bool :=
    let differs r := match r with HALFSIZE | DOUBLESIZE => true | _ => false end in
    bind (mapM (fun f => bind (face_neighbors D2 dom b n f) (fun a => Some (differs (fa_rel a)))) (zrange 0 4)) (fun fs =>
    bind (mapM (fun c => bind (corner_neighbors D2 dom b n c) (fun a => Some (differs (ca_rel a)))) (zrange 0 4)) (fun cs =>
    Some (existsb (fun x => x) fs || existsb (fun x => x) cs))).

  (** * fclaw2d_ghost_fill.c *)
  Inductive mode := GHOST_ONLY | INTERIOR_ONLY | ALL.
  (** 121-141 cb_parallel_wrap *)
  Definition parallel_wrap (m : mode) (cb : Z -> Z -> option (list op)) (b n : Z) : option (list op) :=
    let on_boundary := v_on_boundary v b n in
    if match m with GHOST_ONLY => on_boundary | INTERIOR_ONLY => negb on_boundary | ALL => true end then cb b n else Some [].
  (** 101-115 cb_interface_wrap *)
  Definition interface_wrap (m : mode) (cb : Z -> Z -> option (list op)) (b n : Z) : option (list op) :=
    bind (on_interface b n) (fun i => if i then parallel_wrap m cb b n else Some []).

  (** fclaw2d_global_iterate_level *)
  Definition iterate_level (level : Z) (cb : Z -> Z -> option (list op)) : option (list op) :=
    bind (mapM (fun x => cb (fst x) (snd x)) (v_level v level)) (fun l => Some (concat l)).
  Definition andthen (x y : option (list op)) : option (list op) := bind x (fun l => bind y (fun l' => Some (l ++ l'))).

  (** 144-168 copy2ghost *)
  Definition copy2ghost (level : Z) (ti par : bool) (m : mode) : option (list op) :=
    let e := mkE COPY IS_COARSE par ti in
    andthen (iterate_level level (parallel_wrap m (cb_face_fill e))) (iterate_level level (parallel_wrap m (cb_corner_fill e))).
  (** 171-223 average2ghost *)
  Definition average2ghost (coarse : Z) (ti par : bool) (m : mode) : option (list op) :=
    let e := mkE AVERAGE IS_COARSE par ti in
    andthen (iterate_level coarse (interface_wrap m (cb_face_fill e)))
   (andthen (iterate_level coarse (interface_wrap m (cb_corner_fill e)))
            (if par then iterate_level (coarse + 1) (interface_wrap m (cb_face_fill (mkE AVERAGE IS_FINE par ti))) else Some [])).
  (** 225-282 interpolate2ghost *)
  Definition interpolate2ghost (coarse : Z) (ti par : bool) (m : mode) : option (list op) :=
    let e := mkE INTERPOLATE IS_COARSE par ti in
    let e' := mkE INTERPOLATE IS_FINE par ti in
    andthen (iterate_level coarse (interface_wrap m (cb_face_fill e)))
   (andthen (iterate_level coarse (interface_wrap m (cb_corner_fill e)))
   (andthen (iterate_level (coarse + 1) (interface_wrap m (cb_face_fill e')))
            (iterate_level (coarse + 1) (interface_wrap m (cb_corner_fill e'))))).
  (** 285-304 setphysical *)
  Definition setphysical (level : Z) (ti : bool) (m : mode) : option (list op) := iterate_level level (parallel_wrap m (cb_physical ti)).

  (** for (level = hi; level >= lo; level--), then the time interpolated level lo - 1 *)
  Definition down (lo hi : Z) : list Z := rev (zrange lo (hi + 1)).
  Definition levels (lo hi : Z) (ti : bool) (f : Z -> bool -> option (list op)) : option (list op) :=
    andthen (bind (mapM (fun l => f l false) (down lo hi)) (fun l => Some (concat l))) (if ti then f (lo - 1) true else Some []).
  (** 341-366 copy_samelevel, 372-401 average_fine2coarse_ghost, 403-430 interpolate_coarse2fine_ghost, 433-460 fill_physical_ghost *)
  Definition copy_samelevel (lo hi : Z) (ti par : bool) (m : mode) := levels lo hi ti (fun l t => copy2ghost l t par m).
  Definition average_fine2coarse (lo hi : Z) (ti par : bool) (m : mode) := levels lo hi ti (fun l t => average2ghost l t par m).
  Definition interpolate_coarse2fine (lo hi : Z) (ti par : bool) (m : mode) := levels lo hi ti (fun l t => interpolate2ghost l t par m).
  Definition fill_physical (lo hi : Z) (ti : bool) (m : mode) := levels lo hi ti (fun l t => setphysical l t m).

  (** fclaw2d_face_neighbors.c:454-581 fclaw2d_face_neighbor_ghost, the body of the loops over ghosts and faces.
      fclaw2d_domain_indirect_face_neighbors may return BOUNDARY with the neighbors of a HALFSIZE face absent. *)
  Definition neighbor_ghost_at (minlevel : Z) (ti : bool) (i level iface : Z) : option (list op) :=
    bind (indirect_face_neighbors D2 dom (v_indirect v) i iface) (fun a =>
    let this := Gho i in
    let use_ti := ti && (level =? minlevel - 1) in
    let tr := if v_block_face v this iface then Inter iface (fa_face a) else Intra in
    match fa_rel a with
    | SAMESIZE => bind (zget (fa_patch a) 0) (fun p => Some [CopyFace this (Gho p) iface use_ti (face_data tr this (Gho p))])
    | HALFSIZE =>
        bind (mapM (fun igrid => bind (zget (fa_patch a) igrid) (fun p =>
          Some (if negb (p =? -1) then [AvgFace this (Gho p) (iface / 2) iface igrid use_ti (face_data tr this (Gho p))] else []))) (zrange 0 2))
        (fun l => Some (concat l))
    | _ => Some []
    end).
  Definition face_neighbor_ghost (minlevel : Z) (ti : bool) : option (list op) :=
    let min_interp_level := if ti then minlevel - 1 else minlevel in
    bind (mapM (fun i => bind (zget (ghosts (dmesh dom)) i) (fun g =>
      if g_level g <? min_interp_level then Some [] else
      bind (mapM (neighbor_ghost_at minlevel ti i (g_level g)) (zrange 0 4)) (fun l => Some (concat l)))) (zrange 0 (num_ghost_patches dom)))
    (fun l => Some (concat l)).

  (** 466-608 fclaw2d_ghost_update_nonasync and 611-830 fclaw2d_ghost_update_async: what is done before the ghost patches are packed
      and sent, between sending and receiving, and after they are received and unpacked *)
  Definition before_send (minlevel maxlevel : Z) (ti : bool) : option (list op) :=
    let mincoarse := minlevel in let maxcoarse := maxlevel - 1 in
    andthen (average_fine2coarse mincoarse maxcoarse ti false GHOST_ONLY)
   (andthen (copy_samelevel minlevel maxlevel ti false GHOST_ONLY)
            (fill_physical mincoarse maxcoarse ti GHOST_ONLY)).
  Definition while_sending (async : bool) (minlevel maxlevel : Z) (ti : bool) : option (list op) :=
    if negb async then Some [] else
    let mincoarse := minlevel in let maxcoarse := maxlevel - 1 in
    let minfine := mincoarse + 1 in let maxfine := maxlevel in
    andthen (average_fine2coarse mincoarse maxcoarse ti false INTERIOR_ONLY)
   (andthen (copy_samelevel minlevel maxlevel ti false INTERIOR_ONLY)
   (andthen (fill_physical mincoarse maxcoarse ti INTERIOR_ONLY)
   (andthen (interpolate_coarse2fine mincoarse maxcoarse ti false INTERIOR_ONLY)
            (fill_physical minfine maxfine ti INTERIOR_ONLY)))).
  Definition after_receive (async : bool) (minlevel maxlevel : Z) (ti : bool) : option (list op) :=
    let mincoarse := minlevel in let maxcoarse := maxlevel - 1 in
    let m := if async then GHOST_ONLY else ALL in
    andthen (face_neighbor_ghost minlevel ti)
   (andthen (average_fine2coarse mincoarse maxcoarse ti true m)
   (andthen (copy_samelevel minlevel maxlevel ti true m)
   (andthen (fill_physical minlevel maxlevel ti m)
   (andthen (interpolate_coarse2fine mincoarse maxcoarse ti true m)
            (fill_physical minlevel maxlevel ti ALL))))).
End Fill.
