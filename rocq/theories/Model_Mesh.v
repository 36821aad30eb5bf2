(** Neighbor queries: /repo/src/forestclaw2d.c, 2D and 3D (forestclaw3d.c includes the same file).

    The p4est mesh and ghost structures (external) are given by their arrays.  Reading an array out of
    its bounds and a failing FCLAW_ASSERT are [None]; the assertions of indirect_end and of
    indirect_face_neighbors on the range of the decoded ghost index are left out. *)
From Coq Require Import ZArith List Bool Lia.
From Verif Require Import Model_Face.
Import ListNotations.
Open Scope Z_scope.

Definition bind {A B} (x : option A) (f : A -> option B) : option B := match x with Some a => f a | None => None end.
Definition zget {A} (l : list A) (i : Z) : option A := if i <? 0 then None else nth_error l (Z.to_nat i).
Definition check {A} (b : bool) (x : option A) : option A := if b then x else None.
Fixpoint mapM {A B} (f : A -> option B) (l : list A) : option (list B) :=
  match l with [] => Some [] | x :: l => bind (f x) (fun y => bind (mapM f l) (fun ys => Some (y :: ys))) end.
(** lo, lo+1, ..., hi-1 *)
Definition zrange (lo hi : Z) : list Z := map (fun k => lo + Z.of_nat k) (seq 0 (Z.to_nat (hi - lo))).

Definition num_corners (d : dim) : Z := match d with D2 => 4 | D3 => 8 end.    (* P4EST_CHILDREN *)
Definition num_orientations (d : dim) : Z := num_faces d * num_half d.         (* forestclaw2d.c:109-113 *)

(** p4est_ghost_t: a ghost quadrant with p.piggy3.which_tree, p.piggy3.local_num, level *)
Record ghostq := mkG { g_tree : Z; g_local : Z; g_level : Z }.
(** p4est_mesh_t, p4est_ghost_t *)
Record mesh := mkMesh {
  local_num_quadrants : Z; ghost_num_quadrants : Z;
  quad_to_tree : list Z; ghost_to_proc : list Z;
  quad_to_quad : list Z; quad_to_face : list Z; quad_to_half : list (list Z);
  quad_to_corner : list Z; local_num_corners : Z;
  corner_offset : list Z; corner_quad : list Z; corner_corner : list Z;
  ghosts : list ghostq; proc_offsets : list Z }.
(** fclaw2d_block_t and the tree of the same number; [b_exchange]: numbers of the exchange patches *)
Record block := mkB { b_offset : Z; b_before : Z; b_num : Z; b_boundary : list bool; b_levels : list Z; b_exchange : list Z }.
Record domain := mkDom {
  mpirank : Z; mpisize : Z; num_ghost_patches : Z; num_exchange_patches : Z;
  blocks : list block; first_tree : Z; last_tree : Z; dmesh : mesh }.

Inductive relation := BOUNDARY | HALFSIZE | SAMESIZE | DOUBLESIZE.

Section Dim.
  Variable d : dim.
  Variable dom : domain.
  Notation mesh := (dmesh dom).

  (** forestclaw2d.c:402-440 fclaw2d_patch_encode_neighbor *)
  Definition encode_neighbor (qtq : Z) : option (Z * Z * Z) :=
    check ((0 <=? qtq) && (qtq <? local_num_quadrants mesh + ghost_num_quadrants mesh)) (
    if qtq <? local_num_quadrants mesh then
      bind (zget (quad_to_tree mesh) qtq) (fun blockno =>
      check ((first_tree dom <=? blockno) && (blockno <=? last_tree dom)) (
      bind (zget (blocks dom) blockno) (fun block =>
      let qtq := qtq - b_before block in
      check ((0 <=? qtq) && (qtq <? b_num block)) (Some (mpirank dom, blockno, qtq)))))
    else
      let qtq := qtq - local_num_quadrants mesh in
      bind (zget (ghost_to_proc mesh) qtq) (fun proc =>
      bind (zget (ghosts mesh) qtq) (fun gq =>
      check ((0 <=? g_tree gq) && (g_tree gq <? Z.of_nat (length (blocks dom)))) (Some (proc, g_tree gq, qtq))))).

  (** the common first part: local number of a patch *)
  Definition totalleaf (blockno patchno : Z) : option Z :=
    check ((first_tree dom <=? blockno) && (blockno <=? last_tree dom)) (
    bind (zget (blocks dom) blockno) (fun block =>
    check ((0 <=? patchno) && (patchno <? b_num block)) (
    let t := b_offset block + patchno in
    check ((0 <=? t) && (t <? local_num_quadrants mesh)) (Some t)))).

  Record face_answer := mkFA { fa_rel : relation; fa_proc : list Z; fa_block : Z; fa_patch : list Z; fa_face : Z }.

  (** forestclaw2d.c:442-541 fclaw2d_patch_face_neighbors; the int8_t entries of quad_to_face
      lie between -24 and 119 *)
  Definition face_neighbors (blockno patchno faceno : Z) : option face_answer :=
    let H := num_half d in
    let no := num_orientations d in
    let rest : list Z := repeat (-1) (Z.to_nat (H - 1)) in
    check (num_ghost_patches dom =? ghost_num_quadrants mesh) (
    bind (totalleaf blockno patchno) (fun leaf =>
    check ((0 <=? faceno) && (faceno <? num_faces d)) (
    bind (zget (blocks dom) blockno) (fun block =>
    bind (zget (quad_to_quad mesh) (num_faces d * leaf + faceno)) (fun qtq =>
    bind (zget (quad_to_face mesh) (num_faces d * leaf + faceno)) (fun qtf =>
    if (qtq =? leaf) && (qtf =? faceno) then
      bind (zget (b_boundary block) faceno) (fun is_boundary =>
      check is_boundary (Some (mkFA BOUNDARY (mpirank dom :: rest) blockno (patchno :: rest) faceno)))
    else if qtf <? 0 then
      bind (zget (quad_to_half mesh) qtq) (fun qth =>
      bind (mapM (fun k => bind (zget qth k) encode_neighbor) (zrange 0 H)) (fun n =>
      let hblockno := map (fun x => snd (fst x)) n in
      check (forallb (fun k => match zget hblockno (k - 1), zget hblockno k with Some x, Some y => x =? y | _, _ => false end) (zrange 1 H)) (
      bind (zget hblockno 0) (fun b0 =>
      let rfaceno := qtf + no in
      check (0 <=? rfaceno) (
      Some (mkFA HALFSIZE (map (fun x => fst (fst x)) n) b0 (map (fun x => snd x) n) rfaceno))))))
    else
      bind (encode_neighbor qtq) (fun '(proc, rblockno, rpatchno) =>
      if qtf <? no then
        Some (mkFA SAMESIZE (proc :: rest) rblockno (rpatchno :: rest) qtf)
      else
        let sub := Z.quot qtf no - 1 in
        check ((0 <=? sub) && (sub <? H)) (
        Some (mkFA DOUBLESIZE (proc :: sub :: tl rest) rblockno (rpatchno :: rest) (Z.rem qtf no)))))))))).

  (** forestclaw2d.c:358-400 fclaw2d_patch_normal_match *)
  Definition normal_out (f : Z) : Z := f mod 2.       (* { 0, 1, 0, 1, 0, 1 } *)
  Definition normal_match (blockno patchno faceno : Z) : option Z :=
    let no := num_orientations d in
    bind (totalleaf blockno patchno) (fun leaf =>
    check ((0 <=? faceno) && (faceno <? num_faces d)) (
    bind (zget (quad_to_face mesh) (num_faces d * leaf + faceno)) (fun qtfi =>
    check ((- no <=? qtfi) && (qtfi <? no * (1 + num_half d))) (
    check (Z.lxor (normal_out faceno) (normal_out (Z.rem (qtfi + no) (num_faces d))) =? Z.land (faceno + qtfi) 1) (
    Some (Z.land (faceno + qtfi) 1)))))).

  (** forestclaw2d.c:296-348 fclaw2d_patch_boundary_type *)
  Definition boundary_type (blockno patchno : Z) : option (list Z * bool) :=
    bind (totalleaf blockno patchno) (fun leaf =>
    bind (zget (blocks dom) blockno) (fun block =>
    bind (mapM (fun faceno =>
      bind (zget (quad_to_quad mesh) (num_faces d * leaf + faceno)) (fun qtq =>
      bind (zget (quad_to_face mesh) (num_faces d * leaf + faceno)) (fun qtf =>
      if (qtq =? leaf) && (qtf =? faceno) then
        bind (zget (b_boundary block) faceno) (fun is_boundary => check is_boundary (Some 1))
      else Some 0))) (zrange 0 (num_faces d))) (fun boundaries =>
    Some (boundaries, existsb (fun x => x =? 1) boundaries)))).

  (** result of a corner query; without a neighbor, rproc and rpatchno are not written *)
  Record corner_answer := mkCA { ca_rel : relation; ca_proc : option Z; ca_block : Z; ca_patch : option Z; ca_corner : Z }.

  (** forestclaw2d.c:985-1115 fclaw2d_patch_corner_neighbors *)
  Definition corner_neighbors (blockno patchno cornerno : Z) : option corner_answer :=
    let nl := local_num_quadrants mesh in
    let ng := ghost_num_quadrants mesh in
    check (num_ghost_patches dom =? ng) (
    check ((first_tree dom <=? blockno) && (blockno <=? last_tree dom)) (
    bind (zget (blocks dom) blockno) (fun block =>
    check ((0 <=? patchno) && (patchno <? b_num block)) (
    check ((0 <=? cornerno) && (cornerno <? num_corners d)) (
    let local_num := b_before block + patchno in
    bind (zget (quad_to_corner mesh) (num_corners d * local_num + cornerno)) (fun qid =>
    bind (if 0 <=? qid then
            if nl + ng <=? qid then
              let cornerid := qid - (nl + ng) in
              check (cornerid <? local_num_corners mesh) (
              bind (zget (corner_offset mesh) cornerid) (fun cstart =>
              bind (zget (corner_offset mesh) (cornerid + 1)) (fun cend =>
              if cstart + 1 <? cend then Some (-1, 0)
              else
                check (cstart + 1 =? cend) (
                bind (zget (corner_quad mesh) cstart) (fun q =>
                bind (zget (corner_corner mesh) cstart) (fun c =>
                check ((0 <=? c) && (c <? num_corners d)) (Some (q, c))))))))
            else Some (qid, Z.lxor cornerno (num_corners d - 1))
          else Some (qid, 0)) (fun '(qid, rcorner) =>
    if qid <? 0 then Some (mkCA BOUNDARY None blockno None (-1))
    else
      bind (if qid <? nl then
              bind (zget (quad_to_tree mesh) qid) (fun rblockno =>
              bind (zget (blocks dom) rblockno) (fun rtree =>
              check (b_offset rtree <=? qid) (
              bind (zget (b_levels rtree) (qid - b_offset rtree)) (fun level =>
              Some (mpirank dom, rblockno, qid - b_offset rtree, level)))))
            else
              let qid := qid - nl in
              check (qid <? ng) (
              bind (zget (ghost_to_proc mesh) qid) (fun rproc =>
              check (negb (rproc =? mpirank dom)) (
              bind (zget (ghosts mesh) qid) (fun q =>
              Some (rproc, g_tree q, qid, g_level q)))))) (fun '(rproc, rblockno, rpatchno, level) =>
      bind (zget (b_levels block) patchno) (fun my_level =>
      bind (match level - my_level with -1 => Some DOUBLESIZE | 0 => Some SAMESIZE | 1 => Some HALFSIZE | _ => None end) (fun rel =>
      check (if rproc =? mpirank dom then
               match zget (blocks dom) rblockno with Some rb => (0 <=? rpatchno) && (rpatchno <? b_num rb) | None => false end
             else (0 <=? rpatchno) && (rpatchno <? ng)) (
      Some (mkCA rel (Some rproc) rblockno (Some rpatchno) rcorner)))))))))))).

  (* ------------------------------------------------------ indirect neighbors *)

  (** forestclaw2d.c:1832-1852 indirect_encode *)
  Definition indirect_encode (rproc rpatchno : Z) : option (Z * Z) :=
    check ((0 <=? rproc) && (rproc <? mpisize dom)) (
    if rproc =? mpirank dom then Some (-1, -1)
    else
      bind (zget (proc_offsets mesh) rproc) (fun o0 =>
      bind (zget (proc_offsets mesh) (rproc + 1)) (fun o1 =>
      check ((o0 <=? rpatchno) && (rpatchno <? o1)) (
      bind (zget (ghosts mesh) rpatchno) (fun g =>
      check (0 <=? g_local g) (Some (rproc, g_local g))))))).

  Definition face_info_size : Z := 2 + 2 * num_half d.
  Definition corner_info_size : Z := 4.

  (** forestclaw2d.c:1854-1882 indirect_match_face, indirect_match_corner: the record at the
      beginning of an array of int: rproc[HALF], rblockno, rpatchno[HALF], rfaceno *)
  Definition match_face (pi : list Z) : option (list Z * Z * list Z * Z) :=
    let h := Z.to_nat (num_half d) in
    check (face_info_size <=? Z.of_nat (length pi)) (
    bind (nth_error pi h) (fun rblockno => bind (nth_error pi (h + 1 + h)) (fun rfaceno =>
    Some (firstn h pi, rblockno, firstn h (skipn (h + 1) pi), rfaceno)))).
  Definition put_face (rproc : list Z) (rblockno : Z) (rpatchno : list Z) (rfaceno : Z) : list Z :=
    rproc ++ rblockno :: rpatchno ++ [rfaceno].
  Definition match_corner (pi : list Z) : option (Z * Z * Z * Z) :=
    match pi with rproc :: rblockno :: rpatchno :: rcornerno :: _ => Some (rproc, rblockno, rpatchno, rcornerno) | _ => None end.

  Definition HALF_FLAG : Z := Z.shiftl 1 26.
  Definition DOUBLE_FLAG : Z := Z.shiftl 1 27.
  Definition FLAGS : Z := Z.shiftl 3 26.

  (** forestclaw2d.c:1925-1953, one face of an exchange patch *)
  Definition begin_face (nb np face : Z) : option (list Z) :=
    bind (face_neighbors nb np face) (fun a =>
    bind (zget (fa_proc a) 0) (fun p0 => bind (zget (fa_patch a) 0) (fun n0 =>
    bind (indirect_encode p0 n0) (fun '(p0, n0) =>
    match fa_rel a with
    | HALFSIZE =>
        bind (mapM (fun sf => bind (zget (fa_proc a) sf) (fun p => bind (zget (fa_patch a) sf) (fun n => indirect_encode p n)))
                   (zrange 1 (num_half d))) (fun l =>
        Some (put_face (p0 :: map fst l) (fa_block a) (n0 :: map snd l) (Z.lor (fa_face a) HALF_FLAG)))
    | DOUBLESIZE => Some (put_face (p0 :: tl (fa_proc a)) (fa_block a) (n0 :: tl (fa_patch a)) (Z.lor (fa_face a) DOUBLE_FLAG))
    | _ => Some (put_face (p0 :: tl (fa_proc a)) (fa_block a) (n0 :: tl (fa_patch a)) (fa_face a))
    end)))).

  (** forestclaw2d.c:1956-1985, one corner *)
  Definition begin_corner (nb np corner : Z) : option (list Z) :=
    bind (corner_neighbors nb np corner) (fun a =>
    match ca_rel a with
    | BOUNDARY => Some [-1; ca_block a; -1; corner]
    | rel =>
        bind (ca_proc a) (fun p => bind (ca_patch a) (fun n =>
        bind (indirect_encode p n) (fun '(p, n) =>
        Some [p; ca_block a; n;
              match rel with HALFSIZE => Z.lor (ca_corner a) HALF_FLAG | DOUBLESIZE => Z.lor (ca_corner a) DOUBLE_FLAG | _ => ca_corner a end])))
    end).

  (** forestclaw2d.c:1884-1998 fclaw2d_domain_indirect_begin: the data sent for each exchange patch, in
      the order of the exchange patches *)
  Definition info_size : Z := num_faces d * face_info_size + num_corners d * corner_info_size.
  Definition indirect_begin : option (list (list Z)) :=
    bind (mapM (fun nb =>
      bind (zget (blocks dom) nb) (fun block =>
      mapM (fun np =>
        check ((0 <=? np) && (np <? b_num block)) (
        bind (mapM (begin_face nb np) (zrange 0 (num_faces d))) (fun fs =>
        bind (mapM (begin_corner nb np) (zrange 0 (num_corners d))) (fun cs =>
        Some (concat fs ++ concat cs))))) (b_exchange block)))
      (zrange 0 (Z.of_nat (length (blocks dom))))) (fun l =>
    let all := concat l in
    check (Z.of_nat (length (concat all)) =? Z.of_nat (length all) * info_size) (
    check (Z.of_nat (length all) =? num_exchange_patches dom) (Some all))).

  (** forestclaw2d.c:2003-2008 pli_make_key *)
  Definition make_key (p rpatchno : Z) : option Z := check ((0 <=? p) && (0 <=? rpatchno)) (Some (Z.shiftl p 32 + rpatchno)).
  (** sc_hash_lookup and forestclaw2d.c:2034-2038; the result of pli_make_ng is the position among the keys *)
  Fixpoint lookup (keys : list Z) (k : Z) (i : Z) : option Z :=
    match keys with [] => None | k' :: keys => if k' =? k then Some i else lookup keys k (i + 1) end.

  (** forestclaw2d.c:2109-2114: the nested loops over processes and their ghosts; [offs] are the
      entries of proc_offsets from p + 1 on *)
  Fixpoint walk (offs : list Z) (p ng : Z) : list (Z * Z) :=
    match offs with
    | [] => []
    | o :: offs => map (fun k => (p, k)) (zrange ng o) ++ walk offs (p + 1) (Z.max ng o)
    end.

  (** forestclaw2d.c:2109-2127: the keys; the local numbers of one process increase and insertion must
      not find the key; [prev]: process and local number of the ghost before *)
  Fixpoint add_keys (l : list (Z * Z)) (prev : Z * Z) (keys : list Z) : option (list Z) :=
    match l with
    | [] => Some keys
    | (p, ng) :: l =>
        bind (zget (ghosts mesh) ng) (fun g =>
        check ((if fst prev =? p then snd prev else -1) <? g_local g) (
        bind (make_key p (g_local g)) (fun k =>
        match lookup keys k 0 with Some _ => None | None => add_keys l (p, g_local g) (keys ++ [k]) end)))
    end.

  (** forestclaw2d.c:2040-2074 indirect_decode *)
  Definition indirect_decode (keys : list Z) (rproc rpatchno : Z) : option (Z * Z * bool) :=
    let '(rproc, rpatchno) := if rproc =? mpirank dom then (-1, -1) else (rproc, rpatchno) in
    if negb (rproc =? -1) then
      check ((0 <=? rproc) && (rproc <? mpisize dom)) (
      bind (make_key rproc rpatchno) (fun akey =>
      match lookup keys akey 0 with
      | Some ng => Some (rproc, ng, true)
      | None => Some (-1, -1, false)
      end))
    else check (rpatchno =? -1) (Some (rproc, rpatchno, false)).

  (** forestclaw2d.c:2145-2190, one face of a ghost of process p *)
  Definition end_face (keys : list Z) (p : Z) (pi : list Z) : option (list Z) :=
    bind (match_face pi) (fun '(rproc, rblockno, rpatchno, rfaceno) =>
    bind (zget rproc 0) (fun p0 => bind (zget rpatchno 0) (fun n0 =>
    check (negb (p0 =? p)) (
    bind (indirect_decode keys p0 n0) (fun '(p0, n0, good) =>
    bind (if negb (Z.land rfaceno HALF_FLAG =? 0) then
            bind (mapM (fun sf => bind (zget rproc sf) (fun q => bind (zget rpatchno sf) (fun n =>
                     check (negb (q =? p)) (indirect_decode keys q n)))) (zrange 1 (num_half d))) (fun l =>
            Some (p0 :: map (fun x => fst (fst x)) l, n0 :: map (fun x => snd (fst x)) l, good || existsb snd l))
          else Some (p0 :: tl rproc, n0 :: tl rpatchno, good)) (fun '(rproc, rpatchno, good) =>
    if (good : bool) then Some (put_face rproc rblockno rpatchno rfaceno)
    else
      let rest := repeat (-1) (Z.to_nat (num_half d - 1)) in
      check (p0 =? -1) (check (n0 =? -1) (
      Some (put_face (p0 :: rest) rblockno (n0 :: rest) (Z.ldiff rfaceno FLAGS)))))))))).

  (** forestclaw2d.c:2193-2216, one corner *)
  Definition end_corner (keys : list Z) (p : Z) (pi : list Z) : option (list Z) :=
    bind (match_corner pi) (fun '(rproc, rblockno, rpatchno, rcornerno) =>
    check (negb (rproc =? p)) (
    bind (indirect_decode keys rproc rpatchno) (fun '(rproc, rpatchno, good) =>
    Some [rproc; rblockno; rpatchno; if (good : bool) then rcornerno else Z.ldiff rcornerno FLAGS]))).

  (** the loops over faces and corners: [pi] advances by the size of the records *)
  Definition end_ghost (keys : list Z) (p : Z) (pi : list Z) : option (list Z) :=
    let fs := Z.to_nat face_info_size in
    let skip := Z.to_nat (num_faces d * face_info_size) in
    bind (mapM (fun f => end_face keys p (skipn (Z.to_nat f * fs) pi)) (zrange 0 (num_faces d))) (fun l =>
    bind (mapM (fun c => end_corner keys p (skipn (skip + Z.to_nat c * 4) pi)) (zrange 0 (num_corners d))) (fun l' =>
    Some (concat l ++ concat l'))).

  (** forestclaw2d.c:2076-2223 fclaw2d_domain_indirect_end; [received ng]: the data that arrived for ghost
      patch ng *)
  Definition indirect_end (received : Z -> option (list Z)) : option (list (list Z)) :=
    bind (match proc_offsets mesh with [] => None | _ :: offs => Some (walk offs 0 0) end) (fun w =>
    bind (add_keys w (-1, -1) []) (fun keys =>
    check (Z.of_nat (length keys) =? num_ghost_patches dom) (
    mapM (fun '(p, ng) => bind (received ng) (end_ghost keys p)) w))).

  (** forestclaw2d.c:2225-2312 fclaw2d_domain_indirect_face_neighbors *)
  Definition indirect_face_neighbors (data : list (list Z)) (ghostno faceno : Z) : option face_answer :=
    check ((0 <=? ghostno) && (ghostno <? num_ghost_patches dom)) (
    check ((0 <=? faceno) && (faceno <? num_faces d)) (
    bind (zget data ghostno) (fun gd =>
    bind (match_face (skipn (Z.to_nat (face_info_size * faceno)) gd)) (fun '(grproc, grblockno, grpatchno, grfaceno) =>
    check ((0 <=? grblockno) && (grblockno <? Z.of_nat (length (blocks dom)))) (
    let rfaceno := Z.ldiff grfaceno FLAGS in
    check ((0 <=? rfaceno) && (rfaceno <? num_faces d * num_half d)) (
    bind (zget grproc 0) (fun p0 =>
    if Z.land grfaceno FLAGS =? 0 then
      if p0 =? -1 then
        check (forallb (fun x => x =? -1) grproc && forallb (fun x => x =? -1) grpatchno) (
        Some (mkFA BOUNDARY (map (fun _ => -1) grproc) grblockno (map (fun _ => -1) grpatchno) rfaceno))
      else Some (mkFA SAMESIZE grproc grblockno grpatchno rfaceno)
    else if negb (Z.land grfaceno HALF_FLAG =? 0) then
      check (Z.land grfaceno DOUBLE_FLAG =? 0) (Some (mkFA HALFSIZE grproc grblockno grpatchno rfaceno))
    else
      check (negb (Z.land grfaceno DOUBLE_FLAG =? 0)) (Some (mkFA DOUBLESIZE grproc grblockno grpatchno rfaceno))))))))).

  (** forestclaw2d.c:2314-2385 fclaw2d_domain_indirect_corner_neighbor *)
  Definition indirect_corner_neighbor (data : list (list Z)) (ghostno cornerno : Z) : option corner_answer :=
    check ((0 <=? ghostno) && (ghostno <? num_ghost_patches dom)) (
    check ((0 <=? cornerno) && (cornerno <? num_corners d)) (
    bind (zget data ghostno) (fun gd =>
    bind (match_corner (skipn (Z.to_nat (face_info_size * num_faces d + corner_info_size * cornerno)) gd)) (fun '(grproc, grblockno, grpatchno, grcornerno) =>
    check ((0 <=? grblockno) && (grblockno <? Z.of_nat (length (blocks dom)))) (
    let rcornerno := Z.ldiff grcornerno FLAGS in
    check ((0 <=? rcornerno) && (rcornerno <? num_corners d)) (
    if Z.land grcornerno FLAGS =? 0 then
      if grproc =? -1 then
        check (grpatchno =? -1) (Some (mkCA BOUNDARY (Some (-1)) grblockno (Some (-1)) rcornerno))
      else Some (mkCA SAMESIZE (Some grproc) grblockno (Some grpatchno) rcornerno)
    else if negb (Z.land grcornerno HALF_FLAG =? 0) then
      check (Z.land grcornerno DOUBLE_FLAG =? 0) (Some (mkCA HALFSIZE (Some grproc) grblockno (Some grpatchno) rcornerno))
    else
      check (negb (Z.land grcornerno DOUBLE_FLAG =? 0)) (Some (mkCA DOUBLESIZE (Some grproc) grblockno (Some grpatchno) rcornerno)))))))).
End Dim.
