(** Interpolation of coarse data to the ghost cells of a fine neighbor, and the routines that fill the corner
    regions (2D, clawpack 4.6 ordering).

    src/patches/clawpatch/fort_4.6/fclaw2d_clawpatch46_interpolate.f:30-314, _copy.f:95-133, _average.f:186-272,
    src/patches/clawpatch/fclaw2d_clawpatch_utils.f:76-117 and 214-225,
    src/patches/clawpatch/fclaw2d_clawpatch_transform.c:128-193.

    Simplifications: those of Model_Grid. *)
From Coq Require Import ZArith QArith Qminmax Qabs List Lia Bool.
From Verif Require Import Base_Float Model_Face Model_Grid.
Import ListNotations.
Open Scope Z_scope.

(** fclaw2d_patch.h struct fclaw2d_patch_transform_data, with the fields used at corners *)
Record cdata := mkC { face_data : tdata; block_iface : Z; icorner : Z; is_block_corner : bool }.

Section Corner.
  Variable rnd : Q -> Q.
  Variable d : dims.

  (** mi(1), mj(1): the first of the four fine cells *)
  Definition first_cell (ij : Z -> option (Z * Z)) : option (Z * Z) := ij 0.

  (** fclaw2d_clawpatch_utils.f:76-117 build_transform: a(2,2), f(2) as (a11, a12, a21, a22, f1, f2) *)
  Definition build_transform (t : tdata) : option (Z * Z * Z * Z * Z * Z) :=
    bind (bind (t_face_half rnd d t 0 0) first_cell) (fun '(f1, f2) =>
    bind (bind (t_face_half rnd d t 1 0) first_cell) (fun '(p1, p2) =>
    bind (bind (t_face_half rnd d t 0 1) first_cell) (fun '(q1, q2) =>
    Some (p1 - f1, q1 - f1, p2 - f2, q2 - f2, f1, f2)))).

  (** fclaw2d_clawpatch_utils.f:214-225 is_valid_interp *)
  Definition is_valid_interp (i j : Z) : bool :=
    (1 - mbc d <=? i) && (i <=? mx d + mbc d) && (1 - mbc d <=? j) && (j <=? my d + mbc d).

  (** fclaw2d_clawpatch46_interpolate.f:71-88 (and 238-256): df(:,m), shiftx(m), shifty(m); m counts with ii
      fastest, integer division truncates *)
  Definition df (A : Z * Z * Z * Z * Z * Z) (refratio m : Z) : Z * Z :=
    let '(a11, a12, a21, a22, _, _) := A in
    let ii := Z.rem m 2 in
    let jj := Z.quot m 2 in
    (Z.quot (a11 * ii + a12 * jj) refratio, Z.quot (a21 * ii + a22 * jj) refratio).
  Definition shiftx (m : Z) : Q := ((inject_Z (Z.rem m 2) - (1 # 2)) / 2)%Q.
  Definition shifty (m : Z) : Q := ((inject_Z (Z.quot m 2) - (1 # 2)) / 2)%Q.

  (** fclaw2d_clawpatch46_interpolate.f:120-137, 174-190 and 288-308: the four fine cells of one coarse cell; c0 is
      (i2(0), j2(0)) *)
  Definition interp_four (qcoarse : arr) (A : Z * Z * Z * Z * Z * Z) (refratio : Z) (c0 : Z * Z) (ic jc mq : Z)
      (q : arr) : option arr :=
    bind (rd d qcoarse (ic, jc, mq)) (fun qc =>
    bind (rd d qcoarse (ic - 1, jc, mq)) (fun qw =>
    bind (rd d qcoarse (ic + 1, jc, mq)) (fun qe =>
    bind (rd d qcoarse (ic, jc - 1, mq)) (fun qs =>
    bind (rd d qcoarse (ic, jc + 1, mq)) (fun qn =>
    let gradx := compute_slopes (qc - qw) (qe - qc) in
    let grady := compute_slopes (qc - qs) (qn - qc) in
    loop 0 3 (fun m q =>
      let iff := fst c0 + fst (df A refratio m) in
      let jff := snd c0 + snd (df A refratio m) in
      wr d q (iff, jff, mq) (qc + gradx * shiftx m + grady * shifty m)%Q) q))))).

  (** fclaw2d_clawpatch46_interpolate.f:105-139 and 152-192, one coarse cell at the face *)
  Definition interp_at (qcoarse : arr) (A : Z * Z * Z * Z * Z * Z) (refratio : Z) (t : tdata) (ic jc mq : Z) (q : arr)
      : option arr :=
    bind (t_face_half rnd d t ic jc) (fun ij =>
    bind (ij 0) (fun c0 => bind (ij 1) (fun c1 => bind (ij 2) (fun c2 => bind (ij 3) (fun c3 =>
    let valid (c : Z * Z) := is_valid_interp (fst c) (snd c) in
    if valid c0 && valid c1 && valid c2 && valid c3
    then interp_four qcoarse A refratio c0 ic jc mq q
    else Some q))))).

  (** fclaw2d_clawpatch46_interpolate.f:30-199 interpolate_face; the inner loop of the first branch runs to mx.
      num_neighbors and igrid are not used. *)
  Definition interpolate_face (qcoarse qfine : arr) (idir iface_coarse refratio : Z) (t : tdata) : option arr :=
    if negb (refratio * refratio =? 4) then None else
    bind (build_transform t) (fun A =>
    loop 1 (meqn d) (fun mq =>
      if idir =? 0 then
        loop 1 (Z.quot (mbc d) 2) (fun ibc q =>
          bind (if iface_coarse =? 0 then Some ibc
                else if iface_coarse =? 1 then Some (mx d - ibc + 1) else None) (fun ic =>
          loop 1 (mx d) (fun jc => interp_at qcoarse A refratio t ic jc mq) q))
      else
        loop 1 (Z.quot (mbc d) 2) (fun jbc q =>
          bind (if iface_coarse =? 2 then Some jbc
                else if iface_coarse =? 3 then Some (my d - jbc + 1) else None) (fun jc =>
          loop 1 (mx d) (fun ic => interp_at qcoarse A refratio t ic jc mq) q))) qfine).

  (* ------------------------------------------------------------------ corners *)

  (** fclaw2d_clawpatch_transform.c:128-158 transform_corner *)
  Definition t_corner (c : cdata) (i1 j1 : Z) : option (Z * Z) :=
    let t := face_data c in
    if 0 <=? block_iface c then t_face rnd d t i1 j1
    else if negb (block_iface c =? -1) then None
    else bind (transform_corner rnd D2 (this_patch t) (neighbor_patch t) (icorner c) (is_block_corner c)
                 (mx d) (my d) 0 1 i1 j1 0) (fun '(i, j, _) => Some (i, j)).

  (** fclaw2d_clawpatch_transform.c:160-193 transform_corner_half *)
  Definition t_corner_half (c : cdata) (i1 j1 : Z) : option (Z -> option (Z * Z)) :=
    let t := face_data c in
    if 0 <=? block_iface c then t_face_half rnd d t i1 j1
    else if negb (block_iface c =? -1) then None
    else bind (transform_corner2 rnd D2 (this_patch t) (neighbor_patch t) (icorner c) (is_block_corner c)
                 (mx d) (my d) 0 1 i1 j1 0) (fun outs =>
         Some (fun m => option_map (fun '(_, (i, j, _)) => (i, j))
                          (find (fun '(s, _) => s =? m) outs))).

  (** fclaw2d_clawpatch46_copy.f:95-133 copy_corner *)
  Definition copy_corner (qthis qneighbor : arr) (this_icorner : Z) (c : cdata) : option arr :=
    loop 1 (meqn d) (fun mq => loop 1 (mbc d) (fun ibc => loop 1 (mbc d) (fun jbc q =>
      let '(i1, j1) :=
        if this_icorner =? 0 then (1 - ibc, 1 - jbc)
        else if this_icorner =? 1 then (mx d + ibc, 1 - jbc)
        else if this_icorner =? 2 then (1 - ibc, my d + jbc)
        else (mx d + ibc, my d + jbc) in
      bind (t_corner c i1 j1) (fun '(i2, j2) =>
      bind (rd d qneighbor (i2, j2, mq)) (wr d q (i1, j1, mq)))))) qthis.

  (** fclaw2d_clawpatch46_average.f:241-267, one coarse corner cell; kc = areacoarse(i1,j1) is read but not used
      there and is left out *)
  Definition average_corner_cell (qfine : arr) (areafine : area_t) (manifold : bool)
      (c0 c1 c2 c3 : Z * Z) (i1 j1 mq : Z) (q : arr) : option arr :=
    let cs m := if m =? 0 then c0 else if m =? 1 then c1 else if m =? 2 then c2 else c3 in
    let qf m := rd d qfine (fst (cs m), snd (cs m), mq) in
    let kf m := rd_area d areafine (fst (cs m)) (snd (cs m)) in
    if manifold then
      bind (sum4 (fun m => bind (qf m) (fun x => bind (kf m) (fun k => Some (k * x)%Q)))) (fun s =>
      bind (sum4 kf) (fun af => wr d q (i1, j1, mq) (s / af)%Q))
    else
      bind (sum4 qf) (fun s => wr d q (i1, j1, mq) (s / 4)%Q).

  (** fclaw2d_clawpatch46_average.f:186-272 average_corner; a corner number outside 0..3 leaves i1, j1 unassigned *)
  Definition average_corner (qcoarse qfine : arr) (areafine : area_t) (refratio : Z) (manifold : bool)
      (icorner_coarse : Z) (c : cdata) : option arr :=
    if negb (refratio * refratio =? 4) then None else
    loop 1 (mbc d) (fun ibc => loop 1 (mbc d) (fun jbc q =>
      bind (if icorner_coarse =? 0 then Some (1 - ibc, 1 - jbc)
            else if icorner_coarse =? 1 then Some (mx d + ibc, 1 - jbc)
            else if icorner_coarse =? 2 then Some (1 - ibc, my d + jbc)
            else if icorner_coarse =? 3 then Some (mx d + ibc, my d + jbc)
            else None) (fun '(i1, j1) =>
      bind (t_corner_half c i1 j1) (fun ij =>
      bind (ij 0) (fun c0 => bind (ij 1) (fun c1 => bind (ij 2) (fun c2 => bind (ij 3) (fun c3 =>
      loop 1 (meqn d) (fun mq => average_corner_cell qfine areafine manifold c0 c1 c2 c3 i1 j1 mq) q)))))))) qcoarse.

  (** fclaw2d_clawpatch46_interpolate.f:208-314 interpolate_corner; df divides by 2 *)
  Definition interpolate_corner (qcoarse qfine : arr) (refratio icorner_coarse : Z) (c : cdata) : option arr :=
    if negb (refratio * refratio =? 4) then None else
    bind (build_transform (face_data c)) (fun A =>
    loop 1 (Z.quot (mbc d) 2) (fun ibc => loop 1 (Z.quot (mbc d) 2) (fun jbc q =>
      bind (if icorner_coarse =? 0 then Some (ibc, jbc)
            else if icorner_coarse =? 1 then Some (mx d - ibc + 1, jbc)
            else if icorner_coarse =? 2 then Some (ibc, my d - jbc + 1)
            else if icorner_coarse =? 3 then Some (mx d - ibc + 1, my d - jbc + 1)
            else None) (fun '(ic, jc) =>
      bind (t_corner_half c ic jc) (fun ij =>
      bind (ij 0) (fun c0 =>
      loop 1 (meqn d) (fun mq => interp_four qcoarse A 2 c0 ic jc mq) q))))) qfine).
End Corner.
