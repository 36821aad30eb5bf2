(** Cell data of an extruded patch (3D patches on a 2D mesh of quadtrees; clawpack 4.6 ordering).

    src/patches/clawpatch/fort3_4.6/, src/patches/clawpatch/fclaw3dx_clawpatch_utils.f,
    src/patches/clawpatch/fclaw2d_clawpatch.cpp and fclaw2d_clawpatch_diagnostics.c, compiled with PATCH_DIM = 3.

    The index transformations in x and y are those of the 2D patches: fclaw3dx_clawpatch_transform.c includes
    fclaw2d_clawpatch_transform.c, and fclaw3dx_clawpatch_utils.f repeats build_transform and build_transform_same
    of fclaw2d_clawpatch_utils.f; compute_slopes, is_valid_average and is_valid_interp are the same routines.  They are
    taken from Model_Grid and Model_Corner.

    Simplifications: those of Model_Grid. *)
From Coq Require Import ZArith QArith Qminmax Qabs List Bool.
From Verif Require Import Base_Float Model_Face Model_Grid Model_Corner.
Import ListNotations.
Open Scope Z_scope.

(** integer mx,my,mz,mbc,meqn *)
Record dims3 := mkDims3 { flat : dims; mz : Z }.

(** double precision q(1-mbc:mx+mbc,1-mbc:my+mbc,1-mbc:mz+mbc,meqn); a cell is (i,j,k,mq) *)
Definition cell3 : Type := (Z * Z * Z * Z)%type.
Definition arr3 : Type := cell3 -> option Q.
Definition in_q3 (d : dims3) (c : cell3) : bool :=
  let '(i, j, k, mq) := c in
  let f := flat d in
  (1 - mbc f <=? i) && (i <=? mx f + mbc f) && (1 - mbc f <=? j) && (j <=? my f + mbc f) &&
  (1 - mbc f <=? k) && (k <=? mz d + mbc f) && (1 <=? mq) && (mq <=? meqn f).
Definition rd3 (d : dims3) (q : arr3) (c : cell3) : option Q := if in_q3 d c then q c else None.
Definition cell3_eqb (a b : cell3) : bool :=
  let '(i, j, k, m) := a in let '(i', j', k', m') := b in (i =? i') && (j =? j') && (k =? k') && (m =? m').
Definition wr3 (d : dims3) (q : arr3) (c : cell3) (v : Q) : option arr3 :=
  if in_q3 d c then Some (fun c' => if cell3_eqb c' c then Some v else q c') else None.

(** double precision vol(-mbc:mx+mbc+1,-mbc:my+mbc+1,-mbc:mz+mbc+1) *)
Definition vol_t : Type := Z * Z * Z -> option Q.
Definition rd_vol (d : dims3) (v : vol_t) (i j k : Z) : option Q :=
  let f := flat d in
  if (- mbc f <=? i) && (i <=? mx f + mbc f + 1) && (- mbc f <=? j) && (j <=? my f + mbc f + 1) &&
     (- mbc f <=? k) && (k <=? mz d + mbc f + 1)
  then v (i, j, k) else None.

Section Extruded.
  Variable rnd : Q -> Q.
  Variable d : dims3.

  (** one assignment qthis(i1,j1,k,mq) = qneighbor(i2,j2,k,mq) *)
  Definition copy_cell3 (A : Z * Z * Z * Z * Z * Z) (qn : arr3) (i1 j1 k mq : Z) (q : arr3) : option arr3 :=
    let '(a11, a12, a21, a22, f1, f2) := A in
    let i2 := a11 * i1 + a12 * j1 + f1 in
    let j2 := a21 * i1 + a22 * j1 + f2 in
    bind (rd3 d qn (i2, j2, k, mq)) (wr3 d q (i1, j1, k, mq)).

  (** fclaw3dx_clawpatch46_copy.f90:12-85 copy_face *)
  Definition copy_face3 (qthis qneighbor : arr3) (iface : Z) (t : tdata) : option arr3 :=
    bind (build_transform_same rnd (flat d) t) (fun A =>
    if iface =? 0 then
      loop 1 (meqn (flat d)) (fun mq => loop 1 (mz d) (fun k => loop 1 (my (flat d)) (fun j1 => loop (1 - mbc (flat d)) 0 (fun i1 =>
        copy_cell3 A qneighbor i1 j1 k mq)))) qthis
    else if iface =? 1 then
      loop 1 (meqn (flat d)) (fun mq => loop 1 (mz d) (fun k => loop 1 (my (flat d)) (fun j1 => loop (mx (flat d) + 1) (mx (flat d) + mbc (flat d)) (fun i1 =>
        copy_cell3 A qneighbor i1 j1 k mq)))) qthis
    else if iface =? 2 then
      loop 1 (meqn (flat d)) (fun mq => loop 1 (mz d) (fun k => loop (1 - mbc (flat d)) 0 (fun j1 => loop 1 (mx (flat d)) (fun i1 =>
        copy_cell3 A qneighbor i1 j1 k mq)))) qthis
    else if iface =? 3 then
      loop 1 (meqn (flat d)) (fun mq => loop 1 (mz d) (fun k => loop (my (flat d) + 1) (my (flat d) + mbc (flat d)) (fun j1 => loop 1 (mx (flat d)) (fun i1 =>
        copy_cell3 A qneighbor i1 j1 k mq)))) qthis
    else Some qthis).

  (** fclaw3dx_clawpatch46_copy.f90:87-127 copy_corner *)
  Definition copy_corner3 (qthis qneighbor : arr3) (this_icorner : Z) (c : cdata) : option arr3 :=
    loop 1 (meqn (flat d)) (fun mq => loop 1 (mz d) (fun k => loop 1 (mbc (flat d)) (fun ibc => loop 1 (mbc (flat d)) (fun jbc q =>
      let '(i1, j1) :=
        if this_icorner =? 0 then (1 - ibc, 1 - jbc)
        else if this_icorner =? 1 then (mx (flat d) + ibc, 1 - jbc)
        else if this_icorner =? 2 then (1 - ibc, my (flat d) + jbc)
        else (mx (flat d) + ibc, my (flat d) + jbc) in
      bind (t_corner rnd (flat d) c i1 j1) (fun '(i2, j2) =>
      bind (rd3 d qneighbor (i2, j2, k, mq)) (wr3 d q (i1, j1, k, mq))))))) qthis.

  (* --------------------------------------------------------------- averaging *)

  (** fclaw3dx_clawpatch46_average.f90:83-121 and 132-159, one coarse ghost cell *)
  Definition average_ghost3 (qfine : arr3) (volfine : vol_t) (manifold : bool) (t : tdata) (ic jc k mq : Z) (q : arr3)
      : option arr3 :=
    bind (t_face_half rnd (flat d) t ic jc) (fun ij =>
    bind (ij 0) (fun c0 => bind (ij 1) (fun c1 => bind (ij 2) (fun c2 => bind (ij 3) (fun c3 =>
    let cs m := if m =? 0 then c0 else if m =? 1 then c1 else if m =? 2 then c2 else c3 in
    let valid m := is_valid_average (flat d) (fst (cs m)) (snd (cs m)) in
    let qf m := rd3 d qfine (fst (cs m), snd (cs m), k, mq) in
    let kf m := rd_vol d volfine (fst (cs m)) (snd (cs m)) k in
    if valid 0 && valid 1 && valid 2 && valid 3 then
      if manifold then
        bind (sum4 (fun m => bind (qf m) (fun x => bind (kf m) (fun v => Some (x * v)%Q)))) (fun s =>
        bind (sum4 kf) (fun vf_sum => wr3 d q (ic, jc, k, mq) (s / vf_sum)%Q))
      else
        bind (sum4 qf) (fun s => wr3 d q (ic, jc, k, mq) (s / 4)%Q)
    else Some q))))).

  (** fclaw3dx_clawpatch46_average.f90:29-165 average_face; num_neighbors, igrid and volcoarse are not used *)
  Definition average_face3 (qcoarse qfine : arr3) (volfine : vol_t) (idir iface_coarse refratio : Z) (manifold : bool) (t : tdata)
      : option arr3 :=
    if negb (refratio * refratio =? 4) then None else
    loop 1 (meqn (flat d)) (fun mq => loop 1 (mz d) (fun k =>
      if idir =? 0 then
        loop 1 (my (flat d)) (fun jc => loop 1 (mbc (flat d)) (fun ibc q =>
          bind (if iface_coarse =? 0 then Some (1 - ibc)
                else if iface_coarse =? 1 then Some (mx (flat d) + ibc) else None) (fun ic =>
          average_ghost3 qfine volfine manifold t ic jc k mq q)))
      else
        loop 1 (mbc (flat d)) (fun jbc => loop 1 (mx (flat d)) (fun ic q =>
          bind (if iface_coarse =? 2 then Some (1 - jbc)
                else if iface_coarse =? 3 then Some (my (flat d) + jbc) else None) (fun jc =>
          average_ghost3 qfine volfine manifold t ic jc k mq q))))) qcoarse.

  (** fclaw3dx_clawpatch46_average.f90:228-245, one coarse corner cell *)
  Definition average_corner_cell3 (qfine : arr3) (volfine : vol_t) (manifold : bool)
      (c0 c1 c2 c3 : Z * Z) (i1 j1 k mq : Z) (q : arr3) : option arr3 :=
    let cs m := if m =? 0 then c0 else if m =? 1 then c1 else if m =? 2 then c2 else c3 in
    let qf m := rd3 d qfine (fst (cs m), snd (cs m), k, mq) in
    let kf m := rd_vol d volfine (fst (cs m)) (snd (cs m)) k in
    if manifold then
      bind (sum4 (fun m => bind (qf m) (fun x => bind (kf m) (fun v => Some (v * x)%Q)))) (fun s =>
      bind (sum4 kf) (fun vf_sum => wr3 d q (i1, j1, k, mq) (s / vf_sum)%Q))
    else
      bind (sum4 qf) (fun s => wr3 d q (i1, j1, k, mq) (s / 4)%Q).

  (** fclaw3dx_clawpatch46_average.f90:171-252 average_corner; the transformation is called inside all loops *)
  Definition average_corner3 (qcoarse qfine : arr3) (volfine : vol_t) (refratio : Z) (manifold : bool)
      (icorner_coarse : Z) (c : cdata) : option arr3 :=
    if negb (refratio * refratio =? 4) then None else
    loop 1 (meqn (flat d)) (fun mq => loop 1 (mz d) (fun k => loop 1 (mbc (flat d)) (fun ibc => loop 1 (mbc (flat d)) (fun jbc q =>
      bind (if icorner_coarse =? 0 then Some (1 - ibc, 1 - jbc)
            else if icorner_coarse =? 1 then Some (mx (flat d) + ibc, 1 - jbc)
            else if icorner_coarse =? 2 then Some (1 - ibc, my (flat d) + jbc)
            else if icorner_coarse =? 3 then Some (mx (flat d) + ibc, my (flat d) + jbc)
            else None) (fun '(i1, j1) =>
      bind (t_corner_half rnd (flat d) c i1 j1) (fun ij =>
      bind (ij 0) (fun c0 => bind (ij 1) (fun c1 => bind (ij 2) (fun c2 => bind (ij 3) (fun c3 =>
      average_corner_cell3 qfine volfine manifold c0 c1 c2 c3 i1 j1 k mq q))))))))))  qcoarse.

  (** fclaw3dx_clawpatch46_average.f90:307-338, one coarse cell (i1,j1,k) *)
  Definition average_cell3 (qfine : arr3) (volfine : vol_t) (manifold : bool) (i j i1 j1 k mq : Z) (q : arr3) : option arr3 :=
    let i2 m := (i - 1) * 2 + (Z.rem m 2 + 1) in
    let j2 m := (j - 1) * 2 + (Z.quot m 2 + 1) in
    let qf m := rd3 d qfine (i2 m, j2 m, k, mq) in
    let kf m := rd_vol d volfine (i2 m) (j2 m) k in
    if manifold then
      bind (sum4 (fun m => bind (qf m) (fun x => bind (kf m) (fun v => Some (v * x)%Q)))) (fun s =>
      bind (sum4 kf) (fun vf_sum => wr3 d q (i1, j1, k, mq) (s / vf_sum)%Q))
    else
      bind (sum4 qf) (fun s => wr3 d q (i1, j1, k, mq) (s / 4)%Q).

  (** fclaw3dx_clawpatch46_average.f90:257-346 average2coarse; jc_add uses mx *)
  Definition fort_average2coarse3 (qfine : arr3) (volfine : vol_t) (igrid : Z) (manifold : bool) (qcoarse : arr3) : option arr3 :=
    let ig := Z.rem igrid 2 in
    let jg := Z.quot (igrid - ig) 2 in
    let ic_add := Z.quot (ig * mx (flat d)) 2 in
    let jc_add := Z.quot (jg * mx (flat d)) 2 in
    loop 1 (meqn (flat d)) (fun mq => loop 1 (mz d) (fun k => loop 1 (Z.quot (my (flat d)) 2) (fun j => loop 1 (Z.quot (mx (flat d)) 2) (fun i =>
      average_cell3 qfine volfine manifold i j (i + ic_add) (j + jc_add) k mq)))) qcoarse.

  (** fclaw2d_clawpatch.cpp:967-1010 clawpatch_average2coarse: the four siblings *)
  Definition average2coarse3 (qfine : Z -> arr3) (volfine : Z -> vol_t) (manifold : bool) (qcoarse : arr3) : option arr3 :=
    loop 0 3 (fun igrid => fort_average2coarse3 (qfine igrid) (volfine igrid) igrid manifold) qcoarse.

  (* ----------------------------------------------------------- interpolation *)

  (** fclaw3dx_clawpatch46_interpolate.f90:112-129, 165-180 and 272-290: the four fine cells of one coarse cell *)
  Definition interp_four3 (qcoarse : arr3) (A : Z * Z * Z * Z * Z * Z) (refratio : Z) (c0 : Z * Z) (ic jc k mq : Z)
      (q : arr3) : option arr3 :=
    bind (rd3 d qcoarse (ic, jc, k, mq)) (fun qc =>
    bind (rd3 d qcoarse (ic - 1, jc, k, mq)) (fun qw =>
    bind (rd3 d qcoarse (ic + 1, jc, k, mq)) (fun qe =>
    bind (rd3 d qcoarse (ic, jc - 1, k, mq)) (fun qs =>
    bind (rd3 d qcoarse (ic, jc + 1, k, mq)) (fun qn =>
    let gradx := compute_slopes (qc - qw) (qe - qc) in
    let grady := compute_slopes (qc - qs) (qn - qc) in
    loop 0 3 (fun m q =>
      let iff := fst c0 + fst (df A refratio m) in
      let jff := snd c0 + snd (df A refratio m) in
      wr3 d q (iff, jff, k, mq) (qc + gradx * shiftx m + grady * shifty m)%Q) q))))).

  (** fclaw3dx_clawpatch46_interpolate.f90:101-130 and 146-181, one coarse cell at the face *)
  Definition interp_at3 (qcoarse : arr3) (A : Z * Z * Z * Z * Z * Z) (refratio : Z) (t : tdata) (ic jc k mq : Z) (q : arr3)
      : option arr3 :=
    bind (t_face_half rnd (flat d) t ic jc) (fun ij =>
    bind (ij 0) (fun c0 => bind (ij 1) (fun c1 => bind (ij 2) (fun c2 => bind (ij 3) (fun c3 =>
    let valid (c : Z * Z) := is_valid_interp (flat d) (fst c) (snd c) in
    if valid c0 && valid c1 && valid c2 && valid c3
    then interp_four3 qcoarse A refratio c0 ic jc k mq q
    else Some q))))).

  (** fclaw3dx_clawpatch46_interpolate.f90:25-188 interpolate_face; the inner loop of the first branch runs to mx *)
  Definition interpolate_face3 (qcoarse qfine : arr3) (idir iface_coarse refratio : Z) (t : tdata) : option arr3 :=
    if negb (refratio * refratio =? 4) then None else
    bind (build_transform rnd (flat d) t) (fun A =>
    loop 1 (meqn (flat d)) (fun mq => loop 1 (mz d) (fun k =>
      if idir =? 0 then
        loop 1 (Z.quot (mbc (flat d)) 2) (fun ibc q =>
          bind (if iface_coarse =? 0 then Some ibc
                else if iface_coarse =? 1 then Some (mx (flat d) - ibc + 1) else None) (fun ic =>
          loop 1 (mx (flat d)) (fun jc => interp_at3 qcoarse A refratio t ic jc k mq) q))
      else
        loop 1 (Z.quot (mbc (flat d)) 2) (fun jbc q =>
          bind (if iface_coarse =? 2 then Some jbc
                else if iface_coarse =? 3 then Some (my (flat d) - jbc + 1) else None) (fun jc =>
          loop 1 (mx (flat d)) (fun ic => interp_at3 qcoarse A refratio t ic jc k mq) q)))) qfine).

  (** fclaw3dx_clawpatch46_interpolate.f90:190-296 interpolate_corner *)
  Definition interpolate_corner3 (qcoarse qfine : arr3) (refratio icorner_coarse : Z) (c : cdata) : option arr3 :=
    if negb (refratio * refratio =? 4) then None else
    bind (build_transform rnd (flat d) (face_data c)) (fun A =>
    loop 1 (Z.quot (mbc (flat d)) 2) (fun ibc => loop 1 (Z.quot (mbc (flat d)) 2) (fun jbc q =>
      bind (if icorner_coarse =? 0 then Some (ibc, jbc)
            else if icorner_coarse =? 1 then Some (mx (flat d) - ibc + 1, jbc)
            else if icorner_coarse =? 2 then Some (ibc, my (flat d) - jbc + 1)
            else if icorner_coarse =? 3 then Some (mx (flat d) - ibc + 1, my (flat d) - jbc + 1)
            else None) (fun '(ic, jc) =>
      bind (t_corner_half rnd (flat d) c ic jc) (fun ij =>
      bind (ij 0) (fun c0 =>
      loop 1 (meqn (flat d)) (fun mq => loop 1 (mz d) (fun k => interp_four3 qcoarse A 2 c0 ic jc k mq)) q))))) qfine).

  (** fclaw3dx_clawpatch46_interpolate.f90:343-367, one coarse cell *)
  Definition interpolate_cell3 (qcoarse : arr3) (i j ic jc k mq : Z) (q : arr3) : option arr3 :=
    bind (rd3 d qcoarse (ic, jc, k, mq)) (fun qc =>
    bind (rd3 d qcoarse (ic - 1, jc, k, mq)) (fun qw =>
    bind (rd3 d qcoarse (ic + 1, jc, k, mq)) (fun qe =>
    bind (rd3 d qcoarse (ic, jc - 1, k, mq)) (fun qs =>
    bind (rd3 d qcoarse (ic, jc + 1, k, mq)) (fun qn =>
    let gradx := compute_slopes (qc - qw) (qe - qc) in
    let grady := compute_slopes (qc - qs) (qn - qc) in
    loop 1 2 (fun ii => loop 1 2 (fun jj q =>
      let shiftx := ((inject_Z ii - 2 / 2 - (1 # 2)) / 2)%Q in
      let shifty := ((inject_Z jj - 2 / 2 - (1 # 2)) / 2)%Q in
      wr3 d q ((i - 1) * 2 + ii, (j - 1) * 2 + jj, k, mq) (qc + shiftx * gradx + shifty * grady)%Q)) q))))).

  (** fclaw3dx_clawpatch46_interpolate.f90:428-453, one coarse cell; dz = 1 *)
  Definition fix_cell3 (qcoarse : arr3) (volcoarse volfine : vol_t) (i j ic jc k m : Z) (q : arr3) : option arr3 :=
    let dz := 1%Q in
    bind (loop 1 2 (fun ii => loop 1 2 (fun jj sum =>
            let ifine := (i - 1) * 2 + ii in
            let jfine := (j - 1) * 2 + jj in
            bind (rd_vol d volfine ifine jfine k) (fun kf =>
            bind (rd3 d q (ifine, jfine, k, m)) (fun qf => Some (sum + kf * dz * qf)%Q)))) 0%Q) (fun sum =>
    bind (rd_vol d volcoarse ic jc k) (fun kc =>
    bind (rd3 d qcoarse (ic, jc, k, m)) (fun qc =>
    let cons_diff := ((qc * (kc * dz) - sum) / 4)%Q in
    loop 1 2 (fun ii => loop 1 2 (fun jj q =>
            let ifine := (i - 1) * 2 + ii in
            let jfine := (j - 1) * 2 + jj in
            bind (rd_vol d volfine ifine jfine k) (fun kf =>
            bind (rd3 d q (ifine, jfine, k, m)) (fun qf =>
            wr3 d q (ifine, jfine, k, m) (qf + cons_diff / (kf * dz))%Q)))) q))).

  (** fclaw3dx_clawpatch46_interpolate.f90:389-459 fixcapaq2 *)
  Definition fixcapaq3 (qcoarse : arr3) (volcoarse volfine : vol_t) (igrid : Z) (qfine : arr3) : option arr3 :=
    let ig := Z.rem igrid 2 in
    let jg := Z.quot (igrid - ig) 2 in
    let ic_add := Z.quot (ig * mx (flat d)) 2 in
    let jc_add := Z.quot (jg * my (flat d)) 2 in
    loop 1 (meqn (flat d)) (fun m => loop 1 (mz d) (fun k => loop 1 (Z.quot (mx (flat d)) 2) (fun i => loop 1 (Z.quot (my (flat d)) 2) (fun j =>
      fix_cell3 qcoarse volcoarse volfine i j (i + ic_add) (j + jc_add) k m)))) qfine.

  (** fclaw3dx_clawpatch46_interpolate.f90:300-381 interpolate2fine *)
  Definition interpolate2fine3 (qcoarse : arr3) (volcoarse volfine : vol_t) (igrid : Z) (manifold : bool) (qfine : arr3)
      : option arr3 :=
    let ig := Z.rem igrid 2 in
    let jg := Z.quot (igrid - ig) 2 in
    let i1 := 1 - ig in
    let i2 := Z.quot (mx (flat d)) 2 + (1 - ig) in
    let ic_add := Z.quot (ig * mx (flat d)) 2 in
    let j1 := 1 - jg in
    let j2 := Z.quot (my (flat d)) 2 + (1 - jg) in
    let jc_add := Z.quot (jg * my (flat d)) 2 in
    bind (loop 1 (meqn (flat d)) (fun mq => loop 1 (mz d) (fun k => loop j1 j2 (fun j => loop i1 i2 (fun i =>
            interpolate_cell3 qcoarse i j (i + ic_add) (j + jc_add) k mq)))) qfine) (fun q =>
    if manifold then fixcapaq3 qcoarse volcoarse volfine igrid q else Some q).

  (* -------------------------------------------------------------- diagnostics *)

  (** fclaw3dx_clawpatch46_diagnostics.f90:4-46 conservation_check for one field, with exact sums (in exact arithmetic the
      compensation c_kahan stays 0).  fclaw2d_clawpatch_diagnostics_default.c:57-90 passes the array of volumes
      (fclaw2d_clawpatch_get_area is fclaw3d_clawpatch_get_volume, _fclaw2d_to_fclaw3d.h:52) to the argument declared
      area(-mbc:mx+mbc+1,-mbc:my+mbc+1): element (i,j) of it is element (i,j,-mbc) of the volumes. *)
  Definition area_of (vol : vol_t) (i j : Z) : option Q := rd_vol d vol i j (- mbc (flat d)).
  Definition conservation_check3 (mapped : bool) (dx dy dz : Q) (vol : vol_t) (q : arr3) (m : Z) (sum : Q) : option Q :=
    loop 1 (mz d) (fun k => loop 1 (my (flat d)) (fun j => loop 1 (mx (flat d)) (fun i sum =>
      bind (if mapped then area_of vol i j else Some (dx * dy)%Q) (fun area_ij =>
      bind (rd3 d q (i, j, k, m)) (fun x => Some (sum + x * (area_ij * dz))%Q))))) sum.

  (** fclaw3dx_clawpatch46_diagnostics.f90:80-131 compute_error_norm for one field: 1-norm, square of the 2-norm, maximum *)
  Definition compute_error_norm3 (mapped : bool) (dx dy dz : Q) (vol : vol_t) (error : arr3) (m : Z) (s : Q * Q * Q) : option (Q * Q * Q) :=
    loop 1 (mz d) (fun k => loop 1 (my (flat d)) (fun j => loop 1 (mx (flat d)) (fun i '(n1, n2, n3) =>
      bind (if mapped then bind (area_of vol i j) (fun a => Some (a * dz)%Q) else Some (dx * dy * dz)%Q) (fun vol_ij =>
      bind (rd3 d error (i, j, k, m)) (fun e =>
      let eij := Qabs e in
      Some (n1 + eij * vol_ij, n2 + eij * eij * vol_ij, Qmax eij n3)%Q))))) s.

  (** fclaw2d_clawpatch_diagnostics.c:107-190 (cb_compute_diagnostics for every patch and _gather): the lines that add to
      error_data->area are not compiled for PATCH_DIM = 3.  [parts]: what the patches add to the 1-norm.  The result is
      the 1-norm divided by the total area; FCLAW_ASSERT(total_area != 0) *)
  Definition gathered_area (patches : list arr3) : Q := 0%Q.
  Definition gather_norm3 (mapped : bool) (dx dy dz : Q) (vol : vol_t) (m : Z) (patches : list arr3) : option Q :=
    bind (fold_left (fun acc e => bind acc (fun s => compute_error_norm3 mapped dx dy dz vol e m s)) patches
            (Some (0%Q, 0%Q, 0%Q))) (fun '(n1, _, _) =>
    let total_area := gathered_area patches in
    if Qeq_bool total_area 0 then None else Some (n1 / total_area)%Q).
End Extruded.
