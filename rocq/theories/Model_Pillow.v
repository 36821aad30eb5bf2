(** Ghost cells at the block corners of the pillow sphere (2D, clawpack 4.6 ordering).

    src/patches/clawpatch/fort_4.6/fclaw2d_clawpatch46_pillowsphere.f, called by
    src/patches/clawpatch/fclaw2d_clawpatch_pillow.c:72-201 with refratio = 2.  The routines of
    fort_5.0/fclaw2d_clawpatch5_pillowsphere.f differ in the order of the indices only.

    Simplifications: those of Model_Grid.  The argument iblock is not used by the routines. *)
From Coq Require Import ZArith QArith List Bool.
From Verif Require Import Model_Grid.
Import ListNotations.
Open Scope Z_scope.

Section Pillow.
  Variable d : dims.

  (** qthis(i1,j1,mq) = qneighbor(i2,j2,mq); qneighbor(i1,j1,mq) = qthis(i2,j2,mq) *)
  Definition exchange (i1 j1 i2 j2 mq : Z) (s : arr * arr) : option (arr * arr) :=
    let '(qthis, qneighbor) := s in
    bind (bind (rd d qneighbor (i2, j2, mq)) (wr d qthis (i1, j1, mq))) (fun qthis =>
    bind (bind (rd d qthis (i2, j2, mq)) (wr d qneighbor (i1, j1, mq))) (fun qneighbor =>
    Some (qthis, qneighbor))).

  (** fclaw2d_clawpatch46_pillowsphere.f:14-58 copy_block_corner: (qthis, qneighbor) *)
  Definition copy_block_corner (s : arr * arr) (icorner : Z) : option (arr * arr) :=
    loop 1 (meqn d) (fun mq =>
      if icorner =? 0 then
        loop 1 (mbc d) (fun ibc => loop 1 (mbc d) (fun jbc => exchange (1 - ibc) (1 - jbc) ibc jbc mq))
      else if icorner =? 1 then
        loop 1 (mbc d) (fun ibc => loop 1 (mbc d) (fun jbc => exchange (mx d + ibc) (1 - jbc) (mx d + 1 - ibc) jbc mq))
      else if icorner =? 2 then
        loop 1 (mbc d) (fun ibc => loop 1 (mbc d) (fun jbc => exchange (1 - ibc) (my d + jbc) ibc (my d + 1 - jbc) mq))
      else if icorner =? 3 then
        loop 1 (mbc d) (fun ibc => loop 1 (mbc d) (fun jbc => exchange (mx d + ibc) (my d + jbc) (mx d + 1 - ibc) (my d + 1 - jbc) mq))
      else Some) s.

  (** lines 88-97 (and 105-114, 122-131, 139-148): the sum over the fine cells; [fi] and [fj] are the indices into qfine and areafine made
      of ifine and jfine *)
  Definition fine_sum (qfine : arr) (areafine : area_t) (refratio : Z) (fi fj : Z -> Z) (ibc jbc mq : Z) : option Q :=
    loop 1 refratio (fun ii => loop 1 refratio (fun jj sum =>
      let ifine := (ibc - 1) * refratio + ii in
      let jfine := (jbc - 1) * refratio + jj in
      bind (rd d qfine (fi ifine, fj jfine, mq)) (fun qf =>
      bind (rd_area d areafine (fi ifine) (fj jfine)) (fun kf => Some (sum + kf * qf)%Q)))) 0%Q.
  (** lines 98-99 (and 115-116, 132-133, 149-150): (k1,k2) is the index into areacoarse *)
  Definition average_one (qfine : arr) (areacoarse areafine : area_t) (refratio : Z) (fi fj : Z -> Z) (k1 k2 i1 j1 ibc jbc mq : Z)
      (qcoarse : arr) : option arr :=
    bind (fine_sum qfine areafine refratio fi fj ibc jbc mq) (fun sum =>
    bind (rd_area d areacoarse k1 k2) (fun kc => wr d qcoarse (i1, j1, mq) (sum / kc)%Q)).

  (** fclaw2d_clawpatch46_pillowsphere.f:67-156 average_block_corner *)
  Definition average_block_corner (qcoarse qfine : arr) (areacoarse areafine : area_t) (refratio icorner : Z) : option arr :=
    let id_ (i : Z) := i in
    let rx (i : Z) := mx d + 1 - i in
    let ry (j : Z) := my d + 1 - j in
    loop 1 (meqn d) (fun mq =>
      if icorner =? 0 then
        loop 1 (mbc d) (fun ibc => loop 1 (mbc d) (fun jbc =>
          average_one qfine areacoarse areafine refratio id_ id_ (1 - ibc) (1 - ibc) (1 - ibc) (1 - jbc) ibc jbc mq))
      else if icorner =? 1 then
        loop 1 (mbc d) (fun ibc => loop 1 (mbc d) (fun jbc =>
          average_one qfine areacoarse areafine refratio rx id_ (mx d + ibc) (1 - jbc) (mx d + ibc) (1 - jbc) ibc jbc mq))
      else if icorner =? 2 then
        loop 1 (mbc d) (fun ibc => loop 1 (mbc d) (fun jbc =>
          average_one qfine areacoarse areafine refratio id_ ry (1 - ibc) (my d + jbc) (1 - ibc) (my d + jbc) ibc jbc mq))
      else if icorner =? 3 then
        loop 1 (mbc d) (fun ibc => loop 1 (mbc d) (fun jbc =>
          average_one qfine areacoarse areafine refratio rx ry (mx d + ibc) (my d + jbc) (mx d + ibc) (my d + jbc) ibc jbc mq))
      else Some) qcoarse.

  (** fclaw2d_clawpatch46_pillowsphere.f:166-231 interpolate_block_corner *)
  Definition interpolate_block_corner (qcoarse qfine : arr) (refratio icorner_coarse : Z) : option arr :=
    bind (if icorner_coarse =? 0 then Some (1, 1)
          else if icorner_coarse =? 1 then Some (mx d, 1)
          else if icorner_coarse =? 2 then Some (1, my d)
          else if icorner_coarse =? 3 then Some (mx d, my d)
          else None) (fun '(ic, jc) =>
    loop 1 (meqn d) (fun mq qfine =>
      bind (rd d qcoarse (ic, jc, mq)) (fun qc =>
      bind (rd d qcoarse (ic - 1, jc, mq)) (fun qw =>
      bind (rd d qcoarse (ic + 1, jc, mq)) (fun qe =>
      bind (rd d qcoarse (ic, jc - 1, mq)) (fun qs =>
      bind (rd d qcoarse (ic, jc + 1, mq)) (fun qn =>
      let gradx := compute_slopes (qc - qw) (qe - qc) in
      let grady := compute_slopes (qc - qs) (qn - qc) in
      loop 1 (mbc d) (fun ibc => loop 1 (mbc d) (fun jbc qfine =>
        let shiftx := ((inject_Z ibc - inject_Z refratio / 2 - (1 # 2)) / inject_Z refratio)%Q in
        let shifty := ((inject_Z jbc - inject_Z refratio / 2 - (1 # 2)) / inject_Z refratio)%Q in
        let value := (qc + shiftx * gradx + shifty * grady)%Q in
        if icorner_coarse =? 0 then wr d qfine (1 - ibc, 1 - jbc, mq) value
        else if icorner_coarse =? 1 then wr d qfine (mx d + ibc, 1 - jbc, mq) value
        else if icorner_coarse =? 2 then wr d qfine (1 - ibc, my d + jbc, mq) value
        else if icorner_coarse =? 3 then wr d qfine (mx d + ibc, my d + jbc, mq) value
        else Some qfine)) qfine)))))) qfine).
End Pillow.
