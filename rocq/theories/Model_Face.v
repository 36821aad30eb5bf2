(** Model of the index transformations between neighbor patches,
    /repo/src/forestclaw2d.c lines 543-1383 (2D: as is; 3D: compiled with
    P4_TO_P8 from /repo/src/forestclaw3d.c).

    Simplifications: patches carry only level and lower/upper coordinates; int
    arithmetic on indices is unbounded except for the double-to-int casts,
    which are undefined outside of the 32 bit range; FCLAW_ASSERT failures,
    SC_ABORT and reads of unassigned array entries are the outcome [None]. *)
From Coq Require Import ZArith QArith Lia List Bool.
From Verif Require Import Base_Float.
Import ListNotations.
Open Scope Z_scope.

(** Fields of fclaw2d_patch_t used here (/repo/src/forestclaw2d.h). *)
Record patch := mkPatch {
  level : Z;
  xlower : Q; ylower : Q; zlower : Q;
  xupper : Q; yupper : Q; zupper : Q }.

(** int ftransform[9]; documented in /repo/src/forestclaw2d.h. *)
Record ftrans := mkF {
  my0 : Z; my1 : Z; my2 : Z;        (* my_axis = &ftransform[0] *)
  ta0 : Z; ta1 : Z; ta2 : Z;        (* target_axis = &ftransform[3] *)
  er0 : Z; er1 : Z; er2 : Z }.      (* edge_reverse = &ftransform[6] *)

Inductive dim := D2 | D3.
Definition num_faces (d : dim) : Z := match d with D2 => 4 | D3 => 6 end.
Definition num_half (d : dim) : Z := match d with D2 => 2 | D3 => 4 end.

(** forestclaw2d.c:543-558 fclaw2d_patch_face_swap: new faceno and rfaceno. *)
Definition face_swap (d : dim) (faceno rfaceno : Z) : Z * Z :=
  let iface := faceno in
  let orientation := Z.quot rfaceno (num_faces d) in
  (Z.rem rfaceno (num_faces d), iface + num_faces d * orientation).

(** forestclaw2d.c:1117-1125 fclaw2d_patch_corner_swap. *)
Definition corner_swap (cornerno rcornerno : Z) : Z * Z :=
  let swap := cornerno in (rcornerno, swap).

(** forestclaw2d.c:567-581 fclaw2d_patch_face_transformation_block. *)
Definition face_transformation_block (ft : ftrans) (sameblock : bool) : ftrans :=
  mkF (my0 ft) (my1 ft) (my2 ft) (ta0 ft) (ta1 ft) (ta2 ft) (er0 ft) (er1 ft)
      (if sameblock then Z.lor (er2 ft) 4 else Z.land (er2 ft) (Z.lnot 4)).

(** forestclaw2d.c:583-588 fclaw2d_patch_face_transformation_intra. *)
Definition face_transformation_intra : ftrans := mkF 0 0 0 0 0 0 0 0 4.

(** forestclaw2d.c:590-606 ftransform_max, fclaw2d_patch_face_transformation_valid. *)
Definition face_transformation_valid (d : dim) (ft : ftrans) : bool :=
  let ok v m := negb ((v <? 0) || (m <? v)) in
  match d with
  | D2 => ok (my0 ft) 1 && ok (my1 ft) 0 && ok (my2 ft) 1 &&
          ok (ta0 ft) 1 && ok (ta1 ft) 0 && ok (ta2 ft) 1 &&
          ok (er0 ft) 1 && ok (er1 ft) 0 && ok (er2 ft) 7
  | D3 => ok (my0 ft) 2 && ok (my1 ft) 2 && ok (my2 ft) 2 &&
          ok (ta0 ft) 2 && ok (ta1 ft) 2 && ok (ta2 ft) 2 &&
          ok (er0 ft) 1 && ok (er1 ft) 1 && ok (er2 ft) 7
  end.

(** C arrays of length 3 indexed by axis; entry [None] = not assigned. *)
Definition sel {A} (a : Z) (x y z : A) : A :=
  if a =? 0 then x else if a =? 1 then y else z.

Section Transform.
  (** every double operation rounds its exact result *)
  Variable rnd : Q -> Q.

  Definition fadd x y := rnd (x + y)%Q.
  Definition fsub x y := rnd (x - y)%Q.
  Definition fmul x y := rnd (x * y)%Q.
  Definition fopp (x : Q) := rnd (- x)%Q.
  Definition dbl (z : Z) : Q := rnd (inject_Z z).

  (** [bind] on options: undefined behaviour propagates. *)
  Definition bind {A B} (x : option A) (f : A -> option B) : option B :=
    match x with Some a => f a | None => None end.

  (** forestclaw2d.c:655-664, one coordinate of the same-block branch:
      *i += (int) ((ipatch->xlower - opatch->xlower) * iwidth * (double) mx). *)
  Definition same_coord (il ol iwidth : Q) (mx i : Z) : option Z :=
    bind (c_int (fmul (fmul (fsub il ol) iwidth) (dbl mx))) (fun d => Some (i + d)).

  (** forestclaw2d.c:691-696: ipatch->xlower * Rmxmymz[0] + *i - .5 * based. *)
  Definition my_coord (il R : Q) (i based : Z) : Q :=
    fsub (fadd (fmul il R) (dbl i)) (fmul (1 # 2) (dbl based)).

  (** forestclaw2d.c:698-708: transversal direction. *)
  Definition trans_coord (rev : Z) (x R : Q) : Q :=
    if rev =? 0 then x else fsub R x.

  (** forestclaw2d.c:710-732: normal direction, switch (edge_reverse[2]);
      [None] is SC_ABORT_NOT_REACHED. *)
  Definition normal_coord (code : Z) (x R : Q) : option Q :=
    if code =? 0 then Some (fopp x)
    else if code =? 1 then Some (fadd x R)
    else if code =? 2 then Some (fsub x R)
    else if code =? 3 then Some (fsub (fmul 2 R) x)
    else None.

  (** Entry [a] of target_xyz after the assignments to target_axis[0],
      (3D only: target_axis[1],) target_axis[2]; the last one wins. *)
  Definition target_entry (d : dim) (ft : ftrans) (t0 t1 t2 : Q) (a : Z) : option Q :=
    if a =? ta2 ft then Some t2
    else match d with
         | D2 => if a =? ta0 ft then Some t0 else None
         | D3 => if a =? ta1 ft then Some t1
                 else if a =? ta0 ft then Some t0 else None
         end.

  (** forestclaw2d.c:734-739: (int) (target - opatch->xlower * R + .5 * based). *)
  Definition back_coord (t ol R : Q) (based : Z) : option Z :=
    c_int (fadd (fsub t (fmul ol R)) (fmul (1 # 2) (dbl based))).

  (** asserts at the top of the transform functions, forestclaw2d.c:626-646 *)
  Definition in_unit (x : Q) : bool := Qle_bool 0 x && negb (Qle_bool 1 x).
  Definition maxlevel_of (d : dim) : Z := match d with D2 => 30 | D3 => 19 end.
  Definition patch_ok (d : dim) (p : patch) : bool :=
    in_unit (xlower p) && in_unit (ylower p) &&
    (match d with D2 => true | D3 => in_unit (zlower p) end).

  (** forestclaw2d.c:608-745 fclaw2d_patch_transform_face.  In 2D the third
      component of sizes and indices is ignored and returned unchanged. *)
  Definition transform_face (d : dim) (ip op : patch) (ft : ftrans)
      (mx my mz based i j k : Z) : option (Z * Z * Z) :=
    if negb ((level ip =? level op) && (0 <=? level ip) &&
             (level ip <? maxlevel_of d) && patch_ok d ip && patch_ok d op &&
             (1 <=? mx) && (1 <=? my) && (match d with D2 => true | D3 => 1 <=? mz end) &&
             ((based =? 0) || (based =? 1)) && face_transformation_valid d ft)
    then None else
    let iwidth := dbl (Z.shiftl 1 (level ip)) in
    if negb (Z.land (er2 ft) 4 =? 0) then
      bind (same_coord (xlower ip) (xlower op) iwidth mx i) (fun i' =>
      bind (same_coord (ylower ip) (ylower op) iwidth my j) (fun j' =>
      match d with
      | D2 => Some (i', j', k)
      | D3 => bind (same_coord (zlower ip) (zlower op) iwidth mz k) (fun k' =>
              Some (i', j', k'))
      end))
    else
      let R0 := fmul iwidth (dbl mx) in
      let R1 := fmul iwidth (dbl my) in
      let R2 := fmul iwidth (dbl mz) in
      let x0 := my_coord (xlower ip) R0 i based in
      let x1 := my_coord (ylower ip) R1 j based in
      let x2 := my_coord (zlower ip) R2 k based in
      let m a := sel a mx my mz in
      let R a := sel a R0 R1 R2 in
      let x a := sel a x0 x1 x2 in
      if negb ((m (my0 ft) =? m (ta0 ft)) &&
               (match d with D2 => true | D3 => m (my1 ft) =? m (ta1 ft) end) &&
               (m (my2 ft) =? m (ta2 ft)))
      then None else
      let t0 := trans_coord (er0 ft) (x (my0 ft)) (R (my0 ft)) in
      let t1 := trans_coord (er1 ft) (x (my1 ft)) (R (my1 ft)) in
      bind (normal_coord (er2 ft) (x (my2 ft)) (R (my2 ft))) (fun t2 =>
      let t := target_entry d ft t0 t1 t2 in
      bind (t 0) (fun u0 => bind (t 1) (fun u1 =>
      bind (back_coord u0 (xlower op) R0 based) (fun i' =>
      bind (back_coord u1 (ylower op) R1 based) (fun j' =>
      match d with
      | D2 => Some (i', j', k)
      | D3 => bind (t 2) (fun u2 =>
              bind (back_coord u2 (zlower op) R2 based) (fun k' =>
              Some (i', j', k')))
      end))))).

  (** forestclaw2d.c:803-816, one coordinate of the same-block branch of
      fclaw2d_patch_transform_face2 (also 1338-1350 with a shift):
      based + (int) ((il - ol) * owidth * (double) mx + 2. * ( *i - based)). *)
  Definition same_coord2 (il ol owidth : Q) (mx i based : Z) : option Z :=
    bind (c_int (fadd (fmul (fmul (fsub il ol) owidth) (dbl mx))
                      (fmul 2 (dbl (i - based)))))
         (fun d => Some (based + d)).

  (** forestclaw2d.c:870-874: ipatch->xlower * R + 2. * ( *i + .5 - based). *)
  Definition my_coord2 (il R : Q) (i based : Z) : Q :=
    fadd (fmul il R) (fmul 2 (fsub (fadd (dbl i) (1 # 2)) (dbl based))).

  (** forestclaw2d.c:916-921: (int) (target - opatch->xlower * R) + based - 1. *)
  Definition back_coord2 (t ol R : Q) (based : Z) : option Z :=
    bind (c_int (fsub t (fmul ol R))) (fun d => Some (d + based - 1)).

  (** is[], ik[], ib[], in[] are 0/1 integers; [!x] *)
  Definition cnot (b : Z) : Z := if b =? 0 then 1 else 0.

  (** forestclaw2d.c:923-967: for the child (s0,s1,s2) of the small patch, the
      slot 4*in[2]+2*in[1]+in[0] it is stored in.  In 2D in[2] = 0. *)
  Definition child_slot (d : dim) (ft : ftrans) (s0 s1 s2 : Z) : Z :=
    let ik l := sel l s0 s1 s2 in
    let ib0 := if er0 ft =? 0 then ik (ta0 ft) else cnot (ik (ta0 ft)) in
    let ib1 := if er1 ft =? 0 then ik (ta1 ft) else cnot (ik (ta1 ft)) in
    let ib2 := if (er2 ft =? 1) || (er2 ft =? 2) then ik (ta2 ft)
               else cnot (ik (ta2 ft)) in
    let in_ a :=
      match d with
      | D2 => if a =? my2 ft then ib2 else if a =? my0 ft then ib0 else 0
      | D3 => if a =? my2 ft then ib2 else if a =? my1 ft then ib1
              else if a =? my0 ft then ib0 else 0
      end in
    4 * (match d with D2 => 0 | D3 => in_ 2 end) + 2 * in_ 1 + in_ 0.

  Definition children (d : dim) : list (Z * Z * Z) :=
    match d with
    | D2 => [(0,0,0); (1,0,0); (0,1,0); (1,1,0)]
    | D3 => [(0,0,0); (1,0,0); (0,1,0); (1,1,0);
             (0,0,1); (1,0,1); (0,1,1); (1,1,1)]
    end.

  (** the output arrays i[], j[], (k[]) as an association list: (slot, cell),
      in the order of the assignments *)
  Definition outputs := list (Z * (Z * Z * Z)).

  (** forestclaw2d.c:747-977 fclaw2d_patch_transform_face2. *)
  Definition transform_face2 (d : dim) (ip op : patch) (ft : ftrans)
      (mx my mz based i j k : Z) : option outputs :=
    if negb ((level ip + 1 =? level op) && (0 <=? level ip) &&
             (level op <? maxlevel_of d) && patch_ok d ip && patch_ok d op &&
             (1 <=? mx) && (1 <=? my) && (match d with D2 => true | D3 => 1 <=? mz end) &&
             ((based =? 0) || (based =? 1)) && face_transformation_valid d ft)
    then None else
    let owidth := dbl (Z.shiftl 1 (level op)) in
    if negb (Z.land (er2 ft) 4 =? 0) then
      bind (same_coord2 (xlower ip) (xlower op) owidth mx i based) (fun di =>
      bind (same_coord2 (ylower ip) (ylower op) owidth my j based) (fun dj =>
      bind (match d with
            | D2 => Some k
            | D3 => same_coord2 (zlower ip) (zlower op) owidth mz k based
            end) (fun dk =>
      Some (map (fun '(kx, ky, kz) =>
                   (4 * kz + 2 * ky + kx, (di + kx, dj + ky, dk + kz)))
                (children d)))))
    else
      let R0 := fmul owidth (dbl mx) in
      let R1 := fmul owidth (dbl my) in
      let R2 := fmul owidth (dbl mz) in
      let x0 := my_coord2 (xlower ip) R0 i based in
      let x1 := my_coord2 (ylower ip) R1 j based in
      let x2 := my_coord2 (zlower ip) R2 k based in
      let m a := sel a mx my mz in
      let R a := sel a R0 R1 R2 in
      let x a := sel a x0 x1 x2 in
      if negb ((m (ta0 ft) =? m (my0 ft)) &&
               (match d with D2 => true | D3 => m (ta1 ft) =? m (my1 ft) end))
      then None else
      let t0 := trans_coord (er0 ft) (x (my0 ft)) (R (my0 ft)) in
      let t1 := trans_coord (er1 ft) (x (my1 ft)) (R (my1 ft)) in
      bind (normal_coord (er2 ft) (x (my2 ft)) (R (my2 ft))) (fun t2 =>
      let t := target_entry d ft t0 t1 t2 in
      bind (t 0) (fun u0 => bind (t 1) (fun u1 =>
      bind (back_coord2 u0 (xlower op) R0 based) (fun di =>
      bind (back_coord2 u1 (ylower op) R1 based) (fun dj =>
      bind (match d with
            | D2 => Some k
            | D3 => bind (t 2) (fun u2 => back_coord2 u2 (zlower op) R2 based)
            end) (fun dk =>
      Some (map (fun '(s0, s1, s2) =>
                   (child_slot d ft s0 s1 s2, (di + s0, dj + s1, dk + s2)))
                (children d)))))))).

  (** SC_1000_EPS: 1000 * 2.220446049250313e-16 (libsc), i.e. 1000 * 2^-52. *)
  Definition sc_1000_eps : Q := 1000 # (2 ^ 52).
  Definition near0 (x : Q) : bool := negb (Qle_bool sc_1000_eps (if Qle_bool 0 x then x else - x)).

  (** forestclaw2d.c:1183-1226: shift of one coordinate; [None] = failed assert *)
  Definition corner_shift (is_block_boundary : bool) (bit : bool) (olower oupper : Q) : option Q :=
    if negb is_block_boundary then Some 0%Q
    else if negb bit
         then if near0 (fsub oupper 1) then Some 1%Q else None
         else if near0 olower then Some (-(1))%Q else None.

  (** forestclaw2d.c:1228-1235:
      *i += (int) ((ipatch->xlower - opatch->xlower + xshift) * Rmxmymz[0]). *)
  Definition corner_coord (il ol shift R : Q) (i : Z) : option Z :=
    bind (c_int (fmul (fadd (fsub il ol) shift) R)) (fun d => Some (i + d)).

  (** forestclaw2d.c:1127-1236 fclaw2d_patch_transform_corner. *)
  Definition transform_corner (d : dim) (ip op : patch) (icorner : Z) (bb : bool)
      (mx my mz based i j k : Z) : option (Z * Z * Z) :=
    if negb ((level ip =? level op) && (0 <=? level ip) &&
             (level ip <? maxlevel_of d) && patch_ok d ip && patch_ok d op &&
             (1 <=? mx) && (1 <=? my) && (match d with D2 => true | D3 => 1 <=? mz end) &&
             ((based =? 0) || (based =? 1)))
    then None else
    let w := dbl (Z.shiftl 1 (level ip)) in
    let R0 := fmul w (dbl mx) in
    let R1 := fmul w (dbl my) in
    let R2 := fmul w (dbl mz) in
    bind (corner_shift bb (negb (Z.land icorner 1 =? 0)) (xlower op) (xupper op)) (fun xs =>
    bind (corner_shift bb (negb (Z.land icorner 2 =? 0)) (ylower op) (yupper op)) (fun ys =>
    bind (match d with
          | D2 => Some 0%Q
          | D3 => corner_shift bb (negb (Z.land icorner 4 =? 0)) (zlower op) (zupper op)
          end) (fun zs =>
    bind (corner_coord (xlower ip) (xlower op) xs R0 i) (fun i' =>
    bind (corner_coord (ylower ip) (ylower op) ys R1 j) (fun j' =>
    match d with
    | D2 => Some (i', j', k)
    | D3 => bind (corner_coord (zlower ip) (zlower op) zs R2 k) (fun k' =>
            Some (i', j', k'))
    end))))).

  (** forestclaw2d.c:1335-1350: based + (int) ((il - ol + shift) * R +
      2. * ( *i - based)). *)
  Definition corner_coord2 (il ol shift R : Q) (i based : Z) : option Z :=
    bind (c_int (fadd (fmul (fadd (fsub il ol) shift) R)
                      (fmul 2 (dbl (i - based)))))
         (fun d => Some (based + d)).

  (** forestclaw2d.c:1238-1383 fclaw2d_patch_transform_corner2. *)
  Definition transform_corner2 (d : dim) (ip op : patch) (icorner : Z) (bb : bool)
      (mx my mz based i j k : Z) : option outputs :=
    if negb ((level ip + 1 =? level op) && (0 <=? level ip) &&
             (level op <? maxlevel_of d) && patch_ok d ip && patch_ok d op &&
             (1 <=? mx) && (1 <=? my) && (match d with D2 => true | D3 => 1 <=? mz end) &&
             ((based =? 0) || (based =? 1)))
    then None else
    let w := dbl (Z.shiftl 1 (level op)) in
    let R0 := fmul w (dbl mx) in
    let R1 := fmul w (dbl my) in
    let R2 := fmul w (dbl mz) in
    bind (corner_shift bb (negb (Z.land icorner 1 =? 0)) (xlower op) (xupper op)) (fun xs =>
    bind (corner_shift bb (negb (Z.land icorner 2 =? 0)) (ylower op) (yupper op)) (fun ys =>
    bind (match d with
          | D2 => Some 0%Q
          | D3 => corner_shift bb (negb (Z.land icorner 4 =? 0)) (zlower op) (zupper op)
          end) (fun zs =>
    bind (corner_coord2 (xlower ip) (xlower op) xs R0 i based) (fun di =>
    bind (corner_coord2 (ylower ip) (ylower op) ys R1 j based) (fun dj =>
    bind (match d with
          | D2 => Some k
          | D3 => corner_coord2 (zlower ip) (zlower op) zs R2 k based
          end) (fun dk =>
    Some (map (fun '(kn, kt, ks) =>
                 (4 * ks + 2 * kt + kn, (di + kn, dj + kt, dk + ks)))
              (children d)))))))).
End Transform.

(** External: p4est_expand_face_transform, called by
    fclaw2d_patch_face_transformation (forestclaw2d.c:560-565).  p4est is not in
    /repo; this 2D definition follows the ftransform documentation in
    /repo/src/forestclaw2d.h (axes of the faces, [6] edge reversal,
    [8] = 2*(my face odd) + (target face odd)).  rfaceno = orientation*4 + face. *)
Definition expand_face_transform_2d (faceno rfaceno : Z) : ftrans :=
  let target := Z.rem rfaceno 4 in
  let orientation := Z.quot rfaceno 4 in
  mkF (1 - Z.quot faceno 2) 0 (Z.quot faceno 2)
      (1 - Z.quot target 2) 0 (Z.quot target 2)
      orientation 0 (2 * Z.rem faceno 2 + Z.rem target 2).
