(** The routines of a patch for the clawpack 5.x ordering (2D), where they differ from those for the 4.6 ordering.

    src/patches/clawpatch/fort_5.0/fclaw2d_clawpatch5_interpolate.f:30-387, _timeinterp.f:11-88,
    _local_ghost_pack.f:11-158, _tag4refinement.f:11-97.

    The remaining routines of that directory (_copy.f, _average.f, _tag4coarsening.f, the capacity fix in
    _interpolate.f, _pillowsphere.f) have the statements of the 4.6 routines with q(mq,i,j) for q(i,j,mq) and, in
    places, the loop over mq innermost.

    Simplifications: those of Model_Grid, Model_Corner, Model_Ghost and Model_Tag.  A cell is named (i,j,mq) also
    here. *)
From Coq Require Import ZArith QArith Qminmax Qabs List Lia Bool.
From Verif Require Import Base_Float Model_Face Model_Grid Model_Corner Model_Ghost Model_Tag.
Import ListNotations.
Open Scope Z_scope.

Section Patch5.
  Variable rnd : Q -> Q.
  Variable d : dims.

  (** fclaw2d_clawpatch5_interpolate.f:30-190 interpolate_face: one coarse cell deep; the loop of the first branch
      runs to mx.  num_neighbors and igrid are not used. *)
  Definition interpolate_face5 (qcoarse qfine : arr) (idir iface_coarse refratio : Z) (t : tdata) : option arr :=
    if negb (refratio * refratio =? 4) then None else
    bind (build_transform rnd d t) (fun A =>
    loop 1 (meqn d) (fun mq q =>
      if idir =? 0 then
        bind (if iface_coarse =? 0 then Some 1
              else if iface_coarse =? 1 then Some (mx d) else None) (fun ic =>
        loop 1 (mx d) (fun jc => interp_at rnd d qcoarse A refratio t ic jc mq) q)
      else
        bind (if iface_coarse =? 2 then Some 1
              else if iface_coarse =? 3 then Some (my d) else None) (fun jc =>
        loop 1 (mx d) (fun ic => interp_at rnd d qcoarse A refratio t ic jc mq) q)) qfine).

  (** fclaw2d_clawpatch5_interpolate.f:199-304 interpolate_corner: the coarse cell in the corner *)
  Definition interpolate_corner5 (qcoarse qfine : arr) (refratio icorner_coarse : Z) (c : cdata) : option arr :=
    if negb (refratio * refratio =? 4) then None else
    bind (build_transform rnd d (face_data c)) (fun A =>
    bind (if icorner_coarse =? 0 then Some (1, 1)
          else if icorner_coarse =? 1 then Some (mx d, 1)
          else if icorner_coarse =? 2 then Some (1, my d)
          else if icorner_coarse =? 3 then Some (mx d, my d)
          else None) (fun '(ic, jc) =>
    bind (t_corner_half rnd d c ic jc) (fun ij =>
    bind (ij 0) (fun c0 =>
    loop 1 (meqn d) (fun mq => interp_four d qcoarse A 2 c0 ic jc mq) qfine)))).

  (** fclaw2d_clawpatch5_interpolate.f:312-387 interpolate2fine: i is the outer loop *)
  Definition interpolate2fine5 (qcoarse : arr) (areacoarse areafine : area_t) (igrid : Z)
      (manifold : bool) (qfine : arr) : option arr :=
    let ig := Z.rem igrid 2 in
    let jg := Z.quot (igrid - ig) 2 in
    let i1 := 1 - ig in
    let i2 := Z.quot (mx d) 2 + (1 - ig) in
    let ic_add := Z.quot (ig * mx d) 2 in
    let j1 := 1 - jg in
    let j2 := Z.quot (my d) 2 + (1 - jg) in
    let jc_add := Z.quot (jg * my d) 2 in
    bind (loop 1 (meqn d) (fun mq => loop i1 i2 (fun i => loop j1 j2 (fun j =>
            interpolate_cell d qcoarse i j (i + ic_add) (j + jc_add) mq))) qfine) (fun q =>
    if manifold then fixcapaq2 d qcoarse areacoarse areafine igrid q else Some q).

  (* --------------------------------------------------------------- time interpolation *)

  (** fclaw2d_clawpatch5_timeinterp.f:11-88: mint = 2 and ng = 0, whatever mbc is; ierror is not used by the caller *)
  Definition fort_timeinterp5 (qcurr qlast : arr) (alpha : Q) (qinterp : arr) : option arr :=
    let mint := 2 in
    let ng := 0 in
    loop 1 (meqn d) (fun m q =>
      bind (loop (1 - ng) (my d - mint) (fun j => loop (1 - ng) mint (fun i => interp_one d qcurr qlast alpha i j m)) q) (fun q =>
      bind (loop (1 - ng) mint (fun j => loop (mint + 1) (mx d + ng) (fun i => interp_one d qcurr qlast alpha i j m)) q) (fun q =>
      bind (loop (mint + 1) (my d + ng) (fun j => loop (mx d - mint + 1) (mx d + ng) (fun i => interp_one d qcurr qlast alpha i j m)) q) (fun q =>
      loop (my d - mint + 1) (my d + ng) (fun j => loop (1 - ng) (mx d - mint) (fun i => interp_one d qcurr qlast alpha i j m)) q)))) qinterp.

  (** fclaw2d_clawpatch.cpp:473-526 clawpatch_setup_timeinterp with that routine *)
  Definition setup_timeinterp5 (interp_stencil_width : Z) (qcurr qlast : arr) (alpha : Q) (qinterp : arr)
      : option arr :=
    let mint := Z.quot interp_stencil_width 2 + 1 in
    let hole := (mx d - 2 * mint) * (my d - 2 * mint) in
    let wg := mx d * my d in
    if negb (0 <=? hole) then None else
    if negb (0 <? (wg - hole) * meqn d) then None else
    fort_timeinterp5 qcurr qlast alpha qinterp.

  (* --------------------------------------------------------------- packing *)

  (** fclaw2d_clawpatch5_local_ghost_pack.f:38-86: the strips along faces 0, 2, 1, 3 with nghost = 2 *)
  Definition strips5 {S} (mint : Z) (body : Z -> Z -> S -> option S) (s : S) : option S :=
    let nghost := 2 in
    bind (loop (1 - nghost) (my d - mint) (fun j => loop (1 - nghost) mint (fun ibc => body ibc j)) s) (fun s =>
    bind (loop (1 - nghost) mint (fun jbc => loop (mint + 1) (mx d + nghost) (fun i => body i jbc)) s) (fun s =>
    bind (loop (mint + 1) (my d + nghost) (fun j => loop (mx d - mint + 1) (mx d + nghost) (fun ibc => body ibc j)) s) (fun s =>
    loop (my d - mint + 1) (my d + nghost) (fun jbc => loop (1 - nghost) (mx d - mint) (fun i => body i jbc)) s))).

  (** fclaw2d_clawpatch5_local_ghost_pack.f:11-153; the result contains ierror *)
  Definition fort_local_ghost_pack5 (cap mint base psize packmode : Z) (s : pst) : option (pst * Z) :=
    if negb (packmode =? 0) && negb (packmode =? 1) && negb (packmode =? 2) && negb (packmode =? 3)
    then Some (s, 1)
    else
      let packdata := (packmode =? 0) || (packmode =? 2) in
      bind (loop 1 (meqn d) (fun mq => strips5 mint (fun i j => xfer d cap base psize packdata (LQ (i, j, mq))))
              (s, 1)) (fun st =>
      if negb (packmode =? 2) && negb (packmode =? 3) then
        Some (fst st, if snd st - 1 =? psize then 0 else 2)
      else
        bind (strips5 mint (fun i j => xfer d cap base psize packdata (LA i j)) st) (fun st =>
        Some (fst st, if snd st - 1 =? psize then 0 else 2))).

  (* --------------------------------------------------------------- tagging *)

  (** double precision qmin, qmax, quad(-1:1,-1:1) *)
  Record scan5 := mkScan5 { z_min : Q; z_max : Q; z_quad : Z -> Z -> option Q }.

  (** a scalar passed for an array of meqn elements: only the first one exists *)
  Definition scalar (x : option Q) : vec := fun mq => if mq =? 1 then x else None.

  (** fclaw2d_clawpatch5_tag4refinement.f:44-50 *)
  Definition fill_quad5 (q : arr) (i j : Z) (z : Z -> Z -> option Q) : option (Z -> Z -> option Q) :=
    loop (-1) 1 (fun ii => loop (-1) 1 (fun jj z =>
      bind (rd d q (i + ii, j + jj, 1)) (fun x =>
      Some (fun ii' jj' => if (ii' =? ii) && (jj' =? jj) then Some x else z ii' jj')))) z.

  (** fclaw2d_clawpatch5_tag4refinement.f:36-61, the body of the loops.  The argument for qval is q(1,i,j), so the
      test function sees all components of the cell; qmin, qmax and quad are for the first component only. *)
  Definition visit5 (crit : cargs -> option Z) (blockno : Z) (dx dy th : Q) (init : Z) (q : arr) (xlower ylower : Q)
      (i j : Z) (st : scan5 * Z) : option (scan5 * Z) :=
    let '(s, tag) := st in
    if tag =? 1 then Some st else
    bind (rd d q (i, j, 1)) (fun x =>
    let lo := Qmin (z_min s) x in
    let hi := Qmax (z_max s) x in
    bind (if is_ghost d i j then Some (z_quad s) else fill_quad5 q i j (z_quad s)) (fun z =>
    bind (crit (mkArgs blockno (fun mq => rd d q (i, j, mq)) (scalar (Some lo)) (scalar (Some hi))
                  (fun ii jj => scalar (z ii jj)) dx dy
                  (xlower + (inject_Z i - (1 # 2)) * dx) (ylower + (inject_Z j - (1 # 2)) * dy) th init (is_ghost d i j)))
         (fun exceeds =>
    Some (mkScan5 lo hi z, if 0 <? exceeds then 1 else tag)))).

  (** fclaw2d_clawpatch5_tag4refinement.f:11-65 *)
  Definition fort_tag4refinement5 (crit : cargs -> option Z) (blockno : Z) (dx dy th : Q) (init : Z) (q : arr)
      (xlower ylower : Q) : option Z :=
    bind (rd d q (1, 1, 1)) (fun x =>
    bind (loop (1 - mbc d) (my d + mbc d) (fun j => loop (1 - mbc d) (mx d + mbc d) (fun i =>
            visit5 crit blockno dx dy th init q xlower ylower i j)) (mkScan5 x x (fun _ _ => None), 0)) (fun st =>
    Some (snd st))).
End Patch5.

(** fclaw2d_clawpatch.cpp:799-846 clawpatch_tag4refinement with that routine *)
Definition tag4refinement5 (d : dims) (o : topts) (blockno init : Z) (q : arr) (xlower ylower dx dy : Q) : option Z :=
  if Qgtb 0 (refine_threshold o) then Some 1
  else fort_tag4refinement5 d (tag_criteria (meqn d) o) blockno dx dy (refine_threshold o) init q xlower ylower.

(** fclaw2d_clawpatch.cpp:1069-1198 clawpatch_ghost_comm with the packing routine above (as ghost_comm otherwise) *)
Definition ghost_comm5 (o : gopts) (cap packmode : Z) (s : pst) : option pst :=
  let d := g_d o in
  let pa := Z.quot packmode 2 in
  let mint := refratio o * mbc d in
  let frsize := if time_sync o then 2 * (4 * meqn d + 2) * (mx d + my d) else 0 in
  let wg := (2 * mbc d + mx d) * (2 * mbc d + my d) in
  let hole := (mx d - 2 * mint) * (my d - 2 * mint) in
  if negb (0 <=? hole) then None else
  let psize := (wg - hole) * (meqn d + pa + packextra o) + frsize in
  if negb (0 <? psize) then None else
  bind (ghost_pack_elems o) (fun check =>
  if negb (psize =? check) then None else
  let qareasize := (wg - hole) * (meqn d + pa) in
  bind (fort_local_ghost_pack5 d cap mint 0 qareasize packmode s) (fun '(s, ierror) =>
  if negb (ierror =? 0) then None else
  let extrasize := (wg - hole) * packextra o in
  bind (if packextra o =? 0 then Some (s, 0) else
        if negb (0 <? extrasize) then None else
        match aux o with
        | None => None
        | Some f => bind (f mint qareasize extrasize packmode s) (fun '(s, ierror) =>
                    if negb (ierror =? 0) then None else Some (s, extrasize))
        end) (fun '(s, adv) =>
  if time_sync o then
    if negb (0 <? frsize) then None else
    bind (pack_registers d cap (qareasize + adv) frsize (Z.rem packmode 2 =? 0) s) (fun '(s, ierror) =>
    if negb (ierror =? 0) then None else Some s)
  else Some s))).
Definition local_ghost_pack5 (o : gopts) (m : memory) (b : buffer) : option buffer :=
  bind (ghost_pack_elems o) (fun cap =>
  bind (ghost_comm5 o cap (2 * b2z (packarea o)) (mkPst m b)) (fun s => Some (buf s))).
Definition remote_ghost_unpack5 (o : gopts) (m : memory) (b : buffer) : option memory :=
  bind (ghost_pack_elems o) (fun cap =>
  bind (ghost_comm5 o cap (2 * b2z (packarea o) + 1) (mkPst m b)) (fun s => Some (mem s))).
