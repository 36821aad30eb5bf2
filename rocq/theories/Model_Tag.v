(** Tagging of patches for refinement and coarsening (2D, clawpack 4.6 ordering).

    src/patches/clawpatch/fort_4.6/fclaw2d_clawpatch46_tag4refinement.f,
    fclaw2d_clawpatch46_tag4coarsening.f, src/patches/clawpatch/fort_user/,
    src/patches/clawpatch/fclaw2d_clawpatch.cpp:799-912.

    Simplifications: exact rational arithmetic, so that the order of the operands of min
    and max does not matter; otherwise the conventions of Model_Grid. *)
From Coq Require Import ZArith QArith Qminmax Qabs List Lia Bool.
From Verif Require Import Base_Float Model_Face Model_Grid.
Import ListNotations.
Open Scope Z_scope.

(** double precision v(meqn) *)
Definition vec : Type := Z -> option Q.
Definition vset (v : vec) (mq : Z) (x : Q) : vec := fun k => if k =? mq then Some x else v k.
Definition Qgtb (x y : Q) : bool := negb (Qle_bool x y).

(** the arguments of the function that tests a cell
    (fort_user/fclaw2d_clawpatch_tag_criteria.c:41-52) *)
Record cargs := mkArgs { c_block : Z; c_qval : vec; c_qmin : vec; c_qmax : vec; c_quad : Z -> Z -> vec;
  c_dx : Q; c_dy : Q; c_xc : Q; c_yc : Q; c_th : Q; c_init : Z; c_ghost : bool }.

(** the options used; [map_c2m] is the mapping of the context, None if no map is used *)
Record topts := mkTopts { criteria : Z; threshold_variable : Z; user_exceeds : option (cargs -> option Z);
  refine_threshold : Q; coarsen_threshold : Q; map_c2m : option (Z -> Q -> Q -> Q * Q * Q) }.

Section Criteria.
  Variable meqn : Z.
  Variable o : topts.

  Definition rdv (v : vec) (mq : Z) : option Q := if (1 <=? mq) && (mq <=? meqn) then v mq else None.

  (** fort_user/fclaw2d_clawpatch_value_exceeds_th.f90:19-44 *)
  Definition value_exceeds (a : cargs) : option Z :=
    bind (rdv (c_qval a) (threshold_variable o)) (fun x =>
    Some (if Qgtb x (c_th a) then 1 else 0)).

  (** fort_user/fclaw2d_clawpatch_minmax_exceeds_th.f90:20-47 *)
  Definition minmax_exceeds (a : cargs) : option Z :=
    bind (rdv (c_qmax a) (threshold_variable o)) (fun hi =>
    bind (rdv (c_qmin a) (threshold_variable o)) (fun lo =>
    Some (if Qgtb (hi - lo) (c_th a) then 1 else 0))).

  (** fort_user/fclaw2d_clawpatch_difference_exceeds_th.f90:19-56 *)
  Definition difference_exceeds (a : cargs) : option Z :=
    let mq := threshold_variable o in
    if c_ghost a then Some (-1) else
    bind (rdv (c_quad a 1 0) mq) (fun e => bind (rdv (c_quad a (-1) 0) mq) (fun w =>
    bind (rdv (c_quad a 0 1) mq) (fun n => bind (rdv (c_quad a 0 (-1)) mq) (fun s =>
    let dqx := Qabs (e - w) in
    let dqy := Qabs (n - s) in
    Some (if Qgtb (Qmax dqx dqy) (c_th a) then 1 else 0))))).

  (** sqrt(x) > th for x >= 0, without the square root *)
  Definition sqrt_gt (x th : Q) : bool := if Qgtb 0 th then true else Qgtb x (th * th).

  Definition dot (u v : Q * Q * Q) : Q :=
    let '(a, b, c) := u in let '(x, y, z) := v in (a * x + b * y + c * z)%Q.
  Definition lin (a : Q) (u : Q * Q * Q) (b : Q) (v : Q * Q * Q) : Q * Q * Q :=
    let '(x1, x2, x3) := u in let '(y1, y2, y3) := v in
    ((a * x1 + b * y1)%Q, (a * x2 + b * y2)%Q, (a * x3 + b * y3)%Q).

  (** fort_user/fclaw2d_clawpatch_gradient_exceeds_th.f90:19-109; division by zero, where
      the code continues with NaN, is the outcome None *)
  Definition gradient_exceeds (a : cargs) : option Z :=
    let mq := threshold_variable o in
    if c_ghost a then Some (-1) else
    let dx2 := (2 * c_dx a)%Q in
    let dy2 := (2 * c_dy a)%Q in
    bind (rdv (c_quad a 1 0) mq) (fun e => bind (rdv (c_quad a (-1) 0) mq) (fun w =>
    bind (rdv (c_quad a 0 1) mq) (fun n => bind (rdv (c_quad a 0 (-1)) mq) (fun s =>
    if Qeq_bool dx2 0 || Qeq_bool dy2 0 then None else
    let dqx := ((e - w) / dx2)%Q in
    let dqy := ((n - s) / dy2)%Q in
    bind (match map_c2m o with
          | Some f =>
              let p x y := f (c_block a) x y in
              let t1 := lin (1 / dx2) (p (c_xc a + c_dx a)%Q (c_yc a)) (- (1 / dx2)) (p (c_xc a - c_dx a)%Q (c_yc a)) in
              let t2 := lin (1 / dy2) (p (c_xc a) (c_yc a + c_dy a)%Q) (- (1 / dy2)) (p (c_xc a) (c_yc a - c_dy a)%Q) in
              let det := (dot t1 t1 * dot t2 t2 - dot t1 t2 * dot t1 t2)%Q in
              if Qeq_bool det 0 then None else
              let t1inv := lin (dot t2 t2 / det) t1 (- dot t1 t2 / det) t2 in
              let t2inv := lin (- dot t1 t2 / det) t1 (dot t1 t1 / det) t2 in
              Some (lin dqx t1inv dqy t2inv)
          | None => Some (dqx, dqy, 0%Q)
          end) (fun grad =>
    Some (if sqrt_gt (dot grad grad) (c_th a) then 1 else 0)))))).

  (** fort_user/fclaw2d_clawpatch_tag_criteria.c:41-116 *)
  Definition tag_criteria (a : cargs) : option Z :=
    match criteria o with
    | 0 => value_exceeds a
    | 1 => difference_exceeds a
    | 2 => minmax_exceeds a
    | 3 => gradient_exceeds a
    | 4 => match user_exceeds o with Some f => f a | None => None end
    | _ => None
    end.
End Criteria.

Section Scan.
  Variable d : dims.
  Variable crit : cargs -> option Z.
  Variable blockno : Z.
  Variables dx dy th : Q.
  Variable init : Z.

  Record scan := mkScan { s_min : vec; s_max : vec; s_val : vec; s_quad : Z -> Z -> vec }.

  (** tag4refinement.f:86-106 is_ghost *)
  Definition is_ghost (i j : Z) : bool :=
    if (i <? 1) || (j <? 1) then true else (mx d <? i) || (my d <? j).

  (** tag4refinement.f:48-52, tag4coarsening.f:102-106 *)
  Definition take (q : arr) (i j : Z) (s : scan) : option scan :=
    loop 1 (meqn d) (fun mq s =>
      bind (rd d q (i, j, mq)) (fun x =>
      bind (s_min s mq) (fun lo => bind (s_max s mq) (fun hi =>
      Some (mkScan (vset (s_min s) mq (Qmin lo x)) (vset (s_max s) mq (Qmax hi x)) (vset (s_val s) mq x) (s_quad s)))))) s.

  (** tag4refinement.f:54-62, tag4coarsening.f:108-116 (there with the
      loops over ii and jj exchanged, which has the same result) *)
  Definition fill_quad (q : arr) (i j : Z) (s : scan) : option scan :=
    loop (-1) 1 (fun jj => loop (-1) 1 (fun ii => loop 1 (meqn d) (fun mq s =>
      bind (rd d q (i + ii, j + jj, mq)) (fun x =>
      Some (mkScan (s_min s) (s_max s) (s_val s)
             (fun ii' jj' => if (ii' =? ii) && (jj' =? jj) then vset (s_quad s ii jj) mq x else s_quad s ii' jj')))))) s.

  Definition args (xlower ylower : Q) (i j : Z) (s : scan) : cargs :=
    mkArgs blockno (s_val s) (s_min s) (s_max s) (s_quad s) dx dy
      (xlower + (inject_Z i - (1 # 2)) * dx) (ylower + (inject_Z j - (1 # 2)) * dy) th init (is_ghost i j).

  (** the body of the loops, tag4refinement.f:46-72, tag4coarsening.f:100-130; [stop] is the
      value given to tag_patch when the test succeeds, after which the routine returns *)
  Definition visit (stop : Z) (q : arr) (xlower ylower : Q) (i j : Z) (st : scan * Z) : option (scan * Z) :=
    let '(s, tag) := st in
    if tag =? stop then Some st else
    bind (take q i j s) (fun s =>
    bind (if is_ghost i j then Some s else fill_quad q i j s) (fun s =>
    bind (crit (args xlower ylower i j s)) (fun exceeds =>
    Some (s, if 0 <? exceeds then stop else tag)))).

  Definition unset : vec := fun _ => None.

  (** tag4refinement.f:40-43, tag4coarsening.f:37-40 *)
  Definition start (q : arr) : option scan :=
    loop 1 (meqn d) (fun mq s =>
      bind (rd d q (1, 1, mq)) (fun x =>
      Some (mkScan (vset (s_min s) mq x) (vset (s_max s) mq x) (s_val s) (s_quad s))))
      (mkScan unset unset unset (fun _ _ => unset)).

  (** tag4refinement.f:11-76 *)
  Definition fort_tag4refinement (q : arr) (xlower ylower : Q) : option Z :=
    bind (start q) (fun s =>
    bind (loop (1 - mbc d) (my d + mbc d) (fun j => loop (1 - mbc d) (mx d + mbc d) (fun i =>
            visit 1 q xlower ylower i j)) (s, 0)) (fun st => Some (snd st))).

  (** tag4coarsening.f:81-134 test_refine; quad and qval are local, qmin and qmax are not *)
  Definition test_refine (q : arr) (xlower ylower : Q) (st : scan * Z) : option (scan * Z) :=
    loop (1 - mbc d) (mx d + mbc d) (fun i => loop (1 - mbc d) (my d + mbc d) (fun j =>
            visit 0 q xlower ylower i j)) (mkScan (s_min (fst st)) (s_max (fst st)) unset (fun _ _ => unset), snd st).

  (** tag4coarsening.f:11-61; [q], [xlower], [ylower] give the data of sibling 0 to 3 *)
  Definition fort_tag4coarsening (q : Z -> arr) (xlower ylower : Z -> Q) : option Z :=
    if negb (init =? 0) then Some 0 else
    bind (start (q 0)) (fun s =>
    bind (test_refine (q 0) (xlower 0) (ylower 0) (s, 1)) (fun st =>
    if snd st =? 0 then Some 0 else
    bind (test_refine (q 1) (xlower 1) (ylower 1) st) (fun st =>
    if snd st =? 0 then Some 0 else
    bind (test_refine (q 2) (xlower 2) (ylower 2) st) (fun st =>
    if snd st =? 0 then Some 0 else
    bind (test_refine (q 3) (xlower 3) (ylower 3) st) (fun st => Some (snd st)))))).
End Scan.

(** fclaw2d_clawpatch.cpp:799-846 clawpatch_tag4refinement *)
Definition tag4refinement (d : dims) (o : topts) (blockno init : Z) (q : arr) (xlower ylower dx dy : Q) : option Z :=
  if Qgtb 0 (refine_threshold o) then Some 1
  else fort_tag4refinement d (tag_criteria (meqn d) o) blockno dx dy (refine_threshold o) init q xlower ylower.

(** fclaw2d_clawpatch.cpp:848-912 clawpatch_tag4coarsening *)
Definition tag4coarsening (d : dims) (o : topts) (blockno init : Z) (q : Z -> arr) (xlower ylower : Z -> Q) (dx dy : Q)
    : option Z :=
  bind (if Qgtb (coarsen_threshold o) 0
        then fort_tag4coarsening d (tag_criteria (meqn d) o) blockno dx dy (coarsen_threshold o) init q xlower ylower
        else Some 0) (fun tag => Some (if tag =? 1 then 1 else 0)).
