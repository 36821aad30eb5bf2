(** Tagging of extruded patches for refinement and coarsening.

    src/patches/clawpatch/fort3_4.6/fclaw3dx_clawpatch46_tag4refinement.f90, fclaw3dx_clawpatch46_tag4coarsening.f90,
    src/patches/clawpatch/fort3_user/, src/patches/clawpatch/fclaw2d_clawpatch.cpp:799-912 with PATCH_DIM = 3.

    Simplifications: those of Model_Tag.  A criterion supplied by the user is not modelled. *)
From Coq Require Import ZArith QArith Qminmax Qabs List Bool.
From Verif Require Import Base_Float Model_Face Model_Grid Model_Tag Model_Extruded.
Import ListNotations.
Open Scope Z_scope.

(** the arguments of the function that tests a cell (fort3_user/fclaw3dx_clawpatch_tag_criteria.c:44-57) that the
    built-in criteria use *)
Record cargs3 := mkArgs3 { a_qval : vec; a_qmin : vec; a_qmax : vec; a_quad : Z -> Z -> Z -> vec;
  a_dx : Q; a_dy : Q; a_dz : Q; a_th : Q; a_ghost : bool }.

Section Criteria3.
  Variable meqn : Z.
  (** the options refinement_criteria and threshold_variable *)
  Variables crit mq : Z.

  (** fort3_user/fclaw3dx_clawpatch_value_exceeds_th.f90 *)
  Definition value_exceeds3 (a : cargs3) : option Z :=
    bind (rdv meqn (a_qval a) mq) (fun x => Some (if Qgtb x (a_th a) then 1 else 0)).

  (** fort3_user/fclaw3dx_clawpatch_difference_exceeds_th.f90 *)
  Definition difference_exceeds3 (a : cargs3) : option Z :=
    if a_ghost a then Some (-1) else
    bind (rdv meqn (a_quad a 1 0 0) mq) (fun e => bind (rdv meqn (a_quad a (-1) 0 0) mq) (fun w =>
    bind (rdv meqn (a_quad a 0 1 0) mq) (fun n => bind (rdv meqn (a_quad a 0 (-1) 0) mq) (fun s =>
    bind (rdv meqn (a_quad a 0 0 1) mq) (fun t => bind (rdv meqn (a_quad a 0 0 (-1)) mq) (fun b =>
    let dqx := Qabs (e - w) in
    let dqy := Qabs (n - s) in
    let dqz := Qabs (t - b) in
    let dq := Qmax (Qmax dqx dqy) dqz in
    Some (if Qgtb dq (a_th a) then 1 else 0))))))).

  (** fort3_user/fclaw3dx_clawpatch_minmax_exceeds_th.f90 *)
  Definition minmax_exceeds3 (a : cargs3) : option Z :=
    bind (rdv meqn (a_qmax a) mq) (fun hi =>
    bind (rdv meqn (a_qmin a) mq) (fun lo =>
    Some (if Qgtb (hi - lo) (a_th a) then 1 else 0))).

  (** fort3_user/fclaw3dx_clawpatch_gradient_exceeds_th.f90; division by zero is the outcome None *)
  Definition gradient_exceeds3 (a : cargs3) : option Z :=
    if a_ghost a then Some (-1) else
    let dx2 := (2 * a_dx a)%Q in
    let dy2 := (2 * a_dy a)%Q in
    let dz2 := (2 * a_dz a)%Q in
    bind (rdv meqn (a_quad a 1 0 0) mq) (fun e => bind (rdv meqn (a_quad a (-1) 0 0) mq) (fun w =>
    bind (rdv meqn (a_quad a 0 1 0) mq) (fun n => bind (rdv meqn (a_quad a 0 (-1) 0) mq) (fun s =>
    bind (rdv meqn (a_quad a 0 0 1) mq) (fun t => bind (rdv meqn (a_quad a 0 0 (-1)) mq) (fun b =>
    if Qeq_bool dx2 0 || Qeq_bool dy2 0 || Qeq_bool dz2 0 then None else
    let dqx := ((e - w) / dx2)%Q in
    let dqy := ((n - s) / dy2)%Q in
    let dqz := ((t - b) / dz2)%Q in
    Some (if sqrt_gt (dqx * dqx + dqy * dqy + dqz * dqz) (a_th a) then 1 else 0))))))).

  (** fort3_user/fclaw3dx_clawpatch_tag_criteria.c:44-120 *)
  Definition tag_criteria3 (a : cargs3) : option Z :=
    match crit with
    | 0 => value_exceeds3 a
    | 1 => difference_exceeds3 a
    | 2 => minmax_exceeds3 a
    | 3 => gradient_exceeds3 a
    | _ => None
    end.
End Criteria3.

Section Scan3.
  Variable d : dims3.
  Variables crit tvar : Z.
  Variables dx dy dz : Q.

  Record scan3 := mkScan3 { t_min : vec; t_max : vec; t_val : vec; t_quad : Z -> Z -> Z -> vec }.

  (** tag4refinement.f90:72-86 clawpatch3_is_ghost *)
  Definition is_ghost3 (i j k : Z) : bool :=
    negb ((1 <=? i) && (i <=? mx (flat d)) && (1 <=? j) && (j <=? my (flat d)) && (1 <=? k) && (k <=? mz d)).

  (** tag4refinement.f90:37-41, tag4coarsening.f90:80-84 *)
  Definition take3 (q : arr3) (i j k : Z) (s : scan3) : option scan3 :=
    loop 1 (meqn (flat d)) (fun mq s =>
      bind (rd3 d q (i, j, k, mq)) (fun x =>
      bind (t_min s mq) (fun lo => bind (t_max s mq) (fun hi =>
      Some (mkScan3 (vset (t_min s) mq (Qmin lo x)) (vset (t_max s) mq (Qmax hi x)) (vset (t_val s) mq x) (t_quad s)))))) s.

  (** tag4refinement.f90:46-56, tag4coarsening.f90:86-96 (loops exchanged, same result) *)
  Definition fill_quad3 (q : arr3) (i j k : Z) (s : scan3) : option scan3 :=
    loop (-1) 1 (fun jj => loop (-1) 1 (fun ii => loop (-1) 1 (fun kk => loop 1 (meqn (flat d)) (fun mq s =>
      bind (rd3 d q (i + ii, j + jj, k + kk, mq)) (fun x =>
      Some (mkScan3 (t_min s) (t_max s) (t_val s)
             (fun ii' jj' kk' => if (ii' =? ii) && (jj' =? jj) && (kk' =? kk) then vset (t_quad s ii jj kk) mq x
                                 else t_quad s ii' jj' kk'))))))) s.

  (** the body of the loops; [stop] is the value given to tag_patch when the test succeeds, after which the routine
      returns *)
  Definition visit3 (stop : Z) (th : Q) (q : arr3) (i j k : Z) (st : scan3 * Z) : option (scan3 * Z) :=
    let '(s, tag) := st in
    if tag =? stop then Some st else
    bind (take3 q i j k s) (fun s =>
    bind (if is_ghost3 i j k then Some s else fill_quad3 q i j k s) (fun s =>
    bind (tag_criteria3 (meqn (flat d)) crit tvar
            (mkArgs3 (t_val s) (t_min s) (t_max s) (t_quad s) dx dy dz th (is_ghost3 i j k))) (fun exceeds =>
    Some (s, if 0 <? exceeds then stop else tag)))).

  Definition unset3 : Z -> Z -> Z -> vec := fun _ _ _ => unset.

  (** tag4refinement.f90:27-30, tag4coarsening.f90:28-31 *)
  Definition start3 (q : arr3) : option scan3 :=
    loop 1 (meqn (flat d)) (fun mq s =>
      bind (rd3 d q (1, 1, 1, mq)) (fun x =>
      Some (mkScan3 (vset (t_min s) mq x) (vset (t_max s) mq x) (t_val s) (t_quad s))))
      (mkScan3 unset unset unset unset3).

  (** tag4refinement.f90:1-70: all layers, also those above and below *)
  Definition fort_tag4refinement3 (th : Q) (q : arr3) : option Z :=
    bind (start3 q) (fun s =>
    bind (loop (1 - mbc (flat d)) (mz d + mbc (flat d)) (fun k => loop (1 - mbc (flat d)) (my (flat d) + mbc (flat d)) (fun j =>
          loop (1 - mbc (flat d)) (mx (flat d) + mbc (flat d)) (fun i => visit3 1 th q i j k))) (s, 0)) (fun st => Some (snd st))).

  (** tag4coarsening.f90:54-120 test_refine3: layers 1 to mz only *)
  Definition test_refine3 (th : Q) (q : arr3) (st : scan3 * Z) : option (scan3 * Z) :=
    loop 1 (mz d) (fun k => loop (1 - mbc (flat d)) (mx (flat d) + mbc (flat d)) (fun i =>
          loop (1 - mbc (flat d)) (my (flat d) + mbc (flat d)) (fun j => visit3 0 th q i j k)))
      (mkScan3 (t_min (fst st)) (t_max (fst st)) unset unset3, snd st).

  (** tag4coarsening.f90:1-52; [q g]: sibling g *)
  Definition fort_tag4coarsening3 (th : Q) (init : Z) (q : Z -> arr3) : option Z :=
    if negb (init =? 0) then Some 0 else
    bind (start3 (q 0)) (fun s =>
    bind (test_refine3 th (q 0) (s, 1)) (fun st =>
    if snd st =? 0 then Some 0 else
    bind (test_refine3 th (q 1) st) (fun st =>
    if snd st =? 0 then Some 0 else
    bind (test_refine3 th (q 2) st) (fun st =>
    if snd st =? 0 then Some 0 else
    bind (test_refine3 th (q 3) st) (fun st => Some (snd st)))))).

  (** fclaw2d_clawpatch.cpp:799-846 clawpatch_tag4refinement *)
  Definition tag4refinement3 (refine_th : Q) (q : arr3) : option Z :=
    if Qgtb 0 refine_th then Some 1 else fort_tag4refinement3 refine_th q.
  (** fclaw2d_clawpatch.cpp:848-912 clawpatch_tag4coarsening *)
  Definition tag4coarsening3 (coarsen_th : Q) (init : Z) (q : Z -> arr3) : option Z :=
    bind (if Qgtb coarsen_th 0 then fort_tag4coarsening3 coarsen_th init q else Some 0) (fun tag => Some (if tag =? 1 then 1 else 0)).
End Scan3.
