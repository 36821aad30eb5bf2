(** Diagnostics: error norms and the conservation check (2D, clawpack 4.6).

    src/fclaw2d_diagnostics.c:118-212, src/patches/clawpatch/fclaw2d_clawpatch_diagnostics.c,
    src/patches/clawpatch/fclaw2d_clawpatch_diagnostics_default.c,
    src/patches/clawpatch/fort_4.6/fclaw2d_clawpatch46_diagnostics.f, src/forestclaw2d.c (global sum and maximum).

    Simplifications: arithmetic is exact; the 2-norm is represented by the number under the square root; use of an
    unassigned element, indices out of bounds and failed assertions are the outcome [None].  The user's routine for the
    error on a patch is an arbitrary function.  Gauges, rays, solver and user diagnostics are not in this model. *)
From Coq Require Import ZArith QArith Qminmax Qabs List Lia Bool.
From Verif Require Import Base_Float Model_Face Model_Grid.
Import ListNotations.
Open Scope Z_scope.

(** error_info_t (fclaw2d_clawpatch_diagnostics.h); arrays by index from 0.  global_error is only written. *)
Record accum := mkAcc { local_error : Z -> Q; mass : Z -> Q; mass0 : Z -> Q; c_kahan : Z -> Q; acc_area : Q }.
Definition upd1 (f : Z -> Q) (k : Z) (v : Q) : Z -> Q := fun j => if j =? k then v else f j.

(** a patch: spacing, cell areas, the solution *)
Record pdata := mkP { p_dx : Q; p_dy : Q; p_area : area_t; p_q : arr }.

(** what is printed: for each equation the norms, and the sum with its difference to the stored one *)
Record report := mkRep { norms : list (Q * Q * Q); sums : list (Q * Q) }.

Section Diag.
  Variable d : dims.
  Variable map_used : bool.                           (* fclaw2d_map_is_used *)
  Variable compute_error conservation_check : bool.   (* options *)
  Variable patch_error : option (pdata -> arr).       (* fort_compute_patch_error: the array "error" it leaves *)

  (** fclaw2d_clawpatch_diagnostics.c:58-81 fclaw2d_clawpatch_diagnostics_initialize *)
  Definition diag_initialize : accum := mkAcc (fun _ => 0%Q) (fun _ => 0%Q) (fun _ => 0%Q) (fun _ => 0%Q) 0%Q.

  (** int m = lo; m < hi; m++ *)
  Definition for_m {A} (n : Z) (f : Z -> A -> A) (a : A) : A :=
    fold_left (fun a m => f (Z.of_nat m) a) (seq 0 (Z.to_nat n)) a.

  (** fclaw2d_clawpatch_diagnostics.c:83-104 fclaw2d_clawpatch_diagnostics_reset *)
  Definition diag_reset (a : accum) : accum :=
    let a := for_m (meqn d) (fun m a =>
      mkAcc (upd1 (upd1 (upd1 (local_error a) m 0%Q) (meqn d + m) 0%Q) (2 * meqn d + m) 0%Q)
        (upd1 (mass a) m 0%Q) (mass0 a) (upd1 (c_kahan a) m 0%Q) (acc_area a)) a in
    mkAcc (local_error a) (mass a) (mass0 a) (c_kahan a) 0%Q.

  (** fclaw2d_clawpatch46_diagnostics.f:60-98 fclaw2d_clawpatch46_fort_compute_patch_area *)
  Definition compute_patch_area (p : pdata) : option Q :=
    if map_used then
      loop 1 (my d) (fun j => loop 1 (mx d) (fun i s =>
        bind (rd_area d (p_area p) i j) (fun a => Some (s + a)%Q))) 0%Q
    else Some (p_dx p * p_dy p * inject_Z (mx d) * inject_Z (my d))%Q.

  (** fclaw2d_clawpatch46_diagnostics.f:13-58 fclaw2d_clawpatch46_fort_conservation_check; sum(m) is element m-1 *)
  Definition fort_conservation_check (p : pdata) (s : (Z -> Q) * (Z -> Q)) : option ((Z -> Q) * (Z -> Q)) :=
    loop 1 (meqn d) (fun m => loop 1 (my d) (fun j => loop 1 (mx d) (fun i '(sum, c) =>
      bind (if map_used then rd_area d (p_area p) i j else Some (p_dx p * p_dy p)%Q) (fun area_ij =>
      bind (rd d (p_q p) (i, j, m)) (fun q =>
      let y := (q * area_ij - c (m - 1)%Z)%Q in
      let t := (sum (m - 1)%Z + y)%Q in
      Some (upd1 sum (m - 1) t, upd1 c (m - 1) ((t - sum (m - 1)%Z) - y)%Q)))))) s.

  (** fclaw2d_clawpatch46_diagnostics.f:101-157 fclaw2d_clawpatch46_fort_compute_error_norm; error_norm(m,k) is element
      (k-1)*mfields + m-1 *)
  Definition fidx (m k : Z) : Z := (k - 1) * meqn d + (m - 1).
  Definition fort_compute_error_norm (p : pdata) (error : arr) (e : Z -> Q) : option (Z -> Q) :=
    loop 1 (meqn d) (fun m => loop 1 (my d) (fun j => loop 1 (mx d) (fun i e =>
      bind (rd d error (i, j, m)) (fun x => let eij := Qabs x in
      bind (if map_used then rd_area d (p_area p) i j else Some (p_dx p * p_dy p)%Q) (fun area_ij =>
      let e := upd1 e (fidx m 1) (e (fidx m 1) + eij * area_ij)%Q in
      let e := upd1 e (fidx m 2) (e (fidx m 2) + eij * eij * area_ij)%Q in
      Some (upd1 e (fidx m 3) (Qmax eij (e (fidx m 3))))))))) e.

  (** fclaw2d_clawpatch_diagnostics_default.c:57-99 fclaw2d_clawpatch_diagnostics_cons_default *)
  Definition cons_default (p : pdata) (a : accum) : option accum :=
    bind (fort_conservation_check p (mass a, c_kahan a)) (fun '(m, c) =>
    Some (mkAcc (local_error a) m (mass0 a) c (acc_area a))).
  (** fclaw2d_clawpatch_diagnostics_default.c:101-161 fclaw2d_clawpatch_diagnostics_error_default *)
  Definition error_default (p : pdata) (a : accum) : option accum :=
    match patch_error with
    | None => Some a
    | Some f =>
        bind (fort_compute_error_norm p (f p) (local_error a)) (fun e =>
        Some (mkAcc e (mass a) (mass0 a) (c_kahan a) (acc_area a)))
    end.

  (** fclaw2d_clawpatch_diagnostics.c:108-148 cb_compute_diagnostics *)
  Definition cb_compute_diagnostics (p : pdata) (a : accum) : option accum :=
    bind (compute_patch_area p) (fun ar =>
    let a := mkAcc (local_error a) (mass a) (mass0 a) (c_kahan a) (acc_area a + ar)%Q in
    bind (if compute_error then error_default p a else Some a) (fun a =>
    if conservation_check then cons_default p a else Some a)).
  (** fclaw2d_clawpatch_diagnostics.c:150-160 fclaw2d_clawpatch_diagnostics_compute *)
  Fixpoint iterate_patches (l : list pdata) (a : accum) : option accum :=
    match l with [] => Some a | p :: l => bind (cb_compute_diagnostics p a) (iterate_patches l) end.
  Definition diag_compute (l : list pdata) (a : accum) : option accum :=
    if compute_error || conservation_check then iterate_patches l a else Some a.

  (** forestclaw2d.c fclaw2d_domain_global_sum, fclaw2d_domain_global_maximum: the value of each process *)
  Definition global_sum (l : list Q) : Q := fold_right Qplus 0%Q l.
  Definition global_maximum (l : list Q) : option Q :=
    match l with [] => None | x :: l => Some (fold_left Qmax l x) end.

  Fixpoint all_some {A} (l : list (option A)) : option (list A) :=
    match l with [] => Some [] | x :: l => bind x (fun x => bind (all_some l) (fun l => Some (x :: l))) end.
  Definition zs (n : Z) : list Z := map Z.of_nat (seq 0 (Z.to_nat n)).

  (** fclaw2d_clawpatch_diagnostics.c:164-231 fclaw2d_clawpatch_diagnostics_gather, on all processes; the printed values *)
  Definition gather_norms (l : list accum) : option (list (Q * Q * Q)) :=
    if compute_error then
      let total_area := global_sum (map acc_area l) in
      if Qeq_bool total_area 0 then None else          (* FCLAW_ASSERT (total_area != 0) *)
      all_some (map (fun m =>
        bind (global_maximum (map (fun a => local_error a (2 * meqn d + m)) l)) (fun mx =>
        Some (global_sum (map (fun a => local_error a m) l) / total_area,
              global_sum (map (fun a => local_error a (meqn d + m)) l) / total_area, mx)%Q)) (zs (meqn d)))
    else Some [].
  Definition gather_mass (init_flag : bool) (l : list accum) : list accum * list (Q * Q) :=
    if conservation_check then
      let total m := global_sum (map (fun a => mass a m) l) in
      let l := if init_flag
        then map (fun a => for_m (meqn d) (fun m a => mkAcc (local_error a) (mass a) (upd1 (mass0 a) m (total m)) (c_kahan a) (acc_area a)) a) l
        else l in
      (* printed by the first process *)
      (l, map (fun m => (total m, Qabs (total m - match l with [] => 0%Q | a :: _ => mass0 a m end)%Q)) (zs (meqn d)))
    else (l, []).

  (** fclaw2d_diagnostics.c:121-179 fclaw2d_diagnostics_gather: [forest] are the local patches of each process, [l] the
      accumulators of each process *)
  Definition diagnostics_gather (init_flag : bool) (forest : list (list pdata)) (l : list accum) : option (list accum * report) :=
    bind (all_some (map (fun '(ps, a) => diag_compute ps a) (combine forest l))) (fun l =>
    bind (gather_norms l) (fun ns =>
    let '(l, ms) := gather_mass init_flag l in
    Some (map diag_reset l, mkRep ns ms))).

  (** a run: diagnostics are gathered again and again (fclaw2d_run.c), with the patches of the moment *)
  Fixpoint gathers (h : list (bool * list (list pdata))) (l : list accum) : option (list accum * list report) :=
    match h with
    | [] => Some (l, [])
    | (flag, forest) :: h =>
        bind (diagnostics_gather flag forest l) (fun '(l, r) =>
        bind (gathers h l) (fun '(l, rs) => Some (l, r :: rs)))
    end.
End Diag.
