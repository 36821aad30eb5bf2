(** Model of GeoClaw's initial state:
    /repo/src/solvers/fc2d_geoclaw/fortran_source/geoclaw_qinit_fort.f90 and add_perturbation in
    /repo/src/solvers/fc2d_geoclaw/geolib_source/qinit_module.f90.

    Simplifications: exact rational numbers; coordinate_system 1; the loops over cells, in which
    a cell reads and writes only its own elements, are a map over the array; the perturbation
    file is a [topofile] whose upper corner is computed from its spacing, as read_qinit computes
    the spacing from the corners. *)
From Coq Require Import ZArith QArith Qround Qminmax List Bool.
From Verif Require Import Model_Topo.
Import ListNotations.
Open Scope Q_scope.

Record ipatch := mkIpatch { i_mx : Z; i_my : Z; i_mbc : Z; i_meqn : Z; i_xlow : Q; i_ylow : Q; i_dx : Q; i_dy : Q }.
(** q(m,i,j) and aux(1,i,j) *)
Definition qarr := Z -> Z -> Z -> Q.

(** geoclaw_qinit_fort.f90:18-22 *)
Definition flat_state (sea b : Q) (m : Z) : Q := if (m =? 1)%Z then Qmax 0 (sea - b) else 0.

(** qinit_module.f90:136-143: the cell *)
Definition icell (p : ipatch) (i j : Z) : rect :=
  let x := i_xlow p + (inject_Z i - (1 # 2)) * i_dx p in
  let y := i_ylow p + (inject_Z j - (1 # 2)) * i_dy p in
  mkRect (x - (1 # 2) * i_dx p) (x + (1 # 2) * i_dx p) (y - (1 # 2) * i_dy p) (y + (1 # 2) * i_dy p).

(** qinit_module.f90:145-171 *)
Definition perturb (qtype : Z) (f : topofile) (sea b : Q) (r : rect) (q : Z -> Q) : Z -> Q :=
  if qltb (t_xlow f) (r_x2 r) && qltb (r_x1 r) (t_xhi f) && (qltb (t_ylow f) (r_y2 r) && qltb (r_y1 r) (t_yhi f)) then
    let xipc := Qmin (r_x2 r) (t_xhi f) in
    let ximc := Qmax (r_x1 r) (t_xlow f) in
    let yjpc := Qmin (r_y2 r) (t_yhi f) in
    let yjmc := Qmax (r_y1 r) (t_ylow f) in
    let dq := topointegral f (mkRect ximc xipc yjmc yjpc) / ((xipc - ximc) * (yjpc - yjmc)) in
    if (qtype <? 4)%Z then
      if Qle_bool b sea then (fun m => if (m =? qtype)%Z then q qtype + dq else q m) else q
    else if (qtype =? 4)%Z then (fun m => if (m =? 1)%Z then Qmax (dq - b) 0 else q m)
    else q
  else q.

(** geoclaw_qinit_fort.f90:1-30 and qinit_module.f90:135-174: all cells of the array, ghost cells included; meqn at least qtype is assumed (the code writes out of bounds otherwise) *)
Definition qinit (qtype : Z) (f : topofile) (sea : Q) (p : ipatch) (aux : Z -> Z -> Q) (q : qarr) : qarr :=
  fun m i j =>
    if ((1 <=? m) && (m <=? i_meqn p) && ((1 - i_mbc p <=? i) && (i <=? i_mx p + i_mbc p)) &&
        ((1 - i_mbc p <=? j) && (j <=? i_my p + i_mbc p)))%Z then
      if (0 <? qtype)%Z then perturb qtype f sea (aux i j) (icell p i j) (flat_state sea (aux i j)) m
      else flat_state sea (aux i j) m
    else q m i j.
