(** Model of how GeoClaw computes the bathymetry of a grid cell from topography files
    (Cartesian coordinates): /repo/src/solvers/fc2d_geoclaw/geolib_source, files
    cellgridintegrate2.f, topointegral.f, bilinearintegral.f and, in topo_module.f90,
    rectintegral, topoarea and intersection.

    Simplifications: exact rational numbers; integration on the sphere (coordinate_system 2)
    is left out; the files are given in the order mtopoorder (finest first), each with its own
    array instead of an offset into topowork; xhitopo and yhitopo are computed from the header
    as read_topo_settings does. *)
From Coq Require Import ZArith QArith Qround Qminmax Qabs List Bool.
Import ListNotations.
Open Scope Q_scope.

(** one topography file: lower left node, spacing, numbers of nodes, and zz(i, j) with j from
    north to south *)
Record topofile := mkTopo {
  t_xlow : Q; t_ylow : Q; t_dx : Q; t_dy : Q; t_mx : Z; t_my : Z; t_zz : Z -> Z -> Q }.
Definition t_xhi (f : topofile) : Q := t_xlow f + inject_Z (t_mx f - 1) * t_dx f.
Definition t_yhi (f : topofile) : Q := t_ylow f + inject_Z (t_my f - 1) * t_dy f.

Record rect := mkRect { r_x1 : Q; r_x2 : Q; r_y1 : Q; r_y2 : Q }.
Definition extent (f : topofile) : rect := mkRect (t_xlow f) (t_xhi f) (t_ylow f) (t_yhi f).

Definition qltb (a b : Q) : bool := negb (Qle_bool b a).

(** topo_module.f90:1474-1502 intersection: indicator, area, rectangle *)
Definition intersection (a b : rect) : bool * Q * rect :=
  let xlo := Qmax (r_x1 a) (r_x1 b) in let xhi := Qmin (r_x2 a) (r_x2 b) in
  let ylo := Qmax (r_y1 a) (r_y1 b) in let yhi := Qmin (r_y2 a) (r_y2 b) in
  if qltb xlo xhi && qltb ylo yhi
  then (true, (xhi - xlo) * (yhi - ylo), mkRect xlo xhi ylo yhi)
  else (false, 0, mkRect xlo xhi ylo yhi).

(** bilinearintegral.f:2-53 bilinearintegral (lines 117-168 of the two files together) *)
Definition bilinearintegral (xim xip yjm yjp x1 x2 y1 y2 dxx dyy z11 z12 z21 z22 : Q) : Q :=
  let xlow := Qmax xim x1 in let ylow := Qmax yjm y1 in
  let xhi := Qmin xip x2 in let yhi := Qmin yjp y2 in
  let area := (yhi - ylow) * (xhi - xlow) in
  let sumxi := (xhi + xlow - 2 * x1) / dxx in
  let sumeta := (yhi + ylow - 2 * y1) / dyy in
  let a := z21 - z11 in let b := z12 - z11 in let c := z22 - z21 - z12 + z11 in let d := z11 in
  ((1 # 2) * (a * sumxi + b * sumeta) + (1 # 4) * c * sumxi * sumeta + d) * area.

(** do k = lo, hi *)
Definition range (lo hi : Z) : list Z :=
  map (fun n => (lo + Z.of_nat n)%Z) (seq 0 (Z.to_nat (hi - lo + 1))).
Definition qsum (l : list Q) : Q := fold_right Qplus 0 l.

(** idint *)
Definition idint (q : Q) : Z := if Qle_bool 0 q then Qfloor q else Qceiling q.

(** topointegral.f:3-115 topointegral (intmethod 1, coordinate_system 1) *)
Definition clip (f : topofile) (r : rect) : rect :=
  let cx := qltb (r_x1 r - t_xlow f) 0 || qltb 0 (r_x2 r - t_xhi f) in
  let cy := qltb (r_y1 r - t_ylow f) 0 || qltb 0 (r_y2 r - t_yhi f) in
  mkRect (if cx then Qmax (t_xlow f) (r_x1 r) else r_x1 r) (if cx then Qmin (t_xhi f) (r_x2 r) else r_x2 r)
         (if cy then Qmax (t_ylow f) (r_y1 r) else r_y1 r) (if cy then Qmin (t_yhi f) (r_y2 r) else r_y2 r).
Definition iistart (f : topofile) (r : rect) : Z := Z.max (idint ((r_x1 r - t_xlow f) / t_dx f) + 1) 1.
Definition jjstart (f : topofile) (r : rect) : Z := Z.max (idint ((r_y1 r - t_ylow f) / t_dy f) + 1) 1.
Definition iiend (f : topofile) (r : rect) : Z := Z.min (t_mx f) (Qceiling ((r_x2 r - t_xlow f) / t_dx f) + 1).
Definition jjend (f : topofile) (r : rect) : Z := Z.min (t_my f) (Qceiling ((r_y2 r - t_ylow f) / t_dy f) + 1).
(** lines 74-106: the part of one cell of the file *)
Definition cell_part (f : topofile) (r : rect) (ii jj : Z) : Q :=
  let y1 := t_ylow f + inject_Z (jj - 1) * t_dy f in
  let y2 := t_ylow f + inject_Z jj * t_dy f in
  let jjz1 := (t_my f - jj + 1)%Z in
  let jjz2 := (jjz1 - 1)%Z in
  let x1 := t_xlow f + inject_Z (ii - 1) * t_dx f in
  let x2 := t_xlow f + inject_Z ii * t_dx f in
  let z11 := t_zz f ii jjz1 in
  let z12 := t_zz f ii jjz2 in
  let z21 := t_zz f (ii + 1) jjz1 in
  let z22 := t_zz f (ii + 1) jjz2 in
  bilinearintegral (r_x1 r) (r_x2 r) (r_y1 r) (r_y2 r) x1 x2 y1 y2 (t_dx f) (t_dy f) z11 z12 z21 z22.
Definition topointegral (f : topofile) (r0 : rect) : Q :=
  let r := clip f r0 in
  qsum (map (fun jj => qsum (map (fun ii => cell_part f r ii jj) (range (iistart f r) (iiend f r - 1))))
            (range (jjstart f r) (jjend f r - 1))).

(** topo_module.f90:1382-1470 rectintegral; the list holds the files m, m+1, ..., mtopofiles *)
Fixpoint rectintegral (fs : list topofile) (r : rect) : Q :=
  match fs with
  | [] => 0
  | f :: rest =>
    let '(indicator, area, i) := intersection r (extent f) in
    match rest with
    | [] => if indicator then topointegral f i else 0
    | _ =>
      let int1 := rectintegral rest r in
      if qltb 0 area then int1 - rectintegral rest i + topointegral f i else int1
    end
  end.

(** topo_module.f90:1307-1378 topoarea *)
Fixpoint topoarea (fs : list topofile) (r : rect) : Q :=
  match fs with
  | [] => 0
  | f :: rest =>
    let '(_, area, i) := intersection r (extent f) in
    match rest with
    | [] => area
    | _ =>
      let area1 := topoarea rest r in
      if qltb 0 area then area1 - topoarea rest i + area else area1
    end
  end.

(** cellgridintegrate2.f:2-88 cellgridintegrate; [None] is the stop of line 80 *)
Fixpoint cellgridintegrate (fs : list topofile) (r : rect) : option Q :=
  match fs with
  | [] => None
  | f :: rest =>
    let cellarea := (r_x2 r - r_x1 r) * (r_y2 r - r_y1 r) in
    let '(indicator, area, i) := intersection r (extent f) in
    if indicator then
      if Qeq_bool area cellarea then Some (0 + topointegral f i) else Some (rectintegral fs r)
    else cellgridintegrate rest r
  end.

(** topo_module.f90:281-295 the check of read_topo_settings that the files cover the domain *)
Inductive coverage := Covered | Warning | Stop.
Definition check_cover (fs : list topofile) (dom : rect) : coverage :=
  let area := topoarea fs dom in
  let area_domain := (r_y2 dom - r_y1 dom) * (r_x2 dom - r_x1 dom) in
  if qltb ((1 # 100) * area_domain) (Qabs (area - area_domain)) then Stop
  else if qltb ((1 # 1000000000000) * area_domain) (Qabs (area - area_domain)) then Warning
  else Covered.

(** geoclaw_setaux_fort.f90:194-206 the bathymetry aux(1,i,j) of a cell (coordinate_system 1) *)
Definition cell_bathymetry (fs : list topofile) (r : rect) : option Q :=
  match cellgridintegrate fs r with
  | Some v => Some (v / ((r_x2 r - r_x1 r) * (r_y2 r - r_y1 r)))
  | None => None
  end.
