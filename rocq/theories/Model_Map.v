(** The mappings of the library, from a block and a point of the unit square to a point in space.

    Modelled: src/mappings/*/mapc2m_*.f, src/mappings/scale_rot_map.f set_rotation_matrix, and set_scale, set_shift, set_rotate, scale_map,
    shift_map, rotate_map of src/fclaw2d_map.c.

    Simplifications: double precision is exact real arithmetic (so sign (1, x) is 1 for x = 0 of either sign).  The common block
    /compi/ pi, pi2, which applications set, holds pi and 2 pi.  A block number for which a routine stops or assigns nothing is [None]. *)
From Coq Require Import ZArith Reals List Bool.
Import ListNotations.
Open Scope R_scope.

Definition point : Type := R * R * R.
Definition pi2 : R := 2 * PI.
(** the Fortran function sign (1.d0, x) *)
Definition sign1 (x : R) : R := if Rle_dec 0 x then 1 else -1.

(** mapc2m_identity.f:1-13 *)
Definition mapc2m_identity (xc yc : R) : point := (xc, yc, 0).
(** mapc2m_cart.f:1-13 *)
Definition mapc2m_cart (xc yc : R) : point := (2 * xc - 1, 2 * yc - 1, 0).
(** mapc2m_annulus.f:1-21 *)
Definition mapc2m_annulus (beta t1 t2 xc yc : R) : point :=
  let t := t1 + (t2 - t1) * xc in
  let r := beta + (1 - beta) * yc in
  (r * cos (2 * PI * t), r * sin (2 * PI * t), 0).
(** mapc2m_latlong.f:2-25 *)
Definition mapc2m_latlong (xc yc : R) : point :=
  let deg2rad := PI / 180 in
  let xc1 := deg2rad * xc in
  let yc1 := deg2rad * yc in
  (cos yc1 * cos xc1, cos yc1 * sin xc1, sin yc1).
(** mapc2m_torus.f:1-19 *)
Definition mapc2m_torus (alpha beta xc yc : R) : point :=
  let r1 := alpha * (1 + beta * sin (pi2 * xc)) in
  let r := 1 + r1 * cos (pi2 * yc) in
  (r * cos (pi2 * xc), r * sin (pi2 * xc), r1 * sin (pi2 * yc)).
(** mapc2m_twisted_torus.f:1-17 *)
Definition mapc2m_twisted_torus (alpha xc yc : R) : point :=
  let r := 1 + alpha * cos (pi2 * (yc + xc)) in
  (r * cos (pi2 * xc), r * sin (pi2 * xc), alpha * sin (pi2 * (yc + xc))).

(** mapc2m_bilinear.f:1-62.  [quad i j] is (quad(i,j,1), quad(i,j,2)) *)
Definition shiftx (b : Z) : R := match b with 0%Z => -1 | 1%Z => 0 | 2%Z => -1 | _ => 0 end.
Definition shifty (b : Z) : R := match b with 0%Z => -1 | 1%Z => -1 | 2%Z => 0 | _ => 0 end.
Definition mapc2m_bilinear (center : R * R) (b : Z) (xc yc : R) : option point :=
  let quad0 (i j : Z) : R * R := match i, j with 0%Z, 0%Z => (0, 0) | 1%Z, 0%Z => (1, 0) | 0%Z, _ => (0, 1) | _, _ => (1, 1) end in
  let quad1 i j := (fst (quad0 i j) + shiftx b, snd (quad0 i j) + shifty b) in
  let quad i j :=
    (if (b =? 0) && (i =? 1) && (j =? 1) || (b =? 1) && (i =? 0) && (j =? 1) || (b =? 2) && (i =? 1) && (j =? 0) || (b =? 3) && (i =? 0) && (j =? 0)
     then center else quad1 i j)%Z in
  let coord (m : R * R -> R) :=
    let a00 := m (quad 0 0)%Z in
    let a01 := m (quad 1 0)%Z - m (quad 0 0)%Z in
    let a10 := m (quad 0 1)%Z - m (quad 0 0)%Z in
    let a11 := m (quad 1 1)%Z - m (quad 1 0)%Z - m (quad 0 1)%Z + m (quad 0 0)%Z in
    a00 + a01 * xc + a10 * yc + a11 * xc * yc in
  if ((0 <=? b) && (b <=? 3))%Z then Some (coord fst, coord snd, 0) else None.

(** mapc2m_cubedsphere.f:26-43 csphere_basic *)
Definition csphere_basic (xc yc : R) : R * R * R :=
  let tan_xi := tan (1 / 2 * PI * (xc - 1 / 2)) in
  let tan_eta := tan (1 / 2 * PI * (yc - 1 / 2)) in
  let zp := 1 / sqrt (tan_xi ^ 2 + tan_eta ^ 2 + 1) in
  (zp * tan_xi, zp * tan_eta, zp).
(** mapc2m_cubedsphere.f:1-24 *)
Definition mapc2m_cubedsphere (b : Z) (xc yc : R) : option point :=
  let '(u, v, w) := csphere_basic xc yc in
  match b with
  | 0%Z => Some (v, u, - w)
  | 1%Z => Some (v, w, u)
  | 2%Z => Some (- w, v, u)
  | 3%Z => Some (u, v, w)
  | 4%Z => Some (u, - w, v)
  | 5%Z => Some (w, u, v)
  | _ => None
  end.

(** mapc2m_fivepatch.f:39-72 bilinear_help *)
Definition bilinear_help (alpha xi eta : R) : R * R :=
  let pt a u1 v1 v2 := a + u1 * xi + v1 * eta + (v2 - v1) * xi * eta in
  (pt (- alpha) (alpha - - alpha) (-1 - - alpha) (1 - alpha), pt alpha (alpha - alpha) (1 - alpha) (1 - alpha)).
(** mapc2m_fivepatch.f:2-37 *)
Definition mapc2m_fivepatch (alpha : R) (b : Z) (xc yc : R) : option point :=
  match b with
  | 2%Z => Some ((2 * xc - 1) * alpha, (2 * yc - 1) * alpha, 0)
  | 0%Z => let '(u, v) := bilinear_help alpha xc (1 - yc) in Some (u, - v, 0)
  | 1%Z => let '(u, v) := bilinear_help alpha yc (1 - xc) in Some (- v, u, 0)
  | 3%Z => let '(u, v) := bilinear_help alpha yc xc in Some (v, u, 0)
  | 4%Z => let '(u, v) := bilinear_help alpha xc yc in Some (u, v, 0)
  | _ => None
  end.

(** mapc2m_squareddisk.f:48-73 squareddisk_help *)
Definition squareddisk_help (alpha xi eta : R) : R * R :=
  let r := Rpower alpha (1 - eta) in
  let tau := tan (1 / 2 * PI * (xi - 1 / 2)) in
  let xi_prime := 2 * (1 - eta) * (xi - 1 / 2) + eta * tau in
  let y := r / sqrt (2 + eta * (tau ^ 2 - 1)) in
  (y * xi_prime, y).
(** mapc2m_squareddisk.f:6-46 *)
Definition mapc2m_squareddisk (alpha : R) (b : Z) (xc yc : R) : option point :=
  match b with
  | 2%Z => Some ((2 * xc - 1) * alpha / sqrt 2, (2 * yc - 1) * alpha / sqrt 2, 0)
  | 0%Z => let '(u, v) := squareddisk_help alpha xc (1 - yc) in Some (u, - v, 0)
  | 1%Z => let '(u, v) := squareddisk_help alpha yc (1 - xc) in Some (- v, u, 0)
  | 3%Z => let '(u, v) := squareddisk_help alpha yc xc in Some (v, u, 0)
  | 4%Z => let '(u, v) := squareddisk_help alpha xc yc in Some (u, v, 0)
  | _ => None
  end.

(** mapc2m_pillowdisk.f:62-70 map_disk_north_sector; mapc2m_pillowsphere.f:117-125 map_north_sector_sp *)
Definition map_north_sector (xi eta : R) : R * R := (xi, sqrt (2 - xi ^ 2) - sqrt (2 - eta ^ 2) + eta).
(** mapc2m_pillowdisk.f:45-57; mapc2m_pillowsphere.f:101-112 *)
Definition to_sector (xc yc : R) (p : R * R) : R * R :=
  let '(x, y) := p in
  let minxy := Rmin (Rabs x) (Rabs y) in
  let maxxy := Rmax (Rabs x) (Rabs y) in
  if Rle_dec (Rabs xc) (Rabs yc) then (sign1 xc * minxy, sign1 yc * maxxy) else (sign1 xc * maxxy, sign1 yc * minxy).
(** mapc2m_pillowdisk.f:31-59 mapc2p_disk_circle *)
Definition mapc2p_disk_circle (xc yc : R) : R * R :=
  let xi := Rmin (Rabs xc) (Rabs yc) in
  let eta := Rmax (Rmax (Rabs xc) (Rabs yc)) (/ 10 ^ 10) in
  to_sector xc yc (map_north_sector xi eta).
(** mapc2m_pillowdisk.f:9-27 *)
Definition mapc2m_pillowdisk (xc1 yc1 : R) : point :=
  let '(xc, yc, _) := mapc2m_cart xc1 yc1 in
  let '(xp, yp) := mapc2p_disk_circle xc yc in
  (xp / sqrt 2, yp / sqrt 2, 0).
(** mapc2m_pillowdisk5.f:1-17 *)
Definition mapc2m_pillowdisk5 (alpha : R) (b : Z) (xc1 yc1 : R) : option point :=
  match mapc2m_fivepatch alpha b xc1 yc1 with
  | None => None
  | Some (xc, yc, _) => Some (mapc2m_pillowdisk ((xc + 1) / 2) ((yc + 1) / 2))
  end.

(** mapc2m_pillowsphere.f:72-114 mapc2p_circle_sp *)
Definition mapc2p_circle_sp (x1 y1 : R) : R * R :=
  let xc := if Rlt_dec x1 (-1) then - (x1 + 2) else x1 in
  let yc := y1 in
  let xi := Rmin (Rabs xc) (Rabs yc) in
  let eta := Rmax (Rmax (Rabs xc) (Rabs yc)) (/ 10 ^ 10) in
  let dd := sin (PI * eta / 2) in
  to_sector xc yc (map_north_sector (xi / eta * dd) dd).
(** mapc2m_pillowsphere.f:10-66; [pillow] is ispillowsphere () *)
Definition mapc2m_pillowsphere (pillow : bool) (b : Z) (xc1 yc1 : R) : point :=
  let '(xc, yc, _) := mapc2m_cart xc1 yc1 in
  let inside c := let d := Rmax (c - 1) 0 + Rmax (-1 - c) 0 in (1 - d) / (1 + d) * c in
  let '(xp, yp) := mapc2p_circle_sp (inside xc) (inside yc) in
  let rp2 := xp ^ 2 + yp ^ 2 in
  let zp := if Rlt_dec (Rabs (rp2 - 2)) (/ 10 ^ 10) then 0 else sqrt (2 - rp2) in
  let l1 := if Rlt_dec 1 (Rabs xc) then true else false in
  let l2 := if Rlt_dec 1 (Rabs yc) then true else false in
  let zp := if xorb l1 l2 then - zp else zp in
  let zp := zp / sqrt 2 in
  (xp / sqrt 2, yp / sqrt 2, if pillow && (b =? 1)%Z then - zp else zp).

(** ** Scaling, shifting, rotating *)
(** a Fortran matrix; scale_rot_map.f:99-147 set_rotation_matrix *)
Definition matrix := Z -> Z -> R.
Definition unit_matrix : matrix := fun i j => if (i =? j)%Z then 1 else 0.
Definition set_entry (m : matrix) (i j : Z) (x : R) : matrix := fun i' j' => if ((i' =? i) && (j' =? j))%Z then x else m i' j'.
Definition set_rotation_matrix (th phi : R) : matrix :=
  let r1 := set_entry unit_matrix 1 1 (cos th) in
  let r1 := set_entry r1 1 2 (- sin th) in
  let r1 := set_entry r1 2 1 (- (r1 1 2)%Z) in
  let r1 := set_entry r1 2 2 (r1 1 1)%Z in
  let r2 := set_entry unit_matrix 1 1 (cos phi) in
  let r2 := set_entry r2 1 3 (- sin phi) in
  let r2 := set_entry r2 3 1 (- (r2 1 3)%Z) in
  let r2 := set_entry r2 3 3 (r2 1 1)%Z in
  fun i j => fold_left (fun a k => a + r2 i k * r1 k j) [1; 2; 3]%Z 0.
(** the nine numbers of the matrix in memory, columns first *)
Definition in_memory (m : matrix) (o : Z) : R := m (o mod 3 + 1)%Z (o / 3 + 1)%Z.

(** fclaw2d_map.h: scale, shift and rotate of a context *)
Record context := mkContext { scale : point; shift : point; rotate : Z -> R }.
(** fclaw2d_map.c:498-525 set_scale, set_shift, set_rotate *)
Definition set_scale (c : context) (s : point) : context := mkContext s (shift c) (rotate c).
Definition set_shift (c : context) (s : point) : context := mkContext (scale c) s (rotate c).
Definition set_rotate (c : context) (a0 a1 : R) : context := mkContext (scale c) (shift c) (in_memory (set_rotation_matrix a0 a1)).
(** fclaw2d_map.c:527-561 scale_map, shift_map, rotate_map *)
Definition scale_map (c : context) (p : point) : point := let '(x, y, z) := p in let '(a, b, d) := scale c in (x * a, y * b, z * d).
Definition shift_map (c : context) (p : point) : point := let '(x, y, z) := p in let '(a, b, d) := shift c in (x + a, y + b, z + d).
Definition rotate_map (c : context) (p : point) : point :=
  let '(x, y, z) := p in
  let v (j : Z) := match j with 0%Z => x | 1%Z => y | _ => z end in
  let vrot (i : Z) := fold_left (fun a j => a + rotate c (3 * j + i)%Z * v j) [0; 1; 2]%Z 0 in
  (vrot 0, vrot 1, vrot 2)%Z.
