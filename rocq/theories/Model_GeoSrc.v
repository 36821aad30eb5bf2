(** GeoClaw: what is done to a patch before and after the finite volume step.

    fc2d_geoclaw.cpp:209-276 and 351-383 call fortran_source/geoclaw_b4step2_fort.f90 before the step and
    fortran_source/geoclaw_src2_fort.f90 after it.  Arithmetic is that of the reals (rounding is not modelled
    here).  An array q(m,i,j) is a function of its three indices.  [None] is a program without a meaning: the
    use of a variable that was never set.  check4nans (which stops the program) and the printing are left out. *)
From Coq Require Import ZArith Reals List Bool.
Import ListNotations.
Local Open Scope R_scope.

Definition arr := Z -> Z -> Z -> R.

(** q(m,i,j) = v *)
Definition upd (q : arr) (m i j : Z) (v : R) : arr :=
  fun m' i' j' => if (Z.eqb m' m && Z.eqb i' i && Z.eqb j' j)%bool then v else q m' i' j'.

(** do i = lo,hi *)
Definition do_range (lo hi : Z) : list Z :=
  map (fun k => (lo + Z.of_nat k)%Z) (seq 0 (Z.to_nat (hi - lo + 1))).

(** do j = lo,hj; do i = lo,hi *)
Definition do_cells (lo hi hj : Z) : list (Z * Z) :=
  flat_map (fun j => map (fun i => (i, j)) (do_range lo hi)) (do_range lo hj).

(** the variables of geoclaw_module, storm_module and friction_module that are read; the table of Manning
    coefficients as pairs manning_break(n), manning_coefficient(n) *)
Record params := mkParams {
  grav : R; coordinate_system : Z; theta_0 : R; omega : R; deg2rad : R; earth_radius : R; dry_tolerance : R;
  coriolis_forcing : bool;
  friction_forcing : bool; friction_depth : R; manning : list (R * R);
  variable_friction : bool; friction_index : Z;
  wind_forcing : bool; wind_index : Z; rho_air : R;
  pressure_forcing : bool; pressure_index : Z;
  storm_location : R -> R * R; storm_direction : R -> R; wind_drag : R -> R -> R; atan2 : R -> R -> R }.

(** ** Before the step *)
(** geoclaw_b4step2_fort.f90:53-56.  FORALL evaluates the mask for all cells first and the cells are
    independent: the loop is over the list of the cells with the mask read from the array on entry. *)
Definition clean_cell (q0 : arr) (tol : R) (q : arr) (c : Z * Z) : arr :=
  let '(i, j) := c in
  if Rlt_dec (q0 1%Z i j) tol
  then upd (upd (upd q 1 i j (Rmax (q0 1%Z i j) 0)) 2 i j 0) 3 i j 0
  else q.
Definition clean (tol : R) (mbc mx my : Z) (q : arr) : arr :=
  fold_left (clean_cell q tol) (do_cells (1 - mbc) (mx + mbc) (my + mbc)) q.

(** geoclaw_b4step2_fort.f90:90-109; a dtopo file is its first and last time t0dtopo(i), tfdtopo(i) *)
Definition dtopo_interval (l : list (R * R)) : R * R :=
  fold_left (fun a f =>
    let '(tmin, tmax) := a in
    (if Rlt_dec (fst f) tmin then fst f else tmin, if Rge_dec (snd f) tmax then snd f else tmax))
    l (10 ^ 99, 0).

(** geoclaw_b4step2_fort.f90:112-147, without tau, which no caller reads *)
Definition check_dtopotime (l : list (R * R)) (t : R) : bool :=
  let '(tmin, tmax) := dtopo_interval l in
  if Rlt_dec tmin tmax
  then let tau := (t - tmin) / (tmax - tmin) in
       if Rge_dec tau 0 then (if Rle_dec tau 1 then true else false) else false
  else if Rge_dec t tmax then true else false.

(** minval, maxval *)
Definition minval (x : R) (l : list R) : R := fold_left Rmin l x.
Definition maxval (x : R) (l : list R) : R := fold_left Rmax l x.

(** The topography as the time it was computed for (topo_module's topotime, one topography file), the flag
    topo_finalized, and the same time for the topography stored with a patch, in aux(1,:,:). *)
Record tstate := mkT { topotime : R; finalized : bool; auxtime : R }.

(** fortran_source/geoclaw_topo_update_fort.f and geolib_source/topo_update.f90:28-35 and 80-95; the values
    at time t come from the interpolation that follows, which is not modelled.  The first file is [f0], the
    others [l]. *)
Definition topo_update (f0 : R * R) (l : list (R * R)) (t : R) (s : tstate) : tstate :=
  if finalized s then s else
  if Rlt_dec t (minval (fst f0) (map fst l)) then s else
  if Rge_dec (topotime s) (maxval (snd f0) (map snd l)) then mkT (topotime s) true (auxtime s)
  else mkT t false (auxtime s).

(** geoclaw_b4step2_fort.f90:58-71: fc2d_geoclaw_setaux fills aux(1,:,:) from the topography *)
Definition b4step2_topo (f0 : R * R) (l : list (R * R)) (t : R) (s : tstate) : tstate :=
  if check_dtopotime (f0 :: l) t then mkT (topotime s) (finalized s) (topotime s) else s.

(** fc2d_geoclaw.cpp:351-383 geoclaw_update: the part that concerns the topography, for one patch *)
Definition update_topo (f0 : R * R) (l : list (R * R)) (s : tstate) (t : R) : tstate :=
  b4step2_topo f0 l t (topo_update f0 l t s).
Definition run_topo (f0 : R * R) (l : list (R * R)) (times : list R) (s : tstate) : tstate :=
  fold_left (update_topo f0 l) times s.

(** ** After the step *)
(** geoclaw_src2_fort.f90:56-60 *)
Definition manning_loop (table : list (R * R)) (b : R) (coeff : option R) : option R :=
  fold_left (fun c nm => if Rlt_dec b (fst nm) then Some (snd nm) else c) (rev table) coeff.

(** q(2,i,j) = u, q(3,i,j) = v *)
Definition set_mom (q : arr) (i j : Z) (u v : R) : arr := upd (upd q 2 i j u) 3 i j v.

(** geoclaw_src2_fort.f90:46-75; the local variable coeff lives across the cells *)
Definition friction_cell (p : params) (aux : arr) (dt : R) (st : option (option R * arr)) (c : Z * Z) :
  option (option R * arr) :=
  let '(i, j) := c in
  match st with
  | None => None
  | Some (coeff, q) =>
    if Rlt_dec (q 1%Z i j) (/ 10 ^ 30) then Some (coeff, set_mom q i j 0 0)
    else if Rle_dec (q 1%Z i j) (friction_depth p) then
      let coeff' := if variable_friction p then Some (aux (friction_index p) i j)
                    else manning_loop (manning p) (aux 1%Z i j) coeff in
      match coeff' with
      | None => None
      | Some n =>
        let gamma := sqrt (q 2%Z i j ^ 2 + q 3%Z i j ^ 2) * grav p * n ^ 2 / Rpower (q 1%Z i j) (7 / 3) in
        let dgamma := 1 + dt * gamma in
        let q1 := upd q 2 i j (q 2%Z i j / dgamma) in
        Some (coeff', upd q1 3 i j (q1 3%Z i j / dgamma))
      end
    else Some (coeff, q)
  end.
Definition friction (p : params) (mx my : Z) (aux : arr) (dt : R) (q : arr) : option arr :=
  if friction_forcing p
  then match fold_left (friction_cell p aux dt) (do_cells 1 mx my) (Some (None, q)) with
       | None => None
       | Some (_, q') => Some q'
       end
  else Some q.

(** geolib_source/geoclaw_module.f90:171-192 *)
Definition coriolis (p : params) (y : R) : R :=
  if Z.eqb (coordinate_system p) 1 then
    let theta := y / 111000 * deg2rad p + theta_0 p in
    2 * omega p * (sin (theta_0 p) + (theta - theta_0 p) * cos (theta_0 p))
  else if Z.eqb (coordinate_system p) 2 then 2 * omega p * sin (y * deg2rad p)
  else 0.

(** geoclaw_src2_fort.f90:81-97; the matrix is computed once per row, here in each cell *)
Definition coriolis_cell (p : params) (ylower dy dt : R) (q : arr) (c : Z * Z) : arr :=
  let '(i, j) := c in
  let y := ylower + (IZR j - /2) * dy in
  let fdt := coriolis p y * dt in
  let a11 := 1 - /2 * fdt ^ 2 + fdt ^ 4 / 24 in
  let a12 := fdt - fdt ^ 3 / 6 in
  let a21 := - fdt + fdt ^ 3 / 6 in
  let a22 := a11 in
  let q1 := upd q 2 i j (q 2%Z i j * a11 + q 3%Z i j * a12) in
  upd q1 3 i j (q1 2%Z i j * a21 + q1 3%Z i j * a22).
Definition coriolis_term (p : params) (mx my : Z) (ylower dy dt : R) (q : arr) : arr :=
  if coriolis_forcing p then fold_left (coriolis_cell p ylower dy dt) (do_cells 1 mx my) q else q.

(** geoclaw_src2_fort.f90:101-124 *)
Definition wind_cell (p : params) (xlower ylower dx dy t dt : R) (aux : arr) (q : arr) (c : Z * Z) : arr :=
  let '(i, j) := c in
  let sloc := storm_location p t in
  let theta := storm_direction p t in
  let yc := ylower + (IZR j - /2) * dy in
  let xc := xlower + (IZR i - /2) * dx in
  if Rgt_dec (q 1%Z i j) (dry_tolerance p) then
    let psi := atan2 p (yc - snd sloc) (xc - fst sloc) in
    let phi := if Rgt_dec theta psi then (2 * PI - theta + psi) / deg2rad p else (psi - theta) / deg2rad p in
    let wx := aux (wind_index p) i j in
    let wy := aux (wind_index p + 1)%Z i j in
    let wind_speed := sqrt (wx ^ 2 + wy ^ 2) in
    let tau := wind_drag p wind_speed phi * rho_air p * wind_speed / 1025 in
    let q1 := upd q 2 i j (q 2%Z i j + dt * tau * wx) in
    upd q1 3 i j (q1 3%Z i j + dt * tau * wy)
  else q.
Definition wind_term (p : params) (mx my : Z) (xlower ylower dx dy t dt : R) (aux q : arr) : arr :=
  if wind_forcing p then fold_left (wind_cell p xlower ylower dx dy t dt aux) (do_cells 1 mx my) q else q.

(** geolib_source/geoclaw_module.f90:200-217 *)
Definition spherical_distance (p : params) (x1 y1 x2 y2 : R) : R :=
  let dx := (x2 - x1) * deg2rad p in
  let dy := (y2 - y1) * deg2rad p in
  earth_radius p * 2 *
    asin (sqrt (sin (/2 * dy) ^ 2 + cos (y1 * deg2rad p) * cos (y2 * deg2rad p) * sin (/2 * dx) ^ 2)).

(** geoclaw_src2_fort.f90:128-163 *)
Definition pressure_cell (p : params) (xlower ylower dx dy dt : R) (aux : arr) (q : arr) (c : Z * Z) : arr :=
  let '(i, j) := c in
  let ym := ylower + (IZR j - 1) * dy in
  let yc := ylower + (IZR j - /2) * dy in
  let yp := ylower + IZR j * dy in
  let xm := xlower + (IZR i - 1) * dx in
  let xc := xlower + (IZR i - /2) * dx in
  let xp := xlower + IZR i * dx in
  let dxm := if Z.eqb (coordinate_system p) 2 then spherical_distance p xp yc xm yc else dx in
  let dym := if Z.eqb (coordinate_system p) 2 then spherical_distance p xc yp xc ym else dy in
  let h := q 1%Z i j in
  let px := (aux (pressure_index p) (i + 1)%Z j - aux (pressure_index p) (i - 1)%Z j) / (2 * dxm) in
  let py := (aux (pressure_index p) i (j + 1)%Z - aux (pressure_index p) i (j - 1)%Z) / (2 * dym) in
  if Rgt_dec h (dry_tolerance p) then
    let q1 := upd q 2 i j (q 2%Z i j - dt * h * px / 1025) in
    upd q1 3 i j (q1 3%Z i j - dt * h * py / 1025)
  else q.
Definition pressure_term (p : params) (mx my : Z) (xlower ylower dx dy dt : R) (aux q : arr) : arr :=
  if pressure_forcing p then fold_left (pressure_cell p xlower ylower dx dy dt aux) (do_cells 1 mx my) q else q.

(** geoclaw_src2_fort.f90:1-165 *)
Definition src2 (p : params) (mx my : Z) (xlower ylower dx dy t dt : R) (aux q : arr) : option arr :=
  match friction p mx my aux dt q with
  | None => None
  | Some q1 =>
      Some (pressure_term p mx my xlower ylower dx dy dt aux
             (wind_term p mx my xlower ylower dx dy t dt aux
               (coriolis_term p mx my ylower dy dt q1)))
  end.
