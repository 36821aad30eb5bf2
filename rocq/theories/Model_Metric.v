(** The metric terms of a patch on a mapped grid (2D): mesh points, areas, face normals, tangents, edge lengths, surface normals and curvature.

    src/patches/metric/fortran_source2d/fclaw2d_metric_default_fort.f90, src/patches/metric/fclaw2d_metric_default.c,
    src/patches/metric/fclaw2d_metric.cpp:120-423.

    Simplifications: double precision is exact real arithmetic; a division by zero (NaN or an infinity) is [None] as a value.  The three
    arrays xp, yp, zp (and xd, yd, zd, and the last index of the normals and tangents) are one array of points.  An array is a function from
    indices to values; an element is [None] while it has never been assigned.  Using an unassigned element, an index outside of the declared
    bounds and failed assertions are the outcome [None].  Integer arithmetic does not overflow. *)
From Coq Require Import ZArith Reals List Bool.
From Verif Require Import Model_Map Model_Grid.
Import ListNotations.
Open Scope R_scope.

(** what fclaw2d_metric_patch_grid_data returns, with the block number and the level of the patch *)
Record mpatch := mkPatch { pmx : Z; pmy : Z; pmbc : Z; xlower : R; ylower : R; pdx : R; pdy : R; pblock : Z; plevel : Z }.

Definition grid (A : Type) : Type := Z * Z -> option A.
Definition unset {A} : grid A := fun _ => None.
(** (-mbc:mx+mbc+1,-mbc:my+mbc+1) *)
Definition in_p (p : mpatch) (c : Z * Z) : bool :=
  ((- pmbc p <=? fst c) && (fst c <=? pmx p + pmbc p + 1) && (- pmbc p <=? snd c) && (snd c <=? pmy p + pmbc p + 1))%Z.
(** (-mbc:mx+mbc+2,-mbc:my+mbc+2) *)
Definition in_d (p : mpatch) (c : Z * Z) : bool :=
  ((- pmbc p <=? fst c) && (fst c <=? pmx p + pmbc p + 2) && (- pmbc p <=? snd c) && (snd c <=? pmy p + pmbc p + 2))%Z.
(** quadstore(0:quadsize,0:quadsize,3) *)
Definition in_quad (n : Z) (c : Z * Z) : bool := ((0 <=? fst c) && (fst c <=? n) && (0 <=? snd c) && (snd c <=? n))%Z.
Definition same (a b : Z * Z) : bool := ((fst a =? fst b) && (snd a =? snd b))%Z.
Definition put {A} (bounds : Z * Z -> bool) (c : Z * Z) (v : A) (a : grid A) : option (grid A) :=
  if bounds c then Some (fun k => if same k c then Some v else a k) else None.
Definition get {A} (bounds : Z * Z -> bool) (c : Z * Z) (a : grid A) : option A := if bounds c then a c else None.

(** do m = 1,3 *)
Definition each (f : R -> R -> R) (p q : point) : point := let '(a, b, c) := p in let '(x, y, z) := q in (f a x, f b y, f c z).
Definition minus : point -> point -> point := each Rminus.
Definition plus : point -> point -> point := each Rplus.
Definition times (s : R) (p : point) : point := let '(a, b, c) := p in (s * a, s * b, s * c).
(** sum over m of u(m)*v(m) *)
Definition inner (u v : point) : R := let '(a, b, c) := u in let '(x, y, z) := v in a * x + b * y + c * z.
(** v(m)/len, m = 1,3, when len may be zero *)
Definition over (v : point) (len : R) : option point :=
  if Req_EM_T len 0 then None else let '(a, b, c) := v in Some (a / len, b / len, c / len).

(** fclaw2d_metric_default_fort.f90:321-332 norm_cross *)
Definition norm_cross (u v : point) : R :=
  let '(u1, u2, u3) := u in let '(v1, v2, v3) := v in
  let w1 := u2 * v3 - u3 * v2 in
  let w2 := - u1 * v3 + u3 * v1 in
  let w3 := u1 * v2 - u2 * v1 in
  sqrt (w1 * w1 + w2 * w2 + w3 * w3).
(** fclaw2d_metric_default_fort.f90:278-313 get_area_approx; [quad i j] is quad(i,j,:) *)
Definition get_area_approx (quad : Z -> Z -> point) : R :=
  let a01 := minus (quad 1 0)%Z (quad 0 0)%Z in
  let a10 := minus (quad 0 1)%Z (quad 0 0)%Z in
  let a11 := plus (minus (minus (quad 1 1)%Z (quad 1 0)%Z) (quad 0 1)%Z) (quad 0 0)%Z in
  let eta := 5 / 10 in
  let xi := 5 / 10 in
  let txi := plus a01 (times eta a11) in
  let teta := plus a10 (times xi a11) in
  norm_cross txi teta.
(** fclaw2d_metric_default_fort.f90:259-266 is_area_interior *)
Definition is_area_interior (mx my i j : Z) : bool := ((0 <=? i) && (i <=? mx + 1) && (0 <=? j) && (j <=? my + 1))%Z.
(** fclaw_math.c:34-52 pow_int; the last, unused, squaring of the base does not overflow here *)
Definition pow_int (base e : Z) : option Z := if (e <? 0)%Z then None else Some (base ^ e)%Z.

(** fclaw2d_metric_default_fort.f90:580-612 get_normal_ver2, called by get_normal (508-522, version 2); nv *)
Definition get_normal (taup taud : point) : option point :=
  let aii := inner taup taup in
  let ai2 := 0 - inner taud taup in
  let nv := plus (times aii taud) (times ai2 taup) in
  let nlen := sqrt (inner nv nv) in
  over nv nlen.

Section Metric.
  (** fclaw2d_map_c2m with the context of the run: block, xc, yc *)
  Variable c2m : Z -> R -> R -> point.
  (** the answers of the context to the queries (src/mappings/map_query.f:41-64) *)
  Variable isaffine isflat : bool.
  (** fclaw_opt->maxlevel, and fclaw_opt->refratio = 2 *)
  Variable maxlevel : Z.
  Section Patch.
    Variable p : mpatch.
    Notation mx := (pmx p). Notation my := (pmy p). Notation mbc := (pmbc p).
    Notation xl := (xlower p). Notation yl := (ylower p). Notation dx := (pdx p). Notation dy := (pdy p).

    (** fclaw2d_metric_default_fort.f90:11-62 compute_mesh: (xp,yp,zp) and (xd,yd,zd) *)
    Definition compute_mesh (s : grid point * grid point) : option (grid point * grid point) :=
      let dxf := dx / 2 in
      let dyf := dy / 2 in
      loop (-2 * mbc - 1) (2 * (mx + mbc + 1) + 1) (fun i => loop (-2 * mbc - 1) (2 * (my + mbc + 1) + 1) (fun j s =>
        if negb (Z.abs (Z.rem i 2) =? Z.abs (Z.rem j 2))%Z then Some s
        else
          let xc := xl + IZR (i - 1) * dxf in
          let yc := yl + IZR (j - 1) * dyf in
          let v := c2m (pblock p) xc yc in
          if (Z.abs (Z.rem i 2) =? 1)%Z
          then bind (put (in_d p) (Z.quot (i - 1) 2 + 1, Z.quot (j - 1) 2 + 1)%Z v (snd s)) (fun xd => Some (fst s, xd))
          else bind (put (in_p p) (Z.quot i 2, Z.quot j 2) v (fst s)) (fun xp => Some (xp, snd s)))) s.

    (** lines 154-166: quadstore for one cell.  It is overwritten completely for every cell, so it starts unset here *)
    Definition fill_quads (rfactor : Z) (dxf dyf xe ye : R) : option (grid point) :=
      loop 0 rfactor (fun ii => loop 0 rfactor (fun jj q =>
        put (in_quad rfactor) (ii, jj) (c2m (pblock p) (xe + IZR ii * dxf) (ye + IZR jj * dyf)) q)) unset.
    (** lines 168-180: the sum over the quadrilaterals *)
    Definition sum_quads (rfactor : Z) (q : grid point) : option R :=
      loop 0 (rfactor - 1) (fun ii => loop 0 (rfactor - 1) (fun jj sum =>
        let at_ a b := get (in_quad rfactor) (ii + a, jj + b)%Z q in
        bind (at_ 0 0)%Z (fun q00 => bind (at_ 0 1)%Z (fun q01 => bind (at_ 1 0)%Z (fun q10 => bind (at_ 1 1)%Z (fun q11 =>
        Some (sum + get_area_approx (fun a b => if (a =? 0)%Z then (if (b =? 0)%Z then q00 else q01) else (if (b =? 0)%Z then q10 else q11)))))))))  0.
    (** fclaw2d_metric_default_fort.f90:112-186 compute_area_general *)
    Definition compute_area_general (quadsize : Z) (ghost_only : bool) (area : grid R) : option (grid R) :=
      let rfactor := quadsize in
      let dxf := dx / IZR rfactor in
      let dyf := dy / IZR rfactor in
      loop (- mbc) (my + mbc + 1) (fun j => loop (- mbc) (mx + mbc + 1) (fun i area =>
        if is_area_interior mx my i j && ghost_only then Some area
        else
          let xe := xl + IZR (i - 1) * dx in
          let ye := yl + IZR (j - 1) * dy in
          bind (bind (fill_quads rfactor dxf dyf xe ye) (sum_quads rfactor)) (fun sum_area => put (in_p p) (i, j) sum_area area))) area.
    (** fclaw2d_metric_default_fort.f90:206-250 compute_area_affine *)
    Definition compute_area_affine (ghost_only : bool) (area : grid R) : option (grid R) :=
      loop (- mbc) (my + mbc + 1) (fun j => loop (- mbc) (mx + mbc + 1) (fun i area =>
        if is_area_interior mx my i j && ghost_only then Some area
        else
          let xe := xl + IZR (i - 1) * dx in
          let ye := yl + IZR (j - 1) * dy in
          put (in_p p) (i, j) (get_area_approx (fun icell jcell => c2m (pblock p) (xe + IZR icell * dx) (ye + IZR jcell * dy))) area)) area.
    (** fclaw2d_metric_default_fort.f90:71-97 compute_area *)
    Definition compute_area (quadsize : Z) (ghost_only : bool) : grid R -> option (grid R) :=
      if isaffine then compute_area_affine ghost_only else compute_area_general quadsize ghost_only.
    (** fclaw2d_metric_default.c:110-135 and 137-164: fclaw2d_metric_compute_area_default and _area_ghost_default *)
    Definition compute_area_default (area : grid R) : option (grid R) :=
      bind (pow_int 2 (maxlevel - plevel p)) (fun m => compute_area m false area).
    Definition compute_area_ghost_default (area : grid R) : option (grid R) :=
      bind (pow_int 2 (maxlevel - plevel p)) (fun m => compute_area m true area).

    (** fclaw2d_metric_default_fort.f90:341-404 compute_normals: the x faces (364-382), the y faces (384-402) *)
    Definition compute_xnormals (xp xd : grid point) (xnormals : grid (option point)) : option (grid (option point)) :=
      loop (- mbc) (my + mbc + 1) (fun j => loop (1 - mbc) (mx + mbc + 1) (fun i n =>
        bind (get (in_p p) (i, j) xp) (fun p1 => bind (get (in_p p) (i - 1, j)%Z xp) (fun p0 =>
        bind (get (in_d p) (i, j + 1)%Z xd) (fun d1 => bind (get (in_d p) (i, j) xd) (fun d0 =>
        let taud := minus p1 p0 in
        let taup := minus d1 d0 in
        put (in_d p) (i, j) (get_normal taup taud) n)))))) xnormals.
    Definition compute_ynormals (xp xd : grid point) (ynormals : grid (option point)) : option (grid (option point)) :=
      loop (1 - mbc) (my + mbc + 1) (fun j => loop (- mbc) (mx + mbc + 1) (fun i n =>
        bind (get (in_p p) (i, j) xp) (fun p1 => bind (get (in_p p) (i, j - 1)%Z xp) (fun p0 =>
        bind (get (in_d p) (i + 1, j)%Z xd) (fun d1 => bind (get (in_d p) (i, j) xd) (fun d0 =>
        let taud := minus p1 p0 in
        let taup := minus d1 d0 in
        put (in_d p) (i, j) (get_normal taup taud) n)))))) ynormals.

    (** fclaw2d_metric_default_fort.f90:414-466 compute_tangents: xtangents and edge_lengths(:,:,1), ytangents and edge_lengths(:,:,2) *)
    Definition compute_xtangents (xd : grid point) (s : grid point * grid R) : option (grid point * grid R) :=
      loop (- mbc) (my + mbc + 1) (fun j => loop (- mbc) (mx + mbc + 2) (fun i s =>
        bind (get (in_d p) (i, j + 1)%Z xd) (fun d1 => bind (get (in_d p) (i, j) xd) (fun d0 =>
        let taup := minus d1 d0 in
        let tlen := sqrt (inner taup taup) in
        bind (put (in_d p) (i, j) taup (fst s)) (fun t => bind (put (in_d p) (i, j) tlen (snd s)) (fun l => Some (t, l))))))) s.
    Definition compute_ytangents (xd : grid point) (s : grid point * grid R) : option (grid point * grid R) :=
      loop (- mbc) (my + mbc + 2) (fun j => loop (- mbc) (mx + mbc + 1) (fun i s =>
        bind (get (in_d p) (i + 1, j)%Z xd) (fun d1 => bind (get (in_d p) (i, j) xd) (fun d0 =>
        let taup := minus d1 d0 in
        let tlen := sqrt (inner taup taup) in
        bind (put (in_d p) (i, j) taup (fst s)) (fun t => bind (put (in_d p) (i, j) tlen (snd s)) (fun l => Some (t, l))))))) s.

    (** fclaw2d_metric_default_fort.f90:621-679 compute_surf_normals; an operation on a NaN gives a NaN *)
    Definition cross_product (av bv : point) : point :=
      let '(a1, a2, a3) := av in let '(b1, b2, b3) := bv in
      (a2 * b3 - a3 * b2, - (a1 * b3 - a3 * b1), a1 * b2 - a2 * b1).
    Definition flat_normal (xn yn : option point) : option point * option R :=
      (bind xn (fun av => bind yn (fun bv => let nv := cross_product av bv in over nv (sqrt (inner nv nv)))), Some 0).
    Definition curved_normal (l1 l0 m1 m0 : R) (x1 x0 y1 y0 : option point) (area : R) : option point * option R :=
      let nv := bind x1 (fun x1 => bind x0 (fun x0 => bind y1 (fun y1 => bind y0 (fun y0 =>
        Some (minus (plus (minus (times l1 x1) (times l0 x0)) (times m1 y1)) (times m0 y0)))))) in
      (bind nv (fun nv => over nv (sqrt (inner nv nv))),
       bind nv (fun nv => if Req_EM_T area 0 then None else Some (5 / 10 * sqrt (inner nv nv) / area))).
    Definition compute_surf_normals (xnormals ynormals : grid (option point)) (lengths1 lengths2 : grid R) (area : grid R)
        (s : grid (option point) * grid (option R)) : option (grid (option point) * grid (option R)) :=
      loop (1 - mbc) (mx + mbc) (fun i => loop (1 - mbc) (my + mbc) (fun j s =>
        bind (if isflat
              then bind (get (in_d p) (i, j) xnormals) (fun av => bind (get (in_d p) (i, j) ynormals) (fun bv => Some (flat_normal av bv)))
              else
                bind (get (in_d p) (i + 1, j)%Z lengths1) (fun l1 => bind (get (in_d p) (i + 1, j)%Z xnormals) (fun x1 =>
                bind (get (in_d p) (i, j) lengths1) (fun l0 => bind (get (in_d p) (i, j) xnormals) (fun x0 =>
                bind (get (in_d p) (i, j + 1)%Z lengths2) (fun m1 => bind (get (in_d p) (i, j + 1)%Z ynormals) (fun y1 =>
                bind (get (in_d p) (i, j) lengths2) (fun m0 => bind (get (in_d p) (i, j) ynormals) (fun y0 =>
                bind (get (in_p p) (i, j) area) (fun a => Some (curved_normal l1 l0 m1 m0 x1 x0 y1 y0 a)))))))))))
             (fun nk => bind (put (in_p p) (i, j) (fst nk) (fst s)) (fun n => bind (put (in_p p) (i, j) (snd nk) (snd s)) (fun k => Some (n, k)))))) s.

    (** fclaw2d_metric_default_fort.f90:690-755 average_area *)
    Definition average_area (areafine : grid R) (igrid : Z) (areacoarse : grid R) : option (grid R) :=
      let ig := Z.rem igrid 2 in
      let jg := Z.quot (igrid - ig) 2 in
      let ic_add := Z.quot (ig * mx) 2 in
      let jc_add := Z.quot (jg * mx) 2 in
      loop 0 (Z.quot my 2 + 1) (fun j => loop 0 (Z.quot mx 2 + 1) (fun i coarse =>
        let i1 := (i + ic_add)%Z in
        let j1 := (j + jc_add)%Z in
        bind (loop 1 2 (fun jj => loop 1 2 (fun ii sum =>
          bind (get (in_p p) ((i - 1) * 2 + ii, (j - 1) * 2 + jj)%Z areafine) (fun kf => Some (sum + kf)))) 0) (fun sum =>
        put (in_p p) (i1, j1) sum coarse))) areacoarse.
    (** fclaw2d_metric.cpp:270-339 metric_average_area_from_fine; [fine k] is the area array of fine_patches[k] *)
    Definition average_area_from_fine (fine : Z -> grid R) (areacoarse : grid R) : option (grid R) :=
      bind (loop 0 3 (fun igrid coarse => average_area (fine igrid) igrid coarse) areacoarse) compute_area_ghost_default.

    (** what fclaw2d_metric.cpp:120-253 allocates *)
    Record metric := mkMetric { m_xp : grid point; m_xd : grid point; m_area : grid R; m_xn : grid (option point); m_yn : grid (option point);
      m_xt : grid point; m_yt : grid point; m_xlen : grid R; m_ylen : grid R; m_surf : grid (option point); m_curv : grid (option R) }.
    (** fclaw2d_metric_default.c:59-107 compute_basis_default, after the mesh and the areas *)
    Definition compute_basis (mesh : grid point * grid point) (area : grid R) : option metric :=
      let '(xp, xd) := mesh in
      bind (compute_xnormals xp xd unset) (fun xn => bind (compute_ynormals xp xd unset) (fun yn =>
      bind (compute_xtangents xd (unset, unset)) (fun '(xt, l1) => bind (compute_ytangents xd (unset, unset)) (fun '(yt, l2) =>
      bind (compute_surf_normals xn yn l1 l2 area (unset, unset)) (fun '(sn, kappa) =>
      Some (mkMetric xp xd area xn yn xt yt l1 l2 sn kappa)))))).
    (** fclaw2d_metric.cpp:358-389 fclaw2d_metric_patch_build *)
    Definition patch_build : option metric :=
      bind (compute_mesh (unset, unset)) (fun mesh => bind (compute_area_default unset) (fun area => compute_basis mesh area)).
    (** fclaw2d_metric.cpp:393-423 fclaw2d_metric_patch_build_from_fine *)
    Definition patch_build_from_fine (fine : Z -> grid R) : option metric :=
      bind (compute_mesh (unset, unset)) (fun mesh => bind (average_area_from_fine fine unset) (fun area => compute_basis mesh area)).
  End Patch.
End Metric.
