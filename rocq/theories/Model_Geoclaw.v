(** GeoClaw: averaging and interpolation of depth and momentum between levels.

    src/solvers/fc2d_geoclaw/fclaw2d_source/fc2d_geoclaw_average_fort.f (603 lines) and
    fc2d_geoclaw_interpolate_fort.f (579 lines), called from src/solvers/fc2d_geoclaw/fc2d_geoclaw.cpp:502-582
    (interpolate2fine, average2coarse) and 585-743 (faces and corners).

    Equation 1 is the depth of the water, equations 2 and 3 are the momenta; entry 1 of the aux array is the height of
    the bottom.  The arrays are stored with the equation first; here, as in Model_Grid, a cell is (i, j, mq).

    Simplifications: those of Model_Grid (exact rationals, reading an unassigned cell or outside an array is None).  A
    division by zero is None.  dry_tolerance and sea_level (module variables set from the options) are parameters. *)
From Coq Require Import ZArith QArith Qminmax Qabs List Lia Bool.
From Verif Require Import Base_Float Model_Face Model_Grid Model_Corner.
Import ListNotations.
Open Scope Z_scope.

(** a / b, None when b is zero *)
Definition qdiv (a b : Q) : option Q := if Qeq_bool b 0 then None else Some (a / b)%Q.

(** a < b *)
Definition Qltb (a b : Q) : bool := negb (Qle_bool b a).

Section Geo.
  Variable rnd : Q -> Q.
  Variable d : dims.
  (** number of entries of the aux array *)
  Variable maux : Z.
  Variable dry_tolerance sea_level : Q.

  (** aux_coarse(maux,1-mbc:mx+mbc,1-mbc:my+mbc) *)
  Definition ad : dims := mkDims (mx d) (my d) (mbc d) maux.
  Definition mbathy : Z := 1.

  (* ------------------------------------------------------------------ averaging *)

  (** etasum, hsum, husum, hvsum, nwet *)
  Definition sums : Type := (Q * Q * Q * Q * Z)%type.

  (** fc2d_geoclaw_average_fort.f:545-549 and 559-563 (and 153-157, 168-172, 249-253, 263-267, 415-419, 429-433): capac, capa *)
  Definition capacity (mcapa : Z) (aux : arr) (i j : Z) : option Q :=
    if mcapa =? 0 then Some 1%Q else rd ad aux (i, j, mcapa).

  (** fc2d_geoclaw_average_fort.f:558-580 (and 165-189, 260-284, 426-450): the loop over the fine cells *)
  Definition add_fine (mcapa : Z) (qfine aux_fine : arr) (c : Z * Z) (s : sums) : option sums :=
    let '(etasum, hsum, husum, hvsum, nwet) := s in
    bind (capacity mcapa aux_fine (fst c) (snd c)) (fun capa =>
    bind (rd d qfine (fst c, snd c, 1)) (fun h =>
    bind (rd ad aux_fine (fst c, snd c, mbathy)) (fun b =>
    bind (rd d qfine (fst c, snd c, 2)) (fun hu =>
    bind (rd d qfine (fst c, snd c, 3)) (fun hv =>
    let hf := (h * capa)%Q in
    let bf := (b * capa)%Q in
    if Qltb dry_tolerance hf
    then Some ((etasum + (hf + bf))%Q, (hsum + hf)%Q, (husum + hu * capa)%Q, (hvsum + hv * capa)%Q, nwet + 1)
    else Some ((etasum + 0)%Q, (hsum + hf)%Q, (husum + 0)%Q, (hvsum + 0)%Q, nwet)))))).

  (** fc2d_geoclaw_average_fort.f:581-595 (and 190-204, 285-300, 451-465): hc, huc, hvc *)
  Definition merge (s : sums) (bc capac : Q) : option (Q * Q * Q) :=
    let '(etasum, hsum, husum, hvsum, nwet) := s in
    if 0 <? nwet then
      let etaav := (etasum / inject_Z nwet)%Q in
      let hav := (hsum / inject_Z nwet)%Q in
      let hc := Qmin hav (Qmax (etaav - bc * capac) 0) in
      bind (qdiv hc hsum) (fun r => Some (hc, (r * husum)%Q, (r * hvsum)%Q))
    else Some (0%Q, 0%Q, 0%Q).

  (** fc2d_geoclaw_average_fort.f:545-598 (and 153-207, 249-303, 415-468): one coarse cell (ic, jc) from the four fine
      cells c m.  The height of the coarse bottom is read here also when no fine cell is wet. *)
  Definition geo_average_cell (mcapa : Z) (qfine aux_coarse aux_fine : arr) (c : Z -> Z * Z) (ic jc : Z) (q : arr)
      : option arr :=
    bind (capacity mcapa aux_coarse ic jc) (fun capac =>
    bind (loop 0 3 (fun m => add_fine mcapa qfine aux_fine (c m)) (0%Q, 0%Q, 0%Q, 0%Q, 0)) (fun s =>
    bind (rd ad aux_coarse (ic, jc, mbathy)) (fun bc =>
    bind (merge s bc capac) (fun '(hc, huc, hvc) =>
    bind (bind (qdiv hc capac) (wr d q (ic, jc, 1))) (fun q =>
    bind (bind (qdiv huc capac) (wr d q (ic, jc, 2))) (fun q =>
    bind (qdiv hvc capac) (wr d q (ic, jc, 3)))))))).

  (** fc2d_geoclaw_average_fort.f:482-603 average2coarse *)
  Definition geo_average2coarse_one (mcapa : Z) (qfine aux_coarse aux_fine : arr) (igrid : Z) (qcoarse : arr)
      : option arr :=
    let ig := Z.rem igrid 2 in
    let jg := Z.quot (igrid - ig) 2 in
    let ic_add := Z.quot (ig * mx d) 2 in
    let jc_add := Z.quot (jg * my d) 2 in
    loop 1 (Z.quot (my d) 2) (fun j => loop 1 (Z.quot (mx d) 2) (fun i =>
      geo_average_cell mcapa qfine aux_coarse aux_fine
        (fun m => ((i - 1) * 2 + (Z.rem m 2 + 1), (j - 1) * 2 + (Z.quot m 2 + 1))) (i + ic_add) (j + jc_add))) qcoarse.

  (** fc2d_geoclaw.cpp:541-579 geoclaw_average2coarse: the four siblings *)
  Definition geo_average2coarse (mcapa : Z) (qfine aux_fine : Z -> arr) (aux_coarse : arr) (qcoarse : arr) : option arr :=
    loop 0 3 (fun igrid => geo_average2coarse_one mcapa (qfine igrid) aux_coarse (aux_fine igrid) igrid) qcoarse.

  (** fc2d_geoclaw_average_fort.f:105-209 and 225-317 (is_manifold is false): one ghost cell of the coarse patch at a face *)
  Definition geo_average_ghost (mcapa : Z) (qfine aux_coarse aux_fine : arr) (t : tdata) (ic jc : Z) (q : arr)
      : option arr :=
    bind (t_face_half rnd d t ic jc) (fun ij =>
    bind (ij 0) (fun c0 => bind (ij 1) (fun c1 => bind (ij 2) (fun c2 => bind (ij 3) (fun c3 =>
    let valid (c : Z * Z) := is_valid_average d (fst c) (snd c) in
    if valid c0 && valid c1 && valid c2 && valid c3
    then geo_average_cell mcapa qfine aux_coarse aux_fine
           (fun m => if m =? 0 then c0 else if m =? 1 then c1 else if m =? 2 then c2 else c3) ic jc q
    else Some q))))).

  (** fc2d_geoclaw_average_fort.f:33-318 average_face.  igrid is not used.  A face number that does not belong to
      idir leaves ic (jc) unassigned. *)
  Definition geo_average_face (mcapa : Z) (qcoarse qfine aux_coarse aux_fine : arr) (idir iface_coarse : Z) (t : tdata)
      : option arr :=
    if idir =? 0 then
      loop 1 (my d) (fun jc => loop 1 (mbc d) (fun ibc q =>
        bind (if iface_coarse =? 0 then Some (1 - ibc)
              else if iface_coarse =? 1 then Some (mx d + ibc) else None) (fun ic =>
        geo_average_ghost mcapa qfine aux_coarse aux_fine t ic jc q))) qcoarse
    else
      loop 1 (mbc d) (fun jbc => loop 1 (mx d) (fun ic q =>
        bind (if iface_coarse =? 2 then Some (1 - jbc)
              else if iface_coarse =? 3 then Some (my d + jbc) else None) (fun jc =>
        geo_average_ghost mcapa qfine aux_coarse aux_fine t ic jc q))) qcoarse.

  (** fc2d_geoclaw_average_fort.f:323-480 average_corner (is_manifold is false); a corner number outside 0..3 leaves i1, j1 unassigned *)
  Definition geo_average_corner (mcapa : Z) (qcoarse qfine aux_coarse aux_fine : arr) (icorner_coarse : Z) (c : cdata)
      : option arr :=
    loop 1 (mbc d) (fun ibc => loop 1 (mbc d) (fun jbc q =>
      bind (if icorner_coarse =? 0 then Some (1 - ibc, 1 - jbc)
            else if icorner_coarse =? 1 then Some (mx d + ibc, 1 - jbc)
            else if icorner_coarse =? 2 then Some (1 - ibc, my d + jbc)
            else if icorner_coarse =? 3 then Some (mx d + ibc, my d + jbc)
            else None) (fun '(i1, j1) =>
      bind (t_corner_half rnd d c i1 j1) (fun ij =>
      bind (ij 0) (fun c0 => bind (ij 1) (fun c1 => bind (ij 2) (fun c2 => bind (ij 3) (fun c3 =>
      geo_average_cell mcapa qfine aux_coarse aux_fine
        (fun m => if m =? 0 then c0 else if m =? 1 then c1 else if m =? 2 then c2 else c3) i1 j1 q)))))))) qcoarse.

  (* -------------------------------------------------------------- interpolation *)

  (** fc2d_geoclaw_interpolate_fort.f:456-467 (and 125-136, 207-218, 351-362): etabarc, the height of the surface; a
      cell with less water than the tolerance counts as sea level *)
  Definition etabar (h b : Q) : Q := if Qltb h dry_tolerance then sea_level else (h + b)%Q.

  (** the value interpolated: the surface for mq = 1, otherwise qcoarse(mq,i,j).  The routines compute etabarc in all
      nine cells around (ic,jc); the four at the corners are never used and are not read here. *)
  Definition level_value (qcoarse aux_coarse : arr) (c : cell) : option Q :=
    let '(i, j, mq) := c in
    if mq =? 1 then
      bind (rd d qcoarse (i, j, 1)) (fun h => bind (rd ad aux_coarse (i, j, mbathy)) (fun b => Some (etabar h b)))
    else rd d qcoarse (i, j, mq).

  (** fc2d_geoclaw_interpolate_fort.f:469-519: one coarse cell (ic,jc); no maximum with zero is taken here *)
  Definition geo_interpolate_cell (qcoarse aux_coarse aux_fine : arr) (i j ic jc mq : Z) (q : arr) : option arr :=
    let v := level_value qcoarse aux_coarse in
    bind (v (ic, jc, mq)) (fun qc =>
    bind (v (ic - 1, jc, mq)) (fun qw =>
    bind (v (ic + 1, jc, mq)) (fun qe =>
    bind (v (ic, jc - 1, mq)) (fun qs =>
    bind (v (ic, jc + 1, mq)) (fun qn =>
    let gradx := compute_slopes (qc - qw) (qe - qc) in
    let grady := compute_slopes (qc - qs) (qn - qc) in
    loop 1 2 (fun ii => loop 1 2 (fun jj q =>
      let shiftx := ((inject_Z ii - 2 / 2 - (1 # 2)) / 2)%Q in
      let shifty := ((inject_Z jj - 2 / 2 - (1 # 2)) / 2)%Q in
      let iff := (i - 1) * 2 + ii in
      let jf := (j - 1) * 2 + jj in
      if mq =? 1 then
        bind (rd ad aux_fine (iff, jf, mbathy)) (fun b =>
        wr d q (iff, jf, mq) (qc + shiftx * gradx + shifty * grady - b)%Q)
      else wr d q (iff, jf, mq) (qc + shiftx * gradx + shifty * grady)%Q)) q))))).

  (** fc2d_geoclaw_interpolate_fort.f:405-579 interpolate2fine, for one of the four children *)
  Definition geo_interpolate2fine (qcoarse aux_coarse aux_fine : arr) (igrid : Z) (qfine : arr) : option arr :=
    let ig := Z.rem igrid 2 in
    let jg := Z.quot (igrid - ig) 2 in
    let i1 := 1 - ig in
    let i2 := Z.quot (mx d) 2 + (1 - ig) in
    let ic_add := Z.quot (ig * mx d) 2 in
    let j1 := 1 - jg in
    let j2 := Z.quot (my d) 2 + (1 - jg) in
    let jc_add := Z.quot (jg * my d) 2 in
    loop 1 (meqn d) (fun mq => loop i1 i2 (fun i => loop j1 j2 (fun j =>
      geo_interpolate_cell qcoarse aux_coarse aux_fine i j (i + ic_add) (j + jc_add) mq))) qfine.

  (** fc2d_geoclaw_interpolate_fort.f:138-170, 220-252 and 363-399: the four fine ghost cells of one coarse cell; c0 is
      (i2(0), j2(0)) *)
  Definition geo_interp_four (qcoarse aux_coarse aux_fine : arr) (A : Z * Z * Z * Z * Z * Z) (c0 : Z * Z) (ic jc mq : Z)
      (q : arr) : option arr :=
    let v := level_value qcoarse aux_coarse in
    bind (v (ic, jc, mq)) (fun qc =>
    bind (v (ic - 1, jc, mq)) (fun qw =>
    bind (v (ic + 1, jc, mq)) (fun qe =>
    bind (v (ic, jc - 1, mq)) (fun qs =>
    bind (v (ic, jc + 1, mq)) (fun qn =>
    let gradx := compute_slopes (qc - qw) (qe - qc) in
    let grady := compute_slopes (qc - qs) (qn - qc) in
    loop 0 3 (fun m q =>
      let iff := fst c0 + fst (df A 2 m) in
      let jff := snd c0 + snd (df A 2 m) in
      if mq =? 1 then
        bind (rd ad aux_fine (iff, jff, mbathy)) (fun b =>
        wr d q (iff, jff, mq) (Qmax (qc + gradx * shiftx m + grady * shifty m - b) 0))
      else wr d q (iff, jff, mq) (qc + gradx * shiftx m + grady * shifty m)%Q) q))))).

  (** fc2d_geoclaw_interpolate_fort.f:109-173 and 184-254, one coarse cell at the face *)
  Definition geo_interp_at (qcoarse aux_coarse aux_fine : arr) (A : Z * Z * Z * Z * Z * Z) (t : tdata) (ic jc mq : Z)
      (q : arr) : option arr :=
    bind (t_face_half rnd d t ic jc) (fun ij =>
    bind (ij 0) (fun c0 => bind (ij 1) (fun c1 => bind (ij 2) (fun c2 => bind (ij 3) (fun c3 =>
    let valid (c : Z * Z) := is_valid_interp d (fst c) (snd c) in
    if valid c0 && valid c1 && valid c2 && valid c3
    then geo_interp_four qcoarse aux_coarse aux_fine A c0 ic jc mq q
    else Some q))))).

  (** fc2d_geoclaw_interpolate_fort.f:24-259 interpolate_face: only the coarse cells next to the face are used; the
      loop of the first branch runs to mx *)
  Definition geo_interpolate_face (qcoarse qfine aux_coarse aux_fine : arr) (idir iface_coarse : Z) (t : tdata)
      : option arr :=
    bind (build_transform rnd d t) (fun A =>
    loop 1 (meqn d) (fun mq q =>
      if idir =? 0 then
        bind (if iface_coarse =? 0 then Some 1
              else if iface_coarse =? 1 then Some (mx d) else None) (fun ic =>
        loop 1 (mx d) (fun jc => geo_interp_at qcoarse aux_coarse aux_fine A t ic jc mq) q)
      else
        bind (if iface_coarse =? 2 then Some 1
              else if iface_coarse =? 3 then Some (my d) else None) (fun jc =>
        loop 1 (mx d) (fun ic => geo_interp_at qcoarse aux_coarse aux_fine A t ic jc mq) q)) qfine).

  (** fc2d_geoclaw_interpolate_fort.f:261-403 interpolate_corner: only the coarse corner cell is used *)
  Definition geo_interpolate_corner (qcoarse qfine aux_coarse aux_fine : arr) (icorner_coarse : Z) (c : cdata)
      : option arr :=
    bind (build_transform rnd d (face_data c)) (fun A =>
    bind (if icorner_coarse =? 0 then Some (1, 1)
          else if icorner_coarse =? 1 then Some (mx d, 1)
          else if icorner_coarse =? 2 then Some (1, my d)
          else if icorner_coarse =? 3 then Some (mx d, my d)
          else None) (fun '(ic, jc) =>
    bind (t_corner_half rnd d c ic jc) (fun ij =>
    bind (ij 0) (fun c0 =>
    loop 1 (meqn d) (fun mq => geo_interp_four qcoarse aux_coarse aux_fine A c0 ic jc mq) qfine)))).
End Geo.
