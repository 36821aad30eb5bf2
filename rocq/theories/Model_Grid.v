(** Cell data of a patch and the Fortran routines that move it between patches
    (2D, clawpack 4.6 ordering).

    src/patches/clawpatch/fort_4.6/fclaw2d_clawpatch46_copy.f, _average.f,
    _interpolate.f, src/patches/clawpatch/fclaw2d_clawpatch_utils.f,
    src/patches/clawpatch/fclaw2d_clawpatch_transform.c,
    src/patches/clawpatch/fclaw2d_clawpatch.cpp:917-1010.

    Simplifications: cell values and areas are exact rational numbers; only the index
    transformations (Model_Face) round.  An array is a function from indices to values;
    an element is [None] while it has never been assigned.  Using an unassigned element,
    an index outside of the declared bounds, "stop" and failed assertions are the
    outcome [None].  Integer arithmetic does not overflow. *)
From Coq Require Import ZArith QArith Qminmax Qabs List Lia Bool.
From Verif Require Import Base_Float Model_Face.
Import ListNotations.
Open Scope Z_scope.

Definition bind {A B} (x : option A) (f : A -> option B) : option B :=
  match x with Some a => f a | None => None end.

(** do k = lo, hi ... enddo *)
Fixpoint loop_n {S} (n : nat) (k : Z) (f : Z -> S -> option S) (s : S) : option S :=
  match n with
  | O => Some s
  | S n => bind (f k s) (fun s => loop_n n (k + 1) f s)
  end.
Definition loop {S} (lo hi : Z) (f : Z -> S -> option S) (s : S) : option S :=
  loop_n (Z.to_nat (hi - lo + 1)) lo f s.

(** integer mx,my,mbc,meqn *)
Record dims := mkDims { mx : Z; my : Z; mbc : Z; meqn : Z }.

(** double precision q(1-mbc:mx+mbc,1-mbc:my+mbc,meqn); a cell is (i,j,mq) *)
Definition cell : Type := (Z * Z * Z)%type.
Definition arr : Type := cell -> option Q.
Definition in_q (d : dims) (c : cell) : bool :=
  let '(i, j, mq) := c in
  (1 - mbc d <=? i) && (i <=? mx d + mbc d) && (1 - mbc d <=? j) && (j <=? my d + mbc d) &&
  (1 <=? mq) && (mq <=? meqn d).
Definition rd (d : dims) (q : arr) (c : cell) : option Q := if in_q d c then q c else None.
Definition cell_eqb (a b : cell) : bool :=
  let '(i, j, m) := a in let '(i', j', m') := b in (i =? i') && (j =? j') && (m =? m').
Definition wr (d : dims) (q : arr) (c : cell) (v : Q) : option arr :=
  if in_q d c then Some (fun c' => if cell_eqb c' c then Some v else q c') else None.

(** double precision area(-mbc:mx+mbc+1,-mbc:my+mbc+1) *)
Definition area_t : Type := Z * Z -> option Q.
Definition rd_area (d : dims) (a : area_t) (i j : Z) : option Q :=
  if (- mbc d <=? i) && (i <=? mx d + mbc d + 1) && (- mbc d <=? j) && (j <=? my d + mbc d + 1)
  then a (i, j) else None.

(** fclaw2d_patch.h struct fclaw2d_patch_transform_data, the fields used for faces;
    based = 1 (fclaw2d_clawpatch_transform.c:60-71) *)
Record tdata := mkT { this_patch : patch; neighbor_patch : patch; transform : ftrans }.

Section Grid.
  Variable rnd : Q -> Q.
  Variable d : dims.

  (** fclaw2d_clawpatch_transform.c:87-104 transform_face *)
  Definition t_face (t : tdata) (i1 j1 : Z) : option (Z * Z) :=
    bind (transform_face rnd D2 (this_patch t) (neighbor_patch t) (transform t)
            (mx d) (my d) 0 1 i1 j1 0) (fun '(i, j, _) => Some (i, j)).

  (** fclaw2d_clawpatch_transform.c:107-125 transform_face_half: arrays i2(0:3), j2(0:3) *)
  Definition t_face_half (t : tdata) (i1 j1 : Z) : option (Z -> option (Z * Z)) :=
    bind (transform_face2 rnd D2 (this_patch t) (neighbor_patch t) (transform t)
            (mx d) (my d) 0 1 i1 j1 0) (fun outs =>
    Some (fun m => option_map (fun '(_, (i, j, _)) => (i, j))
                     (find (fun '(s, _) => s =? m) outs))).

  (** fclaw2d_clawpatch_utils.f:127-167 build_transform_same: a(2,2), f(2) as
      (a11, a12, a21, a22, f1, f2) *)
  Definition build_transform_same (t : tdata) : option (Z * Z * Z * Z * Z * Z) :=
    bind (t_face t 0 0) (fun '(f1, f2) =>
    bind (t_face t 1 0) (fun '(p1, p2) =>
    bind (t_face t 0 1) (fun '(q1, q2) =>
    Some (p1 - f1, q1 - f1, p2 - f2, q2 - f2, f1, f2)))).

  (** one assignment qthis(i1,j1,mq) = qneighbor(i2,j2,mq) *)
  Definition copy_cell (A : Z * Z * Z * Z * Z * Z) (qn : arr) (i1 j1 mq : Z) (q : arr) : option arr :=
    let '(a11, a12, a21, a22, f1, f2) := A in
    let i2 := a11 * i1 + a12 * j1 + f1 in
    let j2 := a21 * i1 + a22 * j1 + f2 in
    bind (rd d qn (i2, j2, mq)) (wr d q (i1, j1, mq)).

  (** fclaw2d_clawpatch46_copy.f:18-87 copy_face *)
  Definition copy_face (qthis qneighbor : arr) (iface : Z) (t : tdata) : option arr :=
    bind (build_transform_same t) (fun A =>
    if iface =? 0 then
      loop 1 (meqn d) (fun mq => loop 1 (my d) (fun j1 => loop (1 - mbc d) 0 (fun i1 =>
        copy_cell A qneighbor i1 j1 mq))) qthis
    else if iface =? 1 then
      loop 1 (meqn d) (fun mq => loop 1 (my d) (fun j1 => loop (mx d + 1) (mx d + mbc d) (fun i1 =>
        copy_cell A qneighbor i1 j1 mq))) qthis
    else if iface =? 2 then
      loop 1 (meqn d) (fun mq => loop (1 - mbc d) 0 (fun j1 => loop 1 (mx d) (fun i1 =>
        copy_cell A qneighbor i1 j1 mq))) qthis
    else if iface =? 3 then
      loop 1 (meqn d) (fun mq => loop (my d + 1) (my d + mbc d) (fun j1 => loop 1 (mx d) (fun i1 =>
        copy_cell A qneighbor i1 j1 mq))) qthis
    else Some qthis).

  (* --------------------------------------------------------------- averaging *)

  (** fclaw2d_clawpatch_utils.f:232-247 is_valid_average *)
  Definition is_valid_average (i j : Z) : bool :=
    (1 <=? i) && (i <=? mx d) && (1 <=? j) && (j <=? my d).

  (** sum of f (m) for m = 0, ..., 3, starting from 0 *)
  Definition sum4 (f : Z -> option Q) : option Q :=
    bind (f 0) (fun a => bind (f 1) (fun b => bind (f 2) (fun c => bind (f 3) (fun e =>
    Some (0 + a + b + c + e)%Q)))).

  (** fclaw2d_clawpatch46_average.f:74-123 and 139-170, one coarse ghost cell *)
  Definition average_ghost (qfine : arr) (areafine : area_t) (manifold : bool) (t : tdata)
      (ic jc mq : Z) (q : arr) : option arr :=
    bind (t_face_half t ic jc) (fun ij =>
    bind (ij 0) (fun c0 => bind (ij 1) (fun c1 => bind (ij 2) (fun c2 => bind (ij 3) (fun c3 =>
    let cs m := if m =? 0 then c0 else if m =? 1 then c1 else if m =? 2 then c2 else c3 in
    let valid m := is_valid_average (fst (cs m)) (snd (cs m)) in
    let qf m := rd d qfine (fst (cs m), snd (cs m), mq) in
    let kf m := rd_area d areafine (fst (cs m)) (snd (cs m)) in
    if valid 0 && valid 1 && valid 2 && valid 3 then
      if manifold then
        bind (sum4 (fun m => bind (qf m) (fun x => bind (kf m) (fun k => Some (x * k)%Q)))) (fun s =>
        bind (sum4 kf) (fun af => wr d q (ic, jc, mq) (s / af)%Q))
      else
        bind (sum4 qf) (fun s => wr d q (ic, jc, mq) (s / 4)%Q)
    else Some q))))).

  (** fclaw2d_clawpatch46_average.f:16-176 average_face.  The arguments num_neighbors
      and igrid are not used by it.  A face number that does not belong to idir leaves
      ic (jc) unassigned. *)
  Definition average_face (qcoarse qfine : arr) (areafine : area_t) (idir iface_coarse refratio : Z)
      (manifold : bool) (t : tdata) : option arr :=
    if negb (refratio * refratio =? 4) then None else
    if idir =? 0 then
      loop 1 (meqn d) (fun mq => loop 1 (my d) (fun jc => loop 1 (mbc d) (fun ibc q =>
        bind (if iface_coarse =? 0 then Some (1 - ibc)
              else if iface_coarse =? 1 then Some (mx d + ibc) else None) (fun ic =>
        average_ghost qfine areafine manifold t ic jc mq q)))) qcoarse
    else
      loop 1 (meqn d) (fun mq => loop 1 (mbc d) (fun jbc => loop 1 (mx d) (fun ic q =>
        bind (if iface_coarse =? 2 then Some (1 - jbc)
              else if iface_coarse =? 3 then Some (my d + jbc) else None) (fun jc =>
        average_ghost qfine areafine manifold t ic jc mq q)))) qcoarse.

  (** fclaw2d_clawpatch46_average.f:336-360, one coarse cell (i1,j1): the fine cells
      i2(m), j2(m) are numbered with ii fastest. *)
  Definition average_cell (qfine : arr) (areafine areacoarse : area_t) (manifold : bool)
      (i j i1 j1 mq : Z) (q : arr) : option arr :=
    let i2 m := (i - 1) * 2 + (Z.rem m 2 + 1) in
    let j2 m := (j - 1) * 2 + (Z.quot m 2 + 1) in
    let qf m := rd d qfine (i2 m, j2 m, mq) in
    if manifold then
      bind (sum4 (fun m => bind (qf m) (fun x => bind (rd_area d areafine (i2 m) (j2 m)) (fun k =>
                           Some (k * x)%Q)))) (fun s =>
      bind (rd_area d areacoarse i1 j1) (fun kc => wr d q (i1, j1, mq) (s / kc)%Q))
    else
      bind (sum4 qf) (fun s => wr d q (i1, j1, mq) (s / 4)%Q).

  (** fclaw2d_clawpatch46_average.f:282-364 average2coarse; jc_add uses mx. *)
  Definition fort_average2coarse (qfine : arr) (areacoarse areafine : area_t) (igrid : Z)
      (manifold : bool) (qcoarse : arr) : option arr :=
    let ig := Z.rem igrid 2 in
    let jg := Z.quot (igrid - ig) 2 in
    let ic_add := Z.quot (ig * mx d) 2 in
    let jc_add := Z.quot (jg * mx d) 2 in
    loop 1 (meqn d) (fun mq => loop 1 (Z.quot (my d) 2) (fun j => loop 1 (Z.quot (mx d) 2) (fun i =>
      average_cell qfine areafine areacoarse manifold i j (i + ic_add) (j + jc_add) mq))) qcoarse.

  (** fclaw2d_clawpatch.cpp:967-1010 clawpatch_average2coarse: the four siblings *)
  Definition average2coarse (qfine : Z -> arr) (areafine : Z -> area_t) (areacoarse : area_t)
      (manifold : bool) (qcoarse : arr) : option arr :=
    loop 0 3 (fun igrid => fort_average2coarse (qfine igrid) areacoarse (areafine igrid) igrid manifold)
      qcoarse.

  (* ----------------------------------------------------------- interpolation *)

  (** sign(1.d0,x) *)
  Definition fsign (x : Q) : Q := if Qle_bool 0 x then 1%Q else (-1)%Q.

  (** fclaw2d_clawpatch_utils.f:12-66 compute_slopes with mth = 5, the only value the
      callers pass (the limiters of the clawpack library, mth <= 4, are not modelled) *)
  Definition compute_slopes (sl sr : Q) : Q :=
    let sc := ((sl + sr) / 2)%Q in
    (Qmin (Qmin (2 * Qabs sl) (2 * Qabs sr)) (Qabs sc) * Qmax 0 (fsign (sl * sr)) * fsign sc)%Q.

  (** fclaw2d_clawpatch46_interpolate.f:368-389, one coarse cell (ic,jc) *)
  Definition interpolate_cell (qcoarse : arr) (i j ic jc mq : Z) (q : arr) : option arr :=
    bind (rd d qcoarse (ic, jc, mq)) (fun qc =>
    bind (rd d qcoarse (ic - 1, jc, mq)) (fun qw =>
    bind (rd d qcoarse (ic + 1, jc, mq)) (fun qe =>
    bind (rd d qcoarse (ic, jc - 1, mq)) (fun qs =>
    bind (rd d qcoarse (ic, jc + 1, mq)) (fun qn =>
    let gradx := compute_slopes (qc - qw) (qe - qc) in
    let grady := compute_slopes (qc - qs) (qn - qc) in
    loop 1 2 (fun ii => loop 1 2 (fun jj q =>
      let shiftx := ((inject_Z ii - 2 / 2 - (1 # 2)) / 2)%Q in
      let shifty := ((inject_Z jj - 2 / 2 - (1 # 2)) / 2)%Q in
      wr d q ((i - 1) * 2 + ii, (j - 1) * 2 + jj, mq) (qc + shiftx * gradx + shifty * grady)%Q)) q))))).

  (** fclaw2d_clawpatch46_interpolate.f:456-479, one coarse cell *)
  Definition fix_cell (qcoarse : arr) (areacoarse areafine : area_t) (i j ic jc m : Z) (q : arr)
      : option arr :=
    bind (loop 1 2 (fun ii => loop 1 2 (fun jj sum =>
            let ifine := (i - 1) * 2 + ii in
            let jfine := (j - 1) * 2 + jj in
            bind (rd_area d areafine ifine jfine) (fun kf =>
            bind (rd d q (ifine, jfine, m)) (fun qf => Some (sum + kf * qf)%Q)))) 0%Q) (fun sum =>
    bind (rd_area d areacoarse ic jc) (fun kc =>
    bind (rd d qcoarse (ic, jc, m)) (fun qc =>
    let cons_diff := ((qc * kc - sum) / 4)%Q in
    loop 1 2 (fun ii => loop 1 2 (fun jj q =>
            let ifine := (i - 1) * 2 + ii in
            let jfine := (j - 1) * 2 + jj in
            bind (rd_area d areafine ifine jfine) (fun kf =>
            bind (rd d q (ifine, jfine, m)) (fun qf =>
            wr d q (ifine, jfine, m) (qf + cons_diff / kf)%Q)))) q))).

  (** fclaw2d_clawpatch46_interpolate.f:419-484 fixcapaq2 *)
  Definition fixcapaq2 (qcoarse : arr) (areacoarse areafine : area_t) (igrid : Z) (qfine : arr)
      : option arr :=
    let ig := Z.rem igrid 2 in
    let jg := Z.quot (igrid - ig) 2 in
    let ic_add := Z.quot (ig * mx d) 2 in
    let jc_add := Z.quot (jg * my d) 2 in
    loop 1 (meqn d) (fun m => loop 1 (Z.quot (mx d) 2) (fun i => loop 1 (Z.quot (my d) 2) (fun j =>
      fix_cell qcoarse areacoarse areafine i j (i + ic_add) (j + jc_add) m))) qfine.

  (** fclaw2d_clawpatch46_interpolate.f:324-400 interpolate2fine *)
  Definition interpolate2fine (qcoarse : arr) (areacoarse areafine : area_t) (igrid : Z)
      (manifold : bool) (qfine : arr) : option arr :=
    let ig := Z.rem igrid 2 in
    let jg := Z.quot (igrid - ig) 2 in
    let i1 := 1 - ig in
    let i2 := Z.quot (mx d) 2 + (1 - ig) in
    let ic_add := Z.quot (ig * mx d) 2 in
    let j1 := 1 - jg in
    let j2 := Z.quot (my d) 2 + (1 - jg) in
    let jc_add := Z.quot (jg * my d) 2 in
    bind (loop 1 (meqn d) (fun mq => loop j1 j2 (fun j => loop i1 i2 (fun i =>
            interpolate_cell qcoarse i j (i + ic_add) (j + jc_add) mq))) qfine) (fun q =>
    if manifold then fixcapaq2 qcoarse areacoarse areafine igrid q else Some q).
End Grid.
