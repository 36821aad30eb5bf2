(** Conservation registers and flux correction (2D, clawpack 4.6).

    src/solvers/fc2d_clawpack4.6/fortran_source/clawpack46_time_sync.f,
    clawpack46_step2_wrap.f:106-125, fc2d_clawpack46.cpp:260-400,
    src/patches/clawpatch/fclaw2d_clawpatch_conservation.c, src/fclaw2d_time_sync.c.

    Simplifications: as in Model_Grid.  The arrays of a fclaw2d_clawpatch_registers_t are one
    function from (array, position, equation); the C code numbers the elements of fp[k]
    by (position - 1) + (equation - 1) * my, like the Fortran array fp(my,meqn). *)
From Coq Require Import ZArith QArith List Lia Bool.
From Verif Require Import Base_Float Model_Face Model_Grid.
Import ListNotations.
Open Scope Z_scope.

Definition regs : Type := arr.
Definition FP (k j m : Z) : cell := (k, j, m).
Definition FM (k j m : Z) : cell := (2 + k, j, m).
Definition GP (k i m : Z) : cell := (4 + k, i, m).
Definition GM (k i m : Z) : cell := (6 + k, i, m).
Definition EF (k j m s : Z) : cell := (8 + 2 * k + s, j, m).    (* edge_fluxes[k], (j,m,s) *)
Definition EL (k j : Z) : cell := (16 + k, j, 1).               (* edgelengths[k] *)
Definition AR (k j : Z) : cell := (20 + k, j, 1).               (* area[k] *)

Definition seq {S} (f g : S -> option S) : S -> option S := fun s => bind (f s) g.

Section Sync.
  Variable rnd : Q -> Q.
  Variable d : dims.

  (** conservation.c:74-110 time_sync_new: the sizes of the arrays *)
  Definition along_y (a : Z) : bool :=
    (a <=? 3) || ((8 <=? a) && (a <=? 11)) || (a =? 16) || (a =? 17) || (a =? 20) || (a =? 21).
  Definition in_reg (c : cell) : bool :=
    let '(a, j, m) := c in
    (0 <=? a) && (a <? 24) && (1 <=? j) && (j <=? if along_y a then my d else mx d) &&
    (1 <=? m) && (m <=? if a <? 16 then meqn d else 1).
  Definition rdr (r : regs) (c : cell) : option Q := if in_reg c then r c else None.
  Definition wrr (r : regs) (c : cell) (v : Q) : option regs :=
    if in_reg c then Some (fun c' => if cell_eqb c' c then Some v else r c') else None.
  Definition addr (c : cell) (x : Q) (r : regs) : option regs := bind (rdr r c) (fun v => wrr r c (v + x)%Q).

  (** conservation.c:96-108: FCLAW_ALLOC_ZERO for the accumulators, FCLAW_ALLOC otherwise *)
  Definition time_sync_new : regs := fun '(a, j, m) => if a <? 16 then Some 0%Q else None.

  (** fclaw2d_clawpatch_utils.f:259-315 clawpatch_time_sync_setup; [el] is
      edgelengths(-mbc:mx+mbc+2,-mbc:my+mbc+2,2), read at few indices within the bounds *)
  Definition time_sync_setup (dx dy : Q) (area : area_t) (el : Z * Z * Z -> option Q) (manifold : bool) (r : regs) : option regs :=
    let set c v r := bind v (wrr r c) in
    if manifold then
      seq (loop 1 (my d) (fun j => seq (seq (set (AR 0 j) (rd_area d area 1 j)) (set (AR 1 j) (rd_area d area (mx d) j)))
                                       (seq (set (EL 0 j) (el (1, j, 1))) (set (EL 1 j) (el (mx d + 1, j, 1))))))
          (loop 1 (mx d) (fun i => seq (seq (set (AR 2 i) (rd_area d area i 1)) (set (AR 3 i) (rd_area d area i (my d))))
                                       (seq (set (EL 2 i) (el (i, 1, 2))) (set (EL 3 i) (el (i, my d + 1, 2)))))) r
    else
      let dxdy := (dx * dy)%Q in
      seq (loop 1 (my d) (fun j => seq (seq (set (AR 0 j) (Some dxdy)) (set (AR 1 j) (Some dxdy)))
                                       (seq (set (EL 0 j) (Some dy)) (set (EL 1 j) (Some dy)))))
          (loop 1 (mx d) (fun i => seq (seq (set (AR 2 i) (Some dxdy)) (set (AR 3 i) (Some dxdy)))
                                       (seq (set (EL 2 i) (Some dx)) (set (EL 3 i) (Some dx))))) r.

  (* ------------------------------------------------------------ one time step *)

  (** the flux function rpn2_cons(meqn,maux,idir,iface,q,auxvec_center,auxvec_edge,flux) of
      the user; component m of the result *)
  Variable rpn2_cons : Z -> Z -> (Z -> option Q) -> (Z -> option Q) -> (Z -> option Q) -> Z -> option Q.
  Variable maux : Z.

  Definition at_aux (aux : arr) (i j : Z) : Z -> option Q := fun m => rd (mkDims (mx d) (my d) (mbc d) maux) aux (i, j, m).
  Definition at_q (q : arr) (i j : Z) : Z -> option Q := fun m => rd d q (i, j, m).

  (** time_sync.f:37-156 clawpack46_time_sync_store_flux *)
  Definition store_flux (dt : Q) (q aux : arr) : regs -> option regs :=
    let put k j (m : Z) s (flux : Z -> option Q) r :=
      bind (flux m) (fun x => bind (rdr r (EL k j)) (fun el => addr (EF k j m s) (dt * el * x)%Q r)) in
    seq
     (loop 1 (my d) (fun j => seq
       (loop 0 1 (fun k => loop 1 (meqn d) (fun m =>
          put 0 j m k (rpn2_cons 0 k (at_q q (1 - k) j) (at_aux aux (1 - k) j) (at_aux aux 1 j)))))
       (loop 0 1 (fun k => loop 1 (meqn d) (fun m =>
          put 1 j m k (rpn2_cons 0 (1 - k) (at_q q (mx d + k) j) (at_aux aux (mx d + k) j) (at_aux aux (mx d + 1) j)))))))
     (loop 1 (mx d) (fun i => seq
       (loop 0 1 (fun k => loop 1 (meqn d) (fun m =>
          put 2 i m k (rpn2_cons 1 (k + 2) (at_q q i (1 - k)) (at_aux aux i (1 - k)) (at_aux aux i 1)))))
       (loop 0 1 (fun k => loop 1 (meqn d) (fun m =>
          put 3 i m k (rpn2_cons 1 (3 - k) (at_q q i (my d + k)) (at_aux aux i (my d + k)) (at_aux aux i (my d + 1)))))))).

  (** time_sync.f:163-226 clawpack46_time_sync_accumulate_waves *)
  Definition accumulate_waves (dt dx dy : Q) (fp fm gp gm : arr) : regs -> option regs :=
    let add c (s h : Q) v r := bind v (fun x => addr c (s * (dt * h * x))%Q r) in
    seq
     (loop 1 (my d) (fun j => loop 1 (meqn d) (fun m =>
        seq (seq (add (FP 0 j m) (-1)%Q dy (rd d fp (1, j, m))) (add (FM 0 j m) 1%Q dy (rd d fm (1, j, m))))
            (seq (add (FP 1 j m) (-1)%Q dy (rd d fp (mx d + 1, j, m))) (add (FM 1 j m) 1%Q dy (rd d fm (mx d + 1, j, m)))))))
     (loop 1 (mx d) (fun i => loop 1 (meqn d) (fun m =>
        seq (seq (add (GP 0 i m) (-1)%Q dx (rd d gp (i, 1, m))) (add (GM 0 i m) 1%Q dx (rd d gm (i, 1, m))))
            (seq (add (GP 1 i m) (-1)%Q dx (rd d gp (i, my d + 1, m))) (add (GM 1 i m) 1%Q dx (rd d gm (i, my d + 1, m))))))).

  (** step2_wrap.f:108-130, the update of q; the arrays fm, fp, gm, gp come from
      clawpack46_step2, which is not modelled: they are arbitrary *)
  Definition update_q (dt dx dy : Q) (mcapa : Z) (aux : arr) (fp fm gp gm : arr) : arr -> option arr :=
    let dtdx := (dt / dx)%Q in
    let dtdy := (dt / dy)%Q in
    loop 1 (meqn d) (fun m => loop (1 - mbc d) (mx d + mbc d - 1) (fun i => loop (1 - mbc d) (my d + mbc d - 1) (fun j q =>
      bind (rd d q (i, j, m)) (fun x =>
      bind (rd d fm (i + 1, j, m)) (fun fme => bind (rd d fp (i, j, m)) (fun fpw =>
      bind (rd d gm (i, j + 1, m)) (fun gmn => bind (rd d gp (i, j, m)) (fun gps =>
      if mcapa =? 0 then
        wr d q (i, j, m) (x - dtdx * (fme - fpw) - dtdy * (gmn - gps))%Q
      else
        bind (at_aux aux i j mcapa) (fun cap =>
        wr d q (i, j, m) (x - (dtdx * (fme - fpw) + dtdy * (gmn - gps)) / cap)%Q))))))))).

  (** fc2d_clawpack46.cpp:260-400 clawpack46_step2 with time_sync on; the two options
      flux_correction and fluctuation_correction *)
  Definition clawpack46_step (flux_correction fluctuation_correction : bool) (dt dx dy : Q) (mcapa : Z) (aux fp fm gp gm : arr)
      (q : arr) (r : regs) : option (arr * regs) :=
    bind (if flux_correction then store_flux dt q aux r else Some r) (fun r =>
    bind (update_q dt dx dy mcapa aux fp fm gp gm q) (fun q =>
    bind (if fluctuation_correction then accumulate_waves dt dx dy fp fm gp gm r else Some r) (fun r =>
    Some (q, r)))).

  (* --------------------------------------------------- corrections at interfaces *)

  (** fclaw2d_clawpatch_utils.f:76-117 build_transform, the entries
      (a11, a12, a21, a22) *)
  Definition build_transform (t : tdata) : option (Z * Z * Z * Z) :=
    bind (t_face_half rnd d t 0 0) (fun i0 => bind (i0 0) (fun '(f1, f2) =>
    bind (t_face_half rnd d t 1 0) (fun i1 => bind (i1 0) (fun '(p1, p2) =>
    bind (t_face_half rnd d t 0 1) (fun i2 => bind (i2 0) (fun '(q1, q2) =>
    Some (p1 - f1, q1 - f1, p2 - f2, q2 - f2))))))).

  (** time_sync.f:706-738 fc46_is_valid_correct, fc46_skip_this_grid *)
  Definition valid_correct (i j : Z) : bool :=
    xorb ((1 <=? i) && (i <=? mx d)) ((1 <=? j) && (j <=? my d)).
  Definition skip_this_grid (ij : Z -> option (Z * Z)) : option bool :=
    bind (ij 0) (fun c0 => bind (ij 1) (fun c1 => bind (ij 2) (fun c2 => bind (ij 3) (fun c3 =>
    let v c := valid_correct (fst c) (snd c) in
    Some (negb (v c0 && v c1 && v c2 && v c3)))))).

  (** qfine_dummy(1-2*mbc:mx+2*mbc,1-2*mbc:my+2*mbc,meqn), FCLAW_ALLOC_ZERO *)
  Definition d2 : dims := mkDims (mx d) (my d) (2 * mbc d) (meqn d).
  Definition zeros : arr := fun _ => Some 0%Q.

  (** time_sync.f:349-393: data at every edge of the fine patch; [rf] are its registers *)
  Definition f2c_fill (rf : regs) : option arr :=
    let sum c1 c2 := bind (rdr rf c1) (fun x => bind (rdr rf c2) (fun y => Some (x + y)%Q)) in
    loop 1 (meqn d) (fun mq => seq
      (loop 1 (Z.quot (my d) 2) (fun j q =>
         let jj1 := 2 * (j - 1) + 1 in
         let jj2 := 2 * (j - 1) + 2 in
         bind (sum (FM 0 jj1 mq) (FM 0 jj2 mq)) (fun fm =>
         bind (sum (EF 0 jj1 mq 1) (EF 0 jj2 mq 1)) (fun ef =>
         bind (loop jj1 jj2 (fun jj => loop (-1) 0 (fun ii q =>
                 bind (wr d2 q (ii, jj, mq) fm) (fun q => wr d2 q (ii - 2, jj, mq) ef))) q) (fun q =>
         bind (sum (FP 1 jj1 mq) (FP 1 jj2 mq)) (fun fp =>
         bind (sum (EF 1 jj1 mq 1) (EF 1 jj2 mq 1)) (fun ef =>
         loop jj1 jj2 (fun jj => loop 1 2 (fun ii q =>
                 bind (wr d2 q (mx d + ii, jj, mq) fp) (fun q => wr d2 q (mx d + ii + 2, jj, mq) ef))) q)))))))
      (loop 1 (Z.quot (mx d) 2) (fun i q =>
         let ii1 := 2 * (i - 1) + 1 in
         let ii2 := 2 * (i - 1) + 2 in
         bind (sum (GM 0 ii1 mq) (GM 0 ii2 mq)) (fun gm =>
         bind (sum (EF 2 ii1 mq 1) (EF 2 ii2 mq 1)) (fun ef =>
         bind (loop ii1 ii2 (fun ii => loop (-1) 0 (fun jj q =>
                 bind (wr d2 q (ii, jj, mq) gm) (fun q => wr d2 q (ii, jj - 2, mq) ef))) q) (fun q =>
         bind (sum (GP 1 ii1 mq) (GP 1 ii2 mq)) (fun gp =>
         bind (sum (EF 3 ii1 mq 1) (EF 3 ii2 mq 1)) (fun ef =>
         loop ii1 ii2 (fun ii => loop 1 2 (fun jj q =>
                 bind (wr d2 q (ii, my d + jj, mq) gp) (fun q => wr d2 q (ii, my d + jj + 2, mq) ef))) q)))))))) zeros.

  Definition c3 (p : Z * Z) (mq : Z) : cell := (fst p, snd p, mq).

  (** time_sync.f:404-441, 453-490: coarse cell (ic,jc); (ic2,jc2) is the
      next cell away from the face; [wave] and [ef0] are the registers of the coarse patch.  At
      a lower face (0, 2) delta = (ef-ef0)-(wave'-wave), otherwise (ef0-ef)-(wave'-wave). *)
  Definition f2c_cell (dummy : arr) (rc : regs) (t : tdata) (sc : Z) (lower : bool) (area wave ef0 : cell)
      (ic jc ic2 jc2 mq : Z) (q : arr) : option arr :=
    bind (t_face_half rnd d t ic jc) (fun ij =>
    bind (rdr rc area) (fun areac =>
    bind (skip_this_grid ij) (fun skip =>
    bind (if skip : bool then Some 0%Q else
          bind (ij 0) (fun p => bind (rd d2 dummy (c3 p mq)) (fun w =>
          bind (t_face_half rnd d t ic2 jc2) (fun ij2 => bind (ij2 0) (fun p2 =>
          bind (rd d2 dummy (c3 p2 mq)) (fun e =>
          let ef := (inject_Z sc * e)%Q in
          bind (rdr rc ef0) (fun e0 => bind (rdr rc wave) (fun w0 =>
          Some (if lower then (ef - e0) - (w - w0) else (e0 - ef) - (w - w0))%Q)))))))) (fun deltac =>
    bind (rd d q (ic, jc, mq)) (fun x => wr d q (ic, jc, mq) (x + deltac / areac)%Q))))).

  (** time_sync.f:254-498 clawpack46_fort_time_sync_f2c, called by
      conservation.c:351-424 with the registers of the coarse and the fine patch *)
  Definition time_sync_f2c (idir iface_coarse normal_match : Z) (rc rf : regs) (t : tdata) (q : arr) : option arr :=
    bind (build_transform t) (fun '(a11, a12, a21, a22) =>
    let sc := if idir =? 0 then Z.quot (a11 + a21) 2 else Z.quot (a12 + a22) 2 in
    let nm := if normal_match =? 0 then -1 else 1 in
    if negb (sc =? nm) then None else
    bind (f2c_fill rf) (fun dummy =>
    if idir =? 0 then
      loop 1 (meqn d) (fun mq => loop 1 (my d) (fun jc =>
        if iface_coarse =? 0 then
          f2c_cell dummy rc t sc true (AR 0 jc) (FP 0 jc mq) (EF 0 jc mq 0) 1 jc 2 jc mq
        else if iface_coarse =? 1 then
          f2c_cell dummy rc t sc false (AR 1 jc) (FM 1 jc mq) (EF 1 jc mq 0) (mx d) jc (mx d - 1) jc mq
        else fun _ => None)) q
    else
      loop 1 (meqn d) (fun mq => loop 1 (mx d) (fun ic =>
        if iface_coarse =? 2 then
          f2c_cell dummy rc t sc true (AR 2 ic) (GP 0 ic mq) (EF 2 ic mq 0) ic 1 ic 2 mq
        else if iface_coarse =? 3 then
          f2c_cell dummy rc t sc false (AR 3 ic) (GM 1 ic mq) (EF 3 ic mq 0) ic (my d) ic (my d - 1) mq
        else fun _ => None)) q)).

  (** time_sync.f:604-620 *)
  Definition samesize_fill (rn : regs) : option arr :=
    let put c v q := bind (rdr rn v) (wr d q c) in
    loop 1 (meqn d) (fun mq => seq
      (loop 1 (my d) (fun j => seq (seq (put (0, j, mq) (FM 0 j mq)) (put (-1, j, mq) (EF 0 j mq 1)))
                                   (seq (put (mx d + 1, j, mq) (FP 1 j mq)) (put (mx d + 2, j, mq) (EF 1 j mq 1)))))
      (loop 1 (mx d) (fun i => seq (seq (put (i, 0, mq) (GM 0 i mq)) (put (i, -1, mq) (EF 2 i mq 1)))
                                   (seq (put (i, my d + 1, mq) (GP 1 i mq)) (put (i, my d + 2, mq) (EF 3 i mq 1)))))) zeros.

  (** time_sync.f:627-659, 668-700 *)
  Definition samesize_cell (dummy : arr) (r : regs) (t : tdata) (sc : Z) (lower : bool) (area wave ef0 : cell)
      (i1 j1 ia ja mq : Z) (q : arr) : option arr :=
    bind (t_face rnd d t i1 j1) (fun p => bind (rd d dummy (c3 p mq)) (fun w =>
    bind (t_face rnd d t ia ja) (fun p2 => bind (rd d dummy (c3 p2 mq)) (fun e =>
    let ef := (inject_Z sc * e)%Q in
    bind (rdr r ef0) (fun e0 => bind (rdr r wave) (fun w0 =>
    let delta := (if lower then (ef - e0) - (w - w0) else (e0 - ef) - (w - w0))%Q in
    bind (rdr r area) (fun a =>
    bind (rd d q (i1, j1, mq)) (fun x => wr d q (i1, j1, mq) (x + (1 # 2) * delta / a)%Q)))))))).

  (** time_sync.f:528-704 clawpack46_fort_time_sync_samesize, called by
      conservation.c:427-497 *)
  Definition time_sync_samesize (this_iface : Z) (r rn : regs) (t : tdata) (q : arr) : option arr :=
    bind (build_transform_same rnd d t) (fun '(a11, a12, a21, a22, _, _) =>
    bind (samesize_fill rn) (fun dummy =>
    if Z.quot this_iface 2 =? 0 then
      let sc := a11 + a21 in
      loop 1 (meqn d) (fun mq => loop 1 (my d) (fun j =>
        if this_iface =? 0 then
          samesize_cell dummy r t sc true (AR 0 j) (FP 0 j mq) (EF 0 j mq 0) 1 j 2 j mq
        else
          samesize_cell dummy r t sc false (AR 1 j) (FM 1 j mq) (EF 1 j mq 0) (mx d) j (mx d - 1) j mq)) q
    else
      let sc := a12 + a22 in
      loop 1 (meqn d) (fun mq => loop 1 (mx d) (fun i =>
        if this_iface =? 2 then
          samesize_cell dummy r t sc true (AR 2 i) (GP 0 i mq) (EF 2 i mq 0) i 1 i 2 mq
        else
          samesize_cell dummy r t sc false (AR 3 i) (GM 1 i mq) (EF 3 i mq 0) i (my d) i (my d - 1) mq)) q)).

  (* ------------------------------------------------------ the whole forest *)

  (** What the neighbor query says about a face (fclaw2d_patch_face_neighbors, C05) and the
      transformations the caller builds from it, fclaw2d_face_neighbors.c:67-190. *)
  Inductive neighbors :=
  | Boundary
  | SameSize (n : nat) (t : tdata)
  | HalfSize (n : Z -> nat) (t : Z -> tdata) (normal_match : Z)
  | DoubleSize.

  (** [patches] lists the local patches in the order of the iterator; a neighbor may be a
      ghost patch, which is not in the list *)
  Record forest := mkForest { patches : list nat; lev : nat -> Z; nbr : nat -> Z -> neighbors }.

  Record state := mkState { sol : nat -> arr; reg : nat -> regs }.
  Definition upd {A} (f : nat -> A) (p : nat) (v : A) : nat -> A := fun p' => if Nat.eqb p' p then v else f p'.

  Fixpoint for_all {A S} (l : list A) (f : A -> S -> option S) (s : S) : option S :=
    match l with [] => Some s | x :: l => bind (f x s) (for_all l f) end.

  Section Forest.
    Variable F : forest.

    (** fclaw2d_global_iterate_level, see C06 *)
    Definition iterate_level (level : Z) (cb : nat -> state -> option state) : state -> option state :=
      for_all (filter (fun p => lev F p =? level) (patches F)) cb.

    (** fclaw2d_face_neighbors.c:195-451 cb_face_fill with exchange_type TIME_SYNC_SAMESIZE and
        grid_type IS_COARSE.  The correction of ghost copies (lines 390-413) is left out: it
        writes to ghost patches only. *)
    Definition cb_samesize (p : nat) : state -> option state :=
      loop 0 3 (fun iface s =>
        match nbr F p iface with
        | SameSize n t =>
            bind (time_sync_samesize iface (reg s p) (reg s n) t (sol s p)) (fun q =>
            Some (mkState (upd (sol s) p q) (reg s)))
        | _ => Some s
        end).

    (** ... with exchange_type TIME_SYNC_F2C, read_parallel_patches = 1 *)
    Definition cb_f2c (p : nat) : state -> option state :=
      loop 0 3 (fun iface s =>
        match nbr F p iface with
        | HalfSize n t nm =>
            loop 0 1 (fun igrid s =>
              bind (time_sync_f2c (Z.quot iface 2) iface nm (reg s p) (reg s (n igrid)) (t igrid) (sol s p)) (fun q =>
              Some (mkState (upd (sol s) p q) (reg s)))) s
        | _ => Some s
        end).

    (** conservation.c:254-278, the registers at face k *)
    Definition clear_face (k : Z) : regs -> option regs :=
      let zero c r := wrr r c 0%Q in
      if Z.quot k 2 =? 0 then
        loop 1 (meqn d) (fun m => loop 1 (my d) (fun j =>
          seq (seq (zero (FM k j m)) (zero (FP k j m))) (seq (zero (EF k j m 0)) (zero (EF k j m 1)))))
      else
        loop 1 (meqn d) (fun m => loop 1 (mx d) (fun i =>
          seq (seq (zero (GM (k - 2) i m)) (zero (GP (k - 2) i m))) (seq (zero (EF k i m 0)) (zero (EF k i m 1))))).

    Inductive reset_mode := RESET_F2C | RESET_SAMESIZE | RESET_PHYS.

    (** conservation.c:207-280 time_sync_reset.  The relation stored in the patch
        (pdata->face_neighbors) is the one of the neighbor query,
        fclaw2d_regrid.c:337-400. *)
    Definition time_sync_reset (p : nat) (coarse_level : Z) (mode : reset_mode) (s : state) : option state :=
      let fine_level := coarse_level + 1 in
      bind (loop 0 3 (fun k r =>
        let reset_flux :=
          match mode with
          | RESET_F2C =>
              (match nbr F p k with HalfSize _ _ _ => lev F p =? coarse_level | _ => false end) ||
              (match nbr F p k with DoubleSize => lev F p =? fine_level | _ => false end)
          | RESET_SAMESIZE => match nbr F p k with SameSize _ _ => lev F p =? coarse_level | _ => false end
          | RESET_PHYS => match nbr F p k with Boundary => true | _ => false end
          end in
        if reset_flux then clear_face k r else Some r) (reg s p)) (fun r =>
      Some (mkState (sol s) (upd (reg s) p r))).

    (** fclaw2d_time_sync.c:66-84 *)
    Definition reset_level (coarse_level : Z) (mode : reset_mode) : state -> option state :=
      seq (iterate_level coarse_level (fun p => time_sync_reset p coarse_level mode))
          (match mode with
           | RESET_F2C => iterate_level (coarse_level + 1) (fun p => time_sync_reset p coarse_level mode)
           | _ => fun s => Some s
           end).

    (** fclaw2d_time_sync.c:118-154 correct_coarse_cells; [minlevel] is the argument,
        [maxlevel] the option *)
    Definition correct_coarse_cells (minlevel maxlevel : Z) : state -> option state :=
      let down (f : Z -> state -> option state) := loop 0 (maxlevel - minlevel) (fun i => f (maxlevel - i)) in
      seq
       (down (fun level =>
         seq (iterate_level level cb_samesize) (seq (reset_level level RESET_SAMESIZE)
         (if level <? maxlevel then
            seq (iterate_level level cb_f2c) (reset_level level RESET_F2C)
          else fun s => Some s))))
       (down (fun level => reset_level level RESET_PHYS)).
  End Forest.
End Sync.
