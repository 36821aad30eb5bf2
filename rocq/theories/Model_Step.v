(** One step of the wave propagation algorithm on a patch (clawpack 4.6, 2D).

    src/solvers/fc2d_clawpack4.6/fortran_source: clawpack46_step2.f, clawpack46_step2_wrap.f, clawpack46_flux2.f,
    clawpack46_flux2fw.f, clawpack46_inlinelimiter.f; src/solvers/fc2d_clawpack4.6/fc2d_clawpack46.cpp:307-384.

    Simplifications: numbers are rational numbers with arbitrary arithmetic operations (a record), so that the exact
    operations and rounded ones are instances.  Memory that has not been assigned holds [None]; use of it in an
    operation, an index outside of declared bounds and ierror <> 0 (FCLAW_ASSERT) are the outcome [None].  The pieces of
    the work array are separate arrays here; their placement is [work_index] below.  The Riemann solvers are functions
    of the states and auxiliary values on both sides of an interface (and not of the common block comxyt), called for
    the interfaces 2-mbc to mx+mbc as the clawpack convention demands. *)
From Coq Require Import ZArith QArith Qminmax Qabs List Lia Bool.
From Verif Require Import Base_Float Model_Face Model_Grid.
Import ListNotations.
Open Scope Z_scope.

(** double precision operations *)
Record arith := mkA { add : Q -> Q -> Q; sub : Q -> Q -> Q; mul : Q -> Q -> Q; quo : Q -> Q -> Q }.
Definition exact : arith := mkA Qplus Qminus Qmult Qdiv.

(** the arrays *)
Inductive nm := FADDM | FADDP | GADDM | GADDP | Q1D | DTDX1 | DTDY1 | AUX1 | AUX2 | AUX3
  | WAVE | SP | AMDQ | APDQ | CQXX | BMASDQ | BPASDQ | FM | FP | GM | GP | QOLD | AUX.
Definition nm_code (a : nm) : Z := match a with FADDM => 0 | FADDP => 1 | GADDM => 2 | GADDP => 3 | Q1D => 4 | DTDX1 => 5
  | DTDY1 => 6 | AUX1 => 7 | AUX2 => 8 | AUX3 => 9 | WAVE => 10 | SP => 11 | AMDQ => 12 | APDQ => 13 | CQXX => 14
  | BMASDQ => 15 | BPASDQ => 16 | FM => 17 | FP => 18 | GM => 19 | GP => 20 | QOLD => 21 | AUX => 22 end.
Definition addr : Type := nm * cell.
Definition addr_eqb (a b : addr) : bool := (nm_code (fst a) =? nm_code (fst b)) && cell_eqb (snd a) (snd b).
Definition mem : Type := addr -> option Q.

(** result of the normal Riemann solver rpn2 at an interface: wave(m,mw), s(mw), amdq(m), apdq(m) *)
Record riemann := mkR { r_wave : Z -> Z -> Q; r_s : Z -> Q; r_amdq : Z -> Q; r_apdq : Z -> Q }.

(** what the user chooses: mwaves, maux, mcapa, method(2), method(3), mthlim, use_fwaves, the Riemann solvers.
    [rpn ixy ql qr auxl auxr]: states and auxiliary values of the cells left and right of the interface;
    [rpt ixy ilr ql qr aux1l aux1r aux2l aux2r aux3l aux3r asdq]: bmasdq and bpasdq *)
Record solver := mkS {
  mwaves : Z; maux : Z; mcapa : Z; method2 : Z; method3 : Z; mthlim : Z -> Z; use_fwaves : bool;
  rpn : Z -> list Q -> list Q -> list Q -> list Q -> riemann;
  rpt : Z -> Z -> list Q -> list Q -> list Q -> list Q -> list Q -> list Q -> list Q -> list Q -> list Q -> (Z -> Q) * (Z -> Q) }.

Definition zrange (lo hi : Z) : list Z := map (fun k => lo + Z.of_nat k) (seq 0 (Z.to_nat (hi - lo + 1))).
Fixpoint gather_some {A} (l : list (option A)) : option (list A) :=
  match l with [] => Some [] | x :: l => bind x (fun x => bind (gather_some l) (fun l => Some (x :: l))) end.

Section Step.
  Variable A : arith.
  Notation "x +. y" := (add A x y) (at level 50, left associativity).
  Notation "x -. y" := (sub A x y) (at level 50, left associativity).
  Notation "x *. y" := (mul A x y) (at level 40, left associativity).
  Notation "x /. y" := (quo A x y) (at level 40, left associativity).
  Variable d : dims.
  Variable S : solver.
  (** fc2d_clawpack46.cpp:307 *)
  Definition maxm : Z := Z.max (mx d) (my d).

  (** declared bounds: clawpack46_step2.f:22-42, clawpack46_flux2.f:62-81 *)
  Definition in1 (n2 n3 : Z) (c : cell) : bool :=
    let '(i, m, k) := c in
    (1 - mbc d <=? i) && (i <=? maxm + mbc d) && (1 <=? m) && (m <=? n2) && (1 <=? k) && (k <=? n3).
  Definition in_mem (a : addr) : bool :=
    let '(n, c) := a in
    match n with
    | FADDM | FADDP | Q1D | AMDQ | APDQ | CQXX | BMASDQ | BPASDQ => in1 (meqn d) 1 c
    | GADDM | GADDP => in1 (meqn d) 2 c
    | DTDX1 | DTDY1 => in1 1 1 c
    | AUX1 | AUX2 | AUX3 => in1 (maux S) 1 c
    | WAVE => in1 (meqn d) (mwaves S) c
    | SP => in1 (mwaves S) 1 c
    | FM | FP | GM | GP | QOLD => in_q d c
    | AUX => in_q (mkDims (mx d) (my d) (mbc d) (maux S)) c
    end.
  Definition rdm (s : mem) (a : addr) : option Q := if in_mem a then s a else None.
  Definition wrm (a : addr) (v : Q) (s : mem) : option mem :=
    if in_mem a then Some (fun a' => if addr_eqb a' a then Some v else s a') else None.
  (** x = x + v, x = x - v, x = y *)
  Definition incm (a : addr) (v : Q) (s : mem) : option mem := bind (rdm s a) (fun x => wrm a (x +. v) s).
  Definition decm (a : addr) (v : Q) (s : mem) : option mem := bind (rdm s a) (fun x => wrm a (x -. v) s).
  Definition movm (a b : addr) (s : mem) : option mem := bind (rdm s b) (fun x => wrm a x s).
  Definition sq (f g : mem -> option mem) (s : mem) : option mem := bind (f s) g.
  Infix ";;" := sq (at level 60, right associativity).
  Definition skip (s : mem) : option mem := Some s.
  Definition cond (b : bool) (f : mem -> option mem) : mem -> option mem := if b then f else skip.
  (** the values of all components of one cell of a 1d array *)
  Definition row (s : mem) (a : nm) (n i : Z) : option (list Q) :=
    gather_some (map (fun m => rdm s (a, (i, m, 1))) (zrange 1 n)).

  Definition a1 (a : nm) (i m : Z) : addr := (a, (i, m, 1)).

  (* ------------------------------------------------------------ limiter *)

  (** th = 1.3, a single precision constant (inlinelimiter.f:100) *)
  Definition th : Q := 10905190 # 8388608.
  (** inlinelimiter.f:59-106; a computed "go to" with an index out of range continues with the next statement (minmod) *)
  Definition philim (lim : Z) (r : Q) : Q :=
    if lim =? 2 then Qmax (Qmax 0 (Qmin 1 (2 *. r))) (Qmin 2 r)
    else if lim =? 3 then (r +. Qabs r) /. (1 +. Qabs r)
    else if lim =? 4 then Qmax 0 (Qmin (Qmin ((1 +. r) /. 2) 2) (2 *. r))
    else if lim =? 5 then r
    else if lim =? 6 then Qmax 0 (Qmin (Qmin (th *. r) ((1 +. r) /. 2)) th)
    else Qmax 0 (Qmin 1 r).
  (** inlinelimiter.f:46-49, the loop over m: wnorm2 and dotr *)
  Definition dots (i mw : Z) (s : mem) : option (Q * Q) :=
    loop 1 (meqn d) (fun m '(wnorm2, dotr) =>
      bind (rdm s (WAVE, (i, m, mw))) (fun w => bind (rdm s (WAVE, (i + 1, m, mw))) (fun w1 =>
      Some (wnorm2 +. w *. w, dotr +. w *. w1)))) (0%Q, 0%Q).
  (** inlinelimiter.f:43-114, one interface; the second component of the state is dotr *)
  Definition limit1 (mw i : Z) (st : mem * Q) : option (mem * Q) :=
    let '(s, dotl) := st in
    bind (dots i mw s) (fun '(wnorm2, dotr) =>
    if i =? 0 then Some (s, dotr)
    else if Qeq_bool wnorm2 0 then Some (s, dotr)
    else
      bind (rdm s (SP, (i, mw, 1))) (fun sp =>
      let r := if Qle_bool sp 0 then dotr /. wnorm2 else dotl /. wnorm2 in
      let wlimitr := philim (mthlim S mw) r in
      bind (loop 1 (meqn d) (fun m s => bind (rdm s (WAVE, (i, m, mw))) (fun w => wrm (WAVE, (i, m, mw)) (wlimitr *. w) s)) s) (fun s =>
      Some (s, dotr)))).
  (** inlinelimiter.f:39-117 *)
  Definition inlinelimiter (n : Z) : mem -> option mem :=
    loop 1 (mwaves S) (fun mw s =>
      if mthlim S mw =? 0 then Some s
      else option_map fst (loop 0 (n + 1) (fun i => limit1 mw i) (s, 0%Q))).

  (* ------------------------------------------------------------ one slice *)

  Section Slice.
    Variable ixy n : Z.            (* direction and number of cells ("mx" of the routine) *)
    Variable dt1 : nm.             (* the actual argument for dtdx1d *)

    (** flux2.f:90-95 *)
    Definition limit : bool := existsb (fun mw => 0 <? mthlim S mw) (zrange 1 (mwaves S)).
    (** flux2.f:100-109 *)
    Definition f_init : mem -> option mem :=
      loop 1 2 (fun jside => loop 1 (meqn d) (fun m => loop (1 - mbc d) (n + mbc d) (fun i =>
        wrm (a1 FADDM i m) 0 ;; wrm (a1 FADDP i m) 0 ;; wrm (GADDM, (i, m, jside)) 0 ;; wrm (GADDP, (i, m, jside)) 0))).
    (** the call of rpn2, flux2.f:115 *)
    Definition f_rpn : mem -> option mem :=
      loop (2 - mbc d) (n + mbc d) (fun i s =>
        bind (row s Q1D (meqn d) (i - 1)) (fun ql => bind (row s Q1D (meqn d) i) (fun qr =>
        bind (row s AUX2 (maux S) (i - 1)) (fun al => bind (row s AUX2 (maux S) i) (fun ar =>
        let r := rpn S ixy ql qr al ar in
        (loop 1 (meqn d) (fun m =>
           loop 1 (mwaves S) (fun mw => wrm (WAVE, (i, m, mw)) (r_wave r m mw)) ;;
           wrm (a1 AMDQ i m) (r_amdq r m) ;; wrm (a1 APDQ i m) (r_apdq r m)) ;;
         loop 1 (mwaves S) (fun mw => wrm (a1 SP i mw) (r_s r mw))) s))))).
    (** the loops over interfaces: flux2.f and flux2fw.f differ in their range *)
    Definition lo : Z := if use_fwaves S then 1 else 2 - mbc d.
    Definition hi : Z := if use_fwaves S then n + 1 else n + mbc d.
    Definition hi1 : Z := if use_fwaves S then n + 1 else n + mbc d - 1.
    (** flux2.f:119-124, flux2fw.f:136-141 *)
    Definition f_godunov : mem -> option mem :=
      loop lo hi1 (fun i => loop 1 (meqn d) (fun m s =>
        bind (rdm s (a1 APDQ i m)) (fun ap => bind (rdm s (a1 AMDQ i m)) (fun am =>
        (decm (a1 FADDP i m) ap ;; incm (a1 FADDM i m) am) s)))).
    (** flux2.f:127-136 *)
    Definition f_cfl (s : mem) : option Q :=
      loop 1 (mwaves S) (fun mw => loop 1 (n + 1) (fun i cfl1d =>
        bind (rdm s (a1 dt1 i 1)) (fun di => bind (rdm s (a1 dt1 (i - 1) 1)) (fun dm => bind (rdm s (a1 SP i mw)) (fun sp =>
        Some (Qmax (Qmax cfl1d (di *. sp)) ((- dm) *. sp))%Q))))) 0%Q.
    Definition second_order : bool := if use_fwaves S then negb (method2 S =? 1) else method2 S =? 2.
    (** dsign(1.d0,x) *)
    Definition dsign (x : Q) : Q := if Qle_bool 0 x then 1 else -1.
    (** flux2.f:150-168, flux2fw.f:165-183 *)
    Definition f_cq1 (i m : Z) (dtdxave : Q) : mem -> option mem :=
      wrm (a1 CQXX i m) 0 ;;
      loop 1 (mwaves S) (fun mw s =>
        bind (rdm s (a1 SP i mw)) (fun sp => bind (rdm s (WAVE, (i, m, mw))) (fun w =>
        incm (a1 CQXX i m) ((if use_fwaves S then dsign sp else Qabs sp) *. (1 -. Qabs sp *. dtdxave) *. w) s))) ;;
      (fun s => bind (rdm s (a1 CQXX i m)) (fun c =>
        (incm (a1 FADDM i m) ((1 # 2) *. c) ;; incm (a1 FADDP i m) ((1 # 2) *. c)) s)).
    Definition f_correct : mem -> option mem :=
      cond limit (inlinelimiter n) ;;
      loop lo hi (fun i s =>
        bind (rdm s (a1 dt1 (i - 1) 1)) (fun dm => bind (rdm s (a1 dt1 i 1)) (fun di =>
        loop 1 (meqn d) (fun m => f_cq1 i m ((1 # 2) *. (dm +. di))) s))).
    (** flux2.f:173-181, flux2fw.f:189-197 *)
    Definition f_split : mem -> option mem :=
      loop lo hi1 (fun i => loop 1 (meqn d) (fun m s =>
        bind (rdm s (a1 CQXX i m)) (fun c => (incm (a1 AMDQ i m) c ;; decm (a1 APDQ i m) c) s))).
    (** the calls of rpt2, flux2.f:190 and 210; asdq is AMDQ or APDQ *)
    Definition f_rpt (ilr : Z) (asdq : nm) : mem -> option mem :=
      loop (2 - mbc d) (n + mbc d) (fun i s =>
        bind (row s Q1D (meqn d) (i - 1)) (fun ql => bind (row s Q1D (meqn d) i) (fun qr =>
        bind (row s AUX1 (maux S) (i - 1)) (fun a1l => bind (row s AUX1 (maux S) i) (fun a1r =>
        bind (row s AUX2 (maux S) (i - 1)) (fun a2l => bind (row s AUX2 (maux S) i) (fun a2r =>
        bind (row s AUX3 (maux S) (i - 1)) (fun a3l => bind (row s AUX3 (maux S) i) (fun a3r =>
        bind (row s asdq (meqn d) i) (fun dq =>
        let r := rpt S ixy ilr ql qr a1l a1r a2l a2r a3l a3r dq in
        loop 1 (meqn d) (fun m => wrm (a1 BMASDQ i m) (fst r m) ;; wrm (a1 BPASDQ i m) (snd r m)) s)))))))))).
    (** flux2.f:194-204, 214-224, flux2fw.f:212-222, 232-242: modify G below and above cell [k]; [j] is the cell whose
        dtdx1d is used *)
    Definition f_gadd1 (i k j m : Z) (s : mem) : option mem :=
      bind (rdm s (a1 dt1 j 1)) (fun dj => bind (rdm s (a1 BMASDQ i m)) (fun bm =>
      let gupdate := (1 # 2) *. dj *. bm in
      (decm (GADDM, (k, m, 1)) gupdate ;; decm (GADDP, (k, m, 1)) gupdate ;;
       (fun s => bind (rdm s (a1 dt1 j 1)) (fun dj => bind (rdm s (a1 BPASDQ i m)) (fun bp =>
        let gupdate := (1 # 2) *. dj *. bp in
        (decm (GADDM, (k, m, 2)) gupdate ;; decm (GADDP, (k, m, 2)) gupdate) s)))) s)).
    Definition f_transverse : mem -> option mem :=
      cond ((1 <? method2 S) && (method3 S =? 2)) f_split ;;
      f_rpt 1 AMDQ ;;
      loop 1 (meqn d) (fun m => loop lo hi (fun i => f_gadd1 i (i - 1) (i - 1) m)) ;;
      f_rpt 2 APDQ ;;
      loop 1 (meqn d) (fun m => loop lo hi (fun i => f_gadd1 i i (if use_fwaves S then i - 1 else i) m)).
    (** flux2.f:1-228 clawpack46_flux2, flux2fw.f:1-243 clawpack46_flux2fw *)
    Definition flux2 (s : mem) : option (mem * Q) :=
      bind ((f_init ;; f_rpn ;; f_godunov) s) (fun s =>
      bind (f_cfl s) (fun cfl1d =>
      bind ((cond second_order f_correct ;;
             cond (if use_fwaves S then negb (method3 S =? 0) else 0 <? method3 S) f_transverse) s) (fun s =>
      Some (s, cfl1d)))).
  End Slice.

  (* ------------------------------------------------------------ all slices *)

  (** step2.f:249-323 clawpack46_fix_corners; int(ihat-jhat) and int(ihat+jhat) as integers (mx, my < 2^22) *)
  Definition fix_corners (bcc : Z -> Z) (sweep_dir : Z) : mem -> option mem :=
    loop 0 3 (fun k s =>
      if negb (bcc k =? 3) then Some s else
      let use_b := ((sweep_dir =? 0) && ((k =? 0) || (k =? 3))) || ((sweep_dir =? 1) && ((k =? 1) || (k =? 2))) in
      let dif := if k =? 0 then 0 else if k =? 1 then mx d else if k =? 2 then - my d else mx d - my d in
      let sum := if k =? 0 then 1 else if k =? 1 then mx d + 1 else if k =? 2 then my d + 1 else mx d + my d + 1 in
      loop 1 (mbc d) (fun ibc => loop 1 (mbc d) (fun jbc =>
        let i1 := if (k =? 0) || (k =? 2) then 1 - ibc else mx d + ibc in
        let j1 := if (k =? 0) || (k =? 1) then 1 - jbc else my d + jbc in
        let idata := if use_b then j1 + dif else - j1 + sum in
        let jdata := if use_b then - i1 + sum else i1 - dif in
        loop 1 (meqn d) (fun m => movm (QOLD, (i1, j1, m)) (QOLD, (idata, jdata, m))))) s).

  (** step2.f:83-92 *)
  Definition s_zero : mem -> option mem :=
    loop 1 (meqn d) (fun m => loop (1 - mbc d) (mx d + mbc d) (fun i => loop (1 - mbc d) (my d + mbc d) (fun j =>
      wrm (FM, (i, j, m)) 0 ;; wrm (FP, (i, j, m)) 0 ;; wrm (GM, (i, j, m)) 0 ;; wrm (GP, (i, j, m)) 0))).
  (** step2.f:94-100 *)
  Definition s_ratio (dtdx dtdy : Q) : mem -> option mem :=
    cond (mcapa S =? 0) (loop (1 - mbc d) (maxm + mbc d) (fun i => wrm (a1 DTDX1 i 1) dtdx ;; wrm (a1 DTDY1 i 1) dtdy)).
  (** step2.f:117-136 and 194-213: copy a slice; [at_ p i] is the cell i of the slice p *)
  Definition s_copy (n : Z) (dt1 : nm) (dtd : Q) (at_ : Z -> Z -> Z -> cell) (p : Z) : mem -> option mem :=
    loop 1 (meqn d) (fun m => loop (1 - mbc d) (n + mbc d) (fun i => movm (a1 Q1D i m) (QOLD, at_ p i m))) ;;
    cond (0 <? mcapa S) (loop (1 - mbc d) (n + mbc d) (fun i s =>
      bind (rdm s (AUX, at_ p i (mcapa S))) (fun c => wrm (a1 dt1 i 1) (dtd /. c) s))) ;;
    cond (0 <? maux S) (loop 1 (maux S) (fun ma => loop (1 - mbc d) (n + mbc d) (fun i =>
      movm (a1 AUX1 i ma) (AUX, at_ (p - 1) i ma) ;;
      movm (a1 AUX2 i ma) (AUX, at_ p i ma) ;;
      movm (a1 AUX3 i ma) (AUX, at_ (p + 1) i ma)))).
  (** x = x + y *)
  Definition accm (a b : addr) (s : mem) : option mem := bind (rdm s b) (fun v => incm a v s).
  (** step2.f:160-173 and 239-249: [ma pa] are the fluxes in the direction of the slice, [mb pb] the others *)
  Definition s_update (n : Z) (ma pa mb pb : nm) (at_ : Z -> Z -> Z -> cell) (p : Z) : mem -> option mem :=
    loop 1 (meqn d) (fun m => loop (2 - mbc d) (n + mbc d) (fun i =>
      accm (ma, at_ p i m) (a1 FADDM i m) ;; accm (pa, at_ p i m) (a1 FADDP i m) ;;
      accm (mb, at_ p i m) (GADDM, (i, m, 1)) ;; accm (pb, at_ p i m) (GADDP, (i, m, 1)) ;;
      accm (mb, at_ (p + 1) i m) (GADDM, (i, m, 2)) ;; accm (pb, at_ (p + 1) i m) (GADDP, (i, m, 2)))).
  Definition at_x (p i m : Z) : cell := (i, p, m).
  Definition at_y (p i m : Z) : cell := (p, i, m).
  (** step2.f:112-174, 189-250: slices 2-mbc to np+mbc-1 of n cells; the second component is cflgrid *)
  Definition sweep (ixy n np : Z) (dt1 : nm) (dtd : Q) (ma pa mb pb : nm) (at_ : Z -> Z -> Z -> cell) : mem * Q -> option (mem * Q) :=
    loop (2 - mbc d) (np + mbc d - 1) (fun p '(s, cflgrid) =>
      bind (s_copy n dt1 dtd at_ p s) (fun s =>
      bind (flux2 ixy n dt1 s) (fun '(s, cfl1d) =>
      bind (s_update n ma pa mb pb at_ p s) (fun s =>
      Some (s, Qmax cflgrid cfl1d))))).
  (** step2.f:1-247 clawpack46_step2, after the check of the work array *)
  Definition step2 (bcc : Z -> Z) (dx dy dt : Q) (s : mem) : option (mem * Q) :=
    let dtdx := dt /. dx in
    let dtdy := dt /. dy in
    bind ((s_zero ;; s_ratio dtdx dtdy ;; fix_corners bcc 0) s) (fun s =>
    bind (sweep 1 (mx d) (my d) DTDX1 dtdx FM FP GM GP at_x (s, 0%Q)) (fun '(s, cfl) =>
    bind (fix_corners bcc 1 s) (fun s =>
    sweep 2 (my d) (mx d) DTDY1 dtdy GM GP FM FP at_y (s, cfl)))).

  (* ------------------------------------------------------------ work array *)

  (** fc2d_clawpack46.cpp:345 *)
  Definition mwork : Z := (maxm + 2 * mbc d) * (12 * meqn d + (meqn d + 1) * mwaves S + 3 * maux S + 2).
  (** step2_wrap.f:52-66, then step2.f:61-68 in the part beginning at i0next: the element (1-mbc,1,1) of each piece *)
  Definition i0 (a : nm) : Z :=
    let w := maxm + 2 * mbc d in
    let faddm := 1 in
    let faddp := faddm + w * meqn d in
    let gaddm := faddp + w * meqn d in
    let gaddp := gaddm + 2 * w * meqn d in
    let q1d := gaddp + 2 * w * meqn d in
    let dtdx1 := q1d + w * meqn d in
    let dtdy1 := dtdx1 + w in
    let aux1 := dtdy1 + w in
    let aux2 := aux1 + w * maux S in
    let aux3 := aux2 + w * maux S in
    let next := aux3 + w * maux S in
    let wave := 1 in
    let s := wave + w * meqn d * mwaves S in
    let amdq := s + w * mwaves S in
    let apdq := amdq + w * meqn d in
    let cqxx := apdq + w * meqn d in
    let bmadq := cqxx + w * meqn d in
    let bpadq := bmadq + w * meqn d in
    match a with
    | FADDM => faddm | FADDP => faddp | GADDM => gaddm | GADDP => gaddp | Q1D => q1d | DTDX1 => dtdx1 | DTDY1 => dtdy1
    | AUX1 => aux1 | AUX2 => aux2 | AUX3 => aux3
    | WAVE => next - 1 + wave | SP => next - 1 + s | AMDQ => next - 1 + amdq | APDQ => next - 1 + apdq
    | CQXX => next - 1 + cqxx | BMASDQ => next - 1 + bmadq | BPASDQ => next - 1 + bpadq
    | _ => 0
    end.
  (** step2_wrap.f:67-74 and step2.f:69-74: mused, mwork1 and iused; false is ierror = 1 *)
  Definition work_check : bool :=
    let w := maxm + 2 * mbc d in
    let mused := i0 WAVE - 1 in
    let mwork1 := mwork - mused in
    let iused := (i0 BPASDQ - mused) + w * meqn d - 1 in
    negb (mwork <? mused) && negb (mwork1 <? iused).
  (** second extent of an array in the work array *)
  Definition extent2 (a : nm) : Z :=
    match a with DTDX1 | DTDY1 => 1 | AUX1 | AUX2 | AUX3 => maux S | SP => mwaves S | _ => meqn d end.
  (** index in the work array of an element, column major *)
  Definition work_index (a : addr) : Z :=
    let '(n, (i, m, k)) := a in
    let w := maxm + 2 * mbc d in
    i0 n + (i - (1 - mbc d)) + (m - 1) * w + (k - 1) * (w * extent2 n).

  (** step2_wrap.f:107-130 *)
  Definition w_update (dtdx dtdy : Q) : mem -> option mem :=
    loop 1 (meqn d) (fun m => loop (1 - mbc d) (mx d + mbc d - 1) (fun i => loop (1 - mbc d) (my d + mbc d - 1) (fun j s =>
      bind (rdm s (QOLD, (i, j, m))) (fun q =>
      bind (rdm s (FM, (i + 1, j, m))) (fun fme => bind (rdm s (FP, (i, j, m))) (fun fpw =>
      bind (rdm s (GM, (i, j + 1, m))) (fun gmn => bind (rdm s (GP, (i, j, m))) (fun gps =>
      if mcapa S =? 0 then
        wrm (QOLD, (i, j, m)) ((q -. dtdx *. (fme -. fpw)) -. dtdy *. (gmn -. gps)) s
      else
        bind (rdm s (AUX, (i, j, mcapa S))) (fun c =>
        wrm (QOLD, (i, j, m)) (q -. (dtdx *. (fme -. fpw) +. dtdy *. (gmn -. gps)) /. c) s))))))))).
  (** step2_wrap.f:1-127 clawpack46_step2_wrap: the memory and the Courant number *)
  Definition step2_wrap (bcc : Z -> Z) (dx dy dt : Q) (s : mem) : option (mem * Q) :=
    if work_check then
      bind (step2 bcc dx dy dt s) (fun '(s, cfl) =>
      bind (w_update (dt /. dx) (dt /. dy) s) (fun s => Some (s, cfl)))
    else None.
  (** fc2d_clawpack46.cpp:260-400 clawpack46_step2: memory of the work and flux arrays is new, with unknown content;
      the new solution and the Courant number.  The parts for time_sync are in Model_Sync. *)
  Definition clawpack46_step2 (bcc : Z -> Z) (dx dy dt : Q) (garbage : mem) (q aux : arr) : option (arr * Q) :=
    bind (step2_wrap bcc dx dy dt (fun a => match fst a with QOLD => q (snd a) | AUX => aux (snd a) | _ => garbage a end)) (fun '(s, cfl) =>
    Some (fun c => s (QOLD, c), cfl)).
End Step.
