(** Model of one step of GeoClaw's solver on a patch:
    /repo/src/solvers/fc2d_geoclaw/fortran_source/geoclaw_step2_wrap_fort.f, geoclaw_step2_fort.f90 and
    geoclaw_flux2fw_fort.f (fc2d_geoclaw_flux2), Cartesian coordinates.

    Simplifications: exact rational numbers; arrays are functions of their indices (bounds are not checked); the loops of
    flux2 over i, in which an iteration reads nothing that another one writes (but for accumulations), are functions of i;
    the loops over slices are folds in the order of the code; the Riemann solvers rpn2 and rpt2 are functions of the
    direction and the slices they are passed; relimit is false, as it is in both files (a constant), so the code it guards is
    left out; the common block comxyt is left out. *)
From Coq Require Import ZArith QArith Qminmax Qabs List Bool.
From Verif Require Import Model_GeoLimiter.
Import ListNotations.
Open Scope Q_scope.

Definition slice := Z -> Z -> Q.        (* m, i *)
Definition grid := Z -> Z -> Z -> Q.    (* m, i, j *)
(** what rpn2 returns: fwave(m,mw,i), s(mw,i), amdq(m,i), apdq(m,i) *)
Record riemann := mkRiemann { r_fwave : waves; r_s : Z -> Z -> Q; r_amdq : slice; r_apdq : slice }.
(** what flux2 returns; gadd by side (1 or 2) *)
Record fadds := mkFadds { faddm : slice; faddp : slice; gaddm : Z -> slice; gaddp : Z -> slice; cfl1d : Q }.

Record setup := mkSetup {
  g_nan : Q;   (* the value of a division by zero *)
  g_mx : Z; g_my : Z; g_mbc : Z; g_meqn : Z; g_mwaves : Z; g_method2 : Z; g_method3 : Z; g_mthlim : Z -> Z;
  rpn2 : Z -> slice -> slice -> riemann;                                          (* ixy, q1d, aux2 *)
  rpt2 : Z -> Z -> slice -> slice -> slice -> slice -> slice -> slice * slice }.  (* ixy, imp, q1d, aux1, aux2, aux3, asdq *)

Section Step.
  Variable S : setup.
  Definition inr (lo hi i : Z) : bool := (lo <=? i)%Z && (i <=? hi)%Z.

  (** geoclaw_flux2fw_fort.f:196-202, sum over the families *)
  Definition cqxx_of (s : Z -> Z -> Q) (w : waves) (dt1d : Z -> Q) (m i : Z) : Q :=
    fold_left (fun acc mw => acc + (if Qle_bool 0 (s mw i) then 1 else -(1)) * (1 - Qabs (s mw i) * dt1d (i - 1)%Z) * w m mw i)
      (zlist 1 (g_mwaves S)) 0.
  (** geoclaw_flux2fw_fort.f:113-116 *)
  Definition limit : bool := existsb (fun mw => (0 <? g_mthlim S mw)%Z) (zlist 1 (g_mwaves S)).
  (** geoclaw_flux2fw_fort.f:168-174 *)
  Definition courant (n : Z) (s : Z -> Z -> Q) (dt1d : Z -> Q) : Q :=
    fold_left (fun c mw => fold_left (fun c i => Qmax (Qmax c (dt1d i * s mw i)) (- dt1d (i - 1)%Z * s mw i)) (zlist 1 (n + 1)) c)
      (zlist 1 (g_mwaves S)) 0.
  (** geoclaw_flux2fw_fort.f:109-262, fc2d_geoclaw_flux2; n is mx of the slice *)
  Definition flux2 (ixy n : Z) (q1d : slice) (dt1d : Z -> Q) (aux1 aux2 aux3 : slice) : fadds :=
    let R := rpn2 S ixy q1d aux2 in                                                              (* line 138 *)
    let second := negb (g_method2 S =? 1)%Z in
    let w := if limit then limiter (g_nan S) (g_meqn S) (g_mwaves S) n (r_s R) (g_mthlim S) (r_fwave R) else r_fwave R in   (* lines 184-186 *)
    let dtav := fun i => if second && inr 0 n i then (1 # 2) * (dt1d i + dt1d (i + 1)%Z) else dt1d i in           (* line 193 *)
    let cqxx := cqxx_of (r_s R) w dtav in
    let corr := fun m i => if second && inr 1 (n + 1) i then (1 # 2) * cqxx m i else 0 in         (* lines 204-205 *)
    let god := inr (2 - g_mbc S) (n + g_mbc S - 1) in                                             (* line 145 *)
    let split := (1 <? g_method2 S)%Z && (g_method3 S =? 2)%Z in                                  (* lines 213-219 *)
    let amdq := fun m i => if split && inr 1 (n + 1) i then r_amdq R m i + cqxx m i else r_amdq R m i in
    let apdq := fun m i => if split && inr 1 (n + 1) i then r_apdq R m i - cqxx m i else r_apdq R m i in
    let left := rpt2 S ixy 1 q1d aux1 aux2 aux3 amdq in                                           (* line 228 *)
    let right := rpt2 S ixy 2 q1d aux1 aux2 aux3 apdq in                                          (* line 245 *)
    let side := fun k (b : slice * slice) => if (k =? 1)%Z then fst b else snd b in
    let g := fun (k : Z) (m i : Z) =>
      if (g_method3 S =? 0)%Z then 0                                                              (* line 211 *)
      else (0 - (if inr 1 (n + 1) (i + 1) then (1 # 2) * dtav i * side k left m (i + 1)%Z else 0))  (* lines 233-242 *)
             - (if inr 1 (n + 1) i then (1 # 2) * dtav (i - 1)%Z * side k right m i else 0) in      (* lines 250-259 *)
    mkFadds (fun m i => (if god i then r_amdq R m i else 0) + corr m i)
            (fun m i => (if god i then - r_apdq R m i else 0) + corr m i) g g (courant n (r_s R) dt1d).

  (** fm, fp, gm, gp and cflgrid *)
  Record fluxes := mkFluxes { Fm : grid; Fp : grid; Gm : grid; Gp : grid; Cfl : Q }.

  (** geoclaw_step2_fort.f90:93-122, a row with the change for block corners where three blocks meet *)
  Definition row (bcc : Z -> Z) (q : grid) (j : Z) : slice := fun m i =>
    if (j =? 0)%Z && (bcc 0%Z =? 3)%Z && inr (1 - g_mbc S) 0 i then q m (1 - i)%Z j
    else if (j =? 0)%Z && (bcc 1%Z =? 3)%Z && inr (g_mx S + 1) (g_mx S + g_mbc S) i then q m (2 * g_mx S + 1 - i)%Z j
    else if (j =? g_my S + 1)%Z && (bcc 2%Z =? 3)%Z && inr (1 - g_mbc S) 0 i then q m (1 - i)%Z j
    else if (j =? g_my S + 1)%Z && (bcc 3%Z =? 3)%Z && inr (g_mx S + 1) (g_mx S + g_mbc S) i then q m (2 * g_mx S + 1 - i)%Z j
    else q m i j.
  (** geoclaw_step2_fort.f90:165-192 *)
  Definition column (bcc : Z -> Z) (q : grid) (i : Z) : slice := fun m j =>
    if (i =? 0)%Z && (bcc 0%Z =? 3)%Z && inr (1 - g_mbc S) 0 j then q m i (1 - j)%Z
    else if (i =? 0)%Z && (bcc 2%Z =? 3)%Z && inr (g_my S + 1) (g_my S + g_mbc S) j then q m i (2 * g_my S + 1 - j)%Z
    else if (i =? g_mx S + 1)%Z && (bcc 1%Z =? 3)%Z && inr (1 - g_mbc S) 0 j then q m i (1 - j)%Z
    else if (i =? g_mx S + 1)%Z && (bcc 3%Z =? 3)%Z && inr (g_my S + 1) (g_my S + g_mbc S) j then q m i (2 * g_my S + 1 - j)%Z
    else q m i j.

  (** geoclaw_step2_fort.f90:88-158, one x-sweep; [capa] is aux(mcapa,i,j) if there is one *)
  Definition xflux (bcc : Z -> Z) (q aux : grid) (capa : option (Z -> Z -> Q)) (dtdx : Q) (j : Z) : fadds :=
    flux2 1 (g_mx S) (row bcc q j) (fun i => match capa with Some k => dtdx / k i j | None => dtdx end)
      (fun m i => aux m i (j - 1)%Z) (fun m i => aux m i j) (fun m i => aux m i (j + 1)%Z).
  Definition xsweep (bcc : Z -> Z) (q aux : grid) (capa : option (Z -> Z -> Q)) (dtdx : Q) (st : fluxes) (j : Z) : fluxes :=
    let A := xflux bcc q aux capa dtdx j in
    let f := fun (F : grid) (a : slice) m i j' => if (j' =? j)%Z && inr 1 (g_mx S + 1) i then F m i j' + a m i else F m i j' in
    let g := fun (G : grid) (a : Z -> slice) m i j' =>
      if inr 1 (g_mx S + 1) i then
        if (j' =? j)%Z then G m i j' + a 1%Z m i else if (j' =? j + 1)%Z then G m i j' + a 2%Z m i else G m i j'
      else G m i j' in
    mkFluxes (f (Fm st) (faddm A)) (f (Fp st) (faddp A)) (g (Gm st) (gaddm A)) (g (Gp st) (gaddp A)) (Qmax (Cfl st) (cfl1d A)).
  (** geoclaw_step2_fort.f90:162-226, one y-sweep *)
  Definition yflux (bcc : Z -> Z) (q aux : grid) (capa : option (Z -> Z -> Q)) (dtdy : Q) (i : Z) : fadds :=
    flux2 2 (g_my S) (column bcc q i) (fun j => match capa with Some k => dtdy / k i j | None => dtdy end)
      (fun m j => aux m (i - 1)%Z j) (fun m j => aux m i j) (fun m j => aux m (i + 1)%Z j).
  Definition ysweep (bcc : Z -> Z) (q aux : grid) (capa : option (Z -> Z -> Q)) (dtdy : Q) (st : fluxes) (i : Z) : fluxes :=
    let A := yflux bcc q aux capa dtdy i in
    let g := fun (G : grid) (a : slice) m i' j => if (i' =? i)%Z && inr 1 (g_my S + 1) j then G m i' j + a m j else G m i' j in
    let f := fun (F : grid) (a : Z -> slice) m i' j =>
      if inr 1 (g_my S + 1) j then
        if (i' =? i)%Z then F m i' j + a 1%Z m j else if (i' =? i + 1)%Z then F m i' j + a 2%Z m j else F m i' j
      else F m i' j in
    mkFluxes (f (Fm st) (gaddm A)) (f (Fp st) (gaddp A)) (g (Gm st) (faddm A)) (g (Gp st) (faddp A)) (Qmax (Cfl st) (cfl1d A)).
  (** geoclaw_step2_fort.f90:1-226 *)
  Definition step2 (bcc : Z -> Z) (q aux : grid) (capa : option (Z -> Z -> Q)) (dtdx dtdy : Q) : fluxes :=
    let zero := fun _ _ _ => 0 in
    let st := fold_left (xsweep bcc q aux capa dtdx) (zlist 0 (g_my S + 1)) (mkFluxes zero zero zero zero 0) in
    fold_left (ysweep bcc q aux capa dtdy) (zlist 0 (g_mx S + 1)) st.
  (** geoclaw_step2_wrap_fort.f:1-116 *)
  Definition geo_step (bcc : Z -> Z) (q aux : grid) (capa : option (Z -> Z -> Q)) (dx dy dt : Q) : grid * Q :=
    let dtdx := dt / dx in
    let dtdy := dt / dy in
    let F := step2 bcc q aux capa dtdx dtdy in
    (fun m i j =>
       if inr 1 (g_meqn S) m && inr 1 (g_mx S) i && inr 1 (g_my S) j then
         match capa with
         | None => q m i j - dtdx * (Fm F m (i + 1)%Z j - Fp F m i j) - dtdy * (Gm F m i (j + 1)%Z - Gp F m i j)
         | Some k => q m i j - (dtdx * (Fm F m (i + 1)%Z j - Fp F m i j) + dtdy * (Gm F m i (j + 1)%Z - Gp F m i j)) / k i j
         end
       else q m i j, Cfl F).
End Step.
