(** Exchange of patch data with remote processes, conservation registers in the message,
    and time interpolation (2D, clawpack 4.6 ordering).

    src/patches/clawpatch/fort_4.6/fclaw2d_clawpatch46_local_ghost_pack.f,
    fclaw2d_clawpatch46_timeinterp.f, src/patches/clawpatch/fclaw2d_clawpatch.cpp:473-526,
    1015-1225, src/patches/clawpatch/fclaw2d_clawpatch_conservation.c:111-196.

    Simplifications: the memory of a patch is a function from locations to values, with
    [LQ] the array selected by time_interp (fclaw2d_clawpatch_timesync_data).  Moving
    data copies an element as it is, also an unassigned one ([None]).  An index outside
    of an array or of the message, and a failed assertion, is the outcome [None].  Integer
    arithmetic does not overflow. *)
From Coq Require Import ZArith QArith List Lia Bool.
From Verif Require Import Base_Float Model_Face Model_Grid.
Import ListNotations.
Open Scope Z_scope.

(** A location in the memory of a patch: the solution, the area, the registers
    (fclaw2d_clawpatch_conservation.h:51-76, C arrays from 0), extra fields of the
    solver. *)
Inductive loc :=
| LQ (c : cell) | LA (i j : Z)
| LFm (k j : Z) | LFp (k j : Z) | LGm (k i : Z) | LGp (k i : Z)
| LEf (k j : Z) | LEl (k j : Z) | LAr (k j : Z)
| LX (n : Z).

Definition in_range (n k : Z) : bool := (0 <=? k) && (k <? n).

(** the declared or allocated bounds (fclaw2d_clawpatch_conservation.c:75-109) *)
Definition in_loc (d : dims) (l : loc) : bool :=
  match l with
  | LQ c => in_q d c
  | LA i j => (- mbc d <=? i) && (i <=? mx d + mbc d + 1) && (- mbc d <=? j) && (j <=? my d + mbc d + 1)
  | LFm k j | LFp k j => in_range 2 k && in_range (my d * meqn d) j
  | LGm k i | LGp k i => in_range 2 k && in_range (mx d * meqn d) i
  | LEf k j => in_range 4 k && in_range (2 * (if k <? 2 then my d else mx d) * meqn d) j
  | LEl k j | LAr k j => in_range 4 k && in_range (if k <? 2 then my d else mx d) j
  | LX n => 0 <=? n
  end.

Definition loc_eqb (a b : loc) : bool :=
  match a, b with
  | LQ c, LQ c' => cell_eqb c c'
  | LA i j, LA i' j' => (i =? i') && (j =? j')
  | LFm i j, LFm i' j' => (i =? i') && (j =? j')
  | LFp i j, LFp i' j' => (i =? i') && (j =? j')
  | LGm i j, LGm i' j' => (i =? i') && (j =? j')
  | LGp i j, LGp i' j' => (i =? i') && (j =? j')
  | LEf i j, LEf i' j' => (i =? i') && (j =? j')
  | LEl i j, LEl i' j' => (i =? i') && (j =? j')
  | LAr i j, LAr i' j' => (i =? i') && (j =? j')
  | LX n, LX n' => n =? n'
  | _, _ => false
  end.

Definition memory : Type := loc -> option Q.
Definition buffer : Type := Z -> option Q.
Record pst := mkPst { mem : memory; buf : buffer }.

(** the options used here; [packarea] is ghost_patch_pack_area && manifold; [aux] is the
    entry local_ghost_pack_aux (mint, position and size of its part, packmode) *)
Record gopts := mkG { g_d : dims; refratio : Z; packextra : Z; packarea : bool; time_sync : bool;
  aux : option (Z -> Z -> Z -> Z -> pst -> option (pst * Z)) }.

Section Comm.
  Variable d : dims.
  Variable cap : Z.   (** number of doubles allocated for the message *)

  (** qpack(k) = x or x = qpack(k), element [k] of the message counted from 0 *)
  Definition move (pack : bool) (l : loc) (k : Z) (s : pst) : option pst :=
    if in_loc d l && in_range cap k then
      if pack then Some (mkPst (mem s) (fun n => if n =? k then mem s l else buf s n))
      else Some (mkPst (fun l' => if loc_eqb l' l then buf s k else mem s l') (buf s))
    else None.

  (** "qpack(k) = ...; k = k + 1", qpack the part of the message from [base] with
      declared size psize, k from 1 *)
  Definition xfer (base psize : Z) (pack : bool) (l : loc) (st : pst * Z) : option (pst * Z) :=
    let '(s, k) := st in
    if (1 <=? k) && (k <=? psize) then bind (move pack l (base + (k - 1)) s) (fun s => Some (s, k + 1))
    else None.

  (** fclaw2d_clawpatch46_local_ghost_pack.f:43-88: the strips along faces 0, 2, 1, 3 *)
  Definition strips {S} (mint : Z) (body : Z -> Z -> S -> option S) (s : S) : option S :=
    bind (loop (1 - mbc d) (my d - mint) (fun j => loop (1 - mbc d) mint (fun ibc => body ibc j)) s) (fun s =>
    bind (loop (1 - mbc d) mint (fun jbc => loop (mint + 1) (mx d + mbc d) (fun i => body i jbc)) s) (fun s =>
    bind (loop (mint + 1) (my d + mbc d) (fun j => loop (mx d - mint + 1) (mx d + mbc d) (fun ibc => body ibc j)) s) (fun s =>
    loop (my d - mint + 1) (my d + mbc d) (fun jbc => loop (1 - mbc d) (mx d - mint) (fun i => body i jbc)) s))).

  (** fclaw2d_clawpatch46_local_ghost_pack.f:11-158; the result contains ierror *)
  Definition fort_local_ghost_pack (mint base psize packmode : Z) (s : pst) : option (pst * Z) :=
    if negb (packmode =? 0) && negb (packmode =? 1) && negb (packmode =? 2) && negb (packmode =? 3)
    then Some (s, 1)
    else
      let packdata := (packmode =? 0) || (packmode =? 2) in
      bind (loop 1 (meqn d) (fun mq => strips mint (fun i j => xfer base psize packdata (LQ (i, j, mq))))
              (s, 1)) (fun st =>
      if negb (packmode =? 2) && negb (packmode =? 3) then
        Some (fst st, if snd st - 1 =? psize then 0 else 2)
      else
        bind (strips mint (fun i j => xfer base psize packdata (LA i j)) st) (fun st =>
        Some (fst st, if snd st - 1 =? psize then 0 else 2))).

  (** qpack[cnt++] = x or x = qpack[cnt++] *)
  Definition rxfer (base : Z) (pack : bool) (l : loc) (st : pst * Z) : option (pst * Z) :=
    let '(s, cnt) := st in bind (move pack l (base + cnt) s) (fun s => Some (s, cnt + 1)).

  (** fclaw2d_clawpatch_conservation.c:111-196 time_sync_pack_registers *)
  Definition pack_registers (base frsize : Z) (pack : bool) (s : pst) : option (pst * Z) :=
    let m := meqn d in
    bind (loop 0 3 (fun k st =>
      let idir := Z.quot k 2 in
      if idir =? 0 then
        bind (loop 0 (m * my d - 1) (fun j st =>
                bind (rxfer base pack (LFm k j) st) (fun st =>
                bind (rxfer base pack (LFp k j) st) (fun st =>
                bind (rxfer base pack (LEf k j) st) (fun st =>
                rxfer base pack (LEf k (j + m * my d)) st)))) st) (fun st =>
        loop 0 (my d - 1) (fun j st =>
                bind (rxfer base pack (LEl k j) st) (fun st =>
                rxfer base pack (LAr k j) st)) st)
      else if idir =? 1 then
        bind (loop 0 (m * mx d - 1) (fun i st =>
                bind (rxfer base pack (LGm (k - 2) i) st) (fun st =>
                bind (rxfer base pack (LGp (k - 2) i) st) (fun st =>
                bind (rxfer base pack (LEf k i) st) (fun st =>
                rxfer base pack (LEf k (i + m * mx d)) st)))) st) (fun st =>
        loop 0 (mx d - 1) (fun i st =>
                bind (rxfer base pack (LEl k i) st) (fun st =>
                rxfer base pack (LAr k i) st)) st)
      else Some st) (s, 0)) (fun st =>
    Some (fst st, if snd st =? frsize then 0 else 1)).
End Comm.

Definition b2z (b : bool) : Z := if b then 1 else 0.

(** fclaw2d_clawpatch.cpp:1018-1066 clawpatch_ghost_pack_elems *)
Definition ghost_pack_elems (o : gopts) : option Z :=
  let d := g_d o in
  let mint := refratio o * mbc d in
  let frsize := if time_sync o then 2 * (4 * meqn d + 2) * (mx d + my d) else 0 in
  let wg := (2 * mbc d + mx d) * (2 * mbc d + my d) in
  let hole := (mx d - 2 * mint) * (my d - 2 * mint) in
  if 0 <=? hole then Some ((wg - hole) * (meqn d + b2z (packarea o) + packextra o) + frsize) else None.

(** fclaw2d_clawpatch.cpp:1069-1198 clawpatch_ghost_comm, on a message of [cap] doubles.
    The exit at the end is unreachable after the assertions. *)
Definition ghost_comm (o : gopts) (cap packmode : Z) (s : pst) : option pst :=
  let d := g_d o in
  let pa := Z.quot packmode 2 in
  let mint := refratio o * mbc d in
  let frsize := if time_sync o then 2 * (4 * meqn d + 2) * (mx d + my d) else 0 in
  let wg := (2 * mbc d + mx d) * (2 * mbc d + my d) in
  let hole := (mx d - 2 * mint) * (my d - 2 * mint) in
  if negb (0 <=? hole) then None else
  let psize := (wg - hole) * (meqn d + pa + packextra o) + frsize in
  if negb (0 <? psize) then None else
  bind (ghost_pack_elems o) (fun check =>
  if negb (psize =? check) then None else
  let qareasize := (wg - hole) * (meqn d + pa) in
  bind (fort_local_ghost_pack d cap mint 0 qareasize packmode s) (fun '(s, ierror) =>
  if negb (ierror =? 0) then None else
  let extrasize := (wg - hole) * packextra o in
  bind (if packextra o =? 0 then Some (s, 0) else
        if negb (0 <? extrasize) then None else
        match aux o with
        | None => None
        | Some f => bind (f mint qareasize extrasize packmode s) (fun '(s, ierror) =>
                    if negb (ierror =? 0) then None else Some (s, extrasize))
        end) (fun '(s, adv) =>
  if time_sync o then
    if negb (0 <? frsize) then None else
    bind (pack_registers d cap (qareasize + adv) frsize (Z.rem packmode 2 =? 0) s) (fun '(s, ierror) =>
    if negb (ierror =? 0) then None else Some s)
  else Some s))).

(** fclaw2d_clawpatch.cpp:1208-1218 clawpatch_local_ghost_pack.  The message is allocated
    by the caller with clawpatch_ghost_packsize, 1201-1205. *)
Definition local_ghost_pack (o : gopts) (m : memory) (b : buffer) : option buffer :=
  bind (ghost_pack_elems o) (fun cap =>
  bind (ghost_comm o cap (2 * b2z (packarea o)) (mkPst m b)) (fun s => Some (buf s))).

(** fclaw2d_clawpatch.cpp:1220-1232 clawpatch_remote_ghost_unpack *)
Definition remote_ghost_unpack (o : gopts) (m : memory) (b : buffer) : option memory :=
  bind (ghost_pack_elems o) (fun cap =>
  bind (ghost_comm o cap (2 * b2z (packarea o) + 1) (mkPst m b)) (fun s => Some (mem s))).

(* ---------------------------------------------------------- time interpolation *)

Section Interp.
  Variable d : dims.

  (** fclaw2d_clawpatch46_timeinterp.f:41-43 *)
  Definition interp_one (qcurr qlast : arr) (alpha : Q) (i j m : Z) (qinterp : arr) : option arr :=
    bind (rd d qlast (i, j, m)) (fun ql =>
    bind (rd d qcurr (i, j, m)) (fun qc =>
    wr d qinterp (i, j, m) (ql + alpha * (qc - ql))%Q)).

  (** fclaw2d_clawpatch46_timeinterp.f:11-84; ierror is not used by the caller *)
  Definition fort_timeinterp (qcurr qlast : arr) (alpha : Q) (qinterp : arr) : option arr :=
    let mint := mbc d in
    loop 1 (meqn d) (fun m q =>
      bind (loop 1 (my d - mint) (fun j => loop 1 mint (fun i => interp_one qcurr qlast alpha i j m)) q) (fun q =>
      bind (loop 1 mint (fun j => loop (mint + 1) (mx d) (fun i => interp_one qcurr qlast alpha i j m)) q) (fun q =>
      bind (loop (mint + 1) (my d) (fun j => loop (mx d - mint + 1) (mx d) (fun i => interp_one qcurr qlast alpha i j m)) q) (fun q =>
      loop (my d - mint + 1) (my d) (fun j => loop 1 (mx d - mint) (fun i => interp_one qcurr qlast alpha i j m)) q)))) qinterp.

  (** fclaw2d_clawpatch.cpp:473-526 clawpatch_setup_timeinterp *)
  Definition setup_timeinterp (interp_stencil_width : Z) (qcurr qlast : arr) (alpha : Q) (qinterp : arr)
      : option arr :=
    let mint := Z.quot interp_stencil_width 2 + 1 in
    let hole := (mx d - 2 * mint) * (my d - 2 * mint) in
    let wg := mx d * my d in
    if negb (0 <=? hole) then None else
    if negb (0 <? (wg - hole) * meqn d) then None else
    fort_timeinterp qcurr qlast alpha qinterp.
End Interp.
