(** The wave propagation method as a formula, independent of arrays, patches and loops. *)
From Coq Require Import ZArith QArith Qminmax Qabs List Lia Bool.
From Verif Require Import Base_Float Model_Face Model_Grid Model_Step.   (* types, the arithmetic and the list 1..n only *)
Import ListNotations.
Open Scope Z_scope.

(** Values on the whole plane: u i j m. *)
Definition field : Type := Z -> Z -> Z -> Q.
(** Values along a line: u i m. *)
Definition line : Type := Z -> Z -> Q.

Section Method.
  Variable A : arith.
  Variable S : solver.
  Variable meqn : Z.
  Local Notation "x +. y" := (add A x y) (at level 50, left associativity).
  Local Notation "x -. y" := (sub A x y) (at level 50, left associativity).
  Local Notation "x *. y" := (mul A x y) (at level 40, left associativity).
  Local Notation "x /. y" := (quo A x y) (at level 40, left associativity).

  (** (f 1, ..., f n) and f 1 + ... + f n, added in this order *)
  Definition vec (n : Z) (f : Z -> Q) : list Q := map f (zrange 1 n).
  Definition total_of (n : Z) (f : Z -> Q) : Q := fold_left (fun s k => s +. f k) (zrange 1 n) 0%Q.

  (** The limiter functions by number: none (0), minmod, superbee, van Leer, monotonized centered, Beam-Warming,
      generalized minmod. *)
  Definition limiter (lim : Z) (r : Q) : Q :=
    match lim with
    | 1 => Qmax 0 (Qmin 1 r)
    | 2 => Qmax (Qmax 0 (Qmin 1 (2 *. r))) (Qmin 2 r)
    | 3 => (r +. Qabs r) /. (1 +. Qabs r)
    | 4 => Qmax 0 (Qmin (Qmin ((1 +. r) /. 2) 2) (2 *. r))
    | 5 => r
    | _ => let theta := 10905190 # 8388608 in Qmax 0 (Qmin (Qmin (theta *. r) ((1 +. r) /. 2)) theta)
    end.

  (** One line of cells; interface i lies between cells i-1 and i.  [u] the solution, [b a c] the auxiliary values of
      the line below, of the line itself and of the line above, [r i] the ratio of the time step and the size of cell i. *)
  Section Line.
    Variable ixy : Z.
    Variable u b a c : line.
    Variable r : Z -> Q.

    Definition at_interface (i : Z) : riemann := rpn S ixy (vec meqn (u (i - 1))) (vec meqn (u i)) (vec (maux S) (a (i - 1))) (vec (maux S) (a i)).
    Definition wave (i mw m : Z) : Q := r_wave (at_interface i) m mw.
    Definition speed (i mw : Z) : Q := r_s (at_interface i) mw.
    Definition norm2 (i mw : Z) : Q := total_of meqn (fun m => wave i mw m *. wave i mw m).
    Definition dot (i mw : Z) : Q := total_of meqn (fun m => wave i mw m *. wave (i + 1) mw m).
    (** a wave is compared with the one at the next interface on the side it comes from *)
    Definition limited (i mw m : Z) : Q :=
      if (mthlim S mw =? 0) || Qeq_bool (norm2 i mw) 0 then wave i mw m
      else limiter (mthlim S mw) ((if Qle_bool (speed i mw) 0 then dot i mw else dot (i - 1) mw) /. norm2 i mw) *. wave i mw m.
    Definition correction (i m : Z) : Q :=
      let ave := (1 # 2) *. (r (i - 1) +. r i) in
      total_of (mwaves S) (fun mw =>
        (if use_fwaves S then (if Qle_bool 0 (speed i mw) then 1%Q else (-1)%Q) else Qabs (speed i mw))
        *. (1 -. Qabs (speed i mw) *. ave) *. limited i mw m).
    Definition second : bool := method2 S =? 2.

    (** the Courant numbers of the waves at interfaces 1 to n+1, relative to the cells on both sides *)
    Definition line_numbers (n : Z) (x : Q) : Prop :=
      exists mw, 1 <= mw <= mwaves S /\ exists i, 1 <= i <= n + 1 /\ (x = r i *. speed i mw \/ x = (- r (i - 1)) *. speed i mw).

    (** the flux at interface i as seen from the left and from the right *)
    Definition flux_left (i m : Z) : Q :=
      let g := 0 +. r_amdq (at_interface i) m in if second then g +. (1 # 2) *. correction i m else g.
    Definition flux_right (i m : Z) : Q :=
      let g := 0 -. r_apdq (at_interface i) m in if second then g +. (1 # 2) *. correction i m else g.

    (** transverse propagation: fluctuations that are split, and the parts going down (side 1) and up (side 2) *)
    Definition amdq (i m : Z) : Q :=
      let x := r_amdq (at_interface i) m in if second && (method3 S =? 2) then x +. correction i m else x.
    Definition apdq (i m : Z) : Q :=
      let x := r_apdq (at_interface i) m in if second && (method3 S =? 2) then x -. correction i m else x.
    Definition transverse (ilr i : Z) (dq : Z -> Q) : (Z -> Q) * (Z -> Q) :=
      rpt S ixy ilr (vec meqn (u (i - 1))) (vec meqn (u i)) (vec (maux S) (b (i - 1))) (vec (maux S) (b i))
        (vec (maux S) (a (i - 1))) (vec (maux S) (a i)) (vec (maux S) (c (i - 1))) (vec (maux S) (c i)) (vec meqn dq).
    Definition part (side : Z) (x : (Z -> Q) * (Z -> Q)) (m : Z) : Q := if side =? 1 then fst x m else snd x m.
    (** what the line adds to the flux through side 1 or 2 of its cell i *)
    Definition aside (i side m : Z) : Q :=
      if method3 S =? 0 then 0%Q
      else (0 -. (1 # 2) *. r i *. part side (transverse 1 (i + 1) (amdq (i + 1))) m)
           -. (1 # 2) *. r (if use_fwaves S then i - 1 else i) *. part side (transverse 2 i (apdq i)) m.
  End Line.

  (** [ux] and [uy] are the values used for the lines in x and in y; they differ only where three blocks meet. *)
  Section Plane.
    Variable ux uy aux : field.
    Variable dtdx dtdy : Q.
    Definition ratio (dtd : Q) (i j : Z) : Q := if mcapa S =? 0 then dtd else dtd /. aux i j (mcapa S).
    (** the line of cells (., j) and the line of cells (i, .) *)
    Definition in_row {X} (f : Z -> line -> line -> line -> line -> (Z -> Q) -> X) (j : Z) : X :=
      f 1 (fun i => ux i j) (fun i => aux i (j - 1)) (fun i => aux i j) (fun i => aux i (j + 1)) (fun i => ratio dtdx i j).
    Definition in_col {X} (f : Z -> line -> line -> line -> line -> (Z -> Q) -> X) (i : Z) : X :=
      f 2 (fun j => uy i j) (fun j => aux (i - 1) j) (fun j => aux i j) (fun j => aux (i + 1) j) (fun j => ratio dtdy i j).
    Definition row_left j := in_row (fun ixy u _ a _ r => flux_left ixy u a r) j.
    Definition row_right j := in_row (fun ixy u _ a _ r => flux_right ixy u a r) j.
    Definition col_left i := in_col (fun ixy u _ a _ r => flux_left ixy u a r) i.
    Definition col_right i := in_col (fun ixy u _ a _ r => flux_right ixy u a r) i.
    Definition row_aside j := in_row aside j.
    Definition col_aside i := in_col aside i.
    (** flux through the interface between cells (i-1,j) and (i,j), and between (i,j-1) and (i,j) *)
    Definition west_left (i j m : Z) : Q := ((0 +. row_left j i m) +. col_aside (i - 1) j 2 m) +. col_aside i j 1 m.
    Definition west_right (i j m : Z) : Q := ((0 +. row_right j i m) +. col_aside (i - 1) j 2 m) +. col_aside i j 1 m.
    Definition south_left (i j m : Z) : Q := ((0 +. row_aside (j - 1) i 2 m) +. row_aside j i 1 m) +. col_left i j m.
    Definition south_right (i j m : Z) : Q := ((0 +. row_aside (j - 1) i 2 m) +. row_aside j i 1 m) +. col_right i j m.
    (** the Courant numbers in a patch; the lines used include all ghost lines but the outermost *)
    Definition numbers (mx my mbc : Z) (x : Q) : Prop :=
      (exists j, 2 - mbc <= j <= my + mbc - 1 /\ in_row (fun ixy u _ a _ r => line_numbers ixy u a r mx x) j) \/
      (exists i, 2 - mbc <= i <= mx + mbc - 1 /\ in_col (fun ixy u _ a _ r => line_numbers ixy u a r my x) i).
  End Plane.

  (** The solution after one step; [u] are the values before. *)
  Definition advanced (u ux uy aux : field) (dx dy dt : Q) (i j m : Z) : Q :=
    let dtdx := dt /. dx in let dtdy := dt /. dy in
    let ew := west_left ux uy aux dtdx dtdy (i + 1) j m -. west_right ux uy aux dtdx dtdy i j m in
    let ns := south_left ux uy aux dtdx dtdy i (j + 1) m -. south_right ux uy aux dtdx dtdy i j m in
    if mcapa S =? 0 then (u i j m -. dtdx *. ew) -. dtdy *. ns
    else u i j m -. (dtdx *. ew +. dtdy *. ns) /. aux i j (mcapa S).

  (** Options as documented. *)
  Definition options_ok : Prop :=
    0 <= mwaves S /\ 0 <= maux S /\ 0 <= mcapa S <= maux S /\ 1 <= method2 S <= 2 /\ 0 <= method3 S <= 2 /\
    forall mw, 1 <= mw <= mwaves S -> 0 <= mthlim S mw <= 6.
End Method.

(** Where three blocks meet, there is no block beyond the corner of the patch: the ghost cells there are those of one of
    the two neighbours, turned by a quarter about the corner.  [count k] is the number of blocks at corner k (0 1 / 2 3),
    the sweep in x (0) takes the cells beyond the x side, the sweep in y (1) those beyond the y side. *)
Section Corner.
  Variable mx my : Z.
  Variable count : Z -> Z.
  Definition outside (n i : Z) : bool := (i <? 1) || (n <? i).
  (** how far beyond its side a cell is; the cell as far beyond the same side as wanted, inside if 0 or less *)
  Definition beyond (n i : Z) : Z := if i <? 1 then 1 - i else i - n.
  Definition place (n i t : Z) : Z := if i <? 1 then 1 - t else n + t.
  Definition corner_number (i j : Z) : Z := (if i <? 1 then 0 else 1) + (if j <? 1 then 0 else 2).
  Definition turned (dir : Z) (u : field) : field := fun i j m =>
    if outside mx i && outside my j && (count (corner_number i j) =? 3) then
      if dir =? 0 then u (place mx i (beyond my j)) (place my j (1 - beyond mx i)) m
      else u (place mx i (1 - beyond my j)) (place my j (beyond mx i)) m
    else u i j m.
End Corner.

(** The largest element, at least zero. *)
Definition largest_or_zero (P : Q -> Prop) (c : Q) : Prop :=
  (0 <= c)%Q /\ (forall x, P x -> (x <= c)%Q) /\ ((c == 0)%Q \/ exists x, P x /\ (c == x)%Q).

(** *** Conservation laws, in exact arithmetic *)
(** The fluctuations at an interface are the difference of the flux [f] on both sides. *)
Definition flux_difference (S : solver) (meqn : Z) (f : Z -> list Q -> list Q -> Z -> Q) : Prop :=
  forall ixy ql qr al ar m, 1 <= m <= meqn ->
    (r_amdq (rpn S ixy ql qr al ar) m + r_apdq (rpn S ixy ql qr al ar) m == f ixy qr ar m - f ixy ql al m)%Q.
(** The amount that passes from cell (i-1,j) to (i,j), and from (i,j-1) to (i,j). *)
Definition through_x (S : solver) (meqn : Z) (f : Z -> list Q -> list Q -> Z -> Q) (ux uy aux : field) (dtdx dtdy : Q) (i j m : Z) : Q :=
  Qplus (f 1 (vec meqn (ux (i - 1) j)) (vec (maux S) (aux (i - 1) j)) m) (west_left exact S meqn ux uy aux dtdx dtdy i j m).
Definition through_y (S : solver) (meqn : Z) (f : Z -> list Q -> list Q -> Z -> Q) (ux uy aux : field) (dtdx dtdy : Q) (i j m : Z) : Q :=
  Qplus (f 2 (vec meqn (uy i (j - 1))) (vec (maux S) (aux i (j - 1))) m) (south_left exact S meqn ux uy aux dtdx dtdy i j m).
Definition capacity (S : solver) (aux : field) (i j : Z) : Q := if mcapa S =? 0 then 1%Q else aux i j (mcapa S).

(** Nothing happens between equal states [q0], and nothing is split into nothing. *)
Definition quiet (S : solver) (meqn : Z) (q0 : Z -> Q) : Prop :=
  (forall ixy al ar m, 1 <= m <= meqn ->
     let r := rpn S ixy (vec meqn q0) (vec meqn q0) al ar in
     (r_amdq r m == 0)%Q /\ (r_apdq r m == 0)%Q /\ forall mw, 1 <= mw <= mwaves S -> (r_wave r m mw == 0)%Q) /\
  (forall ixy ilr ql qr a1l a1r a2l a2r a3l a3r dq m, 1 <= m <= meqn -> (forall x, In x dq -> (x == 0)%Q) ->
     let r := rpt S ixy ilr ql qr a1l a1r a2l a2r a3l a3r dq in (fst r m == 0)%Q /\ (snd r m == 0)%Q).
