(** What conservation means, independent of the routines. *)
From Coq Require Import ZArith QArith List Lia Bool.
From Verif Require Import Base_Float Model_Face Spec_Face Model_Grid Spec_Grid Model_Sync.   (* types only *)
Import ListNotations.
Open Scope Z_scope.

(** contents of an array element *)
Definition val (a : arr) (c : cell) : Q := match a c with Some v => v | None => 0%Q end.

(** all registers of a patch have values *)
Definition assigned (d : dims) (r : regs) : Prop := forall c, in_reg d c = true -> exists v, r c = Some v.
(** all cells including ghost cells have values *)
Definition full (d : dims) (q : arr) : Prop := forall c, in_q d c = true -> exists v, q c = Some v.

(** Amount of quantity mq that entered the patch through piece t of face f while the
    registers were accumulating: on the low side the flux of the first interior cell plus the
    wave entering it, on the high side minus the flux of the last cell and the wave. *)
Definition inflow (r : regs) (f t mq : Z) : Q :=
  match f with
  | 0 => (val r (EF 0 t mq 0) - val r (FP 0 t mq))%Q
  | 1 => (- (val r (EF 1 t mq 0) + val r (FM 1 t mq)))%Q
  | 2 => (val r (EF 2 t mq 0) - val r (GP 0 t mq))%Q
  | _ => (- (val r (EF 3 t mq 0) + val r (GM 1 t mq)))%Q
  end.
(** the same amount, computed from the first ghost cell and the wave leaving the patch *)
Definition inflow_outside (r : regs) (f t mq : Z) : Q :=
  match f with
  | 0 => (val r (EF 0 t mq 1) + val r (FM 0 t mq))%Q
  | 1 => (- (val r (EF 1 t mq 1) - val r (FP 1 t mq)))%Q
  | 2 => (val r (EF 2 t mq 1) + val r (GM 0 t mq))%Q
  | _ => (- (val r (EF 3 t mq 1) - val r (GP 1 t mq)))%Q
  end.
Definition face_len (d : dims) (f : Z) : Z := if f <? 2 then my d else mx d.
(** the two views agree *)
Definition consistent (d : dims) (r : regs) : Prop :=
  forall f t mq, 0 <= f < 4 -> 1 <= t <= face_len d f -> 1 <= mq <= meqn d ->
    (inflow r f t mq == inflow_outside r f t mq)%Q.
(** through a face, through all faces *)
Definition through (d : dims) (r : regs) (f mq : Z) : Q := qsum 1 (face_len d f) (fun t => inflow r f t mq).
Definition entered (d : dims) (r : regs) (mq : Z) : Q := qsum 0 3 (fun f => through d r f mq).

(** total amount of quantity mq in a patch with cell areas kappa *)
Definition mass (d : dims) (kappa : areas) (q : arr) (mq : Z) : Q := total d (fun i j => kappa i j * val q (i, j, mq))%Q.

(** ** What the Riemann solver must satisfy

    [fl i j], [fr i j] ([gl], [gr]): the flux of the state of cell (i,j) at its left and right
    (bottom and top) edge as the user's flux function gives it; [elx i j] is the length of
    the left, [ely i j] of the bottom edge of cell (i,j). *)
Record fluxes := mkFluxes { fl : data; fr : data; gl : data; gr : data; elx : areas; ely : areas }.

Section Solver.
  Variable d : dims.
  Variable rpn2_cons : Z -> Z -> (Z -> option Q) -> (Z -> option Q) -> (Z -> option Q) -> Z -> option Q.
  Variable maux : Z.

  Definition fluxes_of (F : fluxes) (q aux : arr) : Prop :=
    let Q0 := at_q d q in
    let A := at_aux d maux aux in
    forall m, 1 <= m <= meqn d ->
    (forall i j, 1 <= i <= mx d + 1 -> 1 <= j <= my d -> rpn2_cons 0 0 (Q0 i j) (A i j) (A i j) m = Some (fl F i j m)) /\
    (forall i j, 0 <= i <= mx d -> 1 <= j <= my d -> rpn2_cons 0 1 (Q0 i j) (A i j) (A (i + 1) j) m = Some (fr F i j m)) /\
    (forall i j, 1 <= i <= mx d -> 1 <= j <= my d + 1 -> rpn2_cons 1 2 (Q0 i j) (A i j) (A i j) m = Some (gl F i j m)) /\
    (forall i j, 1 <= i <= mx d -> 0 <= j <= my d -> rpn2_cons 1 3 (Q0 i j) (A i j) (A i (j + 1)) m = Some (gr F i j m)).

  (** the waves at an edge split the difference of the two fluxes *)
  Definition splits (F : fluxes) (dx dy : Q) (fp fm gp gm : arr) : Prop :=
    forall i j m, 1 <= m <= meqn d ->
    (1 <= i <= mx d + 1 -> 1 <= j <= my d ->
       (dy * (val fm (i, j, m) - val fp (i, j, m)) == elx F i j * (fl F i j m - fr F (i - 1)%Z j m))%Q) /\
    (1 <= i <= mx d -> 1 <= j <= my d + 1 ->
       (dx * (val gm (i, j, m) - val gp (i, j, m)) == ely F i j * (gl F i j m - gr F i (j - 1)%Z m))%Q).

  (** the fluxes of a constant state through the edges of a cell cancel; on a Cartesian
      grid both differences vanish *)
  Definition closed (F : fluxes) : Prop :=
    forall i j m, 1 <= i <= mx d -> 1 <= j <= my d -> 1 <= m <= meqn d ->
    ((elx F i j * fl F i j m - elx F (i + 1)%Z j * fr F i j m) +
     (ely F i j * gl F i j m - ely F i (j + 1)%Z * gr F i j m) == 0)%Q.

  (** the registers hold the lengths of the edges on the boundary of the patch *)
  Definition lengths (F : fluxes) (r : regs) : Prop :=
    (forall j, 1 <= j <= my d -> r (EL 0 j) = Some (elx F 1 j) /\ r (EL 1 j) = Some (elx F (mx d + 1) j)) /\
    (forall i, 1 <= i <= mx d -> r (EL 2 i) = Some (ely F i 1) /\ r (EL 3 i) = Some (ely F i (my d + 1))).

  (** cell areas in terms of the capacity function *)
  Definition capacity (kappa : areas) (dx dy : Q) (mcapa : Z) (aux : arr) : Prop :=
    (mcapa = 0 -> forall i j, 1 <= i <= mx d -> 1 <= j <= my d -> (kappa i j == dx * dy)%Q) /\
    (mcapa <> 0 -> 1 <= mcapa <= maux /\ full (mkDims (mx d) (my d) (mbc d) maux) aux /\
       forall i j, 1 <= i <= mx d -> 1 <= j <= my d ->
         (kappa i j == dx * dy * val aux (i, j, mcapa) /\ ~ val aux (i, j, mcapa) == 0)%Q).
End Solver.

(** ** Corrections *)

(** cell t along face f, inside of the patch *)
Definition edge_cell (d : dims) (m f : Z) (c : cell) (t mq : Z) : Prop :=
  c = at3 (inner_cell f m 1 t) mq /\ 1 <= t <= m /\ 1 <= mq <= meqn d.

(** t lies in the half pos of a face with m cells *)
Definition in_half_face (m pos t : Z) : Prop := pos * (m / 2) + 1 <= t <= (pos + 1) * (m / 2).
Definition in_halfb (m pos t : Z) : bool := (pos * (m / 2) + 1 <=? t) && (t <=? (pos + 1) * (m / 2)).

(** ** The forest *)

(** How the faces of the patches meet: position and level of each patch; the number of
    the face that face f of patch p meets, and whether the directions along the face are
    opposite; whether the second of two smaller neighbors comes first; the coarse face that a face
    with a larger neighbor is part of. *)
Record links := mkLinks {
  geo : nat -> patch;
  nface : nat -> Z -> Z;
  rev : nat -> Z -> bool;
  second_first : nat -> Z -> bool;
  coarse_face : nat -> Z -> nat * Z * Z     (* patch, face, igrid *)
}.

Definition pos_of (K : links) (p : nat) (f i : Z) : Z := if second_first K p f then 1 - i else i.

Section Links.
  Variable d : dims.
  Variable m : Z.
  Variable F : forest.
  Variable K : links.
  Variable all : list nat.

  Definition linked_face (p : nat) (f : Z) : Prop :=
    let nf := nface K p f in
    let o := rev K p f in
    match nbr F p f with
    | Boundary => True
    | SameSize n t =>
        In n all /\ (exists ft, t = mkT (geo K p) (geo K n) ft /\ same_size f nf o (geo K p) (geo K n) ft) /\
        (exists t', nbr F n nf = SameSize p t') /\ nface K n nf = f
    | HalfSize n t nm =>
        nm = (f + nf) mod 2 /\
        forall i, 0 <= i <= 1 ->
          In (n i) all /\
          (exists ft, t i = mkT (geo K p) (geo K (n i)) ft /\
             half_size f nf o (pos_of K p f i) (geo K p) (geo K (n i)) ft) /\
          nbr F (n i) nf = DoubleSize /\ coarse_face K (n i) nf = (p, f, i)
    | DoubleSize =>
        exists p' f' i n t nm, coarse_face K p f = (p', f', i) /\ In p' all /\ 0 <= f' < 4 /\ 0 <= i <= 1 /\
          nbr F p' f' = HalfSize n t nm /\ n i = p /\ nface K p' f' = f
    end.
  Definition linked : Prop :=
    NoDup all /\ Z.Even m /\ 2 <= mbc d /\ 0 <= meqn d /\
    forall p, In p all -> lev F p = level (geo K p) /\ square d m (level (geo K p)) /\
      forall f, 0 <= f < 4 -> linked_face p f.

  (** the registers of patch p: all present, consistent, with its cell areas *)
  Definition reg_ok (kappa : areas) (r : regs) : Prop :=
    assigned d r /\ consistent d r /\
    forall f t, 0 <= f < 4 -> 1 <= t <= m ->
      (let '(i, j) := inner_cell f m 1 t in kappa i j == val r (AR f t) /\ ~ kappa i j == 0)%Q.
  Definition state_ok (kappa : nat -> areas) (s : state) : Prop :=
    forall p, In p all ->
      reg_ok (kappa p) (reg s p) /\ (forall c, interior d c -> exists v, sol s p c = Some v).

  (** sums over the patches *)
  Definition lsum {A} (l : list A) (g : A -> Q) : Q := fold_right (fun x s => (g x + s)%Q) 0%Q l.
  Definition total_mass (kappa : nat -> areas) (s : state) (mq : Z) : Q := lsum all (fun p => mass d (kappa p) (sol s p) mq).
  Definition total_entered (s : state) (mq : Z) : Q := lsum all (fun p => entered d (reg s p) mq).
  (** through the physical boundary, as recorded by patches of levels lo..hi *)
  Definition boundary_inflow (lo hi : Z) (s : state) (mq : Z) : Q :=
    lsum all (fun p => if (lo <=? lev F p) && (lev F p <=? hi)
                       then qsum 0 3 (fun f => match nbr F p f with Boundary => through d (reg s p) f mq | _ => 0%Q end)
                       else 0%Q).

  (** What the neighbors across piece t of face f of p recorded as having entered them
      there: the piece is the whole of a piece of a neighbor of the same size, or two
      pieces of the smaller neighbor that lies there. *)
  Definition neighbor_inflow (s : state) (p : nat) (f t mq : Z) : Q :=
    let nf := nface K p f in
    let o := rev K p f in
    match nbr F p f with
    | SameSize n _ => inflow_outside (reg s n) nf (flip o m t) mq
    | HalfSize n _ _ =>
        let i := if in_halfb m (pos_of K p f 0) t then 0 else 1 in
        let u := 2 * t - pos_of K p f i * m in
        (inflow_outside (reg s (n i)) nf (flip o m (u - 1)) mq + inflow_outside (reg s (n i)) nf (flip o m u) mq)%Q
    | _ => 0%Q
    end.
  (** what has to be added to a patch so that both sides agree; patches of the same size
      share the difference *)
  Definition correction (s : state) (p : nat) (f t mq : Z) : Q :=
    let mismatch := (- neighbor_inflow s p f t mq - inflow (reg s p) f t mq)%Q in
    match nbr F p f with
    | SameSize _ _ => ((1 # 2) * mismatch)%Q
    | HalfSize _ _ _ => mismatch
    | _ => 0%Q
    end.
  (** the piece of face f at which cell (i, j) lies *)
  Definition piece (f i j : Z) : option Z :=
    match f with
    | 0 => if i =? 1 then Some j else None
    | 1 => if i =? m then Some j else None
    | 2 => if j =? 1 then Some i else None
    | _ => if j =? m then Some i else None
    end.

  (** faces handled when levels lo..hi are synchronised *)
  Definition synced (lo hi : Z) (p : nat) (f : Z) : bool :=
    (lev F p <=? hi) &&
    match nbr F p f with
    | HalfSize _ _ _ => (lo <=? lev F p) && (lev F p <? hi)
    | DoubleSize => lo <? lev F p
    | _ => lo <=? lev F p
    end.

  (** ** Processes *)

  (** n is a neighbor of p whose registers p needs *)
  Definition adjacent (p n : nat) : Prop := exists f, 0 <= f < 4 /\
    match nbr F p f with SameSize n' _ => n' = n | HalfSize n' _ _ => n' 0 = n \/ n' 1 = n | _ => False end.
  (** state s of a process that owns [own] in the global state S: its own patches, and
      up-to-date registers of its neighbors (ghost patches) *)
  Definition sees (own : list nat) (s S : state) : Prop :=
    (forall p, In p own -> sol s p = sol S p /\ reg s p = reg S p) /\
    (forall p n, In p own -> adjacent p n -> reg s n = reg S n).
  (** the processes own disjoint sets of patches that cover the forest *)
  Definition distributed (procs : list (list nat)) : Prop :=
    (forall own, In own procs -> NoDup own /\ incl own all) /\ (forall p, In p all -> exists own, In own procs /\ In p own).
  Definition gathered (procs : list (list nat)) (res : list nat -> state) (S' : state) : Prop :=
    forall own p, In own procs -> In p own -> sol S' p = sol (res own) p /\ reg S' p = reg (res own) p.

  (** all processes synchronise the levels lo..hi *)
  Definition parallel_sync (rnd : Q -> Q) (procs : list (list nat)) (lo hi : Z) (S S' : state) : Prop :=
    exists view res, (forall own, In own procs -> sees own (view own) S /\
        correct_coarse_cells rnd d (mkForest own (lev F) (nbr F)) lo hi (view own) = Some (res own)) /\
      gathered procs res S'.
End Links.

(** ** Histories

    What can happen to the patches between two regriddings: any patch takes a step (in any
    order, with any step size, any data in its ghost cells and any Riemann solver that satisfies the
    splitting identity), ghost cells are refilled, and the processes synchronise some levels. *)
Section History.
  Variable rnd : Q -> Q.
  Variable d : dims.
  Variable m : Z.
  Variable F : forest.
  Variable K : links.
  Variable all : list nat.
  Variable kappa : nat -> areas.

  (** [advanced q r q' r']: one time step of a patch with areas [ka] *)
  Definition advanced (ka : areas) (q : arr) (r : regs) (q' : arr) (r' : regs) : Prop :=
    exists rpn2_cons maux mcapa aux fp fm gp gm dt dx dy G,
      ~ (dx == 0)%Q /\ ~ (dy == 0)%Q /\
      fluxes_of d rpn2_cons maux G q aux /\ splits d G dx dy fp fm gp gm /\ closed d G /\
      lengths d G r /\ capacity d maux ka dx dy mcapa aux /\
      full d q /\ full d fp /\ full d fm /\ full d gp /\ full d gm /\
      clawpack46_step d rpn2_cons maux true true dt dx dy mcapa aux fp fm gp gm q r = Some (q', r').

  Inductive event (S S' : state) : (Z -> Q) -> Prop :=
  | patch_step : forall p, In p all -> advanced (kappa p) (sol S p) (reg S p) (sol S' p) (reg S' p) ->
      (forall p', p' <> p -> sol S' p' = sol S p' /\ reg S' p' = reg S p') ->
      event S S' (fun _ => 0%Q)
  | ghost_fill : (forall p, reg S' p = reg S p) ->
      (forall p c, interior d c -> sol S' p c = sol S p c) ->
      event S S' (fun _ => 0%Q)
  | sync : forall procs lo hi, distributed all procs -> lo <= hi ->
      parallel_sync d F rnd procs lo hi S S' ->
      event S S' (boundary_inflow d F all lo hi S).

  (** [B]: what entered through the physical boundary, as the synchronisations saw it *)
  Inductive history (S : state) : state -> (Z -> Q) -> Prop :=
  | start : history S S (fun _ => 0%Q)
  | more : forall S1 S2 B b, history S S1 B -> event S1 S2 b -> history S S2 (fun mq => B mq + b mq)%Q.

  (** nothing recorded *)
  Definition no_records (r : regs) : Prop :=
    forall f t mq, 0 <= f < 4 -> 1 <= t <= m -> 1 <= mq <= meqn d -> (inflow r f t mq == 0)%Q.
End History.
