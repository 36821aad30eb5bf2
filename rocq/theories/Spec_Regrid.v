(** What a user relies on about patch data through a run: vocabulary. *)
From Coq Require Import ZArith QArith List Bool Lia.
From Verif Require Import Model_Face Model_Iter Spec_Iter Model_Regrid.
Import ListNotations.
Open Scope Z_scope.

(** new levels arise from the old ones by keeping, refining and coarsening, block by block *)
Definition adaptation (oss : list (list outcome)) (levels news : list (list Z)) : Prop :=
  levels = map (leaves_before D2) oss /\ news = map (leaves_after D2) oss.

(** Local patches of a partition: leaves are numbered across the whole forest, whose blocks have
    the given sizes; the process owns the leaves lo to hi - 1. *)
Definition owns (sizes : list Z) (lo hi : Z) (levels : list (list Z)) : Prop :=
  0 <= lo <= hi /\ hi <= total sizes /\ Forall (fun n => 0 <= n) sizes /\
  map (fun l => Z.of_nat (length l)) levels = map (local_num sizes lo hi) (seq 0 (length sizes)).

(** a partition that p4est may report: the process owned o0 to o1 - 1 and now owns n0 to n1 - 1;
    one buffer is received for every patch now local *)
Definition repartition {V} sizes o0 o1 n0 n1 (levels : list (list Z)) (p : partition V) : Prop :=
  owns sizes o0 o1 levels /\ owns sizes n0 n1 (p_levels V p) /\
  window o0 o1 n0 n1 (p_uf V p) (p_ul V p) (p_uof V p) /\
  Z.of_nat (length (p_buf V p)) = n1 - n0.

Definition repartition_opt {V} (levels : list (list Z)) (p : option (partition V)) (levels' : list (list Z)) : Prop :=
  match p with
  | None => levels' = levels
  | Some p => levels' = p_levels V p /\ exists sizes o0 o1 n0 n1, repartition sizes o0 o1 n0 n1 levels p
  end.

(** a history that p4est may produce, starting from the given local levels *)
Inductive legal {V} : list (list Z) -> list (event V) -> list (list Z) -> Prop :=
| legal_nil levels : legal levels [] levels
| legal_initial levels init news p ghosts levels' es last oss :
    adaptation oss levels news -> repartition_opt news p levels' -> legal levels' es last ->
    legal levels (Refine_initially V init news p ghosts :: es) last
| legal_regrid levels news p ghosts levels' es last oss :
    adaptation oss levels news -> repartition_opt news p levels' -> legal levels' es last ->
    legal levels (Regrid V news p ghosts :: es) last
| legal_update levels f es last : legal levels es last -> legal levels (Update V f :: es) last.

(** patch j of block i exists *)
Definition is_patch (levels : list (list Z)) (k : key) : Prop :=
  (fst k < length levels)%nat /\ (snd k < length (nth (fst k) levels []))%nat.

(** the data of a patch of the current domain *)
Definition patch_value {V} (st : state V) (k : key) : option V := read V (s_mem V st) (d_slot (s_dom V st) k).

(** what regridding does to the data, outcome by outcome; p and q are the first old and the
    first new leaf of the outcome *)
Definition regridded {V} (interp : V -> nat -> V) (average : list V -> V) (oss : list (list outcome))
    (old new : key -> option V) : Prop :=
  forall i os n o, nth_error oss i = Some os -> nth_error os n = Some o ->
  let p := length (leaves_before D2 (firstn n os)) in
  let q := length (leaves_after D2 (firstn n os)) in
  match o with
  | Keep _ => new (i, q) = old (i, p)
  | Refine _ => exists v, old (i, p) = Some v /\ forall c, (c < 4)%nat -> new (i, (q + c)%nat) = Some (interp v c)
  | Coarsen _ => exists v0 v1 v2 v3,
      old (i, p) = Some v0 /\ old (i, (p + 1)%nat) = Some v1 /\ old (i, (p + 2)%nat) = Some v2 /\ old (i, (p + 3)%nat) = Some v3 /\
      new (i, q) = Some (average [v0; v1; v2; v3])
  end.

(** the same while the initial refinement is built: new patches are initialised *)
Definition reinitialised {V} (init : key -> V) (oss : list (list outcome)) (old new : key -> option V) : Prop :=
  forall i os n o, nth_error oss i = Some os -> nth_error os n = Some o ->
  let p := length (leaves_before D2 (firstn n os)) in
  let q := length (leaves_after D2 (firstn n os)) in
  match o with
  | Keep _ => new (i, q) = old (i, p)
  | Refine _ => forall c, (c < 4)%nat -> new (i, (q + c)%nat) = Some (init (i, (q + c)%nat))
  | Coarsen _ => new (i, q) = Some (init (i, q))
  end.

(** the patch with global number g in block i of the process that owns the leaves from lo on *)
Definition patch_of (sizes : list Z) (lo : Z) (i : nat) (g : Z) : key := (i, Z.to_nat (g - local_first sizes lo i)).

(** Data after an optional repartitioning: a leaf that was on the process before keeps its data,
    the others take what was received for them.  Leaves are named by their global number g. *)
Definition repartitioned {V} (levels : list (list Z)) (p : option (partition V)) (mid new : key -> option V) : Prop :=
  match p with
  | None => forall k, is_patch levels k -> new k = mid k
  | Some p => forall sizes o0 o1 n0 n1, repartition sizes o0 o1 n0 n1 levels p -> forall i g, in_block sizes i g -> n0 <= g < n1 ->
      new (patch_of sizes n0 i g) = if (o0 <=? g) && (g <? o1) then mid (patch_of sizes o0 i g) else nth_error (p_buf V p) (Z.to_nat (g - n0))
  end.

(** the process that owns the leaves lo to hi - 1 has the data of the whole forest right *)
Definition holds {V} (data : Z -> V) (sizes : list Z) (lo hi : Z) (val : key -> option V) : Prop :=
  forall i g, in_block sizes i g -> lo <= g < hi -> val (patch_of sizes lo i g) = Some (data g).

(** every initial patch has level minlevel *)
Definition uniform (minlevel : Z) (levels : list (list Z)) : Prop := Forall (Forall (eq minlevel)) levels.

(** Sound bookkeeping of a state: every patch has a live data object of its own that knows the
    block and holds data, every ghost patch has a live object of its own, and every live object
    belongs to one of them. *)
Record sound {V} (st : state V) : Prop := {
  sound_patch : forall k, is_patch (d_levels (s_dom V st)) k ->
    exists id o v, d_slot (s_dom V st) k = Some id /\ m_heap V (s_mem V st) id = Some o /\ o_val V o = Some v /\ o_block V o = fst k /\ o_nset V o = true;
  sound_own : forall k k' id, is_patch (d_levels (s_dom V st)) k -> is_patch (d_levels (s_dom V st)) k' ->
    d_slot (s_dom V st) k = Some id -> d_slot (s_dom V st) k' = Some id -> k = k';
  sound_ghost : forall n, (n < length (d_ghost (s_dom V st)))%nat ->
    exists id o, nth_error (d_ghost (s_dom V st)) n = Some (Some id) /\ m_heap V (s_mem V st) id = Some o;
  sound_ghost_own : NoDup (d_ghost (s_dom V st));
  sound_apart : forall k id, is_patch (d_levels (s_dom V st)) k -> d_slot (s_dom V st) k = Some id -> ~ In (Some id) (d_ghost (s_dom V st));
  sound_no_leak : forall id, m_heap V (s_mem V st) id <> None ->
    (exists k, is_patch (d_levels (s_dom V st)) k /\ d_slot (s_dom V st) k = Some id) \/ In (Some id) (d_ghost (s_dom V st)) }.

(** the amount of a quantity on the patches of a process *)
Definition amount {V} (mu : V -> Q) (val : key -> option V) (k : key) : Q := match val k with Some v => mu v | None => 0 end.
Definition sumQ (l : list Q) : Q := fold_right Qplus 0%Q l.
Definition content {V} (mu : V -> Q) (levels : list (list Z)) (val : key -> option V) : Q := sumQ (map (amount mu val) (keys levels)).
