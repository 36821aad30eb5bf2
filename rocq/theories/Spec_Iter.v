(** Vocabulary for the properties of iterate_adapted and iterate_partitioned. *)
From Coq Require Import ZArith List Bool Lia.
From Verif Require Import Model_Face Model_Iter.
Import ListNotations.
Open Scope Z_scope.

(** What happens to the leaves of a block in one adaptation: a leaf of level l
    is kept, replaced by its 2^d children, or a family of 2^d leaves of level l
    is replaced by its parent. *)
Inductive outcome := Keep (l : Z) | Refine (l : Z) | Coarsen (l : Z).
Definition nch (d : dim) : nat := match d with D2 => 4 | D3 => 8 end.
Definition before (d : dim) (o : outcome) : list Z :=
  match o with Keep l => [l] | Refine l => [l] | Coarsen l => repeat l (nch d) end.
Definition after (d : dim) (o : outcome) : list Z :=
  match o with Keep l => [l] | Refine l => repeat (l + 1) (nch d) | Coarsen l => [l - 1] end.
Definition relation_of (o : outcome) : relation :=
  match o with Keep _ => SAMESIZE | Refine _ => HALFSIZE | Coarsen _ => DOUBLESIZE end.

Definition leaves_before d os := concat (map (before d) os).
Definition leaves_after d os := concat (map (after d) os).

(** The call that reports outcome number k of block i: it names the first old
    and the first new leaf of the outcome. *)
Definition report (d : dim) (os : list outcome) (i k : nat) : option acall :=
  match nth_error os k with
  | Some o => Some (mkA (relation_of o) i (length (leaves_before d (firstn k os)))
                        (length (leaves_after d (firstn k os))))
  | None => None
  end.

(** ** Partitions: leaves of the whole forest are numbered 0, 1, ... across the
    blocks; a process owns an interval [lo, hi). *)
Definition total (sizes : list Z) : Z := fold_right Z.add 0 sizes.
(** number of the first leaf of block i *)
Definition block_first (sizes : list Z) (i : nat) : Z := total (firstn i sizes).
(** leaf g belongs to block i *)
Definition in_block (sizes : list Z) (i : nat) (g : Z) : Prop :=
  (i < length sizes)%nat /\ block_first sizes i <= g < block_first sizes (S i).
(** number of leaves of block i owned by [lo, hi) and number of the first *)
Definition local_num (sizes : list Z) (lo hi : Z) (i : nat) : Z :=
  Z.max 0 (Z.min hi (block_first sizes (S i)) - Z.max lo (block_first sizes i)).
Definition local_first (sizes : list Z) (lo : Z) (i : nat) : Z :=
  Z.max lo (block_first sizes i).
(** block records of the domain of a process owning [lo, hi) *)
Definition local_blocks (sizes : list Z) (lo hi : Z) : list pblock :=
  map (fun i => mkPB (local_num sizes lo hi i)
                     (total (map (local_num sizes lo hi) (seq 0 i))))
      (seq 0 (length sizes)).

(** Output of p4est_wrap_partition (external): the leaves owned before and
    after form the window of ul leaves starting at new local number uf and old
    local number uof. *)
Definition window (o0 o1 n0 n1 uf ul uof : Z) : Prop :=
  let f := Z.max o0 n0 in let l := Z.min o1 n1 in
  (f < l -> uf = f - n0 /\ ul = l - f /\ uof = f - o0) /\
  (l <= f -> ul = 0 /\ 0 <= uf /\ 0 <= uof).

(** The expected report on local leaf nj of block i after partition: its global
    number g, and the old local number of g in the same block if g was local. *)
Definition expected (sizes : list Z) (o0 o1 n0 : Z) (i : nat) (nj : Z) : pcall :=
  let g := local_first sizes n0 i + nj in
  mkC i (if (o0 <=? g) && (g <? o1) then Some (g - local_first sizes o0 i) else None) nj.
