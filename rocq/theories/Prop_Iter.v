(** Properties C08 and C09: iterating over old and new domain together. *)
From Coq Require Import ZArith List Bool Lia.
From Verif Require Import Model_Face Model_Iter Spec_Iter Proof_Iter Proof_Iter2.
Import ListNotations.
Open Scope Z_scope.

(** ** C08 *)
(** For every list of outcomes per block, the walk over the levels before and
    after completes without failed assertion and reports outcome k of block i in
    the k-th call for block i, with the numbers of its first old and new leaf. *)
Theorem C08_iterate_adapted : forall d oss,
  exists cs, iterate_adapted d (map (leaves_before d) oss) (map (leaves_after d) oss) = Some (concat cs) /\
    length cs = length oss /\
    forall i os, nth_error oss i = Some os ->
    exists c, nth_error cs i = Some c /\ length c = length os /\
      forall k, nth_error c k = report d os i k.
Proof. exact iterate_adapted_ok. Qed.
Print Assumptions C08_iterate_adapted.

(** Every old (new) leaf belongs to exactly one outcome, hence one call. *)
Theorem C08_every_old_leaf_in_one_call : forall d os j, (j < length (leaves_before d os))%nat ->
  exists! k, (k < length os)%nat /\
    (length (leaves_before d (firstn k os)) <= j < length (leaves_before d (firstn (S k) os)))%nat.
Proof. intros d os j H. apply tile; [apply before_ne|exact H]. Qed.
Print Assumptions C08_every_old_leaf_in_one_call.

Theorem C08_every_new_leaf_in_one_call : forall d os j, (j < length (leaves_after d os))%nat ->
  exists! k, (k < length os)%nat /\
    (length (leaves_after d (firstn k os)) <= j < length (leaves_after d (firstn (S k) os)))%nat.
Proof. intros d os j H. apply tile; [apply after_ne|exact H]. Qed.
Print Assumptions C08_every_new_leaf_in_one_call.

Example C08_example :
  iterate_adapted D2 [[2; 1; 1; 1; 1]; []; [0]] [[2; 0]; []; [1; 1; 1; 1]] =
  Some [mkA SAMESIZE 0 0 0; mkA DOUBLESIZE 0 1 1; mkA HALFSIZE 2 0 0].
Proof. reflexivity. Qed.
Example C08_example_outcomes :
  map (leaves_before D2) [[Keep 2; Coarsen 1]; []; [Refine 0]] = [[2; 1; 1; 1; 1]; []; [0]] /\
  map (leaves_after D2) [[Keep 2; Coarsen 1]; []; [Refine 0]] = [[2; 0]; []; [1; 1; 1; 1]].
Proof. split; reflexivity. Qed.

(** ** C09 *)
(** Every new local patch is reported exactly once, in order, with the old
    local number of the same leaf if the process owned it before. *)
Theorem C09_iterate_partitioned : forall sizes, Forall (fun n => 0 <= n) sizes ->
  forall o0 o1 n0 n1 uf ul uof,
  0 <= o0 <= o1 /\ o1 <= total sizes -> 0 <= n0 <= n1 /\ n1 <= total sizes ->
  window o0 o1 n0 n1 uf ul uof ->
  iterate_partitioned uf ul uof (local_blocks sizes o0 o1) (local_blocks sizes n0 n1) =
  Some (concat (map (fun i => map (expected sizes o0 o1 n0 i) (zrange 0 (local_num sizes n0 n1 i)))
                    (seq 0 (length sizes)))).
Proof. exact iterate_partitioned_ok. Qed.
Print Assumptions C09_iterate_partitioned.

(** Transfer of patch data: [data g] is the data of leaf g; the old owner holds
    it before, the received buffer holds the packed data of the new local leaves
    in order.  Afterwards every new local patch holds the data of its leaf; an
    old patch that stays local has given up its data (it is moved, not copied),
    the others still hold theirs (and are deleted with the old domain). *)
Theorem C09_partition_transfer : forall sizes, Forall (fun n => 0 <= n) sizes ->
  forall o0 o1 n0 n1 uf ul uof,
  0 <= o0 <= o1 /\ o1 <= total sizes -> 0 <= n0 <= n1 /\ n1 <= total sizes ->
  window o0 o1 n0 n1 uf ul uof ->
  forall A (data : Z -> A) (st : xfer A),
  (forall i oj, (i < length sizes)%nat -> 0 <= oj < local_num sizes o0 o1 i ->
     x_old st i oj = Some (data (local_first sizes o0 i + oj))) ->
  exists st',
    partition_transfer uf ul uof (local_blocks sizes o0 o1) (local_blocks sizes n0 n1)
      (map data (zrange n0 n1)) st = Some st' /\
    (forall i nj, (i < length sizes)%nat -> 0 <= nj < local_num sizes n0 n1 i ->
       x_new st' i nj = Some (data (local_first sizes n0 i + nj))) /\
    (forall i oj, (i < length sizes)%nat -> 0 <= oj < local_num sizes o0 o1 i ->
       let g := local_first sizes o0 i + oj in
       x_old st' i oj = if (n0 <=? g) && (g <? n1) then None else Some (data g)) /\
    x_del_old st' = x_del_old st +
      Z.of_nat (length (filter (fun g => (o0 <=? g) && (g <? o1)) (zrange n0 n1))) /\
    x_set_old st' = x_set_old st /\
    x_set_new st' = x_set_new st + (n1 - n0).
Proof. exact partition_transfer_ok. Qed.
Print Assumptions C09_partition_transfer.

(** The local patches of a process are exactly the leaves it owns: leaf g of
    block i is local patch g - local_first of that block. *)
Theorem C09_local_numbering : forall sizes lo hi, 0 <= lo <= hi -> hi <= total sizes ->
  forall i g, (i < length sizes)%nat ->
  (lo <= g < hi /\ in_block sizes i g <-> 0 <= g - local_first sizes lo i < local_num sizes lo hi i).
Proof.
  intros sizes lo hi H1 H2 i g Hi. unfold in_block.
  rewrite <- (range_decomp sizes lo hi H1 H2 i g Hi). tauto.
Qed.
Print Assumptions C09_local_numbering.

(** Blocks of 3, 0, 4 leaves; the process owned leaves 1..4, now owns 2..6. *)
Example C09_example :
  window 1 5 2 7 0 3 1 /\
  iterate_partitioned 0 3 1 (local_blocks [3; 0; 4] 1 5) (local_blocks [3; 0; 4] 2 7) =
  Some [mkC 0 (Some 1) 0; mkC 2 (Some 0) 0; mkC 2 (Some 1) 1; mkC 2 None 2; mkC 2 None 3].
Proof. split; [unfold window; cbv zeta; lia|reflexivity]. Qed.
