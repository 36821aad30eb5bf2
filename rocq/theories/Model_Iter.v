(** Model of the iterations that relate two domains:
    /repo/src/forestclaw2d.c fclaw2d_domain_iterate_adapted,
    fclaw2d_domain_iterate_partitioned, fclaw2d_domain_assign_for_partition, and
    of the callbacks of /repo/src/fclaw2d_partition.c.
    Results are lists of callback invocations; a failed FCLAW_ASSERT is [None].
    The assertions on domain ownership (pp_owned, pp, just_partitioned) and the
    timers are not modelled. *)
From Coq Require Import ZArith List Bool Lia.
From Verif Require Import Model_Face Model_Domain.
Import ListNotations.
Open Scope Z_scope.

(** fclaw2d_patch_relation_t, /repo/src/forestclaw2d.h *)
Inductive relation := BOUNDARY | HALFSIZE | SAMESIZE | DOUBLESIZE.

Record acall := mkA { a_rel : relation; a_block : nat; a_oj : nat; a_nj : nat }.

(** forestclaw2d.c:1472-1504, one block.  Patches are given by their levels;
    [old]/[new] are the patches from oj/nj on. *)
Fixpoint adapted_block (fuel : nat) (d : dim) (i oj nj : nat) (old new : list Z)
  : option (list acall) :=
  match old with
  | [] => match new with [] => Some [] | _ => None end
  | lo :: _ =>
    match fuel, new with
    | S fuel', ln :: _ =>
      if negb (Z.abs (lo - ln) <=? 1) then None else
      let '(newsize, oskip, nskip) :=
        if lo <? ln then (HALFSIZE, 1%nat, num_children d)
        else if ln <? lo then (DOUBLESIZE, num_children d, 1%nat)
        else (SAMESIZE, 1%nat, 1%nat) in
      if Nat.ltb (length old) oskip || Nat.ltb (length new) nskip then None else
      match adapted_block fuel' d i (oj + oskip) (nj + nskip)
                          (skipn oskip old) (skipn nskip new) with
      | Some l => Some (mkA newsize i oj nj :: l)
      | None => None
      end
    | _, _ => None
    end
  end.

Fixpoint adapted_blocks (d : dim) (i : nat) (olds news : list (list Z)) : option (list acall) :=
  match olds, news with
  | [], [] => Some []
  | o :: os, n :: ns =>
    match adapted_block (length o) d i 0 0 o n, adapted_blocks d (S i) os ns with
    | Some l, Some r => Some (l ++ r)
    | _, _ => None
    end
  | _, _ => None                     (* num_blocks assertion *)
  end.

(** forestclaw2d.c:1452-1506 fclaw2d_domain_iterate_adapted *)
Definition iterate_adapted (d : dim) (olds news : list (list Z)) := adapted_blocks d 0 olds news.

(** ** Partition *)
(** num_patches and num_patches_before of a block *)
Record pblock := mkPB { pb_num : Z; pb_before : Z }.

(** for (k = a; k < b; ++k) *)
Definition zrange (a b : Z) : list Z := map (fun k => a + Z.of_nat k) (seq 0 (Z.to_nat (b - a))).

(** callback: block, old patch (None = NULL / -1), new patch *)
Record pcall := mkC { c_block : nat; c_old : option Z; c_new : Z }.

(** forestclaw2d.c:1596-1678, one block *)
Definition partitioned_block (uf ul uof : Z) (i : nat) (ob nb : pblock) : option (list pcall) :=
  let nbp := pb_num nb in
  if nbp =? 0 then Some [] else
  let nskip := pb_before nb in
  let npre := Z.max (uf - nskip) 0 in
  let '(npre, nstay) :=
    if nbp <=? npre then (nbp, nbp)
    else (npre, Z.min (Z.max (uf + ul - nskip) 0) nbp) in
  if negb ((0 <=? npre) && (npre <=? nstay) && (nstay <=? nbp)) then None else
  let first := map (fun nj => mkC i None nj) (zrange 0 npre) in
  if npre =? nbp then Some first else
  let obp := pb_num ob in
  let oskip := pb_before ob in
  let opre := Z.max (uof - oskip) 0 in
  let '(opre, ostay) :=
    if obp <=? opre then (obp, obp)
    else (opre, Z.min (Z.max (uof + ul - oskip) 0) obp) in
  if negb ((0 <=? opre) && (opre <=? ostay) && (ostay <=? obp)) then None else
  if negb (ostay - opre =? nstay - npre) then None else
  let stay := map (fun nj => mkC i (Some (opre + (nj - npre))) nj) (zrange npre nstay) in
  let second := map (fun nj => mkC i None nj) (zrange nstay nbp) in
  Some (first ++ stay ++ second).

Fixpoint partitioned_blocks (uf ul uof : Z) (i : nat) (obs nbs : list pblock)
  : option (list pcall) :=
  match obs, nbs with
  | [], [] => Some []
  | o :: os, n :: ns =>
    match partitioned_block uf ul uof i o n, partitioned_blocks uf ul uof (S i) os ns with
    | Some l, Some r => Some (l ++ r)
    | _, _ => None
    end
  | _, _ => None
  end.

(** forestclaw2d.c:1564-1692 fclaw2d_domain_iterate_partitioned *)
Definition iterate_partitioned (uf ul uof : Z) (obs nbs : list pblock) :=
  partitioned_blocks uf ul uof 0 obs nbs.

(** Per-patch user data during the transfer (/repo/src/fclaw2d_partition.c):
    [x_old]/[x_new] give patch->user of the old/new domain by block and patch
    number (None = NULL), and the counters of both domains. *)
Record xfer (A : Type) := mkX {
  x_old : nat -> Z -> option A; x_new : nat -> Z -> option A;
  x_del_old : Z; x_set_old : Z; x_set_new : Z }.
Arguments mkX {A}. Arguments x_old {A}. Arguments x_new {A}.
Arguments x_del_old {A}. Arguments x_set_old {A}. Arguments x_set_new {A}.

Definition set2 {A} (f : nat -> Z -> A) (i : nat) (j : Z) (v : A) : nat -> Z -> A :=
  fun i' j' => if Nat.eqb i' i && (j' =? j) then v else f i' j'.

(** fclaw2d_partition.c:57-104 cb_partition_transfer.  [buf] is the array
    patch_data of received packed patches; fclaw2d_patch_partition_unpack builds
    the patch (incrementing count_set_patch of glob's, i.e. the old, domain) from
    the buffer entry; a patch's packed form is identified with its data. *)
Definition cb_partition_transfer {A} (nbs : list pblock) (buf : list A) (st : xfer A) (c : pcall)
  : option (xfer A) :=
  match c_old c with
  | Some oj =>
    Some (mkX (set2 (x_old st) (c_block c) oj None)
              (set2 (x_new st) (c_block c) (c_new c) (x_old st (c_block c) oj))
              (x_del_old st + 1) (x_set_old st) (x_set_new st + 1))
  | None =>
    match nth_error nbs (c_block c) with
    | None => None
    | Some b =>
      let patch_num := pb_before b + c_new c in
      if patch_num <? 0 then None else
      match nth_error buf (Z.to_nat patch_num) with
      | None => None
      | Some v =>
        Some (mkX (x_old st) (set2 (x_new st) (c_block c) (c_new c) (Some v))
                  (x_del_old st) (x_set_old st + 1 - 1) (x_set_new st + 1))
      end
    end
  end.

Fixpoint run_calls {A} (nbs : list pblock) (buf : list A) (st : xfer A) (cs : list pcall)
  : option (xfer A) :=
  match cs with
  | [] => Some st
  | c :: r => match cb_partition_transfer nbs buf st c with
              | Some st' => run_calls nbs buf st' r
              | None => None
              end
  end.

(** fclaw2d_partition.c:160-175: iterate_partitioned with the transfer callback *)
Definition partition_transfer {A} (uf ul uof : Z) (obs nbs : list pblock) (buf : list A)
           (st : xfer A) : option (xfer A) :=
  match iterate_partitioned uf ul uof obs nbs with
  | Some cs => run_calls nbs buf st cs
  | None => None
  end.
