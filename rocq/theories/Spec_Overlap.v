(** Query points and the leaves that contribute to them. *)
From Coq Require Import ZArith List Bool Permutation Sorted.
From Verif Require Import Model_Face Model_Domain Spec_Domain Model_Search Spec_Search Model_Overlap.
Import ListNotations.
Open Scope Z_scope.

Section Overlap.
  Variable V : Type.
  Variable d : dim.
  (** the user's callback *)
  Variable interpolate : site -> quad -> Z -> Z -> V -> bool * V.
  (** local patches (and search trees) of all processes, and the trees of the partition search *)
  Variable machine : list (list block * list (option stree)).
  Variable ptrees : list stree.

  (** the point after the callback was called for one leaf (block, patch number, quadrant) of process [p] *)
  Definition contribute (p : nat) (v : V) (l : Z * Z * quad) : V := let '(jb, i, q) := l in snd (interpolate (Local (Z.of_nat p)) q jb i v).
  (** ... and whether the leaf contributes *)
  Definition hit (p : nat) (v : V) (l : Z * Z * quad) : Prop := let '(jb, i, q) := l in fst (interpolate (Local (Z.of_nat p)) q jb i v) = true.
  (** some leaf of process [p] contributes to the point *)
  Definition contributes (p : nat) (v : V) : Prop := exists pr l, nth_error machine p = Some pr /\ In l (leaves_of pr) /\ hit p v l.
  Definition lowest_contributing (p : nat) (v : V) : Prop := contributes p v /\ forall p', (p' < p)%nat -> ~ contributes p' v.

  (** What the documentation asks of the callback (fclaw2d_convenience.h:265-324):
      - artificial patches do not change the point;
      - whether there is a contribution does not depend on earlier contributions;
      - a leaf that does not contribute does not change the point;
      - a quadrant around a leaf that contributes is reported, in both searches;
      - the answer for a quadrant with one owner in the partition search is exact. *)
  Definition usable : Prop :=
    (forall s q jb v, snd (interpolate s q jb (-1) v) = v) /\
    (forall s q jb i s' q' jb' i' v, fst (interpolate s q jb i (snd (interpolate s' q' jb' i' v))) = fst (interpolate s q jb i v)) /\
    (forall p v l, ~ hit p v l -> contribute p v l = v) /\
    (forall p jb i q a v, 0 <= i -> within d q a -> hit p v (jb, i, q) ->
       fst (interpolate (Local (Z.of_nat p)) a jb (-1) v) = true /\ fst (interpolate (Meta (-1)) a jb (-1) v) = true /\
       fst (interpolate (Meta (Z.of_nat p)) a jb (-1) v) = true) /\
    (forall p jb t a v, zget ptrees jb = Some t -> In (a, Z.of_nat p) (leaves t) -> fst (interpolate (Meta (Z.of_nat p)) a jb (-1) v) = true ->
       contributes p v).

  (** The partition search of p4est: every local leaf lies in a quadrant of the search tree of its block that is marked
      with its owner; the owners ascend in the order of the search. *)
  Definition owners : list Z := map snd (flat_map leaves ptrees).
  Definition partition_ok : Prop :=
    Forall (nested d) ptrees /\ StronglySorted Z.le owners /\ Forall (fun r => 0 <= r < Z.of_nat (length machine)) owners /\
    forall p pr jb i q, nth_error machine p = Some pr -> In (jb, i, q) (leaves_of pr) ->
      exists t a, zget ptrees jb = Some t /\ In (a, Z.of_nat p) (leaves t) /\ within d q a.
  Definition machine_ok : Prop := Forall (process_ok d) machine /\ partition_ok.

  (** the answer to a query point: one call for each leaf of the lowest process that contributes *)
  Definition answered (v v' : V) : Prop :=
    (exists p pr l, lowest_contributing p v /\ nth_error machine p = Some pr /\ Permutation l (leaves_of pr) /\ v' = fold_left (contribute p) l v) \/
    ((forall p, ~ contributes p v) /\ v' = v).

  (** the answer one would expect: one call for each leaf of every process *)
  Definition answered_by_all (v v' : V) : Prop :=
    exists l, Permutation l (flat_map (fun p => map (pair p) (leaves_of (nth p machine ([], [])))) (seq 0 (length machine))) /\
      v' = fold_left (fun w '(p, leaf) => contribute p w leaf) l v.

  (** the array of query points of a process *)
  Definition query_points (c : config V) (p : nat) : list V := points V (co V (procs V c p)).
  Definition finished (c : config V) (p : nat) : Prop := ph V (procs V c p) = Finished.
End Overlap.
