(** Exchange of query points between overlapping domains: src/fclaw2d_convenience.c:1285-1992
    (fclaw2d_overlap_exchange and the functions it uses), 2D and 3D.

    External: p4est_search_local and p4est_search_partition_gfx are recursions over search trees
    (Model_Search.search_local); a [Leaf q r] of a partition search tree is a quadrant with
    pfirst = plast = r, a [Node] one with pfirst < plast.  sc_notify_ext tells every process who has
    listed it as a receiver.  MPI messages of one tag between two processes are not reordered.
    A failed assertion, an index out of range and a message that does not fit are [None].
    The bytes of a point are one value of type [V]. *)
From Coq Require Import ZArith List Bool Arith Permutation.
From Verif Require Import Model_Face Model_Domain Model_Search.
Import ListNotations.
Open Scope Z_scope.

(** the domain passed to the callback: the temporary one of the partition search with its rank
    (fclaw2d_convenience.c:1424, forestclaw2d.c:2444-2465), or the domain of a process *)
Inductive site := Meta (mpirank : Z) | Local (rank : Z).

Section Overlap.
  Variable V : Type.
  (** user callback: domain, patch (a function of the quadrant), block, patch number, point; returns
      whether there may be a contribution, and the point afterwards *)
  Variable interpolate : site -> quad -> Z -> Z -> V -> bool * V.

  (** ** The consumer's partition search *)

  (** overlap_consumer_comm_t (fclaw2d_convenience.c:1332-1349): query points, the mark op->rank of
      each, send buffers and query indices *)
  Record consumer := mkCo { points : list V; marks : list Z; sendb : list (Z * list V); qidx : list (Z * list nat) }.

  (** last element of an array *)
  Fixpoint split_last {A} (l : list A) : option (list A * A) :=
    match l with
    | [] => None
    | x :: l => match split_last l with None => Some ([], x) | Some (l', y) => Some (x :: l', y) end
    end.

  (** fclaw2d_convenience.c:1356-1393 overlap_consumer_add; the point is given by its id *)
  Definition overlap_consumer_add (mpisize : Z) (c : consumer) (id : nat) (rank : Z) : option consumer :=
    check ((0 <=? rank) && (rank <? mpisize)) (
    bind (nth_error (points c) id) (fun v =>
    bind (put (marks c) id rank) (fun marks' =>
    match split_last (sendb c) with
    | None => Some (mkCo (points c) marks' (sendb c ++ [(rank, [v])]) (qidx c ++ [(rank, [id])]))
    | Some (bs, (sr, ops)) =>
        bind (split_last (qidx c)) (fun '(is, (qr, oqs)) =>
        check (sr =? qr) (check (sr <=? rank) (
        check (Nat.eqb (length ops) (length oqs)) (check (Nat.ltb 0 (length ops)) (
        if sr <? rank
        then Some (mkCo (points c) marks' (sendb c ++ [(rank, [v])]) (qidx c ++ [(rank, [id])]))
        else Some (mkCo (points c) marks' (bs ++ [(sr, ops ++ [v])]) (is ++ [(qr, oqs ++ [id])])))))))
    end))).

  (** fclaw2d_convenience.c:1395-1457 interpolate_partition_fn; [owner]: pfirst if pfirst = plast,
      -1 otherwise *)
  Definition interpolate_partition_fn (mpisize : Z) (which_tree : Z) (q : quad) (owner : Z) (id : nat) (c : consumer) : option (bool * consumer) :=
    bind (nth_error (marks c) id) (fun mark =>
    if 0 <=? mark then Some (false, c) else
    bind (nth_error (points c) id) (fun v =>
    let '(intersects, v') := interpolate (Meta owner) q which_tree (-1) v in
    bind (put (points c) id v') (fun points' =>
    let c := mkCo points' (marks c) (sendb c) (qidx c) in
    if negb intersects then Some (false, c) else
    if 0 <=? owner then bind (overlap_consumer_add mpisize c id owner) (fun c => Some (true, c))
    else Some (true, c)))).

  (** fclaw2d_convenience.c:1905-1948: the arrays at the beginning and the partition search *)
  Definition partition_search (mpisize : Z) (ptrees : list stree) (query_points : list V) : option consumer :=
    search_local consumer nat (interpolate_partition_fn mpisize) 0 (map Some ptrees) (seq 0 (length query_points))
      (mkCo query_points (repeat (-1) (length query_points)) [] []).

  (** ** The producer's local search *)

  (** fclaw2d_convenience.c:1459-1498 interpolate_local_fn on process [rank]; the points are those of the
      array [ops] *)
  Definition interpolate_local_fn (rank : Z) (blocks : list block) (which_tree : Z) (q : quad) (local_num : Z) (i : nat) (ops : list V) : option (bool * list V) :=
    bind (nth_error ops i) (fun v =>
    if 0 <=? local_num then
      bind (zget blocks which_tree) (fun b =>
      let patchno := local_num - b_before b in
      bind (zget (b_patches b) patchno) (fun patch =>
      let '(r, v') := interpolate (Local rank) patch which_tree patchno v in
      bind (put ops i v') (fun ops => Some (r, ops))))
    else
      let '(r, v') := interpolate (Local rank) q which_tree (-1) v in
      bind (put ops i v') (fun ops => Some (r, ops))).
  (** the call of p4est_search_local, fclaw2d_convenience.c:1671 and 1887 *)
  Definition local_search (rank : Z) (pr : list block * list (option stree)) (ops : list V) : option (list V) :=
    search_local (list V) nat (interpolate_local_fn rank (fst pr)) 0 (snd pr) (seq 0 (length ops)) ops.

  (** fclaw2d_convenience.c:1694-1717 consumer_update_from_buffer *)
  Fixpoint copy_back (ops : list V) (oqs : list nat) (points : list V) : option (list V) :=
    match ops, oqs with
    | [], _ => Some points
    | v :: ops, id :: oqs => bind (put points id v) (copy_back ops oqs)
    | _ :: _, [] => None
    end.
  Definition update_from_buffer (ops : list V) (bi : nat) (q : list (Z * list nat)) (points : list V) : option (list V) :=
    bind (nth_error q bi) (fun '(_, oqs) => copy_back ops oqs points).

  (** ** One process *)
  Inductive phase := Searching | Notifying | Posting | Producing | Consuming | Waiting | Updating | Finished | Failed.
  (** state of a process; [p_bufs]: rank and length of the producer's receive buffers, [p_reqs]
      and [c_reqs]: whether the receive request is active *)
  Record proc := mkP { ph : phase; co : consumer; iconrank : Z; iprorank : Z;
    p_bufs : list (Z * Z); p_reqs : list bool; p_remaining : Z; c_reqs : list bool; c_remaining : Z }.
  Definition failed (s : proc) : proc := mkP Failed (co s) (iconrank s) (iprorank s) (p_bufs s) (p_reqs s) (p_remaining s) (c_reqs s) (c_remaining s).
  Definition try {A} (s : proc) (x : option A) (f : A -> proc) : proc := match x with Some a => f a | None => failed s end.
  Definition set_ph (s : proc) (f : phase) : proc := mkP f (co s) (iconrank s) (iprorank s) (p_bufs s) (p_reqs s) (p_remaining s) (c_reqs s) (c_remaining s).

  (** the position of rank [r] in a list of buffers, the last one (fclaw2d_convenience.c:1544 and 1585: the index
      is assigned in a loop), or -1 *)
  Fixpoint index_of (r : Z) (i : Z) (ranks : list Z) (found : Z) : Z :=
    match ranks with [] => found | x :: ranks => index_of r (i + 1) ranks (if x =? r then i else found) end.

  Section Process.
    Variable mpisize : Z.
    Variable ptrees : list stree.
    Variable pr : list block * list (option stree).
    Variable rank : Z.

    (** fclaw2d_convenience.c:1905-1948 *)
    Definition do_search (s : proc) : proc :=
      try s (partition_search mpisize ptrees (points (co s))) (fun c => mkP Notifying c (iconrank s) (iprorank s) (p_bufs s) (p_reqs s) (p_remaining s) (c_reqs s) (c_remaining s)).
    (** what a process tells sc_notify_ext (fclaw2d_convenience.c:1515-1529): receivers and payload *)
    Definition announced (s : proc) : list (Z * Z) := map (fun sb => (fst sb, Z.of_nat (length (snd sb)))) (sendb (co s)).
    (** fclaw2d_convenience.c:1530-1567, with the [senders] and payloads returned by sc_notify_ext, and the
        beginning of producer_interpolate (1635-1655) *)
    Definition do_notify (senders : list (Z * Z)) (s : proc) : proc :=
      let bufs := map (fun '(r, n) => (r, if r =? rank then 0 else n)) senders in
      let reqs := map (fun '(r, _) => negb (r =? rank)) senders in
      let ip := index_of rank 0 (map fst senders) (-1) in
      let remaining := Z.of_nat (length senders) - (if 0 <=? ip then 1 else 0) in
      mkP Posting (co s) (-1) ip bufs reqs remaining (c_reqs s) (c_remaining s).
    (** fclaw2d_convenience.c:1569-1632 consumer_post_messages; the messages sent are returned *)
    Definition do_post (s : proc) : proc * list (Z * list V) :=
      let ic := index_of rank 0 (map fst (sendb (co s))) (iconrank s) in
      let reqs := map (fun sb => negb (fst sb =? rank)) (sendb (co s)) in
      (mkP Producing (co s) ic (iprorank s) (p_bufs s) (p_reqs s) (p_remaining s) reqs (c_remaining s),
       filter (fun sb => negb (fst sb =? rank)) (sendb (co s))).
    (** fclaw2d_convenience.c:1656-1687: one message that has arrived; the answer is returned.  sc_MPI_Waitsome
        reports any number of them at a time in any order. *)
    Definition do_produce (i : nat) (msg : list V) (s : proc) : option (proc * list V) :=
      bind (nth_error (p_bufs s) i) (fun '(_, n) =>
      check (Z.of_nat (length msg) =? n) (
      bind (local_search rank pr msg) (fun ops =>
      bind (put (p_reqs s) i false) (fun reqs =>
      Some (mkP Producing (co s) (iconrank s) (iprorank s) (p_bufs s) reqs (p_remaining s - 1) (c_reqs s) (c_remaining s), ops))))).
    (** fclaw2d_convenience.c:1655: end of the loop, and 1729-1731 *)
    Definition to_consume (s : proc) : proc :=
      let n := Z.of_nat (length (c_reqs s)) in
      mkP Consuming (co s) (iconrank s) (iprorank s) (p_bufs s) (p_reqs s) (p_remaining s) (c_reqs s) (if 0 <=? iconrank s then n - 1 else n).
    (** fclaw2d_convenience.c:1732-1749: one answer that has arrived *)
    Definition do_consume (i : nat) (msg : list V) (s : proc) : option proc :=
      bind (nth_error (sendb (co s)) i) (fun '(_, ops) =>
      check (Nat.eqb (length msg) (length ops)) (
      bind (update_from_buffer msg i (qidx (co s)) (points (co s))) (fun pts =>
      bind (put (c_reqs s) i false) (fun reqs =>
      Some (mkP Consuming (mkCo pts (marks (co s)) (sendb (co s)) (qidx (co s))) (iconrank s) (iprorank s) (p_bufs s) (p_reqs s) (p_remaining s) reqs (c_remaining s - 1)))))).
    (** fclaw2d_convenience.c:1871-1892 consumer_producer_update_local *)
    Definition update_local (s : proc) : option consumer :=
      let c := co s in
      if (0 <=? iconrank s) && Nat.ltb 0 (length (sendb c)) then
        bind (zget (sendb c) (iconrank s)) (fun '(_, ops) =>
        bind (local_search rank pr ops) (fun ops =>
        bind (update_from_buffer ops (Z.to_nat (iconrank s)) (qidx c) (points c)) (fun pts =>
        Some (mkCo pts (marks c) (sendb c) (qidx c)))))
      else Some c.
    (** the assertions of fclaw2d_convenience.c:1784-1869: ranks ascending from -1, no empty buffer, and which
        receive buffers are empty *)
    Fixpoint ascending (prev : Z) (l : list Z) : bool := match l with [] => true | r :: l => (prev <? r) && ascending r l end.
    Definition free_checks (s : proc) : bool :=
      ascending (-1) (map fst (sendb (co s))) &&
      forallb (fun sb => Nat.ltb 0 (length (snd sb))) (sendb (co s)) &&
      forallb (fun '(i, (_, n)) => if i =? iprorank s then n =? 0 else 0 <? n) (number (p_bufs s)).
    Definition do_local (s : proc) : proc :=
      try s (update_local s) (fun c =>
      try s (check (free_checks s) (Some tt)) (fun _ =>
      mkP Finished c (iconrank s) (iprorank s) (p_bufs s) (p_reqs s) (p_remaining s) (c_reqs s) (c_remaining s))).

    (** the function when compiled without MPI: fclaw2d_convenience.c:1905-1948 and 1982-1992 *)
    Definition overlap_serial (query_points : list V) : option (list V) :=
      bind (partition_search mpisize ptrees query_points) (fun c =>
      bind (update_local (mkP Updating c 0 0 [] [] 0 [] 0)) (fun c => Some (points c))).
  End Process.

  (** ** All processes *)
  Record config := mkC { procs : nat -> proc; chan1 : nat -> nat -> list (list V); chan2 : nat -> nat -> list (list V) }.
  Definition setp (f : nat -> proc) (p : nat) (s : proc) : nat -> proc := fun p' => if Nat.eqb p' p then s else f p'.
  Definition setc (f : nat -> nat -> list (list V)) (s d : nat) (l : list (list V)) : nat -> nat -> list (list V) :=
    fun s' d' => if Nat.eqb s' s && Nat.eqb d' d then l else f s' d'.
  Definition add_all (f : nat -> nat -> list (list V)) (s : nat) (msgs : list (Z * list V)) : nat -> nat -> list (list V) :=
    fold_left (fun f m => setc f s (Z.to_nat (fst m)) (f s (Z.to_nat (fst m)) ++ [snd m])) msgs f.

  (** the process has called sc_notify_ext *)
  Definition entered (s : proc) : Prop := match ph s with Searching | Failed => False | _ => True end.

  Section Machine.
    (** local patches and search trees of the processes; partition search trees *)
    Variable machine : list (list block * list (option stree)).
    Variable ptrees : list stree.
    Notation size := (length machine).
    Notation msize := (Z.of_nat size).

    (** what sc_notify_ext returns on process [p]: every process that announced [p], in any order *)
    Definition announces (c : config) (p : nat) : list (Z * Z) :=
      flat_map (fun s => map (fun '(_, n) => (Z.of_nat s, n)) (filter (fun '(r, _) => r =? Z.of_nat p) (announced (procs c s)))) (seq 0 size).
    Definition data (p : nat) : list block * list (option stree) := nth p machine ([], []).

    (** [strict]: the sends are complete only when they have been received *)
    Inductive step (strict : bool) : config -> config -> Prop :=
    | s_search : forall c p, (p < size)%nat -> ph (procs c p) = Searching ->
        step strict c (mkC (setp (procs c) p (do_search msize ptrees (procs c p))) (chan1 c) (chan2 c))
    | s_notify : forall c p senders, (p < size)%nat -> ph (procs c p) = Notifying -> (forall p', (p' < size)%nat -> entered (procs c p')) ->
        Permutation senders (announces c p) ->
        step strict c (mkC (setp (procs c) p (do_notify (Z.of_nat p) senders (procs c p))) (chan1 c) (chan2 c))
    | s_post : forall c p s' msgs, (p < size)%nat -> ph (procs c p) = Posting -> do_post (Z.of_nat p) (procs c p) = (s', msgs) ->
        step strict c (mkC (setp (procs c) p s') (add_all (chan1 c) p msgs) (chan2 c))
    | s_produce : forall c p i r n msg rest s' ops, (p < size)%nat -> ph (procs c p) = Producing -> 0 < p_remaining (procs c p) ->
        nth_error (p_reqs (procs c p)) i = Some true -> nth_error (p_bufs (procs c p)) i = Some (r, n) -> chan1 c (Z.to_nat r) p = msg :: rest ->
        do_produce (data p) (Z.of_nat p) i msg (procs c p) = Some (s', ops) ->
        step strict c (mkC (setp (procs c) p s') (setc (chan1 c) (Z.to_nat r) p rest) (setc (chan2 c) p (Z.to_nat r) (chan2 c p (Z.to_nat r) ++ [ops])))
    | s_produce_fails : forall c p i r n msg rest, (p < size)%nat -> ph (procs c p) = Producing -> 0 < p_remaining (procs c p) ->
        nth_error (p_reqs (procs c p)) i = Some true -> nth_error (p_bufs (procs c p)) i = Some (r, n) -> chan1 c (Z.to_nat r) p = msg :: rest ->
        do_produce (data p) (Z.of_nat p) i msg (procs c p) = None ->
        step strict c (mkC (setp (procs c) p (failed (procs c p))) (chan1 c) (chan2 c))
    | s_to_consume : forall c p, (p < size)%nat -> ph (procs c p) = Producing -> p_remaining (procs c p) <= 0 ->
        step strict c (mkC (setp (procs c) p (to_consume (procs c p))) (chan1 c) (chan2 c))
    | s_consume : forall c p i r n msg rest s', (p < size)%nat -> ph (procs c p) = Consuming -> 0 < c_remaining (procs c p) ->
        nth_error (c_reqs (procs c p)) i = Some true -> nth_error (sendb (co (procs c p))) i = Some (r, n) -> chan2 c (Z.to_nat r) p = msg :: rest ->
        do_consume i msg (procs c p) = Some s' ->
        step strict c (mkC (setp (procs c) p s') (chan1 c) (setc (chan2 c) (Z.to_nat r) p rest))
    | s_consume_fails : forall c p i r n msg rest, (p < size)%nat -> ph (procs c p) = Consuming -> 0 < c_remaining (procs c p) ->
        nth_error (c_reqs (procs c p)) i = Some true -> nth_error (sendb (co (procs c p))) i = Some (r, n) -> chan2 c (Z.to_nat r) p = msg :: rest ->
        do_consume i msg (procs c p) = None ->
        step strict c (mkC (setp (procs c) p (failed (procs c p))) (chan1 c) (chan2 c))
    | s_to_wait : forall c p, (p < size)%nat -> ph (procs c p) = Consuming -> c_remaining (procs c p) <= 0 ->
        step strict c (mkC (setp (procs c) p (set_ph (procs c p) Waiting)) (chan1 c) (chan2 c))
    | s_wait : forall c p, (p < size)%nat -> ph (procs c p) = Waiting ->
        (strict = true -> forall d, chan1 c p d = [] /\ chan2 c p d = []) ->
        step strict c (mkC (setp (procs c) p (set_ph (procs c p) Updating)) (chan1 c) (chan2 c))
    | s_local : forall c p, (p < size)%nat -> ph (procs c p) = Updating ->
        step strict c (mkC (setp (procs c) p (do_local (data p) (Z.of_nat p) (procs c p))) (chan1 c) (chan2 c)).

    Inductive steps : config -> config -> Prop :=
    | none : forall c, steps c c
    | more : forall c c1 c2, steps c c1 -> step false c1 c2 -> steps c c2.

    (** all processes call fclaw2d_overlap_exchange with their query points *)
    Definition initial (query : nat -> list V) : config :=
      mkC (fun p => mkP Searching (mkCo (query p) [] [] []) (-1) (-1) [] [] 0 [] 0) (fun _ _ => []) (fun _ _ => []).
  End Machine.
End Overlap.
