(** Exchange of ghost patches: src/forestclaw2d.c:1706-1823, src/fclaw2d_exchange.c.

    Several processes run concurrently.  The p4est ghost exchange (external) copies the mirror data into
    messages at begin and writes the ghost memory at end; the k-th exchange of a process meets the k-th
    exchange of the others.  Timers and the indirect exchange inside fclaw2d_exchange_setup (see
    Model_Mesh) are left out.  [V]: content of one packed patch. *)
From Coq Require Import ZArith List Bool Lia.
Import ListNotations.
Open Scope Z_scope.

Inductive result (T : Type) := Error | Blocked | Done (x : T).
Arguments Error {T}. Arguments Blocked {T}. Arguments Done {T} x.
Definition bind {A B} (x : result A) (f : A -> result B) : result B :=
  match x with Done a => f a | Blocked => Blocked | Error => Error end.
Definition check {A} (b : bool) (x : result A) : result A := if b then x else Error.
Definition get {A} (l : list A) (i : nat) : result A := match nth_error l i with Some x => Done x | None => Error end.
Fixpoint put {A} (l : list A) (i : nat) (v : A) : list A :=
  match l, i with [], _ => [] | _ :: l, O => v :: l | x :: l, S i => x :: put l i v end.

(** a ghost patch: owner, position among the owner's exchange patches, level *)
Record ghost := mkG { owner : nat; mirror : nat; glevel : Z }.
(** the domains: for each process its patches (level, on parallel boundary) in the order of the blocks, and
    its ghost patches *)
Record layout := mkL { size : nat; global_minlevel : Z; global_maxlevel : Z;
                       patches : nat -> list (Z * bool); ghosts : nat -> list ghost }.
(** num_exchange_patches (forestclaw2d.c, domain_new) *)
Definition num_exchange (lay : layout) (p : nat) : nat := length (filter snd (patches lay p)).
Definition num_ghost (lay : layout) (p : nat) : nat := length (ghosts lay p).

(** calls of a process: fclaw2d_exchange_setup, fclaw2d_exchange_ghost_patches_begin/_end (minlevel, maxlevel,
    time_interp), fclaw2d_exchange_delete *)
Inductive op := Setup | Begin (mn mx : Z) (ti : bool) | End (mn mx : Z) (ti : bool) | Delete.

Section Values.
  Variable V : Type.

  (** allocated blocks: slots of patch data *)
  Record heap := mkH { fresh : nat; block : nat -> option (list (option V)) }.
  Definition alloc (h : heap) (b : list (option V)) : nat * heap :=
    (fresh h, mkH (S (fresh h)) (fun i => if Nat.eqb i (fresh h) then Some b else block h i)).
  Definition free (h : heap) (i : nat) : result heap :=
    match block h i with None => Error | Some _ => Done (mkH (fresh h) (fun j => if Nat.eqb j i then None else block h j)) end.
  Definition load (h : heap) (i : nat) : result (list (option V)) := match block h i with Some b => Done b | None => Error end.
  Definition store (h : heap) (i : nat) (b : list (option V)) : result heap :=
    match block h i with None => Error | Some _ => Done (mkH (fresh h) (fun j => if Nat.eqb j i then Some b else block h j)) end.

  (** fclaw2d_domain_exchange_t; [async]: number of the exchange under way *)
  Record exchange := mkE {
    e_id : nat; pd_id : nat; gd_id : nat; gm_id : nat;      (* the struct and its three arrays *)
    patch_data : list (option nat);                         (* pointers *)
    async : option nat; by_levels : bool; xmin : Z; xmax : Z; inside_async : bool }.
  (** message of one process in one exchange *)
  Record msg := mkM { m_levels : bool; m_min : Z; m_max : Z; m_data : list (option V) }.

  (** forestclaw2d.c:1706-1735 fclaw2d_domain_allocate_before_exchange *)
  Definition allocate_before_exchange (nexch nghost : nat) (h : heap) : exchange * heap :=
    let '(e, h) := alloc h [] in
    let '(pd, h) := alloc h [] in
    let '(gd, h) := alloc h [] in
    let '(gm, h) := alloc h (repeat None nghost) in
    (mkE e pd gd gm (repeat None nexch) None false 0 0 false, h).

  (** forestclaw2d.c:1751-1791 fclaw2d_domain_ghost_exchange_begin; the mirrors that take part are
      copied into the message *)
  Definition in_range (levels : bool) (mn mx l : Z) : bool := negb levels || ((mn <=? l) && (l <=? mx)).
  Fixpoint read_mirrors (levels : bool) (mn mx : Z) (ls : list Z) (ptrs : list (option nat)) (h : heap) : result (list (option V)) :=
    match ls, ptrs with
    | [], [] => Done []
    | l :: ls, q :: ptrs =>
        bind (if in_range levels mn mx l then match q with Some i => bind (load h i) (fun b => get b 0) | None => Error end else Done None) (fun v =>
        bind (read_mirrors levels mn mx ls ptrs h) (fun vs => Done (v :: vs)))
    | _, _ => Error
    end.
  Definition mirror_levels (lay : layout) (p : nat) : list Z := map fst (filter snd (patches lay p)).
  Definition ghost_exchange_begin (lay : layout) (p : nat) (e : exchange) (mn mx : Z) (ordinal : nat) (h : heap) : result (exchange * msg) :=
    bind (load h (e_id e)) (fun _ =>
    check (match async e with None => true | Some _ => false end) (
    check (negb (inside_async e)) (
    check (Nat.eqb (length (patch_data e)) (num_exchange lay p)) (
    let levels := negb ((mn <=? global_minlevel lay) && (global_maxlevel lay <=? mx)) in
    bind (read_mirrors levels mn mx (mirror_levels lay p) (patch_data e) h) (fun d =>
    Done (mkE (e_id e) (pd_id e) (gd_id e) (gm_id e) (patch_data e) (Some ordinal) levels mn mx true, mkM levels mn mx d)))))).

  (** contract of the p4est exchange: new content of the ghost memory *)
  Fixpoint receive (levels : bool) (mn mx : Z) (k : nat) (sent : nat -> list msg) (gs : list ghost) (old : list (option V)) : result (list (option V)) :=
    match gs, old with
    | [], [] => Done []
    | g :: gs, o :: old =>
        bind (if in_range levels mn mx (glevel g) then
                match nth_error (sent (owner g)) k with
                | None => Blocked
                | Some m => check (Bool.eqb (m_levels m) levels && (m_min m =? mn) && (m_max m =? mx)) (get (m_data m) (mirror g))
                end
              else Done o) (fun v =>
        bind (receive levels mn mx k sent gs old) (fun vs => Done (v :: vs)))
    | _, _ => Error
    end.

  (** forestclaw2d.c:1793-1813 fclaw2d_domain_ghost_exchange_end *)
  Definition ghost_exchange_end (lay : layout) (p : nat) (e : exchange) (sent : nat -> list msg) (h : heap) : result (exchange * heap) :=
    bind (load h (e_id e)) (fun _ =>
    match async e with
    | None => Error
    | Some k =>
        check (inside_async e) (
        bind (load h (gm_id e)) (fun old =>
        bind (receive (by_levels e) (xmin e) (xmax e) k sent (ghosts lay p) old) (fun new =>
        bind (store h (gm_id e) new) (fun h =>
        Done (mkE (e_id e) (pd_id e) (gd_id e) (gm_id e) (patch_data e) None (by_levels e) (xmin e) (xmax e) false, h)))))
    end).

  (** forestclaw2d.c:1815-1823 fclaw2d_domain_free_after_exchange *)
  Definition free_after_exchange (e : exchange) (h : heap) : result heap :=
    bind (load h (e_id e)) (fun _ =>
    bind (free h (gm_id e)) (fun h => bind (free h (gd_id e)) (fun h => bind (free h (pd_id e)) (fun h => free h (e_id e))))).

  (** A process: remaining calls, heap, exchange object (ddata->domain_exchange), current content of its patches
      (plain and time-interpolated), content of its ghost patches (plain, time-interpolated), number of
      exchanges begun. *)
  Record proc := mkP { todo : list op; hp : heap; ex : option exchange; data : nat -> bool -> V;
                       remote : list (option V * option V); count : nat }.

  (** fclaw2d_exchange.c:195-209: one buffer for each patch on the parallel boundary *)
  Fixpoint alloc_buffers (ps : list (Z * bool)) (zz : nat) (pd : list (option nat)) (h : heap) : result (list (option nat) * heap) :=
    match ps with
    | [] => Done (pd, h)
    | (_, flag) :: ps =>
        if (flag : bool) then
          check (Nat.ltb zz (length pd)) (let '(i, h) := alloc h [None] in alloc_buffers ps (S zz) (put pd zz (Some i)) h)
        else alloc_buffers ps zz pd h
    end.
  Definition set_ptrs (e : exchange) (pd : list (option nat)) : exchange :=
    mkE (e_id e) (pd_id e) (gd_id e) (gm_id e) pd (async e) (by_levels e) (xmin e) (xmax e) (inside_async e).

  (** fclaw2d_exchange.c:171-260 fclaw2d_exchange_setup; build_remote_ghost_patches makes new ghost patches *)
  Definition exchange_setup (lay : layout) (p : nat) (h : heap) : result (exchange * heap) :=
    let '(e, h) := allocate_before_exchange (num_exchange lay p) (num_ghost lay p) h in
    bind (alloc_buffers (patches lay p) 0 (patch_data e) h) (fun '(pd, h) => Done (set_ptrs e pd, h)).

  (** fclaw2d_exchange.c:321-346: packing; [np]: number of the patch *)
  Fixpoint pack (ps : list (Z * bool)) (np zz : nat) (mn mx : Z) (ti : bool) (dat : nat -> bool -> V) (pd : list (option nat)) (h : heap) : result heap :=
    match ps with
    | [] => Done h
    | (level, flag) :: ps =>
        if (flag : bool) then
          check (level <=? mx) (
          bind (get pd zz) (fun q =>
          match q with
          | None => Error
          | Some i =>
              let pack_time_interp := ti && (level =? mn - 1) in
              bind (store h i [Some (dat np pack_time_interp)]) (fun h => pack ps (S np) (S zz) mn mx ti dat pd h)
          end))
        else pack ps (S np) zz mn mx ti dat pd h
    end.

  (** fclaw2d_exchange.c:308-370 fclaw2d_exchange_ghost_patches_begin *)
  Definition ghost_patches_begin (lay : layout) (p : nat) (s : proc) (mn mx : Z) (ti : bool) : result (exchange * heap * msg) :=
    match ex s with
    | None => Error
    | Some e =>
        bind (load (hp s) (e_id e)) (fun _ =>
        bind (pack (patches lay p) 0 0 mn mx ti (data s) (patch_data e) (hp s)) (fun h =>
        bind (ghost_exchange_begin lay p e (if ti then mn - 1 else mn) mx (count s) h) (fun '(e, m) =>
        Done (e, h, m))))
    end.

  (** fclaw2d_exchange.c:132-165 unpack_remote_ghost_patches *)
  Fixpoint unpack (gs : list ghost) (mem : list (option V)) (mn mx : Z) (ti : bool) (rem : list (option V * option V)) : result (list (option V * option V)) :=
    match gs, mem, rem with
    | [], [], [] => Done []
    | g :: gs, q :: mem, (a, b) :: rem =>
        bind (unpack gs mem mn mx ti rem) (fun rem =>
        Done ((if mn - 1 <=? glevel g then if ti && (glevel g =? mn - 1) then (a, q) else (q, b) else (a, b)) :: rem))
    | _, _, _ => Error
    end.

  (** fclaw2d_exchange.c:373-413 fclaw2d_exchange_ghost_patches_end *)
  Definition ghost_patches_end (lay : layout) (p : nat) (s : proc) (sent : nat -> list msg) (mn mx : Z) (ti : bool) : result (exchange * heap * list (option V * option V)) :=
    match ex s with
    | None => Error
    | Some e =>
        bind (ghost_exchange_end lay p e sent (hp s)) (fun '(e, h) =>
        bind (load h (gm_id e)) (fun mem =>
        bind (unpack (ghosts lay p) mem mn mx ti (remote s)) (fun rem => Done (e, h, rem))))
    end.

  (** fclaw2d_exchange.c:274-290 *)
  Fixpoint free_buffers (ps : list (Z * bool)) (zz : nat) (pd : list (option nat)) (h : heap) : result heap :=
    match ps with
    | [] => Done h
    | (_, flag) :: ps =>
        if (flag : bool) then
          bind (get pd zz) (fun q => match q with None => Error | Some i => bind (free h i) (free_buffers ps (S zz) pd) end)
        else free_buffers ps zz pd h
    end.
  (** fclaw2d_exchange.c:262-300 fclaw2d_exchange_delete: the pointer to the exchange object remains *)
  Definition exchange_delete (lay : layout) (p : nat) (e : exchange) (h : heap) : result heap :=
    bind (free_buffers (patches lay p) 0 (patch_data e) h) (free_after_exchange e).

  (** All processes.  [begins p], [ends p]: what process p did so far, for the statement of properties: the content
      of its patches at each begin and of its ghost patches after each end. *)
  Record config := mkC { procs : nat -> proc; sent : nat -> list msg;
                         begins : nat -> list (nat -> bool -> V); ends : nat -> list (list (option V * option V)) }.
  Definition set {T} (f : nat -> T) (p : nat) (x : T) : nat -> T := fun q => if Nat.eqb q p then x else f q.

  Definition exec (lay : layout) (p : nat) (c : config) : result config :=
    let s := procs c p in
    match todo s with
    | [] => Blocked
    | Setup :: l =>
        bind (exchange_setup lay p (hp s)) (fun '(e, h) =>
        Done (mkC (set (procs c) p (mkP l h (Some e) (data s) (repeat (None, None) (num_ghost lay p)) (count s))) (sent c) (begins c) (ends c)))
    | Begin mn mx ti :: l =>
        bind (ghost_patches_begin lay p s mn mx ti) (fun '(e, h, m) =>
        Done (mkC (set (procs c) p (mkP l h (Some e) (data s) (remote s) (S (count s)))) (set (sent c) p (sent c p ++ [m]))
                  (set (begins c) p (begins c p ++ [data s])) (ends c)))
    | End mn mx ti :: l =>
        bind (ghost_patches_end lay p s (sent c) mn mx ti) (fun '(e, h, rem) =>
        Done (mkC (set (procs c) p (mkP l h (Some e) (data s) rem (count s))) (sent c) (begins c) (set (ends c) p (ends c p ++ [rem]))))
    | Delete :: l =>
        match ex s with
        | None => Error
        | Some e =>
            bind (exchange_delete lay p e (hp s)) (fun h =>
            Done (mkC (set (procs c) p (mkP l h (Some e) (data s) (remote s) (count s))) (sent c) (begins c) (ends c)))
        end
    end.

  (** a process makes its next call, or computes: its own patches get any new content *)
  Inductive step (lay : layout) : config -> config -> Prop :=
  | s_call : forall c p c', (p < size lay)%nat -> exec lay p c = Done c' -> step lay c c'
  | s_compute : forall c p d, (p < size lay)%nat -> let s := procs c p in
      step lay c (mkC (set (procs c) p (mkP (todo s) (hp s) (ex s) d (remote s) (count s))) (sent c) (begins c) (ends c)).
  Inductive steps (lay : layout) : config -> config -> Prop :=
  | none : forall c, steps lay c c
  | more : forall c c1 c2, steps lay c c1 -> step lay c1 c2 -> steps lay c c2.

  Definition empty : heap := mkH 0 (fun _ => None).
  Definition initial (prog : list op) (d0 : nat -> nat -> bool -> V) : config :=
    mkC (fun p => mkP prog empty None (d0 p) [] 0) (fun _ => []) (fun _ => []) (fun _ => []).
End Values.
