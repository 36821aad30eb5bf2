(** Model of the life of patch data through initialisation, regridding, repartitioning and the
    final reset, on one process.
    Modelled: src/fclaw2d_patch.c lines 62-95 (patch_data_new), 117-139 (data_delete), 141-172
    (build), 174-214 (build_from_fine), 627-668 (remote ghost build and delete), 707-731
    (partition_unpack), 975-1040 (neighbors_set, neighbors_reset);
    src/fclaw2d_regrid.c lines 114-229 (cb_fclaw2d_regrid_repopulate), 234-335 (regrid), 337-400
    (set_neighbor_types); src/fclaw2d_partition.c lines 55-189; src/fclaw2d_domain.c lines 163-260
    (data_new, setup, reset); src/fclaw2d_exchange.c lines 79-125 (ghost patches), 163-245 (setup),
    247-287 (delete); src/fclaw2d_initialize.c lines 53-70 and 75-232; src/fclaw2d_finalize.c 200.
    Simplified: the numerical data of a patch is one value (None: not initialised); numerical
    functions are parameters; timers, user hooks, send buffers and neighbor types are left out;
    the iterations over two domains are those of Model_Iter; what p4est decides (new leaves, new
    partition, ghost patches, received buffers) is part of the event. *)
From Coq Require Import ZArith List Bool Lia.
From Verif Require Import Model_Face Model_Domain Model_Iter.
Import ListNotations.
Open Scope Z_scope.

Definition key : Type := nat * nat.                    (* block number, patch number in the block *)
Definition key_eqb (a b : key) : bool := Nat.eqb (fst a) (fst b) && Nat.eqb (snd a) (snd b).
Definition upd_slot {A} (s : key -> A) (k : key) (v : A) : key -> A := fun k' => if key_eqb k' k then v else s k'.

Section Values.
  (** numerical data of a patch *)
  Variable V : Type.
  (** data of child number i interpolated from the parent (interpolate2fine) *)
  Variable interp : V -> nat -> V.
  (** data of the parent averaged from the four children (average2coarse) *)
  Variable average : list V -> V.

  (** fclaw2d_patch_data_t, fclaw2d_patch.h 88-115: the fields that matter here *)
  Record obj := mkObj { o_block : nat; o_patch : nat; o_nset : bool; o_val : option V }.

  (** memory: live patch data objects by address *)
  Record mem := mkMem { m_heap : nat -> option obj; m_next : nat }.
  Definition upd_heap (h : nat -> option obj) (id : nat) (v : option obj) : nat -> option obj :=
    fun id' => if Nat.eqb id' id then v else h id'.

  (** a domain: levels of the local patches by block; the user pointers of the patches and of the
      ghost patches; whether domain_exchange is set; the counters of its domain data *)
  Record dom := mkDom {
    d_levels : list (list Z);
    d_slot : key -> option nat;
    d_ghost : list (option nat);
    d_exch : bool;
    d_set : Z;
    d_del : Z
  }.
  Definition with_slot (d : dom) s := mkDom (d_levels d) s (d_ghost d) (d_exch d) (d_set d) (d_del d).
  Definition with_ghost (d : dom) g := mkDom (d_levels d) (d_slot d) g (d_exch d) (d_set d) (d_del d).
  Definition with_exch (d : dom) e := mkDom (d_levels d) (d_slot d) (d_ghost d) e (d_set d) (d_del d).
  Definition inc_set (d : dom) (n : Z) := mkDom (d_levels d) (d_slot d) (d_ghost d) (d_exch d) (d_set d + n) (d_del d).
  Definition inc_del (d : dom) (n : Z) := mkDom (d_levels d) (d_slot d) (d_ghost d) (d_exch d) (d_set d) (d_del d + n).

  (** fclaw2d_domain_data_new, fclaw2d_domain.c 163-173, for a new domain without user data *)
  Definition domain_new (levels : list (list Z)) : dom := mkDom levels (fun _ => None) [] false 0 0.

  (** all patches of a domain in order of iteration *)
  Definition keys (levels : list (list Z)) : list key :=
    flat_map (fun i => map (pair i) (seq 0 (length (nth i levels [])))) (seq 0 (length levels)).

  (** FCLAW_ALLOC of a patch data object, patch_data_new, fclaw2d_patch.c 62-95 *)
  Definition alloc (m : mem) (b j : nat) : mem * nat :=
    (mkMem (upd_heap (m_heap m) (m_next m) (Some (mkObj b j false None))) (S (m_next m)), m_next m).

  (** change of the patch data of a patch; None: no data or freed data *)
  Definition modify (m : mem) (user : option nat) (f : obj -> option obj) : option mem :=
    match user with
    | None => None
    | Some id =>
        match m_heap m id with
        | None => None
        | Some o => match f o with
                    | None => None
                    | Some o' => Some (mkMem (upd_heap (m_heap m) id (Some o')) (m_next m))
                    end
        end
    end.
  Definition set_val (v : V) (o : obj) : option obj := Some (mkObj (o_block o) (o_patch o) (o_nset o) (Some v)).
  Definition reset_neighbors (o : obj) : option obj := Some (mkObj (o_block o) (o_patch o) false (o_val o)).
  (** fclaw2d_patch_neighbors_set: asserts that the flag is not set *)
  Definition set_neighbors (o : obj) : option obj :=
    if o_nset o then None else Some (mkObj (o_block o) (o_patch o) true (o_val o)).
  (** the numerical data of a patch; None: no patch data, freed or not initialised *)
  Definition read (m : mem) (user : option nat) : option V :=
    match user with
    | None => None
    | Some id => match m_heap m id with Some o => o_val o | None => None end
    end.

  (** fclaw2d_patch_data_delete, fclaw2d_patch.c 117-139, for a patch of the current domain d;
      None: the data was freed before *)
  Definition data_delete (m : mem) (d : dom) (k : key) : option (mem * dom) :=
    match d_slot d k with
    | None => Some (m, d)
    | Some id =>
        match m_heap m id with
        | None => None
        | Some _ => Some (mkMem (upd_heap (m_heap m) id None) (m_next m), inc_del (with_slot d (upd_slot (d_slot d) k None)) 1)
        end
    end.

  (** memory, current (old) domain, new domain *)
  Definition world : Type := mem * dom * dom.

  Fixpoint for_each {A S : Type} (f : S -> A -> option S) (l : list A) (s : S) : option S :=
    match l with
    | [] => Some s
    | a :: r => match f s a with Some s' => for_each f r s' | None => None end
    end.

  (** fclaw2d_patch_build for a patch of the new domain: the object is counted for the current
      domain; init: fclaw2d_patch_initialize when called *)
  Definition build_new (w : world) (k : key) (init : option V) : option world :=
    let '(m, old, new) := w in
    let (m1, id) := alloc m (fst k) (snd k) in
    let old1 := inc_set old 1 in
    let new1 := with_slot new (upd_slot (d_slot new) k (Some id)) in
    match init with
    | None => Some (m1, old1, new1)
    | Some v => match modify m1 (Some id) (set_val v) with Some m2 => Some (m2, old1, new1) | None => None end
    end.

  (** cb_fclaw2d_regrid_repopulate, fclaw2d_regrid.c 114-229; init: the initial data by patch of
      the new domain when domain_init is set *)
  Definition repopulate (init : option (key -> V)) (w : world) (c : acall) : option world :=
    let b := a_block c in
    let oj := a_oj c in
    let nj := a_nj c in
    let after :=
      match a_rel c with
      | SAMESIZE =>
          let '(m, old, new) := w in
          Some (m, inc_del (with_slot old (upd_slot (d_slot old) (b, oj) None)) 1,
                   inc_set (with_slot new (upd_slot (d_slot new) (b, nj) (d_slot old (b, oj)))) 1)
      | HALFSIZE =>
          match for_each (fun w i =>
                  let '(m, old, new) := w in
                  let k := (b, (nj + i)%nat) in
                  build_new (m, inc_set old (-1), inc_set new 1) k (match init with Some f => Some (f k) | None => None end))
                  (seq 0 4) w with
          | None => None
          | Some (m, old, new) =>
              let filled :=
                match init with
                | Some _ => Some m
                | None =>
                    match read m (d_slot old (b, oj)) with
                    | None => None
                    | Some v => for_each (fun m i => modify m (d_slot new (b, (nj + i)%nat)) (set_val (interp v i))) (seq 0 4) m
                    end
                end in
              match filled with
              | None => None
              | Some m' => match data_delete m' old (b, oj) with Some (m'', old') => Some (m'', old', new) | None => None end
              end
          end
      | DOUBLESIZE =>
          let '(m, old, new) := w in
          let built :=
            match init with
            | Some f => build_new (m, inc_set old (-1), inc_set new 1) (b, nj) (Some (f (b, nj)))
            | None =>
                match build_new (m, inc_set old (-1), inc_set new 1) (b, nj) None with
                | None => None
                | Some (m1, old1, new1) =>
                    match for_each (fun l i => match read m1 (d_slot old1 (b, (oj + i)%nat)) with Some v => Some (l ++ [v]) | None => None end) (seq 0 4) [] with
                    | None => None
                    | Some vs => match modify m1 (d_slot new1 (b, nj)) (set_val (average vs)) with Some m2 => Some (m2, old1, new1) | None => None end
                    end
                end
            end in
          match built with
          | None => None
          | Some (m1, old1, new1) =>
              match for_each (fun md i => data_delete (fst md) (snd md) (b, (oj + i)%nat)) (seq 0 4) (m1, old1) with
              | None => None
              | Some (m2, old2) => Some (m2, old2, new1)
              end
          end
      | BOUNDARY => None
      end in
    match after with
    | None => None
    | Some (m, old, new) => match modify m (d_slot new (b, nj)) reset_neighbors with Some m' => Some (m', old, new) | None => None end
    end.

  (** fclaw2d_patch_remote_ghost_delete, fclaw2d_patch.c 650-668: asserts that there is data *)
  Definition ghost_delete (md : mem * Z) (user : option nat) : option (mem * Z) :=
    match user with
    | None => None
    | Some id =>
        match m_heap (fst md) id with
        | None => None
        | Some _ => Some (mkMem (upd_heap (m_heap (fst md)) id None) (m_next (fst md)), snd md + 1)
        end
    end.

  (** fclaw2d_domain_reset, fclaw2d_domain.c 219-260: the memory afterwards, and whether the
      counters agree (otherwise a message is printed) *)
  Definition domain_reset (m : mem) (d : dom) : option (mem * bool) :=
    match for_each (fun md k => data_delete (fst md) (snd md) k) (keys (d_levels d)) (m, d) with
    | None => None
    | Some (m1, d1) =>
        if d_exch d1 then
          match for_each ghost_delete (d_ghost d1) (m1, d_del d1) with
          | None => None
          | Some (m2, del) => Some (m2, d_set d1 =? del)
          end
        else Some (m1, d_set d1 =? d_del d1)
    end.

  (** fclaw2d_exchange_setup, fclaw2d_exchange.c 163-245, build_remote_ghost_patches 79-113;
      blocks: the block numbers of the ghost patches *)
  Definition exchange_setup (m : mem) (d : dom) (blocks : list nat) : mem * dom :=
    fold_left (fun (md : mem * dom) (ib : nat * nat) =>
                 let (m1, id) := alloc (fst md) (snd ib) (fst ib) in
                 (m1, inc_set (with_ghost (snd md) (d_ghost (snd md) ++ [Some id])) 1))
              (combine (seq 0 (length blocks)) blocks) (m, with_exch (with_ghost d []) true).

  (** fclaw2d_regrid_set_neighbor_types, fclaw2d_regrid.c 394-400 *)
  Definition set_neighbor_types (m : mem) (d : dom) : option mem :=
    for_each (fun m k => modify m (d_slot d k) set_neighbors) (keys (d_levels d)) m.

  (** num_patches and num_patches_before of the blocks of a domain *)
  Fixpoint pblocks_from (before : Z) (levels : list (list Z)) : list pblock :=
    match levels with
    | [] => []
    | l :: r => mkPB (Z.of_nat (length l)) before :: pblocks_from (before + Z.of_nat (length l)) r
    end.
  Definition pblocks (levels : list (list Z)) : list pblock := pblocks_from 0 levels.

  (** cb_partition_transfer, fclaw2d_partition.c 55-105 *)
  Definition transfer (nbs : list pblock) (buf : list V) (w : world) (c : pcall) : option world :=
    let b := c_block c in
    let nk := (b, Z.to_nat (c_new c)) in
    match c_old c with
    | Some oj =>
        let '(m, old, new) := w in
        let ok := (b, Z.to_nat oj) in
        Some (m, inc_del (with_slot old (upd_slot (d_slot old) ok None)) 1,
                 inc_set (with_slot new (upd_slot (d_slot new) nk (d_slot old ok))) 1)
    | None =>
        match nth_error nbs b with
        | None => None
        | Some pb =>
            match nth_error buf (Z.to_nat (pb_before pb + c_new c)) with
            | None => None
            | Some v =>
                match build_new w nk (Some v) with
                | None => None
                | Some (m, old, new) => Some (m, inc_set old (-1), inc_set new 1)
                end
            end
        end
    end.

  (** a new partition as p4est reports it: the window of unchanged patches, the levels of the
      patches now local, and the buffers received for them *)
  Record partition := mkPartition { p_uf : Z; p_ul : Z; p_uof : Z; p_levels : list (list Z); p_buf : list V }.

  (** the state of the program: memory, current domain, and the outcome of the counter
      comparisons so far *)
  Record state := mkState { s_mem : mem; s_dom : dom; s_reports : list bool }.

  (** fclaw2d_partition_domain, fclaw2d_partition.c 111-189 *)
  Definition partition_domain (st : state) (p : option partition) : option state :=
    match p with
    | None => Some st
    | Some p =>
        let new := domain_new (p_levels p) in
        let nbs := pblocks (p_levels p) in
        match iterate_partitioned (p_uf p) (p_ul p) (p_uof p) (pblocks (d_levels (s_dom st))) nbs with
        | None => None
        | Some cs =>
            match for_each (transfer nbs (p_buf p)) cs (s_mem st, s_dom st, new) with
            | None => None
            | Some (m, old, new') =>
                match domain_reset m old with
                | None => None
                | Some (m', r) => Some (mkState m' new' (s_reports st ++ [r]))
                end
            end
        end
    end.

  (** the part of fclaw2d_regrid, fclaw2d_regrid.c 262-300, and of the loop of
      fclaw2d_initialize, fclaw2d_initialize.c 177-222, done when there is a new refinement *)
  Definition new_refinement (init : option (key -> V)) (news : list (list Z)) (p : option partition) (ghosts : list nat)
      (st : state) : option state :=
    match iterate_adapted D2 (d_levels (s_dom st)) news with
    | None => None
    | Some cs =>
        match for_each (repopulate init) cs (s_mem st, s_dom st, domain_new news) with
        | None => None
        | Some (m, old, new) =>
            match domain_reset m old with
            | None => None
            | Some (m1, r) =>
                match partition_domain (mkState m1 new (s_reports st ++ [r])) p with
                | None => None
                | Some st2 =>
                    let (m3, d3) := exchange_setup (s_mem st2) (s_dom st2) ghosts in
                    match set_neighbor_types m3 d3 with
                    | None => None
                    | Some m4 => Some (mkState m4 d3 (s_reports st2))
                    end
                end
            end
        end
    end.

  (** what happens in a run *)
  Inductive event :=
  | Refine_initially (init : key -> V) (news : list (list Z)) (p : option partition) (ghosts : list nat)
  | Regrid (news : list (list Z)) (p : option partition) (ghosts : list nat)
  | Update (f : key -> V -> V).        (* any computation on the patches: a time step, ghost filling *)

  Definition do_event (st : state) (e : event) : option state :=
    match e with
    | Refine_initially init news p ghosts => new_refinement (Some init) news p ghosts st
    | Regrid news p ghosts => new_refinement None news p ghosts st
    | Update f =>
        match for_each (fun m k => match read m (d_slot (s_dom st) k) with
                                   | None => None
                                   | Some v => modify m (d_slot (s_dom st) k) (set_val (f k v))
                                   end) (keys (d_levels (s_dom st))) (s_mem st) with
        | None => None
        | Some m => Some (mkState m (s_dom st) (s_reports st))
        end
    end.

  (** cb_initialize, fclaw2d_initialize.c 53-70: build and initialize a patch of the current
      domain *)
  Definition cb_initialize (init : key -> V) (md : mem * dom) (k : key) : option (mem * dom) :=
    let (m1, id) := alloc (fst md) (fst k) (snd k) in
    match modify m1 (Some id) (set_val (init k)) with
    | None => None
    | Some m2 => Some (m2, inc_set (with_slot (snd md) (upd_slot (d_slot (snd md)) k (Some id))) 1)
    end.

  (** patches of a level *)
  Definition keys_of_level (levels : list (list Z)) (l : Z) : list key :=
    filter (fun k => nth (snd k) (nth (fst k) levels []) (-1) =? l) (keys levels).

  (** fclaw2d_initialize, fclaw2d_initialize.c 131-152: the initial domain *)
  Definition initialize (init : key -> V) (levels : list (list Z)) (minlevel : Z) (ghosts : list nat) : option state :=
    match for_each (cb_initialize init) (keys_of_level levels minlevel) (mkMem (fun _ => None) 0, domain_new levels) with
    | None => None
    | Some (m, d) =>
        let (m1, d1) := exchange_setup m d ghosts in
        match set_neighbor_types m1 d1 with
        | None => None
        | Some m2 => Some (mkState m2 d1 [])
        end
    end.

  (** a run up to now, and a whole run with the reset of fclaw2d_finalize, fclaw2d_finalize.c 200:
      the memory and the outcomes of the counter comparisons *)
  Definition run (init : key -> V) levels minlevel ghosts (es : list event) : option state :=
    match initialize init levels minlevel ghosts with
    | None => None
    | Some st => for_each do_event es st
    end.
  Definition whole_run (init : key -> V) levels minlevel ghosts (es : list event) : option (mem * list bool) :=
    match run init levels minlevel ghosts es with
    | None => None
    | Some st => match domain_reset (s_mem st) (s_dom st) with Some (m, r) => Some (m, s_reports st ++ [r]) | None => None end
    end.
End Values.
