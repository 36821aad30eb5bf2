(** Specification of neighbor queries, in terms of one global forest shared by all processes.

    A patch is named by its owner and its number among the owner's patches. *)
From Coq Require Import ZArith List Bool Lia.
From Verif Require Import Model_Face Model_Mesh.
Import ListNotations.
Open Scope Z_scope.

Definition patch := (Z * Z)%type.

(** what lies across a face: the domain boundary, a patch of the same size (with its face and
    orientation), finer patches, a coarser patch of which we touch sub-face [sub] *)
Inductive across := Edge | Same (x : patch) (rf : Z) | Finer (xs : list patch) (rf : Z) | Coarser (x : patch) (sub rf : Z).
(** what lies across a corner: nothing, several patches (more than four/eight blocks meet), one patch of
    the same block, one patch of another block with its corner *)
Inductive diagonal := NoCorner | Many (xs : list (patch * Z)) | Inside (x : patch) | Outside (x : patch) (rc : Z).

Record world := mkWorld {
  procs : Z; nblocks : Z;
  count : Z -> Z -> Z;                (* patches of process p in block b *)
  block_of : patch -> Z; level_of : patch -> Z;
  face_of : patch -> Z -> across; corner_of : patch -> Z -> diagonal;
  layer : Z -> list patch }.          (* ghost patches of process p *)

Section World.
  Variable d : dim.
  Variable w : world.

  (** patches of process p in the blocks before b; all patches of p *)
  Definition before (p b : Z) : Z := fold_right Z.add 0 (map (count w p) (zrange 0 b)).
  Definition total (p : Z) : Z := before p (nblocks w).

  Definition is_patch (x : patch) : Prop :=
    0 <= fst x < procs w /\ 0 <= block_of w x < nblocks w /\
    before (fst x) (block_of w x) <= snd x < before (fst x) (block_of w x) + count w (fst x) (block_of w x).

  Definition across_ok (x : patch) (f : Z) : Prop :=
    match face_of w x f with
    | Edge => True
    | Same y rf => is_patch y /\ 0 <= rf < num_orientations d /\ ~ (y = x /\ rf = f)
    | Finer ys rf => Z.of_nat (length ys) = num_half d /\ 0 <= rf < num_orientations d /\
                     (forall y, In y ys -> is_patch y) /\ (forall y z, In y ys -> In z ys -> block_of w y = block_of w z)
    | Coarser y sub rf => is_patch y /\ 0 <= rf < num_orientations d /\ 0 <= sub < num_half d
    end.

  Definition diagonal_ok (x : patch) (c : Z) : Prop :=
    match corner_of w x c with
    | NoCorner => True
    | Many ys => (2 <= length ys)%nat
    | Inside y => is_patch y /\ -1 <= level_of w y - level_of w x <= 1
    | Outside y rc => is_patch y /\ 0 <= rc < num_corners d /\ -1 <= level_of w y - level_of w x <= 1
    end.

  Definition world_ok : Prop :=
    0 <= nblocks w /\ 0 <= procs w /\
    (forall p b, 0 <= p < procs w -> 0 <= b < nblocks w -> 0 <= count w p b) /\
    (forall p, 0 <= p < procs w -> total p < 2 ^ 31) /\
    (** patches are numbered by block *)
    (forall p b k, 0 <= p < procs w -> 0 <= b < nblocks w -> 0 <= k < count w p b -> block_of w (p, before p b + k) = b) /\
    (forall x f, is_patch x -> 0 <= f < num_faces d -> across_ok x f) /\
    (forall x c, is_patch x -> 0 <= c < num_corners d -> diagonal_ok x c) /\
    (** ghost layers are sorted and contain patches of other processes *)
    (forall p x, 0 <= p < procs w -> In x (layer w p) -> is_patch x /\ fst x <> p) /\
    (forall p i j x y, 0 <= p < procs w -> 0 <= i < j -> zget (layer w p) i = Some x -> zget (layer w p) j = Some y ->
       fst x < fst y \/ (fst x = fst y /\ snd x < snd y)).

  (* ------------------------------------------------ what p4est promises *)

  (** the number process p uses for patch x: its own patches first, then its ghosts *)
  Definition number (p : Z) (x : patch) (id : Z) : Prop :=
    (fst x = p /\ id = snd x) \/ (fst x <> p /\ exists i, zget (layer w p) i = Some x /\ id = total p + i).

  (** the encoding of quad_to_quad, quad_to_face, quad_to_half (p4est_mesh.h) *)
  Definition face_entry (p n f : Z) (m : mesh) : Prop :=
    exists qtq qtf,
      zget (quad_to_quad m) (num_faces d * n + f) = Some qtq /\ zget (quad_to_face m) (num_faces d * n + f) = Some qtf /\
      match face_of w (p, n) f with
      | Edge => qtq = n /\ qtf = f
      | Same x rf => number p x qtq /\ qtf = rf
      | Finer xs rf => qtf = rf - num_orientations d /\ exists row, zget (quad_to_half m) qtq = Some row /\ Forall2 (number p) xs row
      | Coarser x sub rf => number p x qtq /\ qtf = num_orientations d * (sub + 1) + rf
      end.

  (** the encoding of quad_to_corner *)
  Definition corner_entry (p n c : Z) (m : mesh) : Prop :=
    exists qid, zget (quad_to_corner m) (num_corners d * n + c) = Some qid /\
      match corner_of w (p, n) c with
      | NoCorner => qid < 0
      | Inside x => number p x qid
      | Outside x rc => exists id o q, qid = total p + Z.of_nat (length (layer w p)) + id /\ 0 <= id < local_num_corners m /\
          zget (corner_offset m) id = Some o /\ zget (corner_offset m) (id + 1) = Some (o + 1) /\
          zget (corner_quad m) o = Some q /\ number p x q /\ zget (corner_corner m) o = Some rc
      | Many xs => exists id o, qid = total p + Z.of_nat (length (layer w p)) + id /\ 0 <= id < local_num_corners m /\
          zget (corner_offset m) id = Some o /\ zget (corner_offset m) (id + 1) = Some (o + Z.of_nat (length xs))
      end.

  (** [dom] is the domain of process p in this world *)
  Definition represents (p : Z) (dom : domain) : Prop :=
    let m := dmesh dom in
    mpirank dom = p /\ mpisize dom = procs w /\ Z.of_nat (length (blocks dom)) = nblocks w /\
    num_ghost_patches dom = Z.of_nat (length (layer w p)) /\ ghost_num_quadrants m = Z.of_nat (length (layer w p)) /\
    local_num_quadrants m = total p /\
    (forall b, 0 <= b < nblocks w -> exists blk, zget (blocks dom) b = Some blk /\
       b_num blk = count w p b /\ b_before blk = before p b /\
       (0 < count w p b -> b_offset blk = before p b /\ first_tree dom <= b <= last_tree dom) /\
       (forall f k, 0 <= f < num_faces d -> 0 <= k < count w p b -> face_of w (p, before p b + k) f = Edge -> zget (b_boundary blk) f = Some true) /\
       (forall k, 0 <= k < count w p b -> zget (b_levels blk) k = Some (level_of w (p, before p b + k))) /\
       (forall k, In k (b_exchange blk) -> 0 <= k < count w p b)) /\
    (forall n, 0 <= n < total p -> zget (quad_to_tree m) n = Some (block_of w (p, n))) /\
    (forall i x, zget (layer w p) i = Some x ->
       zget (ghost_to_proc m) i = Some (fst x) /\ zget (ghosts m) i = Some (mkG (block_of w x) (snd x) (level_of w x))) /\
    (forall n f, 0 <= n < total p -> 0 <= f < num_faces d -> face_entry p n f m) /\
    (forall n c, 0 <= n < total p -> 0 <= c < num_corners d -> corner_entry p n c m) /\
    (exists o : Z -> Z, o 0 = 0 /\ o (procs w) = Z.of_nat (length (layer w p)) /\
       (forall q, 0 <= q < procs w -> o q <= o (q + 1)) /\
       proc_offsets m = map o (zrange 0 (procs w + 1)) /\
       (forall i x, zget (layer w p) i = Some x -> o (fst x) <= i < o (fst x + 1))).

  (** local numbers of the exchange patches in order *)
  Definition mirrors (dom : domain) : list Z :=
    concat (map (fun blk => map (fun k => b_before blk + k) (b_exchange blk)) (blocks dom)).
  Definition exchange_ok (p : Z) (dom : domain) : Prop :=
    num_exchange_patches dom = Z.of_nat (length (mirrors dom)) /\
    (forall r n, 0 <= r < procs w -> In (p, n) (layer w r) -> In n (mirrors dom)).

  (** the exchange delivers, for each ghost, what the owner has sent for that patch *)
  Definition delivered (doms : Z -> domain) (sent : Z -> list (list Z)) (r : Z) (received : Z -> option (list Z)) : Prop :=
    forall i p n, zget (layer w r) i = Some (p, n) ->
      exists j, zget (mirrors (doms p)) j = Some n /\ received i = zget (sent p) j.

  (* ---------------------------------------------------------- answers *)

  Definition none (k : Z) : list Z := repeat (-1) (Z.to_nat k).

  (** process p finds patch x at rank q and number i: a patch number in the block, or a ghost index *)
  Definition finds (p : Z) (x : patch) (q i : Z) : Prop :=
    q = fst x /\ (fst x = p -> i = snd x - before p (block_of w x)) /\ (fst x <> p -> zget (layer w p) i = Some x).

  (** the answer to a face query of process p for its own patch *)
  Definition right_face (p : Z) (x : patch) (f : Z) (a : face_answer) : Prop :=
    let H := num_half d in
    match face_of w x f with
    | Edge => a = mkFA BOUNDARY (p :: none (H - 1)) (block_of w x) ((snd x - before p (block_of w x)) :: none (H - 1)) f
    | Same y rf => exists q i, finds p y q i /\ a = mkFA SAMESIZE (q :: none (H - 1)) (block_of w y) (i :: none (H - 1)) rf
    | Coarser y sub rf => exists q i, finds p y q i /\
        a = mkFA DOUBLESIZE (q :: sub :: none (H - 2)) (block_of w y) (i :: none (H - 1)) rf
    | Finer ys rf => exists l, Forall2 (fun y e => finds p y (fst e) (snd e)) ys l /\
        fa_rel a = HALFSIZE /\ fa_proc a = map fst l /\ fa_patch a = map snd l /\ fa_face a = rf /\
        (forall y, In y ys -> fa_block a = block_of w y)
    end.

  Definition size (y x : patch) : relation :=
    if level_of w y <? level_of w x then DOUBLESIZE else if level_of w x <? level_of w y then HALFSIZE else SAMESIZE.

  Definition right_corner (p : Z) (x : patch) (c : Z) (a : corner_answer) : Prop :=
    match corner_of w x c with
    | NoCorner | Many _ => a = mkCA BOUNDARY None (block_of w x) None (-1)
    | Inside y => exists q i, finds p y q i /\ a = mkCA (size y x) (Some q) (block_of w y) (Some i) (num_corners d - 1 - c)
    | Outside y rc => exists q i, finds p y q i /\ a = mkCA (size y x) (Some q) (block_of w y) (Some i) rc
    end.

  (** the neighbor y of a ghost owned by p, as process r can know it: another process's patch that
      is itself a ghost of r *)
  Definition sees (r p : Z) (y : patch) (q i : Z) : Prop :=
    (fst y <> p /\ q = fst y /\ zget (layer w r) i = Some y) \/
    ((fst y = p \/ ~ In y (layer w r)) /\ q = -1 /\ i = -1).

  Definition right_indirect_face (r : Z) (x : patch) (f : Z) (a : face_answer) : Prop :=
    let H := num_half d in
    match face_of w x f with
    | Edge => a = mkFA BOUNDARY (none H) (block_of w x) (none H) f
    | Same y rf => exists q i, sees r (fst x) y q i /\
        a = if q =? -1 then mkFA BOUNDARY (none H) (block_of w y) (none H) rf
            else mkFA SAMESIZE (q :: none (H - 1)) (block_of w y) (i :: none (H - 1)) rf
    | Coarser y sub rf => exists q i, sees r (fst x) y q i /\
        a = if q =? -1 then mkFA BOUNDARY (none H) (block_of w y) (none H) rf
            else mkFA DOUBLESIZE (q :: sub :: none (H - 2)) (block_of w y) (i :: none (H - 1)) rf
    | Finer ys rf => exists l, Forall2 (fun y e => sees r (fst x) y (fst e) (snd e)) ys l /\
        fa_rel a = (if forallb (fun e => fst e =? -1) l then BOUNDARY else HALFSIZE) /\
        fa_proc a = map fst l /\ fa_patch a = map snd l /\ fa_face a = rf /\
        (forall y, In y ys -> fa_block a = block_of w y)
    end.

  Definition right_indirect_corner (r : Z) (x : patch) (c : Z) (a : corner_answer) : Prop :=
    let answer y rc :=
      exists q i, sees r (fst x) y q i /\
        a = if q =? -1 then mkCA BOUNDARY (Some (-1)) (block_of w y) (Some (-1)) rc
            else mkCA (size y x) (Some q) (block_of w y) (Some i) rc in
    match corner_of w x c with
    | NoCorner | Many _ => a = mkCA BOUNDARY (Some (-1)) (block_of w x) (Some (-1)) c
    | Inside y => answer y (num_corners d - 1 - c)
    | Outside y rc => answer y rc
    end.
End World.
