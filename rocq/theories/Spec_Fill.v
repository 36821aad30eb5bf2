(** What every ghost region of every patch should contain after an update, and what is assumed of the forest and of the
    data structures of the processes.  The forest is a [Spec_Mesh.world]. *)
From Coq Require Import ZArith List Bool.
From Verif Require Import Model_Face Model_Mesh Spec_Mesh Model_Fill Model_FillExec.
Import ListNotations.
Open Scope Z_scope.

(** the geometry that the world leaves open: which faces lie on the boundary of a block, and at which half of a face the
    i-th finer neighbor lies *)
Record geometry := mkGeo { bface : patch -> Z -> bool; place : patch -> Z -> Z -> bool }.
(** an update: minlevel, maxlevel, and whether patches of level minlevel - 1 take part with their time interpolated values *)
Record request := mkReq { minlevel : Z; maxlevel : Z; interp : bool }.

Section Spec.
  Variable w : world.
  Variable geo : geometry.
  Variable rq : request.

  Definition lowest : Z := if interp rq then minlevel rq - 1 else minlevel rq.
  Definition in_range (x : patch) : Prop := lowest <= level_of w x <= maxlevel rq.
  (** which buffer of x is the one to use *)
  Definition buf (x : patch) : bool := interp rq && (level_of w x =? minlevel rq - 1).

  Definition edge (x : patch) (f : Z) : bool := match face_of w x f with Edge => true | _ => false end.
  (** number of the face across, with orientation *)
  Definition rface (x : patch) (f : Z) : Z := match face_of w x f with Same _ rf | Finer _ rf | Coarser _ _ rf => rf | Edge => f end.
  (** seen from the other side *)
  Definition back (f rf : Z) : Z := f + 4 * (rf / 4).
  Definition face_trans (x : patch) (f rf : Z) : trans := if bface geo x f then Inter f rf else Intra.

  Definition physical_corner (x : patch) (c : Z) : bool := edge x (cfx c) || edge x (cfy c).
  Definition block_corner (x : patch) (c : Z) : bool := bface geo x (cfx c) && bface geo x (cfy c).
  Definition corner_iface (x : patch) (c : Z) : Z :=
    if block_corner x c then -1 else if bface geo x (cfx c) then cfx c else if bface geo x (cfy c) then cfy c else -1.
  Definition corner_trans (x : patch) (c : Z) : trans :=
    let f := corner_iface x c in if f <? 0 then Intra else Inter f (rface x f).

  (** the corner of the fine patch x in the middle of the coarse face across its face f *)
  Definition hanging_corner (x : patch) (f : Z) : option Z :=
    match face_of w x f with
    | Coarser q sub rf => Some (endcorner f (xorb (negb (place geo q (rf mod 4) sub)) (Z.odd (rf / 4))))
    | _ => None
    end.
  Definition hanging_face (x : patch) (c : Z) : option Z :=
    find (fun f => match hanging_corner x f with Some c' => c' =? c | None => false end) (zrange 0 4).

  (** interpolation from the coarse patch across face f of x *)
  Definition face_interp (x : patch) (f : Z) (g : region) : option (routine * list (patch * region)) :=
    match face_of w x f with
    | Coarser q sub rf =>
        let f' := rf mod 4 in
        if level_of w q <? lowest then None else
        Some (KIntFace f' sub (face_trans q f' (back f rf)) g,
              [(q, RInt); (q, RFace f' false); (q, RFace f' true); (q, RFace (endface f' (place geo q f' sub)) (side f'))])
    | _ => None
    end.

  (** how the contents of a ghost region arise, and from which regions; [None]: not specified *)
  Definition rule (x : patch) (g : region) : option (routine * list (patch * region)) :=
    match g with
    | RInt => None
    | RFace f h =>
        if negb ((0 <=? f) && (f <? 4)) then None else
        match face_of w x f with
        | Edge => Some (KPhysFace f h, [(x, RInt)])
        | Same y rf => Some (KCopyFace f (face_trans x f rf) h, [(y, RInt)])
        | Finer ys rf =>
            let k := if eqb (place geo x f 0) h then 0 else 1 in
            match zget ys k with Some y => Some (KAvgFace f k (face_trans x f rf) h, [(y, RInt)]) | None => None end
        | Coarser _ _ _ => face_interp x f g
        end
    | RCorner c =>
        if negb ((0 <=? c) && (c <? 4)) then None else
        (** at the domain boundary: the boundary condition of the y face, or else of the x face, continued over the corner *)
        if edge x (cfy c) then Some (KPhysCorner (cfy c) c, [(x, RFace (cfx c) (nearx c))])
        else if edge x (cfx c) then Some (KPhysCorner (cfx c) c, [(x, RFace (cfy c) (neary c))])
        else match hanging_face x c with
        | Some f => face_interp x f g
        | None =>
            match diag w x c with
            | None => None
            | Some (y, c') =>
                if level_of w y =? level_of w x then Some (KCopyCorner c (block_corner x c) (corner_iface x c) (corner_trans x c), [(y, RInt)])
                else if level_of w x <? level_of w y then Some (KAvgCorner c (block_corner x c) (corner_iface x c) (corner_trans x c), [(y, RInt)])
                else if level_of w y <? lowest then None
                else Some (KIntCorner c' (block_corner y c') (corner_iface y c') (corner_trans y c'),
                           [(y, RInt); (y, RFace (cfx c') (nearx c')); (y, RFace (cfy c') (neary c'))])
            end
        end
    end.

  (** the right contents of a region *)
  Inductive is_value : patch -> region -> val -> Prop :=
  | V_interior : forall x, is_value x RInt (Interior x (buf x))
  | V_ghost : forall x g k l vs, rule x g = Some (k, l) -> Forall2 (fun a v => is_value (fst a) (snd a) v) l vs -> is_value x g (App k vs).

  (** * The forest *)
  Definition face_symmetric (x : patch) (f : Z) : Prop :=
    match face_of w x f with
    | Edge => True
    | Same y rf => face_of w y (rf mod 4) = Same x (back f rf) /\ level_of w y = level_of w x /\ bface geo y (rf mod 4) = bface geo x f
    | Finer ys rf => place geo x f 0 <> place geo x f 1 /\ exists y0 y1, ys = [y0; y1] /\ y0 <> y1 /\
        forall i y, zget ys i = Some y ->
          face_of w y (rf mod 4) = Coarser x i (back f rf) /\ level_of w y = level_of w x + 1 /\ bface geo y (rf mod 4) = bface geo x f
    | Coarser y sub rf => exists ys, face_of w y (rf mod 4) = Finer ys (back f rf) /\ zget ys sub = Some x
    end.
  Definition corner_symmetric (x : patch) (c : Z) : Prop :=
    physical_corner x c = false -> forall y c', diag w x c = Some (y, c') ->
      0 <= c' < 4 /\ physical_corner y c' = false /\ diag w y c' = Some (x, c) /\ block_corner y c' = block_corner x c /\
      (block_corner x c = false -> corner_iface x c < 0 -> corner_iface y c' < 0 /\ block_of w y = block_of w x) /\
      (forall f, corner_iface x c = f -> 0 <= f -> corner_iface y c' = rface x f mod 4 /\ rface y (rface x f mod 4) = back f (rface x f) /\
         exists z, block_of w z = block_of w y /\
           match face_of w x f with Same z' _ | Coarser z' _ _ => z = z' | Finer zs _ => In z zs | Edge => False end).

  Definition not_coarser (x : patch) (f : Z) : Prop := match face_of w x f with Coarser _ _ _ => False | _ => True end.
  (** the patch whose interior determines a half of a face *)
  Definition source (x : patch) (f : Z) (h : bool) (y : patch) : Prop :=
    exists k, rule x (RFace f h) = Some (k, [(y, RInt)]).

  (** 2:1 balance across corners: the faces that interpolation reads are not themselves interpolated *)
  Definition balanced : Prop :=
    (forall x f q sub rf, is_patch w x -> 0 <= f < 4 -> face_of w x f = Coarser q sub rf ->
       not_coarser q (endface (rf mod 4) (place geo q (rf mod 4) sub))) /\
    (forall x c y c', is_patch w x -> 0 <= c < 4 -> physical_corner x c = false -> diag w x c = Some (y, c') -> level_of w y < level_of w x ->
       not_coarser y (cfx c') /\ not_coarser y (cfy c')).
  (** no patch lies diagonally across a hanging corner, and only one face ends there in the middle of a coarser face *)
  Definition hanging_ok : Prop :=
    forall x f c, is_patch w x -> 0 <= f < 4 -> hanging_corner x f = Some c ->
      physical_corner x c = false /\ diag w x c = None /\ forall g, 0 <= g < 4 -> hanging_corner x g = Some c -> g = f.

  Definition forest_ok : Prop :=
    world_ok D2 w /\
    (forall x f, is_patch w x -> 0 <= f < 4 -> face_symmetric x f) /\
    (forall x c, is_patch w x -> 0 <= c < 4 -> corner_symmetric x c) /\
    balanced /\ hanging_ok.

  (** * The processes *)
  Definition knows (r : Z) (y : patch) : Prop := fst y = r \/ In y (layer w r).
  (** the ghost layer of r contains every patch that touches one of its patches *)
  Definition ghosts_ok (r : Z) : Prop :=
    (forall x f y, is_patch w x -> fst x = r -> 0 <= f < 4 -> match face_of w x f with Edge => False | Same z _ | Coarser z _ _ => y = z | Finer zs _ => In y zs end ->
       knows r y) /\
    (forall x c y c', is_patch w x -> fst x = r -> 0 <= c < 4 -> diag w x c = Some (y, c') -> knows r y) /\
    (** the patches next to a coarser neighbor, where they touch our patch *)
    (forall x f q sub rf, is_patch w x -> fst x = r -> 0 <= f < 4 -> face_of w x f = Coarser q sub rf ->
       let f' := rf mod 4 in
       forall y, source q f' false y \/ source q f' true y \/ source q (endface f' (place geo q f' sub)) (side f') y -> knows r y) /\
    (forall x c y c', is_patch w x -> fst x = r -> 0 <= c < 4 -> physical_corner x c = false -> diag w x c = Some (y, c') -> level_of w y < level_of w x ->
       forall z, source y (cfx c') (nearx c') z \/ source y (cfy c') (neary c') z -> knows r z).

  (** a patch is flagged if a neighbor belongs to another process, or if it is in a ghost layer *)
  Definition flags_ok (r : Z) (v : view) : Prop :=
    forall b n, 0 <= b < nblocks w -> 0 <= n < count w r b -> let x := (r, before w r b + n) in
      (exists s, 0 <= s < procs w /\ In x (layer w s)) \/
      (exists f y, 0 <= f < 4 /\ fst y <> r /\ match face_of w x f with Edge => False | Same z _ | Coarser z _ _ => y = z | Finer zs _ => In y zs end) \/
      (exists c y c', 0 <= c < 4 /\ fst y <> r /\ diag w x c = Some (y, c')) ->
      v_on_boundary v b n = true.

  Definition view_ok (r : Z) (v : view) : Prop :=
    represents D2 w r (v_dom v) /\ v_pillow v = false /\
    (forall l b n, In (b, n) (v_level v l) <-> 0 <= b < nblocks w /\ 0 <= n < count w r b /\ level_of w (r, before w r b + n) = l) /\
    (forall x p f, gid w r x = Some p -> v_block_face v x f = bface geo p f) /\
    (forall i x f, zget (layer w r) i = Some x -> 0 <= f < 4 ->
       exists a, indirect_face_neighbors D2 (v_dom v) (v_indirect v) i f = Some a /\ right_indirect_face D2 w r x f a) /\
    flags_ok r v.

  (** all processes agree on the request; no patch is finer than maxlevel *)
  Definition machine_ok (views : Z -> view) : Prop :=
    (forall x, is_patch w x -> level_of w x <= maxlevel rq) /\
    (forall r, 0 <= r < procs w -> view_ok r (views r) /\ ghosts_ok r).

  (** before the update, the processes have the solution on their own patches *)
  Definition has_solution (r : Z) (s : state) : Prop :=
    forall x, is_patch w x -> fst x = r -> in_range x -> s (x, buf x, RInt) = Interior x (buf x).
End Spec.

(** * Contents that come from the solution on patches, not from anything stored in ghost cells before the update *)
Inductive current (w : world) (rq : request) : val -> Prop :=
| Cur_interior : forall x, current w rq (Interior x (buf w rq x))
| Cur_result : forall k l, Forall (current w rq) l -> current w rq (App k l).

(** * Block numbers handed to corner routines (coarse or this patch first) *)
Definition corner_call (o : op) : option (pref * Z * pref * Z) :=
  match o with
  | CopyCorner x y bx by' _ _ _ _ | AvgCorner x y bx by' _ _ _ _ | IntCorner x y bx by' _ _ _ _ => Some (x, bx, y, by')
  | _ => None
  end.
Definition in_block (w : world) (r : Z) (x : pref) (b : Z) : Prop := exists p, gid w r x = Some p /\ block_of w p = b.
