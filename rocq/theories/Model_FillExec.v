(** What the ghost filling calls do to the patches of a process, by regions, and the update on all processes.

    A patch buffer is divided into its interior, the ghost cells along each half of each face, and those at each corner.  The
    contents of a region are a term: old contents, the interior of a patch, or the result of a patch routine applied to
    the regions it reads.  Which regions a routine reads and writes is a simplification of the Fortran routines:
    - copy_face, average_face, copy_corner, average_corner read the interior of the neighbor
      (fort_4.6/fclaw2d_clawpatch46_copy.f, fclaw2d_clawpatch46_average.f);
    - interpolate_face and interpolate_corner use five-point stencils around interior cells of the coarse patch
      (fclaw2d_clawpatch46_interpolate.f:29-301), thus the ghost cells along the common face and those of the side at the end
      where the fine patch lies; the coarse cells reach beyond the middle of the face ("hanging corners");
    - the physical boundary routine (clawpack46_bc2_default.f) fills each boundary face in turn, over its full length including
      the corners, from the values inside. *)
From Coq Require Import ZArith List Bool.
From Verif Require Import Model_Face Model_Mesh Spec_Mesh Model_Fill.
Import ListNotations.
Open Scope Z_scope.

Inductive region := RInt | RFace (f : Z) (h : bool) | RCorner (c : Z).
(** routines with the arguments that matter, and the region written *)
Inductive routine :=
| KCopyFace (f : Z) (t : trans) (h : bool) | KAvgFace (f igrid : Z) (t : trans) (h : bool) | KIntFace (f igrid : Z) (t : trans) (target : region)
| KCopyCorner (c : Z) (isb : bool) (bi : Z) (t : trans) | KAvgCorner (c : Z) (isb : bool) (bi : Z) (t : trans) | KIntCorner (c : Z) (isb : bool) (bi : Z) (t : trans)
| KPhysFace (f : Z) (h : bool) | KPhysCorner (f c : Z).
(** [Interior x ti]: the solution of patch x, or its time interpolated solution *)
Inductive val := Old (n : Z) | Interior (x : patch) (ti : bool) | App (k : routine) (args : list val).

Definition patch_eqb (x y : patch) : bool := (fst x =? fst y) && (snd x =? snd y).
Definition region_eqb (a b : region) : bool :=
  match a, b with
  | RInt, RInt => true
  | RFace f h, RFace g i => (f =? g) && eqb h i
  | RCorner c, RCorner d => c =? d
  | _, _ => false
  end.
(** the buffers of a process: own patches and ghosts, each with a time interpolated buffer *)
Definition key := (patch * bool * region)%type.
Definition state := key -> val.
Definition key_eqb (a b : key) : bool :=
  patch_eqb (fst (fst a)) (fst (fst b)) && eqb (snd (fst a)) (snd (fst b)) && region_eqb (snd a) (snd b).
(** one region is overwritten by the result of a routine on other regions; a call is a list of these *)
Record assign := mkA { target : key; with_routine : routine; sources : list key }.
Definition step (s : state) (a : assign) : state :=
  fun k => if key_eqb (target a) k then App (with_routine a) (map s (sources a)) else s k.
Definition run (l : list assign) (s : state) : state := fold_left step l s.

(** ** Geometry of a square: faces 0..3 (left, right, bottom, top), corners 0..3 (x first) *)
Definition b2z (e : bool) : Z := if e then 1 else 0.
(** the face and the corner at end [e] of face f; whether f is the upper face of its direction *)
Definition endface (f : Z) (e : bool) : Z := if f / 2 =? 0 then 2 + b2z e else b2z e.
Definition endcorner (f : Z) (e : bool) : Z := if f / 2 =? 0 then f + 2 * b2z e else b2z e + 2 * (f - 2).
Definition side (f : Z) : bool := Z.odd f.
(** the two faces at corner c, and which half of each of them ends at c *)
Definition cfx (c : Z) : Z := c mod 2.
Definition cfy (c : Z) : Z := 2 + c / 2.
Definition nearx (c : Z) : bool := Z.odd (c / 2).
Definition neary (c : Z) : bool := Z.odd c.

Definition pref_eqb (x y : pref) : bool :=
  match x, y with Loc b n, Loc b' n' => (b =? b') && (n =? n') | Gho i, Gho j => i =? j | _, _ => false end.

Section Exec.
  Variable w : world.
  (** [place x f i]: the half of face f of x at which its i-th finer neighbor lies *)
  Variable place : patch -> Z -> Z -> bool.

  (** the patch behind a pointer of process r *)
  Definition gid (r : Z) (x : pref) : option patch :=
    match x with Loc b n => Some (r, before w r b + n) | Gho i => zget (layer w r) i end.

  Definition diag (x : patch) (c : Z) : option (patch * Z) :=
    match corner_of w x c with Inside y => Some (y, 3 - c) | Outside y rc => Some (y, rc) | _ => None end.

  (** where the fine patch q lies at face f of p: the half, and the encoded face of q *)
  Definition where_fine (p : patch) (f : Z) (q : patch) : option (bool * Z) :=
    match face_of w p f with
    | Finer [y0; y1] rf => if patch_eqb y0 q then Some (place p f 0, rf) else if patch_eqb y1 q then Some (place p f 1, rf) else None
    | _ => None
    end.

  (** one boundary face: clawpack46_bc2_default.f *)
  Definition phys_face (p : patch) (ti : bool) (f : Z) : list assign :=
    let half h := mkA (p, ti, RFace f h) (KPhysFace f h) [(p, ti, RInt)] in
    let corner e := mkA (p, ti, RCorner (endcorner f e)) (KPhysCorner f (endcorner f e)) [(p, ti, RFace (endface f e) (side f))] in
    [half false; half true; corner false; corner true].

  Definition args_ok (t : tdata) (x y : pref) : bool := pref_eqb (t_this t) x && pref_eqb (t_nbr t) y.
  Definition with_patches {A} (r : Z) (x y : pref) (k : patch -> patch -> option A) : option A :=
    bind (gid r x) (fun p => bind (gid r y) (fun q => k p q)).

  (** fclaw2d_clawpatch.cpp:532-804: the coarse patch (or both, if they are the same size) uses the time interpolated buffer when asked to.
      [None] if the arguments contradict each other or the forest; synchronisation calls are not made by the ghost update. *)
  Definition assigns (r : Z) (o : op) : option (list assign) :=
    match o with
    | CopyFace x y f ti t =>
        check (args_ok t x y) (with_patches r x y (fun p q =>
        Some (map (fun h => mkA (p, ti, RFace f h) (KCopyFace f (t_trans t) h) [(q, ti, RInt)]) [false; true])))
    | AvgFace x y idir f igrid ti t =>
        check (args_ok t x y && (idir =? f / 2)) (with_patches r x y (fun p q =>
        bind (where_fine p f q) (fun '(h, _) =>
        Some [mkA (p, ti, RFace f h) (KAvgFace f igrid (t_trans t) h) [(q, false, RInt)]])))
    | IntFace x y idir f igrid ti t =>
        check (args_ok t x y && (idir =? f / 2)) (with_patches r x y (fun p q =>
        bind (where_fine p f q) (fun '(h, rf) =>
        let reads := [(p, ti, RInt); (p, ti, RFace f false); (p, ti, RFace f true); (p, ti, RFace (endface f h) (side f))] in
        let write g := mkA (q, false, g) (KIntFace f igrid (t_trans t) g) reads in
        Some [write (RFace (rf mod 4) false); write (RFace (rf mod 4) true); write (RCorner (endcorner (rf mod 4) (xorb (negb h) (Z.odd (rf / 4)))))])))
    | CopyCorner x y _ _ isb c ti t =>
        check (args_ok t x y && (t_icorner t =? c) && eqb (t_block_corner t) isb) (with_patches r x y (fun p q =>
        Some [mkA (p, ti, RCorner c) (KCopyCorner c isb (t_block_iface t) (t_trans t)) [(q, ti, RInt)]]))
    | AvgCorner x y _ _ isb c ti t =>
        check (args_ok t x y && (t_icorner t =? c) && eqb (t_block_corner t) isb) (with_patches r x y (fun p q =>
        Some [mkA (p, ti, RCorner c) (KAvgCorner c isb (t_block_iface t) (t_trans t)) [(q, false, RInt)]]))
    | IntCorner x y _ _ isb c ti t =>
        check (args_ok t x y && (t_icorner t =? c) && eqb (t_block_corner t) isb) (with_patches r x y (fun p q =>
        bind (diag p c) (fun '(q', c') =>
        check (patch_eqb q q')
        (Some [mkA (q, false, RCorner c') (KIntCorner c isb (t_block_iface t) (t_trans t))
                 [(p, ti, RInt); (p, ti, RFace (cfx c) (nearx c)); (p, ti, RFace (cfy c) (neary c))]]))))
    | Physical x _ _ faces ti =>
        bind (gid r x) (fun p =>
        Some (concat (map (phys_face p ti) (filter (fun f => nth (Z.to_nat f) faces false) (zrange 0 4)))))
    | SyncF2C _ _ _ _ _ _ _ _ _ _ | SyncSame _ _ _ _ _ => None
    end.
  Definition compile (r : Z) (ops : list op) : option (list assign) := bind (mapM (assigns r) ops) (fun l => Some (concat l)).
  Definition exec (r : Z) (ops : list op) (s : state) : option state := bind (compile r ops) (fun l => Some (run l s)).

  (** fclaw2d_exchange.c:303-413: the owner packs every patch on the parallel boundary; messages are exchanged for the levels in use;
      all ghosts of level at least minlevel - 1 are unpacked, those without a message from the old contents of the
      receive buffer *)
  Definition unpack (views : Z -> view) (minlevel maxlevel : Z) (ti : bool) (buffer : patch -> region -> val)
      (sent : Z -> state) (r : Z) (s : state) : state :=
    fun k => let '(x, tj, q) := k in
      if existsb (patch_eqb x) (layer w r) && (minlevel - 1 <=? level_of w x) && eqb tj (ti && (level_of w x =? minlevel - 1)) then
        if ((if ti then minlevel - 1 else minlevel) <=? level_of w x) && (level_of w x <=? maxlevel)
           && v_on_boundary (views (fst x)) (block_of w x) (snd x - before w (fst x) (block_of w x))
        then sent (fst x) k else buffer x q
      else s k.

  (** the whole update on process r, given the states of all processes after the first stage *)
  Definition first_stage (views : Z -> view) (minlevel maxlevel : Z) (ti : bool) (start : Z -> state) (r : Z) : option state :=
    bind (before_send (views r) minlevel maxlevel ti) (fun ops => exec r ops (start r)).
  Definition later_stages (views : Z -> view) (async : bool) (minlevel maxlevel : Z) (ti : bool) (buffer : patch -> region -> val)
      (sent : Z -> state) (r : Z) : option state :=
    bind (while_sending (views r) async minlevel maxlevel ti) (fun ops =>
    bind (exec r ops (sent r)) (fun s =>
    bind (after_receive (views r) async minlevel maxlevel ti) (fun ops' =>
    exec r ops' (unpack views minlevel maxlevel ti buffer sent r s)))).
  (** fclaw2d_ghost_update on all processes, seen by process r; the exchange needs every process.  [start q]: the patches of process q
      before; [buffer]: what is unpacked for ghosts of which nothing is sent. *)
  Definition ghost_update (views : Z -> view) (async : bool) (minlevel maxlevel : Z) (ti : bool) (buffer : patch -> region -> val)
      (start : Z -> state) (r : Z) : option state :=
    let first := first_stage views minlevel maxlevel ti start in
    check (forallb (fun q => match first q with Some _ => true | None => false end) (zrange 0 (procs w)))
          (later_stages views async minlevel maxlevel ti buffer (fun q => match first q with Some s => s | None => start q end) r).
End Exec.
