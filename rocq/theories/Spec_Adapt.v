(** Vocabulary for marks and smooth refinement. *)
From Coq Require Import ZArith List Lia Bool.
From Verif Require Import Model_Adapt.
Import ListNotations.
Local Open Scope Z_scope.

(** A freshly built or cleaned domain: no requests. *)
Definition unmarked (d : proc) : Prop :=
  forall b p, target (pat d b p) = level (pat d b p) /\ flag d b p = NoMark.

(** A program that marks patches. *)
Inductive mark_op := MRefine (b p : nat) | MCoarsen (b p : nat).
Fixpoint mark_run (q : Z) (d : proc) (l : list mark_op) : option proc :=
  match l with
  | [] => Some d
  | MRefine b p :: tl => match mark_refine q d b p with Some d => mark_run q d tl | None => None end
  | MCoarsen b p :: tl => match mark_coarsen d b p with Some d => mark_run q d tl | None => None end
  end.

(** The last mark a program puts on a patch. *)
Fixpoint last_mark (l : list mark_op) (b p : nat) (acc : mark) : mark :=
  match l with
  | [] => acc
  | MRefine b' p' :: tl => last_mark tl b p (if Nat.eqb b b' && Nat.eqb p p' then Refine else acc)
  | MCoarsen b' p' :: tl => last_mark tl b p (if Nat.eqb b b' && Nat.eqb p p' then Coarsen else acc)
  end.

(** The level requested by a mark on a patch of level [l]. *)
Definition requested (q l : Z) (m : mark) : Z :=
  match m with NoMark => l | Refine => if l <? q then l + 1 else q
             | Coarsen => if 0 <? l then l - 1 else 0 end.

(** Four patches that are siblings: same level, all present. *)
Definition family (d : proc) (bp : nat * nat) : Prop :=
  let '(b, p) := bp in
  (b < num_blocks d)%nat /\ (p + 3 < num_patches d b)%nat /\
  forall k, (k <= 3)%nat -> level (pat d b (p + k)) = level (pat d b p).

(** ------------------------------------------------------------- whole forest *)

(** A patch of the forest: owner rank, block, patch number. *)
Definition gid : Type := (Z * nat * nat)%type.

(** All processes, the neighbor queries of each, and who owns each ghost. *)
Record forest := mkForest {
  procs : Z -> proc;
  fnbr : Z -> nat -> nat -> nat -> face_nbr;
  cnbr : Z -> nat -> nat -> nat -> option ref;
  owner : Z -> nat -> gid }.

Definition is_patch (F : forest) (g : gid) : Prop :=
  let '(r, b, p) := g in exists_patch (procs F r) b p = true.
Definition glevel (F : forest) (g : gid) : Z := let '(r, b, p) := g in level (pat (procs F r) b p).
Definition gtarget (F : forest) (g : gid) : Z := let '(r, b, p) := g in target (pat (procs F r) b p).

(** The forest patch that a neighbor reference on process [r] denotes. *)
Definition resolve (F : forest) (r : Z) (x : ref) : gid :=
  let '(np, b, p) := x in if np =? r then (r, b, p) else owner F r p.

Definition refs_of_face (n : face_nbr) : list ref :=
  match n with Boundary => [] | Samesize r | Doublesize r => [r] | Halfsize l => l end.

(** [x] is returned by one of the face or corner neighbor queries of patch [b, p]. *)
Definition near (faces corners : nat) (F : forest) (r : Z) (b p : nat) (x : ref) : Prop :=
  (exists f, (f < faces)%nat /\ In x (refs_of_face (fnbr F r b p f))) \/
  (exists c, (c < corners)%nat /\ cnbr F r b p c = Some x).

(** [h] is a face or corner neighbor of [g]. *)
Definition touches (faces corners : nat) (F : forest) (g h : gid) : Prop :=
  let '(r, b, p) := g in exists x, near faces corners F r b p x /\ resolve F r x = h.

(** What the mesh guarantees: ghosts mirror patches of their owners, references
    point to existing patches, the reported relation is the right one, and levels of
    corner neighbors differ by at most one (2:1 balance). *)
Definition mesh_ok (faces corners : nat) (F : forest) : Prop :=
  (forall r, mpirank (procs F r) = r) /\
  (forall r g, (g < num_ghost (procs F r))%nat ->
     is_patch F (owner F r g) /\
     level (ghost (procs F r) g) = glevel F (owner F r g)) /\
  (forall r b p x, exists_patch (procs F r) b p = true -> near faces corners F r b p x ->
     let '(np, nb, k) := x in
     (nb < num_blocks (procs F r))%nat /\
     (np = r -> (k < num_patches (procs F r) nb)%nat) /\
     (np <> r -> (k < num_ghost (procs F r))%nat /\ ghost_block (procs F r) k = nb)) /\
  (forall r b p f, exists_patch (procs F r) b p = true -> (f < faces)%nat ->
     match fnbr F r b p f with
     | Boundary => True
     | Samesize x => glevel F (resolve F r x) = level (pat (procs F r) b p)
     | Doublesize x => glevel F (resolve F r x) = level (pat (procs F r) b p) - 1
     | Halfsize l => forall x, In x l -> glevel F (resolve F r x) = level (pat (procs F r) b p) + 1
     end) /\
  (forall r b p c x, exists_patch (procs F r) b p = true -> (c < corners)%nat ->
     cnbr F r b p c = Some x -> glevel F (resolve F r x) <= level (pat (procs F r) b p) + 1).

(** Requests are at most one level away (what marking guarantees, C10). *)
Definition requests_ok (F : forest) : Prop :=
  forall g, is_patch F g -> glevel F g - 1 <= gtarget F g <= glevel F g + 1.

(** The exchange delivers the target level of every ghost's owner. *)
Definition delivered (F : forest) (r : Z) : nat -> Z := fun g => gtarget F (owner F r g).

(** A patch wants to be finer: itself, or through a neighbor. *)
Definition wants_finer (faces corners : nat) (F : forest) (sl : Z) (g : gid) : Prop :=
  gtarget F g > glevel F g \/
  exists h, touches faces corners F g h /\ glevel F h >= sl /\ gtarget F h > glevel F g.

(** A patch may be coarser: it asks for it, and no neighbor holds it. *)
Definition may_coarsen (faces corners : nat) (F : forest) (sl : Z) (g : gid) : Prop :=
  gtarget F g < glevel F g /\
  forall h, touches faces corners F g h -> glevel F h >= sl -> gtarget F h < glevel F g.

(** -------------------------------------------------------- what adaptation does *)

Inductive fate := Kept | Refined | Coarsened.

(** External p4est_wrap_adapt: a patch flagged for refinement and below the maximum
    level is refined; only complete families flagged for coarsening are coarsened (2:1
    balance may refine more and coarsen less). *)
Definition wrap_adapt_contract (q : Z) (F : forest) (flags : gid -> mark)
  (sibling : gid -> gid -> Prop) (out : gid -> fate) : Prop :=
  (forall g, is_patch F g -> flags g = Refine -> glevel F g < q -> out g = Refined) /\
  (forall g, is_patch F g -> out g = Coarsened ->
     forall h, sibling g h -> is_patch F h /\ flags h = Coarsen).

(** An order in which one process may visit its patches. *)
Definition visits_all (d : proc) (order : list (nat * nat)) : Prop :=
  forall b p, In (b, p) order <-> exists_patch d b p = true.

(** What all processes do, each in its own order: the flags they set. *)
Definition all_smoothed (faces corners : nat) (F : forest)
  (order : Z -> list (nat * nat)) (flags : gid -> mark) : Prop :=
  forall r b p, exists_patch (procs F r) b p = true ->
    exists d', smooth_marks_in faces corners (fnbr F r) (cnbr F r) (order r) (procs F r)
                 (delivered F r) = Some d' /\ flags (r, b, p) = flag d' b p.
