(** Building the initial mesh: src/fclaw2d_initialize.c:129-131 and 160-226, with the callbacks
    src/fclaw2d_regrid.c:45-107 (tagging) and 114-220 (new patches, domain_init = 1).

    A block is a quadtree whose leaves are the patches with their data; an address is the list of the
    children from the block down, so its length is the level.  The criteria and the initial data of a
    patch are parameters: what fclaw2d_patch_tag4refinement, fclaw2d_patch_tag4coarsening and
    fclaw2d_patch_initialize do with the settings of a run, as functions of the place of the patch and of
    the data in it.  Left out: ghost patches, the distribution on processes and the timers. *)
From Coq Require Import ZArith List Bool.
Import ListNotations.
Open Scope Z_scope.

Definition addr := list Z.
Definition level (a : addr) : Z := Z.of_nat (length a).
Definition child (a : addr) (k : Z) : addr := a ++ [k].

Inductive qt (D : Type) := Leaf (d : D) | Node (t0 t1 t2 t3 : qt D).
Arguments Leaf {D}. Arguments Node {D}.
Inductive mark := NoMark | Refine | Coarsen.

Section Init.
Context {D : Type}.
Variable minlevel maxlevel : Z.
Variable initialize : nat -> addr -> D.                      (* block, place *)
Variable tagR : nat -> addr -> D -> Z.                       (* fclaw2d_patch_tag4refinement (.., 1) *)
Variable tagC : nat -> addr -> D -> D -> D -> D -> Z.        (* fclaw2d_patch_tag4coarsening (.., 1); place of the parent *)

(** the domain is created refined uniformly to minlevel; fclaw2d_initialize.c:129-131 *)
Fixpoint uniform (n : nat) (b : nat) (a : addr) : qt D :=
  match n with
  | O => Leaf (initialize b a)
  | S n => Node (uniform n b (child a 0)) (uniform n b (child a 1)) (uniform n b (child a 2)) (uniform n b (child a 3))
  end.

(** fclaw2d_initialize.c:168-169 with fclaw2d_regrid.c:76-107 *)
Fixpoint tag_families (b : nat) (a : addr) (t : qt D) : qt (D * mark) :=
  match t with
  | Leaf d => Leaf (d, NoMark)
  | Node (Leaf d0) (Leaf d1) (Leaf d2) (Leaf d3) =>
      let m := if minlevel <? level (child a 0) then if tagC b a d0 d1 d2 d3 =? 1 then Coarsen else NoMark else NoMark in
      Node (Leaf (d0, m)) (Leaf (d1, m)) (Leaf (d2, m)) (Leaf (d3, m))
  | Node t0 t1 t2 t3 => Node (tag_families b (child a 0) t0) (tag_families b (child a 1) t1)
                             (tag_families b (child a 2) t2) (tag_families b (child a 3) t3)
  end.
(** fclaw2d_initialize.c:171-172 with fclaw2d_regrid.c:45-72; the later mark replaces the earlier *)
Fixpoint tag_patches (b : nat) (a : addr) (t : qt (D * mark)) : qt (D * mark) :=
  match t with
  | Leaf (d, m) => Leaf (d, if level a <? maxlevel then if tagR b a d =? 1 then Refine else m else m)
  | Node t0 t1 t2 t3 => Node (tag_patches b (child a 0) t0) (tag_patches b (child a 1) t1)
                             (tag_patches b (child a 2) t2) (tag_patches b (child a 3) t3)
  end.
Definition tag (b : nat) (t : qt D) : qt (D * mark) := tag_patches b [] (tag_families b [] t).

(** fclaw2d_domain_adapt (p4est) with the new patches of fclaw2d_regrid.c:114-220.  A patch marked for
    refinement is refined.  Another one may be refined too where [balance] says so (2:1 balance,
    smoothing), but not beyond maxlevel.  A family is replaced by its parent only if the four are marked. *)
Inductive adapted (balance : nat -> addr -> Prop) (b : nat) : addr -> qt (D * mark) -> qt D -> Prop :=
| ad_keep : forall a d m, m <> Refine -> adapted balance b a (Leaf (d, m)) (Leaf d)
| ad_split : forall a d m, m = Refine \/ (balance b a /\ level a < maxlevel) ->
    adapted balance b a (Leaf (d, m)) (Node (Leaf (initialize b (child a 0))) (Leaf (initialize b (child a 1)))
                                    (Leaf (initialize b (child a 2))) (Leaf (initialize b (child a 3))))
| ad_merge : forall a d0 d1 d2 d3,
    adapted balance b a (Node (Leaf (d0, Coarsen)) (Leaf (d1, Coarsen)) (Leaf (d2, Coarsen)) (Leaf (d3, Coarsen))) (Leaf (initialize b a))
| ad_node : forall a t0 t1 t2 t3 u0 u1 u2 u3,
    adapted balance b (child a 0) t0 u0 -> adapted balance b (child a 1) t1 u1 -> adapted balance b (child a 2) t2 u2 -> adapted balance b (child a 3) t3 u3 ->
    adapted balance b a (Node t0 t1 t2 t3) (Node u0 u1 u2 u3).

(** the same, doing what is marked and no more: enough where no balance is needed *)
Fixpoint plain (b : nat) (a : addr) (t : qt (D * mark)) : qt D :=
  match t with
  | Leaf (d, Refine) => Node (Leaf (initialize b (child a 0))) (Leaf (initialize b (child a 1)))
                             (Leaf (initialize b (child a 2))) (Leaf (initialize b (child a 3)))
  | Leaf (d, _) => Leaf d
  | Node (Leaf (_, Coarsen)) (Leaf (_, Coarsen)) (Leaf (_, Coarsen)) (Leaf (_, Coarsen)) => Leaf (initialize b a)
  | Node t0 t1 t2 t3 => Node (plain b (child a 0) t0) (plain b (child a 1) t1) (plain b (child a 2) t2) (plain b (child a 3) t3)
  end.

(** one tree per block *)
Definition forest := list (qt D).
(** all blocks tagged, then adapted with [R] *)
Definition adapt_with (R : nat -> addr -> qt (D * mark) -> qt D -> Prop) (F F' : forest) : Prop :=
  length F' = length F /\
  forall b t t', nth_error F b = Some t -> nth_error F' b = Some t' -> R b [] (tag b t) t'.

(** the loop, fclaw2d_initialize.c:163-226, with [n] turns left; domain_adapt gives no new domain if
    nothing changes, and the loop ends *)
Inductive build (R : nat -> addr -> qt (D * mark) -> qt D -> Prop) : nat -> forest -> forest -> Prop :=
| build_end : forall F, build R 0 F F
| build_break : forall n F, adapt_with R F F -> build R (S n) F F
| build_turn : forall n F F' F'', adapt_with R F F' -> F' <> F -> build R n F' F'' -> build R (S n) F F''.

Definition turns : nat := Z.to_nat (maxlevel - minlevel + 1).
(** fclaw2d_initialize, the mesh; [nb] blocks *)
Definition initial_mesh (R : nat -> addr -> qt (D * mark) -> qt D -> Prop) (nb : nat) (F : forest) : Prop :=
  let F0 := map (fun b => uniform (Z.to_nat minlevel) b []) (seq 0 nb) in
  if minlevel <? maxlevel then build R turns F0 F else F = F0.
End Init.
