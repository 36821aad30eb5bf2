(** The initial mesh: what is promised. *)
From Coq Require Import ZArith List Bool.
From Verif Require Import Model_Init.
Import ListNotations.
Open Scope Z_scope.

Definition pick {A} (k : Z) (x0 x1 x2 x3 : A) : option A :=
  if k =? 0 then Some x0 else if k =? 1 then Some x1 else if k =? 2 then Some x2 else if k =? 3 then Some x3 else None.
(** the patch at an address *)
Fixpoint leaf_at {D} (t : qt D) (p : addr) : option D :=
  match t, p with
  | Leaf d, [] => Some d
  | Node t0 t1 t2 t3, k :: p => match pick k (fun p => leaf_at t0 p) (fun p => leaf_at t1 p) (fun p => leaf_at t2 p) (fun p => leaf_at t3 p) with
                                | Some f => f p | None => None end
  | _, _ => None
  end.
Definition patch {D} (F : list (qt D)) (b : nat) (a : addr) (d : D) : Prop :=
  exists t, nth_error F b = Some t /\ leaf_at t a = Some d.

(** [a'] is [a] or an ancestor; a proper one *)
Definition above (a' a : addr) : Prop := exists p, a = a' ++ p.
Definition strictly_above (a' a : addr) : Prop := exists k p, a = a' ++ k :: p.
Definition address (a : addr) : Prop := Forall (fun k => 0 <= k <= 3) a.

Section Criterion.
Context {D : Type}.
Variable initialize : nat -> addr -> D.
Variable tagR : nat -> addr -> D -> Z.
Variable tagC : nat -> addr -> D -> D -> D -> D -> Z.
(** the patch, with its initial data, is to be refined *)
Definition wanted (b : nat) (a : addr) : Prop := tagR b a (initialize b a) = 1.
(** the criteria do not contradict each other: what is refined is not coarsened at once *)
Definition consistent (maxlevel : Z) : Prop :=
  forall b a, level a < maxlevel -> wanted b a ->
    tagC b a (initialize b (child a 0)) (initialize b (child a 1)) (initialize b (child a 2)) (initialize b (child a 3)) <> 1.
End Criterion.
