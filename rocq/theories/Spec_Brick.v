(** What a brick of mi x mj blocks is. *)
From Coq Require Import ZArith QArith List.
Import ListNotations.
Open Scope Z_scope.

(** the vertices delivered by p4est for a brick: every position (i,j) belongs to exactly one block *)
Definition brick_vertices (mi mj : Z) (vertices : list (Q * Q)) : Prop :=
  1 <= mi < 2 ^ 31 /\ 1 <= mj < 2 ^ 31 /\
  exists pos : list (Z * Z), vertices = map (fun p => (inject_Z (fst p), inject_Z (snd p))) pos /\
    NoDup pos /\ forall i j, In (i, j) pos <-> (0 <= i < mi /\ 0 <= j < mj).

Definition unit (x : Q) : Prop := (0 <= x <= 1)%Q.
Definition inner (x : Q) : Prop := (0 < x < 1)%Q.
Definition peq (a b : Q * Q) : Prop := (fst a == fst b /\ snd a == snd b)%Q.
(** block [b] lies at position (i,j) *)
Definition position (vertices : list (Q * Q)) (b : Z) (i j : Z) : Prop :=
  0 <= b /\ nth_error vertices (Z.to_nat b) = Some (inject_Z i, inject_Z j).
(** IEEE rounding preserves the order *)
Definition monotone (rnd : Q -> Q) : Prop := forall x y, (x <= y)%Q -> (rnd x <= rnd y)%Q.
