(** Vocabulary for the cell data of extruded patches, independent of the routines. *)
From Coq Require Import ZArith QArith List.
From Verif Require Import Model_Face Model_Grid Spec_Grid Model_Extruded.   (* types only *)
Import ListNotations.
Open Scope Z_scope.

(** Cell data as a function of (i, j, k, equation); volumes as a function of (i, j, k). *)
Definition data3 : Type := Z -> Z -> Z -> Z -> Q.
Definition volumes : Type := Z -> Z -> Z -> Q.
(** what is in layer k *)
Definition in_layer (k : Z) (f : data3) : data := fun i j mq => f i j k mq.
Definition vol_layer (k : Z) (v : volumes) : areas := fun i j => v i j k.

(** The array holds the data in the interior; nothing is said about ghost cells. *)
Definition holds3 (d : dims3) (q : arr3) (f : data3) : Prop :=
  forall i j k mq, interior (flat d) (i, j, mq) -> 1 <= k <= mz d -> q (i, j, k, mq) = Some (f i j k mq).
(** As above, and in one layer of ghost cells beyond the four side faces; not above or below. *)
Definition holds_sides (d : dims3) (q : arr3) (f : data3) : Prop :=
  forall i j k mq, 1 <= mq <= meqn (flat d) -> 1 <= k <= mz d ->
    (0 <= i <= mx (flat d) + 1 /\ 1 <= j <= my (flat d)) \/ (1 <= i <= mx (flat d) /\ 0 <= j <= my (flat d) + 1) ->
    q (i, j, k, mq) = Some (f i j k mq).
Definition vol_holds (d : dims3) (a : vol_t) (v : volumes) : Prop :=
  forall i j k, 1 <= i <= mx (flat d) -> 1 <= j <= my (flat d) -> 1 <= k <= mz d -> a (i, j, k) = Some (v i j k).
Definition at_cell3 (q : arr3) (c : cell3) (x : Q) : Prop := exists v, q c = Some v /\ (v == x)%Q.

(** column (i, j), layer k, equation mq *)
Definition at4 (p : Z * Z) (k mq : Z) : cell3 := (fst p, snd p, k, mq).

(** Sum over all interior cells. *)
Definition total3 (d : dims3) (f : Z -> Z -> Z -> Q) : Q := qsum 1 (mz d) (fun k => total (flat d) (fun i j => f i j k)).
