(** Vocabulary for values recorded at a gauge, independent of the routine. *)
From Coq Require Import ZArith QArith Qabs.
Open Scope Q_scope.

(** The cell with index i (from 1) of a grid contains x. *)
Definition contains (lower d : Q) (i : Z) (x : Q) : Prop := lower + inject_Z (i - 1) * d <= x /\ x < lower + inject_Z i * d.
Definition centre (lower d : Q) (i : Z) : Q := lower + (inject_Z i - (1 # 2)) * d.
(** x is recorded as v: exactly, or as 0 if x is too small to be printed (10^-99). *)
Definition recorded (x v : Q) : Prop := (Qabs x < 1 # (10 ^ 99) /\ v == 0) \/ (1 # (10 ^ 99) <= Qabs x /\ v == x).
(** The cell, its neighbours to the right and above, and the one beyond the corner. *)
Definition all4 (i j : Z) (P : Z -> Z -> Prop) : Prop := P i j /\ P (i + 1)%Z j /\ P i (j + 1)%Z /\ P (i + 1)%Z (j + 1)%Z.
