(** What is expected of the treatment of a patch of water before and after a step, in words of depth, momentum
    and time. *)
From Coq Require Import ZArith Reals List.
Import ListNotations.
Local Open Scope R_scope.

(** a value for each component (1: depth, 2 and 3: momentum) and cell *)
Definition field := Z -> Z -> Z -> R.

(** the cells of a patch with [g] layers of ghost cells *)
Definition in_patch (g mx my i j : Z) : Prop := (1 - g <= i <= mx + g /\ 1 - g <= j <= my + g)%Z.

(** [b] differs from [a] at most in the momentum of the interior cells *)
Definition only_momentum (mx my : Z) (a b : field) : Prop :=
  forall m i j, ~ (in_patch 0 mx my i j /\ (m = 2 \/ m = 3)%Z) -> b m i j = a m i j.

(** the square of the momentum in a cell *)
Definition speed2 (q : field) (i j : Z) : R := q 2%Z i j ^ 2 + q 3%Z i j ^ 2.

(** Manning's coefficient for the bed elevation [b]: the entry of the first break above [b]; the table is a
    list of pairs of break and coefficient *)
Definition manning_at (table : list (R * R)) (b n : R) : Prop :=
  exists below br above, table = below ++ (br, n) :: above /\ b < br /\ forall e, In e below -> fst e <= b.

(** some motion of the bed has begun, some has not ended; a motion is its first and last time *)
Definition moving (l : list (R * R)) (t : R) : Prop :=
  (exists f, In f l /\ fst f <= t) /\ (exists f, In f l /\ t <= snd f).
(** the motion of the bed is over *)
Definition over (l : list (R * R)) (t : R) : Prop := forall f, In f l -> snd f <= t.
