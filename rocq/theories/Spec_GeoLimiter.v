(** Vocabulary for limiters, independent of the routine. *)
From Coq Require Import ZArith QArith List.
From Verif Require Import Model_GeoLimiter.   (* type of waves *)
Open Scope Q_scope.

(** Sum of f m over m = 1 .. n. *)
Fixpoint total (n : nat) (f : Z -> Q) : Q := match n with O => 0 | S k => total k f + f (Z.of_nat n) end.
(** Inner product of the waves of family mw at interfaces i and k. *)
Definition inner (meqn : Z) (w : waves) (mw i k : Z) : Q := total (Z.to_nat meqn) (fun m => w m mw i * w m mw k).
(** The interface the wave comes from. *)
Definition upwind (s : Q) (i : Z) : Z := if Qlt_le_dec 0 s then (i - 1)%Z else (i + 1)%Z.
(** The textbook limiter functions of the ratio r: minmod (1, and every number that is not listed), superbee (2),
    van Leer (3), monotonized centered (4), Beam-Warming (5). *)
Definition phi (meth : Z) (r : Q) : Q :=
  if (meth =? 5)%Z then r
  else if Qlt_le_dec 0 r then
    if (meth =? 2)%Z then
      if Qlt_le_dec r (1 # 2) then 2 * r else if Qlt_le_dec r 1 then 1 else if Qlt_le_dec r 2 then r else 2
    else if (meth =? 3)%Z then 2 * r / (1 + r)
    else if (meth =? 4)%Z then
      if Qlt_le_dec r (1 # 3) then 2 * r else if Qlt_le_dec r 3 then (1 + r) / 2 else 2
    else if Qlt_le_dec r 1 then r else 1
  else 0.
