(** Vocabulary for one step of GeoClaw's solver. *)
From Coq Require Import ZArith QArith Qabs.
From Verif Require Import Model_GeoLimiter Model_GeoStep Spec_GeoLimiter.   (* types; total *)
Open Scope Q_scope.

(** Sum of f over 1 .. n. *)
Definition sum_to (n : Z) (f : Z -> Q) : Q := total (Z.to_nat n) f.
(** The waves and fluctuations the Riemann solver finds in row j and in column i of the patch. *)
Definition in_row (S : setup) (bcc : Z -> Z) (q aux : grid) (j : Z) : riemann :=
  rpn2 S 1 (row S bcc q j) (fun m i => aux m i j).
Definition in_column (S : setup) (bcc : Z -> Z) (q aux : grid) (i : Z) : riemann :=
  rpn2 S 2 (column S bcc q i) (fun m j => aux m i j).
(** Total fluctuation of component m at interface k. *)
Definition jump (R : riemann) (m k : Z) : Q := r_amdq R m k + r_apdq R m k.
(** The Riemann solver sees no waves. *)
Definition quiet (R : riemann) : Prop :=
  (forall m mw i, r_fwave R m mw i == 0) /\ (forall m i, r_amdq R m i == 0) /\ (forall m i, r_apdq R m i == 0).
(** Transverse solver: nothing comes from nothing. *)
Definition linear_at_zero (S : setup) : Prop := forall ixy imp q1d a1 a2 a3 asdq,
  (forall m i, asdq m i == 0) -> forall m i, fst (rpt2 S ixy imp q1d a1 a2 a3 asdq) m i == 0 /\ snd (rpt2 S ixy imp q1d a1 a2 a3 asdq) m i == 0.
(** The method of second order with limiters, as in the textbook, where the ratio dt/dx is [r].
    Correction of the flux at interface i of a slice of n cells, given the waves R (limited as in C81). *)
Definition sgn (s : Q) : Q := if Qlt_le_dec s 0 then -(1) else 1.
Definition second (S : setup) (R : riemann) (n : Z) (r : Q) (m i : Z) : Q :=
  if (g_method2 S =? 1)%Z then 0
  else (1 # 2) * sum_to (g_mwaves S) (fun mw => sgn (r_s R mw i) * (1 - Qabs (r_s R mw i) * r) *
         limiter (g_nan S) (g_meqn S) (g_mwaves S) n (r_s R) (g_mthlim S) (r_fwave R) m mw i).
(** What is split transversally: fluctuations, together with the corrections if method(3) is 2. *)
Definition leftgoing (S : setup) (R : riemann) (n : Z) (r : Q) : slice := fun m i =>
  r_amdq R m i + (if (g_method3 S =? 2)%Z && (1 <=? i)%Z && (i <=? n + 1)%Z then 2 * second S R n r m i else 0).
Definition rightgoing (S : setup) (R : riemann) (n : Z) (r : Q) : slice := fun m i =>
  r_apdq R m i - (if (g_method3 S =? 2)%Z && (1 <=? i)%Z && (i <=? n + 1)%Z then 2 * second S R n r m i else 0).
(** Parts of the fluctuations around cell j of column c that go left (first) and right (second); likewise around cell i of row c. *)
Definition split_column (S : setup) (bcc : Z -> Z) (q aux : grid) (r : Q) (c : Z) (part : slice * slice -> slice) (m j : Z) : Q :=
  let T := fun imp x => rpt2 S 2 imp (column S bcc q c) (fun m j => aux m (c - 1)%Z j) (fun m j => aux m c j) (fun m j => aux m (c + 1)%Z j) x in
  let R := in_column S bcc q aux c in
  part (T 1%Z (leftgoing S R (g_my S) r)) m (j + 1)%Z + part (T 2%Z (rightgoing S R (g_my S) r)) m j.
Definition split_row (S : setup) (bcc : Z -> Z) (q aux : grid) (r : Q) (c : Z) (part : slice * slice -> slice) (m i : Z) : Q :=
  let T := fun imp x => rpt2 S 1 imp (row S bcc q c) (fun m i => aux m i (c - 1)%Z) (fun m i => aux m i c) (fun m i => aux m i (c + 1)%Z) x in
  let R := in_row S bcc q aux c in
  part (T 1%Z (leftgoing S R (g_mx S) r)) m (i + 1)%Z + part (T 2%Z (rightgoing S R (g_mx S) r)) m i.
(** The transverse solver gives equal results for equal numbers. *)
Definition respects (S : setup) : Prop := forall ixy imp q1d a1 a2 a3 x y, (forall m i, x m i == y m i) ->
  forall m i, fst (rpt2 S ixy imp q1d a1 a2 a3 x) m i == fst (rpt2 S ixy imp q1d a1 a2 a3 y) m i /\
              snd (rpt2 S ixy imp q1d a1 a2 a3 x) m i == snd (rpt2 S ixy imp q1d a1 a2 a3 y) m i.
(** Flux to the left of interface i in row j and below interface j in column i: left-going fluctuation, correction, and
    what crosses the interface of the transverse splitting in the two cells beside it. *)
Definition flux_x (S : setup) (bcc : Z -> Z) (q aux : grid) (rx ry : Q) (m i j : Z) : Q :=
  r_amdq (in_row S bcc q aux j) m i + second S (in_row S bcc q aux j) (g_mx S) rx m i -
  (if (g_method3 S =? 0)%Z then 0 else (1 # 2) * ry * (split_column S bcc q aux ry i fst m j + split_column S bcc q aux ry (i - 1)%Z snd m j)).
Definition flux_y (S : setup) (bcc : Z -> Z) (q aux : grid) (rx ry : Q) (m i j : Z) : Q :=
  r_amdq (in_column S bcc q aux i) m j + second S (in_column S bcc q aux i) (g_my S) ry m j -
  (if (g_method3 S =? 0)%Z then 0 else (1 # 2) * rx * (split_row S bcc q aux rx j fst m i + split_row S bcc q aux rx (j - 1)%Z snd m i)).
