(** Model of GeoClaw's transverse Riemann solver: /repo/src/solvers/fc2d_geoclaw/riemann_source/rpt2_geoclaw.f, in Cartesian
    coordinates (coordinate_system is not 2).

    Simplifications: rational numbers; the square root is an arbitrary function on them (no rational function is the exact one;
    what is proved holds for every rounding of it); arrays are functions of their indices, and results are given for all i
    (the code: 2-mbc .. mx+mbc) and are 0 for components other than 1, 2, 3. *)
From Coq Require Import ZArith QArith Qminmax Bool.
From Verif Require Import Model_GeoStep.   (* slice *)
Open Scope Q_scope.

Definition lt (x y : Q) : bool := negb (Qle_bool y x).
(** rpt2_geoclaw.f:57-73, depth and velocities of one side *)
Definition state (tol h hu hv : Q) : Q * Q * Q := if lt h tol then (0, 0, 0) else (h, hu / h, hv / h).

Section Rpt2.
  Variable root : Q -> Q.
  Variables grav tol : Q.
  (** lines 38-44 *)
  Definition mu (ixy : Z) : Z := if (ixy =? 1)%Z then 2%Z else 3%Z.
  Definition mv (ixy : Z) : Z := if (ixy =? 1)%Z then 3%Z else 2%Z.
  (** lines 121-141: s1, s2, s3 from the states of both sides *)
  Definition speeds (l r : Q * Q * Q) : Q * Q * Q :=
    let '(hl, ul, vl) := l in let '(hr, ur, vr) := r in
    let vhat := vr * root hr / (root hr + root hl) + vl * root hl / (root hr + root hl) in
    let hhat := (hr + hl) / 2 in
    let s1 := Qmin (vhat - root (grav * hhat)) (vl - root (grav * hl)) in
    let s3 := Qmax (vhat + root (grav * hhat)) (vr + root (grav * hr)) in
    (s1, (1 # 2) * (s1 + s3), s3).
  (** lines 143-163: the part of one family in component k (1, 2 for mu, 3 for mv) *)
  Definition family (s : Q * Q * Q) (d1 d2 d3 : Q) (mw k : Z) : Q * Q :=   (* speed, beta * r *)
    let '(s1, s2, s3) := s in
    if (mw =? 1)%Z then
      (s1, (s3 * d1 / (s3 - s1) - d3 / (s3 - s1)) * (if (k =? 1)%Z then 1 else if (k =? 2)%Z then s2 else s1))
    else if (mw =? 2)%Z then (s2, (- s2 * d1 + d2) * (if (k =? 2)%Z then 1 else 0))
    else (s3, (d3 / (s3 - s1) - s1 * d1 / (s3 - s1)) * (if (k =? 1)%Z then 1 else if (k =? 2)%Z then s2 else s3)).
  (** lines 168-184: bmasdq and bpasdq *)
  Definition going (neg : bool) (s : Q * Q * Q) (d1 d2 d3 : Q) (k : Z) : Q :=
    let part := fun mw => let '(v, b) := family s d1 d2 d3 mw k in
      if neg then (if lt v 0 then v * b else 0) else (if lt v 0 then 0 else if lt 0 v then v * b else 0) in
    0 + part 1%Z + part 2%Z + part 3%Z.
  (** lines 47-186 *)
  Definition rpt2_at (neg : bool) (ixy imp : Z) (q aux1 aux2 aux3 asdq : slice) (k i : Z) : Q :=
    let l := state tol (q 1%Z (i - 1)%Z) (q (mu ixy) (i - 1)%Z) (q (mv ixy) (i - 1)%Z) in
    let r := state tol (q 1%Z i) (q (mu ixy) i) (q (mv ixy) i) in
    if Qle_bool (fst (fst l)) tol && Qle_bool (fst (fst r)) tol then 0                          (* line 85 *)
    else
      let c := if (imp =? 1)%Z then (i - 1)%Z else i in                                         (* lines 88-102 *)
      if lt (q 1%Z c + aux2 1%Z c) (Qmax (aux1 1%Z c) (aux3 1%Z c)) then 0                      (* line 103 *)
      else going neg (speeds l r) (asdq 1%Z i) (asdq (mu ixy) i) (asdq (mv ixy) i) k.
  Definition geo_rpt2 (ixy imp : Z) (q aux1 aux2 aux3 asdq : slice) : slice * slice :=
    let comp := fun m => if (m =? 1)%Z then 1%Z else if (m =? mu ixy)%Z then 2%Z else 3%Z in
    let out := fun neg m i => if inr 1 3 m then rpt2_at neg ixy imp q aux1 aux2 aux3 asdq (comp m) i else 0 in
    (out true, out false).
End Rpt2.
