(** Model of GeoClaw's wave limiter:
    /repo/src/solvers/fc2d_geoclaw/fortran_source/geoclaw_limiter_fort.f (fc2d_geoclaw_limiter) and philim.f.

    Simplifications: exact rational numbers; wave(m,mw,i), s(mw,i) and mthlim(mw) are functions of their indices;
    the value of a division by zero is a parameter [nan]. *)
From Coq Require Import ZArith QArith Qminmax Qabs List Bool.
Import ListNotations.
Open Scope Q_scope.

Definition waves := Z -> Z -> Z -> Q.   (* m, mw, i *)
Definition zlist (lo hi : Z) : list Z := map (fun k => (lo + Z.of_nat k)%Z) (seq 0 (Z.to_nat (hi - lo + 1))).

(** the result of a division; by zero it is [nan], about which nothing is assumed *)
Definition fdiv (nan a b : Q) : Q := if Qeq_bool b 0 then nan else a / b.
(** philim.f:3-65; a computed "go to" with an index out of range continues with the next statement (minmod) *)
Definition philim (nan a b : Q) (meth : Z) : Q :=
  if Qeq_bool a 0 then 0                                                       (* line 19 *)
  else
    let r := fdiv nan b a in
    if (meth =? 2)%Z then Qmax (Qmax 0 (Qmin 1 (2 * r))) (Qmin 2 r)            (* line 35, superbee *)
    else if (meth =? 3)%Z then fdiv nan (r + Qabs r) (1 + Qabs r)                     (* line 42, van Leer *)
    else if (meth =? 4)%Z then                                                 (* line 49, monotonized centered *)
      let c := (1 + r) / 2 in Qmax 0 (Qmin (Qmin c 2) (2 * r))
    else if (meth =? 5)%Z then r                                               (* line 57, Beam-Warming *)
    else Qmax 0 (Qmin 1 r).                                                    (* line 28, minmod *)

(** geoclaw_limiter_fort.f:38-44, the loop over m: wnorm2 and dotr *)
Definition sums (meqn : Z) (w : waves) (mw i : Z) : Q * Q :=
  fold_left (fun acc m => (fst acc + w m mw i * w m mw i, snd acc + w m mw i * w m mw (i + 1)%Z)) (zlist 1 meqn) (0, 0).
(** geoclaw_limiter_fort.f:54-56, wave(m,mw,i) = wlimitr * wave(m,mw,i) for m = 1, meqn *)
Definition scale (meqn : Z) (w : waves) (mw i : Z) (l : Q) : waves :=
  fun m mw' i' => if (mw' =? mw)%Z && (i' =? i)%Z && (1 <=? m)%Z && (m <=? meqn)%Z then l * w m mw' i' else w m mw' i'.
(** geoclaw_limiter_fort.f:38-57, one interface; the second component of the state is dotr *)
Definition interface (nan : Q) (meqn : Z) (s : Z -> Z -> Q) (meth mw : Z) (st : waves * Q) (i : Z) : waves * Q :=
  let (w, dotl) := st in
  let (wnorm2, dotr) := sums meqn w mw i in
  if (i =? 0)%Z then (w, dotr)
  else if Qeq_bool wnorm2 0 then (w, dotr)
  else
    let wlimitr := if negb (Qle_bool (s mw i) 0) then philim nan wnorm2 dotl meth else philim nan wnorm2 dotr meth in
    (scale meqn w mw i wlimitr, dotr).
(** geoclaw_limiter_fort.f:34-58 *)
Definition limiter (nan : Q) (meqn mwaves mx : Z) (s : Z -> Z -> Q) (mthlim : Z -> Z) (w : waves) : waves :=
  fold_left (fun w mw =>
    if (mthlim mw =? 0)%Z then w
    else fst (fold_left (interface nan meqn s (mthlim mw) mw) (zlist 0 (mx + 1)) (w, 0))) (zlist 1 mwaves) w.
