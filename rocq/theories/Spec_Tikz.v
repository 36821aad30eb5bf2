(** The picture of the mesh: what is promised. *)
From Coq Require Import ZArith QArith Ascii List Bool Permutation.
From Coq Require Import Floats.SpecFloat.
From Verif Require Import Base_Float Model_Face Model_Domain Model_Brick Spec_Brick Spec_Geom Model_Tikz.
Import ListNotations.
Open Scope Z_scope.

(** ** Rectangles *)
(** quadrants lie on the lattice of their level, and are not finer than maxlevel *)
Definition fits (lmax : Z) (q : quad) : Prop := quad_ok q /\ q_level q <= lmax /\ (side q | q_x q) /\ (side q | q_y q).
(** the unit of the picture: a cell of a patch of one cell at the finest level *)
Definition unit_len (lmax : Z) : Z := 2 ^ (30 - lmax).
(** where the quadrant lies, the block being at (i, j) *)
Definition drawn_at (lmax i j : Z) (q : quad) (r : rect) : Prop :=
  r_xlow r * unit_len lmax = i * root + q_x q /\ r_xup r * unit_len lmax = i * root + q_x q + side q /\
  r_ylow r * unit_len lmax = j * root + q_y q /\ r_yup r * unit_len lmax = j * root + q_y q + side q.
Definition covers (r : rect) (X Y : Z) : Prop := r_xlow r <= X < r_xup r /\ r_ylow r <= Y < r_yup r.
(** no int overflows; pow_int (2, 16) already does, C38 *)
Definition small (o : topts) : Prop :=
  1 <= t_mi o /\ 1 <= t_mj o /\ 0 <= t_lmax o <= 15 /\ t_mi o * 2 ^ t_lmax o < 2 ^ 31 /\ t_mj o * 2 ^ t_lmax o < 2 ^ 31.

(** IEEE double arithmetic, round to nearest, from the standard library *)
Definition to_q (f : spec_float) : Q :=
  match f with
  | S754_finite s m e => ((if s then -1 else 1) * inject_Z (Zpos m) * Qpower 2 e)%Q
  | _ => 0%Q
  end.
Definition nearest64 (x : Q) : Q :=
  match Qnum x with
  | Z0 => 0%Q
  | Zpos m => to_q (SFdiv 53 1024 (S754_finite false m 0) (S754_finite false (Qden x) 0))
  | Zneg m => to_q (SFdiv 53 1024 (S754_finite true m 0) (S754_finite false (Qden x) 0))
  end.

(** ** The file *)
(** [body] consists of pieces written by the processes; those of process p, put together, are its text *)
Definition made_of (size : nat) (text : nat -> bytes) (body : bytes) : Prop :=
  exists pieces : list (nat * bytes), body = concat (map snd pieces) /\ Forall (fun x => (fst x < size)%nat) pieces /\
    forall p, (p < size)%nat -> concat (map snd (filter (fun x => Nat.eqb (fst x) p) pieces)) = text p.
(** passing on loses nothing *)
Definition sound (spill : bytes -> bytes * bytes) : Prop := forall b, fst (spill b) ++ snd (spill b) = b.
Definition finished (w : tworld) : Prop := tw_end w = true.
(** exact arithmetic; or floating point, when the numbers of blocks are powers of two *)
Definition accurate (rnd : Q -> Q) (mi mj : Z) : Prop :=
  rnd = exact \/ (rounding rnd /\ monotone rnd /\ exists a b, 0 <= a <= 22 /\ 0 <= b <= 22 /\ mi = 2 ^ a /\ mj = 2 ^ b).
