(** Vocabulary for ghost cells filled by interpolation and for corner regions, independent of the routines. *)
From Coq Require Import ZArith QArith Qminmax List Bool.
From Verif Require Import Base_Float Model_Face Spec_Face Model_Grid Spec_Grid Model_Corner.   (* types only *)
Import ListNotations.
Open Scope Z_scope.

(** The monotonized central difference of a backward and a forward difference: zero at an extremum, otherwise the
    smallest in size of twice the one, twice the other and their mean. *)
Definition mc (a b : Q) : Q :=
  if Qle_bool (a * b) 0 then 0%Q
  else if Qle_bool 0 a then Qmin (Qmin (2 * a) (2 * b)) ((a + b) / 2)
  else Qmax (Qmax (2 * a) (2 * b)) ((a + b) / 2).

(** The limited linear reconstruction in one coarse cell, evaluated at the center of one of its quarters.  [v n t] are
    the coarse values by distance n from the face (1: next to it, 0: first cell beyond) and place t along it; the
    quarter is the half [a] away from the face (0 near, 1 far) and the half [b] along it (0 lower, 1 upper). *)
Definition recon (v : Z -> Z -> Q) (n t a b : Z) : Q :=
  (v n t
   + (if (a =? 0)%Z then 1 # 4 else - (1 # 4)) * mc (v n t - v (n + 1)%Z t) (v (n - 1)%Z t - v n t)
   + (if (b =? 0)%Z then - (1 # 4) else 1 # 4) * mc (v n t - v n (t - 1)%Z) (v n (t + 1)%Z - v n t))%Q.

(** values of a patch behind its face [f] *)
Definition behind (f m : Z) (F : data) (mq n t : Z) : Q :=
  let p := inner_cell f m n t in F (fst p) (snd p) mq.

(** ** Corner regions *)

(** Position along a face: step [b] (1, 2, ...) past the end of the face, or inside counted from the end; [u] selects
    the upper end. *)
Definition past (u : bool) (m b : Z) : Z := if u then m + b else 1 - b.
Definition from_end (u : bool) (m b : Z) : Z := if u then m + 1 - b else b.

(** The corner at the upper or lower end of a face; corners are numbered with x fastest. *)
Definition corner_on (f : Z) (u : bool) : Z :=
  match f with 0 => if u then 2 else 0 | 1 => if u then 3 else 1 | 2 => if u then 1 else 0 | _ => if u then 3 else 2 end.

(** Patch [op] touches patch [ip] only in the corner at the end [u] of face [f] of [ip]; it meets that corner with
    the end [negb u] (in the direction of [ip]) of its own face [nf].  [c] is the data the library supplies.  Three
    cases: the corner lies on a boundary between two blocks but is no corner of a block; it lies inside a block; it is
    a corner of four equally oriented blocks. *)
Definition touches_corner (f nf : Z) (o u : bool) (ip op : patch) (c : cdata) : Prop :=
  0 <= f < 4 /\ 0 <= nf < 4 /\ quadrant D2 ip /\ quadrant D2 op /\
  this_patch (face_data c) = ip /\ neighbor_patch (face_data c) = op /\
  let start := (if u then along f ip + width ip else along f ip - width op)%Q in
  ((block_iface c = f /\ transform (face_data c) = expand_face_transform_2d f (b2z o * 4 + nf) /\
    touches_face f ip /\ touches_face nf op /\
    (along nf op == if o then 1 - start - width op else start)%Q) \/
   (f < 2 /\ nf = other_side f /\ o = false /\ block_iface c = -1 /\ icorner c = corner_on f u /\
    transform (face_data c) = face_transformation_intra /\
    ((is_block_corner c = false /\ (along f op == start)%Q /\
      (across f op == if Z.odd f then across f ip + width ip else across f ip - width op)%Q) \/
     (is_block_corner c = true /\ touches_face f ip /\ touches_face nf op /\
      touches_face (if u then 3 else 2) ip /\ touches_face (if u then 2 else 3) op /\
      (xupper op == xlower op + width op)%Q /\ (yupper op == ylower op + width op)%Q)))).
