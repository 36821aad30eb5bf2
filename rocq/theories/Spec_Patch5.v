(** What a test function may use if it is to work with the 5.x tagging routine. *)
From Coq Require Import ZArith QArith.
From Verif Require Import Model_Face Model_Grid Model_Tag.   (* types only *)
Open Scope Z_scope.

(** The answer depends on the values of the cell itself, on minimum, maximum and surrounding values of the first
    component only, and, at a ghost cell, not on surrounding values. *)
Definition looks_at_first (d : dims) (crit : cargs -> option Z) : Prop :=
  forall a b, c_block a = c_block b -> c_dx a = c_dx b -> c_dy a = c_dy b -> c_xc a = c_xc b -> c_yc a = c_yc b ->
    c_th a = c_th b -> c_init a = c_init b -> c_ghost a = c_ghost b ->
    (forall mq, 1 <= mq <= meqn d -> c_qval a mq = c_qval b mq) ->
    c_qmin a 1 = c_qmin b 1 -> c_qmax a 1 = c_qmax b 1 ->
    (c_ghost a = false -> forall ii jj, -1 <= ii <= 1 -> -1 <= jj <= 1 -> c_quad a ii jj 1 = c_quad b ii jj 1) ->
    crit a = crit b.
