(** The brick mapping: src/fclaw2d_map_brick.c, src/fclaw2d_map.c:123-142,
    src/mappings/fclaw2d_map_nomap_brick.c:64-71.

    [rnd] rounds the result of a floating point operation.  A failed FCLAW_ASSERT, an index out of range or a
    division by zero is [None].  The third output coordinate (always 0) and the file brick.dat are left out. *)
From Coq Require Import ZArith QArith List.
From Verif Require Import Model_Search.
Import ListNotations.
Open Scope Z_scope.

(** fclaw2d_map_brick.h:59-65 fclaw2d_block_ll_t *)
Record block_ll := mkBL { bl_mi : Z; bl_mj : Z; bl_xv : list Q; bl_yv : list Q }.

(** fclaw2d_map_brick.c:134-182 fclaw2d_map_new_brick (and :88-132 with the vertices of the connectivity):
    [vertices] are the lower left corners of the blocks *)
Definition map_new_brick (vertices : list (Q * Q)) (mi mj : Z) : block_ll := mkBL mi mj (map fst vertices) (map snd vertices).

Section Rounded.
  Variable rnd : Q -> Q.

  (** fclaw2d_map_brick.c:68-78 fclaw2d_map_c2m_brick *)
  Definition c2m_brick (bv : block_ll) (blockno : Z) (xc yc : Q) : option (Q * Q) :=
    bind (zget (bl_xv bv) blockno) (fun xv =>
    bind (zget (bl_yv bv) blockno) (fun yv =>
    check (negb (bl_mi bv =? 0)) (check (negb (bl_mj bv =? 0))
    (Some (rnd (rnd (xv + xc) / inject_Z (bl_mi bv)), rnd (rnd (yv + yc) / inject_Z (bl_mj bv)))%Q)))).

  (** fclaw2d_map.c:123-142 FCLAW2D_MAP_BRICK2C: [brick] is the member of the map context.  Without a brick the
      assertion [blockno == 0] compares the pointer to the block number, which is never NULL. *)
  Definition brick2c (brick : option block_ll) (blockno : Z) (xc yc : Q) : option (Q * Q) :=
    match brick with
    | Some bv => c2m_brick bv blockno xc yc
    | None => let blockno_pointer_is_null := false in check blockno_pointer_is_null (Some (xc, yc))
    end.

  (** mappings/fclaw2d_map_nomap_brick.c:64-71 fclaw2d_map_c2m_nomap_brick *)
  Definition c2m_nomap_brick := brick2c.
End Rounded.
