(** Where the grid of a patch lies: src/patches/clawpatch/fclaw2d_clawpatch.cpp:193-290 (clawpatch_define,
    PATCH_DIM = 2), with the corners of the patch from src/fclaw2d_convenience.c:42-86
    (Model_Domain.set_boundary_xylower) and the brick map of src/mappings/fclaw2d_map_nomap_brick.c (Model_Brick).

    [rnd] rounds the result of a floating point operation.  [None]: a failed assertion, or a division by zero. *)
From Coq Require Import ZArith QArith List Bool.
From Verif Require Import Base_Float Model_Face Model_Domain Model_Search Model_Brick.
Import ListNotations.
Open Scope Z_scope.

(** fclaw_options and clawpatch options *)
Record gopts := mkO { o_manifold : bool; o_ax : Q; o_bx : Q; o_ay : Q; o_by : Q; o_mx : Z; o_my : Z }.
(** the members of the clawpatch *)
Record geom := mkG { c_xlower : Q; c_xupper : Q; c_ylower : Q; c_yupper : Q; c_dx : Q; c_dy : Q }.

Section Geom.
  Variable rnd : Q -> Q.
  (** ax + (bx - ax) * x *)
  Definition scale (a b x : Q) : Q := rnd (a + rnd (rnd (b - a) * x))%Q.

  (** fclaw2d_clawpatch.cpp:288-289 *)
  Definition widths (o : gopts) (xl xu yl yu : Q) : option geom :=
    check (negb (o_mx o =? 0)) (check (negb (o_my o =? 0))
    (Some (mkG xl xu yl yu (rnd (rnd (xu - xl) / inject_Z (o_mx o))%Q) (rnd (rnd (yu - yl) / inject_Z (o_my o))%Q)))).

  (** fclaw2d_clawpatch.cpp:193-289; [brick]: the map context says it is a brick, with these blocks *)
  Definition clawpatch_define (o : gopts) (brick : option block_ll) (blockno : Z) (p : patch_t) : option geom :=
    if o_manifold o then widths o (p_xl p) (p_xu p) (p_yl p) (p_yu p)
    else
      bind (match brick with
            | Some bv =>
                bind (c2m_nomap_brick rnd (Some bv) blockno (p_xl p) (p_yl p)) (fun lo =>
                bind (c2m_nomap_brick rnd (Some bv) blockno (p_xu p) (p_yu p)) (fun up =>
                Some (fst lo, snd lo, fst up, snd up)))
            | None => Some (p_xl p, p_yl p, p_xu p, p_yu p)
            end) (fun '(xlower, ylower, xupper, yupper) =>
      widths o (scale (o_ax o) (o_bx o) xlower) (scale (o_ax o) (o_bx o) xupper)
               (scale (o_ay o) (o_by o) ylower) (scale (o_ay o) (o_by o) yupper)).

  (** the grid of a quadrant of a block *)
  Definition grid_of (o : gopts) (brick : option block_ll) (blockno : Z) (q : quad) : option geom :=
    clawpatch_define o brick blockno (set_boundary_xylower rnd D2 0 (q_level q) (q_level q) q).
End Geom.
