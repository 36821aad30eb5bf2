(** Properties C01 - C04: face and corner transformations. *)
From Coq Require Import ZArith QArith Lia List Permutation.
From Verif Require Import Base_Float Model_Face Spec_Face Proof_Face Proof_Face1 Proof_Face2
  Proof_Face3 Proof_Face4 Proof_Face5.
Import ListNotations.
Open Scope Z_scope.

(** ** C01 *)

(** The connection (face f, remote face nf, orientation o), seen from the other
    side, is (face nf, remote face f, orientation o). *)
Theorem C01_face_swap_exchanges_sides : forall d f nf o,
  0 <= f < num_faces d -> 0 <= nf < num_faces d -> 0 <= o ->
  face_swap d f (o * num_faces d + nf) = (nf, o * num_faces d + f).
Proof. exact face_swap_ok. Qed.
Print Assumptions C01_face_swap_exchanges_sides.

Theorem C01_face_swap_involutive : forall d f rf,
  0 <= f < num_faces d -> 0 <= rf ->
  (let '(f1, rf1) := face_swap d f rf in face_swap d f1 rf1) = (f, rf).
Proof. exact face_swap_involutive. Qed.
Print Assumptions C01_face_swap_involutive.

(** In 2D the transformation belonging to the swapped connection describes the
    inverse gluing. *)
Theorem C01_face_swap_describes_inverse : forall f nf (o : bool),
  0 <= f < 4 -> 0 <= nf < 4 ->
  describes D2 (glue2d f nf o) (expand_face_transform_2d f (b2z o * 4 + nf)) /\
  (let '(f', rf') := face_swap D2 f (b2z o * 4 + nf) in
   describes D2 (glue_inv (glue2d f nf o)) (expand_face_transform_2d f' rf')).
Proof.
  intros f nf o Hf Hn. split; [apply expand_describes; assumption|].
  pose proof (face_swap_ok D2 f nf (b2z o) Hf Hn ltac:(destruct o; cbn; lia)) as E.
  change (num_faces D2) with 4 in E. rewrite E.
  rewrite glue2d_inv. apply expand_describes; assumption.
Qed.
Print Assumptions C01_face_swap_describes_inverse.

Example C01_example_2d : face_swap D2 1 (1 * 4 + 2) = (2, 1 * 4 + 1).
Proof. reflexivity. Qed.
Example C01_example_3d : face_swap D3 5 (3 * 6 + 2) = (2, 3 * 6 + 5).
Proof. reflexivity. Qed.

(** ** C02 *)

(** For every index there is exactly one index of the neighbor at the same
    physical position, and (if it fits an int) that is what the code returns. *)
Theorem C02_transform_face_across_blocks : forall rnd, rounding rnd ->
  forall d ip op g ft mx my mz based i j k,
  quadrant d ip -> quadrant d op -> level ip = level op -> describes d g ft ->
  sizes_match g mx my mz -> sizes_ok d (level ip) mx my mz -> 0 <= based <= 1 ->
  in_int i -> in_int j -> (d = D3 -> in_int k) ->
  exists i' j' k',
    same_point g (index_point ip mx my mz based i j k) (index_point op mx my mz based i' j' k') /\
    (in_int i' -> in_int j' -> (d = D3 -> in_int k') ->
     transform_face rnd d ip op ft mx my mz based i j k = Some (i', j', k')).
Proof. exact transform_face_ok. Qed.
Print Assumptions C02_transform_face_across_blocks.

Theorem C02_same_position_is_unique : forall d ip op g ft mx my mz b i j k i1 j1 k1 i2 j2 k2,
  quadrant d ip -> quadrant d op -> level ip = level op -> describes d g ft ->
  sizes_match g mx my mz -> sizes_ok d (level ip) mx my mz ->
  same_point g (index_point ip mx my mz b i j k) (index_point op mx my mz b i1 j1 k1) ->
  same_point g (index_point ip mx my mz b i j k) (index_point op mx my mz b i2 j2 k2) ->
  i1 = i2 /\ j1 = j2 /\ (d = D3 -> k1 = k2).
Proof. exact same_point_unique. Qed.
Print Assumptions C02_same_position_is_unique.

(** Transforming with the transformation of the swapped connection undoes it. *)
Theorem C02_transform_face_inverse : forall rnd, rounding rnd ->
  forall d ip op g ft ft' mx my mz based i j k i' j' k',
  quadrant d ip -> quadrant d op -> level ip = level op ->
  describes d g ft -> describes d (glue_inv g) ft' ->
  sizes_match g mx my mz -> sizes_ok d (level ip) mx my mz -> 0 <= based <= 1 ->
  in_int i -> in_int j -> (d = D3 -> in_int k) ->
  in_int i' -> in_int j' -> (d = D3 -> in_int k') -> (d = D2 -> k' = k) ->
  same_point g (index_point ip mx my mz based i j k) (index_point op mx my mz based i' j' k') ->
  transform_face rnd d ip op ft mx my mz based i j k = Some (i', j', k') /\
  transform_face rnd d op ip ft' mx my mz based i' j' k' = Some (i, j, k).
Proof. exact transform_face_inverse. Qed.
Print Assumptions C02_transform_face_inverse.

Theorem C02_transform_face_same_block : forall rnd, rounding rnd ->
  forall d ip op ft mx my mz based i j k,
  quadrant d ip -> quadrant d op -> level ip = level op ->
  face_transformation_valid d ft = true -> Z.testbit (er2 ft) 2 = true ->
  sizes_ok d (level ip) mx my mz -> 0 <= based <= 1 ->
  exists i' j' k', (d = D2 -> k' = k) /\
    translated d no_move (index_point ip mx my mz based i j k)
                         (index_point op mx my mz based i' j' k') /\
    (in_int (i' - i) -> in_int (j' - j) -> (d = D3 -> in_int (k' - k)) ->
     transform_face rnd d ip op ft mx my mz based i j k = Some (i', j', k')).
Proof. exact transform_face_same_block_ok. Qed.
Print Assumptions C02_transform_face_same_block.

(** Ghost cell at depth dep beyond face f maps to the interior cell at depth dep
    behind face nf of the neighbor, for all 16 face pairs and both
    orientations; there is no range side condition left. *)
Theorem C02_ghost_layers_map_to_interior_layers : forall rnd, rounding rnd ->
  forall ip op f nf (o : bool) m dep t i j i' j',
  quadrant D2 ip -> quadrant D2 op -> level ip = level op ->
  0 <= f < 4 -> 0 <= nf < 4 ->
  touches_face f ip -> touches_face nf op ->
  (along nf op == if o then 1 - along f ip - width ip else along f ip)%Q ->
  1 <= m < 2 ^ 30 -> 2 ^ level ip * m <= 2 ^ 49 ->
  1 <= dep <= m -> 1 <= t <= m ->
  ghost_cell f m dep t = (i, j) ->
  inner_cell nf m dep (if o then m + 1 - t else t) = (i', j') ->
  transform_face rnd D2 ip op (expand_face_transform_2d f (b2z o * 4 + nf)) m m 0 1 i j 0
    = Some (i', j', 0).
Proof. exact ghost_layer_ok. Qed.
Print Assumptions C02_ghost_layers_map_to_interior_layers.

(** A concrete pair of patches: level 2, ip touches the right face of its block,
    op touches the bottom face of the neighbor block, reversed orientation. *)
Definition ex_ip : patch := mkPatch 2 (3#4) (1#4) 0 1 (1#2) 1.
Definition ex_op : patch := mkPatch 2 (1#2) 0 0 (3#4) (1#4) 1.

Lemma ex_ip_quadrant : quadrant D2 ex_ip.
Proof. split; [cbn; lia|]. split; [exists 3; split; [cbn; lia|reflexivity]|].
  split; [exists 1; split; [cbn; lia|reflexivity]|discriminate]. Qed.
Lemma ex_op_quadrant : quadrant D2 ex_op.
Proof. split; [cbn; lia|]. split; [exists 2; split; [cbn; lia|reflexivity]|].
  split; [exists 0; split; [cbn; lia|reflexivity]|discriminate]. Qed.

Example C02_example : exists i' j' k',
  same_point (glue2d 1 2 true) (index_point ex_ip 8 8 0 1 10 3 0) (index_point ex_op 8 8 0 1 i' j' k') /\
  transform_face (fun x => x) D2 ex_ip ex_op (expand_face_transform_2d 1 (1 * 4 + 2)) 8 8 0 1 10 3 0
  = Some (i', j', k').
Proof.
  destruct (C02_transform_face_across_blocks (fun x => x) rounding_id D2 ex_ip ex_op (glue2d 1 2 true)
     (expand_face_transform_2d 1 (1 * 4 + 2)) 8 8 0 1 10 3 0)
    as (i' & j' & k' & S & T).
  - exact ex_ip_quadrant. - exact ex_op_quadrant. - reflexivity.
  - apply (expand_describes 1 2 true); lia.
  - split; [reflexivity|]. intros ma tb rev [E|[]]. injection E as <- <- <-. reflexivity.
  - split; [split; cbn; lia|]. split; [split; cbn; lia|discriminate].
  - lia. - unfold in_int, int_min, int_max; lia. - unfold in_int, int_min, int_max; lia. - discriminate.
  - exists 6, 2, 0. split; [|vm_compute; reflexivity].
    split; [reflexivity|]. intros ma tb rev [E|[]]. injection E as <- <- <-. reflexivity.
Qed.

(** ** C03 *)

Theorem C03_transform_face2_across_blocks : forall rnd, rounding rnd ->
  forall d ip op g ft mx my mz based i j k,
  quadrant d ip -> quadrant d op -> level op = level ip + 1 -> describes d g ft ->
  sizes_match g mx my mz -> sizes_ok d (level op) mx my mz -> 0 <= based <= 1 ->
  in_int i -> in_int j -> (d = D3 -> in_int k) ->
  exists outs,
    delivers d outs (fun sx sy sz '(i', j', k') =>
        same_point g (child_center ip mx my mz based i j k sx sy sz)
                     (cell_center op mx my mz based i' j' k')) /\
    ((forall s i' j' k', In (s, (i', j', k')) outs ->
        Z.abs i' <= 2 ^ 30 /\ Z.abs j' <= 2 ^ 30 /\ (d = D3 -> Z.abs k' <= 2 ^ 30)) ->
     transform_face2 rnd d ip op ft mx my mz based i j k = Some outs).
Proof. exact transform_face2_across_ok. Qed.
Print Assumptions C03_transform_face2_across_blocks.

Theorem C03_transform_face2_same_block : forall rnd, rounding rnd ->
  forall d ip op ft mx my mz based i j k,
  quadrant d ip -> quadrant d op -> level op = level ip + 1 ->
  face_transformation_valid d ft = true -> Z.testbit (er2 ft) 2 = true ->
  sizes_ok d (level op) mx my mz -> 0 <= based <= 1 ->
  in_int i -> in_int j -> (d = D3 -> in_int k) ->
  exists outs,
    delivers d outs (fun sx sy sz '(i', j', k') =>
        translated d no_move
           (child_center ip mx my mz based i j k sx sy sz)
           (cell_center op mx my mz based i' j' k')) /\
    ((forall s i' j' k', In (s, (i', j', k')) outs ->
        Z.abs i' <= 2 ^ 30 /\ Z.abs j' <= 2 ^ 30 /\ (d = D3 -> Z.abs k' <= 2 ^ 30)) ->
     transform_face2 rnd d ip op ft mx my mz based i j k = Some outs).
Proof. exact transform_face2_same_block_ok. Qed.
Print Assumptions C03_transform_face2_same_block.

(** Coarse ex_ip (level 2) beside a level 3 patch across a reversed face. *)
Definition ex_fine : patch := mkPatch 3 (5#8) 0 0 (3#4) (1#8) 1.
Lemma ex_fine_quadrant : quadrant D2 ex_fine.
Proof. split; [cbn; lia|]. split; [exists 5; split; [cbn; lia|reflexivity]|].
  split; [exists 0; split; [cbn; lia|reflexivity]|discriminate]. Qed.

Example C03_example : exists outs,
  delivers D2 outs (fun sx sy sz '(i', j', k') =>
        same_point (glue2d 1 2 true) (child_center ex_ip 8 8 0 1 9 3 0 sx sy sz)
                     (cell_center ex_fine 8 8 0 1 i' j' k')) /\
  transform_face2 (fun x => x) D2 ex_ip ex_fine (expand_face_transform_2d 1 (1 * 4 + 2)) 8 8 0 1 9 3 0
   = Some outs /\
  Permutation outs [(0, (4, 1, 0)); (1, (4, 2, 0)); (2, (3, 1, 0)); (3, (3, 2, 0))].
Proof.
  destruct (C03_transform_face2_across_blocks (fun x => x) rounding_id D2 ex_ip ex_fine (glue2d 1 2 true)
     (expand_face_transform_2d 1 (1 * 4 + 2)) 8 8 0 1 9 3 0)
    as (outs & S & T).
  - exact ex_ip_quadrant. - exact ex_fine_quadrant. - reflexivity.
  - apply (expand_describes 1 2 true); lia.
  - split; [reflexivity|]. intros ma tb rev [E|[]]. injection E as <- <- <-. reflexivity.
  - split; [split; cbn; lia|]. split; [split; cbn; lia|discriminate].
  - lia. - unfold in_int, int_min, int_max; lia. - unfold in_int, int_min, int_max; lia. - discriminate.
  - exists [(2, (3, 1, 0)); (0, (4, 1, 0)); (3, (3, 2, 0)); (1, (4, 2, 0))].
    split; [|split; [vm_compute; reflexivity|]].
    + split.
      * cbn [map fst]. apply NoDup_Permutation_bis; [repeat constructor; cbn; lia|cbn; lia|].
        intros x. cbn. lia.
      * intros sx sy sz (Hx & Hy & Hz). assert (sz = 0) by lia. subst sz.
        assert (sx = 0 \/ sx = 1) as [->| ->] by lia; assert (sy = 0 \/ sy = 1) as [->| ->] by lia;
        (eexists; split; [cbn; try (left; reflexivity); try (right; left; reflexivity);
           try (right; right; left; reflexivity); right; right; right; left; reflexivity|]);
        (split; [reflexivity|intros ma tb rev [E|[]]; injection E as <- <- <-; reflexivity]).
    + apply NoDup_Permutation_bis; [|cbn; lia|].
      * repeat constructor; cbn; intuition congruence.
      * intros x. cbn. intuition.
Qed.

(** ** C04 *)

Theorem C04_transform_corner : forall rnd, rounding rnd ->
  forall d ip op c (bb : bool) mx my mz based i j k,
  quadrant d ip -> quadrant d op -> level ip = level op ->
  (bb = true -> at_opposite_corner d c op) ->
  sizes_ok d (level ip) mx my mz -> 0 <= based <= 1 ->
  exists i' j' k', (d = D2 -> k' = k) /\
    translated d (if bb then corner_move c else no_move)
         (index_point ip mx my mz based i j k) (index_point op mx my mz based i' j' k') /\
    (in_int (i' - i) -> in_int (j' - j) -> (d = D3 -> in_int (k' - k)) ->
     transform_corner rnd d ip op c bb mx my mz based i j k = Some (i', j', k')).
Proof. exact transform_corner_ok. Qed.
Print Assumptions C04_transform_corner.

Theorem C04_transform_corner2 : forall rnd, rounding rnd ->
  forall d ip op c (bb : bool) mx my mz based i j k,
  quadrant d ip -> quadrant d op -> level op = level ip + 1 ->
  (bb = true -> at_opposite_corner d c op) ->
  sizes_ok d (level op) mx my mz -> 0 <= based <= 1 ->
  in_int i -> in_int j -> (d = D3 -> in_int k) ->
  exists outs,
    delivers d outs (fun sx sy sz '(i', j', k') =>
        translated d (if bb then corner_move c else no_move)
           (child_center ip mx my mz based i j k sx sy sz)
           (cell_center op mx my mz based i' j' k')) /\
    ((forall s i' j' k', In (s, (i', j', k')) outs ->
        Z.abs i' <= 2 ^ 30 /\ Z.abs j' <= 2 ^ 30 /\ (d = D3 -> Z.abs k' <= 2 ^ 30)) ->
     transform_corner2 rnd d ip op c bb mx my mz based i j k = Some outs).
Proof. exact transform_corner2_ok. Qed.
Print Assumptions C04_transform_corner2.

(** Crossing the upper right corner (3) of a block: ip at the corner of level 2,
    op at the lower left corner of the diagonal block. *)
Definition ex_ci : patch := mkPatch 2 (3#4) (3#4) 0 1 1 1.
Definition ex_co : patch := mkPatch 2 0 0 0 (1#4) (1#4) 1.
Lemma ex_ci_quadrant : quadrant D2 ex_ci.
Proof. split; [cbn; lia|]. split; [exists 3; split; [cbn; lia|reflexivity]|].
  split; [exists 3; split; [cbn; lia|reflexivity]|discriminate]. Qed.
Lemma ex_co_quadrant : quadrant D2 ex_co.
Proof. split; [cbn; lia|]. split; [exists 0; split; [cbn; lia|reflexivity]|].
  split; [exists 0; split; [cbn; lia|reflexivity]|discriminate]. Qed.
Lemma ex_co_corner : at_opposite_corner D2 3 ex_co.
Proof. intros a Ha. unfold axis in Ha. assert (a = 0 \/ a = 1) as [->| ->] by lia; reflexivity. Qed.

Example C04_example :
  translated D2 (corner_move 3) (index_point ex_ci 8 8 0 1 10 9 0) (index_point ex_co 8 8 0 1 2 1 0) /\
  transform_corner (fun x => x) D2 ex_ci ex_co 3 true 8 8 0 1 10 9 0 = Some (2, 1, 0) /\
  quadrant D2 ex_ci /\ quadrant D2 ex_co /\ at_opposite_corner D2 3 ex_co /\ sizes_ok D2 2 8 8 0.
Proof.
  split; [|split; [vm_compute; reflexivity|]].
  - intros a Ha. unfold axis in Ha. assert (a = 0 \/ a = 1) as [->| ->] by lia; reflexivity.
  - split; [exact ex_ci_quadrant|]. split; [exact ex_co_quadrant|]. split; [exact ex_co_corner|].
    split; [split; cbn; lia|]. split; [split; cbn; lia|discriminate].
Qed.

(** Swapping the two sides of a corner relation exchanges the two corner numbers, so
    doing it twice changes nothing. *)
Theorem C04_corner_swap : forall c r,
  corner_swap c r = (r, c) /\
  (let '(c', r') := corner_swap c r in corner_swap c' r' = (c, r)).
Proof. intros. split; reflexivity. Qed.
Print Assumptions C04_corner_swap.
