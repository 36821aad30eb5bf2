(** The index transformations at corners. *)
From Coq Require Import ZArith QArith Qminmax Qabs List Lia Lqa Bool Qfield Permutation.
From Verif Require Import Base_Float Model_Face Spec_Face Proof_Face Proof_Face1 Proof_Face2 Proof_Face3
  Proof_Face4 Proof_Face5 Model_Grid Spec_Grid Proof_Grid Proof_Grid2 Proof_Grid3 Proof_Grid4 Proof_Grid5
  Model_Corner Spec_Corner Proof_Corner1 Proof_Corner2.
Import ListNotations.
Open Scope Z_scope.

Definition gimage (f nf : Z) (o : bool) (s m : Z) (p : Z * Z) : Z * Z :=
  inner_cell nf m (depth f m p) (flip o m (posn f p - s * m)).
Definition ends (u : bool) : Z := if u then 1 else -1.
Definition ends2 (u : bool) : Z := if u then 2 else -1.

Section Corner3.
  Variable rnd : Q -> Q.
  Hypothesis Hrnd : rounding rnd.

  Lemma across_shift_ok : forall ip op f nf (o : bool) s m dep t i j i' j',
    quadrant D2 ip -> quadrant D2 op -> level ip = level op ->
    0 <= f < 4 -> 0 <= nf < 4 ->
    touches_face f ip -> touches_face nf op ->
    (along nf op == if o then 1 - (along f ip + inject_Z s * width ip) - width op else along f ip + inject_Z s * width ip)%Q ->
    1 <= m < 2 ^ 28 -> 2 ^ level ip * m <= 2 ^ 49 ->
    - m <= dep <= m + 1 -> - 3 * m <= t <= 3 * m -> - m <= t - s * m <= 2 * m ->
    ghost_cell f m dep t = (i, j) ->
    inner_cell nf m dep (flip o m (t - s * m)) = (i', j') ->
    transform_face rnd D2 ip op (expand_face_transform_2d f (b2z o * 4 + nf)) m m 0 1 i j 0
      = Some (i', j', 0).
  Proof.
    intros ip op f nf o s m dep t i j i' j' Hi Ho Hl Hf Hn T1 T2 AL Hm HR Hd Ht Hs Gc Ic.
    assert (Hlev : 0 <= level ip) by (destruct Hi as (? & _); lia).
    pose proof (pow2_pos (level ip) Hlev) as PP.
    apply (transform_face_rel rnd Hrnd D2 ip op (glue2d f nf o)); try assumption; try lia; try discriminate.
    - apply expand_describes; assumption.
    - split.
      + face4 f Hf; face4 nf Hn; reflexivity.
      + intros ma tb rev [E|[]]. injection E as <- <- <-. face4 f Hf; face4 nf Hn; reflexivity.
    - split; [split; lia|]. split; [split; lia|discriminate].
    - unfold in_int, int_min, int_max. face4 f Hf; (cbv beta iota delta [ghost_cell] in Gc; apply pair_equal_spec in Gc; destruct Gc as [<- <-]); lia.
    - unfold in_int, int_min, int_max. face4 f Hf; (cbv beta iota delta [ghost_cell] in Gc; apply pair_equal_spec in Gc; destruct Gc as [<- <-]); lia.
    - unfold in_int, int_min, int_max, flip in *. destruct o; face4 nf Hn; (cbv beta iota delta [inner_cell] in Ic; apply pair_equal_spec in Ic; destruct Ic as [<- <-]); lia.
    - unfold in_int, int_min, int_max, flip in *. destruct o; face4 nf Hn; (cbv beta iota delta [inner_cell] in Ic; apply pair_equal_spec in Ic; destruct Ic as [<- <-]); lia.
    - unfold touches_face, width in *. rewrite <- Hl in T2, AL.
      split; [|intros ma tb rev [E|[]]; injection E as <- <- <-];
      destruct o; face4 f Hf; face4 nf Hn;
        (cbv beta iota delta [ghost_cell] in Gc; apply pair_equal_spec in Gc; destruct Gc as [Gi Gj]);
        (cbv beta iota delta [inner_cell flip] in Ic; apply pair_equal_spec in Ic; destruct Ic as [Fi Fj]);
        cbn [along across] in T1, T2, AL;
        unfold beyond, glue2d, face2d, index_point, pt; cbn -[inject_Z index_coord Qminus];
        unfold index_coord; rewrite <- Hl, <- ?Gi, <- ?Gj, <- ?Fi, <- ?Fj, ?T1, ?T2, ?AL; injs;
        change (inject_Z 1) with 1%Q; field; split; apply inject_Z_nz; lia.
  Qed.

  Variable d : dims.
  Variable m : Z.
  Hypothesis Hsz : mx d = m /\ my d = m.
  Hypothesis Hm : 1 <= m < 2 ^ 28.

  Variable f nf : Z.
  Variable o u : bool.
  Variable ip op : patch.
  Variable c : cdata.
  Hypothesis HT : touches_corner f nf o u ip op c.

  Lemma Hf : 0 <= f < 4. Proof. exact (proj1 HT). Qed.
  Lemma Hn : 0 <= nf < 4. Proof. exact (proj1 (proj2 HT)). Qed.

  (** the corner is at the upper side along axis 0 / 1, f being a face normal to x *)
  Lemma bits : f < 2 -> Z.testbit (corner_on f u) 0 = Z.odd f /\ Z.testbit (corner_on f u) 1 = u.
  Proof.
    intros H. pose proof Hf. assert (E : f = 0 \/ f = 1) by lia.
    destruct E as [->| ->], u; split; reflexivity.
  Qed.

  Lemma opposite : f < 2 -> touches_face (other_side f) op -> touches_face (if u then 2 else 3) op ->
    (xupper op == xlower op + width op)%Q -> (yupper op == ylower op + width op)%Q ->
    at_opposite_corner D2 (corner_on f u) op.
  Proof.
    intros H T1 T2 UX UY a Ha. destruct (bits H) as [B0 B1].
    unfold axis in Ha. assert (E : a = 0 \/ a = 1) by lia. unfold touches_face in *.
    pose proof Hf. assert (Ef : f = 0 \/ f = 1) by lia.
    destruct E as [->| ->]; cbn [pt].
    - rewrite B0. destruct Ef as [E|E]; rewrite E in *; cbn [Z.odd other_side across] in *.
      + rewrite UX, T1. ring.
      + exact T1.
    - rewrite B1. destruct u; cbn [across] in *.
      + exact T2.
      + rewrite UY, T2. ring.
  Qed.

  (* ------------------------------------------------------------- same size *)

  Lemma t_corner_ok : forall i j, level ip = level op -> 2 ^ level ip * m <= 2 ^ 49 ->
    - m <= depth f m (i, j) <= m + 1 -> - 3 * m <= posn f (i, j) <= 3 * m ->
    - m <= posn f (i, j) - ends u * m <= 2 * m ->
    t_corner rnd d c i j = Some (gimage f nf o (ends u) m (i, j)).
  Proof.
    intros i j HL HR Hd Ht Hs. pose proof Hf as Hf. pose proof Hn as Hn.
    destruct HT as (_ & _ & Hi & Ho & Eip & Eop & Hor). cbv zeta in Hor.
    assert (Hlev : 0 <= level ip) by (destruct Hi as (? & _); lia).
    pose proof (pow2_pos (level ip) Hlev) as PP.
    assert (W : (width op == width ip)%Q) by (unfold width; now rewrite HL).
    destruct Hsz as [Hx Hy]. unfold t_corner.
    destruct Hor as [(Eb & Eft & T1 & T2 & AL)|(Hf2 & En & Eo & Eb & Ec & Eft & Hor)].
    - rewrite Eb. rewrite (proj2 (Z.leb_le 0 f)) by lia. unfold t_face. rewrite Eip, Eop, Eft, Hx, Hy.
      assert (G : ghost_cell f m (depth f m (i, j)) (posn f (i, j)) = (i, j)) by (apply ghost_depth; lia).
      destruct (gimage f nf o (ends u) m (i, j)) as [i' j'] eqn:EG. unfold gimage in EG.
      rewrite (across_shift_ok ip op f nf o (ends u) m (depth f m (i, j)) (posn f (i, j)) i j i' j'); try assumption; try lia.
      + reflexivity.
      + rewrite AL. unfold ends. destruct u; [change (inject_Z 1) with 1%Q|change (inject_Z (-1)) with (-1)%Q];
          destruct o; rewrite ?W; ring.
    - rewrite Eb. change (0 <=? -1) with false. change (negb (-1 =? -1)) with false. cbv iota.
      rewrite Eip, Eop, Ec, Hx, Hy.
      set (bb := is_block_corner c) in *.
      assert (OPP : bb = true -> at_opposite_corner D2 (corner_on f u) op).
      { intros E. destruct Hor as [(E' & _)|(_ & T1 & T2 & T3 & T4 & UX & UY)]; [congruence|].
        apply opposite; try assumption. rewrite <- En. exact T2. }
      destruct (transform_corner_ok rnd Hrnd D2 ip op (corner_on f u) bb m m 0 1 i j 0) as (i' & j' & k' & Hk & TR & RUN);
        try assumption; try lia.
      { split; [split; lia|]. split; [split; lia|discriminate]. }
      assert (Hk0 : k' = 0) by now apply Hk. subst k'.
      pose proof (TR 0 ltac:(unfold axis; lia)) as TX. pose proof (TR 1 ltac:(unfold axis; lia)) as TY.
      destruct (bits Hf2) as [B0 B1].
      unfold index_point, pt in TX, TY.
      assert (SX : forall lo lo' s mv a a', (lo' + inject_Z s * 0 == lo + inject_Z s * width ip + inject_Z mv)%Q ->
        (index_coord lo' (level op) m 1 a' == index_coord lo (level ip) m 1 a + inject_Z mv)%Q -> a' = a - s * m).
      { intros lo lo' s mv a a' EL EQ. apply (index_coord_inj lo' (level op) m 1); [lia|lia|].
        rewrite EQ. unfold index_coord.
        assert (EL' : (lo' == lo + inject_Z s * width ip + inject_Z mv)%Q) by (rewrite <- EL; ring).
        rewrite EL', <- HL. unfold width.
        unfold Z.sub. injs. field. split; apply inject_Z_nz; lia. }
      assert (GX : i' = i - (if Z.odd f then 1 else -1) * m).
      { apply (SX (xlower ip) (xlower op) _ ((if bb then corner_move (corner_on f u) else no_move) 0) i i'); [|exact TX].
        unfold corner_move, no_move.
        destruct Hor as [(Ebb & A1 & A2)|(Ebb & T1 & T2 & T3 & T4 & UX & UY)]; rewrite Ebb; cbv beta iota; rewrite ?B0.
        - assert (Ef : f = 0 \/ f = 1) by lia. destruct Ef as [E|E]; rewrite E in *; cbn [Z.odd across] in *; rewrite A2;
            rewrite ?W; change (inject_Z 0) with 0%Q; [change (inject_Z (-1)) with (-1)%Q|change (inject_Z 1) with 1%Q]; ring.
        - unfold touches_face in T1, T2. rewrite En in T2.
          assert (Ef : f = 0 \/ f = 1) by lia. destruct Ef as [E|E]; rewrite E in *; cbn [Z.odd across other_side] in *;
            rewrite T1, T2; rewrite ?W; change (inject_Z (-1)) with (-1)%Q; change (inject_Z 1) with 1%Q; ring. }
      assert (GY : j' = j - ends u * m).
      { apply (SX (ylower ip) (ylower op) _ ((if bb then corner_move (corner_on f u) else no_move) 1) j j'); [|exact TY].
        unfold corner_move, no_move, ends.
        destruct Hor as [(Ebb & A1 & A2)|(Ebb & T1 & T2 & T3 & T4 & UX & UY)]; rewrite Ebb; cbv beta iota; rewrite ?B1.
        - assert (Ef : f = 0 \/ f = 1) by lia. destruct Ef as [E|E]; rewrite E in *; cbn [along] in *; rewrite A1;
            destruct u; rewrite ?W; change (inject_Z 0) with 0%Q; change (inject_Z (-1)) with (-1)%Q; change (inject_Z 1) with 1%Q; ring.
        - unfold touches_face in T3, T4. destruct u; cbn [across] in *;
            rewrite T3, T4; rewrite ?W; change (inject_Z (-1)) with (-1)%Q; change (inject_Z 1) with 1%Q; ring. }
      assert (IM : gimage f nf o (ends u) m (i, j) = (i', j')).
      { rewrite Eo, En, GX, GY. unfold gimage. clear - Hf Hf2. assert (Ef : f = 0 \/ f = 1) by lia.
        destruct Ef as [-> | ->]; cbn [other_side depth posn fst snd flip inner_cell Z.odd]; f_equal; lia. }
      rewrite RUN; [cbn [bind]; now rewrite IM| | |discriminate].
      + rewrite GX. unfold in_int, int_min, int_max. destruct (Z.odd f); lia.
      + rewrite GY. unfold in_int, int_min, int_max, ends. destruct u; lia.
  Qed.

  (* ------------------------------------------------------------- half size *)

  Hypothesis HL : level op = level ip + 1.
  Hypothesis HR : 2 ^ level op * m <= 2 ^ 49.

  Lemma sq : square d m (level op).
  Proof. destruct Hsz as [Hx Hy]. split; [exact Hx|]. split; [exact Hy|]. split; [exact Hm|exact HR]. Qed.

  Lemma W2 : (width ip == 2 * width op)%Q.
  Proof.
    pose proof HT as (_ & _ & Hi & _). assert (Hlev : 0 <= level ip) by (destruct Hi as (? & _); lia).
    pose proof (pow2_pos (level ip) Hlev) as PP.
    assert (EP : 2 ^ level op = 2 * 2 ^ level ip) by (rewrite HL, Z.pow_add_r by lia; lia).
    unfold width. rewrite EP. injs. change (inject_Z 2) with 2%Q. field. apply inject_Z_nz; lia.
  Qed.

  Lemma start_eq : ((if u then along f ip + width ip else along f ip - width op) == along f ip + inject_Z (ends2 u) * width op)%Q.
  Proof. pose proof W2 as W2. unfold ends2. destruct u; rewrite ?W2; [change (inject_Z 2) with 2%Q|change (inject_Z (-1)) with (-1)%Q]; ring. Qed.

  Lemma ends2_range : -1 <= ends2 u <= 2. Proof. unfold ends2. destruct u; lia. Qed.

  (** the two cases in which the face transformation is the right one *)
  Lemma beyond_of : block_iface c = f \/ (block_iface c = -1 /\ is_block_corner c = false) ->
    beyond_face f nf o (along f ip + inject_Z (ends2 u) * width op)%Q ip op (transform (face_data c)).
  Proof.
    intros Hc. pose proof start_eq as start_eq. pose proof HT as (H1 & H2 & Hi & Ho & _ & _ & Hor). cbv zeta in Hor.
    split; [exact H1|]. split; [exact H2|]. split; [exact Hi|]. split; [exact Ho|].
    destruct Hor as [(Eb & Eft & T1 & T2 & AL)|(Hf2 & En & Eo & Eb & Ec & Eft & Hor)].
    - left. split; [exact T1|]. split; [exact T2|]. split; [exact Eft|]. rewrite AL. destruct o; rewrite start_eq; reflexivity.
    - right. destruct Hor as [(Ebb & A1 & A2)|(Ebb & _)]; [|exfalso; destruct Hc as [Hc|[_ Hc]]; [lia|congruence]].
      split; [exact En|]. split; [exact Eo|]. split; [exact Eft|]. split; [|exact A2]. rewrite A1. apply start_eq.
  Qed.

  Lemma eta : face_data c = mkT ip op (transform (face_data c)).
  Proof. destruct HT as (_ & _ & _ & _ & E1 & E2 & _). rewrite <- E1, <- E2. now destruct (face_data c). Qed.

  Lemma t_corner_half_ok : forall i j,
    - m <= depth f m (i, j) <= m + 1 -> - 2 * m - 1 <= 2 * posn f (i, j) - 1 - ends2 u * m <= 3 * m ->
    exists ij, t_corner_half rnd d c i j = Some ij /\
      forall sx sy, 0 <= sx <= 1 -> 0 <= sy <= 1 -> ij (2 * sy + sx) = Some (fimage f nf o (ends2 u) m (i, j) sx sy).
  Proof.
    intros i j Hd Ht. pose proof Hf as Hf. pose proof Hn as Hn. pose proof ends2_range as Hp.
    pose proof HT as (_ & _ & Hi & Ho & Eip & Eop & Hor). cbv zeta in Hor. pose proof W2 as W2.
    unfold t_corner_half.
    destruct Hor as [(Eb & Eft & T1 & T2 & AL)|(Hf2 & En & Eo & Eb & Ec & Eft & Hor)].
    - rewrite Eb. rewrite (proj2 (Z.leb_le 0 f)) by lia. rewrite eta.
      apply (t_half_gen rnd Hrnd d m ip op f nf o (ends2 u)); try assumption; [apply beyond_of; now left|exact sq].
    - rewrite Eb. change (0 <=? -1) with false. change (negb (-1 =? -1)) with false. cbv iota.
      destruct Hsz as [Hx Hy]. rewrite Eip, Eop, Ec, Hx, Hy.
      set (bb := is_block_corner c) in *.
      assert (Hlev : 0 <= level ip) by (destruct Hi as (? & _); lia).
      pose proof (pow2_pos (level ip) Hlev) as PP.
      assert (EP : 2 ^ level op = 2 * 2 ^ level ip) by (rewrite HL, Z.pow_add_r by lia; lia).
      assert (OPP : bb = true -> at_opposite_corner D2 (corner_on f u) op).
      { intros E. destruct Hor as [(E' & _)|(_ & T1 & T2 & T3 & T4 & UX & UY)]; [congruence|].
        apply opposite; try assumption. rewrite <- En. exact T2. }
      assert (Iij : in_int i /\ in_int j).
      { assert (B : - 3 * m <= posn f (i, j) <= 3 * m) by nia.
        unfold in_int, int_min, int_max. clear - Hf Hm Hd B. face4 f Hf; cbn [depth posn fst snd] in *; lia. }
      destruct (transform_corner2_ok rnd Hrnd D2 ip op (corner_on f u) bb m m 0 1 i j 0) as (outs & DEL & RUN);
        try tauto; try lia; try discriminate.
      { split; [split; lia|]. split; [split; lia|discriminate]. }
      destruct (bits Hf2) as [B0 B1].
      assert (SX : forall lo lo' s mv cc a a', (lo' == lo + inject_Z s * width op + inject_Z mv)%Q ->
         (cell_coord lo' (level op) m 1 a' == half_cell_coord lo (level ip) m 1 a cc + inject_Z mv)%Q ->
         a' = 2 * a - 1 + cc - s * m).
      { intros lo lo' s mv cc a a' EL EQ. apply (cell_coord_inj lo' (level op) m 1); [lia|lia|].
        rewrite EQ. unfold cell_coord, half_cell_coord. rewrite EL. unfold width. rewrite EP.
        injs. change (inject_Z 2) with 2%Q. change (inject_Z 1) with 1%Q. field. split; apply inject_Z_nz; lia. }
      assert (HU : forall sx sy i' j' k', child D2 sx sy 0 ->
        translated D2 (if bb then corner_move (corner_on f u) else no_move)
          (child_center ip m m 0 1 i j 0 sx sy 0) (cell_center op m m 0 1 i' j' k') ->
        (i', j') = fimage f nf o (ends2 u) m (i, j) sx sy).
      { intros sx sy i' j' k' Hc TR.
        pose proof (TR 0 ltac:(unfold axis; lia)) as TX. pose proof (TR 1 ltac:(unfold axis; lia)) as TY.
        unfold child_center, cell_center, pt in TX, TY.
        assert (GX : i' = 2 * i - 1 + sx - (if Z.odd f then 2 else -1) * m).
        { apply (SX (xlower ip) (xlower op) _ ((if bb then corner_move (corner_on f u) else no_move) 0)); [|exact TX].
          unfold corner_move, no_move.
          destruct Hor as [(Ebb & A1 & A2)|(Ebb & T1 & T2 & T3 & T4 & UX & UY)]; rewrite Ebb; cbv beta iota; rewrite ?B0.
          - assert (Ef : f = 0 \/ f = 1) by lia. destruct Ef as [E|E]; rewrite E in *; cbn [Z.odd across] in *; rewrite A2;
              rewrite ?W2; change (inject_Z 0) with 0%Q; [change (inject_Z (-1)) with (-1)%Q|change (inject_Z 2) with 2%Q]; ring.
          - unfold touches_face in T1, T2. rewrite En in T2.
            assert (Ef : f = 0 \/ f = 1) by lia. destruct Ef as [E|E]; rewrite E in *; cbn [Z.odd across other_side] in *;
              rewrite T1, T2; rewrite ?W2; change (inject_Z (-1)) with (-1)%Q; change (inject_Z 1) with 1%Q;
              change (inject_Z 2) with 2%Q; ring. }
        assert (GY : j' = 2 * j - 1 + sy - ends2 u * m).
        { apply (SX (ylower ip) (ylower op) _ ((if bb then corner_move (corner_on f u) else no_move) 1)); [|exact TY].
          unfold corner_move, no_move, ends2.
          destruct Hor as [(Ebb & A1 & A2)|(Ebb & T1 & T2 & T3 & T4 & UX & UY)]; rewrite Ebb; cbv beta iota; rewrite ?B1.
          - assert (Ef : f = 0 \/ f = 1) by lia. destruct Ef as [E|E]; rewrite E in *; cbn [along] in *; rewrite A1;
              destruct u; rewrite ?W2; change (inject_Z 0) with 0%Q; change (inject_Z (-1)) with (-1)%Q; change (inject_Z 2) with 2%Q; ring.
          - unfold touches_face in T3, T4. destruct u; cbn [across] in *;
              rewrite T3, T4; rewrite ?W2; change (inject_Z (-1)) with (-1)%Q; change (inject_Z 1) with 1%Q;
              change (inject_Z 2) with 2%Q; ring. }
        rewrite Eo, En, GX, GY. unfold fimage. clear - Hf Hf2. assert (Ef : f = 0 \/ f = 1) by lia.
        destruct Ef as [-> | ->]; cbn [other_side depth posn nchild tchild fst snd flip inner_cell]; unfold fdepth; cbn [Z.odd];
          f_equal; lia. }
      destruct (delivered outs _ _ DEL HU) as [D1 D2'].
      rewrite RUN.
      + cbn [bind]. eexists. split; [reflexivity|]. intros sx sy Hsx Hsy. cbn beta. apply D1. unfold child. lia.
      + intros s i' j' k' HI. destruct (D2' s i' j' k' HI) as (sx & sy & Hc & E).
        destruct (fimage_abs m f nf o (ends2 u) (i, j) sx sy Hf Hn Hm Hd Ht Hc) as [X1 X2].
        rewrite <- E in X1, X2. cbn [fst snd] in X1, X2. split; [exact X1|]. split; [exact X2|discriminate].
  Qed.

  (** the affine part, also at block corners *)
  Lemma build_corner_ok : (is_block_corner c = true -> 2 ^ level op * m <= 2 ^ 29) ->
    exists A, build_transform rnd d (face_data c) = Some A /\ linear_part m f nf o (ends2 u) A.
  Proof.
    intros HB. pose proof Hf as Hf. pose proof Hn as Hn. pose proof ends2_range as Hp.
    pose proof HT as (_ & _ & Hi & Ho & Eip & Eop & Hor). cbv zeta in Hor.
    assert (CASE : (block_iface c = f \/ (block_iface c = -1 /\ is_block_corner c = false)) \/
                   (f < 2 /\ nf = other_side f /\ o = false /\ transform (face_data c) = face_transformation_intra /\ is_block_corner c = true)).
    { destruct Hor as [(Eb & _)|(Hf2 & En & Eo & Eb & Ec & Eft & [(E & _)|(E & _)])]; tauto. }
    destruct CASE as [CASE|(Hf2 & En & Eo & Eft & Ebb)].
    - rewrite eta. apply (build_transform_ok rnd Hrnd d m f nf o (ends2 u)); try assumption; [now apply beyond_of|exact sq].
    - specialize (HB Ebb). rewrite eta, Eft.
      assert (Hlev : 0 <= level ip) by (destruct Hi as (? & _); lia).
      pose proof (pow2_pos (level ip) Hlev) as PP.
      assert (EP : 2 ^ level op = 2 * 2 ^ level ip) by (rewrite HL, Z.pow_add_r by lia; lia).
      destruct (grid_fun _ _ Hi) as (A & HA). destruct (grid_fun _ _ Ho) as (B & HBB).
      set (sh := fun a => (2 * A a - B a) * m).
      assert (SB : forall a, 0 <= a < 2 -> Z.abs (sh a) <= 2 ^ 29).
      { intros a Ha. destruct (HA a Ha) as [A1 _]. destruct (HBB a Ha) as [B1 _].
        assert (X : Z.abs (2 * A a - B a) <= 2 ^ level op) by lia.
        unfold sh. rewrite Z.abs_mul, (Z.abs_eq m) by lia. nia. }
      assert (ONE : forall i j, (i = 0 \/ i = 1) -> (j = 0 \/ j = 1) ->
        bind (t_face_half rnd d (mkT ip op face_transformation_intra) i j) first_cell = Some (2 * i - 1 + sh 0, 2 * j - 1 + sh 1)).
      { intros i j Hi' Hj'.
        destruct (transform_face2_same_block_ok rnd Hrnd D2 ip op face_transformation_intra m m 0 1 i j 0)
          as (outs & DEL & RUN); try assumption; try lia; try discriminate; try reflexivity.
        { split; [split; lia|]. split; [split; lia|discriminate]. }
        { unfold in_int, int_min, int_max. lia. } { unfold in_int, int_min, int_max. lia. }
        assert (HU : forall sx sy i' j' k', child D2 sx sy 0 ->
          translated D2 no_move (child_center ip m m 0 1 i j 0 sx sy 0) (cell_center op m m 0 1 i' j' k') ->
          (i', j') = (2 * i - 1 + sx + sh 0, 2 * j - 1 + sy + sh 1)).
        { intros sx sy i' j' k' Hc TR.
          pose proof (TR 0 ltac:(unfold axis; lia)) as TX. pose proof (TR 1 ltac:(unfold axis; lia)) as TY.
          unfold no_move, child_center, cell_center, pt in TX, TY. change (inject_Z 0) with 0%Q in TX, TY.
          assert (SX : forall a lo lo' cc x x', 0 <= a < 2 -> low ip a = lo -> low op a = lo' ->
            (cell_coord lo' (level op) m 1 x' == half_cell_coord lo (level ip) m 1 x cc + 0)%Q -> x' = 2 * x - 1 + cc + sh a).
          { intros a lo lo' cc x x' Ha E1 E2 EQ. destruct (HA a Ha) as [_ A2]. destruct (HBB a Ha) as [_ B2].
            rewrite E1 in A2. rewrite E2 in B2.
            apply (cell_coord_inj lo' (level op) m 1); [lia|lia|]. rewrite EQ.
            unfold cell_coord, half_cell_coord, sh. rewrite A2, B2, EP. injs.
            change (inject_Z 2) with 2%Q. change (inject_Z 1) with 1%Q. field. split; apply inject_Z_nz; lia. }
          rewrite (SX 0 (xlower ip) (xlower op) sx i i' ltac:(lia) eq_refl eq_refl TX).
          rewrite (SX 1 (ylower ip) (ylower op) sy j j' ltac:(lia) eq_refl eq_refl TY). reflexivity. }
        destruct (delivered outs _ _ DEL HU) as [D1 D2'].
        unfold t_face_half. cbn [this_patch neighbor_patch transform]. destruct Hsz as [Hx Hy]. rewrite Hx, Hy, RUN.
        - cbn [bind]. unfold first_cell.
          assert (G := D1 0 0 ltac:(unfold child; lia)). cbn [Z.mul Z.add] in G. change (2 * 0 + 0) with 0 in G.
          rewrite G. rewrite !Z.add_0_r. reflexivity.
        - intros s i' j' k' HI. destruct (D2' s i' j' k' HI) as (sx & sy & Hc & E).
          pose proof (SB 0 ltac:(lia)). pose proof (SB 1 ltac:(lia)). destruct Hc as (C1 & C2 & _).
          assert (E1 := f_equal fst E). assert (E2 := f_equal snd E). cbn [fst snd] in E1, E2.
          split; [lia|]. split; [lia|discriminate]. }
      unfold build_transform. rewrite (ONE 0 0), (ONE 1 0), (ONE 0 1) by tauto. cbn [bind].
      eexists. split; [reflexivity|].
      intros [i j] sx sy Hsx Hsy.
      rewrite (fim_affine m f nf o (ends2 u) Hf Hn i j 0 0), (fim_affine m f nf o (ends2 u) Hf Hn i j sx sy) by lia.
      cbn [fst snd]. generalize (fst (fim m f nf o (ends2 u) (0, 0) 0 0)) (snd (fim m f nf o (ends2 u) (0, 0) 0 0)). intros x y.
      assert (E : e11 f nf o = 1 /\ e12 f nf o = 0 /\ e21 f nf o = 0 /\ e22 f nf o = 1).
      { rewrite En, Eo. clear - Hf Hf2. assert (Ef : f = 0 \/ f = 1) by lia. destruct Ef as [-> | ->]; repeat split; reflexivity. }
      destruct E as (-> & -> & -> & ->). unfold df.
      assert (R : Z.rem (2 * sy + sx) 2 = sx /\ Z.quot (2 * sy + sx) 2 = sy).
      { assert (Ex : sx = 0 \/ sx = 1) by lia. assert (Ey : sy = 0 \/ sy = 1) by lia.
        destruct Ex as [->| ->], Ey as [->| ->]; split; reflexivity. }
      destruct R as [-> ->]. cbn [fst snd].
      match goal with |- (_, _) = (_ + Z.quot ?p 2, _ + Z.quot ?q 2) =>
        replace p with (sx * 2) by ring; replace q with (sy * 2) by ring end.
      rewrite !Z.quot_mul by lia. f_equal; ring.
  Qed.
End Corner3.
