(** Same-block transformation and corner transformations. *)
From Coq Require Import ZArith QArith Qpower Lia Lqa List Bool Setoid Morphisms Qfield Permutation.
From Verif Require Import Base_Float Model_Face Spec_Face Proof_Face Proof_Face1 Proof_Face2.
Import ListNotations.
Open Scope Z_scope.

Lemma index_shift : forall lev m b i i' ai ao s il ol, 0 <= lev -> 1 <= m ->
  (il == inject_Z ai / inject_Z (2 ^ lev))%Q -> (ol == inject_Z ao / inject_Z (2 ^ lev))%Q ->
  i' = i + (ai - ao + s * 2 ^ lev) * m ->
  (index_coord ol lev m b i' == index_coord il lev m b i + inject_Z s)%Q.
Proof.
  intros lev m b i i' ai ao s il ol Hl Hm Hi Ho E. pose proof (pow2_pos lev Hl).
  unfold index_coord. rewrite Hi, Ho, E. injs. field.
  split; [apply inject_Z_nz; lia|apply inject_Z_nz; lia].
Qed.

Lemma half_shift : forall lev m b i i' c ai ao s il ol, 0 <= lev -> 1 <= m ->
  (il == inject_Z ai / inject_Z (2 ^ lev))%Q -> (ol == inject_Z ao / inject_Z (2 ^ (lev + 1)))%Q ->
  i' = b + (2 * ai - ao + s * 2 ^ (lev + 1)) * m + 2 * (i - b) + c ->
  (cell_coord ol (lev + 1) m b i' == half_cell_coord il lev m b i c + inject_Z s)%Q.
Proof.
  intros lev m b i i' c ai ao s il ol Hl Hm Hi Ho E. pose proof (pow2_pos lev Hl).
  unfold cell_coord, half_cell_coord. rewrite Hi, Ho, E.
  replace (2 ^ (lev + 1)) with (2 * 2 ^ lev) by (rewrite Z.pow_add_r by lia; lia).
  injs. change (inject_Z 2) with 2%Q. field.
  split; [apply inject_Z_nz; lia|apply inject_Z_nz; lia].
Qed.

Lemma axis_ndim : forall d a, axis d a <-> 0 <= a < ndim d.
Proof. intros [] a; unfold axis; cbn; tauto. Qed.

Lemma axis3 : forall d (P : Z -> Prop), P 0 -> P 1 -> (d = D3 -> P 2) -> forall a, axis d a -> P a.
Proof.
  intros d P H0 H1 H2 a Ha. unfold axis in Ha. destruct d.
  - assert (a = 0 \/ a = 1) as [->| ->] by (clear - Ha; lia); assumption.
  - assert (a = 0 \/ a = 1 \/ a = 2) as [->|[->| ->]] by lia; auto.
Qed.

Section S.
  Variable rnd : Q -> Q.
  Hypothesis Hrnd : rounding rnd.

  Lemma transform_face_same_block_ok : forall d ip op ft mx my mz based i j k,
    quadrant d ip -> quadrant d op -> level ip = level op ->
    face_transformation_valid d ft = true -> Z.testbit (er2 ft) 2 = true ->
    sizes_ok d (level ip) mx my mz -> 0 <= based <= 1 ->
    exists i' j' k', (d = D2 -> k' = k) /\
      translated d no_move (index_point ip mx my mz based i j k)
                           (index_point op mx my mz based i' j' k') /\
      (in_int (i' - i) -> in_int (j' - j) -> (d = D3 -> in_int (k' - k)) ->
       transform_face rnd d ip op ft mx my mz based i j k = Some (i', j', k')).
  Proof.
    intros d ip op ft mx my mz b i j k Hi Ho Hl Hv H4 Hs Hb.
    destruct (grid_fun _ _ Hi) as (A & HA). destruct (grid_fun _ _ Ho) as (B & HB).
    rewrite <- Hl in HB. assert (Hlev : 0 <= level ip <= 30).
    { destruct Hi as (Hlev & _). destruct d; lia. }
    assert (HS : forall a, 0 <= a < ndim d -> size_ok (level ip) (sel a mx my mz)).
    { intros a Ha. apply (sizes_axis d); assumption. }
    set (f := fun a => sel a i j k + (A a - B a + 0 * 2 ^ level ip) * sel a mx my mz).
    exists (f 0), (f 1), (match d with D2 => k | D3 => f 2 end).
    split; [intros ->; reflexivity|].
    assert (IS : forall a, 0 <= a < ndim d ->
      (index_coord (low op a) (level op) (sel a mx my mz) b (f a) ==
       index_coord (low ip a) (level ip) (sel a mx my mz) b (sel a i j k) + 0)%Q).
    { intros a Ha. destruct (HA a Ha), (HB a Ha), (HS a Ha). rewrite <- Hl.
      change 0%Q with (inject_Z 0). apply index_shift with (ai := A a) (ao := B a); try assumption; try lia. reflexivity. }
    split.
    - intros a Ha. unfold no_move. change (inject_Z 0) with 0%Q. pattern a. revert a Ha.
      apply axis3.
      + apply (IS 0). pose proof (ndim_le d). lia.
      + apply (IS 1). pose proof (ndim_le d). lia.
      + intros D. subst d. apply (IS 2). cbn; lia.
    - intros I1 I2 I3. unfold transform_face.
      rewrite (quadrant_ok _ _ Hi), (quadrant_ok _ _ Ho), Hv.
      assert (L4 : Z.land (er2 ft) 4 =? 0 = false).
      { apply Z.eqb_neq. intros C. change 4 with (2 ^ 2) in C.
        assert (T : Z.testbit (Z.land (er2 ft) (2 ^ 2)) 2 = false) by (rewrite C; reflexivity).
        rewrite Z.land_spec, H4, Z.pow2_bits_true in T by lia. discriminate. }
      rewrite L4.
      assert (AS : negb ((level ip =? level op) && (0 <=? level ip) && (level ip <? maxlevel_of d) && true && true &&
         (1 <=? mx) && (1 <=? my) && match d with D2 => true | D3 => 1 <=? mz end &&
         ((b =? 0) || (b =? 1)) && true) = false).
      { destruct Hs as (S0 & S1 & S2). destruct Hi as (Hlev' & _). unfold size_ok in *.
        destruct d; [|specialize (S2 eq_refl)]; cbn [maxlevel_of]; lia. }
      rewrite AS. cbn [negb].
      assert (SC : forall a, 0 <= a < ndim d -> in_int (f a - sel a i j k) ->
         same_coord rnd (low ip a) (low op a) (dbl rnd (Z.shiftl 1 (level ip))) (sel a mx my mz) (sel a i j k) = Some (f a)).
      { intros a Ha In. destruct (HA a Ha), (HB a Ha), (HS a Ha).
        apply (same_coord_ok rnd Hrnd) with (ai := A a) (ao := B a); try assumption; try lia.
        unfold f. lia. }
      pose proof (ndim_le d).
      pose proof (SC 0 ltac:(lia) I1) as K0. pose proof (SC 1 ltac:(lia) I2) as K1.
      cbn [low sel Z.eqb Pos.eqb] in K0, K1.
      change (low ip 0) with (xlower ip) in K0. change (low op 0) with (xlower op) in K0.
      change (low ip 1) with (ylower ip) in K1. change (low op 1) with (ylower op) in K1.
      rewrite K0, K1. cbn [bind]. destruct d; [reflexivity|].
      pose proof (SC 2 ltac:(cbn; lia) (I3 eq_refl)) as K2.
      change (low ip 2) with (zlower ip) in K2. change (low op 2) with (zlower op) in K2.
      cbn [sel Z.eqb Pos.eqb] in K2. rewrite K2. reflexivity.
  Qed.

  Lemma near0_zero : forall x, (x == 0)%Q -> near0 x = true.
  Proof.
    intros x Hx. unfold near0. apply negb_true_iff. apply not_true_iff_false. intros C.
    apply Qle_bool_iff in C.
    assert (X : ((if Qle_bool 0 x then x else - x) == 0)%Q).
    { destruct (Qle_bool 0 x); rewrite Hx; reflexivity. }
    rewrite X in C. unfold Qle in C. cbn in C. lia.
  Qed.

  Lemma corner_shift_ok : forall bb bit lo up,
    (bb = true -> if bit : bool then (lo == 0)%Q else (up == 1)%Q) ->
    exists sh, corner_shift rnd bb bit lo up = Some sh /\
      (sh == inject_Z (if bb then (if bit then -1 else 1) else 0))%Q.
  Proof.
    intros bb bit lo up H. unfold corner_shift. destruct bb; cbn [negb].
    - specialize (H eq_refl). destruct bit; cbn [negb].
      + rewrite (near0_zero lo H). eexists; split; reflexivity.
      + rewrite near0_zero; [eexists; split; reflexivity|].
        transitivity (up - 1)%Q; [|rewrite H; reflexivity].
        apply Hrnd. exists 0, 0. split; [cbn; lia|]. split; [lia|]. rewrite H. reflexivity.
    - eexists; split; reflexivity.
  Qed.

  Definition cmove (bb : bool) (c a : Z) : Z := if bb then corner_move c a else no_move a.

  Lemma testbit_land : forall c n, 0 <= n -> negb (Z.land c (2 ^ n) =? 0) = Z.testbit c n.
  Proof.
    intros c n Hn. destruct (Z.testbit c n) eqn:T.
    - apply negb_true_iff, Z.eqb_neq. intros C.
      assert (X : Z.testbit (Z.land c (2 ^ n)) n = false) by (rewrite C; apply Z.bits_0).
      rewrite Z.land_spec, T, Z.pow2_bits_true in X by lia. discriminate.
    - apply negb_false_iff, Z.eqb_eq. apply Z.bits_inj'. intros k Hk.
      rewrite Z.land_spec, Z.bits_0. destruct (Z.eq_dec k n) as [->|NE].
      + rewrite T. reflexivity.
      + rewrite (Z.pow2_bits_false n k) by congruence. apply andb_false_r.
  Qed.

  Lemma transform_corner_ok : forall d ip op c (bb : bool) mx my mz based i j k,
    quadrant d ip -> quadrant d op -> level ip = level op ->
    (bb = true -> at_opposite_corner d c op) ->
    sizes_ok d (level ip) mx my mz -> 0 <= based <= 1 ->
    exists i' j' k', (d = D2 -> k' = k) /\
      translated d (if bb then corner_move c else no_move)
           (index_point ip mx my mz based i j k) (index_point op mx my mz based i' j' k') /\
      (in_int (i' - i) -> in_int (j' - j) -> (d = D3 -> in_int (k' - k)) ->
       transform_corner rnd d ip op c bb mx my mz based i j k = Some (i', j', k')).
  Proof.
    intros d ip op c bb mx my mz b i j k Hi Ho Hl Hc Hs Hb.
    destruct (grid_fun _ _ Hi) as (A & HA). destruct (grid_fun _ _ Ho) as (B & HB).
    rewrite <- Hl in HB. assert (Hlev : 0 <= level ip <= 30).
    { destruct Hi as (Hlev & _). destruct d; lia. }
    assert (HS : forall a, 0 <= a < ndim d -> size_ok (level ip) (sel a mx my mz)).
    { intros a Ha. apply (sizes_axis d); assumption. }
    pose proof (ndim_le d) as ND.
    set (s := fun a => if bb then corner_move c a else 0).
    assert (Sr : forall a, -1 <= s a <= 1).
    { intros a. unfold s, corner_move. destruct bb, (Z.testbit c a); lia. }
    set (f := fun a => sel a i j k + (A a - B a + s a * 2 ^ level ip) * sel a mx my mz).
    exists (f 0), (f 1), (match d with D2 => k | D3 => f 2 end).
    split; [intros ->; reflexivity|].
    assert (IS : forall a, 0 <= a < ndim d ->
      (index_coord (low op a) (level op) (sel a mx my mz) b (f a) ==
       index_coord (low ip a) (level ip) (sel a mx my mz) b (sel a i j k) + inject_Z (s a))%Q).
    { intros a Ha. destruct (HA a Ha), (HB a Ha), (HS a Ha). rewrite <- Hl.
      apply index_shift with (ai := A a) (ao := B a); try assumption; try lia. reflexivity. }
    assert (ES : forall a, (if bb then corner_move c else no_move) a = s a).
    { intros a. unfold s, no_move. destruct bb; reflexivity. }
    split.
    - intros a Ha. rewrite ES. pattern a. revert a Ha.
      apply axis3.
      + apply (IS 0). lia.
      + apply (IS 1). lia.
      + intros D. subst d. apply (IS 2). cbn; lia.
    - intros I1 I2 I3. unfold transform_corner.
      rewrite (quadrant_ok _ _ Hi), (quadrant_ok _ _ Ho).
      assert (AS : negb ((level ip =? level op) && (0 <=? level ip) && (level ip <? maxlevel_of d) && true && true &&
         (1 <=? mx) && (1 <=? my) && match d with D2 => true | D3 => 1 <=? mz end &&
         ((b =? 0) || (b =? 1))) = false).
      { destruct Hs as (S0 & S1 & S2). destruct Hi as (Hlev' & _). unfold size_ok in *.
        destruct d; [|specialize (S2 eq_refl)]; cbn [maxlevel_of]; lia. }
      rewrite AS.
      change (Z.land c 4) with (Z.land c (2 ^ 2)).
      change (Z.land c 1) with (Z.land c (2 ^ 0)). change (Z.land c 2) with (Z.land c (2 ^ 1)).
      rewrite !testbit_land by lia.
      destruct (corner_shift_ok bb (Z.testbit c 0) (xlower op) (xupper op)) as (sx & -> & Hsx).
      { intros HB0. specialize (Hc HB0 0 ltac:(apply axis_ndim; lia)). exact Hc. }
      destruct (corner_shift_ok bb (Z.testbit c 1) (ylower op) (yupper op)) as (sy & -> & Hsy).
      { intros HB0. specialize (Hc HB0 1 ltac:(apply axis_ndim; lia)). exact Hc. }
      cbn [bind].
      assert (HR : forall a, 0 <= a < ndim d ->
         (fmul rnd (dbl rnd (Z.shiftl 1 (level ip))) (dbl rnd (sel a mx my mz)) ==
          inject_Z (2 ^ level ip * sel a mx my mz))%Q).
      { intros a Ha. destruct (HS a Ha). apply R_ok; auto; lia. }
      assert (SC : forall a sh, 0 <= a < ndim d -> in_int (f a - sel a i j k) -> (sh == inject_Z (s a))%Q ->
         corner_coord rnd (low ip a) (low op a) sh
           (fmul rnd (dbl rnd (Z.shiftl 1 (level ip))) (dbl rnd (sel a mx my mz))) (sel a i j k) = Some (f a)).
      { intros a sh Ha In Hsh. destruct (HA a Ha), (HB a Ha), (HS a Ha).
        apply (corner_coord_ok rnd Hrnd) with (lev := level ip) (m := sel a mx my mz) (ai := A a) (ao := B a) (s := s a);
        try assumption; try lia; try apply Sr. apply HR; assumption. reflexivity. }
      pose proof (SC 0 sx ltac:(lia) I1 Hsx) as K0. pose proof (SC 1 sy ltac:(lia) I2 Hsy) as K1.
      change (low ip 0) with (xlower ip) in K0. change (low op 0) with (xlower op) in K0.
      change (low ip 1) with (ylower ip) in K1. change (low op 1) with (ylower op) in K1.
      cbn [sel Z.eqb Pos.eqb] in K0, K1.
      destruct d.
      + cbn [bind]. rewrite K0, K1. reflexivity.
      + destruct (corner_shift_ok bb (Z.testbit c 2) (zlower op) (zupper op)) as (sz & -> & Hsz).
        { intros HB0. specialize (Hc HB0 2 ltac:(apply axis_ndim; cbn; lia)). exact Hc. }
        cbn [bind]. rewrite K0, K1. cbn [bind].
        pose proof (SC 2 sz ltac:(cbn; lia) (I3 eq_refl) Hsz) as K2.
        change (low ip 2) with (zlower ip) in K2. change (low op 2) with (zlower op) in K2.
        cbn [sel Z.eqb Pos.eqb] in K2. rewrite K2. reflexivity.
  Qed.

  Definition cell3 (c : Z * Z * Z) : Z * Z * Z := c.

  Lemma straight_delivers : forall d ip op mx my mz b i j k s (f : Z -> Z),
    (forall a c, 0 <= a < ndim d -> 
      (cell_coord (low op a) (level op) (sel a mx my mz) b (f a + c) ==
       half_cell_coord (low ip a) (level ip) (sel a mx my mz) b (sel a i j k) c + inject_Z (s a))%Q) ->
    delivers d (map (fun '(kx, ky, kz) =>
                   (4 * kz + 2 * ky + kx, (f 0 + kx, f 1 + ky, (match d with D2 => k | D3 => f 2 end) + kz)))
                (children d))
       (fun sx sy sz '(i', j', k') =>
          translated d s (child_center ip mx my mz b i j k sx sy sz)
                         (cell_center op mx my mz b i' j' k')).
  Proof.
    intros d ip op mx my mz b i j k s f H. pose proof (ndim_le d). split.
    - destruct d; apply Permutation_refl.
    - intros sx sy sz Hc.
      exists (f 0 + sx, f 1 + sy, (match d with D2 => k | D3 => f 2 end) + sz). split.
      + apply in_map_iff. exists (sx, sy, sz). split; [reflexivity|].
        destruct Hc as (Hx & Hy & Hz). unfold children. destruct d.
        * assert (sz = 0) by lia. subst sz.
          assert (sx = 0 \/ sx = 1) as [->| ->] by lia; assert (sy = 0 \/ sy = 1) as [->| ->] by lia; cbn; tauto.
        * assert (sx = 0 \/ sx = 1) as [->| ->] by lia; assert (sy = 0 \/ sy = 1) as [->| ->] by lia;
          assert (sz = 0 \/ sz = 1) as [->| ->] by lia; cbn; tauto.
      + intros a Ha. pattern a. revert a Ha. apply axis3.
        * apply (H 0). lia.
        * apply (H 1). lia.
        * intros D. subst d. apply (H 2). cbn; lia.
  Qed.

  Lemma transform_corner2_ok : forall d ip op c (bb : bool) mx my mz based i j k,
    quadrant d ip -> quadrant d op -> level op = level ip + 1 ->
    (bb = true -> at_opposite_corner d c op) ->
    sizes_ok d (level op) mx my mz -> 0 <= based <= 1 ->
    in_int i -> in_int j -> (d = D3 -> in_int k) ->
    exists outs,
      delivers d outs (fun sx sy sz '(i', j', k') =>
          translated d (if bb then corner_move c else no_move)
             (child_center ip mx my mz based i j k sx sy sz)
             (cell_center op mx my mz based i' j' k')) /\
      ((forall s i' j' k', In (s, (i', j', k')) outs ->
          Z.abs i' <= 2 ^ 30 /\ Z.abs j' <= 2 ^ 30 /\ (d = D3 -> Z.abs k' <= 2 ^ 30)) ->
       transform_corner2 rnd d ip op c bb mx my mz based i j k = Some outs).
  Proof.
    intros d ip op c bb mx my mz b i j k Hi Ho Hl Hc Hs Hb Ii Ij Ik.
    destruct (grid_fun _ _ Hi) as (A & HA). destruct (grid_fun _ _ Ho) as (B & HB).
    assert (Hlev : 0 <= level ip /\ level ip + 1 <= 30).
    { destruct Hi as (Hlev & _). destruct Ho as (Hlev' & _). destruct d; lia. }
    assert (HS : forall a, 0 <= a < ndim d -> size_ok (level op) (sel a mx my mz)).
    { intros a Ha. apply (sizes_axis d); assumption. }
    pose proof (ndim_le d) as ND.
    set (s := fun a => if bb then corner_move c a else 0).
    assert (Sr : forall a, -1 <= s a <= 1).
    { intros a. unfold s, corner_move. destruct bb, (Z.testbit c a); lia. }
    set (f := fun a => b + (2 * A a - B a + s a * 2 ^ level op) * sel a mx my mz + 2 * (sel a i j k - b)).
    exists (map (fun '(kx, ky, kz) =>
                   (4 * kz + 2 * ky + kx, (f 0 + kx, f 1 + ky, (match d with D2 => k | D3 => f 2 end) + kz)))
                (children d)).
    split.
    - assert (SD := straight_delivers d ip op mx my mz b i j k s f).
      assert (SE : s = (if bb then corner_move c else no_move) ).
      { unfold s. destruct bb; reflexivity. }
      rewrite <- SE. apply SD. intros a e Ha. destruct (HA a Ha), (HB a Ha), (HS a Ha).
      rewrite Hl in *.
      apply half_shift with (ai := A a) (ao := B a); try assumption; try lia.
      unfold f. rewrite Hl. lia.
    - intros Small.
      assert (SM : forall a, 0 <= a < ndim d -> in_int (f a - b)).
      { assert (X : exists sl, In (sl, (f 0 + 0, f 1 + 0, (match d with D2 => k | D3 => f 2 end) + 0)) (map (fun '(kx, ky, kz) =>
                   (4 * kz + 2 * ky + kx, (f 0 + kx, f 1 + ky, (match d with D2 => k | D3 => f 2 end) + kz)))
                (children d))).
        { exists 0. destruct d; left; reflexivity. }
        destruct X as (sl & X). destruct (Small _ _ _ _ X) as (Y0 & Y1 & Y2).
        intros a Ha. unfold in_int, int_min, int_max.
        assert (a = 0 \/ a = 1 \/ (a = 2 /\ d = D3)) as [->|[->|(-> & D)]].
        { destruct d; cbn [ndim] in Ha; [lia|]. assert (a = 0 \/ a = 1 \/ a = 2) as [|[|]] by lia; auto. }
        + lia. + lia. + subst d. specialize (Y2 eq_refl). lia. }
      unfold transform_corner2.
      rewrite (quadrant_ok _ _ Hi), (quadrant_ok _ _ Ho).
      assert (AS : negb ((level ip + 1 =? level op) && (0 <=? level ip) && (level op <? maxlevel_of d) && true && true &&
         (1 <=? mx) && (1 <=? my) && match d with D2 => true | D3 => 1 <=? mz end &&
         ((b =? 0) || (b =? 1))) = false).
      { destruct Hs as (S0 & S1 & S2). destruct Ho as (Hlev' & _). unfold size_ok in *.
        destruct d; [|specialize (S2 eq_refl)]; cbn [maxlevel_of]; lia. }
      rewrite AS.
      change (Z.land c 1) with (Z.land c (2 ^ 0)). change (Z.land c 2) with (Z.land c (2 ^ 1)).
      change (Z.land c 4) with (Z.land c (2 ^ 2)).
      rewrite !testbit_land by lia.
      destruct (corner_shift_ok bb (Z.testbit c 0) (xlower op) (xupper op)) as (sx & -> & Hsx).
      { intros HB0. specialize (Hc HB0 0 ltac:(apply axis_ndim; lia)). exact Hc. }
      destruct (corner_shift_ok bb (Z.testbit c 1) (ylower op) (yupper op)) as (sy & -> & Hsy).
      { intros HB0. specialize (Hc HB0 1 ltac:(apply axis_ndim; lia)). exact Hc. }
      cbn [bind].
      assert (HR : forall a, 0 <= a < ndim d ->
         (fmul rnd (dbl rnd (Z.shiftl 1 (level op))) (dbl rnd (sel a mx my mz)) ==
          inject_Z (2 ^ level op * sel a mx my mz))%Q).
      { intros a Ha. destruct (HS a Ha). apply R_ok; auto; lia. }
      assert (SC : forall a sh, 0 <= a < ndim d -> in_int (sel a i j k) -> (sh == inject_Z (s a))%Q ->
         corner_coord2 rnd (low ip a) (low op a) sh
           (fmul rnd (dbl rnd (Z.shiftl 1 (level op))) (dbl rnd (sel a mx my mz))) (sel a i j k) b = Some (f a)).
      { intros a sh Ha In Hsh. pose proof (SM a Ha) as SMa. specialize (HR a Ha).
        destruct (HA a Ha), (HB a Ha), (HS a Ha). unfold f in *.
        rewrite Hl in *. unfold in_int, int_min, int_max in In.
        apply (corner_coord2_ok rnd Hrnd) with (lev := level ip) (m := sel a mx my mz) (ai := A a) (ao := B a) (s := s a);
        try assumption; try lia; try apply Sr. }
      pose proof (SC 0 sx ltac:(lia) Ii Hsx) as K0. pose proof (SC 1 sy ltac:(lia) Ij Hsy) as K1.
      change (low ip 0) with (xlower ip) in K0. change (low op 0) with (xlower op) in K0.
      change (low ip 1) with (ylower ip) in K1. change (low op 1) with (ylower op) in K1.
      cbn [sel Z.eqb Pos.eqb] in K0, K1.
      destruct d.
      + cbn [bind]. rewrite K0, K1. reflexivity.
      + destruct (corner_shift_ok bb (Z.testbit c 2) (zlower op) (zupper op)) as (sz & -> & Hsz).
        { intros HB0. specialize (Hc HB0 2 ltac:(apply axis_ndim; cbn; lia)). exact Hc. }
        cbn [bind]. rewrite K0, K1. cbn [bind].
        pose proof (SC 2 sz ltac:(cbn; lia) (Ik eq_refl) Hsz) as K2.
        change (low ip 2) with (zlower ip) in K2. change (low op 2) with (zlower op) in K2.
        cbn [sel Z.eqb Pos.eqb] in K2. rewrite K2. reflexivity.
  Qed.

  Lemma transform_face2_same_block_ok : forall d ip op ft mx my mz based i j k,
    quadrant d ip -> quadrant d op -> level op = level ip + 1 ->
    face_transformation_valid d ft = true -> Z.testbit (er2 ft) 2 = true ->
    sizes_ok d (level op) mx my mz -> 0 <= based <= 1 ->
    in_int i -> in_int j -> (d = D3 -> in_int k) ->
    exists outs,
      delivers d outs (fun sx sy sz '(i', j', k') =>
          translated d no_move
             (child_center ip mx my mz based i j k sx sy sz)
             (cell_center op mx my mz based i' j' k')) /\
      ((forall s i' j' k', In (s, (i', j', k')) outs ->
          Z.abs i' <= 2 ^ 30 /\ Z.abs j' <= 2 ^ 30 /\ (d = D3 -> Z.abs k' <= 2 ^ 30)) ->
       transform_face2 rnd d ip op ft mx my mz based i j k = Some outs).
  Proof.
    intros d ip op ft mx my mz b i j k Hi Ho Hl Hv H4 Hs Hb Ii Ij Ik.
    destruct (grid_fun _ _ Hi) as (A & HA). destruct (grid_fun _ _ Ho) as (B & HB).
    assert (Hlev : 0 <= level ip /\ level ip + 1 <= 30).
    { destruct Hi as (Hlev & _). destruct Ho as (Hlev' & _). destruct d; lia. }
    assert (HS : forall a, 0 <= a < ndim d -> size_ok (level op) (sel a mx my mz)).
    { intros a Ha. apply (sizes_axis d); assumption. }
    pose proof (ndim_le d) as ND.
    set (f := fun a => b + (2 * A a - B a) * sel a mx my mz + 2 * (sel a i j k - b)).
    exists (map (fun '(kx, ky, kz) =>
                   (4 * kz + 2 * ky + kx, (f 0 + kx, f 1 + ky, (match d with D2 => k | D3 => f 2 end) + kz)))
                (children d)).
    split.
    - apply (straight_delivers d ip op mx my mz b i j k no_move f).
      intros a e Ha. destruct (HA a Ha), (HB a Ha), (HS a Ha).
      rewrite Hl in *. unfold no_move.
      apply half_shift with (ai := A a) (ao := B a); try assumption; try lia.
      unfold f. lia.
    - intros Small.
      assert (SM : forall a, 0 <= a < ndim d -> in_int (f a - b)).
      { assert (X : exists sl, In (sl, (f 0 + 0, f 1 + 0, (match d with D2 => k | D3 => f 2 end) + 0)) (map (fun '(kx, ky, kz) =>
                   (4 * kz + 2 * ky + kx, (f 0 + kx, f 1 + ky, (match d with D2 => k | D3 => f 2 end) + kz)))
                (children d))).
        { exists 0. destruct d; left; reflexivity. }
        destruct X as (sl & X). destruct (Small _ _ _ _ X) as (Y0 & Y1 & Y2).
        intros a Ha. unfold in_int, int_min, int_max.
        assert (a = 0 \/ a = 1 \/ (a = 2 /\ d = D3)) as [->|[->|(-> & D)]].
        { destruct d; cbn [ndim] in Ha; [lia|]. assert (a = 0 \/ a = 1 \/ a = 2) as [|[|]] by lia; auto. }
        + lia. + lia. + subst d. specialize (Y2 eq_refl). lia. }
      unfold transform_face2.
      rewrite (quadrant_ok _ _ Hi), (quadrant_ok _ _ Ho), Hv.
      assert (L4 : Z.land (er2 ft) 4 =? 0 = false).
      { apply negb_true_iff. change 4 with (2 ^ 2). rewrite testbit_land by lia. exact H4. }
      rewrite L4.
      assert (AS : negb ((level ip + 1 =? level op) && (0 <=? level ip) && (level op <? maxlevel_of d) && true && true &&
         (1 <=? mx) && (1 <=? my) && match d with D2 => true | D3 => 1 <=? mz end &&
         ((b =? 0) || (b =? 1)) && true) = false).
      { destruct Hs as (S0 & S1 & S2). destruct Ho as (Hlev' & _). unfold size_ok in *.
        destruct d; [|specialize (S2 eq_refl)]; cbn [maxlevel_of]; lia. }
      rewrite AS. cbn [negb].
      assert (SC : forall a, 0 <= a < ndim d -> in_int (sel a i j k) ->
         same_coord2 rnd (low ip a) (low op a) (dbl rnd (Z.shiftl 1 (level op))) (sel a mx my mz) (sel a i j k) b = Some (f a)).
      { intros a Ha In. pose proof (SM a Ha) as SMa.
        destruct (HA a Ha), (HB a Ha), (HS a Ha). unfold f in *.
        rewrite Hl in *. unfold in_int, int_min, int_max in In.
        apply (same_coord2_ok rnd Hrnd) with (lev := level ip) (m := sel a mx my mz) (ai := A a) (ao := B a);
        try assumption; try lia. }
      pose proof (SC 0 ltac:(lia) Ii) as K0. pose proof (SC 1 ltac:(lia) Ij) as K1.
      change (low ip 0) with (xlower ip) in K0. change (low op 0) with (xlower op) in K0.
      change (low ip 1) with (ylower ip) in K1. change (low op 1) with (ylower op) in K1.
      cbn [sel Z.eqb Pos.eqb] in K0, K1. rewrite K0, K1. cbn [bind].
      destruct d.
      + reflexivity.
      + pose proof (SC 2 ltac:(cbn; lia) (Ik eq_refl)) as K2.
        change (low ip 2) with (zlower ip) in K2. change (low op 2) with (zlower op) in K2.
        cbn [sel Z.eqb Pos.eqb] in K2. rewrite K2. reflexivity.
  Qed.
End S.
