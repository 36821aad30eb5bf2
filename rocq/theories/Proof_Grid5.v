(** Averaging across faces from half-size neighbors. *)
From Coq Require Import ZArith QArith Qminmax Qabs List Lia Lqa Bool Qfield Permutation.
From Verif Require Import Base_Float Model_Face Spec_Face Proof_Face Proof_Face1 Proof_Face2 Proof_Face3
  Proof_Face4 Proof_Face5 Model_Grid Spec_Grid Proof_Grid Proof_Grid2 Proof_Grid4.
Import ListNotations.
Open Scope Z_scope.

(** fine cell that is child (sx, sy) of the coarse cell p *)
Definition nchild (f : Z) (sx sy : Z) : Z := match f with 0 | 1 => sx | _ => sy end.
Definition tchild (f : Z) (sx sy : Z) : Z := match f with 0 | 1 => sy | _ => sx end.
Definition fdepth (f dep s : Z) : Z := if Z.odd f then 2 * dep - 1 + s else 2 * dep - s.
Definition fimage (f nf : Z) (o : bool) (pos m : Z) (p : Z * Z) (sx sy : Z) : Z * Z :=
  inner_cell nf m (fdepth f (depth f m p) (nchild f sx sy))
    (flip o m (2 * posn f p - 1 + tchild f sx sy - pos * m)).

Lemma find_slot : forall (outs : outputs) s c, NoDup (map fst outs) -> In (s, c) outs ->
  find (fun '(s', _) => s' =? s) outs = Some (s, c).
Proof.
  induction outs as [|[s1 c1] outs IH]; intros s c ND HI; [destruct HI|].
  cbn [find]. cbn [map fst] in ND. apply NoDup_cons_iff in ND. destruct ND as [N1 N2].
  destruct HI as [E|HI].
  - injection E as -> ->. now rewrite Z.eqb_refl.
  - destruct (Z.eqb_spec s1 s) as [->|Hne]; [|now apply IH].
    exfalso. apply N1. apply (in_map fst) in HI. exact HI.
Qed.

Section Face.
  Variable rnd : Q -> Q.
  Hypothesis Hrnd : rounding rnd.
  Variable d : dims.
  Variable m : Z.

  (** outputs that deliver, for each child, a cell known to be unique *)
  Lemma delivered : forall (outs : outputs) same (F : Z -> Z -> Z * Z),
    delivers D2 outs same ->
    (forall sx sy i' j' k', child D2 sx sy 0 -> same sx sy 0 (i', j', k') -> (i', j') = F sx sy) ->
    (forall sx sy, child D2 sx sy 0 ->
       option_map (fun '(_, (i, j, _)) => (i, j)) (find (fun '(s, _) => s =? 2 * sy + sx) outs) = Some (F sx sy)) /\
    (forall s i' j' k', In (s, (i', j', k')) outs -> exists sx sy, child D2 sx sy 0 /\ (i', j') = F sx sy).
  Proof.
    intros outs same F (HP & HD) HU.
    assert (ND : NoDup (map fst outs)).
    { eapply Permutation_NoDup; [apply Permutation_sym, HP|]. repeat constructor; cbn; lia. }
    assert (A : forall sx sy, child D2 sx sy 0 -> exists k', In (2 * sy + sx, (fst (F sx sy), snd (F sx sy), k')) outs).
    { intros sx sy Hc. destruct (HD sx sy 0 Hc) as (((i' & j') & k') & HI & HS).
      rewrite <- (HU sx sy i' j' k' Hc HS). exists k'. unfold child_number in HI.
      replace (2 * sy + sx) with (4 * 0 + 2 * sy + sx) by lia. exact HI. }
    split.
    - intros sx sy Hc. destruct (A sx sy Hc) as (k' & HI). rewrite (find_slot _ _ _ ND HI). cbn [option_map].
      now destruct (F sx sy).
    - intros s i' j' k' HI.
      assert (Hs : In s [0; 1; 2; 3]).
      { eapply Permutation_in; [exact HP|]. apply (in_map fst) in HI. exact HI. }
      assert (E : exists sx sy, child D2 sx sy 0 /\ s = 2 * sy + sx).
      { unfold child. destruct Hs as [<-|[<-|[<-|[<-|[]]]]];
          [exists 0, 0|exists 1, 0|exists 0, 1|exists 1, 1]; lia. }
      destruct E as (sx & sy & Hc & ->). exists sx, sy. split; [exact Hc|].
      destruct (A sx sy Hc) as (k'' & HI').
      pose proof (find_slot _ _ _ ND HI) as E1. pose proof (find_slot _ _ _ ND HI') as E2.
      rewrite E1 in E2. assert (E3 : (i', j', k') = (fst (F sx sy), snd (F sx sy), k'')) by congruence.
      destruct (F sx sy). cbn [fst snd] in E3. congruence.
  Qed.

  Lemma fimage_abs : forall f nf o pos p sx sy, 0 <= f < 4 -> 0 <= nf < 4 -> 1 <= m < 2 ^ 28 ->
    - m <= depth f m p <= m + 1 -> - 2 * m - 1 <= 2 * posn f p - 1 - pos * m <= 3 * m -> child D2 sx sy 0 ->
    Z.abs (fst (fimage f nf o pos m p sx sy)) <= 2 ^ 30 /\ Z.abs (snd (fimage f nf o pos m p sx sy)) <= 2 ^ 30.
  Proof.
    intros f nf o pos p sx sy Hf Hn Hm Hd Ht (Hsx & Hsy & _). unfold fimage.
    assert (B1 : 0 <= nchild f sx sy <= 1 /\ 0 <= tchild f sx sy <= 1).
    { clear - Hf Hsx Hsy. face4 f Hf; cbn [nchild tchild]; lia. }
    set (dd := fdepth f (depth f m p) (nchild f sx sy)).
    assert (B2 : - 2 * m - 1 <= dd <= 2 * m + 2) by (unfold dd, fdepth; destruct (Z.odd f); lia).
    set (tt := flip o m _). assert (B3 : - 2 * m - 1 <= tt <= 3 * m + 2).
    { unfold tt, flip. destruct o; lia. }
    clearbody dd tt. clear - Hn Hm B2 B3. face4 nf Hn; cbn [inner_cell fst snd]; lia.
  Qed.

  Lemma same_cells_unique : forall f nf o P op i j k i' j' k', 0 <= f < 4 -> 0 <= nf < 4 -> 0 <= level op -> 1 <= m ->
    same_point (glue2d f nf o) P (cell_center op m m 0 1 i j k) ->
    same_point (glue2d f nf o) P (cell_center op m m 0 1 i' j' k') -> (i, j) = (i', j').
  Proof.
    intros f nf o P op i j k i' j' k' Hf Hn Hl Hm [N1 T1] [N2 T2].
    specialize (T1 (1 - f / 2) (1 - nf / 2) o (or_introl eq_refl)).
    specialize (T2 (1 - f / 2) (1 - nf / 2) o (or_introl eq_refl)).
    rewrite N1 in N2. rewrite <- T2 in T1. clear T2. rename N2 into N, T1 into T. clear N1.
    unfold beyond, glue2d, face2d, cell_center, pt in N, T. cbn [here there upper normal_axis] in N, T.
    assert (NEG : forall a b, (- - a == - - b -> a == b)%Q) by (intros; lra).
    assert (SUB : forall a b, (- (a - 1) == - (b - 1) -> a == b)%Q) by (intros; lra).
    face4 nf Hn; cbn [Z.odd] in N;
      [change (0 / 2) with 0 in *|change (1 / 2) with 0 in *|change (2 / 2) with 1 in *|change (3 / 2) with 1 in *];
      [change (1 - 0) with 1 in T|change (1 - 0) with 1 in T|change (1 - 1) with 0 in T|change (1 - 1) with 0 in T];
      first [apply NEG in N | apply SUB in N];
      apply cell_coord_inj in N; try lia; apply cell_coord_inj in T; try lia; now rewrite N, T.
  Qed.

  Lemma fimage_same : forall ip op f nf (o : bool) pos i j sx sy k, 0 <= f < 4 -> 0 <= nf < 4 ->
    0 <= level ip -> level op = level ip + 1 -> 1 <= m ->
    touches_face f ip -> touches_face nf op ->
    (along nf op == if o then 1 - (along f ip + inject_Z pos * width op) - width op
                    else along f ip + inject_Z pos * width op)%Q ->
    same_point (glue2d f nf o) (child_center ip m m 0 1 i j 0 sx sy 0)
      (cell_center op m m 0 1 (fst (fimage f nf o pos m (i, j) sx sy)) (snd (fimage f nf o pos m (i, j) sx sy)) k).
  Proof.
    intros ip op f nf o pos i j sx sy k Hf Hn Hlev Hl Hm T1 T2 AL.
    pose proof (pow2_pos (level ip) Hlev) as PP.
    assert (EP : 2 ^ level op = 2 * 2 ^ level ip) by (rewrite Hl, Z.pow_add_r by lia; lia).
    unfold touches_face, width in *. rewrite EP in *.
    assert (N1 : ~ (inject_Z m == 0)%Q) by (apply inject_Z_nz; lia).
    assert (N2 : ~ (inject_Z (2 ^ level ip) == 0)%Q) by (apply inject_Z_nz; lia).
    split; [|intros ma tb rev [E|[]]; injection E as <- <- <-];
      destruct o; face4 f Hf; face4 nf Hn;
      cbn [along across] in T1, T2, AL;
      unfold fimage; cbn [depth posn nchild tchild fst snd flip inner_cell]; unfold fdepth; cbn [Z.odd];
      unfold beyond, glue2d, face2d, child_center, cell_center, pt; cbn [here there upper normal_axis];
      change (0 / 2) with 0; change (1 / 2) with 0; change (2 / 2) with 1; change (3 / 2) with 1;
      change (1 - 0) with 1; change (1 - 1) with 0;
      cbn -[inject_Z cell_coord half_cell_coord Qminus Z.mul Z.sub Z.add Z.pow Qopp];
      unfold half_cell_coord, cell_coord; rewrite ?EP, ?T1, ?T2, ?AL; injs;
      change (inject_Z 2) with 2%Q; change (inject_Z 1) with 1%Q; field; (split; assumption).
  Qed.

  Lemma t_half_gen : forall ip op f nf o pos ft i j, level op = level ip + 1 -> -1 <= pos <= 2 ->
    beyond_face f nf o (along f ip + inject_Z pos * width op)%Q ip op ft -> square d m (level op) ->
    - m <= depth f m (i, j) <= m + 1 -> - 2 * m - 1 <= 2 * posn f (i, j) - 1 - pos * m <= 3 * m ->
    exists ij, t_face_half rnd d (mkT ip op ft) i j = Some ij /\
      forall sx sy, 0 <= sx <= 1 -> 0 <= sy <= 1 -> ij (2 * sy + sx) = Some (fimage f nf o pos m (i, j) sx sy).
  Proof.
    intros ip op f nf o pos ft i j Hl Hp (Hf & Hn & Hi & Ho & Hor) (Hx & Hy & Hm & HR) Hd Ht.
    assert (Hlev : 0 <= level ip) by (destruct Hi as (? & _); lia).
    pose proof (pow2_pos (level ip) Hlev) as PP.
    assert (EP : 2 ^ level op = 2 * 2 ^ level ip) by (rewrite Hl, Z.pow_add_r by lia; lia).
    assert (Iij : in_int i /\ in_int j).
    { assert (B : - 3 * m <= posn f (i, j) <= 3 * m) by nia. clear Ht.
      unfold in_int, int_min, int_max. clear - Hf Hm Hd B. face4 f Hf; cbn [depth posn fst snd] in *; lia. }
    destruct Iij as [Ii Ij].
    assert (SZ : sizes_ok D2 (level op) m m 0) by (split; [split; lia|]; split; [split; lia|discriminate]).
    assert (DONE : forall outs same, delivers D2 outs same ->
      (forall sx sy i' j' k', child D2 sx sy 0 -> same sx sy 0 (i', j', k') -> (i', j') = fimage f nf o pos m (i, j) sx sy) ->
      ((forall s i' j' k', In (s, (i', j', k')) outs ->
          Z.abs i' <= 2 ^ 30 /\ Z.abs j' <= 2 ^ 30 /\ (D2 = D3 -> Z.abs k' <= 2 ^ 30)) ->
       transform_face2 rnd D2 ip op ft m m 0 1 i j 0 = Some outs) ->
      exists ij, t_face_half rnd d (mkT ip op ft) i j = Some ij /\
      forall sx sy, 0 <= sx <= 1 -> 0 <= sy <= 1 -> ij (2 * sy + sx) = Some (fimage f nf o pos m (i, j) sx sy)).
    { intros outs same DEL HU RUN. destruct (delivered outs same _ DEL HU) as [D1 D2'].
      unfold t_face_half. cbn [this_patch neighbor_patch transform]. rewrite Hx, Hy. rewrite RUN.
      - cbn [bind]. eexists. split; [reflexivity|]. intros sx sy Hsx Hsy. cbn beta.
        apply D1. unfold child. lia.
      - intros s i' j' k' HI. destruct (D2' s i' j' k' HI) as (sx & sy & Hc & E).
        destruct (fimage_abs f nf o pos (i, j) sx sy Hf Hn Hm Hd Ht Hc) as [B1 B2].
        rewrite <- E in B1, B2. cbn [fst snd] in B1, B2. split; [exact B1|]. split; [exact B2|discriminate]. }
    destruct Hor as [(T1 & T2 & -> & AL)|(-> & -> & -> & AL & AC)].
    - destruct (transform_face2_across_ok rnd Hrnd D2 ip op (glue2d f nf o)
                  (expand_face_transform_2d f (b2z o * 4 + nf)) m m 0 1 i j 0) as (outs & DEL & RUN);
        try assumption; try lia; try discriminate.
      { apply expand_describes; assumption. }
      { split; [clear - Hf Hn; face4 f Hf; face4 nf Hn; reflexivity|].
        intros ma tb rev [E|[]]. injection E as <- <- <-.
        clear - Hf Hn. face4 f Hf; face4 nf Hn; reflexivity. }
      apply (DONE outs _ DEL); [|exact RUN].
      intros sx sy i' j' k' Hc HS.
      rewrite (surjective_pairing (fimage f nf o pos m (i, j) sx sy)).
      eapply (same_cells_unique f nf o _ op i' j' k' _ _ 0); [exact Hf|exact Hn|lia|lia|exact HS|].
      now apply fimage_same.
    - destruct (transform_face2_same_block_ok rnd Hrnd D2 ip op face_transformation_intra m m 0 1 i j 0)
        as (outs & DEL & RUN); try assumption; try lia; try discriminate; try reflexivity.
      apply (DONE outs _ DEL); [|exact RUN].
      intros sx sy i' j' k' Hc TR. clear DEL RUN DONE.
      pose proof (TR 0 ltac:(unfold axis; lia)) as TX. pose proof (TR 1 ltac:(unfold axis; lia)) as TY.
      unfold no_move, child_center, cell_center, pt in TX, TY. change (inject_Z 0) with 0%Q in TX, TY.
      assert (N1 : ~ (inject_Z m == 0)%Q) by (apply inject_Z_nz; lia).
      assert (N2 : ~ (inject_Z (2 ^ level ip) == 0)%Q) by (apply inject_Z_nz; lia).
      assert (SX : forall lo lo' s c a a', (lo' == lo + inject_Z s * width op)%Q ->
         (cell_coord lo' (level op) m 1 a' == half_cell_coord lo (level ip) m 1 a c + 0)%Q ->
         a' = 2 * a - 1 + c - s * m).
      { intros lo lo' s c a a' EL EQ. apply (cell_coord_inj lo' (level op) m 1); [lia|lia|].
        rewrite EQ. unfold cell_coord, half_cell_coord. rewrite EL. unfold width. rewrite EP.
        injs. change (inject_Z 2) with 2%Q. change (inject_Z 1) with 1%Q. field. split; assumption. }
      assert (W : (width ip == 2 * width op)%Q).
      { unfold width. rewrite EP. injs. change (inject_Z 2) with 2%Q. field. exact N2. }
      clear - Hf Hp SX TX TY AL AC W. unfold fimage.
      face4 f Hf; cbn [along across other_side Z.odd] in *;
        cbn [depth posn nchild tchild fst snd flip inner_cell]; unfold fdepth; cbn [Z.odd].
      + pose proof (SX (xlower ip) (xlower op) (-1) sx i i' ltac:(rewrite AC; change (inject_Z (-1)) with (-1)%Q; ring) TX).
        pose proof (SX (ylower ip) (ylower op) pos sy j j' ltac:(rewrite AL; ring) TY). f_equal; lia.
      + pose proof (SX (xlower ip) (xlower op) 2 sx i i' ltac:(rewrite AC, W; change (inject_Z 2) with 2%Q; ring) TX).
        pose proof (SX (ylower ip) (ylower op) pos sy j j' ltac:(rewrite AL; ring) TY). f_equal; lia.
      + pose proof (SX (ylower ip) (ylower op) (-1) sy j j' ltac:(rewrite AC; change (inject_Z (-1)) with (-1)%Q; ring) TY).
        pose proof (SX (xlower ip) (xlower op) pos sx i i' ltac:(rewrite AL; ring) TX). f_equal; lia.
      + pose proof (SX (ylower ip) (ylower op) 2 sy j j' ltac:(rewrite AC, W; change (inject_Z 2) with 2%Q; ring) TY).
        pose proof (SX (xlower ip) (xlower op) pos sx i i' ltac:(rewrite AL; ring) TX). f_equal; lia.
  Qed.

  Lemma t_half_ok : forall ip op f nf o pos ft i j, half_size f nf o pos ip op ft -> square d m (level op) ->
    - m <= depth f m (i, j) <= m + 1 -> 0 <= posn f (i, j) <= m + 1 ->
    exists ij, t_face_half rnd d (mkT ip op ft) i j = Some ij /\
      forall sx sy, 0 <= sx <= 1 -> 0 <= sy <= 1 -> ij (2 * sy + sx) = Some (fimage f nf o pos m (i, j) sx sy).
  Proof.
    intros ip op f nf o pos ft i j (Hl & Hp & HB) HQ Hd Ht.
    apply t_half_gen; try assumption; [lia|]. destruct HQ as (_ & _ & Hm & _).
    assert (E : pos = 0 \/ pos = 1) by lia. destruct E as [->| ->]; lia.
  Qed.

  (* ---------------------------------------------------------------- average_face *)

  Variable f nf : Z.
  Variable o : bool.
  Variable pos : Z.
  Variable manifold : bool.
  Variable qfine : arr.
  Variable ff : data.
  Variable areafine : area_t.
  Variable kf : areas.
  Hypothesis Hsz : mx d = m /\ my d = m.
  Hypothesis Hev : Z.Even m.
  Hypothesis Hf : holds d qfine ff.
  Hypothesis Hk : manifold = true -> area_holds d areafine kf.

  Definition qv (p : Z * Z) (mq : Z) : Q := ff (fst p) (snd p) mq.
  Definition kv (p : Z * Z) : Q := kf (fst p) (snd p).
  Definition favg (i j mq : Z) : Q :=
    let c sx sy := fimage f nf o pos m (i, j) sx sy in
    if manifold then
      ((0 + qv (c 0%Z 0%Z) mq * kv (c 0%Z 0%Z) + qv (c 1%Z 0%Z) mq * kv (c 1%Z 0%Z)
          + qv (c 0%Z 1%Z) mq * kv (c 0%Z 1%Z) + qv (c 1%Z 1%Z) mq * kv (c 1%Z 1%Z)) /
       (0 + kv (c 0%Z 0%Z) + kv (c 1%Z 0%Z) + kv (c 0%Z 1%Z) + kv (c 1%Z 1%Z)))%Q
    else ((0 + qv (c 0%Z 0%Z) mq + qv (c 1%Z 0%Z) mq + qv (c 0%Z 1%Z) mq + qv (c 1%Z 1%Z) mq) / 4)%Q.
  Definition favg_arr : arr := fun c => let '(i, j, mq) := c in Some (favg i j mq).

  (** the half of the face that the fine patch covers *)
  Definition mine (t : Z) : Prop := pos * (m / 2) + 1 <= t <= (pos + 1) * (m / 2).

  Lemma inner_valid : forall n dd tt, 0 <= n < 4 -> 1 <= dd <= m ->
    (is_valid_average d (fst (inner_cell n m dd tt)) (snd (inner_cell n m dd tt)) = true <-> 1 <= tt <= m).
  Proof.
    intros n dd tt Hn Hd. destruct Hsz as [Hx Hy]. unfold is_valid_average. rewrite Hx, Hy.
    rewrite !andb_true_iff, !Z.leb_le. face4 n Hn; cbn [inner_cell fst snd]; lia.
  Qed.

  Lemma average_ghost_ok : forall ip op ft i j mq s0, half_size f nf o pos ip op ft -> square d m (level op) ->
    0 <= mbc d -> 2 * mbc d <= m -> ghosts d m f (i, j, mq) ->
    writes none s0 (average_ghost rnd d qfine areafine manifold (mkT ip op ft) i j mq)
      (fun c => c = (i, j, mq) /\ mine (posn f (i, j))) favg_arr.
  Proof.
    intros ip op ft i j mq s0 HS HQ Hb0 Hb (G1 & G2 & G3).
    pose proof HS as (_ & Hp & Hff & Hn & _). pose proof HQ as (Hx & Hy & Hm & _).
    destruct (t_half_ok ip op f nf o pos ft i j HS HQ ltac:(lia) ltac:(lia)) as (ij & E & HI).
    unfold average_ghost. rewrite E. cbn [bind].
    assert (I0 : ij 0 = Some (fimage f nf o pos m (i, j) 0 0)) by (apply (HI 0 0); lia).
    assert (I1 : ij 1 = Some (fimage f nf o pos m (i, j) 1 0)) by (apply (HI 1 0); lia).
    assert (I2 : ij 2 = Some (fimage f nf o pos m (i, j) 0 1)) by (apply (HI 0 1); lia).
    assert (I3 : ij 3 = Some (fimage f nf o pos m (i, j) 1 1)) by (apply (HI 1 1); lia).
    rewrite I0, I1, I2, I3. cbn [bind]. clear I0 I1 I2 I3 HI E.
    set (c := fimage f nf o pos m (i, j)).
    assert (VAL : forall sx sy, 0 <= sx <= 1 -> 0 <= sy <= 1 ->
      (is_valid_average d (fst (c sx sy)) (snd (c sx sy)) = true <-> mine (posn f (i, j)))).
    { intros sx sy Hsx Hsy. unfold c, fimage. rewrite inner_valid.
      - unfold mine, flip. destruct Hev as [h Eh]. assert (Eh2 : m / 2 = h) by (rewrite Eh, Z.mul_comm, Z.div_mul; lia).
        rewrite Eh2.
        assert (Hs : 0 <= tchild f sx sy <= 1) by (clear - Hff Hsx Hsy; face4 f Hff; cbn [tchild]; lia).
        assert (Ep : pos = 0 \/ pos = 1) by lia. destruct Ep as [->| ->]; destruct o; lia.
      - exact Hn.
      - assert (Hs : 0 <= nchild f sx sy <= 1) by (clear - Hff Hsx Hsy; face4 f Hff; cbn [nchild]; lia).
        unfold fdepth. destruct (Z.odd f); lia. }
    change (0 =? 0) with true. change (1 =? 0) with false. change (1 =? 1) with true.
    change (2 =? 0) with false. change (2 =? 1) with false. change (2 =? 2) with true.
    change (3 =? 0) with false. change (3 =? 1) with false. change (3 =? 2) with false. cbv iota.
    destruct (is_valid_average d (fst (c 0 0)) (snd (c 0 0))) eqn:V0.
    - assert (M : mine (posn f (i, j))) by (apply (VAL 0 0); [lia|lia|exact V0]).
      assert (V : forall sx sy, 0 <= sx <= 1 -> 0 <= sy <= 1 ->
        is_valid_average d (fst (c sx sy)) (snd (c sx sy)) = true) by (intros; now apply VAL).
      rewrite (V 1 0), (V 0 1), (V 1 1) by lia. cbn [andb].
      assert (IN : forall sx sy, 0 <= sx <= 1 -> 0 <= sy <= 1 -> 1 <= fst (c sx sy) <= m /\ 1 <= snd (c sx sy) <= m).
      { intros sx sy Hsx Hsy. pose proof (V sx sy Hsx Hsy) as VV. unfold is_valid_average in VV.
        rewrite !andb_true_iff, !Z.leb_le, Hx, Hy in VV. lia. }
      assert (RD : forall sx sy, 0 <= sx <= 1 -> 0 <= sy <= 1 ->
        rd d qfine (fst (c sx sy), snd (c sx sy), mq) = Some (qv (c sx sy) mq)).
      { intros sx sy Hsx Hsy. pose proof (IN sx sy Hsx Hsy). apply rd_some.
        - apply in_q_iff. lia.
        - apply Hf. unfold interior. lia. }
      assert (Hin : in_q d (i, j, mq) = true).
      { apply in_q_iff. rewrite Hx, Hy. clear - Hff G1 G2 G3 Hb Hb0. face4 f Hff; cbn [depth posn fst snd] in *; lia. }
      apply writes_weaken with (R := none) (W := fun c => c = (i, j, mq)); [|intros x [] |intros x; tauto].
      unfold sum4. change (0 =? 0) with true. change (1 =? 0) with false. change (1 =? 1) with true.
      change (2 =? 0) with false. change (2 =? 1) with false. change (2 =? 2) with true.
      change (3 =? 0) with false. change (3 =? 1) with false. change (3 =? 2) with false. cbv iota.
      rewrite !RD by lia. cbn [bind].
      assert (HV : favg_arr (i, j, mq) = Some (favg i j mq)) by reflexivity. unfold favg in HV. cbv zeta in HV.
      fold c in HV.
      destruct manifold eqn:Em.
      + assert (RA : forall sx sy, 0 <= sx <= 1 -> 0 <= sy <= 1 ->
          rd_area d areafine (fst (c sx sy)) (snd (c sx sy)) = Some (kv (c sx sy))).
        { intros sx sy Hsx Hsy. pose proof (IN sx sy Hsx Hsy). apply (rd_area_in d); [exact Hb0|now apply Hk|lia|lia]. }
        rewrite !RA by lia. cbn [bind]. apply writes_cell; [exact Hin|exact HV].
      + apply writes_cell; [exact Hin|exact HV].
    - cbn [andb].
      assert (NM : ~ mine (posn f (i, j))).
      { intros M. assert (E : is_valid_average d (fst (c 0 0)) (snd (c 0 0)) = true) by (apply VAL; [lia|lia|exact M]).
        congruence. }
      eapply writes_weaken; [apply (writes_skip none)|intros x []|]. intros x. unfold none. tauto.
  Qed.

  Lemma average_face_ok : forall ip op ft s0, half_size f nf o pos ip op ft -> square d m (level op) ->
    0 <= mbc d -> 2 * mbc d <= m ->
    writes none s0 (fun q => average_face rnd d q qfine areafine (f / 2) f 2 manifold (mkT ip op ft))
      (fun c => ghosts d m f c /\ mine (posn f (fst c))) favg_arr.
  Proof.
    intros ip op ft s0 HS HQ Hb0 Hb. pose proof HS as (_ & Hp & Hff & Hn & _). pose proof HQ as (Hx & Hy & Hm & _).
    assert (AG := fun i j mq => average_ghost_ok ip op ft i j mq s0 HS HQ Hb0 Hb).
    set (body := average_ghost rnd d qfine areafine manifold (mkT ip op ft)) in *.
    set (W := fun (i j mq : Z) (c : cell) => c = (i, j, mq) /\ mine (posn f (i, j))) in *.
    unfold average_face. change (negb (2 * 2 =? 4)) with false. cbv iota. fold body.
    assert (FIN : forall g, writes none s0 g (fun c => exists i j mq, ghosts d m f (i, j, mq) /\ W i j mq c) favg_arr ->
      writes none s0 g (fun c => ghosts d m f c /\ mine (posn f (fst c))) favg_arr).
    { intros g H. eapply writes_weaken; [exact H|intros c []|]. intros [[i j] mq]. cbn [fst]. split.
      - intros (i' & j' & mq' & HG & E & M). injection E as -> -> ->. now split.
      - intros [HG M]. exists i, j, mq. split; [exact HG|]. now split. }
    assert (L0 : forall (ic : Z -> Z) l2 h2 (sw : bool),
      (forall b t mq, 1 <= b <= mbc d -> l2 <= t <= h2 -> 1 <= mq <= meqn d ->
         ghosts d m f (if sw then (t, ic b, mq) else (ic b, t, mq))) ->
      (forall i j mq, ghosts d m f (i, j, mq) -> exists b t, 1 <= b <= mbc d /\ l2 <= t <= h2 /\
         (i, j) = if sw then (t, ic b) else (ic b, t)) ->
      writes none s0
        (if sw then loop 1 (meqn d) (fun mq => loop 1 (mbc d) (fun b => loop l2 h2 (fun t => body t (ic b) mq)))
         else loop 1 (meqn d) (fun mq => loop l2 h2 (fun t => loop 1 (mbc d) (fun b => body (ic b) t mq))))
        (fun c => exists i j mq, ghosts d m f (i, j, mq) /\ W i j mq c) favg_arr).
    { intros ic l2 h2 sw HG HG'. destruct sw.
      - eapply writes_weaken.
        + apply (writes_loop0 s0 (fun mq c => exists b, 1 <= b <= mbc d /\ exists t, l2 <= t <= h2 /\ W t (ic b) mq c)).
          intros mq Hmq. apply (writes_loop0 s0 (fun b c => exists t, l2 <= t <= h2 /\ W t (ic b) mq c)). intros b Hbb.
          apply (writes_loop0 s0 (fun t c => W t (ic b) mq c)). intros t Ht. apply AG, HG; assumption.
        + intros c [].
        + intros c. split.
          * intros (mq & H1 & b & H2 & t & H3 & H4). exists t, (ic b), mq. split; [now apply HG|exact H4].
          * intros (i & j & mq & H1 & H2). destruct (HG' i j mq H1) as (b & t & Hb1 & Ht & E). injection E as -> ->.
            exists mq. split; [destruct H1 as (_ & _ & ?); lia|]. exists b. split; [exact Hb1|]. exists t. now split.
      - eapply writes_weaken.
        + apply (writes_loop0 s0 (fun mq c => exists t, l2 <= t <= h2 /\ exists b, 1 <= b <= mbc d /\ W (ic b) t mq c)).
          intros mq Hmq. apply (writes_loop0 s0 (fun t c => exists b, 1 <= b <= mbc d /\ W (ic b) t mq c)). intros t Ht.
          apply (writes_loop0 s0 (fun b c => W (ic b) t mq c)). intros b Hbb. apply AG, HG; assumption.
        + intros c [].
        + intros c. split.
          * intros (mq & H1 & t & H2 & b & H3 & H4). exists (ic b), t, mq. split; [now apply HG|exact H4].
          * intros (i & j & mq & H1 & H2). destruct (HG' i j mq H1) as (b & t & Hb1 & Ht & E). injection E as -> ->.
            exists mq. split; [destruct H1 as (_ & _ & ?); lia|]. exists t. split; [exact Ht|]. exists b. now split. }
    apply FIN. clear AG FIN HS. rewrite Hx, Hy. revert L0. unfold ghosts.
    assert (C4 : f = 0 \/ f = 1 \/ f = 2 \/ f = 3) by lia.
    destruct C4 as [E|[E|[E|E]]]; rewrite E; cbn [depth posn fst snd]; intros L0;
      [change (0 / 2 =? 0) with true; change (0 =? 0) with true
      |change (1 / 2 =? 0) with true; change (1 =? 0) with false; change (1 =? 1) with true
      |change (2 / 2 =? 0) with false; change (2 =? 2) with true
      |change (3 / 2 =? 0) with false; change (3 =? 2) with false; change (3 =? 3) with true]; cbv iota; cbn [bind].
    - apply (L0 (fun b => 1 - b) 1 m false); [intros; cbn [fst snd]; lia|].
      intros i j mq (H1 & H2 & H3). exists (1 - i), j. split; [lia|]. split; [lia|]. f_equal; lia.
    - apply (L0 (fun b => m + b) 1 m false); [intros; cbn [fst snd]; lia|].
      intros i j mq (H1 & H2 & H3). exists (i - m), j. split; [lia|]. split; [lia|]. f_equal; lia.
    - apply (L0 (fun b => 1 - b) 1 m true); [intros; cbn [fst snd]; lia|].
      intros i j mq (H1 & H2 & H3). exists (1 - j), i. split; [lia|]. split; [lia|]. f_equal; lia.
    - apply (L0 (fun b => m + b) 1 m true); [intros; cbn [fst snd]; lia|].
      intros i j mq (H1 & H2 & H3). exists (j - m), i. split; [lia|]. split; [lia|]. f_equal; lia.
  Qed.
End Face.
