(** The routines that fill the corner regions. *)
From Coq Require Import ZArith QArith Qminmax Qabs List Lia Lqa Bool Qfield Permutation.
From Verif Require Import Base_Float Model_Face Spec_Face Proof_Face Proof_Face1 Proof_Face2 Proof_Face3
  Proof_Face4 Proof_Face5 Model_Grid Spec_Grid Proof_Grid Proof_Grid2 Proof_Grid3 Proof_Grid4 Proof_Grid5
  Model_Corner Spec_Corner Proof_Corner1 Proof_Corner2 Proof_Corner3.
Import ListNotations.
Open Scope Z_scope.

(** the two indices counted from corner number [c]: outwards and inwards *)
Definition cpos (c m x y : Z) : Z * Z :=
  (if (c =? 1) || (c =? 3) then m + x else 1 - x, if (c =? 2) || (c =? 3) then m + y else 1 - y).
Definition ipos (c m x y : Z) : Z * Z :=
  (if (c =? 1) || (c =? 3) then m - x + 1 else x, if (c =? 2) || (c =? 3) then m - y + 1 else y).
Definition fst_of (f x y : Z) : Z := if f / 2 =? 0 then x else y.

Ltac f2 := change (0 / 2 =? 0) with true; change (1 / 2 =? 0) with true; change (2 / 2 =? 0) with false;
  change (3 / 2 =? 0) with false; cbv iota.

Lemma cpos_ghost : forall f u m x y, 0 <= f < 4 ->
  cpos (corner_on f u) m x y = ghost_cell f m (fst_of f x y) (past u m (fst_of f y x)).
Proof.
  intros f u m x y Hf. unfold cpos, fst_of, past. face4 f Hf; destruct u; cbn [corner_on ghost_cell]; f2; cbn [Z.eqb Pos.eqb orb]; reflexivity.
Qed.
Lemma ipos_inner : forall f u m x y, 0 <= f < 4 ->
  ipos (corner_on f u) m x y = kth m f (fst_of f x y) (from_end u m (fst_of f y x)).
Proof.
  intros f u m x y Hf. unfold ipos, fst_of, from_end, kth. face4 f Hf; destruct u; cbn [corner_on inner_cell]; f2; cbn [Z.eqb Pos.eqb orb]; f_equal; lia.
Qed.
Lemma corner_on_range : forall f u, 0 <= f < 4 -> 0 <= corner_on f u < 4.
Proof. intros f u Hf. face4 f Hf; destruct u; cbn; lia. Qed.
Lemma fst_of_range : forall f x y (P : Z -> Prop), P x -> P y -> P (fst_of f x y).
Proof. intros. unfold fst_of. destruct (f / 2 =? 0); assumption. Qed.

(** the cells of a corner region *)
Definition corner_cell (d : dims) (m f : Z) (u : bool) (c : cell) : Prop :=
  exists a b mq, 1 <= a <= mbc d /\ 1 <= b <= mbc d /\ 1 <= mq <= meqn d /\ c = at3 (ghost_cell f m a (past u m b)) mq.

Lemma loop_ext : forall {X} (g h : Z -> X -> option X) lo hi q,
  (forall k q, lo <= k <= hi -> g k q = h k q) -> loop lo hi g q = loop lo hi h q.
Proof.
  intros X g h lo hi q E. unfold loop.
  assert (E' : forall k q, lo <= k < lo + Z.of_nat (Z.to_nat (hi - lo + 1)) -> g k q = h k q) by (intros; apply E; lia).
  clear E. revert E'. generalize (Z.to_nat (hi - lo + 1)). intros n. revert lo q.
  induction n as [|n IH]; intros lo q E; cbn [loop_n]; [reflexivity|]. rewrite E by lia.
  destruct (h lo q); cbn [bind]; [|reflexivity]. apply IH. intros k q' Hk. apply E. lia.
Qed.

(** average_corner with the loop over the equations outermost *)
Definition average_corner_mq (rnd : Q -> Q) (D : dims) (qcoarse qfine : arr) (areafine : area_t) (refratio : Z) (manifold : bool)
    (icorner_coarse : Z) (c : cdata) : option arr :=
  if negb (refratio * refratio =? 4) then None else
  loop 1 (meqn D) (fun mq => loop 1 (mbc D) (fun ibc => loop 1 (mbc D) (fun jbc q =>
    bind (if icorner_coarse =? 0 then Some (1 - ibc, 1 - jbc)
          else if icorner_coarse =? 1 then Some (mx D + ibc, 1 - jbc)
          else if icorner_coarse =? 2 then Some (1 - ibc, my D + jbc)
          else if icorner_coarse =? 3 then Some (mx D + ibc, my D + jbc)
          else None) (fun '(i1, j1) =>
    bind (t_corner_half rnd D c i1 j1) (fun ij =>
    bind (ij 0) (fun c0 => bind (ij 1) (fun c1 => bind (ij 2) (fun c2 => bind (ij 3) (fun c3 =>
    average_corner_cell D qfine areafine manifold c0 c1 c2 c3 i1 j1 mq q))))))))) qcoarse.

Section Corner4.
  Variable rnd : Q -> Q.
  Hypothesis Hrnd : rounding rnd.
  Variable d : dims.
  Variable m : Z.
  Hypothesis Hsz : mx d = m /\ my d = m.
  Hypothesis Hm : 1 <= m < 2 ^ 28.
  Variable f nf : Z.
  Variable o u : bool.
  Variable ip op : patch.
  Variable c : cdata.
  Hypothesis HT : touches_corner f nf o u ip op c.

  Hypothesis Hff : 0 <= f < 4.
  Hypothesis Hnn : 0 <= nf < 4.

  Lemma depth_at : forall a b, depth f m (ghost_cell f m a (past u m b)) = a /\ posn f (ghost_cell f m a (past u m b)) = past u m b.
  Proof. intros a b. clear - Hff. face4 f Hff; cbn [ghost_cell depth posn fst snd]; lia. Qed.

  Lemma cell_in_q : forall a b mq, 1 <= a <= mbc d -> 1 <= b <= mbc d -> 1 <= mq <= meqn d ->
    in_q d (at3 (ghost_cell f m a (past u m b)) mq) = true.
  Proof.
    intros a b mq Ha Hb Hq. unfold at3. apply in_q_iff. destruct Hsz as [-> ->]. clear - Hff Ha Hb Hq Hm.
    unfold past. destruct u; face4 f Hff; cbn [ghost_cell fst snd]; lia.
  Qed.

  (* --------------------------------------------------------------------- copy *)

  Section Copy.
    Variable qn : arr.
    Variable fn : data.
    Hypothesis Hh : holds d qn fn.
    Hypothesis HL : level ip = level op.
    Hypothesis HR : 2 ^ level ip * m <= 2 ^ 49.
    Hypothesis Hb : 0 <= mbc d <= m.

    Definition ccopy : arr := fun x => let '(i, j, mq) := x in
      let p := gimage f nf o (ends u) m (i, j) in Some (fn (fst p) (snd p) mq).

    Lemma copy_at : forall a b mq s0, 1 <= a <= mbc d -> 1 <= b <= mbc d -> 1 <= mq <= meqn d ->
      let p := ghost_cell f m a (past u m b) in
      writes none s0 (fun q => bind (t_corner rnd d c (fst p) (snd p)) (fun '(i2, j2) =>
        bind (rd d qn (i2, j2, mq)) (wr d q (fst p, snd p, mq)))) (fun x => x = at3 p mq) ccopy.
    Proof.
      intros a b mq s0 Ha Hb' Hq p. destruct (depth_at a b) as [D1 D2]. fold p in D1, D2.
      rewrite (t_corner_ok rnd Hrnd d m Hsz Hm f nf o u ip op c HT); try assumption.
      - rewrite <- surjective_pairing. destruct (gimage f nf o (ends u) m p) as [i2 j2] eqn:EG.
        apply writes_ext with (f := fun q => bind (rd d qn (i2, j2, mq)) (wr d q (p, mq))); [reflexivity|].
        assert (E3 : at3 p mq = (p, mq)) by (unfold at3; now rewrite <- surjective_pairing).
        rewrite <- E3.
        assert (IN : 1 <= i2 <= m /\ 1 <= j2 <= m).
        { unfold gimage in EG. rewrite D1, D2 in EG.
          assert (B : 1 <= flip o m (past u m b - ends u * m) <= m).
          { unfold flip, past, ends. destruct o, u; lia. }
          assert (E1 := f_equal fst EG). assert (E2 := f_equal snd EG). cbn [fst snd] in E1, E2. subst i2 j2.
          revert B. generalize (flip o m (past u m b - ends u * m)). intros t B. clear - Hnn Ha B Hb.
          face4 nf Hnn; cbn [inner_cell fst snd]; lia. }
        rewrite rd_some with (v := fn i2 j2 mq).
        + cbn [bind]. apply writes_cell; [now apply cell_in_q|]. unfold ccopy, at3. rewrite <- surjective_pairing, EG. reflexivity.
        + apply in_q_iff. destruct Hsz as [-> ->]. lia.
        + apply Hh. unfold interior. destruct Hsz as [-> ->]. lia.
      - rewrite <- surjective_pairing, D1. lia.
      - rewrite <- surjective_pairing, D2. unfold past. destruct u; lia.
      - rewrite <- surjective_pairing, D2. unfold past, ends. destruct u; lia.
    Qed.

    Lemma copy_corner_ok : forall s0,
      writes none s0 (fun q => copy_corner rnd d q qn (corner_on f u) c) (corner_cell d m f u) ccopy.
    Proof.
      intros s0.
      assert (ALL : writes none s0 (loop 1 (meqn d) (fun mq => loop 1 (mbc d) (fun x => loop 1 (mbc d) (fun y q =>
          let p := cpos (corner_on f u) m x y in
          bind (t_corner rnd d c (fst p) (snd p)) (fun '(i2, j2) =>
          bind (rd d qn (i2, j2, mq)) (wr d q (fst p, snd p, mq))))))) (corner_cell d m f u) ccopy).
      { eapply writes_weaken.
        - apply (writes_loop0 s0 (fun mq z => exists x, 1 <= x <= mbc d /\ exists y, 1 <= y <= mbc d /\ z = at3 (cpos (corner_on f u) m x y) mq)).
          intros mq Hq. apply (writes_loop0 s0 (fun x z => exists y, 1 <= y <= mbc d /\ z = at3 (cpos (corner_on f u) m x y) mq)).
          intros x Hx. apply (writes_loop0 s0 (fun y z => z = at3 (cpos (corner_on f u) m x y) mq)).
          intros y Hy. rewrite (cpos_ghost f u m x y Hff).
          apply copy_at; try assumption; apply (fst_of_range f _ _ (fun z => 1 <= z <= mbc d)); assumption.
        - intros z [].
        - intros z. split.
          + intros (mq & Hq & x & Hx & y & Hy & E). exists (fst_of f x y), (fst_of f y x), mq.
            split; [apply (fst_of_range f _ _ (fun z => 1 <= z <= mbc d)); assumption|].
            split; [apply (fst_of_range f _ _ (fun z => 1 <= z <= mbc d)); assumption|].
            split; [exact Hq|]. rewrite <- (cpos_ghost f u m x y Hff). exact E.
          + intros (a & b & mq & Ha & Hb' & Hq & E). exists mq. split; [exact Hq|].
            exists (fst_of f a b). split; [apply (fst_of_range f _ _ (fun z => 1 <= z <= mbc d)); assumption|].
            exists (fst_of f b a). split; [apply (fst_of_range f _ _ (fun z => 1 <= z <= mbc d)); assumption|].
            rewrite (cpos_ghost f u m _ _ Hff). rewrite E. f_equal. f_equal; [|f_equal]; unfold fst_of; destruct (f / 2 =? 0); reflexivity. }
      eapply writes_ext; [|exact ALL]. intros s. unfold copy_corner. destruct Hsz as [-> ->].
      apply loop_ext; intros mq q _; apply loop_ext; intros x q' _; apply loop_ext; intros y q'' _.
      pose proof (corner_on_range f u Hff) as HC. revert HC. generalize (corner_on f u). intros k HC.
      assert (K : k = 0 \/ k = 1 \/ k = 2 \/ k = 3) by lia.
      destruct K as [->|[->|[->| ->]]]; unfold cpos; cbn [Z.eqb Pos.eqb orb fst snd]; reflexivity.
    Qed.
  End Copy.

  (* ------------------------------------------------------------------ half size *)

  Hypothesis HL : level op = level ip + 1.
  Hypothesis HR : 2 ^ level op * m <= 2 ^ 49.

  Section Average.
    Variable qfine : arr.
    Variable ff : data.
    Variable areafine : area_t.
    Variable kf : areas.
    Variable manifold : bool.
    Hypothesis Hh : holds d qfine ff.
    Hypothesis Hk : manifold = true -> area_holds d areafine kf.
    Hypothesis Hb0 : 0 <= mbc d.
    Hypothesis Hb : 2 * mbc d <= m.

    Definition cqv (p : Z * Z) (mq : Z) : Q := ff (fst p) (snd p) mq.
    Definition ckv (p : Z * Z) : Q := kf (fst p) (snd p).
    Definition cavg (p : Z * Z) (mq : Z) : Q :=
      let c sx sy := fimage f nf o (ends2 u) m p sx sy in
      if manifold then
        ((0 + ckv (c 0%Z 0%Z) * cqv (c 0%Z 0%Z) mq + ckv (c 1%Z 0%Z) * cqv (c 1%Z 0%Z) mq
            + ckv (c 0%Z 1%Z) * cqv (c 0%Z 1%Z) mq + ckv (c 1%Z 1%Z) * cqv (c 1%Z 1%Z) mq) /
         (0 + ckv (c 0%Z 0%Z) + ckv (c 1%Z 0%Z) + ckv (c 0%Z 1%Z) + ckv (c 1%Z 1%Z)))%Q
      else ((0 + cqv (c 0%Z 0%Z) mq + cqv (c 1%Z 0%Z) mq + cqv (c 0%Z 1%Z) mq + cqv (c 1%Z 1%Z) mq) / 4)%Q.
    Definition cavg_arr : arr := fun x => Some (cavg (fst x) (snd x)).

    Lemma average_at : forall a b mq s0 ij c0 c1 c2 c3, 1 <= a <= mbc d -> 1 <= b <= mbc d -> 1 <= mq <= meqn d ->
      let p := ghost_cell f m a (past u m b) in
      (forall sx sy, 0 <= sx <= 1 -> 0 <= sy <= 1 -> ij (2 * sy + sx) = Some (fimage f nf o (ends2 u) m p sx sy)) ->
      ij 0 = Some c0 -> ij 1 = Some c1 -> ij 2 = Some c2 -> ij 3 = Some c3 ->
      writes none s0 (average_corner_cell d qfine areafine manifold c0 c1 c2 c3 (fst p) (snd p) mq)
        (fun x => x = at3 p mq) cavg_arr.
    Proof.
      intros a b mq s0 ij c0 c1 c2 c3 Ha Hb' Hq p HI J0 J1 J2 J3. destruct (depth_at a b) as [D1 D2]. fold p in D1, D2.
      set (g := fimage f nf o (ends2 u) m p) in *.
      assert (E0 : c0 = g 0 0) by (specialize (HI 0 0 ltac:(lia) ltac:(lia)); change (2 * 0 + 0) with 0 in HI; congruence).
      assert (E1 : c1 = g 1 0) by (specialize (HI 1 0 ltac:(lia) ltac:(lia)); change (2 * 0 + 1) with 1 in HI; congruence).
      assert (E2 : c2 = g 0 1) by (specialize (HI 0 1 ltac:(lia) ltac:(lia)); change (2 * 1 + 0) with 2 in HI; congruence).
      assert (E3 : c3 = g 1 1) by (specialize (HI 1 1 ltac:(lia) ltac:(lia)); change (2 * 1 + 1) with 3 in HI; congruence).
      subst c0 c1 c2 c3. clear HI J0 J1 J2 J3 ij.
      assert (IN : forall sx sy, 0 <= sx <= 1 -> 0 <= sy <= 1 -> 1 <= fst (g sx sy) <= m /\ 1 <= snd (g sx sy) <= m).
      { intros sx sy Hsx Hsy. unfold g, fimage. rewrite D1, D2.
        assert (B1 : 0 <= nchild f sx sy <= 1) by (clear - Hff Hsx Hsy; face4 f Hff; cbn [nchild]; lia).
        assert (B2 : 0 <= tchild f sx sy <= 1) by (clear - Hff Hsx Hsy; face4 f Hff; cbn [tchild]; lia).
        assert (B3 : 1 <= fdepth f a (nchild f sx sy) <= m) by (unfold fdepth; destruct (Z.odd f); lia).
        assert (B4 : 1 <= flip o m (2 * past u m b - 1 + tchild f sx sy - ends2 u * m) <= m).
        { unfold flip, past, ends2. destruct o, u; lia. }
        revert B3 B4. generalize (fdepth f a (nchild f sx sy)) (flip o m (2 * past u m b - 1 + tchild f sx sy - ends2 u * m)).
        intros dd tt B3 B4. clear - Hnn B3 B4. face4 nf Hnn; cbn [inner_cell fst snd]; lia. }
      assert (RD : forall sx sy, 0 <= sx <= 1 -> 0 <= sy <= 1 ->
        rd d qfine (fst (g sx sy), snd (g sx sy), mq) = Some (cqv (g sx sy) mq)).
      { intros sx sy Hsx Hsy. pose proof (IN sx sy Hsx Hsy). destruct Hsz as [Hx Hy]. apply rd_some.
        - apply in_q_iff. lia.
        - apply Hh. unfold interior. lia. }
      assert (Hin : in_q d (fst p, snd p, mq) = true) by (apply (cell_in_q a b mq); assumption).
      assert (HV : cavg_arr (fst p, snd p, mq) = Some (cavg p mq)).
      { unfold cavg_arr. cbn [fst snd]. now rewrite <- surjective_pairing. }
      unfold cavg in HV. cbv zeta in HV. fold g in HV.
      unfold average_corner_cell, sum4.
      change (0 =? 0) with true. change (1 =? 0) with false. change (1 =? 1) with true.
      change (2 =? 0) with false. change (2 =? 1) with false. change (2 =? 2) with true.
      change (3 =? 0) with false. change (3 =? 1) with false. change (3 =? 2) with false. cbv iota.
      rewrite !RD by lia. cbn [bind].
      destruct manifold eqn:Em.
      + assert (RA : forall sx sy, 0 <= sx <= 1 -> 0 <= sy <= 1 ->
          rd_area d areafine (fst (g sx sy)) (snd (g sx sy)) = Some (ckv (g sx sy))).
        { intros sx sy Hsx Hsy. pose proof (IN sx sy Hsx Hsy). destruct Hsz as [Hx Hy].
          apply (rd_area_in d); [exact Hb0|now apply Hk|lia|lia]. }
        rewrite !RA by lia. cbn [bind]. apply writes_cell; [exact Hin|exact HV].
      + apply writes_cell; [exact Hin|exact HV].
    Qed.

    Lemma average_corner_ok : forall s0,
      writes none s0 (fun q => average_corner rnd d q qfine areafine 2 manifold (corner_on f u) c)
        (corner_cell d m f u) cavg_arr.
    Proof.
      intros s0.
      set (body := fun (p : Z * Z) (q : arr) => bind (t_corner_half rnd d c (fst p) (snd p)) (fun ij =>
          bind (ij 0) (fun c0 => bind (ij 1) (fun c1 => bind (ij 2) (fun c2 => bind (ij 3) (fun c3 =>
          loop 1 (meqn d) (fun mq => average_corner_cell d qfine areafine manifold c0 c1 c2 c3 (fst p) (snd p) mq) q)))))).
      assert (ONE : forall x y, 1 <= x <= mbc d -> 1 <= y <= mbc d ->
        writes none s0 (body (cpos (corner_on f u) m x y))
          (fun z => exists mq, 1 <= mq <= meqn d /\ z = at3 (cpos (corner_on f u) m x y) mq) cavg_arr).
      { intros x y Hx Hy. rewrite (cpos_ghost f u m x y Hff).
        set (a := fst_of f x y). set (b := fst_of f y x).
        assert (Ha : 1 <= a <= mbc d) by (apply (fst_of_range f _ _ (fun z => 1 <= z <= mbc d)); assumption).
        assert (Hbb : 1 <= b <= mbc d) by (apply (fst_of_range f _ _ (fun z => 1 <= z <= mbc d)); assumption).
        destruct (depth_at a b) as [D1 D2]. set (p := ghost_cell f m a (past u m b)) in *.
        destruct (t_corner_half_ok rnd Hrnd d m Hsz Hm f nf o u ip op c HT HL HR (fst p) (snd p)) as (ij & E & HI).
        { rewrite <- surjective_pairing, D1. lia. }
        { rewrite <- surjective_pairing, D2. unfold past, ends2. destruct u; lia. }
        rewrite <- surjective_pairing in HI.
        assert (I0 := HI 0 0 ltac:(lia) ltac:(lia)). assert (I1 := HI 1 0 ltac:(lia) ltac:(lia)).
        assert (I2 := HI 0 1 ltac:(lia) ltac:(lia)). assert (I3 := HI 1 1 ltac:(lia) ltac:(lia)).
        change (2 * 0 + 0) with 0 in I0. change (2 * 0 + 1) with 1 in I1.
        change (2 * 1 + 0) with 2 in I2. change (2 * 1 + 1) with 3 in I3.
        unfold body. rewrite E. cbn [bind]. rewrite I0, I1, I2, I3. cbn [bind].
        apply (writes_loop0 s0 (fun mq z => z = at3 p mq)). intros mq Hq.
        apply (average_at a b mq s0 ij); assumption. }
      assert (ALL : writes none s0 (loop 1 (mbc d) (fun x => loop 1 (mbc d) (fun y => body (cpos (corner_on f u) m x y))))
        (corner_cell d m f u) cavg_arr).
      { eapply writes_weaken.
        - apply (writes_loop0 s0 (fun x z => exists y, 1 <= y <= mbc d /\ exists mq, 1 <= mq <= meqn d /\ z = at3 (cpos (corner_on f u) m x y) mq)).
          intros x Hx. apply (writes_loop0 s0 (fun y z => exists mq, 1 <= mq <= meqn d /\ z = at3 (cpos (corner_on f u) m x y) mq)).
          intros y Hy. now apply ONE.
        - intros z [].
        - intros z. split.
          + intros (x & Hx & y & Hy & mq & Hq & E). exists (fst_of f x y), (fst_of f y x), mq.
            split; [apply (fst_of_range f _ _ (fun z => 1 <= z <= mbc d)); assumption|].
            split; [apply (fst_of_range f _ _ (fun z => 1 <= z <= mbc d)); assumption|].
            split; [exact Hq|]. rewrite <- (cpos_ghost f u m x y Hff). exact E.
          + intros (a & b & mq & Ha & Hb' & Hq & E).
            exists (fst_of f a b). split; [apply (fst_of_range f _ _ (fun z => 1 <= z <= mbc d)); assumption|].
            exists (fst_of f b a). split; [apply (fst_of_range f _ _ (fun z => 1 <= z <= mbc d)); assumption|].
            exists mq. split; [exact Hq|].
            rewrite (cpos_ghost f u m _ _ Hff). rewrite E. f_equal. f_equal; [|f_equal]; unfold fst_of; destruct (f / 2 =? 0); reflexivity. }
      eapply writes_ext; [|exact ALL]. intros s. unfold average_corner. destruct Hsz as [-> ->].
      change (negb (2 * 2 =? 4)) with false. cbv iota.
      apply loop_ext; intros x q _; apply loop_ext; intros y q' _.
      pose proof (corner_on_range f u Hff) as HC. unfold body. revert HC. generalize (corner_on f u). intros k HC.
      assert (K : k = 0 \/ k = 1 \/ k = 2 \/ k = 3) by lia.
      destruct K as [->|[->|[->| ->]]]; unfold cpos; cbn [Z.eqb Pos.eqb orb fst snd bind]; reflexivity.
    Qed.
    Lemma average_corner_mq_ok : forall s0,
      writes none s0 (fun q => average_corner_mq rnd d q qfine areafine 2 manifold (corner_on f u) c)
        (corner_cell d m f u) cavg_arr.
    Proof.
      intros s0.
      set (body := fun (mq : Z) (p : Z * Z) (q : arr) => bind (t_corner_half rnd d c (fst p) (snd p)) (fun ij =>
          bind (ij 0) (fun c0 => bind (ij 1) (fun c1 => bind (ij 2) (fun c2 => bind (ij 3) (fun c3 =>
          average_corner_cell d qfine areafine manifold c0 c1 c2 c3 (fst p) (snd p) mq q)))))).
      assert (ONE : forall x y mq, 1 <= x <= mbc d -> 1 <= y <= mbc d -> 1 <= mq <= meqn d ->
        writes none s0 (body mq (cpos (corner_on f u) m x y))
          (fun z => z = at3 (cpos (corner_on f u) m x y) mq) cavg_arr).
      { intros x y mq Hx Hy Hq. rewrite (cpos_ghost f u m x y Hff).
        set (a := fst_of f x y). set (b := fst_of f y x).
        assert (Ha : 1 <= a <= mbc d) by (apply (fst_of_range f _ _ (fun z => 1 <= z <= mbc d)); assumption).
        assert (Hbb : 1 <= b <= mbc d) by (apply (fst_of_range f _ _ (fun z => 1 <= z <= mbc d)); assumption).
        destruct (depth_at a b) as [D1 D2]. set (p := ghost_cell f m a (past u m b)) in *.
        destruct (t_corner_half_ok rnd Hrnd d m Hsz Hm f nf o u ip op c HT HL HR (fst p) (snd p)) as (ij & E & HI).
        { rewrite <- surjective_pairing, D1. lia. }
        { rewrite <- surjective_pairing, D2. unfold past, ends2. destruct u; lia. }
        rewrite <- surjective_pairing in HI.
        assert (I0 := HI 0 0 ltac:(lia) ltac:(lia)). assert (I1 := HI 1 0 ltac:(lia) ltac:(lia)).
        assert (I2 := HI 0 1 ltac:(lia) ltac:(lia)). assert (I3 := HI 1 1 ltac:(lia) ltac:(lia)).
        change (2 * 0 + 0) with 0 in I0. change (2 * 0 + 1) with 1 in I1.
        change (2 * 1 + 0) with 2 in I2. change (2 * 1 + 1) with 3 in I3.
        unfold body. rewrite E. cbn [bind]. rewrite I0, I1, I2, I3. cbn [bind].
        apply (average_at a b mq s0 ij); assumption. }
      assert (ALL : writes none s0 (loop 1 (meqn d) (fun mq => loop 1 (mbc d) (fun x => loop 1 (mbc d) (fun y => body mq (cpos (corner_on f u) m x y)))))
        (corner_cell d m f u) cavg_arr).
      { eapply writes_weaken.
        - apply (writes_loop0 s0 (fun mq z => exists x, 1 <= x <= mbc d /\ exists y, 1 <= y <= mbc d /\ z = at3 (cpos (corner_on f u) m x y) mq)).
          intros mq Hq. apply (writes_loop0 s0 (fun x z => exists y, 1 <= y <= mbc d /\ z = at3 (cpos (corner_on f u) m x y) mq)).
          intros x Hx. apply (writes_loop0 s0 (fun y z => z = at3 (cpos (corner_on f u) m x y) mq)).
          intros y Hy. now apply ONE.
        - intros z [].
        - intros z. split.
          + intros (mq & Hq & x & Hx & y & Hy & E). exists (fst_of f x y), (fst_of f y x), mq.
            split; [apply (fst_of_range f _ _ (fun z => 1 <= z <= mbc d)); assumption|].
            split; [apply (fst_of_range f _ _ (fun z => 1 <= z <= mbc d)); assumption|].
            split; [exact Hq|]. rewrite <- (cpos_ghost f u m x y Hff). exact E.
          + intros (a & b & mq & Ha & Hb' & Hq & E). exists mq. split; [exact Hq|].
            exists (fst_of f a b). split; [apply (fst_of_range f _ _ (fun z => 1 <= z <= mbc d)); assumption|].
            exists (fst_of f b a). split; [apply (fst_of_range f _ _ (fun z => 1 <= z <= mbc d)); assumption|].
            rewrite (cpos_ghost f u m _ _ Hff). rewrite E. f_equal. f_equal; [|f_equal]; unfold fst_of; destruct (f / 2 =? 0); reflexivity. }
      eapply writes_ext; [|exact ALL]. intros s. unfold average_corner_mq. destruct Hsz as [-> ->].
      change (negb (2 * 2 =? 4)) with false. cbv iota.
      apply loop_ext; intros mq q0 _; apply loop_ext; intros x q _; apply loop_ext; intros y q' _.
      pose proof (corner_on_range f u Hff) as HC. unfold body. revert HC. generalize (corner_on f u). intros k HC.
      assert (K : k = 0 \/ k = 1 \/ k = 2 \/ k = 3) by lia.
      destruct K as [->|[->|[->| ->]]]; unfold cpos; cbn [Z.eqb Pos.eqb orb fst snd bind]; reflexivity.
    Qed.
  End Average.

  Section Interpolate.
    Variable qcoarse : arr.
    Variable F : data.
    Hypothesis HF : holds_layer d qcoarse F.
    Hypothesis Hb : 2 <= mbc d.
    Hypothesis Hbm : mbc d <= m.
    Hypothesis HB : is_block_corner c = true -> 2 ^ level op * m <= 2 ^ 29.

    Definition creached (z : cell) : Prop :=
      exists k l mq, 1 <= k <= mbc d / 2 /\ 1 <= l <= mbc d / 2 /\ 1 <= mq <= meqn d /\
        quarters m f nf o (ends2 u) (kth m f k (from_end u m l)) mq z.

    Lemma interpolate_corner_ok : forall s0,
      writes none s0 (fun q => interpolate_corner rnd d qcoarse q 2 (corner_on f u) c) creached
        (interp_target m f nf o (ends2 u) F).
    Proof.
      intros s0. assert (Hpos : -1 <= ends2 u <= 2) by (unfold ends2; destruct u; lia).
      assert (H2 : forall k, k <= mbc d / 2 -> 2 * k <= mbc d).
      { intros k Hk. pose proof (Z.div_mod (mbc d) 2 ltac:(lia)). pose proof (Z.mod_pos_bound (mbc d) 2 ltac:(lia)). lia. }
      destruct (build_corner_ok rnd Hrnd d m Hsz Hm f nf o u ip op c HT HL HR HB) as (A & EA & HA).
      set (V := interp_target m f nf o (ends2 u) F).
      set (body := fun (p : Z * Z) (q : arr) => bind (t_corner_half rnd d c (fst p) (snd p)) (fun ij =>
          bind (ij 0) (fun c0 => loop 1 (meqn d) (fun mq => interp_four d qcoarse A 2 c0 (fst p) (snd p) mq) q))).
      set (W := fun x y (z : cell) => exists mq, 1 <= mq <= meqn d /\ quarters m f nf o (ends2 u) (ipos (corner_on f u) m x y) mq z).
      assert (ONE : forall x y, 1 <= x <= mbc d / 2 -> 1 <= y <= mbc d / 2 ->
        writes none s0 (body (ipos (corner_on f u) m x y)) (W x y) V).
      { intros x y Hx Hy. unfold W. rewrite (ipos_inner f u m x y Hff).
        set (k := fst_of f x y). set (l := fst_of f y x).
        assert (Hk : 1 <= k <= mbc d / 2) by (apply (fst_of_range f _ _ (fun z => 1 <= z <= mbc d / 2)); assumption).
        assert (Hl : 1 <= l <= mbc d / 2) by (apply (fst_of_range f _ _ (fun z => 1 <= z <= mbc d / 2)); assumption).
        pose proof (H2 k ltac:(lia)). pose proof (H2 l ltac:(lia)).
        set (t := from_end u m l).
        assert (Ht : 1 <= t <= m) by (unfold t, from_end; destruct u; lia).
        destruct (depth_inner f m k t Hff) as [D1 D2]. fold (kth m f k t) in D1, D2. set (p := kth m f k t) in *.
        destruct (t_corner_half_ok rnd Hrnd d m Hsz Hm f nf o u ip op c HT HL HR (fst p) (snd p)) as (ij & E & HI).
        { rewrite <- surjective_pairing, D1. lia. }
        { rewrite <- surjective_pairing, D2. unfold t, from_end, ends2. destruct u; lia. }
        rewrite <- surjective_pairing in HI.
        assert (I0 := HI 0 0 ltac:(lia) ltac:(lia)). change (2 * 0 + 0) with 0 in I0.
        unfold body. rewrite E. cbn [bind]. rewrite I0. cbn [bind].
        apply (writes_loop0 s0 (fun mq z => quarters m f nf o (ends2 u) p mq z)). intros mq Hq.
        assert (Hij : 1 <= fst p <= m /\ 1 <= snd p <= m).
        { unfold p, kth. clear - Hff Hk Ht H Hbm. face4 f Hff; cbn [inner_cell fst snd]; lia. }
        destruct Hij as [Hi Hj].
        assert (IF := interp_four_ok d m f nf o (ends2 u) qcoarse F Hsz Hff Hnn Hpos Hm Hb HF A (fst p) (snd p) mq s0 HA Hq Hi Hj).
        rewrite <- surjective_pairing in IF. apply IF.
        intros sx sy Hsx Hsy. unfold p. rewrite (fim_ghost m f nf o (ends2 u) Hff Hnn k t sx sy Hsx Hsy).
        destruct (s_of_q f Hff sx sy Hsx Hsy) as (Q1 & Q2 & _).
        apply in_q_iff. destruct Hsz as [-> ->].
        assert (B1 : 1 <= 2 * k - 1 + q_a f sx sy <= mbc d) by lia.
        assert (B2 : 1 - mbc d <= flip o m (2 * t - 1 + q_b f sx sy - ends2 u * m) <= m + mbc d).
        { unfold flip, t, from_end, ends2. destruct o, u; lia. }
        revert B1 B2. generalize (2 * k - 1 + q_a f sx sy) (flip o m (2 * t - 1 + q_b f sx sy - ends2 u * m)).
        intros e tt B1 B2. clear - Hnn B1 B2 Hq Hm. face4 nf Hnn; cbn [ghost_cell fst snd]; lia. }
      assert (ALL : writes none s0 (loop 1 (mbc d / 2) (fun x => loop 1 (mbc d / 2) (fun y => body (ipos (corner_on f u) m x y))))
        creached V).
      { eapply writes_weaken.
        - apply (writes_loop0 s0 (fun x z => exists y, 1 <= y <= mbc d / 2 /\ W x y z)).
          intros x Hx. apply (writes_loop0 s0 (fun y z => W x y z)).
          intros y Hy. now apply ONE.
        - intros z [].
        - intros z. unfold W. split.
          + intros (x & Hx & y & Hy & mq & Hq & E). exists (fst_of f x y), (fst_of f y x), mq.
            split; [apply (fst_of_range f _ _ (fun z => 1 <= z <= mbc d / 2)); assumption|].
            split; [apply (fst_of_range f _ _ (fun z => 1 <= z <= mbc d / 2)); assumption|].
            split; [exact Hq|]. rewrite <- (ipos_inner f u m x y Hff). exact E.
          + intros (a & b & mq & Ha & Hb' & Hq & E).
            exists (fst_of f a b). split; [apply (fst_of_range f _ _ (fun z => 1 <= z <= mbc d / 2)); assumption|].
            exists (fst_of f b a). split; [apply (fst_of_range f _ _ (fun z => 1 <= z <= mbc d / 2)); assumption|].
            exists mq. split; [exact Hq|].
            rewrite (ipos_inner f u m _ _ Hff).
            replace (fst_of f (fst_of f a b) (fst_of f b a)) with a by (unfold fst_of; destruct (f / 2 =? 0); reflexivity).
            replace (fst_of f (fst_of f b a) (fst_of f a b)) with b by (unfold fst_of; destruct (f / 2 =? 0); reflexivity).
            exact E. }
      eapply writes_ext; [|exact ALL]. intros s. unfold interpolate_corner. rewrite EA. cbn [bind].
      rewrite Z.quot_div_nonneg by lia. destruct Hsz as [-> ->].
      change (negb (2 * 2 =? 4)) with false. cbv iota.
      apply loop_ext; intros x q _; apply loop_ext; intros y q' _.
      pose proof (corner_on_range f u Hff) as HC. unfold body. revert HC. generalize (corner_on f u). intros k HC.
      assert (K : k = 0 \/ k = 1 \/ k = 2 \/ k = 3) by lia.
      destruct K as [->|[->|[->| ->]]]; unfold ipos; cbn [Z.eqb Pos.eqb orb fst snd bind]; reflexivity.
    Qed.
  End Interpolate.
End Corner4.
