(** Interpolation across a face: the whole routine, and its values in terms of the reconstruction. *)
From Coq Require Import ZArith QArith Qminmax Qabs List Lia Lqa Bool Qfield Permutation.
From Verif Require Import Base_Float Model_Face Spec_Face Proof_Face Proof_Face1 Proof_Face2 Proof_Face3
  Proof_Face4 Proof_Face5 Model_Grid Spec_Grid Proof_Grid Proof_Grid2 Proof_Grid3 Proof_Grid4 Proof_Grid5
  Model_Corner Spec_Corner Proof_Corner1.
Import ListNotations.
Open Scope Z_scope.

Lemma mc_flip : forall l r, (mc (- r) (- l) == - mc l r)%Q.
Proof. intros l r. rewrite <- !slopes_mc, slopes_odd, slopes_sym. reflexivity. Qed.

Section Interp2.
  Variable rnd : Q -> Q.
  Hypothesis Hrnd : rounding rnd.
  Variable d : dims.
  Variable m : Z.
  Variable f nf : Z.
  Variable o : bool.
  Variable pos : Z.
  Variable qcoarse : arr.
  Variable F : data.
  Hypothesis Hsz : mx d = m /\ my d = m.
  Hypothesis Hf : 0 <= f < 4.
  Hypothesis Hn : 0 <= nf < 4.
  Hypothesis Hpos : -1 <= pos <= 2.
  Hypothesis Hm : 1 <= m < 2 ^ 28.

  Lemma build_transform_ok : forall ip op ft, level op = level ip + 1 ->
    beyond_face f nf o (along f ip + inject_Z pos * width op)%Q ip op ft -> square d m (level op) ->
    exists A, build_transform rnd d (mkT ip op ft) = Some A /\ linear_part m f nf o pos A.
  Proof.
    intros ip op ft HL HB HQ. unfold build_transform.
    assert (T : forall i j, (i = 0 \/ i = 1) -> (j = 0 \/ j = 1) ->
      bind (t_face_half rnd d (mkT ip op ft) i j) first_cell = Some (fim m f nf o pos (i, j) 0 0)).
    { intros i j Hi Hj.
      destruct (t_half_gen rnd Hrnd d m ip op f nf o pos ft i j HL Hpos HB HQ) as (ij & E & HI).
      - clear - Hf Hm Hi Hj. face4 f Hf; cbn [depth fst snd]; lia.
      - assert (E : pos = -1 \/ pos = 0 \/ pos = 1 \/ pos = 2) by lia.
        clear - Hf Hm Hi Hj E. destruct E as [->|[->|[->| ->]]]; face4 f Hf; cbn [posn fst snd]; lia.
      - rewrite E. cbn [bind]. unfold first_cell. apply (HI 0 0); lia. }
    rewrite (T 0 0), (T 1 0), (T 0 1) by tauto. cbn [bind].
    destruct (fim m f nf o pos (0, 0) 0 0) as [f1 f2] eqn:E0.
    destruct (fim m f nf o pos (1, 0) 0 0) as [p1 p2] eqn:E1.
    destruct (fim m f nf o pos (0, 1) 0 0) as [q1 q2] eqn:E2. cbn [bind].
    eexists. split; [reflexivity|].
    pose proof (linear_of_images m f nf o pos Hf Hn f1 f2) as L. cbn zeta in L.
    rewrite E0, E1, E2 in L. cbn [fst snd] in L. exact L.
  Qed.

  Hypothesis Hb : 2 <= mbc d.
  Hypothesis Hbm : mbc d <= m.
  Hypothesis HF : holds_layer d qcoarse F.

  (** cells that are assigned *)
  Definition reached (c : cell) : Prop :=
    exists k t mq, 1 <= k <= mbc d / 2 /\ 1 <= t <= m /\ 1 <= mq <= meqn d /\ used d m pos t /\
      quarters m f nf o pos (kth m f k t) mq c.

  Lemma interpolate_face_ok : forall ip op ft s0, 0 <= pos <= 1 -> level op = level ip + 1 ->
    beyond_face f nf o (along f ip + inject_Z pos * width op)%Q ip op ft -> square d m (level op) ->
    writes none s0 (fun q => interpolate_face rnd d qcoarse q (f / 2) f 2 (mkT ip op ft)) reached
      (interp_target m f nf o pos F).
  Proof.
    intros ip op ft s0 Hp HL HB HQ. unfold interpolate_face. change (negb (2 * 2 =? 4)) with false. cbv iota.
    destruct (build_transform_ok ip op ft HL HB HQ) as (A & EA & HA). rewrite EA. cbn [bind].
    rewrite Z.quot_div_nonneg by lia.
    assert (H2 : forall k, k <= mbc d / 2 -> 2 * k <= mbc d).
    { intros k Hk. pose proof (Z.div_mod (mbc d) 2 ltac:(lia)). pose proof (Z.mod_pos_bound (mbc d) 2 ltac:(lia)). lia. }
    set (V := interp_target m f nf o pos F).
    set (W := fun k t mq (c : cell) => used d m pos t /\ quarters m f nf o pos (kth m f k t) mq c).
    assert (AT : forall k t mq, 1 <= k <= mbc d / 2 -> 1 <= t <= m -> 1 <= mq <= meqn d ->
      writes none s0 (interp_at rnd d qcoarse A 2 (mkT ip op ft) (fst (kth m f k t)) (snd (kth m f k t)) mq) (W k t mq) V).
    { intros k t mq Hk Ht Hq. pose proof (H2 k ltac:(lia)).
      apply (interp_at_ok rnd Hrnd d m f nf o pos qcoarse F Hsz Hf Hn Hpos Hm Hb HF); try assumption; try lia.
      assert (E : pos = 0 \/ pos = 1) by lia. destruct E as [->| ->]; lia. }
    assert (ALL : writes none s0 (loop 1 (meqn d) (fun mq => loop 1 (mbc d / 2) (fun k => loop 1 m (fun t =>
        interp_at rnd d qcoarse A 2 (mkT ip op ft) (fst (kth m f k t)) (snd (kth m f k t)) mq)))) reached V).
    { eapply writes_weaken.
      - apply (writes_loop0 s0 (fun mq c => exists k, 1 <= k <= mbc d / 2 /\ exists t, 1 <= t <= m /\ W k t mq c)).
        intros mq Hq. apply (writes_loop0 s0 (fun k c => exists t, 1 <= t <= m /\ W k t mq c)).
        intros k Hk. apply (writes_loop0 s0 (fun t c => W k t mq c)).
        intros t Ht. now apply AT.
      - intros c [].
      - intros c. unfold reached. split.
        + intros (mq & Hq & k & Hk & t & Ht & U & Q). exists k, t, mq. tauto.
        + intros (k & t & mq & Hk & Ht & Hq & U & Q). exists mq. split; [exact Hq|]. exists k. split; [exact Hk|].
          exists t. split; [exact Ht|]. now split. }
    destruct Hsz as [Hx Hy]. rewrite Hx, Hy.
    eapply writes_ext; [|exact ALL]. intros s. unfold kth. clear - Hf.
    face4 f Hf; cbn [inner_cell fst snd];
      [change (0 / 2 =? 0) with true; change (0 =? 0) with true
      |change (1 / 2 =? 0) with true; change (1 =? 0) with false; change (1 =? 1) with true
      |change (2 / 2 =? 0) with false; change (2 =? 2) with true
      |change (3 / 2 =? 0) with false; change (3 =? 2) with false; change (3 =? 3) with true]; cbv iota; cbn [bind];
      try reflexivity.
    all: assert (EX : forall (g h : Z -> arr -> option arr) lo hi q, (forall k q, g k q = h k q) -> loop lo hi g q = loop lo hi h q).
    1, 3: intros g h lo hi q E; unfold loop; generalize (Z.to_nat (hi - lo + 1)); intros n; revert lo q;
      induction n as [|n IH]; intros lo q; cbn [loop_n]; [reflexivity|]; rewrite E; destruct (h lo q); cbn [bind]; auto.
    all: apply EX; intros mq q; apply EX; intros k q'; replace (m - k + 1) with (m + 1 - k) by lia; reflexivity.
  Qed.

  (** near (0) or far (1) half, and place along the face, of a quarter *)
  Definition q_a (sx sy : Z) : Z := if Z.odd f then 1 - nchild f sx sy else nchild f sx sy.
  Definition q_b (sx sy : Z) : Z := tchild f sx sy.
  Definition s_x (a b : Z) : Z := if f / 2 =? 0 then (if Z.odd f then 1 - a else a) else b.
  Definition s_y (a b : Z) : Z := if f / 2 =? 0 then b else (if Z.odd f then 1 - a else a).

  Lemma q_of_s : forall a b, 0 <= a <= 1 -> 0 <= b <= 1 ->
    0 <= s_x a b <= 1 /\ 0 <= s_y a b <= 1 /\ q_a (s_x a b) (s_y a b) = a /\ q_b (s_x a b) (s_y a b) = b.
  Proof.
    intros a b Ha Hb'. unfold s_x, s_y, q_a, q_b. clear - Hf Ha Hb'.
    face4 f Hf;
      [change (0 / 2 =? 0) with true|change (1 / 2 =? 0) with true|change (2 / 2 =? 0) with false|change (3 / 2 =? 0) with false];
      cbv iota; cbn [Z.odd nchild tchild]; lia.
  Qed.
  Lemma s_of_q : forall sx sy, 0 <= sx <= 1 -> 0 <= sy <= 1 ->
    0 <= q_a sx sy <= 1 /\ 0 <= q_b sx sy <= 1 /\ s_x (q_a sx sy) (q_b sx sy) = sx /\ s_y (q_a sx sy) (q_b sx sy) = sy.
  Proof.
    intros a b Ha Hb'. unfold s_x, s_y, q_a, q_b. clear - Hf Ha Hb'.
    face4 f Hf;
      [change (0 / 2 =? 0) with true|change (1 / 2 =? 0) with true|change (2 / 2 =? 0) with false|change (3 / 2 =? 0) with false];
      cbv iota; cbn [Z.odd nchild tchild]; lia.
  Qed.

  Lemma fim_ghost : forall k t sx sy, 0 <= sx <= 1 -> 0 <= sy <= 1 ->
    fim m f nf o pos (kth m f k t) sx sy =
    ghost_cell nf m (2 * k - 1 + q_a sx sy) (flip o m (2 * t - 1 + q_b sx sy - pos * m)).
  Proof.
    intros k t sx sy Hx Hy. unfold fim, fimage, kth. destruct (depth_inner f m k t Hf) as [E1 E2]. rewrite E1, E2.
    unfold q_b. set (tt := flip o m _). clearbody tt.
    replace (fdepth f (1 - k) (nchild f sx sy)) with (1 - (2 * k - 1 + q_a sx sy)).
    - set (e := 2 * k - 1 + q_a sx sy). clearbody e. clear - Hn. face4 nf Hn; cbn [inner_cell ghost_cell]; f_equal; lia.
    - unfold fdepth, q_a. destruct (Z.odd f); lia.
  Qed.

  Lemma qval_recon : forall k t mq sx sy, 0 <= sx <= 1 -> 0 <= sy <= 1 ->
    (qval F (kth m f k t) mq sx sy == recon (behind f m F mq) k t (q_a sx sy) (q_b sx sy))%Q.
  Proof.
    intros k t mq sx sy Hx Hy. unfold qval, kth.
    assert (SH : (shiftx (2 * sy + sx) == if (sx =? 0)%Z then - (1 # 4) else 1 # 4)%Q /\
                 (shifty (2 * sy + sx) == if (sy =? 0)%Z then - (1 # 4) else 1 # 4)%Q).
    { assert (Ex : sx = 0 \/ sx = 1) by lia. assert (Ey : sy = 0 \/ sy = 1) by lia.
      destruct Ex as [->| ->], Ey as [->| ->]; split; reflexivity. }
    destruct SH as [SX SY].
    assert (MF : forall x y z, (mc (x - z) (y - x) == - mc (x - y) (z - x))%Q).
    { intros x y z. rewrite <- mc_flip. apply mc_proper; ring. }
    unfold recon, behind, q_a, q_b.
    assert (Ex : sx = 0 \/ sx = 1) by lia. assert (Ey : sy = 0 \/ sy = 1) by lia.
    clear - Hf SX SY MF Ex Ey.
    face4 f Hf; cbn [inner_cell fst snd Z.odd nchild tchild]; rewrite SX, SY, !slopes_mc; clear SX SY.
    - destruct Ex as [->| ->], Ey as [->| ->];
        [change (0 =? 0) with true|change (0 =? 0) with true; change (1 =? 0) with false
        |change (0 =? 0) with true; change (1 =? 0) with false|change (1 =? 0) with false]; cbv iota;
        rewrite (MF (F k t mq) (F (k - 1)%Z t mq) (F (k + 1)%Z t mq)); ring.
    - replace (m + 1 - k - 1) with (m + 1 - (k + 1)) by lia. replace (m + 1 - k + 1) with (m + 1 - (k - 1)) by lia.
      destruct Ex as [->| ->], Ey as [->| ->]; try change (1 - 0) with 1; try change (1 - 1) with 0;
        try change (0 =? 0) with true; try change (1 =? 0) with false; cbv iota; ring.
    - destruct Ex as [->| ->], Ey as [->| ->];
        try change (0 =? 0) with true; try change (1 =? 0) with false; cbv iota;
        rewrite (MF (F t k mq) (F t (k - 1)%Z mq) (F t (k + 1)%Z mq)); ring.
    - replace (m + 1 - k - 1) with (m + 1 - (k + 1)) by lia. replace (m + 1 - k + 1) with (m + 1 - (k - 1)) by lia.
      destruct Ex as [->| ->], Ey as [->| ->]; try change (1 - 0) with 1; try change (1 - 1) with 0;
        try change (0 =? 0) with true; try change (1 =? 0) with false; cbv iota; ring.
  Qed.
End Interp2.
