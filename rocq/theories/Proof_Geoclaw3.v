(** GeoClaw interpolation: the loops of the three routines. *)
From Coq Require Import ZArith QArith Qminmax Qabs List Lia Lqa Bool Qfield Permutation.
From Verif Require Import Base_Float Model_Face Spec_Face Proof_Face Proof_Face1 Proof_Face5 Model_Grid Spec_Grid
  Proof_Grid Proof_Grid2 Proof_Grid4 Proof_Grid5 Model_Corner Spec_Corner Proof_Corner1 Proof_Corner2 Proof_Corner3 Proof_Corner4
  Model_Geoclaw Spec_Geoclaw Proof_Geoclaw.
From Verif Require Proof_Grid3.
Import ListNotations.
Open Scope Z_scope.

Section Level.
  Variable d : dims.
  Variable maux : Z.
  Variable tol sea : Q.
  Hypothesis Hmaux : 1 <= maux.
  Hypothesis Hb : 1 <= mbc d.
  Hypothesis Hs : 1 <= mx d /\ 1 <= my d.
  Variable qc ac : arr.
  Variable F C : data.
  Hypothesis HF : holds_layer d qc F.
  Hypothesis HC : holds_all (with_entries d maux) ac C.

  Lemma level_ok : forall i j mq, 1 <= mq <= meqn d ->
    (0 <= i <= mx d + 1 /\ 1 <= j <= my d) \/ (1 <= i <= mx d /\ 0 <= j <= my d + 1) ->
    level_value d maux tol sea qc ac (i, j, mq) = Some (surface_of tol sea F C i j mq).
  Proof.
    intros i j mq Hq Hij. unfold level_value, surface_of.
    assert (R : forall k, 1 <= k <= meqn d -> rd d qc (i, j, k) = Some (F i j k)).
    { intros k Hk. apply rd_some; [apply in_q_iff; lia|]. apply HF; [exact Hk|tauto]. }
    destruct (mq =? 1) eqn:E; [|now apply R].
    apply Z.eqb_eq in E. rewrite (R 1) by lia. cbn [bind].
    rewrite (rd_some (ad d maux) ac (i, j, mbathy) (C i j 1)).
    - cbn [bind]. unfold etabar, Qltb. destruct (Qle_bool tol (F i j 1)); reflexivity.
    - apply in_q_iff. unfold ad, mbathy. cbn [mx my mbc meqn]. lia.
    - apply HC; cbn [mx my mbc meqn with_entries]; lia.
  Qed.
End Level.

Lemma bottom_at : forall d maux af B p, 1 <= maux -> holds_all (with_entries d maux) af B ->
  1 - mbc d <= fst p <= mx d + mbc d -> 1 - mbc d <= snd p <= my d + mbc d ->
  rd (ad d maux) af (fst p, snd p, mbathy) = Some (bottom B p).
Proof.
  intros d maux af B p Hm HB Hi Hj. apply rd_some.
  - apply in_q_iff. unfold ad, mbathy. cbn [mx my mbc meqn]. lia.
  - unfold bottom, mbathy. apply HB; cbn [mx my mbc meqn with_entries]; lia.
Qed.

(* --------------------------------------------------------- interpolate2fine *)

Section Refine.
  Variable d : dims.
  Hypothesis Hd : even_size d.
  Hypothesis Hb : 2 <= mbc d.
  Variable g : Z.
  Hypothesis Hg : 0 <= g < 4.
  Variable maux : Z.
  Variable tol sea : Q.
  Hypothesis Hmaux : 1 <= maux.
  Variable qc ac af : arr.
  Variable F C B : data.
  Hypothesis HF : holds_layer d qc F.
  Hypothesis HC : holds_all (with_entries d maux) ac C.
  Hypothesis HB : holds_all (with_entries d maux) af B.

  Definition over_fine (mq : Z) (p : Z * Z) (v : Q) : Q := if mq =? 1 then (v - bottom B p)%Q else v.
  Definition refine_arr : arr := fun c => let '(fi, fj, mq) := c in
    Some (over_fine mq (fi, fj) (Proof_Grid3.ival d g (surface_of tol sea F C) (Proof_Grid3.up fi) (Proof_Grid3.up fj) mq
      (Proof_Grid3.hf fi) (Proof_Grid3.hf fj))).

  Lemma geo_refine_cell_ok : forall i j mq s0,
    1 - child_x g <= i <= mx d / 2 + (1 - child_x g) -> 1 - child_y g <= j <= my d / 2 + (1 - child_y g) ->
    1 <= mq <= meqn d ->
    writes none s0 (geo_interpolate_cell d maux tol sea qc ac af i j (i + off_x d g) (j + off_y d g) mq)
      (Proof_Grid3.quad i j mq) refine_arr.
  Proof.
    intros i j mq s0 Hi Hj Hm.
    destruct (grid_facts d g Hd Hg) as (_ & _ & _ & _ & E1 & E2 & _ & _ & Cx & Cy & Ox & Oy).
    pose proof Hd as (_ & _ & Sx & Sy & _).
    set (I := i + off_x d g). set (J := j + off_y d g).
    assert (R : forall a b, -1 <= a <= 1 -> -1 <= b <= 1 -> a = 0 \/ b = 0 ->
      level_value d maux tol sea qc ac (I + a, J + b, mq) = Some (surface_of tol sea F C (I + a) (J + b) mq)).
    { intros a b Ha Hb' Hor. apply (level_ok d maux tol sea Hmaux ltac:(lia) ltac:(lia) qc ac F C HF HC); [exact Hm|].
      unfold I, J. destruct Hor as [->| ->]; [right|left]; lia. }
    assert (R0 := R 0 0). do 3 (specialize (R0 ltac:(clear; lia))). rewrite !Z.add_0_r in R0.
    assert (Rw := R (-1) 0). do 3 (specialize (Rw ltac:(clear; lia))). rewrite Z.add_0_r in Rw.
    change (I + -1) with (I - 1) in Rw.
    assert (Re := R 1 0). do 3 (specialize (Re ltac:(clear; lia))). rewrite Z.add_0_r in Re.
    assert (Rs := R 0 (-1)). do 3 (specialize (Rs ltac:(clear; lia))). rewrite Z.add_0_r in Rs.
    change (J + -1) with (J - 1) in Rs.
    assert (Rn := R 0 1). do 3 (specialize (Rn ltac:(clear; lia))). rewrite Z.add_0_r in Rn.
    unfold geo_interpolate_cell. cbv zeta. rewrite R0, Rw, Re, Rs, Rn. cbn [bind].
    unfold Proof_Grid3.quad.
    apply (writes_loop0 s0 (fun ii c => exists jj, 1 <= jj <= 2 /\ c = ((i - 1) * 2 + ii, (j - 1) * 2 + jj, mq))).
    intros ii Hii.
    apply (writes_loop0 s0 (fun jj c => c = ((i - 1) * 2 + ii, (j - 1) * 2 + jj, mq))). intros jj Hjj.
    assert (RB := bottom_at d maux af B ((i - 1) * 2 + ii, (j - 1) * 2 + jj) Hmaux HB).
    cbn [fst snd] in RB. rewrite RB by lia. cbn [bind].
    assert (IN : in_q d ((i - 1) * 2 + ii, (j - 1) * 2 + jj, mq) = true) by (apply in_q_iff; lia).
    destruct (Proof_Grid3.up_hf i ii Hii) as [U1 U2]. destruct (Proof_Grid3.up_hf j jj Hjj) as [U3 U4].
    destruct (mq =? 1) eqn:E.
    - apply writes_cell; [exact IN|]. unfold refine_arr, over_fine. rewrite U1, U2, U3, U4, E. reflexivity.
    - apply writes_cell; [exact IN|]. unfold refine_arr, over_fine. rewrite U1, U2, U3, U4, E. reflexivity.
  Qed.

  Lemma geo_refine_ok : forall s0,
    writes none s0 (geo_interpolate2fine d maux tol sea qc ac af g) (Proof_Grid3.reached d g) refine_arr.
  Proof.
    intros s0. unfold geo_interpolate2fine.
    destruct (grid_facts d g Hd Hg) as (G1 & G2 & G3 & G4 & E1 & E2 & G5 & G6 & Cx & Cy & Ox & Oy).
    rewrite G2, G1, G3, G4, G5, G6.
    eapply writes_weaken.
    - apply (writes_loop0 s0 (fun mq c => exists i, (1 - child_x g <= i <= mx d / 2 + (1 - child_x g)) /\
               exists j, (1 - child_y g <= j <= my d / 2 + (1 - child_y g)) /\ Proof_Grid3.quad i j mq c)). intros mq Hmq.
      apply (writes_loop0 s0 (fun i c => exists j, (1 - child_y g <= j <= my d / 2 + (1 - child_y g)) /\ Proof_Grid3.quad i j mq c)).
      intros i Hi.
      apply (writes_loop0 s0 (fun j c => Proof_Grid3.quad i j mq c)). intros j Hj. now apply geo_refine_cell_ok.
    - intros c [].
    - intros [[fi fj] m]. unfold Proof_Grid3.reached. split.
      + intros (mq & Hmq & i & Hi & j & Hj & ii & Hii & jj & Hjj & E). injection E as -> -> ->. lia.
      + intros (HI & HJ & Hm). exists m. split; [exact Hm|].
        destruct (Proof_Grid3.up_hf_inv fi) as [EI BI]. destruct (Proof_Grid3.up_hf_inv fj) as [EJ BJ].
        exists (Proof_Grid3.up fi). split; [lia|]. exists (Proof_Grid3.up fj). split; [lia|].
        exists (Proof_Grid3.hf fi). split; [exact BI|]. exists (Proof_Grid3.hf fj). split; [exact BJ|]. now rewrite EI, EJ.
  Qed.
End Refine.

(* --------------------------------------------------------- faces and corners *)

Section GInterp.
  Variable rnd : Q -> Q.
  Hypothesis Hrnd : rounding rnd.
  Variable d : dims.
  Variable m : Z.
  Variable f nf : Z.
  Variable o : bool.
  Hypothesis Hsz : mx d = m /\ my d = m.
  Hypothesis Hf : 0 <= f < 4.
  Hypothesis Hn : 0 <= nf < 4.
  Hypothesis Hm : 1 <= m < 2 ^ 28.
  Hypothesis Hb : 2 <= mbc d.
  Variable maux : Z.
  Variable tol sea : Q.
  Hypothesis Hmaux : 1 <= maux.
  Variable qc ac af : arr.
  Variable F C B : data.
  Hypothesis HF : holds_layer d qc F.
  Hypothesis HC : holds_all (with_entries d maux) ac C.
  Hypothesis HB : holds_all (with_entries d maux) af B.

  Definition clipped (mq : Z) (p : Z * Z) (v : Q) : Q := if mq =? 1 then Qmax (v - bottom B p) 0 else v.
  Definition gtarget (pos : Z) : arr := fun c => let '(i, j, mq) := c in
    Some (clipped mq (i, j) (qval (surface_of tol sea F C) (co_cell f nf o pos m (i, j)) mq (co_sx f nf o pos m (i, j)) (co_sy f nf o pos m (i, j)))).

  Section Pos.
  Variable pos : Z.
  Hypothesis Hpos : -1 <= pos <= 2.
  Notation gfim := (fim m f nf o pos).

  Lemma gtarget_at : forall p mq sx sy, 0 <= sx <= 1 -> 0 <= sy <= 1 ->
    gtarget pos (fst (gfim p sx sy), snd (gfim p sx sy), mq) =
    Some (clipped mq (gfim p sx sy) (qval (surface_of tol sea F C) p mq sx sy)).
  Proof.
    intros p mq sx sy Hx Hy. unfold gtarget. rewrite <- surjective_pairing. unfold fim.
    destruct (co_inv f nf o pos m p sx sy Hf Hn Hx Hy) as (E1 & E2 & E3). now rewrite E1, E2, E3.
  Qed.

  Lemma geo_four_ok : forall A i j mq s0, linear_part m f nf o pos A -> 1 <= mq <= meqn d ->
    1 <= i <= m -> 1 <= j <= m ->
    (forall sx sy, 0 <= sx <= 1 -> 0 <= sy <= 1 ->
       in_q d (fst (gfim (i, j) sx sy), snd (gfim (i, j) sx sy), mq) = true) ->
    writes none s0 (geo_interp_four d maux tol sea qc ac af A (gfim (i, j) 0 0) i j mq) (quarters m f nf o pos (i, j) mq) (gtarget pos).
  Proof.
    intros A i j mq s0 HA Hq Hi Hj Hin. destruct Hsz as [Hx Hy].
    unfold geo_interp_four. cbv zeta.
    assert (RD : forall i' j', (0 <= i' <= m + 1 /\ 1 <= j' <= m) \/ (1 <= i' <= m /\ 0 <= j' <= m + 1) ->
      level_value d maux tol sea qc ac (i', j', mq) = Some (surface_of tol sea F C i' j' mq)).
    { intros i' j' H. apply (level_ok d maux tol sea Hmaux ltac:(lia) ltac:(lia) qc ac F C HF HC); [exact Hq|].
      rewrite Hx, Hy. exact H. }
    rewrite (RD i j), (RD (i - 1) j), (RD (i + 1) j), (RD i (j - 1)), (RD i (j + 1)) by lia. cbn [bind].
    set (g := fun k q => _).
    assert (G : forall sx sy, 0 <= sx <= 1 -> 0 <= sy <= 1 ->
      writes none s0 (g (2 * sy + sx)) (fun c => c = (fst (gfim (i, j) sx sy), snd (gfim (i, j) sx sy), mq)) (gtarget pos)).
    { intros sx sy Hsx Hsy. unfold g.
      assert (E := HA (i, j) sx sy Hsx Hsy).
      assert (E1 := f_equal fst E). assert (E2 := f_equal snd E). cbn [fst snd] in E1, E2. rewrite <- E1, <- E2.
      assert (IN := Hin sx sy Hsx Hsy). pose proof IN as IN'. apply in_q_iff in IN'.
      rewrite (bottom_at d maux af B (gfim (i, j) sx sy) Hmaux HB) by lia. cbn [bind].
      destruct (mq =? 1) eqn:EQ.
      - apply writes_cell; [exact IN|]. rewrite gtarget_at by assumption. unfold clipped. rewrite EQ. reflexivity.
      - apply writes_cell; [exact IN|]. rewrite gtarget_at by assumption. unfold clipped. rewrite EQ. reflexivity. }
    assert (SEQ : writes none s0 (fun s => bind (g 0 s) (fun s => bind (g 1 s) (fun s => bind (g 2 s) (g 3))))
      (fun c => c = (fst (gfim (i, j) 0 0), snd (gfim (i, j) 0 0), mq) \/ (c = (fst (gfim (i, j) 1 0), snd (gfim (i, j) 1 0), mq) \/
        (c = (fst (gfim (i, j) 0 1), snd (gfim (i, j) 0 1), mq) \/ c = (fst (gfim (i, j) 1 1), snd (gfim (i, j) 1 1), mq)))) (gtarget pos)).
    { assert (W2 : forall f1 f2 W1 W2, writes none s0 f1 W1 (gtarget pos) -> writes none s0 f2 W2 (gtarget pos) ->
        writes none s0 (fun s => bind (f1 s) f2) (fun c => W1 c \/ W2 c) (gtarget pos)).
      { intros f1 f2 W1 W2 H1 H2. eapply writes_weaken.
        - apply (writes_seq none none s0 f1 f2 W1 W2 (gtarget pos) H1 H2). intros c [].
        - intros c [[]|[]].
        - intros c. reflexivity. }
      apply W2; [exact (G 0 0 ltac:(lia) ltac:(lia))|].
      apply (W2 (g 1)); [exact (G 1 0 ltac:(lia) ltac:(lia))|].
      apply (W2 (g 2)); [exact (G 0 1 ltac:(lia) ltac:(lia))|exact (G 1 1 ltac:(lia) ltac:(lia))]. }
    eapply writes_ext; [intros s; apply (loop03 g s)|].
    eapply writes_weaken; [exact SEQ|intros c []|].
    intros c. unfold quarters. split.
    - intros [H|[H|[H|H]]]; [exists 0, 0|exists 1, 0|exists 0, 1|exists 1, 1]; (split; [lia|split; [lia|exact H]]).
    - intros (sx & sy & Hsx & Hsy & H).
      assert (Ex : sx = 0 \/ sx = 1) by lia. assert (Ey : sy = 0 \/ sy = 1) by lia.
      destruct Ex as [->| ->], Ey as [->| ->]; tauto.
  Qed.

  Lemma geo_at_ok : forall A ip op ft t mq s0, linear_part m f nf o pos A -> level op = level ip + 1 ->
    beyond_face f nf o (along f ip + inject_Z pos * width op)%Q ip op ft -> square d m (level op) ->
    1 <= t <= m -> - 2 * m - 1 <= 2 * t - 1 - pos * m <= 3 * m -> 1 <= mq <= meqn d ->
    writes none s0 (geo_interp_at rnd d maux tol sea qc ac af A (mkT ip op ft) (fst (kth m f 1 t)) (snd (kth m f 1 t)) mq)
      (fun c => used d m pos t /\ quarters m f nf o pos (kth m f 1 t) mq c) (gtarget pos).
  Proof.
    intros A ip op ft t mq s0 HA HL HBF HQ Ht Htt Hq.
    destruct (depth_inner f m 1 t Hf) as [E1 E2].
    unfold geo_interp_at.
    destruct (t_half_gen rnd Hrnd d m ip op f nf o pos ft (fst (kth m f 1 t)) (snd (kth m f 1 t)) HL Hpos HBF HQ) as (ij & E & HI).
    { rewrite <- surjective_pairing. unfold kth. rewrite E1. lia. }
    { rewrite <- surjective_pairing. unfold kth. rewrite E2. lia. }
    rewrite E. cbn [bind]. rewrite <- surjective_pairing in HI. fold (gfim (kth m f 1 t)) in HI.
    assert (I0 : ij 0 = Some (gfim (kth m f 1 t) 0 0)) by (apply (HI 0 0); lia).
    assert (I1 : ij 1 = Some (gfim (kth m f 1 t) 1 0)) by (apply (HI 1 0); lia).
    assert (I2 : ij 2 = Some (gfim (kth m f 1 t) 0 1)) by (apply (HI 0 1); lia).
    assert (I3 : ij 3 = Some (gfim (kth m f 1 t) 1 1)) by (apply (HI 1 1); lia).
    rewrite I0, I1, I2, I3. cbn [bind]. clear I0 I1 I2 I3 HI E ij.
    set (V := fun c : Z * Z => is_valid_interp d (fst c) (snd c)).
    assert (VV : forall sx sy, 0 <= sx <= 1 -> 0 <= sy <= 1 ->
      (V (gfim (kth m f 1 t) sx sy) = true <-> 1 - mbc d <= flip o m (2 * t - 1 + tchild f sx sy - pos * m) <= m + mbc d))
      by (intros sx sy Hx Hy; apply (fim_valid d m f nf o pos Hsz Hf Hn Hm Hb 1 t sx sy); (assumption || lia)).
    apply writes_ext with (f := fun q =>
      if V (gfim (kth m f 1 t) 0 0) && V (gfim (kth m f 1 t) 1 0) && V (gfim (kth m f 1 t) 0 1) && V (gfim (kth m f 1 t) 1 1)
      then geo_interp_four d maux tol sea qc ac af A (gfim (kth m f 1 t) 0 0) (fst (kth m f 1 t)) (snd (kth m f 1 t)) mq q else Some q);
      [intros s; reflexivity|].
    destruct (V (gfim (kth m f 1 t) 0 0) && V (gfim (kth m f 1 t) 1 0) && V (gfim (kth m f 1 t) 0 1) && V (gfim (kth m f 1 t) 1 1)) eqn:EV.
    - rewrite !andb_true_iff in EV. destruct EV as (((V0 & V1) & V2) & V3).
      assert (U : used d m pos t).
      { apply VV in V0; try lia. apply VV in V3; try lia. apply VV in V1; try lia. apply VV in V2; try lia.
        unfold used, flip in *. clear - Hf V0 V1 V2 V3.
        destruct o; face4 f Hf; cbn [tchild] in *; lia. }
      assert (Hij : 1 <= fst (kth m f 1 t) <= m /\ 1 <= snd (kth m f 1 t) <= m).
      { unfold kth. clear - Hf Hm Ht. face4 f Hf; cbn [inner_cell fst snd]; lia. }
      destruct Hij as [Hi Hj].
      assert (IF := geo_four_ok A (fst (kth m f 1 t)) (snd (kth m f 1 t)) mq s0 HA Hq Hi Hj).
      rewrite <- surjective_pairing in IF.
      eapply writes_weaken; [apply IF| |].
      + intros sx sy Hx Hy.
        assert (VX : V (gfim (kth m f 1 t) sx sy) = true).
        { apply VV; try assumption. pose proof (tchild_range f Hf sx sy Hx Hy) as BB. unfold flip, used in *. destruct o; lia. }
        unfold V, is_valid_interp in VX. unfold in_q. rewrite VX. cbn [andb].
        rewrite (proj2 (Z.leb_le 1 mq)), (proj2 (Z.leb_le mq (meqn d))) by lia. reflexivity.
      + intros c [].
      + intros c. tauto.
    - eapply writes_weaken; [apply (writes_skip none)|intros c []|].
      intros c. unfold none. split; [tauto|]. intros [U _].
      assert (AV : forall sx sy, 0 <= sx <= 1 -> 0 <= sy <= 1 -> V (gfim (kth m f 1 t) sx sy) = true).
      { intros sx sy Hx Hy. apply VV; try assumption. pose proof (tchild_range f Hf sx sy Hx Hy) as BB.
        unfold flip, used in *. destruct o; lia. }
      rewrite !AV in EV by lia. discriminate.
  Qed.

  Definition greached (c : cell) : Prop :=
    exists t mq, 1 <= t <= m /\ 1 <= mq <= meqn d /\ used d m pos t /\ quarters m f nf o pos (kth m f 1 t) mq c.

  Lemma geo_interpolate_face_ok : forall ip op ft s0, 0 <= pos <= 1 -> level op = level ip + 1 ->
    beyond_face f nf o (along f ip + inject_Z pos * width op)%Q ip op ft -> square d m (level op) ->
    writes none s0 (fun q => geo_interpolate_face rnd d maux tol sea qc q ac af (f / 2) f (mkT ip op ft)) greached (gtarget pos).
  Proof.
    intros ip op ft s0 Hp HL HBF HQ. unfold geo_interpolate_face.
    destruct (build_transform_ok rnd Hrnd d m f nf o pos Hsz Hf Hn Hpos Hm ip op ft HL HBF HQ) as (A & EA & HA).
    rewrite EA. cbn [bind].
    set (V := gtarget pos).
    set (W := fun t mq (c : cell) => used d m pos t /\ quarters m f nf o pos (kth m f 1 t) mq c).
    assert (AT : forall t mq, 1 <= t <= m -> 1 <= mq <= meqn d ->
      writes none s0 (geo_interp_at rnd d maux tol sea qc ac af A (mkT ip op ft) (fst (kth m f 1 t)) (snd (kth m f 1 t)) mq) (W t mq) V).
    { intros t mq Ht Hq. apply geo_at_ok; try assumption; try lia.
      assert (E : pos = 0 \/ pos = 1) by lia. destruct E as [->| ->]; lia. }
    assert (ALL : writes none s0 (loop 1 (meqn d) (fun mq => loop 1 m (fun t =>
        geo_interp_at rnd d maux tol sea qc ac af A (mkT ip op ft) (fst (kth m f 1 t)) (snd (kth m f 1 t)) mq))) greached V).
    { eapply writes_weaken.
      - apply (writes_loop0 s0 (fun mq c => exists t, 1 <= t <= m /\ W t mq c)).
        intros mq Hq. apply (writes_loop0 s0 (fun t c => W t mq c)).
        intros t Ht. now apply AT.
      - intros c [].
      - intros c. unfold greached. split.
        + intros (mq & Hq & t & Ht & U & Q). exists t, mq. tauto.
        + intros (t & mq & Ht & Hq & U & Q). exists mq. split; [exact Hq|].
          exists t. split; [exact Ht|]. now split. }
    destruct Hsz as [Hx Hy]. rewrite Hx, Hy.
    eapply writes_ext; [|exact ALL]. intros s. unfold kth. clear - Hf.
    face4 f Hf; cbn [inner_cell fst snd];
      [change (0 / 2 =? 0) with true; change (0 =? 0) with true
      |change (1 / 2 =? 0) with true; change (1 =? 0) with false; change (1 =? 1) with true
      |change (2 / 2 =? 0) with false; change (2 =? 2) with true
      |change (3 / 2 =? 0) with false; change (3 =? 2) with false; change (3 =? 3) with true]; cbv iota; cbn [bind];
      try reflexivity.
    all: replace (m + 1 - 1) with m by lia; reflexivity.
  Qed.
  End Pos.

  Section GCorner.
    Variable u : bool.
    Variable ip op : patch.
    Variable c : cdata.
    Hypothesis HT : touches_corner f nf o u ip op c.
    Hypothesis HL : level op = level ip + 1.
    Hypothesis HR : 2 ^ level op * m <= 2 ^ 49.
    Hypothesis HBC : is_block_corner c = true -> 2 ^ level op * m <= 2 ^ 29.
    Hypothesis Hbm : mbc d <= m.

    Definition gcreached (z : cell) : Prop :=
      exists mq, 1 <= mq <= meqn d /\ quarters m f nf o (ends2 u) (kth m f 1 (from_end u m 1)) mq z.

    Lemma geo_interpolate_corner_ok : forall s0,
      writes none s0 (fun q => geo_interpolate_corner rnd d maux tol sea qc q ac af (corner_on f u) c) gcreached (gtarget (ends2 u)).
    Proof.
      intros s0. assert (Hpos : -1 <= ends2 u <= 2) by (unfold ends2; destruct u; lia).
      destruct (build_corner_ok rnd Hrnd d m Hsz Hm f nf o u ip op c HT HL HR HBC) as (A & EA & HA).
      set (V := gtarget (ends2 u)).
      set (t := from_end u m 1).
      assert (Ht : 1 <= t <= m) by (unfold t, from_end; destruct u; lia).
      destruct (depth_inner f m 1 t Hf) as [D1 D2]. fold (kth m f 1 t) in D1, D2.
      assert (EP : (if corner_on f u =? 0 then Some (1, 1) else if corner_on f u =? 1 then Some (mx d, 1)
          else if corner_on f u =? 2 then Some (1, my d) else if corner_on f u =? 3 then Some (mx d, my d) else None) = Some (kth m f 1 t)).
      { destruct Hsz as [-> ->]. unfold kth, t, from_end. clear - Hf.
        destruct u; face4 f Hf; cbn [corner_on inner_cell]; unfold corner_on; cbn; f_equal; f_equal; lia. }
      set (p := kth m f 1 t) in *.
      destruct (t_corner_half_ok rnd Hrnd d m Hsz Hm f nf o u ip op c HT HL HR (fst p) (snd p)) as (ij & E & HI).
      { rewrite <- surjective_pairing, D1. lia. }
      { rewrite <- surjective_pairing, D2. unfold t, from_end, ends2. destruct u; lia. }
      rewrite <- surjective_pairing in HI.
      assert (I0 := HI 0 0 ltac:(lia) ltac:(lia)). change (2 * 0 + 0) with 0 in I0.
      assert (ALL : writes none s0 (loop 1 (meqn d) (fun mq => geo_interp_four d maux tol sea qc ac af A
          (fimage f nf o (ends2 u) m p 0 0) (fst p) (snd p) mq)) gcreached V).
      { eapply writes_weaken.
        - apply (writes_loop0 s0 (fun mq z => quarters m f nf o (ends2 u) p mq z)). intros mq Hq.
          assert (Hij : 1 <= fst p <= m /\ 1 <= snd p <= m).
          { unfold p, kth. clear - Hf Ht Hm. face4 f Hf; cbn [inner_cell fst snd]; lia. }
          destruct Hij as [Hi Hj].
          assert (IF := geo_four_ok (ends2 u) Hpos A (fst p) (snd p) mq s0 HA Hq Hi Hj).
          rewrite <- surjective_pairing in IF. apply IF.
          intros sx sy Hsx Hsy. unfold p. rewrite (fim_ghost m f nf o (ends2 u) Hf Hn 1 t sx sy Hsx Hsy).
          destruct (s_of_q f Hf sx sy Hsx Hsy) as (Q1 & Q2 & _).
          apply in_q_iff. destruct Hsz as [-> ->].
          assert (B1 : 1 <= 2 * 1 - 1 + q_a f sx sy <= mbc d) by lia.
          assert (B2 : 1 - mbc d <= flip o m (2 * t - 1 + q_b f sx sy - ends2 u * m) <= m + mbc d).
          { unfold flip, t, from_end, ends2. destruct o, u; lia. }
          revert B1 B2. generalize (2 * 1 - 1 + q_a f sx sy) (flip o m (2 * t - 1 + q_b f sx sy - ends2 u * m)).
          intros e tt B1 B2. clear - Hn B1 B2 Hq Hm. face4 nf Hn; cbn [ghost_cell fst snd]; lia.
        - intros z [].
        - intros z. unfold gcreached. fold t. fold p. tauto. }
      eapply writes_ext; [|exact ALL]. intros s. unfold geo_interpolate_corner. rewrite EA. cbn [bind].
      rewrite EP. cbn [bind]. rewrite (surjective_pairing p) at 1. rewrite E. cbn [bind]. rewrite I0. cbn [bind]. reflexivity.
    Qed.
  End GCorner.
End GInterp.
