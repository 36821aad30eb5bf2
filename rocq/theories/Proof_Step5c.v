(** The update and the whole step of clawpack 5.x. *)
From Coq Require Import ZArith QArith Qminmax Qabs List Lia Lqa Bool.
From Verif Require Import Base_Float Model_Face Model_Grid Proof_Grid Proof_Tag Proof_Diag Model_Step Spec_Step Proof_Step0 Proof_Step1 Proof_Step2 Proof_Step3
  Model_Step5 Spec_Step5 Proof_Step5 Proof_Step5b.
Import ListNotations.
Open Scope Z_scope.

Section Box.
  Variable A : arith.
  Variable S : solver.
  Variable meqn : Z.
  Variable lx hx ly hy : Z.
  Variable u u' ux ux' uy uy' aux aux' : field.
  Variable dtdx dtdy : Q.
  Hypothesis HS : options_ok S.
  Local Notation agree := (agree lx hx ly hy).
  Hypothesis Ex : agree meqn ux ux'.
  Hypothesis Ey : agree meqn uy uy'.
  Hypothesis Ea : agree (maux S) aux aux'.

  Lemma ratio_ext : forall dtd i j, lx <= i <= hx -> ly <= j <= hy -> ratio A S aux dtd i j = ratio A S aux' dtd i j.
  Proof. now apply Proof_Step3.ratio_ext with (lx := lx) (hx := hx) (ly := ly) (hy := hy). Qed.
  Lemma row_aside_ext5 : forall i j k m, ly < j < hy -> lx + 1 < i -> i + 2 <= hx ->
    row_aside5 A S meqn ux aux dtdx j i k m = row_aside5 A S meqn ux' aux' dtdx j i k m.
  Proof.
    intros i j k m Hj H1 H2. unfold row_aside5, in_row. apply aside_ext5 with (lo := lx) (hi := hx); [| | | | |exact H1|exact H2].
    + intros i' q Hi' Hq. apply Ex; lia. + intros i' q Hi' Hq. apply Ea; lia. + intros i' q Hi' Hq. apply Ea; lia. + intros i' q Hi' Hq. apply Ea; lia.
    + intros i' Hi'. apply ratio_ext; lia.
  Qed.
  Lemma col_aside_ext5 : forall i j k m, lx < i < hx -> ly + 1 < j -> j + 2 <= hy ->
    col_aside5 A S meqn uy aux dtdy i j k m = col_aside5 A S meqn uy' aux' dtdy i j k m.
  Proof.
    intros i j k m Hj H1 H2. unfold col_aside5, in_col. apply aside_ext5 with (lo := ly) (hi := hy); [| | | | |exact H1|exact H2].
    + intros i' q Hi' Hq. apply Ey; lia. + intros i' q Hi' Hq. apply Ea; lia. + intros i' q Hi' Hq. apply Ea; lia. + intros i' q Hi' Hq. apply Ea; lia.
    + intros i' Hi'. apply ratio_ext; lia.
  Qed.
End Box.

Section Whole.
  Variable A : arith.
  Variable d : dims.
  Variable S : solver.
  Hypothesis Hb : 2 <= mbc d.
  Hypothesis Hx : 1 <= mx d.
  Hypothesis Hy : 1 <= my d.
  Hypothesis Hm : 0 <= meqn d.
  Hypothesis HS : options_ok S.
  Variable bcc : Z -> Z.

  Variable waves : Z.
  Hypothesis Hw : 0 <= waves.
  Local Notation tu := (turned (mx d) (my d) bcc).
  Local Notation inside := (inside d).
  Local Notation q_filled := (q_filled d).
  Lemma q_update_ok5 : forall dtdx dtdy s, filled d S s -> fluxes_set d s ->
    exists s', w_update5 A d S (mcapa S) dtdx dtdy s = Some s' /\ (forall a c, (forall i j m, 1 <= i <= mx d -> 1 <= j <= my d -> 1 <= m <= meqn d -> (a, c) <> (QOLD, (i, j, m))) -> s' (a, c) = s (a, c)) /\
      q_filled s' /\
      (forall i j m, 1 <= i <= mx d -> 1 <= j <= my d -> 1 <= m <= meqn d -> s' (QOLD, (i, j, m)) = Some (
         let q := val s (QOLD, (i, j, m)) in
         let ew := sub A (val s (FM, (i + 1, j, m))) (val s (FP, (i, j, m))) in
         let ns := sub A (val s (GM, (i, j + 1, m))) (val s (GP, (i, j, m))) in
         if mcapa S =? 0 then sub A (sub A q (mul A dtdx ew)) (mul A dtdy ns)
         else sub A q (quo A (add A (mul A dtdx ew) (mul A dtdy ns)) (val s (AUX, (i, j, mcapa S)))))).
  Proof.
    intros dtdx dtdy s [FQ FA] FS.
    set (V := fun a : addr => let '(_, (i, j, m)) := a in Some (
         let q := val s (QOLD, (i, j, m)) in
         let ew := sub A (val s (FM, (i + 1, j, m))) (val s (FP, (i, j, m))) in
         let ns := sub A (val s (GM, (i, j + 1, m))) (val s (GP, (i, j, m))) in
         if mcapa S =? 0 then sub A (sub A q (mul A dtdx ew)) (mul A dtdy ns)
         else sub A q (quo A (add A (mul A dtdx ew) (mul A dtdy ns)) (val s (AUX, (i, j, mcapa S)))))).
    assert (H : mwrites (fun c => exists m, 1 <= m <= meqn d /\ (exists i, 1 <= i <= mx d /\ (exists j, 1 <= j <= my d /\
          (c = (QOLD, (i, j, m)) \/ (c = (FM, (i + 1, j, m)) \/ (c = (FP, (i, j, m)) \/ (c = (GM, (i, j + 1, m)) \/ (c = (GP, (i, j, m)) \/
           (c = (AUX, (i, j, mcapa S)) \/ nowhere c))))))))) s (w_update5 A d S (mcapa S) dtdx dtdy)
      (fun c => exists m, 1 <= m <= meqn d /\ (exists i, 1 <= i <= mx d /\ (exists j, 1 <= j <= my d /\ c = (QOLD, (i, j, m))))) V).
    { unfold w_update5. apply mw_loop; [|sep]. intros m Hq. apply mw_loop; [|sep]. intros i Hi. apply mw_loop; [|sep]. intros j Hj.
      apply mw_read; [qinm|apply FQ; [unfold Proof_Step2.inside; lia|exact Hq]|].
      apply mw_read; [qinm|apply FS; [reflexivity|unfold Proof_Step2.inside; lia|exact Hq]|]. apply mw_read; [qinm|apply FS; [reflexivity|unfold Proof_Step2.inside; lia|exact Hq]|].
      apply mw_read; [qinm|apply FS; [reflexivity|unfold Proof_Step2.inside; lia|exact Hq]|]. apply mw_read; [qinm|apply FS; [reflexivity|unfold Proof_Step2.inside; lia|exact Hq]|].
      cbv beta. destruct (Z.eqb_spec (mcapa S) 0) as [E0|E0].
      - eapply mw_weaken; [apply mw_wr with (V := V); [qinm|]|intros c []|reflexivity].
        reflexivity.
      - assert (Hcap : 1 <= mcapa S <= maux S) by (destruct HS as (_ & _ & X & _); lia).
        apply mw_read; [qinm|apply FA; [unfold Proof_Step2.inside; lia|lia]|]. apply mw_wr; [qinm|].
        reflexivity. }
    destruct (H s) as (s' & E & W & N & D); [reflexivity|]. exists s'. split; [exact E|]. split; [|split].
    - intros a c Ha. apply N. intros (m & Hq & i & Hi & j & Hj & X). exact (Ha i j m Hi Hj Hq X).
    - intros i j m Hi Hq. destruct (D (QOLD, (i, j, m))) as [X|X]; [exact (set_some _ _ _ X)|]. apply (set_eq s); [now apply FQ|exact X].
    - intros i j m Hi Hj Hq. apply (W (QOLD, (i, j, m))). exists m. split; [exact Hq|]. exists i. split; [lia|]. exists j. split; [lia|reflexivity].
  Qed.


  Lemma work_ok5 : work_check5 d S waves = true.
  Proof.
    unfold work_check5. assert (W : 0 <= maxm d + 2 * mbc d) by (unfold maxm; lia). destruct HS as (H1 & H2 & _).
    cbv zeta. rewrite negb_true_iff, Z.ltb_ge. nia.
  Qed.
  Hypothesis Bx : mbc d <= mx d.
  Hypothesis By : mbc d <= my d.
  Local Notation courant_numbers := (courant_numbers A d S).
  Local Notation courants_ext := (courants_ext A d S Hb HS).
  Local Notation corners_ok := (corners_ok d S Hb bcc).
  Local Notation turned_ext := (turned_ext d Hb bcc Bx By).
  Lemma step_ok5 : forall dx dy dt garbage (q aux : arr) (u X : field),
    (forall i j m, inside i j -> 1 <= m <= meqn d -> q (i, j, m) = Some (u i j m)) ->
    (forall i j m, inside i j -> 1 <= m <= maux S -> aux (i, j, m) = Some (X i j m)) ->
    exists q' c, clawpack5_step2 A d S (mcapa S) waves bcc dx dy dt garbage q aux = Some (q', c) /\
      (forall i j m, 1 <= i <= mx d -> 1 <= j <= my d -> 1 <= m <= meqn d ->
         q' (i, j, m) = Some (advanced5 A S (meqn d) u (tu 0 u) (tu 0 u) X dx dy dt i j m)) /\
      (forall i j m, inside i j -> ~ (1 <= i <= mx d /\ 1 <= j <= my d) -> 1 <= m <= meqn d -> q' (i, j, m) = Some (tu 0 u i j m)) /\
      lub (courant_numbers (tu 0 u) (tu 0 u) X (quo A dt dx) (quo A dt dy)) 0 c.
  Proof.
    intros dx dy dt garbage q aux u X Hq HX. unfold clawpack5_step2, step2_wrap5. rewrite work_ok5. unfold step2_5, sq.
    set (dtdx := quo A dt dx). set (dtdy := quo A dt dy).
    match goal with |- context [s_zero d S ?s] => set (s0 := s) end.
    destruct (zero_ok d S bcc s0) as (s1 & E1 & Y1 & Z1). rewrite E1. cbn [bind].
    assert (Q2 : forall i j m, inside i j -> 1 <= m <= meqn d -> s1 (QOLD, (i, j, m)) = Some (u i j m)).
    { intros i j m Hi Hk. rewrite Y1 by reflexivity. exact (Hq i j m Hi Hk). }
    assert (X2 : forall i j m, inside i j -> 1 <= m <= maux S -> s1 (AUX, (i, j, m)) = Some (X i j m)).
    { intros i j m Hi Hk. rewrite Y1 by reflexivity. exact (HX i j m Hi Hk). }
    destruct (corners_ok 0 s1 (or_introl eq_refl) Bx By) as (s3 & E3 & Y3 & Z3).
    { intros i j m Hi Hk. exact (set_some _ _ _ (Q2 i j m Hi Hk)). }
    rewrite E3. cbn [bind].
    assert (Q3 : forall i j m, inside i j -> 1 <= m <= meqn d -> s3 (QOLD, (i, j, m)) = Some (tu 0 u i j m)).
    { intros i j m Hi Hk. rewrite (Z3 i j m Hi Hk). f_equal. apply turned_ext; [|exact Hi|exact Hk]. intros i' j' m' Hi' Hk'. exact (val_some _ _ _ (Q2 i' j' m' Hi' Hk')). }
    assert (X3 : forall i j m, inside i j -> 1 <= m <= maux S -> s3 (AUX, (i, j, m)) = Some (X i j m)) by (intros; rewrite Y3 by discriminate; now apply X2).
    assert (F3 : forall a i j m, is_flux a = true -> inside i j -> 1 <= m <= meqn d -> s3 (a, (i, j, m)) = Some 0%Q).
    { intros a i j m Ha Hi Hk. rewrite Y3 by (intros ->; discriminate Ha). now apply Z1. }
    pose proof (n_max d true) as MX. pose proof (n_max d false) as MY. cbn [n_of] in MX, MY.
    destruct (sweep_ok5 A d S Hb Hx Hy Hm HS true dtdx s3 0%Q (fun _ _ _ => 0%Q) (fun _ _ _ => 0%Q) (fun _ _ _ => 0%Q) (fun _ _ _ => 0%Q) (fun _ => False))
      as (s4 & c4 & E4 & Y4 & FS4 & B4 & L4).
    { split; [intros i j m Hi Hk; exact (set_some _ _ _ (Q3 i j m Hi Hk))|intros i j m Hi Hk; exact (set_some _ _ _ (X3 i j m Hi Hk))]. }
    { intros a i j m Ha Hi Hk. exact (set_some _ _ _ (F3 a i j m Ha Hi Hk)). }
    { split; intros p i m Hp Hi Hk; cbn [n_of np_of] in *; split; apply F3; try reflexivity; try exact Hk; unfold Proof_Step2.inside; lia. }
    { split; [apply Qle_refl|]. split; [intros x []|now left]. }
    match type of E4 with ?a = _ => match goal with |- context [sweep5 ?A0 ?d0 ?S0 1 (mx d) (my d) DTDX1 dtdx FM FP GM GP at_x (s3, 0%Q)] =>
      change (sweep5 A0 d0 S0 1 (mx d) (my d) DTDX1 dtdx FM FP GM GP at_x (s3, 0%Q)) with a end end.
    rewrite E4. cbn [bind].
    set (U3 := of_mem s3 QOLD) in *. set (A3 := of_mem s3 AUX) in *.
    assert (Q4 : forall i j m, inside i j -> 1 <= m <= meqn d -> s4 (QOLD, (i, j, m)) = Some (tu 0 u i j m)) by (intros; rewrite Y4 by (now left); now apply Q3).
    assert (X4 : forall i j m, inside i j -> 1 <= m <= maux S -> s4 (AUX, (i, j, m)) = Some (X i j m)) by (intros; rewrite Y4 by (now right); now apply X3).
    destruct B4 as [B4a B4b].
    destruct (sweep_ok5 A d S Hb Hx Hy Hm HS false dtdy s4 c4
      (fun p i m => add A (add A 0 (f_aside5 A d S true U3 A3 dtdx (i - 1) p 2 m)) (f_aside5 A d S true U3 A3 dtdx i p 1 m))
      (fun p i m => add A (add A 0 (f_aside5 A d S true U3 A3 dtdx (i - 1) p 2 m)) (f_aside5 A d S true U3 A3 dtdx i p 1 m))
      (fun p i m => add A 0 (f_left A d S true U3 A3 dtdx i p m)) (fun p i m => add A 0 (f_right A d S true U3 A3 dtdx i p m))
      (fun x => False \/ exists p, 2 - mbc d <= p <= np_of d true + mbc d - 1 /\ courants A d S true U3 A3 dtdx p x))
      as (s6 & c6 & E6 & Y6 & FS6 & B6 & L6).
    { split; [intros i j m Hi Hk; exact (set_some _ _ _ (Q4 i j m Hi Hk))|intros i j m Hi Hk; exact (set_some _ _ _ (X4 i j m Hi Hk))]. }
    { exact FS4. }
    { split; intros p i m Hp Hi Hk; cbn [n_of np_of] in *.
      - exact (B4b i p m Hi Hp Hk).
      - exact (B4a i p m Hi Hp Hk). }
    { exact L4. }
    match type of E6 with ?a = _ => match goal with |- context [sweep5 ?A0 ?d0 ?S0 2 (my d) (mx d) DTDY1 dtdy GM GP FM FP at_y (s4, c4)] =>
      change (sweep5 A0 d0 S0 2 (my d) (mx d) DTDY1 dtdy GM GP FM FP at_y (s4, c4)) with a end end.
    rewrite E6. cbn [bind].
    set (U5 := of_mem s4 QOLD) in *. set (A5 := of_mem s4 AUX) in *.
    assert (Q6 : forall i j m, inside i j -> 1 <= m <= meqn d -> s6 (QOLD, (i, j, m)) = Some (tu 0 u i j m)) by (intros; rewrite Y6 by (now left); now apply Q4).
    assert (X6 : forall i j m, inside i j -> 1 <= m <= maux S -> s6 (AUX, (i, j, m)) = Some (X i j m)) by (intros; rewrite Y6 by (now right); now apply X4).
    destruct (q_update_ok5 dtdx dtdy s6) as (s7 & E7 & N7 & F7 & W7).
    { split; [intros i j m Hi Hk; exact (set_some _ _ _ (Q6 i j m Hi Hk))|intros i j m Hi Hk; exact (set_some _ _ _ (X6 i j m Hi Hk))]. }
    { exact FS6. }
    rewrite E7. cbn [bind]. exists (fun c => s7 (QOLD, c)), c6. split; [reflexivity|].
    assert (G3 : forall i j m, inside i j -> 1 <= m <= meqn d -> U3 i j m = tu 0 u i j m) by (intros; apply val_some; now apply Q3).
    assert (G5 : forall i j m, inside i j -> 1 <= m <= meqn d -> U5 i j m = tu 0 u i j m) by (intros; apply val_some; now apply Q4).
    assert (GA3 : forall i j m, inside i j -> 1 <= m <= maux S -> A3 i j m = X i j m) by (intros; apply val_some; now apply X3).
    assert (GA5 : forall i j m, inside i j -> 1 <= m <= maux S -> A5 i j m = X i j m) by (intros; apply val_some; now apply X4).
    split; [|split].
    - intros i j m Hi Hj Hk. etransitivity; [exact (W7 i j m Hi Hj Hk)|]. f_equal. cbv zeta.
      assert (Ea : agree (1 - mbc d) (mx d + mbc d) (1 - mbc d) (my d + mbc d) (maux S) A3 X) by (intros i' j' m' H1 H2 H3; apply GA3; [split; assumption|exact H3]).
      assert (Ea5 : agree (1 - mbc d) (mx d + mbc d) (1 - mbc d) (my d + mbc d) (maux S) A5 X) by (intros i' j' m' H1 H2 H3; apply GA5; [split; assumption|exact H3]).
      assert (Eu3 : agree (1 - mbc d) (mx d + mbc d) (1 - mbc d) (my d + mbc d) (meqn d) U3 (tu 0 u)) by (intros i' j' m' H1 H2 H3; apply G3; [split; assumption|exact H3]).
      assert (Eu5 : agree (1 - mbc d) (mx d + mbc d) (1 - mbc d) (my d + mbc d) (meqn d) U5 (tu 0 u)) by (intros i' j' m' H1 H2 H3; apply G5; [split; assumption|exact H3]).
      assert (RL : forall i j, 1 <= j <= my d -> 1 <= i <= mx d + 1 -> f_left A d S true U3 A3 dtdx j i m = row_left A S (meqn d) (tu 0 u) X dtdx j i m /\
                    f_right A d S true U3 A3 dtdx j i m = row_right A S (meqn d) (tu 0 u) X dtdx j i m).
      { intros i' j' Hj' Hi'. apply (row_ext A S (meqn d) (1 - mbc d) (mx d + mbc d) (1 - mbc d) (my d + mbc d) U3 (tu 0 u) A3 X dtdx HS Eu3 Ea); lia. }
      assert (RA : forall i j k, 0 <= j <= my d + 1 -> 1 <= i <= mx d -> f_aside5 A d S true U3 A3 dtdx j i k m = row_aside5 A S (meqn d) (tu 0 u) X dtdx j i k m).
      { intros i' j' k Hj' Hi'. apply (row_aside_ext5 A S (meqn d) (1 - mbc d) (mx d + mbc d) (1 - mbc d) (my d + mbc d) U3 (tu 0 u) A3 X dtdx HS Eu3 Ea); lia. }
      assert (CL : forall i j, 1 <= i <= mx d -> 1 <= j <= my d + 1 -> f_left A d S false U5 A5 dtdy i j m = col_left A S (meqn d) (tu 0 u) X dtdy i j m /\
                    f_right A d S false U5 A5 dtdy i j m = col_right A S (meqn d) (tu 0 u) X dtdy i j m).
      { intros i' j' Hi' Hj'. apply (col_ext A S (meqn d) (1 - mbc d) (mx d + mbc d) (1 - mbc d) (my d + mbc d) U5 (tu 0 u) A5 X dtdy HS Eu5 Ea5); lia. }
      assert (CA : forall i j k, 0 <= i <= mx d + 1 -> 1 <= j <= my d -> f_aside5 A d S false U5 A5 dtdy i j k m = col_aside5 A S (meqn d) (tu 0 u) X dtdy i j k m).
      { intros i' j' k Hi' Hj'. apply (col_aside_ext5 A S (meqn d) (1 - mbc d) (mx d + mbc d) (1 - mbc d) (my d + mbc d) U5 (tu 0 u) A5 X dtdy HS Eu5 Ea5); lia. }
      destruct B6 as [B6a B6b]. cbn [n_of np_of ma_of pa_of mb_of pb_of at_of] in B6a, B6b. unfold at_y in B6a, B6b.
      assert (V1 : val s6 (FM, (i + 1, j, m)) = _) by exact (val_some _ _ _ (proj1 (B6b (i + 1) j m ltac:(lia) ltac:(lia) Hk))).
      assert (V2 : val s6 (FP, (i, j, m)) = _) by exact (val_some _ _ _ (proj2 (B6b i j m ltac:(lia) ltac:(lia) Hk))).
      assert (V3 : val s6 (GM, (i, j + 1, m)) = _) by exact (val_some _ _ _ (proj1 (B6a i (j + 1) m ltac:(lia) ltac:(lia) Hk))).
      assert (V4 : val s6 (GP, (i, j, m)) = _) by exact (val_some _ _ _ (proj2 (B6a i j m ltac:(lia) ltac:(lia) Hk))).
      rewrite V1, V2, V3, V4. clear V1 V2 V3 V4.
      rewrite (val_some _ _ _ (Q6 i j m ltac:(unfold Proof_Step2.inside; lia) Hk)), (turned_inner d) by lia.
      rewrite !CA by lia. rewrite !RA by lia. rewrite (proj1 (RL (i + 1) j ltac:(lia) ltac:(lia))), (proj2 (RL i j ltac:(lia) ltac:(lia))).
      rewrite (proj1 (CL i (j + 1) ltac:(lia) ltac:(lia))), (proj2 (CL i j ltac:(lia) ltac:(lia))).
      unfold advanced5. cbv zeta. destruct (Z.eqb_spec (mcapa S) 0) as [E0|E0]; [reflexivity|].
      rewrite (val_some _ _ _ (X6 i j (mcapa S) ltac:(unfold Proof_Step2.inside; lia) ltac:(destruct HS as (_ & _ & HC & _); lia))). reflexivity.
    - intros i j m Hi HN Hk. etransitivity; [apply (N7 QOLD (i, j, m)); intros i' j' m' H1 H2 _ E; injection E as -> -> _; tauto|]. now apply Q6.
    - eapply lub_ext; [|exact L6]. intros x. unfold Proof_Step3.courant_numbers. cbn [np_of]. split.
      + intros [[[]|(p & Hp & Hc)]|(p & Hp & Hc)].
        * left. exists p. split; [exact Hp|]. exact (courants_ext true U3 (tu 0 u) A3 X dtdx p x Hp G3 GA3 Hc).
        * right. exists p. split; [exact Hp|]. exact (courants_ext false U5 (tu 0 u) A5 X dtdy p x Hp G5 GA5 Hc).
      + intros [(p & Hp & Hc)|(p & Hp & Hc)].
        * left. right. exists p. split; [exact Hp|]. apply (courants_ext true (tu 0 u) U3 X A3 dtdx p x Hp); [| |exact Hc]; intros; symmetry; [now apply G3|now apply GA3].
        * right. exists p. split; [exact Hp|]. apply (courants_ext false (tu 0 u) U5 X A5 dtdy p x Hp); [| |exact Hc]; intros; symmetry; [now apply G5|now apply GA5].
  Qed.
End Whole.
