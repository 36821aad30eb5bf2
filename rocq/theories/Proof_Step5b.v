(** The sweeps of clawpack 5.x over all slices. *)
From Coq Require Import ZArith QArith Qminmax Qabs List Lia Lqa Bool.
From Verif Require Import Base_Float Model_Face Model_Grid Proof_Grid Proof_Tag Proof_Diag Model_Step Spec_Step Proof_Step0 Proof_Step1 Proof_Step2 Model_Step5 Spec_Step5 Proof_Step5.
Import ListNotations.
Open Scope Z_scope.

Lemma aside_ext5 : forall A S meqn ixy lo hi u u' b b' a a' c c' r r', same lo hi meqn u u' -> same lo hi (maux S) b b' -> same lo hi (maux S) a a' ->
  same lo hi (maux S) c c' -> (forall i, lo <= i <= hi -> r i = r' i) ->
  forall i k m, lo + 1 < i -> i + 2 <= hi -> aside5 A S meqn ixy u b a c r i k m = aside5 A S meqn ixy u' b' a' c' r' i k m.
Proof.
  intros A S meqn ixy lo hi u u' b b' a a' c c' r r' Eu Eb Ea Ec Er i k m Hi Hj. unfold aside5. destruct (method3 S =? 0); [reflexivity|].
  rewrite (Er i) by lia.
  rewrite (transverse_ext S meqn ixy lo hi u u' b b' a a' c c' Eu Eb Ea Ec 1 (i + 1) _ (amdq A S meqn ixy u' a' r' (i + 1))); [|lia|].
  - rewrite (transverse_ext S meqn ixy lo hi u u' b b' a a' c c' Eu Eb Ea Ec 2 i _ (apdq A S meqn ixy u' a' r' i)); [reflexivity|lia|].
    intros q Hq. unfold apdq. rewrite (at_interface_ext S meqn ixy lo hi u u' a a' Eu Ea), (correction_ext A S meqn ixy lo hi u u' a a' r r' Eu Ea Er) by lia. reflexivity.
  - intros q Hq. unfold amdq. rewrite (at_interface_ext S meqn ixy lo hi u u' a a' Eu Ea), (correction_ext A S meqn ixy lo hi u u' a a' r r' Eu Ea Er) by lia. reflexivity.
Qed.

Section Sweep.
  Variable A : arith.
  Variable d : dims.
  Variable S : solver.
  Hypothesis Hb : 2 <= mbc d.
  Hypothesis Hx : 1 <= mx d.
  Hypothesis Hy : 1 <= my d.
  Hypothesis Hm : 0 <= meqn d.
  Hypothesis HS : options_ok S.
  Local Notation inside := (inside d).
  Local Notation filled := (filled d S).
  Local Notation ratio_of := (ratio_of A S).
  Local Notation inputs := (inputs A d S).
  Local Notation courants := (courants A d S).
  Local Notation f_left := (f_left A d S).
  Local Notation f_right := (f_right A d S).
  Local Notation fluxes_set := (fluxes_set d).
  Local Notation bases := (bases d).
  Local Ltac bsep b := destruct b; cbn [ixy_of n_of np_of dt_of ma_of pa_of mb_of pb_of at_of] in *; cbv [at_x at_y] in *; sep.
  Local Ltac binm b := pose proof (n_max d true); pose proof (n_max d false); destruct b; cbn [ixy_of n_of np_of dt_of ma_of pa_of mb_of pb_of at_of] in *; cbv [at_x at_y] in *; unfold a1; cbn [in_mem in1]; unfold in_q; cbn [mx my mbc meqn]; rewrite ?andb_true_iff, ?Z.leb_le; repeat split; lia.


  Lemma copy_ok5 : forall b dtd p s, 2 - mbc d <= p <= np_of d b + mbc d - 1 -> filled s ->
    exists s', s_copy5 A d S (n_of d b) (dt_of b) dtd (at_of b) p s = Some s' /\
      (forall a c, match a with Q1D | AUX1 | AUX2 | AUX3 | DTDX1 | DTDY1 => True | _ => s' (a, c) = s (a, c) end) /\
      inputs b (of_mem s QOLD) (of_mem s AUX) dtd p s'.
  Proof.
    intros b dtd p s Hp HF. unfold s_copy5. unfold sq at 1.
    assert (X : exists s1, cond (negb (0 <? mcapa S)) (loop (1 - mbc d) (maxm d + mbc d) (fun i => wrm d S (a1 (dt_of b) i 1) dtd)) s = Some s1 /\
      (forall a c, a <> dt_of b -> s1 (a, c) = s (a, c)) /\ ratios d S b dtd s1).
    { destruct HS as (_ & _ & HC & _). destruct (Z.ltb_spec 0 (mcapa S)) as [L|L]; cbn [negb cond].
      - exists s. split; [reflexivity|]. split; [reflexivity|]. intros E. lia.
      - assert (H : mwrites (fun c => exists i, 1 - mbc d <= i <= maxm d + mbc d /\ nowhere c) s
          (loop (1 - mbc d) (maxm d + mbc d) (fun i => wrm d S (a1 (dt_of b) i 1) dtd))
          (fun c => exists i, 1 - mbc d <= i <= maxm d + mbc d /\ c = a1 (dt_of b) i 1) (fun _ => Some dtd)).
        { apply mw_loop; [|bsep b]. intros i Hi. apply mw_wr; [binm b|reflexivity]. }
        destruct (H s) as (s1 & E & W & N & _); [reflexivity|]. exists s1. split; [exact E|]. split.
        + intros a c Ha. apply N. intros (i & _ & Y). apply Ha. inversion Y. reflexivity.
        + intros _ i Hi. apply (W (dt_of b, (i, 1, 1))). exists i. split; [|reflexivity]. pose proof (n_max d b). lia. }
    destruct X as (s1 & E1 & N1 & R1). rewrite E1. cbn [bind].
    assert (F1 : filled s1).
    { destruct HF as [FQ FA]. split; intros i j m Hi Hq; (eapply set_eq; [|apply N1; destruct b; discriminate]); [now apply FQ|now apply FA]. }
    destruct (copy_ok A d S HS b dtd p s1 Hp F1 R1) as (s2 & E2 & Y2 & I2). exists s2. split; [exact E2|]. split.
    - intros a c. specialize (Y2 a c). destruct a; try exact Logic.I; rewrite Y2; apply N1; destruct b; discriminate.
    - assert (EU : forall i j m, of_mem s1 QOLD i j m = of_mem s QOLD i j m) by (intros; apply val_eq, N1; destruct b; discriminate).
      assert (EX : forall i j m, of_mem s1 AUX i j m = of_mem s AUX i j m) by (intros; apply val_eq, N1; destruct b; discriminate).
      intros i Hi. destruct (I2 i Hi) as (C1 & C2 & C3). assert (EA : forall p i m, along b (of_mem s1 AUX) p i m = along b (of_mem s AUX) p i m) by (intros; unfold along; destruct b; apply EX).
      split; [|split].
      + intros m Hq. rewrite (C1 m Hq). f_equal. unfold along. destruct b; apply EU.
      + intros m Hq. rewrite <- !EA. now apply C2.
      + rewrite C3. unfold Proof_Step2.ratio_of. now rewrite EA.
  Qed.

  Definition f_aside5 (b : bool) (U X : field) (dtd : Q) (p : Z) :=
    aside5 A S (meqn d) (ixy_of b) (along b U p) (along b X (p - 1)) (along b X p) (along b X (p + 1)) (ratio_of b X dtd p).
  Lemma slice_ok5 : forall b U X dtd p s, inputs b U X dtd p s -> exists s' c,
    flux2_5 A d S (ixy_of b) (n_of d b) (dt_of b) s = Some (s', c) /\ (forall a c, is_local a = false -> s' (a, c) = s (a, c)) /\
    lub (courants b U X dtd p) 0 c /\
    fadd_ok d (n_of d b) s' (f_left b U X dtd p) (f_right b U X dtd p) /\ gadd_ok d (n_of d b) s' 1 (n_of d b) (f_aside5 b U X dtd p).
  Proof.
    intros b U X dtd p s HI. pose proof (n_max d b) as HM. pose proof (n_pos d Hx Hy b) as HP.
    assert (HD : dt_of b = DTDX1 \/ dt_of b = DTDY1) by (destruct b; [now left|now right]).
    destruct (flux2_ok5 A d S (ixy_of b) (n_of d b) (dt_of b) Hb HP HM Hm HS HD s) as (_ & s' & c & E & K & L & F & G).
    { intros i m Hi Hq. exact (set_some _ _ _ (proj1 (HI i Hi) m Hq)). }
    { intros i m Hi Hq. exact (set_some _ _ _ (proj1 (proj1 (proj2 (HI i Hi)) m Hq))). }
    { intros i m Hi Hq. exact (set_some _ _ _ (proj1 (proj2 (proj1 (proj2 (HI i Hi)) m Hq)))). }
    { intros i m Hi Hq. exact (set_some _ _ _ (proj2 (proj2 (proj1 (proj2 (HI i Hi)) m Hq)))). }
    { intros i Hi. exact (set_some _ _ _ (proj2 (proj2 (HI i Hi)))). }
    assert (Eu : same (1 - mbc d) (n_of d b + mbc d) (meqn d) (u s) (along b U p)).
    { intros i m Hi Hq. exact (val_some _ _ _ (proj1 (HI i Hi) m Hq)). }
    assert (E1 : same (1 - mbc d) (n_of d b + mbc d) (maux S) (al1 s) (along b X (p - 1))).
    { intros i m Hi Hq. exact (val_some _ _ _ (proj1 (proj1 (proj2 (HI i Hi)) m Hq))). }
    assert (E2 : same (1 - mbc d) (n_of d b + mbc d) (maux S) (al2 s) (along b X p)).
    { intros i m Hi Hq. exact (val_some _ _ _ (proj1 (proj2 (proj1 (proj2 (HI i Hi)) m Hq)))). }
    assert (E3 : same (1 - mbc d) (n_of d b + mbc d) (maux S) (al3 s) (along b X (p + 1))).
    { intros i m Hi Hq. exact (val_some _ _ _ (proj2 (proj2 (proj1 (proj2 (HI i Hi)) m Hq)))). }
    assert (Er : forall i, 1 - mbc d <= i <= n_of d b + mbc d -> rt (dt_of b) s i = ratio_of b X dtd p i).
    { intros i Hi. exact (val_some _ _ _ (proj2 (proj2 (HI i Hi)))). }
    exists s', c. split; [exact E|]. split; [exact K|]. split; [|split].
    - apply (lub_ext (courant A d S (ixy_of b) (n_of d b) (dt_of b) s)); [|exact L]. intros x. unfold courant, Proof_Step2.courants.
      split; intros (mw & Hw & i & Hi & Y); exists mw; (split; [exact Hw|]); exists i; (split; [exact Hi|]).
      + rewrite <- !Er by lia. rewrite <- (speed_ext S (meqn d) (ixy_of b) _ _ _ _ _ _ Eu E2) by lia. exact Y.
      + rewrite !Er by lia. rewrite (speed_ext S (meqn d) (ixy_of b) _ _ _ _ _ _ Eu E2) by lia. exact Y.
    - intros i m Hi Hq. destruct (F i m Hi Hq) as (C1 & C2 & C3). split; [exact C1|]. split; [exact C2|]. intros Hj. destruct (C3 Hj) as [D1 D2].
      unfold Proof_Step2.f_left, Proof_Step2.f_right. split.
      + rewrite D1. f_equal. apply (flux_left_ext A S (meqn d) (ixy_of b) _ _ _ _ _ _ _ _ Eu E2 Er); lia.
      + rewrite D2. f_equal. apply (flux_right_ext A S (meqn d) (ixy_of b) _ _ _ _ _ _ _ _ Eu E2 Er); lia.
    - intros i m k Hi Hq Hk. destruct (G i m k Hi Hq Hk) as (C1 & C2 & C3). split; [exact C1|]. split; [exact C2|]. intros Hj. destruct (C3 Hj) as [D1 D2].
      assert (Z : aside5 A S (meqn d) (ixy_of b) (u s) (al1 s) (al2 s) (al3 s) (rt (dt_of b) s) i k m = f_aside5 b U X dtd p i k m)
        by (apply (aside_ext5 A S (meqn d) (ixy_of b) _ _ _ _ _ _ _ _ _ _ _ _ Eu E1 E2 E3 Er); lia).
      rewrite <- Z. now split.
  Qed.

  Lemma update_ok5 : forall b p s, 2 - mbc d <= p <= np_of d b + mbc d - 1 -> fluxes_set s ->
    (forall i m, 1 - mbc d <= i <= n_of d b + mbc d -> 1 <= m <= meqn d -> set s (FADDM, (i, m, 1)) /\ set s (FADDP, (i, m, 1))) ->
    (forall i m k, 1 - mbc d <= i <= n_of d b + mbc d -> 1 <= m <= meqn d -> 1 <= k <= 2 -> set s (GADDM, (i, m, k)) /\ set s (GADDP, (i, m, k))) ->
    exists s', s_update5 A d S (n_of d b) (ma_of b) (pa_of b) (mb_of b) (pb_of b) (at_of b) p s = Some s' /\
      (forall a c, is_flux a = false -> s' (a, c) = s (a, c)) /\ fluxes_set s' /\
      (forall i m, 1 <= i <= n_of d b + 1 -> 1 <= m <= meqn d ->
         s' (ma_of b, at_of b p i m) = Some (add A (val s (ma_of b, at_of b p i m)) (val s (FADDM, (i, m, 1)))) /\
         s' (pa_of b, at_of b p i m) = Some (add A (val s (pa_of b, at_of b p i m)) (val s (FADDP, (i, m, 1)))) /\
         s' (mb_of b, at_of b p i m) = Some (add A (val s (mb_of b, at_of b p i m)) (val s (GADDM, (i, m, 1)))) /\
         s' (pb_of b, at_of b p i m) = Some (add A (val s (pb_of b, at_of b p i m)) (val s (GADDP, (i, m, 1)))) /\
         s' (mb_of b, at_of b (p + 1) i m) = Some (add A (val s (mb_of b, at_of b (p + 1) i m)) (val s (GADDM, (i, m, 2)))) /\
         s' (pb_of b, at_of b (p + 1) i m) = Some (add A (val s (pb_of b, at_of b (p + 1) i m)) (val s (GADDP, (i, m, 2))))) /\
      (forall p' i m, p' <> p -> s' (ma_of b, at_of b p' i m) = s (ma_of b, at_of b p' i m) /\ s' (pa_of b, at_of b p' i m) = s (pa_of b, at_of b p' i m)) /\
      (forall p' i m, p' <> p -> p' <> p + 1 -> s' (mb_of b, at_of b p' i m) = s (mb_of b, at_of b p' i m) /\ s' (pb_of b, at_of b p' i m) = s (pb_of b, at_of b p' i m)).
  Proof.
    intros b p s Hp FS SF SG.
    set (V := fun a : addr => let '(nm, (x, y, m)) := a in
      Some (add A (val s (nm, (x, y, m))) (val s (src b p nm (if b then y else x) (if b then x else y) m)))).
    assert (Hset : forall a p' i m, is_flux a = true -> p <= p' <= p + 1 -> 1 <= i <= n_of d b + 1 -> 1 <= m <= meqn d -> set s (a, at_of b p' i m)).
    { intros a p' i m Ha Hp' Hi Hq. destruct b; apply FS; try assumption; unfold Proof_Step2.inside; cbn [n_of np_of] in *; lia. }
    assert (V0 : forall a i m, V (a, at_of b p i m) = Some (add A (val s (a, at_of b p i m)) (val s (src b p a p i m)))) by (intros; destruct b; reflexivity).
    assert (V1 : forall a i m, V (a, at_of b (p + 1) i m) = Some (add A (val s (a, at_of b (p + 1) i m)) (val s (src b p a (p + 1) i m)))) by (intros; destruct b; reflexivity).
    assert (P0 : p =? p = true) by apply Z.eqb_refl. assert (P1 : p + 1 =? p = false) by (apply Z.eqb_neq; lia).
    assert (VV : forall i m, V (ma_of b, at_of b p i m) = Some (add A (val s (ma_of b, at_of b p i m)) (val s (FADDM, (i, m, 1)))) /\
         V (pa_of b, at_of b p i m) = Some (add A (val s (pa_of b, at_of b p i m)) (val s (FADDP, (i, m, 1)))) /\
         V (mb_of b, at_of b p i m) = Some (add A (val s (mb_of b, at_of b p i m)) (val s (GADDM, (i, m, 1)))) /\
         V (pb_of b, at_of b p i m) = Some (add A (val s (pb_of b, at_of b p i m)) (val s (GADDP, (i, m, 1)))) /\
         V (mb_of b, at_of b (p + 1) i m) = Some (add A (val s (mb_of b, at_of b (p + 1) i m)) (val s (GADDM, (i, m, 2)))) /\
         V (pb_of b, at_of b (p + 1) i m) = Some (add A (val s (pb_of b, at_of b (p + 1) i m)) (val s (GADDP, (i, m, 2))))).
    { intros i m. rewrite !V0, !V1. unfold src. rewrite P0, P1. destruct b; cbn [ma_of pa_of mb_of pb_of]; repeat split; reflexivity. }
    assert (H : mwrites (fun c => exists m, 1 <= m <= meqn d /\ (exists i, 1 <= i <= n_of d b + 1 /\
        ((c = a1 FADDM i m \/ (c = (ma_of b, at_of b p i m) \/ nowhere c)) \/
         ((c = a1 FADDP i m \/ (c = (pa_of b, at_of b p i m) \/ nowhere c)) \/
          ((c = (GADDM, (i, m, 1)) \/ (c = (mb_of b, at_of b p i m) \/ nowhere c)) \/
           ((c = (GADDP, (i, m, 1)) \/ (c = (pb_of b, at_of b p i m) \/ nowhere c)) \/
            ((c = (GADDM, (i, m, 2)) \/ (c = (mb_of b, at_of b (p + 1) i m) \/ nowhere c)) \/
             (c = (GADDP, (i, m, 2)) \/ (c = (pb_of b, at_of b (p + 1) i m) \/ nowhere c))))))))) s
      (s_update5 A d S (n_of d b) (ma_of b) (pa_of b) (mb_of b) (pb_of b) (at_of b) p)
      (fun c => exists m, 1 <= m <= meqn d /\ (exists i, 1 <= i <= n_of d b + 1 /\
        (c = (ma_of b, at_of b p i m) \/ (c = (pa_of b, at_of b p i m) \/ (c = (mb_of b, at_of b p i m) \/ (c = (pb_of b, at_of b p i m) \/
         (c = (mb_of b, at_of b (p + 1) i m) \/ c = (pb_of b, at_of b (p + 1) i m)))))))) V).
    { unfold s_update5. apply mw_loop; [|bsep b]. intros m Hq. apply mw_loop; [|bsep b]. intros i Hi.
      destruct (SF i m ltac:(lia) Hq) as [F1 F2]. destruct (SG i m 1 ltac:(lia) Hq ltac:(lia)) as [G1 G2]. destruct (SG i m 2 ltac:(lia) Hq ltac:(lia)) as [G3 G4].
      destruct (VV i m) as (B1 & B2 & B3 & B4 & B5 & B6).
      apply mw_seq; [apply mw_acc; [binm b|binm b|apply Hset; [destruct b; reflexivity|lia|lia|lia]|exact F1|exact B1]| |bsep b].
      apply mw_seq; [apply mw_acc; [binm b|binm b|apply Hset; [destruct b; reflexivity|lia|lia|lia]|exact F2|exact B2]| |bsep b].
      apply mw_seq; [apply mw_acc; [binm b|binm b|apply Hset; [destruct b; reflexivity|lia|lia|lia]|exact G1|exact B3]| |bsep b].
      apply mw_seq; [apply mw_acc; [binm b|binm b|apply Hset; [destruct b; reflexivity|lia|lia|lia]|exact G2|exact B4]| |bsep b].
      apply mw_seq; [apply mw_acc; [binm b|binm b|apply Hset; [destruct b; reflexivity|lia|lia|lia]|exact G3|exact B5]| |bsep b].
      apply mw_acc; [binm b|binm b|apply Hset; [destruct b; reflexivity|lia|lia|lia]|exact G4|exact B6]. }
    destruct (H s) as (s' & E & W & N & D); [reflexivity|]. exists s'. split; [exact E|].
    split; [|split; [|split; [|split]]].
    - intros a c Ha. apply N. intros (m & _ & i & _ & [X|[X|[X|[X|[X|X]]]]]); inversion X; subst; destruct b; discriminate Ha.
    - intros a i j m Ha Hi Hq. destruct (D (a, (i, j, m))) as [X|X]; [|apply (set_eq s); [now apply FS|exact X]].
      unfold V in X. exact (set_some _ _ _ X).
    - intros i m Hi Hq. destruct (VV i m) as (B1 & B2 & B3 & B4 & B5 & B6). rewrite <- B1, <- B2, <- B3, <- B4, <- B5, <- B6.
      do 5 (split; [apply W; exists m; (split; [exact Hq|]); exists i; (split; [exact Hi|]); tauto|]).
      apply W; exists m; (split; [exact Hq|]); exists i; (split; [exact Hi|]); tauto.
    - intros p' i m Hne. split; apply N; bsep b.
    - intros p' i m Hne Hne'. split; apply N; bsep b.
  Qed.

  Lemma sweep_ok5 : forall b dtd s c fm fp gm gp (P : Q -> Prop), filled s -> fluxes_set s -> bases b s fm fp gm gp -> lub P 0 c ->
    let U := of_mem s QOLD in let X := of_mem s AUX in
    exists s' c', sweep5 A d S (ixy_of b) (n_of d b) (np_of d b) (dt_of b) dtd (ma_of b) (pa_of b) (mb_of b) (pb_of b) (at_of b) (s, c) = Some (s', c') /\
      (forall a c, a = QOLD \/ a = AUX -> s' (a, c) = s (a, c)) /\ fluxes_set s' /\
      bases b s' (fun p i m => add A (fm p i m) (f_left b U X dtd p i m)) (fun p i m => add A (fp p i m) (f_right b U X dtd p i m))
        (fun p i m => add A (add A (gm p i m) (f_aside5 b U X dtd (p - 1) i 2 m)) (f_aside5 b U X dtd p i 1 m))
        (fun p i m => add A (add A (gp p i m) (f_aside5 b U X dtd (p - 1) i 2 m)) (f_aside5 b U X dtd p i 1 m)) /\
      lub (fun x => P x \/ exists p, 2 - mbc d <= p <= np_of d b + mbc d - 1 /\ courants b U X dtd p x) 0 c'.
  Proof.
    intros b dtd s c fm fp gm gp P HF HFS HB HL. cbn zeta. set (U := of_mem s QOLD). set (X := of_mem s AUX).
    assert (Hnp : 1 <= np_of d b) by (destruct b; cbn [np_of]; lia). pose proof (n_pos d Hx Hy b) as Hn1.
    set (left := f_left b U X dtd). set (right := f_right b U X dtd). set (asd := f_aside5 b U X dtd).
    unfold sweep5.
    match goal with |- context [loop (2 - mbc d) (np_of d b + mbc d - 1) ?g _] => destruct (loop_ok _ (2 - mbc d) (np_of d b + mbc d - 1) g
      (fun k st => (forall a c, a = QOLD \/ a = AUX -> fst st (a, c) = s (a, c)) /\ fluxes_set (fst st) /\
        bases b (fst st) (fun p i m => if p <? k then add A (fm p i m) (left p i m) else fm p i m)
          (fun p i m => if p <? k then add A (fp p i m) (right p i m) else fp p i m)
          (fun p i m => if p <? k then add A (add A (gm p i m) (asd (p - 1) i 2 m)) (asd p i 1 m) else if p =? k then add A (gm p i m) (asd (p - 1) i 2 m) else gm p i m)
          (fun p i m => if p <? k then add A (add A (gp p i m) (asd (p - 1) i 2 m)) (asd p i 1 m) else if p =? k then add A (gp p i m) (asd (p - 1) i 2 m) else gp p i m) /\
        lub (fun x => P x \/ exists p, 2 - mbc d <= p <= k - 1 /\ courants b U X dtd p x) 0 (snd st))) with (s := (s, c)) as ([s' c'] & E & I1 & I2 & I3 & I4) end.
    - lia.
    - intros p [s1 c1] Hp (I1 & I2 & I3 & I4). cbn [fst snd] in I1, I2, I3, I4.
      assert (F1 : filled s1).
      { destruct HF as [HF1 HF2]. split; intros i j m Hi Hq; [apply (set_eq s); [now apply HF1|apply I1; now left]|apply (set_eq s); [now apply HF2|apply I1; now right]]. }
      destruct (copy_ok5 b dtd p s1 Hp F1) as (s2 & E2 & Y2 & In2). rewrite E2. cbn [bind].
      assert (EU : forall i j m, of_mem s1 QOLD i j m = U i j m) by (intros; apply val_eq, I1; now left).
      assert (EX : forall i j m, of_mem s1 AUX i j m = X i j m) by (intros; apply val_eq, I1; now right).
      assert (In2' : inputs b U X dtd p s2).
      { intros i Hi. destruct (In2 i Hi) as (C1 & C2 & C3). assert (EA : forall p i m, along b (of_mem s1 AUX) p i m = along b X p i m) by (intros; unfold along; destruct b; apply EX).
        split; [|split].
        - intros m Hq. rewrite (C1 m Hq). f_equal. unfold along. destruct b; apply EU.
        - intros m Hq. rewrite <- !EA. now apply C2.
        - rewrite C3. unfold Proof_Step2.ratio_of. now rewrite EA. }
      destruct (slice_ok5 b U X dtd p s2 In2') as (s3 & c3 & E3 & Y3 & L3 & FA & GA). rewrite E3. cbn [bind].
      assert (Y23 : forall a c, is_flux a = true -> s3 (a, c) = s1 (a, c)).
      { intros a c0 Ha. rewrite Y3 by (destruct a; try reflexivity; discriminate Ha). specialize (Y2 a c0). destruct a; try discriminate Ha; exact Y2. }
      assert (FS3 : fluxes_set s3) by (intros a i j m Ha Hi Hq; apply (set_eq s1); [now apply I2|now apply Y23]).
      destruct (update_ok5 b p s3 Hp FS3) as (s4 & E4 & Y4 & FS4 & W4 & N4 & N4').
      { intros i m Hi Hq. destruct (FA i m Hi Hq) as (C1 & C2 & _). now split. }
      { intros i m k Hi Hq Hk. destruct (GA i m k Hi Hq Hk) as (C1 & C2 & _). now split. }
      rewrite E4. cbn [bind]. eexists. split; [reflexivity|]. cbn [fst snd].
      assert (KF : is_flux (ma_of b) = true /\ is_flux (pa_of b) = true /\ is_flux (mb_of b) = true /\ is_flux (pb_of b) = true) by (destruct b; repeat split).
      destruct KF as (KF1 & KF2 & KF3 & KF4).
      split; [|split; [exact FS4|split; [split|]]].
      + intros a c0 Ha. assert (is_flux a = false) by (destruct Ha as [-> | ->]; reflexivity). rewrite Y4 by assumption.
        rewrite Y3 by (destruct Ha as [-> | ->]; reflexivity). specialize (Y2 a c0).
        rewrite <- (I1 a c0 Ha). destruct Ha as [-> | ->]; exact Y2.
      + intros p' i m Hp' Hi Hq. destruct (proj1 I3 p' i m Hp' Hi Hq) as [D1 D2]. destruct (Z.eq_dec p' p) as [->|Hne].
        * rewrite Z.ltb_irrefl in D1, D2. rewrite (proj2 (Z.ltb_lt p (p + 1))) by lia. destruct (W4 i m ltac:(lia) Hq) as (B1 & B2 & _).
          destruct (FA i m ltac:(unfold cells; lia) Hq) as (_ & _ & C3). destruct (C3 ltac:(lia)) as [C4 C5].
          rewrite B1, B2. rewrite (val_some _ _ _ C4), (val_some _ _ _ C5). rewrite (val_some s3 _ (fm p i m)) by (rewrite Y23; assumption).
          rewrite (val_some s3 _ (fp p i m)) by (rewrite Y23; assumption). now split.
        * destruct (N4 p' i m Hne) as [B1 B2]. rewrite B1, B2, !Y23 by assumption.
          replace (p' <? p + 1) with (p' <? p); [now split|]. destruct (Z.ltb_spec p' p), (Z.ltb_spec p' (p + 1)); try reflexivity; lia.
      + intros p' i m Hp' Hi Hq. destruct (proj2 I3 p' i m Hp' Hi Hq) as [D1 D2]. destruct (W4 i m ltac:(lia) Hq) as (_ & _ & B3 & B4 & B5 & B6).
        destruct (Z.eq_dec p' p) as [->|Hne]; [|destruct (Z.eq_dec p' (p + 1)) as [->|Hne']].
        * rewrite Z.ltb_irrefl, Z.eqb_refl in D1, D2. rewrite (proj2 (Z.ltb_lt p (p + 1))) by lia.
          destruct (GA i m 1 ltac:(unfold cells; lia) Hq ltac:(lia)) as (_ & _ & C3). destruct (C3 ltac:(lia)) as [C4 C5].
          rewrite B3, B4. rewrite (val_some _ _ _ C4), (val_some _ _ _ C5). rewrite (val_some s3 _ (add A (gm p i m) (asd (p - 1) i 2 m))) by (rewrite Y23; assumption).
          rewrite (val_some s3 _ (add A (gp p i m) (asd (p - 1) i 2 m))) by (rewrite Y23; assumption). now split.
        * rewrite (proj2 (Z.ltb_ge (p + 1) p)), (proj2 (Z.eqb_neq (p + 1) p)) in D1, D2 by lia. rewrite Z.ltb_irrefl, Z.eqb_refl.
          destruct (GA i m 2 ltac:(unfold cells; lia) Hq ltac:(lia)) as (_ & _ & C3). destruct (C3 ltac:(lia)) as [C4 C5].
          rewrite B5, B6. rewrite (val_some _ _ _ C4), (val_some _ _ _ C5). rewrite (val_some s3 _ (gm (p + 1) i m)) by (rewrite Y23; assumption).
          rewrite (val_some s3 _ (gp (p + 1) i m)) by (rewrite Y23; assumption). replace (p + 1 - 1) with p by lia. now split.
        * destruct (N4' p' i m Hne Hne') as [Z3 Z4]. rewrite Z3, Z4, !Y23 by assumption.
          replace (p' <? p + 1) with (p' <? p) by (destruct (Z.ltb_spec p' p), (Z.ltb_spec p' (p + 1)); try reflexivity; lia).
          rewrite (proj2 (Z.eqb_neq p' (p + 1))) by lia. rewrite (proj2 (Z.eqb_neq p' p)) in D1, D2 by lia. now split.
      + apply (lub_ext (fun x => (P x \/ exists q, 2 - mbc d <= q <= p - 1 /\ courants b U X dtd q x) \/ courants b U X dtd p x)); [|now apply lub_max].
        intros x. split.
        * intros [[Hx'|(q & Hq & Hc)]|Hc]; [now left|right; exists q; split; [lia|exact Hc]|right; exists p; split; [lia|exact Hc]].
        * intros [Hx'|(q & Hq & Hc)]; [left; now left|]. destruct (Z.eq_dec q p) as [->|Hne]; [now right|]. left. right. exists q. split; [lia|exact Hc].
    - cbn [fst snd]. split; [reflexivity|]. split; [exact HFS|]. split.
      + split; intros p i m Hp Hi Hq.
        * rewrite (proj2 (Z.ltb_ge p (2 - mbc d))) by lia. now apply (proj1 HB).
        * rewrite (proj2 (Z.ltb_ge p (2 - mbc d))) by lia. rewrite (proj2 (Z.eqb_neq p (2 - mbc d))) by lia. now apply (proj2 HB).
      + apply (lub_ext P); [|exact HL]. intros x. split; [now left|]. intros [Hx'|(q & Hq & _)]; [exact Hx'|lia].
    - cbn [fst snd] in I1, I2, I3, I4. exists s', c'. split; [exact E|]. split; [exact I1|]. split; [exact I2|]. split.
      + split; intros p i m Hp Hi Hq.
        * destruct (proj1 I3 p i m Hp Hi Hq) as [D1 D2]. rewrite (proj2 (Z.ltb_lt p (np_of d b + mbc d - 1 + 1))) in D1, D2 by lia. now split.
        * destruct (proj2 I3 p i m Hp Hi Hq) as [D1 D2]. rewrite (proj2 (Z.ltb_lt p (np_of d b + mbc d - 1 + 1))) in D1, D2 by lia. now split.
      + eapply lub_ext; [|exact I4]. intros x. split; (intros [Hx'|(q & Hq & Hc)]; [now left|right; exists q; split; [lia|exact Hc]]).
  Qed.
End Sweep.
