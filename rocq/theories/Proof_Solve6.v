(** The step on all processes, and runs. *)
From Coq Require Import ZArith QArith List Bool Lia.
From Verif Require Import Base_Float Model_Face Spec_Face Model_Mesh Proof_Mesh Spec_Mesh Model_Fill Model_FillExec Spec_Fill Proof_Fill1 Model_Solve Spec_Solve Proof_Solve1 Proof_Solve3 Proof_Solve5.
From Verif Require Model_Grid Spec_Grid Model_Ghost Spec_Bc Model_Step Spec_Step Proof_Step3 Proof_Step4 Prop_Step Model_Advance.
Import ListNotations.
Open Scope Z_scope.

Section Run.
  Variable w : world.
  Variable geo : geometry.
  Variable L : layout.
  Variable U : setup.
  Variables dx dy : Q.
  Variable X : field.
  Variable views : Z -> view.
  Hypothesis FOREST : forest_ok w geo.
  Hypothesis MACHINE : machine_ok w geo (mkReq (lvl L) (lvl L) false) views.
  Hypothesis LAID : laid_out w geo L.
  Hypothesis SETUP : setup_ok w L U dx dy X.
  Hypothesis ONCE : once w L views.
  Notation d := (Model_Ghost.g_d (s_opts U)).
  Notation m := (Model_Grid.mx (Model_Ghost.g_d (s_opts U))).
  Notation mbc := (Model_Grid.mbc (Model_Ghost.g_d (s_opts U))).
  Notation meqn := (Model_Grid.meqn (Model_Ghost.g_d (s_opts U))).
  Notation B := (rect L (Model_Grid.mx (Model_Ghost.g_d (s_opts U))) (s_mthbc U)).
  Notation sizes := (sizes w L U dx dy X SETUP).
  Notation in_q_spec := (in_q_spec w L U dx dy X SETUP).
  Notation step := (evolve (s_arith U) (s_solver U) (Model_Grid.meqn (Model_Ghost.g_d (s_opts U))) B X dx dy).
  Notation steps := (evolves (s_arith U) (s_solver U) (Model_Grid.meqn (Model_Ghost.g_d (s_opts U))) B X dx dy).

  (** any values [V] in a patch and its ghost cells *)
  Definition local (V : field) (q : Model_Grid.arr) : Prop := forall i j k, Model_Grid.in_q d (i, j, k) = true -> q (i, j, k) = Some (V i j k).
  Definition local_inner (V : field) (q : Model_Grid.arr) : Prop :=
    forall i j k, Model_Grid.in_q d (i, j, k) = true -> 1 <= i <= m /\ 1 <= j <= m -> q (i, j, k) = Some (V i j k).
  Definition local_X (x : patch) : field := Proof_Step4.moved (fst (pos L x) * m) (snd (pos L x) * m) X.
  Definition local_step (dt : Q) (x : patch) (V : field) : field := Spec_Step.advanced (s_arith U) (s_solver U) meqn V V V (local_X x) dx dy dt.

  Lemma patch_step : forall V dt garbage x q, is_patch w x -> local V q ->
    exists q' c, Model_Step.clawpack46_step2 (s_arith U) d (s_solver U) (s_corners U x) (s_dx U x) (s_dy U x) dt garbage q (s_aux U x) = Some (q', c) /\
      assigned U q' /\ local_inner (local_step dt x V) q'.
  Proof.
    intros V dt garbage x q Hx HQ. pose proof SETUP as (_ & _ & _ & _ & US & _ & H). destruct (H x Hx) as (_ & HC & -> & -> & HX). pose proof sizes as (SY & S1 & S2 & S3 & S4).
    destruct (Prop_Step.C57_values (s_arith U) d (s_solver U) (s_corners U x) dx dy dt garbage q (s_aux U x) V (local_X x) US) as (q' & c & E & VV & N & _).
    - intros i j k Hi Hj Hk. apply HQ. apply in_q_spec. rewrite SY in Hj. lia.
    - exact HX.
    - exists q', c. split; [exact E|]. split.
      + intros [[i j] k] HI. apply in_q_spec in HI. apply N; rewrite ?SY; lia.
      + intros i j k HI [Hi Hj]. apply in_q_spec in HI. rewrite (VV i j k) by (rewrite ?SY; lia). f_equal. unfold local_step.
        destruct US as (Hb & Bx & By & Hm & HS).
        assert (T : forall dir i j m0, Spec_Step.turned m (Model_Grid.my d) (s_corners U x) dir V i j m0 = V i j m0).
        { intros dir i' j' m'. apply (Proof_Step3.not_turned d (s_corners U x)). intros [_ C]. revert C. apply HC. unfold Spec_Step.corner_number. destruct (i' <? 1), (j' <? 1); lia. }
        apply (Proof_Step3.advanced_ext (s_arith U) (s_solver U) meqn (1 - mbc) (m + mbc) (1 - mbc) (Model_Grid.my d + mbc)); try exact HS; try (rewrite ?SY; lia); try reflexivity.
        * intros i' j' m' _ _ _. apply T.
        * intros i' j' m' _ _ _. apply T.
        * intros i' j' m' _ _ _. reflexivity.
  Qed.
  Lemma local_global : forall u dt x i j k,
    local_step dt x (fun i j k => continued B u (col L m x i) (row L m x j) k) i j k = step dt u (col L m x i) (row L m x j) k.
  Proof.
    intros u dt x i j k. unfold local_step, evolve. cbv zeta.
    exact (Proof_Step4.advanced_sh (s_arith U) (s_solver U) meqn (fst (pos L x) * m) (snd (pos L x) * m) (continued B u) (continued B u) (continued B u) X dx dy dt i j k).
  Qed.

  Definition of_number (r : Z) (bn : Z * Z) : patch := (r, before w r (fst bn) + snd bn).

  Lemma patches_step : forall (V : patch -> field) dt garbage r l D, 0 <= r < procs w -> NoDup l ->
    (forall bn, In bn l -> is_patch w (of_number r bn) /\ block_of w (of_number r bn) = fst bn) ->
    (forall x, is_patch w x -> assigned U (D x false)) -> (forall bn, In bn l -> local (V (of_number r bn)) (D (of_number r bn) false)) ->
    exists D', step_patches w U r dt garbage l D = Some D' /\ (forall x, is_patch w x -> assigned U (D' x false)) /\
      (forall x, ~ In x (map (of_number r) l) -> D' x false = D x false) /\
      (forall bn, In bn l -> local_inner (local_step dt (of_number r bn) (V (of_number r bn))) (D' (of_number r bn) false)).
  Proof.
    intros V dt garbage r l D Hr. revert D. induction l as [|bn l IH]; intros D ND HP HA HH.
    - exists D. cbn [step_patches]. repeat apply conj; [reflexivity|exact HA|reflexivity|intros bn []].
    - inversion ND as [|? ? NI ND']; subst. destruct (HP bn (or_introl eq_refl)) as [Hx Bx].
      destruct (patch_step (V (of_number r bn)) dt (garbage (of_number r bn)) (of_number r bn) (D (of_number r bn) false) Hx (HH bn (or_introl eq_refl))) as (q & c & E & A & VQ).
      assert (FRESH : ~ In (of_number r bn) (map (of_number r) l)).
      { intros HI. apply in_map_iff in HI as (bn' & EQ & HI). destruct (HP bn' (or_intror HI)) as [_ B']. assert (fst bn = fst bn') as EF by congruence.
        unfold of_number in EQ. injection EQ as EQ. rewrite EF in EQ. assert (snd bn = snd bn') as ES by lia. destruct bn, bn'. cbn [fst snd] in EF, ES. subst. contradiction. }
      destruct (IH (put D (of_number r bn) false q)) as (D' & E' & A' & O' & V').
      + exact ND'.
      + intros b' Hb'. apply HP. right. exact Hb'.
      + intros y Hy. destruct (patch_eqb_spec y (of_number r bn)) as [->|N]; [rewrite put_same; exact A|rewrite put_other by exact N; apply HA, Hy].
      + intros b' Hb'. rewrite put_other; [apply HH; right; exact Hb'|]. intros EQ. apply FRESH. rewrite <- EQ. apply in_map. exact Hb'.
      + exists D'. cbn [step_patches]. unfold single_step. cbv zeta. fold (of_number r bn). rewrite E. cbn [bind]. split; [exact E'|]. split; [exact A'|]. split.
        * intros x N. rewrite O' by (intros HI; apply N; right; exact HI). apply put_other. intros ->. apply N. left. reflexivity.
        * intros b' [<-|Hb']; [|apply V'; exact Hb']. rewrite O' by exact FRESH. rewrite put_same. exact VQ.
  Qed.

  Lemma stands_in : forall per lo hi n i, 1 <= i <= n -> stands per lo hi n i = i /\ seen_in_mirror per lo hi n i = false.
  Proof.
    intros per lo hi n i H. unfold stands, seen_in_mirror, Spec_Bc.image, Spec_Bc.mirrored. destruct (Z.ltb_spec i 1); [lia|]. destruct (Z.ltb_spec n i); [lia|].
    destruct per; cbn [negb andb orb]; split; try reflexivity. rewrite Z.mod_small by lia. lia.
  Qed.
  Lemma value_inside : forall u x i j k, is_patch w x -> 1 <= i <= m -> 1 <= j <= m -> continued B u (col L m x i) (row L m x j) k = u (col L m x i) (row L m x j) k.
  Proof.
    intros u x i j k Hx Hi Hj. destruct LAID as (_ & _ & _ & H). destruct (H x Hx) as (_ & HX & HY & _). pose proof sizes as (_ & S1 & _).
    unfold continued. cbv zeta. cbn [perx pery sides nx ny rect].
    destruct (stands_in (per_x L) (sides B 0) (sides B 1) (across_x L * m) (col L m x i)) as [E1 E2]; [unfold col; nia|].
    destruct (stands_in (per_y L) (sides B 2) (sides B 3) (across_y L * m) (row L m x j)) as [E3 E4]; [unfold row; nia|].
    cbn [sides rect] in E1, E2, E3, E4. rewrite E1, E2, E3, E4. reflexivity.
  Qed.

  (** what is true of the arrays between the calls *)
  Definition filled (u : field) (G : Z -> dstate) : Prop := has w L U true (continued B u) G.
  Definition stepped (u : field) (G : Z -> dstate) : Prop := has w L U false u G.

  Lemma step_any : forall (V : patch -> field) dt garbage G,
    (forall r, 0 <= r < procs w -> forall x, is_patch w x -> assigned U (G r x false) /\ (fst x = r -> local (V x) (G r x false))) ->
    exists G', update_single_step w views U (lvl L) dt garbage G = Some G' /\
      forall r, 0 <= r < procs w -> forall x, is_patch w x -> assigned U (G' r x false) /\ (fst x = r -> local_inner (local_step dt x (V x)) (G' r x false)).
  Proof.
    intros V dt garbage G F.
    assert (S : forall r, 0 <= r < procs w -> exists D', step_patches w U r dt garbage (v_level (views r) (lvl L)) (G r) = Some D' /\ (forall x, is_patch w x -> assigned U (D' x false)) /\
      (forall x, is_patch w x -> fst x = r -> local_inner (local_step dt x (V x)) (D' x false))).
    { intros r Hr. destruct (proj2 MACHINE r Hr) as [(_ & _ & VL & _) _]. pose proof FOREST as (W & _).
      destruct (patches_step V dt garbage r (v_level (views r) (lvl L)) (G r) Hr (ONCE r Hr)) as (D' & E & A & _ & VV).
      - intros [b n] HI. apply VL in HI as (Hb & Hn & _). unfold of_number. cbn [fst snd]. apply (local_patch D2 w W r Hr b n Hb Hn).
      - intros x Hx. apply (F r Hr x Hx).
      - intros [b n] HI. apply VL in HI as (Hb & Hn & _). unfold of_number. cbn [fst snd]. destruct (local_patch D2 w W r Hr b n Hb Hn) as [Hx _].
        apply (proj2 (F r Hr _ Hx)). reflexivity.
      - exists D'. split; [exact E|]. split; [exact A|]. intros x Hx Ex. pose proof Hx as (P & Bk & C).
        assert (In (block_of w x, snd x - before w r (block_of w x)) (v_level (views r) (lvl L))) as HI.
        { apply VL. rewrite Ex in C. split; [exact Bk|]. split; [lia|]. replace (r, before w r (block_of w x) + (snd x - before w r (block_of w x))) with x by (destruct x; cbn [fst snd] in *; f_equal; lia).
          apply (level_all w geo L LAID x Hx). }
        specialize (VV _ HI). unfold of_number in VV. cbn [fst snd] in VV. replace (r, before w r (block_of w x) + (snd x - before w r (block_of w x))) with x in VV by (destruct x; cbn [fst snd] in *; f_equal; lia). exact VV. }
    unfold update_single_step. rewrite everywhere_some by (intros q Hq; destruct (S q Hq) as (D' & E & _); exists D'; exact E).
    eexists. split; [reflexivity|]. intros r Hr x Hx. cbv beta. destruct (S r Hr) as (D' & -> & A & VV). split; [exact (A x Hx)|]. intros Ex. exact (VV x Hx Ex).
  Qed.

  Lemma step_all : forall u dt garbage G, filled u G -> exists G', update_single_step w views U (lvl L) dt garbage G = Some G' /\ stepped (step dt u) G'.
  Proof.
    intros u dt garbage G F. destruct (step_any (fun x i j k => continued B u (col L m x i) (row L m x j) k) dt garbage G) as (G' & E & H).
    - intros r Hr x Hx. destruct (F r Hr x Hx) as [F1 F2]. split; [intros [[i j] k] HI; exact (F1 i j k HI)|]. intros Ex i j k HI. exact (F2 Ex i j k HI (or_introl eq_refl)).
    - exists G'. split; [exact E|]. intros r Hr x Hx. destruct (H r Hr x Hx) as [H1 H2]. split; [intros i j k HI; exact (H1 (i, j, k) HI)|].
      intros Ex i j k HI [HF|HC]; [discriminate|]. rewrite (H2 Ex i j k HI HC). f_equal. apply local_global.
  Qed.

  Lemma fill_all : forall u async old G, stepped u G -> exists G', fill_update w views U async (lvl L) (lvl L) false old G = Some G' /\ filled u G'.
  Proof.
    intros u async old G F. destruct (update_data w geo L U dx dy X views FOREST MACHINE LAID SETUP u async old G) as (G' & E & V).
    - intros r Hr. split.
      + intros x Hx [[i j] k] HI. apply (proj1 (F r Hr x Hx) i j k HI).
      + intros x Hx Ex i j k HI HC _. rewrite (proj2 (F r Hr x Hx) Ex i j k HI (or_intror HC)). f_equal. symmetry. apply value_inside; [exact Hx| |]; apply HC.
    - exists G'. split; [exact E|]. intros r Hr x Hx. destruct (V r Hr) as [V1 V2]. split.
      + intros i j k HI. apply (V1 x Hx (i, j, k) HI).
      + intros Ex i j k HI _. apply V2; assumption.
  Qed.

  Lemma events : forall cfg cfl t dt, one_level L cfg -> exists t' c, Model_Advance.advance_all_levels cfg cfl t dt =
    Some ([Model_Advance.Step (lvl L) t (taken cfg dt); Model_Advance.Ghost (lvl L) (lvl L) t' false], c).
  Proof.
    intros cfg cfl t dt (E1 & E2 & E3 & E4 & E5 & E6).
    assert (IC : exists c, Model_Advance.init_counters cfg t dt = c /\ Model_Advance.c_inc c (lvl L) = 1 /\ Model_Advance.c_total c (lvl L) = 1 /\ Model_Advance.c_time c (lvl L) = t /\
      Model_Advance.c_dt c (lvl L) = taken cfg dt /\ Model_Advance.c_last c (lvl L) = 0).
    { eexists. split; [reflexivity|]. unfold Model_Advance.init_counters, taken. rewrite E1, E2, E4, !Z.sub_diag. destruct (Model_Advance.subcycle cfg); cbn [orb].
      - cbn [Model_Advance.c_inc Model_Advance.c_total Model_Advance.c_time Model_Advance.c_dt Model_Advance.c_last]. rewrite !Z.sub_diag. repeat split.
      - destruct (Model_Advance.advance_one_step cfg); repeat split. }
    destruct IC as (c & IC & I1 & I2 & I3 & I4 & I5). unfold Model_Advance.advance_all_levels. rewrite IC, E3, E4, I1, I2. cbn [negb Z.eqb Pos.eqb]. change (Z.to_nat 1) with 1%nat.
    cbn [Model_Advance.fine_steps]. unfold Model_Advance.fine_step. rewrite E4, E5, Z.sub_diag. cbn [Z.to_nat Model_Advance.advance_level]. rewrite E5, Z.ltb_irrefl. cbn [andb].
    unfold Model_Advance.increment, Model_Advance.updl. cbv zeta. cbn [Model_Advance.c_last Model_Advance.c_total]. rewrite !Z.eqb_refl, I5, I1, I2. cbn [Z.add Z.ltb Z.compare Pos.compare Pos.compare_cont].
    unfold Model_Advance.levels_done. rewrite E4, E5. replace (lvl L + 1 - lvl L) with 1 by lia. change (seq 0 (Z.to_nat 1)) with [0%nat]. cbn [forallb Z.of_nat]. rewrite Z.add_0_r.
    cbn [Model_Advance.c_last Model_Advance.c_inc Model_Advance.c_total]. rewrite !Z.eqb_refl, I1, I2. cbn [Z.add Z.mul Pos.mul Z.eqb Pos.eqb andb negb].
    rewrite E6, I3, I4. cbn [app]. eexists. eexists. reflexivity.
  Qed.

  Lemma advance_once : forall u async R cfg cfl G t dt, one_level L cfg -> filled u G ->
    exists G', advance w views U async R cfg cfl G t dt = Some G' /\ filled (step (taken cfg dt) u) G'.
  Proof.
    intros u async R cfg cfl G t dt OL F. destruct (events cfg cfl t dt OL) as (t' & c & E). unfold advance. rewrite E. cbn [bind acts act].
    destruct (step_all u (taken cfg dt) (r_work R t) G F) as (G1 & E1 & S1). rewrite E1. cbn [bind].
    destruct (fill_all (step (taken cfg dt) u) async (r_buffer R t') G1 S1) as (G2 & E2 & S2). rewrite E2. cbn [bind]. exists G2. split; [reflexivity|exact S2].
  Qed.

  Lemma advances_all : forall async R cfg cfl l u G, one_level L cfg -> filled u G ->
    exists G', advances w views U async R cfg cfl l G = Some G' /\ filled (steps (map (fun x => taken cfg (snd x)) l) u) G'.
  Proof.
    intros async R cfg cfl l. induction l as [|[t dt] l IH]; intros u G OL F.
    - exists G. split; [reflexivity|exact F].
    - destruct (advance_once u async R cfg cfl G t dt OL F) as (G1 & E1 & F1). destruct (IH _ G1 OL F1) as (G2 & E2 & F2). exists G2. cbn [advances]. rewrite E1. cbn [bind]. split; [exact E2|exact F2].
  Qed.

  Lemma solve_all : forall async R cfg cfl l u G, one_level L cfg -> stepped u G ->
    exists G', solve w views U true async R cfg cfl l G = Some G' /\ filled (steps (map (fun x => taken cfg (snd x)) l) u) G'.
  Proof.
    intros async R cfg cfl l u G OL F. pose proof OL as (_ & _ & E3 & E4 & _). unfold solve. rewrite E3, E4.
    destruct (fill_all u async (r_buffer R 0%Q) G F) as (G1 & E1 & F1). rewrite E1. cbn [bind]. apply advances_all; assumption.
  Qed.
End Run.
