(** Balance of one step. *)
From Coq Require Import ZArith QArith List Lia Lqa Bool Qfield.
From Verif Require Import Base_Float Model_Face Spec_Face Proof_Face5 Model_Grid Spec_Grid Proof_Grid Proof_Grid2
  Model_Sync Spec_Sync Proof_Sync.
Import ListNotations.
Open Scope Z_scope.

Lemma qsum4 : forall g, (qsum 0 3 g == g 0%Z + g 1%Z + g 2%Z + g 3%Z)%Q.
Proof.
  intros g. unfold qsum. change (Z.to_nat (3 - 0 + 1)) with 4%nat. cbn [qsum_n].
  change (0 + 1) with 1. change (1 + 1) with 2. change (2 + 1) with 3. ring.
Qed.
Lemma entered4 : forall d r mq, (entered d r mq == through d r 0 mq + through d r 1 mq + through d r 2 mq + through d r 3 mq)%Q.
Proof. intros. apply qsum4. Qed.

Section Step.
  Variable d : dims.
  Variable rpn2_cons : Z -> Z -> (Z -> option Q) -> (Z -> option Q) -> (Z -> option Q) -> Z -> option Q.
  Variable maux : Z.
  Variable F : fluxes.
  Variable q aux : arr.
  Variable dt dx dy : Q.
  Variable fp fm gp gm : arr.
  Variable mcapa : Z.
  Variable kappa : areas.

  Definition step_hyps : Prop :=
    (1 <= mx d /\ 1 <= my d) /\ 1 <= mbc d /\ ~ (dx == 0)%Q /\ ~ (dy == 0)%Q /\
    fluxes_of d rpn2_cons maux F q aux /\ full d q /\ full d fp /\ full d fm /\ full d gp /\ full d gm /\
    capacity d maux kappa dx dy mcapa aux /\ splits d F dx dy fp fm gp gm /\ closed d F.

  Definition step := clawpack46_step d rpn2_cons maux true true dt dx dy mcapa aux fp fm gp gm.

  Lemma step_ok : forall r, step_hyps -> assigned d r -> lengths d F r -> exists q' r',
    step q r = Some (q', r') /\ assigned d r' /\ (forall c, fst (fst c) >= 16 -> r' c = r c) /\
    (forall c, interior d c -> exists v, q' c = Some v) /\
    (forall f t mq, 0 <= f < 4 -> 1 <= t <= face_len d f -> 1 <= mq <= meqn d ->
       let P := match f with 0 => PX F dy fp 1 t mq | 1 => (- PX F dy fp (mx d + 1)%Z t mq)%Q
                | 2 => PY F dx gp t 1 mq | _ => (- PY F dx gp t (my d + 1)%Z mq)%Q end in
       (inflow r' f t mq == inflow r f t mq + dt * P /\ inflow_outside r' f t mq == inflow_outside r f t mq + dt * P)%Q) /\
    (forall i j mq, interior d (i, j, mq) ->
       (kappa i j * (val q' (i, j, mq) - val q (i, j, mq)) ==
        - dt * (PX F dy fp (i + 1)%Z j mq - PX F dy fp i j mq) - dt * (PY F dx gp i (j + 1)%Z mq - PY F dx gp i j mq))%Q).
  Proof.
    intros r (Hsz & Hb & Hdx & Hdy & HF & Hq & Hfp & Hfm & Hgp & Hgm & Hcap & Hsp & Hcl) HA HL.
    unfold step, clawpack46_step.
    destruct (updates_run _ _ _ _ _ (store_flux_ok d rpn2_cons maux F q aux dt Hsz HF r HA HL)) as (r1 & E1 & A1 & B1).
    rewrite E1. cbn [bind].
    destruct (updates_run _ _ _ _ _ (update_ok d maux q aux dt dx dy Hsz fp fm gp gm Hfp Hfm Hgp Hgm mcapa kappa Hq Hcap)) as (q' & E2 & A2 & B2).
    rewrite E2. cbn [bind].
    assert (HA1 : assigned d r1).
    { intros [[a j] m] Hc. pose proof (HA _ Hc) as HAc. apply in_reg_iff in Hc.
      destruct (Z_lt_ge_dec a 8); [rewrite B1; [exact HAc|lia]|].
      destruct (Z_lt_ge_dec a 16); [|rewrite B1; [exact HAc|lia]].
      rewrite A1; [eexists; reflexivity|].
      assert (E : a = 8 \/ a = 9 \/ a = 10 \/ a = 11 \/ a = 12 \/ a = 13 \/ a = 14 \/ a = 15) by lia.
      clear - Hc E. destruct E as [->|[->|[->|[->|[->|[->|[->| ->]]]]]]]; cbn in Hc |- *; lia. }
    destruct (updates_run _ _ _ _ _ (accumulate_ok d dt dx dy Hsz fp fm gp gm Hb Hfp Hfm Hgp Hgm r1 HA1)) as (r2 & E3 & A3 & B3).
    rewrite E3. cbn [bind]. exists q', r2. split; [reflexivity|].
    (* values *)
    assert (VE : forall k t mq s, 0 <= k < 4 -> 0 <= s <= 1 -> 1 <= t <= face_len d k -> 1 <= mq <= meqn d ->
      (val r2 (EF k t mq s) = val r (EF k t mq s) + inc_flux d F dt (EF k t mq s))%Q).
    { intros k t mq s Hk Hs Ht Hm. unfold val at 1. unfold EF. rewrite B3 by lia. rewrite A1; [reflexivity|].
      unfold face_len in Ht. destruct (Z.ltb_spec k 2), (Z.ltb_spec (8 + 2 * k + s) 12); lia. }
    assert (VW : forall a t mq, 0 <= a < 8 -> 1 <= t <= (if a <? 4 then my d else mx d) -> 1 <= mq <= meqn d ->
      (val r2 (a, t, mq) = val r (a, t, mq) + inc_wave d dt dx dy fp fm gp gm (a, t, mq))%Q).
    { intros a t mq Ha Ht Hm. unfold val at 1. rewrite A3 by lia. unfold vadd. unfold val at 1. rewrite B1 by lia. reflexivity. }
    split; [|split; [|split; [|split]]].
    - intros [[a j] m] Hc. pose proof (HA1 _ Hc) as HAc. apply in_reg_iff in Hc.
      destruct (Z_lt_ge_dec a 8); [|rewrite B3; [exact HAc|lia]].
      rewrite A3; [eexists; reflexivity|].
      assert (E : a = 0 \/ a = 1 \/ a = 2 \/ a = 3 \/ a = 4 \/ a = 5 \/ a = 6 \/ a = 7) by lia.
      clear - Hc E. destruct E as [->|[->|[->|[->|[->|[->|[->| ->]]]]]]]; cbn in Hc |- *; lia.
    - intros [[a j] m] Hc. cbn [fst] in Hc. rewrite B3 by lia. rewrite B1 by lia. reflexivity.
    - intros [[i j] m] (H1 & H2 & H3). rewrite A2 by lia. eexists. reflexivity.
    - intros f t mq Hf Ht Hm. cbv zeta.
      assert (OX : forall i, 1 <= i <= mx d + 1 -> 1 <= t <= my d ->
        (PX F dy fp i t mq == dy * val fm (i, t, mq) + elx F i t * fr F (i - 1)%Z t mq)%Q) by (intros i H1 H2; now apply (PX_out d F dx dy fp fm gp gm Hsp)).
      assert (OY : forall j, 1 <= j <= my d + 1 -> 1 <= t <= mx d ->
        (PY F dx gp t j mq == dx * val gm (t, j, mq) + ely F t j * gr F t (j - 1)%Z mq)%Q) by (intros i H1 H2; now apply (PY_out d F dx dy fp fm gp gm Hsp)).
      face4 f Hf; unfold inflow, inflow_outside; cbn [face_len Z.ltb Z.compare Pos.compare Pos.compare_cont] in Ht;
        unfold face_len in Ht;
        rewrite ?VE by (try lia; exact Ht); unfold FP, FM, GP, GM; rewrite ?VW by (try lia; exact Ht);
        unfold EF, inc_flux, inc_wave; cbn [Z.add Z.mul Pos.add Pos.mul Z.eqb Pos.eqb Pos.succ].
      + pose proof (OX 1 ltac:(lia) Ht) as O. change (1 - 1) with 0 in O. split; [unfold PX; ring|rewrite O; ring].
      + pose proof (OX (mx d + 1) ltac:(lia) Ht) as O. replace (mx d + 1 - 1) with (mx d) in O by lia. split; [rewrite O; ring|unfold PX; ring].
      + pose proof (OY 1 ltac:(lia) Ht) as O. change (1 - 1) with 0 in O. split; [unfold PY; ring|rewrite O; ring].
      + pose proof (OY (my d + 1) ltac:(lia) Ht) as O. replace (my d + 1 - 1) with (my d) in O by lia. split; [rewrite O; ring|unfold PY; ring].
    - intros i j mq (H1 & H2 & H3). unfold val at 1. rewrite A2 by lia.
      now apply (cell_balance d maux F q aux dt dx dy fp fm gp gm mcapa kappa Hcap Hdx Hdy Hsp Hcl).
  Qed.

  Lemma step_balance : forall r q' r', step_hyps -> assigned d r -> lengths d F r -> step q r = Some (q', r') ->
    (consistent d r -> consistent d r') /\
    forall mq, 1 <= mq <= meqn d ->
    (mass d kappa q' mq - mass d kappa q mq == entered d r' mq - entered d r mq)%Q.
  Proof.
    intros r q' r' HH HA HL E. destruct (step_ok r HH HA HL) as (q1 & r1 & E1 & _ & _ & _ & HI & HC).
    rewrite E1 in E. injection E as -> ->. destruct HH as (Hsz & _).
    split.
    { intros HCo f t mq Hf Ht Hm. destruct (HI f t mq Hf Ht Hm) as [I1 I2]. rewrite I1, I2, (HCo f t mq Hf Ht Hm). reflexivity. }
    intros mq Hm.
    assert (M : (mass d kappa q' mq - mass d kappa q mq ==
      - dt * qsum 1 (mx d) (fun i => qsum 1 (my d) (fun j => PX F dy fp (i + 1)%Z j mq - PX F dy fp i j mq))
      - dt * qsum 1 (mx d) (fun i => qsum 1 (my d) (fun j => PY F dx gp i (j + 1)%Z mq - PY F dx gp i j mq)))%Q).
    { unfold mass, total.
      set (S := qsum 1 (mx d) (fun i => qsum 1 (my d) (fun j => PX F dy fp (i + 1)%Z j mq - PX F dy fp i j mq)%Q)).
      set (T := qsum 1 (mx d) (fun i => qsum 1 (my d) (fun j => PY F dx gp i (j + 1)%Z mq - PY F dx gp i j mq)%Q)).
      enough (G : (qsum 1 (mx d) (fun i => qsum 1 (my d) (fun j => kappa i j * val q' (i, j, mq))) ==
        qsum 1 (mx d) (fun i => qsum 1 (my d) (fun j => kappa i j * val q (i, j, mq))) + (- dt * S + - dt * T))%Q) by (rewrite G; ring).
      unfold S, T. rewrite <- !qsum_scale, <- !qsum_add. apply qsum_ext. intros i Hi.
      rewrite <- !qsum_scale, <- !qsum_add. apply qsum_ext. intros j Hj.
      specialize (HC i j mq). unfold interior in HC. specialize (HC ltac:(lia)).
      transitivity (kappa i j * val q (i, j, mq) + kappa i j * (val q' (i, j, mq) - val q (i, j, mq)))%Q; [ring|]. rewrite HC. ring. }
    rewrite M. rewrite qsum_swap.
    rewrite (qsum_ext 1 (my d) _ (fun j => PX F dy fp (mx d + 1)%Z j mq + -1 * PX F dy fp 1%Z j mq)%Q).
    2:{ intros j Hj. rewrite (qsum_tele (mx d) (fun i => PX F dy fp i j mq)) by lia. ring. }
    rewrite (qsum_ext 1 (mx d) (fun i => qsum 1 (my d) _) (fun i => PY F dx gp i (my d + 1)%Z mq + -1 * PY F dx gp i 1%Z mq)%Q).
    2:{ intros i Hi. rewrite (qsum_tele (my d) (fun j => PY F dx gp i j mq)) by lia. ring. }
    rewrite !qsum_add, !qsum_scale.
    rewrite !entered4.
    assert (T : forall f, 0 <= f < 4 -> (through d r' f mq == through d r f mq + dt * qsum 1 (face_len d f) (fun t =>
      match f with 0%Z => PX F dy fp 1%Z t mq | 1%Z => (-1 * PX F dy fp (mx d + 1)%Z t mq)%Q
                | 2%Z => PY F dx gp t 1%Z mq | _ => (-1 * PY F dx gp t (my d + 1)%Z mq)%Q end))%Q).
    { intros f Hf. unfold through. rewrite <- qsum_scale, <- qsum_add. apply qsum_ext. intros t Ht.
      destruct (HI f t mq Hf Ht Hm) as [I1 _]. rewrite I1. clear - Hf. face4 f Hf; ring. }
    rewrite (T 0), (T 1), (T 2), (T 3) by lia. clear T. rewrite !qsum_scale.
    change (face_len d 0) with (my d). change (face_len d 1) with (my d). change (face_len d 2) with (mx d). change (face_len d 3) with (mx d).
    ring.
  Qed.
End Step.
