(** The registers of a new patch. *)
From Coq Require Import ZArith QArith List Lia Lqa Bool.
From Verif Require Import Base_Float Model_Face Spec_Face Proof_Face5 Model_Grid Spec_Grid Proof_Grid Proof_Grid2 Proof_Grid4 Proof_Grid5
  Model_Sync Spec_Sync Proof_Sync.
Import ListNotations.
Open Scope Z_scope.

Section Setup.
  Variable d : dims.
  Variable a e : Z -> Z -> Q.      (* areas and lengths by face and position *)

  Definition target : arr := fun '(b, t, _) => if b <? 20 then Some (e (b - 16) t) else Some (a (b - 20) t).
  Definition nokeep : cell -> Prop := fun _ => False.

  Lemma set_ok : forall s0 c v, in_reg d c = true -> target c = Some v ->
    updates nokeep s0 (fun r => bind (Some v) (wrr d r c)) (fun c' => c' = c) target.
  Proof.
    intros s0 c v Hin HV. split; [|intros c' _ []].
    intros s Hs. cbn [bind]. unfold wrr. rewrite Hin. eexists. split; [reflexivity|]. cbn beta. split; [|split].
    - intros c' ->. now rewrite cell_eqb_refl, HV.
    - intros c' Hn. destruct (cell_eqb_spec c' c); [contradiction|reflexivity].
    - intros c'. destruct (cell_eqb_spec c' c) as [->|]; [left; now rewrite HV|now right].
  Qed.

  Lemma four_ok : forall s0 k t x0 x1 y0 y1, k = 0 \/ k = 2 -> 1 <= t <= face_len d k ->
    x0 = Some (a k t) -> x1 = Some (a (k + 1) t) -> y0 = Some (e k t) -> y1 = Some (e (k + 1) t) ->
    updates nokeep s0
      (seq (seq (fun r => bind x0 (wrr d r (AR k t))) (fun r => bind x1 (wrr d r (AR (k + 1) t))))
           (seq (fun r => bind y0 (wrr d r (EL k t))) (fun r => bind y1 (wrr d r (EL (k + 1) t)))))
      (fun '(b, t', o) => t' = t /\ o = 1 /\ (16 + k <= b <= 17 + k \/ 20 + k <= b <= 21 + k)) target.
  Proof.
    intros s0 k t x0 x1 y0 y1 Hk Ht -> -> -> ->.
    assert (IA : forall i, 0 <= i <= 1 -> in_reg d (AR (k + i) t) = true /\ target (AR (k + i) t) = Some (a (k + i) t)).
    { intros i Hi. split.
      - apply in_reg_iff. unfold face_len in Ht. destruct Hk as [-> | ->]; cbn [Z.ltb Z.compare Pos.compare Pos.compare_cont] in Ht;
        assert (Ei : i = 0 \/ i = 1) by lia; destruct Ei as [->| ->]; cbn; lia.
      - unfold target, AR. replace (20 + (k + i) <? 20) with false by lia. f_equal. f_equal. lia. }
    assert (IE : forall i, 0 <= i <= 1 -> in_reg d (EL (k + i) t) = true /\ target (EL (k + i) t) = Some (e (k + i) t)).
    { intros i Hi. split.
      - apply in_reg_iff. unfold face_len in Ht. destruct Hk as [-> | ->]; cbn [Z.ltb Z.compare Pos.compare Pos.compare_cont] in Ht;
        assert (Ei : i = 0 \/ i = 1) by lia; destruct Ei as [->| ->]; cbn; lia.
      - unfold target, EL. replace (16 + (k + i) <? 20) with true by lia. f_equal. f_equal. lia. }
    destruct (IA 0 ltac:(lia)) as [A1 A2]. destruct (IA 1 ltac:(lia)) as [A3 A4].
    destruct (IE 0 ltac:(lia)) as [E1 E2]. destruct (IE 1 ltac:(lia)) as [E3 E4].
    rewrite Z.add_0_r in *.
    eapply updates_weaken.
    - apply updates_seq; [apply updates_seq|apply updates_seq|]; try (apply set_ok; assumption).
      + intros c -> E. celleq. lia.
      + intros c -> E. celleq. lia.
      + intros c [->| ->] [E|E]; celleq; lia.
    - intros [[b t'] o]. split.
      + intros [[E|E]|[E|E]]; celleq; lia.
      + intros (-> & -> & H). unfold AR, EL. 
        assert (C : b = 20 + k \/ b = 20 + (k + 1) \/ b = 16 + k \/ b = 16 + (k + 1)) by lia.
        destruct C as [->|[->|[->| ->]]]; tauto.
  Qed.

  Lemma setup_gen : forall s0 x0 x1 y0 y1 u0 u1 v0 v1,
    (forall t, 1 <= t <= my d -> x0 t = Some (a 0 t) /\ x1 t = Some (a 1 t) /\ y0 t = Some (e 0 t) /\ y1 t = Some (e 1 t)) ->
    (forall t, 1 <= t <= mx d -> u0 t = Some (a 2 t) /\ u1 t = Some (a 3 t) /\ v0 t = Some (e 2 t) /\ v1 t = Some (e 3 t)) ->
    exists r, seq
      (loop 1 (my d) (fun j => seq (seq (fun r => bind (x0 j) (wrr d r (AR 0 j))) (fun r => bind (x1 j) (wrr d r (AR 1 j))))
           (seq (fun r => bind (y0 j) (wrr d r (EL 0 j))) (fun r => bind (y1 j) (wrr d r (EL 1 j))))))
      (loop 1 (mx d) (fun j => seq (seq (fun r => bind (u0 j) (wrr d r (AR 2 j))) (fun r => bind (u1 j) (wrr d r (AR 3 j))))
           (seq (fun r => bind (v0 j) (wrr d r (EL 2 j))) (fun r => bind (v1 j) (wrr d r (EL 3 j)))))) s0 = Some r /\
      (forall c, fst (fst c) < 16 -> r c = s0 c) /\
      (forall k t, 0 <= k < 4 -> 1 <= t <= face_len d k -> r (AR k t) = Some (a k t) /\ r (EL k t) = Some (e k t)).
  Proof.
    intros s0 x0 x1 y0 y1 u0 u1 v0 v1 Hy Hx.
    set (W := fun k (t : Z) '(b, t', o) => t' = t /\ o = 1 /\ (16 + k <= b <= 17 + k \/ 20 + k <= b <= 21 + k)).
    destruct (updates_run nokeep s0
      (seq
      (loop 1 (my d) (fun j => seq (seq (fun r => bind (x0 j) (wrr d r (AR 0 j))) (fun r => bind (x1 j) (wrr d r (AR 1 j))))
           (seq (fun r => bind (y0 j) (wrr d r (EL 0 j))) (fun r => bind (y1 j) (wrr d r (EL 1 j))))))
      (loop 1 (mx d) (fun j => seq (seq (fun r => bind (u0 j) (wrr d r (AR 2 j))) (fun r => bind (u1 j) (wrr d r (AR 3 j))))
           (seq (fun r => bind (v0 j) (wrr d r (EL 2 j))) (fun r => bind (v1 j) (wrr d r (EL 3 j)))))))
      (fun c => (exists t, 1 <= t <= my d /\ W 0 t c) \/ (exists t, 1 <= t <= mx d /\ W 2 t c)) target) as (r & E & R1 & R2).
    { apply updates_seq.
      - apply (updates_loop nokeep s0 (W 0)).
        + intros t Ht. destruct (Hy t Ht) as (X0 & X1 & Y0 & Y1). exact (four_ok s0 0 t _ _ _ _ (or_introl eq_refl) Ht X0 X1 Y0 Y1).
        + intros k k' [[b t'] o] _ Hlt _ (-> & _) (E & _). lia.
      - apply (updates_loop nokeep s0 (W 2)).
        + intros t Ht. destruct (Hx t Ht) as (X0 & X1 & Y0 & Y1). exact (four_ok s0 2 t _ _ _ _ (or_intror eq_refl) Ht X0 X1 Y0 Y1).
        + intros k k' [[b t'] o] _ Hlt _ (-> & _) (E & _). lia.
      - intros [[b t'] o] (t & _ & _ & _ & H) (t1 & _ & _ & _ & H'). lia. }
    exists r. split; [exact E|]. split.
    - intros [[b t'] o] Hb. cbn [fst] in Hb. apply R2. intros [(t & _ & _ & _ & H)|(t & _ & _ & _ & H)]; lia.
    - intros k t Hk Ht. rewrite !R1.
      + unfold target, AR, EL. replace (20 + k <? 20) with false by lia. replace (16 + k <? 20) with true by lia.
        split; f_equal; f_equal; lia.
      + face4 k Hk; unfold face_len in Ht; cbn in Ht; [left|left|right|right]; exists t; (split; [exact Ht|]); unfold W, EL; (split; [reflexivity|]); (split; [reflexivity|]); lia.
      + face4 k Hk; unfold face_len in Ht; cbn in Ht; [left|left|right|right]; exists t; (split; [exact Ht|]); unfold W, AR; (split; [reflexivity|]); (split; [reflexivity|]); lia.
  Qed.
End Setup.

Lemma new_regs : forall d (a e : Z -> Z -> Q) r, 
  (forall c, fst (fst c) < 16 -> r c = time_sync_new c) ->
  (forall k t, 0 <= k < 4 -> 1 <= t <= face_len d k -> r (AR k t) = Some (a k t) /\ r (EL k t) = Some (e k t)) ->
  assigned d r /\ consistent d r /\
  (forall f t mq, 0 <= f < 4 -> (inflow r f t mq == 0)%Q).
Proof.
  intros d a e r H1 H2.
  assert (Z0 : forall b t mq, 0 <= b < 16 -> r (b, t, mq) = Some 0%Q).
  { intros b t mq Hb. rewrite H1 by (cbn [fst]; lia). unfold time_sync_new. replace (b <? 16) with true by lia. reflexivity. }
  assert (I0 : forall f t mq, 0 <= f < 4 -> (inflow r f t mq == 0)%Q).
  { intros f t mq Hf. face4 f Hf; cbn [inflow]; unfold val, EF, FP, FM, GP, GM; rewrite !Z0 by lia; reflexivity. }
  split; [|split; [|exact I0]].
  - intros [[b t] mq] Hc. apply in_reg_iff in Hc. destruct (Z.ltb_spec b 16) as [|G]; [exists 0%Q; apply Z0; lia|].
    assert (Em : mq = 1) by lia. subst mq.
    assert (C : b = 16 \/ b = 17 \/ b = 18 \/ b = 19 \/ b = 20 \/ b = 21 \/ b = 22 \/ b = 23) by lia.
    destruct C as [->|[->|[->|[->|[->|[->|[->| ->]]]]]]]; cbn in Hc;
    [destruct (H2 0 t) as [_ E]|destruct (H2 1 t) as [_ E]|destruct (H2 2 t) as [_ E]|destruct (H2 3 t) as [_ E]|
     destruct (H2 0 t) as [E _]|destruct (H2 1 t) as [E _]|destruct (H2 2 t) as [E _]|destruct (H2 3 t) as [E _]];
    try (unfold face_len; cbn; lia); eexists; exact E.
  - intros f t mq Hf Ht Hm. rewrite (I0 f t mq Hf).
    face4 f Hf; cbn [inflow_outside]; unfold val, EF, FP, FM, GP, GM; rewrite !Z0 by lia; reflexivity.
Qed.
