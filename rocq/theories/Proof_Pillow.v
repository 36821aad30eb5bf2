From Coq Require Import ZArith QArith Qminmax List Lia Lqa Bool.
From Verif Require Import Base_Float Model_Face Spec_Face Model_Grid Spec_Grid Proof_Grid Proof_Fills Model_Pillow Spec_Pillow.
Import ListNotations.
Open Scope Z_scope.

Definition ok_corner (c : Z) : Prop := 0 <= c < 4.
Lemma corner_cases : forall c, ok_corner c -> c = 0 \/ c = 1 \/ c = 2 \/ c = 3.
Proof. unfold ok_corner. intros. lia. Qed.

Ltac pick c := repeat match goal with |- context [c =? ?k] => destruct (Z.eqb_spec c k) as [?G|?G]; try (exfalso; lia) end.

Section Copy.
  Variable d : dims.
  Variable c : Z.
  Variable t n : arr.
  Variable T N : data.
  Hypothesis OC : ok_corner c.
  Hypothesis HB : mbc d <= mx d /\ mbc d <= my d.
  Hypothesis HT : holds d t T.
  Hypothesis HN : holds d n N.

  (** elements of the two arrays *)
  Definition view2 (s : arr * arr) (x : bool * cell) : option Q := if fst x then fst s (snd x) else snd s (snd x).
  Definition inner2 (x : bool * cell) : Prop := interior d (snd x).
  (** the mirrored cell *)
  Definition mirror_i (i : Z) : Z := if upper_x c then 2 * mx d + 1 - i else 1 - i.
  Definition mirror_j (j : Z) : Z := if upper_y c then 2 * my d + 1 - j else 1 - j.
  Definition target2 (x : bool * cell) : option Q :=
    let '(w, (i, j, mq)) := x in Some (if w then N (mirror_i i) (mirror_j j) mq else T (mirror_i i) (mirror_j j) mq).

  Lemma exchange_fills : forall a b mq, 1 <= a <= mbc d -> 1 <= b <= mbc d -> 1 <= mq <= meqn d ->
    fills view2 inner2 (t, n) target2 (exchange d (fst (beyond d c a b)) (snd (beyond d c a b)) (fst (inside d c a b)) (snd (inside d c a b)) mq)
      (fun x => snd x = (fst (beyond d c a b), snd (beyond d c a b), mq)).
  Proof.
    intros a b mq Ha Hb Hm [qt qn] KS.
    set (i1 := fst (beyond d c a b)). set (j1 := snd (beyond d c a b)). set (i2 := fst (inside d c a b)). set (j2 := snd (inside d c a b)).
    assert (I : interior d (i2, j2, mq)).
    { subst i2 j2. unfold interior, inside, step_in. cbn [fst snd]. destruct (upper_x c), (upper_y c); lia. }
    assert (O : ~ interior d (i1, j1, mq)).
    { subst i1 j1. unfold interior, beyond, step_out. cbn [fst snd]. destruct (upper_x c), (upper_y c); lia. }
    assert (Q1 : in_q d (i1, j1, mq) = true). { subst i1 j1. apply in_q_iff. unfold beyond, step_out. cbn [fst snd]. destruct (upper_x c), (upper_y c); lia. }
    assert (Q2 : in_q d (i2, j2, mq) = true). { apply in_q_iff. unfold interior in I. lia. }
    assert (M1 : mirror_i i1 = i2). { subst i1 i2. unfold mirror_i, beyond, inside, step_out, step_in. cbn [fst snd]. destruct (upper_x c); lia. }
    assert (M2 : mirror_j j1 = j2). { subst j1 j2. unfold mirror_j, beyond, inside, step_out, step_in. cbn [fst snd]. destruct (upper_y c); lia. }
    assert (ET : qt (i2, j2, mq) = Some (T i2 j2 mq)). { pose proof (KS (true, (i2, j2, mq)) I) as E. unfold view2 in E. cbn [fst snd] in E. rewrite E. apply HT, I. }
    assert (EN : qn (i2, j2, mq) = Some (N i2 j2 mq)). { pose proof (KS (false, (i2, j2, mq)) I) as E. unfold view2 in E. cbn [fst snd] in E. rewrite E. apply HN, I. }
    assert (NE : (i2, j2, mq) <> (i1, j1, mq)) by (intros E; apply O; rewrite <- E; exact I).
    unfold exchange. rewrite (rd_some d qn (i2, j2, mq) _ Q2 EN). cbn [bind]. unfold wr at 1. rewrite Q1. cbn [bind]. unfold rd. rewrite Q2.
    destruct (cell_eqb_spec (i2, j2, mq) (i1, j1, mq)) as [E|_]; [contradiction|]. rewrite ET. cbn [bind]. unfold wr. rewrite Q1. cbn [bind].
    eexists. split; [reflexivity|].
    assert (V : forall x, (snd x = (i1, j1, mq) -> view2 (fun c' : cell => if cell_eqb c' (i1, j1, mq) then Some (N i2 j2 mq) else qt c', fun c' : cell => if cell_eqb c' (i1, j1, mq) then Some (T i2 j2 mq) else qn c') x = target2 x) /\
                   (snd x <> (i1, j1, mq) -> view2 (fun c' : cell => if cell_eqb c' (i1, j1, mq) then Some (N i2 j2 mq) else qt c', fun c' : cell => if cell_eqb c' (i1, j1, mq) then Some (T i2 j2 mq) else qn c') x = view2 (qt, qn) x)).
    { intros [w [[i j] m]]. unfold view2, target2. cbn [fst snd]. split; intros E.
      - injection E as -> -> ->. rewrite cell_eqb_refl, M1, M2. destruct w; reflexivity.
      - destruct (cell_eqb_spec (i, j, m) (i1, j1, mq)) as [E'|_]; [contradiction|]. reflexivity. }
    split; [|split; [|split]].
    - intros x Hx. etransitivity; [apply (proj2 (V x))|apply KS; exact Hx]. intros E. apply O. rewrite <- E. exact Hx.
    - intros x Hx. apply V, Hx.
    - intros x Hx. apply V, Hx.
    - intros x. destruct (cell_eqb_spec (snd x) (i1, j1, mq)) as [E|E]; [left; apply (proj1 (V x)), E|right; apply (proj2 (V x)), E].
  Qed.

  Lemma copy_ok : exists s, copy_block_corner d (t, n) c = Some s /\
    (forall w a b mq, 1 <= a <= mbc d -> 1 <= b <= mbc d -> 1 <= mq <= meqn d ->
       view2 s (w, (fst (beyond d c a b), snd (beyond d c a b), mq)) = target2 (w, (fst (beyond d c a b), snd (beyond d c a b), mq))) /\
    (forall w i j mq, ~ (corner_ghost d c i j /\ 1 <= mq <= meqn d) -> view2 s (w, (i, j, mq)) = view2 (t, n) (w, (i, j, mq))).
  Proof.
    assert (F : fills view2 inner2 (t, n) target2 (fun s => copy_block_corner d s c)
      (fun x => exists mq, 1 <= mq <= meqn d /\ exists a, 1 <= a <= mbc d /\ exists b, 1 <= b <= mbc d /\ snd x = (fst (beyond d c a b), snd (beyond d c a b), mq))).
    { unfold copy_block_corner. destruct (corner_cases c OC) as [E|[E|[E|E]]];
      apply (fills_loop view2 inner2 (t, n) target2 _ (fun mq x => exists a, 1 <= a <= mbc d /\ exists b, 1 <= b <= mbc d /\ snd x = (fst (beyond d c a b), snd (beyond d c a b), mq))); intros mq Hm;
      pick c;
      apply (fills_loop view2 inner2 (t, n) target2 _ (fun a x => exists b, 1 <= b <= mbc d /\ snd x = (fst (beyond d c a b), snd (beyond d c a b), mq))); intros a Ha;
      apply (fills_loop view2 inner2 (t, n) target2 _ (fun b x => snd x = (fst (beyond d c a b), snd (beyond d c a b), mq))); intros b Hb;
      pose proof (exchange_fills a b mq Ha Hb Hm) as X; unfold beyond, inside, step_out, step_in, upper_x, upper_y in X |- *; rewrite E in X |- *; exact X. }
    destruct (F (t, n)) as (s & E & _ & B & C & _); [intros x _; reflexivity|]. exists s. split; [exact E|]. split.
    - intros w a b mq Ha Hb Hm. apply B. exists mq. split; [exact Hm|]. exists a. split; [exact Ha|]. exists b. split; [exact Hb|]. reflexivity.
    - intros w i j mq H. apply C. intros (mq' & Hm & a & Ha & b & Hb & X). cbn [snd] in X. injection X as X1 X2 X3. apply H. split; [|subst mq; exact Hm].
      exists a, b. split; [exact Ha|]. split; [exact Hb|]. rewrite X1, X2. symmetry. apply surjective_pairing.
  Qed.
End Copy.

Section Average.
  Variable d : dims.
  Variable c : Z.
  Variable q f : arr.
  Variable ac af : area_t.
  Variable F : data.
  Variable KC KF : areas.
  Hypothesis OC : ok_corner c.
  Hypothesis HB : 2 * mbc d <= mx d /\ 2 * mbc d <= my d.
  Hypothesis HF : holds d f F.
  Hypothesis HA : area_holds d af KF.
  (** areas of all cells, ghost cells included *)
  Hypothesis HC : forall i j, 1 - mbc d <= i <= mx d + mbc d -> 1 - mbc d <= j <= my d + mbc d -> ac (i, j) = Some (KC i j).

  (** the element of areacoarse that is used for the ghost cell (a, b) *)
  Definition used_area (a b : Z) : Q :=
    if c =? 0 then KC (fst (beyond d c a b)) (fst (beyond d c a b)) else KC (fst (beyond d c a b)) (snd (beyond d c a b)).
  Definition ghost_mean (a b mq : Z) : Q := (mirror_sum d c a b (fun i j => KF i j * F i j mq) / used_area a b)%Q.
  Definition steps_x (i : Z) : Z := if upper_x c then i - mx d else 1 - i.
  Definition steps_y (j : Z) : Z := if upper_y c then j - my d else 1 - j.
  Definition target1 (x : cell) : option Q :=
    let '(i, j, mq) := x in
    let a := steps_x i in let b := steps_y j in
    let at_ s t := (KF (fst (inside d c (2 * a - s) (2 * b - t))) (snd (inside d c (2 * a - s) (2 * b - t))) * F (fst (inside d c (2 * a - s) (2 * b - t))) (snd (inside d c (2 * a - s) (2 * b - t))) mq)%Q in
    Some ((0 + at_ 1%Z 1%Z + at_ 1%Z 0%Z + at_ 0%Z 1%Z + at_ 0%Z 0%Z) / used_area a b)%Q.

  Lemma fine_sum_ok : forall a b mq, 1 <= a <= mbc d -> 1 <= b <= mbc d -> 1 <= mq <= meqn d ->
    let at_ s t := (KF (fst (inside d c (2 * a - s) (2 * b - t))) (snd (inside d c (2 * a - s) (2 * b - t))) * F (fst (inside d c (2 * a - s) (2 * b - t))) (snd (inside d c (2 * a - s) (2 * b - t))) mq)%Q in
    fine_sum d f af 2 (step_in (upper_x c) (mx d)) (step_in (upper_y c) (my d)) a b mq = Some (0 + at_ 1%Z 1%Z + at_ 1%Z 0%Z + at_ 0%Z 1%Z + at_ 0%Z 0%Z)%Q.
  Proof.
    intros a b mq Ha Hb Hm. cbv beta zeta. unfold fine_sum. cbv beta zeta.
    assert (G : forall s t, 0 <= s <= 1 -> 0 <= t <= 1 -> 
      rd d f (step_in (upper_x c) (mx d) (2 * a - s), step_in (upper_y c) (my d) (2 * b - t), mq) = Some (F (fst (inside d c (2 * a - s) (2 * b - t))) (snd (inside d c (2 * a - s) (2 * b - t))) mq) /\
      rd_area d af (step_in (upper_x c) (mx d) (2 * a - s)) (step_in (upper_y c) (my d) (2 * b - t)) = Some (KF (fst (inside d c (2 * a - s) (2 * b - t))) (snd (inside d c (2 * a - s) (2 * b - t))))).
    { intros s t Hs Ht. assert (I : 1 <= step_in (upper_x c) (mx d) (2 * a - s) <= mx d /\ 1 <= step_in (upper_y c) (my d) (2 * b - t) <= my d) by (unfold step_in; destruct (upper_x c), (upper_y c); lia).
      split.
      - apply rd_some; [apply in_q_iff; lia|]. apply HF. unfold interior, inside. cbn [fst snd]. lia.
      - unfold rd_area. replace (_ && _ && _ && _) with true by (symmetry; rewrite !andb_true_iff, !Z.leb_le; lia). apply HA; unfold inside; cbn [fst snd]; lia. }
    rewrite !loop12.
    replace ((a - 1) * 2 + 1) with (2 * a - 1) by ring. replace ((a - 1) * 2 + 2) with (2 * a - 0) by ring.
    replace ((b - 1) * 2 + 1) with (2 * b - 1) by ring. replace ((b - 1) * 2 + 2) with (2 * b - 0) by ring.
    destruct (G 1 1 ltac:(lia) ltac:(lia)) as [G1 G2]. rewrite G1. cbn [bind]. rewrite G2. cbn [bind].
    destruct (G 1 0 ltac:(lia) ltac:(lia)) as [G3 G4]. rewrite G3. cbn [bind]. rewrite G4. cbn [bind]. rewrite loop12. replace ((b - 1) * 2 + 1) with (2 * b - 1) by ring. replace ((b - 1) * 2 + 2) with (2 * b - 0) by ring.
    destruct (G 0 1 ltac:(lia) ltac:(lia)) as [G5 G6]. rewrite G5. cbn [bind]. rewrite G6. cbn [bind].
    destruct (G 0 0 ltac:(lia) ltac:(lia)) as [G7 G8]. rewrite G7. cbn [bind]. rewrite G8. reflexivity.
  Qed.

  Lemma average_fills : forall a b mq, 1 <= a <= mbc d -> 1 <= b <= mbc d -> 1 <= mq <= meqn d ->
    fills (fun (s : arr) x => s x) (fun _ => False) q target1
      (average_one d f ac af 2 (step_in (upper_x c) (mx d)) (step_in (upper_y c) (my d)) (fst (beyond d c a b)) (if c =? 0 then fst (beyond d c a b) else snd (beyond d c a b))
         (fst (beyond d c a b)) (snd (beyond d c a b)) a b mq)
      (fun x => x = (fst (beyond d c a b), snd (beyond d c a b), mq)).
  Proof.
    intros a b mq Ha Hb Hm s _. unfold average_one. rewrite (fine_sum_ok a b mq Ha Hb Hm). cbn [bind].
    assert (BB : 1 - mbc d <= fst (beyond d c a b) <= mx d + mbc d /\ 1 - mbc d <= snd (beyond d c a b) <= my d + mbc d) by (unfold beyond, step_out; cbn [fst snd]; destruct (upper_x c), (upper_y c); lia).
    assert (C0 : c = 0 -> 1 - mbc d <= fst (beyond d c a b) <= 0) by (intros ->; unfold beyond, step_out, upper_x; cbn [fst snd Z.eqb orb]; lia).
    assert (RA : rd_area d ac (fst (beyond d c a b)) (if c =? 0 then fst (beyond d c a b) else snd (beyond d c a b)) = Some (used_area a b)).
    { unfold rd_area, used_area. destruct (Z.eqb_spec c 0) as [E|E].
      - specialize (C0 E). replace (_ && _ && _ && _) with true by (symmetry; rewrite !andb_true_iff, !Z.leb_le; lia). apply HC; lia.
      - replace (_ && _ && _ && _) with true by (symmetry; rewrite !andb_true_iff, !Z.leb_le; lia). apply HC; lia. }
    rewrite RA. cbn [bind]. unfold wr. replace (in_q d _) with true by (symmetry; apply in_q_iff; lia).
    eexists. split; [reflexivity|]. split; [intros x []|]. cbv beta. split; [|split].
    - intros x ->. rewrite cell_eqb_refl. unfold target1.
      replace (steps_x (fst (beyond d c a b))) with a by (unfold steps_x, beyond, step_out; cbn [fst snd]; destruct (upper_x c); lia).
      replace (steps_y (snd (beyond d c a b))) with b by (unfold steps_y, beyond, step_out; cbn [fst snd]; destruct (upper_y c); lia). reflexivity.
    - intros x Hx. destruct (cell_eqb_spec x (fst (beyond d c a b), snd (beyond d c a b), mq)) as [E|_]; [contradiction|reflexivity].
    - intros x. destruct (cell_eqb_spec x (fst (beyond d c a b), snd (beyond d c a b), mq)) as [E|_]; [left|right; reflexivity].
      rewrite E. unfold target1.
      replace (steps_x (fst (beyond d c a b))) with a by (unfold steps_x, beyond, step_out; cbn [fst snd]; destruct (upper_x c); lia).
      replace (steps_y (snd (beyond d c a b))) with b by (unfold steps_y, beyond, step_out; cbn [fst snd]; destruct (upper_y c); lia). reflexivity.
  Qed.

  Lemma average_ok : exists q', average_block_corner d q f ac af 2 c = Some q' /\
    (forall a b mq, 1 <= a <= mbc d -> 1 <= b <= mbc d -> 1 <= mq <= meqn d -> at_cell q' (fst (beyond d c a b), snd (beyond d c a b), mq) (ghost_mean a b mq)) /\
    (forall i j mq, ~ (corner_ghost d c i j /\ 1 <= mq <= meqn d) -> q' (i, j, mq) = q (i, j, mq)).
  Proof.
    assert (FF : fills (fun (s : arr) x => s x) (fun _ => False) q target1 (fun s => average_block_corner d s f ac af 2 c)
      (fun x => exists mq, 1 <= mq <= meqn d /\ exists a, 1 <= a <= mbc d /\ exists b, 1 <= b <= mbc d /\ x = (fst (beyond d c a b), snd (beyond d c a b), mq))).
    { unfold average_block_corner. cbv zeta. destruct (corner_cases c OC) as [E|[E|[E|E]]];
      apply (fills_loop (fun (s : arr) x => s x) (fun _ => False) q target1 _ (fun mq x => exists a, 1 <= a <= mbc d /\ exists b, 1 <= b <= mbc d /\ x = (fst (beyond d c a b), snd (beyond d c a b), mq))); intros mq Hm;
      pick c;
      apply (fills_loop (fun (s : arr) x => s x) (fun _ => False) q target1 _ (fun a x => exists b, 1 <= b <= mbc d /\ x = (fst (beyond d c a b), snd (beyond d c a b), mq))); intros a Ha;
      apply (fills_loop (fun (s : arr) x => s x) (fun _ => False) q target1 _ (fun b x => x = (fst (beyond d c a b), snd (beyond d c a b), mq))); intros b Hb;
      pose proof (average_fills a b mq Ha Hb Hm) as X; unfold beyond, step_out, step_in, upper_x, upper_y in X |- *; rewrite E in X |- *; exact X. }
    destruct (FF q) as (s & E & _ & B & C & _); [intros x []|]. exists s. split; [exact E|]. split.
    - intros a b mq Ha Hb Hm. unfold at_cell. rewrite B by (exists mq; split; [exact Hm|]; exists a; split; [exact Ha|]; exists b; split; [exact Hb|]; reflexivity).
      unfold target1. eexists. split; [reflexivity|]. unfold ghost_mean, mirror_sum. cbv beta zeta.
      replace (steps_x (fst (beyond d c a b))) with a by (unfold steps_x, beyond, step_out; cbn [fst snd]; destruct (upper_x c); lia).
      replace (steps_y (snd (beyond d c a b))) with b by (unfold steps_y, beyond, step_out; cbn [fst snd]; destruct (upper_y c); lia).
      unfold Qdiv. apply Qmult_comp; [|reflexivity]. ring.
    - intros i j mq H. apply C. intros (mq' & Hm & a & Ha & b & Hb & X). injection X as X1 X2 X3. apply H. split; [|subst mq; exact Hm].
      exists a, b. split; [exact Ha|]. split; [exact Hb|]. rewrite X1, X2. symmetry. apply surjective_pairing.
  Qed.
End Average.

Section Interpolate.
  Variable d : dims.
  Variable c : Z.
  Variable qc qf : arr.
  Variable C : data.
  Hypothesis OC : ok_corner c.
  Hypothesis HB : 1 <= mbc d.
  Hypothesis HS : 1 <= mx d /\ 1 <= my d.
  Hypothesis HC : holds_layer d qc C.

  Definition ic : Z := step_in (upper_x c) (mx d) 1.
  Definition jc : Z := step_in (upper_y c) (my d) 1.
  Definition slope_x (mq : Z) : Q := compute_slopes (C ic jc mq - C (ic - 1)%Z jc mq) (C (ic + 1)%Z jc mq - C ic jc mq).
  Definition slope_y (mq : Z) : Q := compute_slopes (C ic jc mq - C ic (jc - 1)%Z mq) (C ic (jc + 1)%Z mq - C ic jc mq).
  Definition offset (a : Z) : Q := ((inject_Z a - inject_Z 2 / 2 - (1 # 2)) / inject_Z 2)%Q.
  Definition target3 (x : cell) : option Q :=
    let '(i, j, mq) := x in Some (C ic jc mq + offset (steps_x d c i) * slope_x mq + offset (steps_y d c j) * slope_y mq)%Q.

  Lemma interpolate_ok : exists q', interpolate_block_corner d qc qf 2 c = Some q' /\
    (forall a b mq, 1 <= a <= mbc d -> 1 <= b <= mbc d -> 1 <= mq <= meqn d ->
       q' (fst (beyond d c a b), snd (beyond d c a b), mq) = Some (C ic jc mq + offset a * slope_x mq + offset b * slope_y mq)%Q) /\
    (forall i j mq, ~ (corner_ghost d c i j /\ 1 <= mq <= meqn d) -> q' (i, j, mq) = qf (i, j, mq)).
  Proof.
    assert (FF : fills (fun (s : arr) x => s x) (fun _ => False) qf target3 (fun s => interpolate_block_corner d qc s 2 c)
      (fun x => exists mq, 1 <= mq <= meqn d /\ exists a, 1 <= a <= mbc d /\ exists b, 1 <= b <= mbc d /\ x = (fst (beyond d c a b), snd (beyond d c a b), mq))).
    { assert (ST : forall s, interpolate_block_corner d qc s 2 c = loop 1 (meqn d) (fun mq qfine =>
        bind (rd d qc (ic, jc, mq)) (fun qc0 => bind (rd d qc (ic - 1, jc, mq)) (fun qw => bind (rd d qc (ic + 1, jc, mq)) (fun qe =>
        bind (rd d qc (ic, jc - 1, mq)) (fun qs => bind (rd d qc (ic, jc + 1, mq)) (fun qn =>
        loop 1 (mbc d) (fun ibc => loop 1 (mbc d) (fun jbc q =>
          wr d q (fst (beyond d c ibc jbc), snd (beyond d c ibc jbc), mq)
            (qc0 + offset ibc * compute_slopes (qc0 - qw) (qe - qc0) + offset jbc * compute_slopes (qc0 - qs) (qn - qc0))%Q)) qfine)))))) s).
      { intros s. unfold interpolate_block_corner, ic, jc, beyond, step_in, step_out, upper_x, upper_y, offset. destruct (corner_cases c OC) as [E|[E|[E|E]]]; rewrite E; cbn [Z.eqb Pos.eqb orb bind fst snd]; rewrite ?Z.add_simpl_r; reflexivity. }
      intros s Hs. rewrite ST. revert s Hs.
      apply (fills_loop (fun (s : arr) x => s x) (fun _ => False) qf target3 _ (fun mq x => exists a, 1 <= a <= mbc d /\ exists b, 1 <= b <= mbc d /\ x = (fst (beyond d c a b), snd (beyond d c a b), mq))). intros mq Hm.
      assert (IC : 1 <= ic <= mx d /\ 1 <= jc <= my d) by (unfold ic, jc, step_in; destruct (upper_x c), (upper_y c); lia).
      assert (R : forall i j, (0 <= i <= mx d + 1 /\ 1 <= j <= my d) \/ (1 <= i <= mx d /\ 0 <= j <= my d + 1) -> rd d qc (i, j, mq) = Some (C i j mq)).
      { intros i j H. apply rd_some; [apply in_q_iff; lia|]. apply HC; [exact Hm|exact H]. }
      intros s Hs. rewrite !R by lia. cbn [bind]. revert s Hs.
      apply (fills_loop (fun (s : arr) x => s x) (fun _ => False) qf target3 _ (fun a x => exists b, 1 <= b <= mbc d /\ x = (fst (beyond d c a b), snd (beyond d c a b), mq))). intros a Ha.
      apply (fills_loop (fun (s : arr) x => s x) (fun _ => False) qf target3 _ (fun b x => x = (fst (beyond d c a b), snd (beyond d c a b), mq))). intros b Hb s _.
      unfold wr. replace (in_q d _) with true by (symmetry; apply in_q_iff; unfold beyond, step_out; cbn [fst snd]; destruct (upper_x c), (upper_y c); lia).
      eexists. split; [reflexivity|]. split; [intros x []|].
      assert (TT : target3 (fst (beyond d c a b), snd (beyond d c a b), mq) = Some (C ic jc mq + offset a * slope_x mq + offset b * slope_y mq)%Q).
      { unfold target3. replace (steps_x d c (fst (beyond d c a b))) with a by (unfold steps_x, beyond, step_out; cbn [fst snd]; destruct (upper_x c); lia).
        replace (steps_y d c (snd (beyond d c a b))) with b by (unfold steps_y, beyond, step_out; cbn [fst snd]; destruct (upper_y c); lia). reflexivity. }
      split; [|split].
      - intros x ->. rewrite cell_eqb_refl, TT. reflexivity.
      - intros x Hx. destruct (cell_eqb_spec x (fst (beyond d c a b), snd (beyond d c a b), mq)) as [E|_]; [contradiction|reflexivity].
      - intros x. destruct (cell_eqb_spec x (fst (beyond d c a b), snd (beyond d c a b), mq)) as [E|_]; [left|right; reflexivity]. rewrite E, TT. reflexivity. }
    destruct (FF qf) as (s & E & _ & B & CC & _); [intros x []|]. exists s. split; [exact E|]. split.
    - intros a b mq Ha Hb Hm. rewrite B by (exists mq; split; [exact Hm|]; exists a; split; [exact Ha|]; exists b; split; [exact Hb|]; reflexivity).
      unfold target3. replace (steps_x d c (fst (beyond d c a b))) with a by (unfold steps_x, beyond, step_out; cbn [fst snd]; destruct (upper_x c); lia).
      replace (steps_y d c (snd (beyond d c a b))) with b by (unfold steps_y, beyond, step_out; cbn [fst snd]; destruct (upper_y c); lia). reflexivity.
    - intros i j mq H. apply CC. intros (mq' & Hm & a & Ha & b & Hb & X). injection X as X1 X2 X3. apply H. split; [|subst mq; exact Hm].
      exists a, b. split; [exact Ha|]. split; [exact Hb|]. rewrite X1, X2. symmetry. apply surjective_pairing.
  Qed.
End Interpolate.
