(** Averaging four siblings, interpolation to four children. *)
From Coq Require Import ZArith QArith Qminmax Qabs List Lia Lqa Bool Qfield.
From Verif Require Import Base_Float Model_Face Spec_Face Model_Grid Spec_Grid Proof_Grid.
Import ListNotations.
Open Scope Z_scope.

Definition fcell (q : arr) (c : cell) : Q := match q c with Some v => v | None => 0%Q end.

Lemma grid_facts : forall d g, even_size d -> 0 <= g < 4 ->
  Z.rem g 2 = child_x g /\ Z.quot (g - Z.rem g 2) 2 = child_y g /\
  Z.quot (mx d) 2 = mx d / 2 /\ Z.quot (my d) 2 = my d / 2 /\
  mx d = 2 * (mx d / 2) /\ my d = 2 * (my d / 2) /\
  Z.quot (child_x g * mx d) 2 = off_x d g /\ Z.quot (child_y g * my d) 2 = off_y d g /\
  (child_x g = 0 \/ child_x g = 1) /\ (child_y g = 0 \/ child_y g = 1) /\
  (off_x d g = 0 /\ child_x g = 0 \/ off_x d g = mx d / 2 /\ child_x g = 1) /\
  (off_y d g = 0 /\ child_y g = 0 \/ off_y d g = my d / 2 /\ child_y g = 1).
Proof.
  intros d g ([a Ha] & [b Hb] & Hx & Hy & _) Hg. unfold off_x, off_y, child_x, child_y.
  rewrite Ha, Hb. rewrite !(Z.mul_comm 2 a), !(Z.mul_comm 2 b).
  rewrite !Z.div_mul, !Z.quot_mul by lia.
  assert (E : g = 0 \/ g = 1 \/ g = 2 \/ g = 3) by lia.
  destruct E as [->|[->|[->| ->]]];
    [change (Z.rem 0 2) with 0; change (0 mod 2) with 0; change (0 / 2) with 0; change (Z.quot (0 - 0) 2) with 0
    |change (Z.rem 1 2) with 1; change (1 mod 2) with 1; change (1 / 2) with 0; change (Z.quot (1 - 1) 2) with 0
    |change (Z.rem 2 2) with 0; change (2 mod 2) with 0; change (2 / 2) with 1; change (Z.quot (2 - 0) 2) with 1
    |change (Z.rem 3 2) with 1; change (3 mod 2) with 1; change (3 / 2) with 1; change (Z.quot (3 - 1) 2) with 1];
    rewrite ?Z.mul_0_l, ?Z.mul_1_l, ?Z.quot_mul by lia; change (Z.quot 0 2) with 0; lia.
Qed.

(** the child that covers a cell *)
Definition cover_of (d : dims) (i j : Z) : Z :=
  (if mx d / 2 <? i then 1 else 0) + 2 * (if my d / 2 <? j then 1 else 0).

Lemma covers_iff : forall d i j g, even_size d -> 1 <= i <= mx d -> 1 <= j <= my d ->
  (covers d g i j <-> g = cover_of d i j).
Proof.
  intros d i j g Hd Hi Hj. unfold covers, cover_of. split.
  - intros (Hg & Hx & Hy).
    destruct (grid_facts d g Hd Hg) as (_ & _ & _ & _ & E1 & E2 & _ & _ & _ & _ & Ox & Oy).
    assert (Eg : g = child_x g + 2 * child_y g) by (unfold child_x, child_y; pose proof (Z.div_mod g 2); lia).
    destruct (Z.ltb_spec (mx d / 2) i), (Z.ltb_spec (my d / 2) j); lia.
  - intros ->. set (g := (if mx d / 2 <? i then 1 else 0) + 2 * (if my d / 2 <? j then 1 else 0)).
    assert (Hg : 0 <= g < 4) by (unfold g; destruct (mx d / 2 <? i), (my d / 2 <? j); lia).
    split; [exact Hg|].
    destruct (grid_facts d g Hd Hg) as (_ & _ & _ & _ & E1 & E2 & _ & _ & _ & _ & Ox & Oy).
    assert (Eg : g = child_x g + 2 * child_y g) by (unfold child_x, child_y; pose proof (Z.div_mod g 2); lia).
    unfold g in Eg at 1.
    destruct (Z.ltb_spec (mx d / 2) i), (Z.ltb_spec (my d / 2) j); lia.
Qed.

(* ---------------------------------------------------------------- averaging *)

Section Average.
  Variable d : dims.
  Hypothesis Hd : even_size d.
  Hypothesis Hb : 0 <= mbc d.
  Variable manifold : bool.
  Variable qfine : Z -> arr.
  Variable ff : Z -> data.
  Hypothesis Hf : forall g, 0 <= g < 4 -> holds d (qfine g) (ff g).
  Variable areafine : Z -> area_t.
  Variable kf : Z -> areas.
  Variable areacoarse : area_t.
  Variable kc : areas.
  Hypothesis Hkf : manifold = true -> forall g, 0 <= g < 4 -> area_holds d (areafine g) (kf g).
  Hypothesis Hkc : manifold = true -> area_holds d areacoarse kc.

  (** value written to coarse cell (i, j) from child g *)
  Definition avg (g i j mq : Z) : Q :=
    let x a := sub (off_x d g) i a in
    let y b := sub (off_y d g) j b in
    if manifold then
      ((0 + kf g (x 0%Z) (y 0%Z) * ff g (x 0%Z) (y 0%Z) mq + kf g (x 1%Z) (y 0%Z) * ff g (x 1%Z) (y 0%Z) mq
          + kf g (x 0%Z) (y 1%Z) * ff g (x 0%Z) (y 1%Z) mq + kf g (x 1%Z) (y 1%Z) * ff g (x 1%Z) (y 1%Z) mq) / kc i j)%Q
    else ((0 + ff g (x 0%Z) (y 0%Z) mq + ff g (x 1%Z) (y 0%Z) mq + ff g (x 0%Z) (y 1%Z) mq + ff g (x 1%Z) (y 1%Z) mq) / 4)%Q.

  Definition avg_arr : arr := fun c => let '(i, j, mq) := c in Some (avg (cover_of d i j) i j mq).

  Lemma rd_area_in : forall a k i j, area_holds d a k -> 1 <= i <= mx d -> 1 <= j <= my d ->
    rd_area d a i j = Some (k i j).
  Proof.
    intros a k i j H Hi Hj. unfold rd_area.
    rewrite (proj2 (Z.leb_le (- mbc d) i)), (proj2 (Z.leb_le i (mx d + mbc d + 1))),
      (proj2 (Z.leb_le (- mbc d) j)), (proj2 (Z.leb_le j (my d + mbc d + 1))) by lia.
    cbn [andb]. now apply H.
  Qed.

  Lemma average_cell_ok : forall g i j mq s0, 0 <= g < 4 -> 1 <= i <= mx d / 2 -> 1 <= j <= my d / 2 ->
    1 <= mq <= meqn d ->
    writes none s0 (average_cell d (qfine g) (areafine g) areacoarse manifold i j
                      (i + off_x d g) (j + off_y d g) mq)
           (fun c => c = (i + off_x d g, j + off_y d g, mq)) avg_arr.
  Proof.
    intros g i j mq s0 Hg Hi Hj Hm.
    destruct (grid_facts d g Hd Hg) as (_ & _ & _ & _ & E1 & E2 & _ & _ & _ & _ & Ox & Oy).
    assert (Hcov : cover_of d (i + off_x d g) (j + off_y d g) = g).
    { symmetry. apply covers_iff; [exact Hd|lia|lia|]. split; [exact Hg|lia]. }
    assert (R : forall a b, 0 <= a <= 1 -> 0 <= b <= 1 ->
       rd d (qfine g) ((i - 1) * 2 + (a + 1), (j - 1) * 2 + (b + 1), mq) =
       Some (ff g (sub (off_x d g) (i + off_x d g) a) (sub (off_y d g) (j + off_y d g) b) mq)).
    { intros a b Ha Hb'. unfold sub.
      replace ((i - 1) * 2 + (a + 1)) with (2 * (i + off_x d g - off_x d g) - 1 + a) by lia.
      replace ((j - 1) * 2 + (b + 1)) with (2 * (j + off_y d g - off_y d g) - 1 + b) by lia.
      apply rd_some; [apply in_q_iff; lia|]. apply Hf; [exact Hg|]. unfold interior. lia. }
    assert (K : manifold = true -> forall a b, 0 <= a <= 1 -> 0 <= b <= 1 ->
       rd_area d (areafine g) ((i - 1) * 2 + (a + 1)) ((j - 1) * 2 + (b + 1)) =
       Some (kf g (sub (off_x d g) (i + off_x d g) a) (sub (off_y d g) (j + off_y d g) b))).
    { intros Hm' a b Ha Hb'. unfold sub.
      replace ((i - 1) * 2 + (a + 1)) with (2 * (i + off_x d g - off_x d g) - 1 + a) by lia.
      replace ((j - 1) * 2 + (b + 1)) with (2 * (j + off_y d g - off_y d g) - 1 + b) by lia.
      apply rd_area_in; [apply Hkf; assumption|lia|lia]. }
    pose proof (R 0 0 ltac:(lia) ltac:(lia)) as R00. pose proof (R 1 0 ltac:(lia) ltac:(lia)) as R10.
    pose proof (R 0 1 ltac:(lia) ltac:(lia)) as R01. pose proof (R 1 1 ltac:(lia) ltac:(lia)) as R11.
    assert (Hin : in_q d (i + off_x d g, j + off_y d g, mq) = true) by (apply in_q_iff; lia).
    unfold average_cell, sum4.
    change (Z.rem 0 2) with 0. change (Z.rem 1 2) with 1. change (Z.rem 2 2) with 0. change (Z.rem 3 2) with 1.
    change (Z.quot 0 2) with 0. change (Z.quot 1 2) with 0. change (Z.quot 2 2) with 1. change (Z.quot 3 2) with 1.
    rewrite R00, R10, R01, R11. cbn [bind].
    assert (HV : avg_arr (i + off_x d g, j + off_y d g, mq) = Some (avg g (i + off_x d g) (j + off_y d g) mq)).
    { unfold avg_arr. now rewrite Hcov. }
    destruct manifold eqn:Em.
    - rewrite (K eq_refl 0 0), (K eq_refl 1 0), (K eq_refl 0 1), (K eq_refl 1 1) by lia. cbn [bind].
      rewrite (rd_area_in areacoarse kc) by (try (apply Hkc; reflexivity); lia). cbn [bind].
      apply writes_cell; [exact Hin|]. rewrite HV. unfold avg. rewrite Em. reflexivity.
    - apply writes_cell; [exact Hin|]. rewrite HV. unfold avg. rewrite Em. reflexivity.
  Qed.

  Lemma fort_average_ok : forall g s0, mx d = my d -> 0 <= g < 4 ->
    writes none s0 (fort_average2coarse d (qfine g) areacoarse (areafine g) g manifold)
      (fun c => let '(i, j, mq) := c in covers d g i j /\ 1 <= mq <= meqn d) avg_arr.
  Proof.
    intros g s0 Hsq Hg.
    destruct (grid_facts d g Hd Hg) as (G1 & G2 & G3 & G4 & E1 & E2 & G5 & G6 & _ & _ & Ox & Oy).
    unfold fort_average2coarse. rewrite G2, G1, G3, G4, G5.
    replace (Z.quot (child_y g * mx d) 2) with (off_y d g) by (rewrite Hsq; symmetry; exact G6).
    eapply writes_weaken.
    - apply (writes_loop0 s0 (fun mq c => exists j, 1 <= j <= my d / 2 /\ exists i, 1 <= i <= mx d / 2 /\
                 c = (i + off_x d g, j + off_y d g, mq))). intros mq Hmq.
      apply (writes_loop0 s0 (fun j c => exists i, 1 <= i <= mx d / 2 /\ c = (i + off_x d g, j + off_y d g, mq))).
      intros j Hj.
      apply (writes_loop0 s0 (fun i c => c = (i + off_x d g, j + off_y d g, mq))). intros i Hi.
      now apply average_cell_ok.
    - intros c [].
    - intros [[i j] mq]. unfold covers. split.
      + intros (m & Hm & j' & Hj & i' & Hi & E). injection E as -> -> ->. lia.
      + intros ((_ & Hi & Hj) & Hm). exists mq. split; [exact Hm|]. exists (j - off_y d g). split; [lia|].
        exists (i - off_x d g). split; [lia|]. now rewrite !Z.sub_add.
  Qed.

  Lemma average2coarse_ok : forall s0, mx d = my d ->
    writes none s0 (average2coarse d qfine areafine areacoarse manifold) (interior d) avg_arr.
  Proof.
    intros s0 Hsq. unfold average2coarse. eapply writes_weaken.
    - apply (writes_loop0 s0 (fun g c => let '(i, j, mq) := c in covers d g i j /\ 1 <= mq <= meqn d)).
      intros g Hg. apply fort_average_ok; [exact Hsq|lia].
    - intros c [].
    - intros [[i j] mq]. cbn [interior]. split.
      + intros (g & Hg & (Hg' & Hx & Hy) & Hm).
        destruct (grid_facts d g Hd Hg') as (_ & _ & _ & _ & E1 & E2 & _ & _ & _ & _ & Ox & Oy). lia.
      + intros (Hi & Hj & Hm). exists (cover_of d i j).
        assert (C : covers d (cover_of d i j) i j) by now apply covers_iff.
        split; [destruct C; lia|]. now split.
  Qed.
End Average.

(* -------------------------------------------------------------- sums *)

Lemma qsum_n_ext : forall n lo f g, (forall k, lo <= k < lo + Z.of_nat n -> (f k == g k)%Q) ->
  (qsum_n n lo f == qsum_n n lo g)%Q.
Proof.
  induction n as [|n IH]; intros lo f g H; cbn [qsum_n]; [reflexivity|].
  rewrite (H lo) by lia. rewrite (IH (lo + 1) f g); [reflexivity|]. intros k Hk. apply H. lia.
Qed.
Lemma qsum_ext : forall lo hi f g, (forall k, lo <= k <= hi -> (f k == g k)%Q) ->
  (qsum lo hi f == qsum lo hi g)%Q.
Proof. intros lo hi f g H. apply qsum_n_ext. intros k Hk. apply H. lia. Qed.

Lemma qsum_n_app : forall n m lo f, (qsum_n (n + m)%nat lo f == qsum_n n lo f + qsum_n m (lo + Z.of_nat n)%Z f)%Q.
Proof.
  induction n as [|n IH]; intros m lo f.
  - cbn [qsum_n Nat.add]. change (Z.of_nat 0) with 0. rewrite Z.add_0_r. ring.
  - cbn [qsum_n Nat.add]. rewrite IH. replace (lo + 1 + Z.of_nat n) with (lo + Z.of_nat (S n)) by lia. ring.
Qed.
Lemma qsum_split : forall lo mid hi f, lo - 1 <= mid <= hi ->
  (qsum lo hi f == qsum lo mid f + qsum (mid + 1)%Z hi f)%Q.
Proof.
  intros lo mid hi f H. unfold qsum.
  replace (Z.to_nat (hi - lo + 1)) with (Z.to_nat (mid - lo + 1) + Z.to_nat (hi - (mid + 1) + 1))%nat by lia.
  rewrite qsum_n_app. replace (lo + Z.of_nat (Z.to_nat (mid - lo + 1))) with (mid + 1) by lia. reflexivity.
Qed.

Lemma qsum_n_shift : forall n lo s f, (qsum_n n (lo + s)%Z f == qsum_n n lo (fun k => f (k + s)%Z))%Q.
Proof.
  induction n as [|n IH]; intros lo s f; cbn [qsum_n]; [reflexivity|].
  replace (lo + s + 1) with ((lo + 1) + s) by lia. now rewrite IH.
Qed.
Lemma qsum_shift : forall lo hi s f, (qsum (lo + s)%Z (hi + s)%Z f == qsum lo hi (fun k => f (k + s)%Z))%Q.
Proof.
  intros lo hi s f. unfold qsum. replace (hi + s - (lo + s) + 1) with (hi - lo + 1) by lia. apply qsum_n_shift.
Qed.

Lemma qsum_n_pairs : forall n lo f,
  (qsum_n (2 * n)%nat (2 * lo - 1)%Z f == qsum_n n lo (fun k => f (2 * k - 1)%Z + f (2 * k)%Z))%Q.
Proof.
  induction n as [|n IH]; intros lo f; [reflexivity|].
  replace (2 * S n)%nat with (S (S (2 * n))) by lia. cbn [qsum_n].
  replace (2 * lo - 1 + 1 + 1) with (2 * (lo + 1) - 1) by lia. rewrite IH.
  replace (2 * lo - 1 + 1) with (2 * lo) by lia. ring.
Qed.
Lemma qsum_pairs : forall n f, 0 <= n -> (qsum 1 (2 * n)%Z f == qsum 1 n (fun k => f (2 * k - 1)%Z + f (2 * k)%Z))%Q.
Proof.
  intros n f Hn. unfold qsum. replace (Z.to_nat (2 * n - 1 + 1)) with (2 * Z.to_nat (n - 1 + 1))%nat by lia.
  apply (qsum_n_pairs _ 1).
Qed.

Lemma qsum_n_add : forall n lo f g, (qsum_n n lo (fun k => f k + g k) == qsum_n n lo f + qsum_n n lo g)%Q.
Proof. induction n as [|n IH]; intros lo f g; cbn [qsum_n]; [reflexivity|]. rewrite IH. ring. Qed.
Lemma qsum_add : forall lo hi f g, (qsum lo hi (fun k => f k + g k) == qsum lo hi f + qsum lo hi g)%Q.
Proof. intros. apply qsum_n_add. Qed.
Lemma qsum_n_scale : forall n lo c f, (qsum_n n lo (fun k => c * f k) == c * qsum_n n lo f)%Q.
Proof. induction n as [|n IH]; intros lo c f; cbn [qsum_n]; [ring|]. rewrite IH. ring. Qed.
Lemma qsum_scale : forall lo hi c f, (qsum lo hi (fun k => c * f k) == c * qsum lo hi f)%Q.
Proof. intros. apply qsum_n_scale. Qed.

Lemma total_ext : forall d f g, (forall i j, 1 <= i <= mx d -> 1 <= j <= my d -> (f i j == g i j)%Q) ->
  (total d f == total d g)%Q.
Proof. intros d f g H. apply qsum_ext. intros i Hi. apply qsum_ext. intros j Hj. now apply H. Qed.
Lemma total_scale : forall d c f, (total d (fun i j => c * f i j) == c * total d f)%Q.
Proof.
  intros. unfold total. rewrite <- qsum_scale. apply qsum_ext. intros i _. apply qsum_scale.
Qed.

(** the whole patch is the union of what its four children cover *)
Lemma total_children : forall d (F : Z -> Z -> Z -> Q), even_size d ->
  (total d (fun i j => four d (cover_of d i j) i j (F (cover_of d i j))) ==
   total d (F 0%Z) + total d (F 1%Z) + total d (F 2%Z) + total d (F 3%Z))%Q.
Proof.
  intros d F Hd. pose proof Hd as ([a Ha] & [b Hb] & Hx & Hy & _).
  assert (Ea : mx d / 2 = a) by (rewrite Ha, (Z.mul_comm 2), Z.div_mul; lia).
  assert (Eb : my d / 2 = b) by (rewrite Hb, (Z.mul_comm 2), Z.div_mul; lia).
  (* one child *)
  assert (C : forall g, 0 <= g < 4 -> (total d (F g) ==
     qsum (off_x d g + 1)%Z (off_x d g + a)%Z (fun i => qsum (off_y d g + 1)%Z (off_y d g + b)%Z (fun j =>
       four d g i j (F g))))%Q).
  { intros g Hg. unfold total. rewrite Ha, Hb. rewrite qsum_pairs by lia.
    replace (off_x d g + 1) with (1 + off_x d g) by lia. replace (off_x d g + a) with (a + off_x d g) by lia.
    rewrite qsum_shift. apply qsum_ext. intros i _. rewrite !qsum_pairs by lia.
    replace (off_y d g + 1) with (1 + off_y d g) by lia. replace (off_y d g + b) with (b + off_y d g) by lia.
    rewrite qsum_shift. rewrite <- qsum_add. apply qsum_ext. intros j _. unfold four, sub.
    replace (2 * (i + off_x d g - off_x d g) - 1 + 0) with (2 * i - 1) by lia.
    replace (2 * (i + off_x d g - off_x d g) - 1 + 1) with (2 * i) by lia.
    replace (2 * (j + off_y d g - off_y d g) - 1 + 0) with (2 * j - 1) by lia.
    replace (2 * (j + off_y d g - off_y d g) - 1 + 1) with (2 * j) by lia. ring. }
  rewrite (C 0), (C 1), (C 2), (C 3) by lia.
  assert (O : off_x d 0 = 0 /\ off_x d 1 = a /\ off_x d 2 = 0 /\ off_x d 3 = a /\
              off_y d 0 = 0 /\ off_y d 1 = 0 /\ off_y d 2 = b /\ off_y d 3 = b).
  { unfold off_x, off_y, child_x, child_y. rewrite Ea, Eb.
    change (0 mod 2) with 0. change (1 mod 2) with 1. change (2 mod 2) with 0. change (3 mod 2) with 1.
    change (0 / 2) with 0. change (1 / 2) with 0. change (2 / 2) with 1. change (3 / 2) with 1. lia. }
  destruct O as (-> & -> & -> & -> & -> & -> & -> & ->). cbn [Z.add].
  unfold total. rewrite (qsum_split 1 a (mx d)) by lia. replace (mx d) with (a + a) by lia.
  assert (S : forall lo hi gl gh, (forall i, lo <= i <= hi ->
      (forall j, 1 <= j <= b -> cover_of d i j = gl) /\ (forall j, b + 1 <= j <= b + b -> cover_of d i j = gh)) ->
    (qsum lo hi (fun i => qsum 1 (my d) (fun j => four d (cover_of d i j) i j (F (cover_of d i j)))) ==
     qsum lo hi (fun i => qsum 1 b (fun j => four d gl i j (F gl))) +
     qsum lo hi (fun i => qsum (b + 1)%Z (b + b)%Z (fun j => four d gh i j (F gh))))%Q).
  { intros lo hi gl gh H. rewrite <- qsum_add. apply qsum_ext. intros i Hi. destruct (H i Hi) as [Hl Hh].
    rewrite (qsum_split 1 b (my d)) by lia. replace (my d) with (b + b) by lia.
    rewrite (qsum_ext 1 b _ (fun j => four d gl i j (F gl))) by (intros j Hj; now rewrite (Hl j Hj)).
    rewrite (qsum_ext (b + 1) (b + b) _ (fun j => four d gh i j (F gh))) by (intros j Hj; now rewrite (Hh j Hj)).
    reflexivity. }
  rewrite (S 1 a 0 2), (S (a + 1) (a + a) 1 3).
  - ring.
  - intros i Hi. split; intros j Hj; unfold cover_of; rewrite Ea, Eb;
      destruct (Z.ltb_spec a i), (Z.ltb_spec b j); lia.
  - intros i Hi. split; intros j Hj; unfold cover_of; rewrite Ea, Eb;
      destruct (Z.ltb_spec a i), (Z.ltb_spec b j); lia.
Qed.
