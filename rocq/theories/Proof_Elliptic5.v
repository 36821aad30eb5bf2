(** Given boundary values: how often each one is used. *)
From Coq Require Import ZArith QArith List Lia Lqa Bool Qfield.
From Verif Require Import Base_Float Model_Face Model_Grid Spec_Grid Proof_Grid Proof_Grid2 Proof_Tag Proof_Diag Model_Elliptic Spec_Elliptic
  Proof_Elliptic1 Proof_Elliptic2 Proof_Elliptic3 Proof_Elliptic4.
Import ListNotations.
Open Scope Z_scope.

Section Bc.
  Variable d : dims.
  Hypothesis HU : usable d.
  Variable xl yl hx hy t : Q.
  Hypothesis Hhx : ~ (hx == 0)%Q.
  Hypothesis Hhy : ~ (hy == 0)%Q.
  Variable intersects : Z -> bool.
  Variable g_bc : Z -> Q -> Q -> Q -> Q.
  Variable cond : Z -> condition.
  Let gvals := given d xl yl hx hy t g_bc.
  Let psh := push d hx hy cond gvals.
  Let qb := qbefore d xl yl hx hy t intersects g_bc cond.

  Lemma lap_qbefore : forall f i j, 1 <= i <= mx d -> 1 <= j <= my d ->
    (lap hx hy (field (qb f) 1%Z) i j == qsum 0 3 (fun s => if ((s <? f)%Z && intersects s)%bool then psh s i j else 0))%Q.
  Proof.
    intros f i j Hi Hj. unfold qsum. change (Z.to_nat (3 - 0 + 1)) with 4%nat. cbn [qsum_n]. change (0 + 1)%Z with 1%Z. change (1 + 1)%Z with 2%Z. change (2 + 1)%Z with 3%Z.
    assert (C : qb f i j 1%Z = 0%Q).
    { unfold qb, qbefore. repeat match goal with |- context [?a =? ?b] => destruct (Z.eqb_spec a b); try lia end. reflexivity. }
    assert (W : ((qb f (i - 1)%Z j 1%Z) / (hx * hx) == if (0 <? f)%Z && intersects 0%Z then psh 0 i j else 0)%Q).
    { unfold qb, qbefore, psh, push, at_side, edge_no, gv, spacing, gvals. cbn [Z.eqb Z.ltb Z.compare].
      destruct (Z.eqb_spec (i - 1) 0), (Z.eqb_spec i 1); try lia; cbn [andb].
      - destruct ((0 <? f) && intersects 0); [reflexivity|].
        destruct (Z.eqb_spec (i - 1) (mx d + 1)); [lia|]. cbn [andb]. destruct (Z.eqb_spec j 0); [lia|]. destruct (Z.eqb_spec j (my d + 1)); [lia|]. cbn [andb]. field. auto.
      - destruct (Z.eqb_spec (i - 1) (mx d + 1)); [lia|]. cbn [andb]. destruct (Z.eqb_spec j 0); [lia|]. destruct (Z.eqb_spec j (my d + 1)); [lia|]. cbn [andb].
        destruct ((0 <? f) && intersects 0); field; auto. }
    assert (E : ((qb f (i + 1)%Z j 1%Z) / (hx * hx) == if (1 <? f)%Z && intersects 1%Z then psh 1 i j else 0)%Q).
    { unfold qb, qbefore, psh, push, at_side, edge_no, gv, spacing, gvals. cbn [Z.eqb Z.ltb Z.compare Pos.compare Pos.compare_cont Pos.eqb].
      destruct (Z.eqb_spec (i + 1) 0); [lia|]. cbn [andb].
      destruct (Z.eqb_spec (i + 1) (mx d + 1)), (Z.eqb_spec i (mx d)); try lia; cbn [andb].
      - destruct ((1 <? f) && intersects 1); [reflexivity|].
        destruct (Z.eqb_spec j 0); [lia|]. destruct (Z.eqb_spec j (my d + 1)); [lia|]. cbn [andb]. field. auto.
      - destruct (Z.eqb_spec j 0); [lia|]. destruct (Z.eqb_spec j (my d + 1)); [lia|]. cbn [andb]. destruct ((1 <? f) && intersects 1); field; auto. }
    assert (S : ((qb f i (j - 1)%Z 1%Z) / (hy * hy) == if (2 <? f)%Z && intersects 2%Z then psh 2 i j else 0)%Q).
    { unfold qb, qbefore, psh, push, at_side, edge_no, gv, spacing, gvals. cbn [Z.eqb Z.ltb Z.compare Pos.compare Pos.compare_cont Pos.eqb].
      destruct (Z.eqb_spec i 0); [lia|]. destruct (Z.eqb_spec i (mx d + 1)); [lia|]. cbn [andb].
      destruct (Z.eqb_spec (j - 1) 0), (Z.eqb_spec j 1); try lia; cbn [andb].
      - destruct ((2 <? f) && intersects 2); [reflexivity|]. destruct (Z.eqb_spec (j - 1) (my d + 1)); [lia|]. cbn [andb]. field. auto.
      - destruct (Z.eqb_spec (j - 1) (my d + 1)); [lia|]. cbn [andb]. destruct ((2 <? f) && intersects 2); field; auto. }
    assert (N : ((qb f i (j + 1)%Z 1%Z) / (hy * hy) == if (3 <? f)%Z && intersects 3%Z then psh 3 i j else 0)%Q).
    { unfold qb, qbefore, psh, push, at_side, edge_no, gv, spacing, gvals. cbn [Z.eqb Z.ltb Z.compare Pos.compare Pos.compare_cont Pos.eqb].
      destruct (Z.eqb_spec i 0); [lia|]. destruct (Z.eqb_spec i (mx d + 1)); [lia|]. cbn [andb].
      destruct (Z.eqb_spec (j + 1) 0); [lia|]. cbn [andb].
      destruct (Z.eqb_spec (j + 1) (my d + 1)), (Z.eqb_spec j (my d)); try lia; cbn [andb].
      - destruct ((3 <? f) && intersects 3); [reflexivity|]. field. auto.
      - destruct ((3 <? f) && intersects 3); field; auto. }
    rewrite <- W, <- E, <- S, <- N. unfold lap, field. rewrite C. field. auto.
  Qed.

  Lemma taken_total : forall i j, 1 <= i <= mx d -> 1 <= j <= my d ->
    (qsum 0 3 (fun f => taken d xl yl hx hy t intersects g_bc cond f i j) ==
     qsum 0 3 (fun s => if intersects s then later intersects s * psh s i j else 0))%Q.
  Proof.
    intros i j Hi Hj.
    assert (T : forall f, (taken d xl yl hx hy t intersects g_bc cond f i j ==
      if intersects f then qsum 0 3 (fun s => if ((s <? f + 1)%Z && intersects s)%bool then psh s i j else 0) else 0)%Q).
    { intros f. unfold taken. destruct (intersects f); [apply lap_qbefore; assumption|reflexivity]. }
    rewrite (qsum_ext 0 3 _ _ (fun f _ => T f)).
    unfold later, qsum.
    change (Z.to_nat (3 - 0 + 1)) with 4%nat. cbn [qsum_n]. change (0 + 1)%Z with 1%Z. change (1 + 1)%Z with 2%Z. change (2 + 1)%Z with 3%Z. change (3 + 1)%Z with 4%Z.
    cbn [Z.ltb Z.compare Pos.compare Pos.compare_cont andb]. change (Z.to_nat (3 - 0 + 1)) with 4%nat. change (Z.to_nat (3 - 1 + 1)) with 3%nat. change (Z.to_nat (3 - 2 + 1)) with 2%nat. change (Z.to_nat (3 - 3 + 1)) with 1%nat.
    cbn [qsum_n]. change (0 + 1)%Z with 1%Z. change (1 + 1)%Z with 2%Z. change (2 + 1)%Z with 3%Z. change (3 + 1)%Z with 4%Z.
    generalize (psh 0 i j) (psh 1 i j) (psh 2 i j) (psh 3 i j). intros p0 p1 p2 p3.
    destruct (intersects 0), (intersects 1), (intersects 2), (intersects 3); ring.
  Qed.
End Bc.
