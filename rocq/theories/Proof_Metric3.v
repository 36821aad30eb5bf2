(** Areas averaged from the four finer patches, and the total area of a mesh. *)
From Coq Require Import ZArith Reals List Bool Lia Lra.
From Verif Require Import Model_Map Model_Grid Spec_Map Model_Metric Spec_Metric Proof_Metric1 Proof_Metric2.
Import ListNotations.
Open Scope R_scope.

Lemma loop12 : forall {S} (f : Z -> S -> option S) s, loop 1 2 f s = bind (f 1%Z s) (f 2%Z).
Proof. intros S f s. change (loop 1 2 f s) with (bind (f 1%Z s) (fun s => bind (f 2%Z s) (fun s => Some s))). destruct (f 1%Z s) as [t|]; [|reflexivity]. cbn [bind]. destruct (f 2%Z t); reflexivity. Qed.
Lemma loop03 : forall {S} (f : Z -> S -> option S) s, loop 0 3 f s = bind (f 0%Z s) (fun s => bind (f 1%Z s) (fun s => bind (f 2%Z s) (f 3%Z))).
Proof. intros S f s. change (loop 0 3 f s) with (bind (f 0%Z s) (fun s => bind (f 1%Z s) (fun s => bind (f 2%Z s) (fun s => bind (f 3%Z s) (fun s => Some s))))). destruct (f 0%Z s) as [t|]; [|reflexivity]. cbn [bind]. destruct (f 1%Z t) as [t1|]; [|reflexivity]. cbn [bind]. destruct (f 2%Z t1) as [t2|]; [|reflexivity]. cbn [bind]. destruct (f 3%Z t2); reflexivity. Qed.

(** the four parts of a cell *)
Lemma cell_four : forall M maxlevel p i j, (plevel p < maxlevel)%Z ->
  cell_area M maxlevel p i j =
  (let part a b := divided_area M (Z.to_nat (2 ^ (maxlevel - plevel p - 1))) (corner_x p i + a * (pdx p / 2)) (corner_y p j + b * (pdy p / 2)) (pdx p / 2) (pdy p / 2) in
   part 0 0 + part 1 0 + part 0 1 + part 1 1).
Proof.
  intros M maxlevel p i j L. cbv zeta. unfold cell_area. replace (maxlevel - plevel p)%Z with (Z.succ (maxlevel - plevel p - 1)) at 1 by lia. rewrite Z.pow_succ_r by lia.
  pose proof (Z.pow_pos_nonneg 2 (maxlevel - plevel p - 1) ltac:(lia) ltac:(lia)) as P. replace (Z.to_nat (2 * 2 ^ (maxlevel - plevel p - 1))) with (2 * Z.to_nat (2 ^ (maxlevel - plevel p - 1)))%nat by lia.
  rewrite divided_twice by lia. rewrite !Rmult_0_l, !Rplus_0_r, !Rmult_1_l. reflexivity.
Qed.
Lemma child_cell : forall M maxlevel p k hx hy i j (a b : Z), pmx p = (2 * hx)%Z -> pmy p = (2 * hy)%Z ->
  cell_area M maxlevel (child p k) (2 * (i - k mod 2 * hx) - 1 + a) (2 * (j - k / 2 * hy) - 1 + b) =
  divided_area M (Z.to_nat (2 ^ (maxlevel - plevel p - 1))) (corner_x p i + IZR a * (pdx p / 2)) (corner_y p j + IZR b * (pdy p / 2)) (pdx p / 2) (pdy p / 2).
Proof.
  intros M maxlevel p k hx hy i j a b EX EY. unfold cell_area. unfold child at 1. cbn [plevel]. replace (maxlevel - (plevel p + 1))%Z with (maxlevel - plevel p - 1)%Z by ring.
  unfold corner_x, corner_y, child. cbn [xlower ylower pdx pdy]. rewrite EX, EY. rewrite !plus_IZR, !minus_IZR, !mult_IZR, !minus_IZR, !mult_IZR. f_equal; field.
Qed.

Section Average.
  Variable c2m : Z -> R -> R -> point.
  Variable isaffine : bool.
  Variable maxlevel : Z.
  Variable p : mpatch.
  Variable h : Z.
  Hypothesis HX : pmx p = (2 * h)%Z.
  Hypothesis HY : pmy p = (2 * h)%Z.
  Hypothesis H0 : (0 <= h)%Z.
  Hypothesis HB : (1 <= pmbc p)%Z.
  Hypothesis HL : (plevel p < maxlevel)%Z.

  Definition covered (k i j : Z) : bool := ((k mod 2 * h <=? i) && (i <=? k mod 2 * h + h + 1) && (k / 2 * h <=? j) && (j <=? k / 2 * h + h + 1))%Z.
  Lemma average_ok : forall k fine a0, (0 <= k < 4)%Z ->
    (forall i j, cell_index p i j -> fine (i, j) = Some (cell_area (c2m (pblock p)) maxlevel (child p k) i j)) ->
    exists a, average_area p fine k a0 = Some a /\ forall i j, a (i, j) = if covered k i j then Some (cell_area (c2m (pblock p)) maxlevel p i j) else a0 (i, j).
  Proof.
    intros k fine a0 Hk F. unfold average_area. cbv zeta.
    assert (K : Z.rem k 2 = (k mod 2)%Z) by (apply Z.rem_mod_nonneg; lia). rewrite !K.
    pose proof (Z.div_mod k 2 ltac:(lia)) as DM. pose proof (Z.mod_pos_bound k 2 ltac:(lia)) as MB.
    assert (Q : Z.quot (k - k mod 2) 2 = (k / 2)%Z) by (rewrite Z.quot_div_nonneg by lia; replace (k - k mod 2)%Z with (k / 2 * 2)%Z by lia; apply Z.div_mul; lia). rewrite !Q.
    assert (KD : (0 <= k / 2 <= 1)%Z) by lia.
    assert (IC : forall q, (0 <= q <= 1)%Z -> Z.quot (q * pmx p) 2 = (q * h)%Z).
    { intros q Hq. rewrite HX, Z.quot_div_nonneg by nia. replace (q * (2 * h))%Z with (q * h * 2)%Z by ring. apply Z.div_mul. lia. }
    rewrite !IC by lia. assert (QX : Z.quot (pmx p) 2 = h) by (rewrite <- (Z.mul_1_l (pmx p)), IC by lia; lia). assert (QY : Z.quot (pmy p) 2 = h) by (rewrite HY, <- HX; exact QX). rewrite QX, QY.
    set (cx := (k mod 2 * h)%Z). set (cy := (k / 2 * h)%Z).
    run_fill (fun (s : grid R) j i => s (i + cx, j + cy)%Z) (fun j i => Some (cell_area (c2m (pblock p)) maxlevel p (i + cx) (j + cy))) (fun _ _ : Z => false) a V.
    - intros j i a Hj Hi. rewrite loop12. rewrite loop12. rewrite ?get_p by (unfold cell_index; nia). rewrite ?F by (unfold cell_index; nia). cbn [bind]. rewrite loop12. rewrite ?get_p by (unfold cell_index; nia). rewrite ?F by (unfold cell_index; nia). cbn [bind]. 
      rewrite put_ok by (apply in_p_ok; unfold cell_index, cx, cy; nia). eexists. split; [reflexivity|]. intros x y. cbv beta. rewrite same_pair. cbn [negb]. rewrite andb_true_r.
      replace (y + cx =? i + cx)%Z with (y =? i)%Z by (destruct (Z.eqb_spec y i), (Z.eqb_spec (y + cx) (i + cx)); lia).
      replace (x + cy =? j + cy)%Z with (x =? j)%Z by (destruct (Z.eqb_spec x j), (Z.eqb_spec (x + cy) (j + cy)); lia).
      rewrite (andb_comm (y =? i)%Z). destruct ((x =? j)%Z && (y =? i)%Z); [|reflexivity]. f_equal.
      rewrite (cell_four (c2m (pblock p)) maxlevel p (i + cx) (j + cy) HL). cbv beta zeta.
      rewrite <- (child_cell (c2m (pblock p)) maxlevel p k h h (i + cx) (j + cy) 0 0 HX HY), <- (child_cell (c2m (pblock p)) maxlevel p k h h (i + cx) (j + cy) 1 0 HX HY),
              <- (child_cell (c2m (pblock p)) maxlevel p k h h (i + cx) (j + cy) 0 1 HX HY), <- (child_cell (c2m (pblock p)) maxlevel p k h h (i + cx) (j + cy) 1 1 HX HY).
      fold cx cy. replace (i + cx - cx)%Z with i by ring. replace (j + cy - cy)%Z with j by ring.
      replace (2 * i - 1 + 0)%Z with ((i - 1) * 2 + 1)%Z by ring. replace (2 * i - 1 + 1)%Z with ((i - 1) * 2 + 2)%Z by ring.
      replace (2 * j - 1 + 0)%Z with ((j - 1) * 2 + 1)%Z by ring. replace (2 * j - 1 + 1)%Z with ((j - 1) * 2 + 2)%Z by ring. lra.
    - exists a. split; [reflexivity|]. intros i j. specialize (V (j - cy) (i - cx))%Z. cbv beta in V. replace (i - cx + cx)%Z with i in V by ring. replace (j - cy + cy)%Z with j in V by ring.
      rewrite V. unfold covered. fold cx cy. cbn [negb]. rewrite andb_true_r.
      replace ((0 <=? j - cy) && (j - cy <=? h + 1) && (0 <=? i - cx) && (i - cx <=? h + 1))%Z with ((cx <=? i) && (i <=? cx + h + 1) && (cy <=? j) && (j <=? cy + h + 1))%Z; [reflexivity|].
      destruct (Z.leb_spec 0 (j - cy)), (Z.leb_spec (j - cy) (h + 1)), (Z.leb_spec 0 (i - cx)), (Z.leb_spec (i - cx) (h + 1)), (Z.leb_spec cx i), (Z.leb_spec i (cx + h + 1)), (Z.leb_spec cy j), (Z.leb_spec j (cy + h + 1)); try lia; reflexivity.
  Qed.

  Hypothesis HA : isaffine = true -> affine (c2m (pblock p)).
  Lemma from_fine_ok : forall fine a0,
    (forall k i j, (0 <= k < 4)%Z -> cell_index p i j -> fine k (i, j) = Some (cell_area (c2m (pblock p)) maxlevel (child p k) i j)) ->
    exists a, average_area_from_fine c2m isaffine maxlevel p fine a0 = Some a /\ forall i j, cell_index p i j -> a (i, j) = Some (cell_area (c2m (pblock p)) maxlevel p i j).
  Proof.
    intros fine a0 F. unfold average_area_from_fine. rewrite loop03.
    destruct (average_ok 0 (fine 0%Z) a0 ltac:(lia) ltac:(intros; apply F; [lia|assumption])) as (a1 & -> & V1). cbn [bind].
    destruct (average_ok 1 (fine 1%Z) a1 ltac:(lia) ltac:(intros; apply F; [lia|assumption])) as (a2 & -> & V2). cbn [bind].
    destruct (average_ok 2 (fine 2%Z) a2 ltac:(lia) ltac:(intros; apply F; [lia|assumption])) as (a3 & -> & V3). cbn [bind].
    destruct (average_ok 3 (fine 3%Z) a3 ltac:(lia) ltac:(intros; apply F; [lia|assumption])) as (a4 & -> & V4). cbn [bind].
    destruct (area_ghost_ok c2m isaffine maxlevel p a4 ltac:(lia) HA) as (a & -> & V). exists a. split; [reflexivity|]. intros i j H. rewrite V by exact H.
    destruct (is_area_interior (pmx p) (pmy p) i j) eqn:I; [|reflexivity]. unfold is_area_interior in I. rewrite !andb_true_iff, !Z.leb_le, HX, HY in I.
    rewrite V4, V3, V2, V1. unfold covered. change (3 mod 2)%Z with 1%Z. change (3 / 2)%Z with 1%Z. change (2 mod 2)%Z with 0%Z. change (2 / 2)%Z with 1%Z. change (1 mod 2)%Z with 1%Z. change (1 / 2)%Z with 0%Z. change (0 mod 2)%Z with 0%Z. change (0 / 2)%Z with 0%Z.
    rewrite !Z.mul_1_l, !Z.mul_0_l, !Z.add_0_l.
    destruct (Z.leb_spec h i), (Z.leb_spec i (h + h + 1)), (Z.leb_spec h j), (Z.leb_spec j (h + h + 1)), (Z.leb_spec 0 i), (Z.leb_spec i (h + 1)), (Z.leb_spec 0 j), (Z.leb_spec j (h + 1)); try lia; reflexivity.
  Qed.
End Average.

(** ** The total area *)
Lemma sum_cells : forall h f, (0 <= h)%Z -> sum (Z.to_nat (2 * h)) f = sum (Z.to_nat h) f + sum (Z.to_nat h) (fun k => f (Z.to_nat h + k)%nat).
Proof. intros h f H. replace (Z.to_nat (2 * h)) with (Z.to_nat h + Z.to_nat h)%nat by lia. apply sum_app. Qed.
Lemma child_patch_area : forall M maxlevel p k hx hy, pmx p = (2 * hx)%Z -> pmy p = (2 * hy)%Z -> (0 <= hx)%Z -> (0 <= hy)%Z -> (0 <= k < 4)%Z -> (plevel p < maxlevel)%Z ->
  patch_area (child p k) (cell_area M maxlevel (child p k)) =
  sum (Z.to_nat hx) (fun a => sum (Z.to_nat hy) (fun b => cell_area M maxlevel p (Z.of_nat a + 1 + k mod 2 * hx) (Z.of_nat b + 1 + k / 2 * hy))).
Proof.
  intros M maxlevel p k hx hy EX EY PX PY Hk L. unfold patch_area, child at 1 2. cbn [pmx pmy]. rewrite EX, EY.
  replace (Z.to_nat (2 * hx)) with (2 * Z.to_nat hx)%nat by lia. replace (Z.to_nat (2 * hy)) with (2 * Z.to_nat hy)%nat by lia. rewrite sum_pairs. apply sum_ext. intros a _.
  rewrite !sum_pairs, <- sum_plus. apply sum_ext. intros b _. rewrite (cell_four M maxlevel p _ _ L). cbv beta zeta.
  change 0 with (IZR 0). change 1 with (IZR 1).
  rewrite <- !(child_cell M maxlevel p k hx hy _ _ _ _ EX EY).
  replace (Z.of_nat a + 1 + k mod 2 * hx - k mod 2 * hx)%Z with (Z.of_nat a + 1)%Z by ring. replace (Z.of_nat b + 1 + k / 2 * hy - k / 2 * hy)%Z with (Z.of_nat b + 1)%Z by ring.
  replace (Z.of_nat (2 * a) + 1)%Z with (2 * (Z.of_nat a + 1) - 1 + 0)%Z by lia. replace (Z.of_nat (2 * a + 1) + 1)%Z with (2 * (Z.of_nat a + 1) - 1 + 1)%Z by lia.
  replace (Z.of_nat (2 * b) + 1)%Z with (2 * (Z.of_nat b + 1) - 1 + 0)%Z by lia. replace (Z.of_nat (2 * b + 1) + 1)%Z with (2 * (Z.of_nat b + 1) - 1 + 1)%Z by lia. lra.
Qed.
Lemma family_area : forall M maxlevel p hx hy, pmx p = (2 * hx)%Z -> pmy p = (2 * hy)%Z -> (0 <= hx)%Z -> (0 <= hy)%Z -> (plevel p < maxlevel)%Z ->
  (let f q := patch_area q (cell_area M maxlevel q) in f (child p 0) + f (child p 1) + f (child p 2) + f (child p 3) = f p).
Proof.
  intros M maxlevel p hx hy EX EY PX PY L. cbv beta zeta. rewrite !(child_patch_area M maxlevel p _ hx hy) by (try assumption; lia).
  change (3 mod 2)%Z with 1%Z. change (3 / 2)%Z with 1%Z. change (2 mod 2)%Z with 0%Z. change (2 / 2)%Z with 1%Z. change (1 mod 2)%Z with 1%Z. change (1 / 2)%Z with 0%Z. change (0 mod 2)%Z with 0%Z. change (0 / 2)%Z with 0%Z.
  unfold patch_area. rewrite EX, EY. rewrite sum_cells by exact PX.
  rewrite (sum_ext (Z.to_nat hx) (fun a => sum (Z.to_nat (2 * hy)) _) (fun a => sum (Z.to_nat hy) (fun b => cell_area M maxlevel p (Z.of_nat a + 1 + 0 * hx) (Z.of_nat b + 1 + 0 * hy)) +
     sum (Z.to_nat hy) (fun b => cell_area M maxlevel p (Z.of_nat a + 1 + 0 * hx) (Z.of_nat b + 1 + 1 * hy)))).
  2:{ intros a _. rewrite sum_cells by exact PY. f_equal; apply sum_ext; intros b _; f_equal; lia. }
  rewrite (sum_ext (Z.to_nat hx) (fun a => sum (Z.to_nat (2 * hy)) _) (fun a => sum (Z.to_nat hy) (fun b => cell_area M maxlevel p (Z.of_nat a + 1 + 1 * hx) (Z.of_nat b + 1 + 0 * hy)) +
     sum (Z.to_nat hy) (fun b => cell_area M maxlevel p (Z.of_nat a + 1 + 1 * hx) (Z.of_nat b + 1 + 1 * hy)))).
  2:{ intros a _. rewrite sum_cells by exact PY. f_equal; apply sum_ext; intros b _; f_equal; lia. }
  rewrite !sum_plus. lra.
Qed.
Lemma tree_area : forall M maxlevel t p hx hy, pmx p = (2 * hx)%Z -> pmy p = (2 * hy)%Z -> (0 <= hx)%Z -> (0 <= hy)%Z -> (plevel p + depth t <= maxlevel)%Z ->
  over_leaves (fun q => patch_area q (cell_area M maxlevel q)) p t = patch_area p (cell_area M maxlevel p).
Proof.
  intros M maxlevel t. induction t as [|a IHa b IHb c IHc d IHd]; intros p hx hy EX EY PX PY L; [reflexivity|]. cbn [over_leaves]. cbn [depth] in L.
  assert (D : forall t, (0 <= depth t)%Z) by (induction t; cbn [depth]; lia). pose proof (D a). pose proof (D b). pose proof (D c). pose proof (D d).
  rewrite (IHa (child p 0) hx hy), (IHb (child p 1) hx hy), (IHc (child p 2) hx hy), (IHd (child p 3) hx hy); try assumption; try (unfold child; cbn [plevel]; lia).
  apply (family_area M maxlevel p hx hy); try assumption. lia.
Qed.
