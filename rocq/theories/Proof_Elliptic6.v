(** Sums by parts: the operators are negative, hence solutions are unique. *)
From Coq Require Import ZArith QArith List Lia Lqa Bool Qfield.
From Verif Require Import Base_Float Model_Face Model_Grid Spec_Grid Proof_Grid Proof_Grid2 Proof_Tag Proof_Diag Proof_Sync Spec_Elliptic Proof_Elliptic3.
Import ListNotations.
Open Scope Z_scope.

Lemma by_parts : forall (V F : Z -> Q) n, 1 <= n ->
  (qsum 1 n (fun i => V i * (F i - F (i - 1)%Z)) ==
   V n * F n - V 1%Z * F 0%Z - qsum 1 (n - 1) (fun i => F i * (V (i + 1)%Z - V i)))%Q.
Proof.
  intros V F n Hn. rewrite <- (Z2Nat.id (n - 1)) by lia. replace n with (Z.of_nat (Z.to_nat (n - 1)) + 1) at 1 2 3 by lia.
  generalize (Z.to_nat (n - 1)). clear n Hn. induction n as [|n IH].
  - change (Z.of_nat 0 + 1) with 1. change (Z.of_nat 0) with 0. unfold qsum. change (Z.to_nat (1 - 1 + 1)) with 1%nat.
    change (Z.to_nat (0 - 1 + 1)) with 0%nat. cbn [qsum_n]. change (1 - 1) with 0. ring.
  - rewrite Nat2Z.inj_succ. replace (Z.succ (Z.of_nat n) + 1) with (Z.of_nat n + 1 + 1) by lia.
    rewrite (qsum_last 1 (Z.of_nat n + 1 + 1)) by lia. replace (Z.of_nat n + 1 + 1 - 1) with (Z.of_nat n + 1) by lia. rewrite IH.
    replace (Z.succ (Z.of_nat n)) with (Z.of_nat n + 1) by lia. rewrite (qsum_last 1 (Z.of_nat n + 1)) by lia.
    replace (Z.of_nat n + 1 - 1) with (Z.of_nat n) by lia. ring.
Qed.

Lemma qsum_nonpos : forall lo hi f, (forall k, lo <= k <= hi -> (f k <= 0)%Q) -> (qsum lo hi f <= 0)%Q.
Proof.
  intros lo hi f H. unfold qsum.
  assert (K : forall n k, lo <= k -> k + Z.of_nat n <= hi + 1 -> (qsum_n n k f <= 0)%Q).
  { induction n as [|n IH]; intros k H1 H2; cbn [qsum_n]; [lra|]. pose proof (H k ltac:(lia)). pose proof (IH (k + 1) ltac:(lia) ltac:(lia)). lra. }
  destruct (Z_le_gt_dec (hi - lo + 1) 0); [replace (Z.to_nat (hi - lo + 1)) with 0%nat by lia; cbn [qsum_n]; lra|]. apply K; lia.
Qed.
Lemma qsum_zero_each : forall lo hi f, (forall k, lo <= k <= hi -> (f k <= 0)%Q) -> (0 <= qsum lo hi f)%Q ->
  forall k, lo <= k <= hi -> (f k == 0)%Q.
Proof.
  intros lo hi f H Hs k Hk. pose proof (H k Hk) as Hf.
  rewrite (qsum_split lo (k - 1) hi f) in Hs by lia. replace (k - 1 + 1) with k in Hs by lia. rewrite (qsum_split k k hi f) in Hs by lia.
  assert (E : (qsum k k f == f k)%Q). { unfold qsum. replace (Z.to_nat (k - k + 1)) with 1%nat by lia. cbn [qsum_n]. ring. }
  pose proof (qsum_nonpos lo (k - 1) f ltac:(intros; apply H; lia)). pose proof (qsum_nonpos (k + 1) hi f ltac:(intros; apply H; lia)). lra.
Qed.

Lemma sq_nonneg : forall x, (0 <= x * x)%Q. Proof. intros x. nra. Qed.
Lemma sq_zero : forall x, (x * x == 0)%Q -> (x == 0)%Q.
Proof. intros x H. apply Qmult_integral in H. tauto. Qed.

(** one row *)
Section Row.
  Variable n : Z.
  Hypothesis Hn : 1 <= n.
  Variable w U : Z -> Q.          (* w i between the cells i and i + 1 *)
  Hypothesis Hw : forall i, 0 <= i <= n -> (0 < w i)%Q.
  Variable c0 c1 : condition.
  Hypothesis H0 : match c0 with Value => (U 0%Z == - U 1%Z)%Q | Slope => (U 0%Z == U 1%Z)%Q end.
  Hypothesis H1 : match c1 with Value => (U (n + 1)%Z == - U n)%Q | Slope => (U (n + 1)%Z == U n)%Q end.
  Definition flux (i : Z) : Q := (w i * (U (i + 1)%Z - U i))%Q.
  Definition row : Q := qsum 1 n (fun i => U i * (flux i - flux (i - 1)%Z))%Q.

  Lemma row_value : (row == U n * flux n - U 1%Z * flux 0%Z - qsum 1 (n - 1) (fun i => w i * ((U (i + 1)%Z - U i) * (U (i + 1)%Z - U i))))%Q.
  Proof.
    unfold row. rewrite (by_parts U flux n Hn).
    rewrite (qsum_ext 1 (n - 1) (fun i => flux i * (U (i + 1)%Z - U i))%Q (fun i => w i * ((U (i + 1)%Z - U i) * (U (i + 1)%Z - U i)))%Q).
    - reflexivity.
    - intros i Hi. unfold flux. ring.
  Qed.

  Lemma ends : (U n * flux n == match c1 with Value => - (2 * w n * (U n * U n)) | Slope => 0 end)%Q /\
    (U 1%Z * flux 0%Z == match c0 with Value => 2 * w 0%Z * (U 1%Z * U 1%Z) | Slope => 0 end)%Q.
  Proof.
    unfold flux. change (0 + 1) with 1. split; [destruct c1; rewrite H1; ring|destruct c0; rewrite H0; ring].
  Qed.

  Lemma gaps_nonneg : (0 <= qsum 1 (n - 1) (fun i => w i * ((U (i + 1)%Z - U i) * (U (i + 1)%Z - U i))))%Q.
  Proof.
    assert (H : (qsum 1 (n - 1) (fun i => -1 * (w i * ((U (i + 1)%Z - U i) * (U (i + 1)%Z - U i)))) <= 0)%Q).
    { apply qsum_nonpos. intros k Hk. pose proof (Hw k ltac:(lia)). pose proof (sq_nonneg (U (k + 1) - U k)). nra. }
    rewrite qsum_scale in H. lra.
  Qed.

  Lemma row_nonpos : (row <= 0)%Q.
  Proof.
    rewrite row_value. destruct ends as (-> & ->). pose proof gaps_nonneg.
    pose proof (Hw 0 ltac:(lia)). pose proof (Hw n ltac:(lia)). pose proof (sq_nonneg (U 1)). pose proof (sq_nonneg (U n)).
    destruct c0, c1; nra.
  Qed.

  Lemma row_zero : (row == 0)%Q -> c0 = Value \/ c1 = Value -> forall i, 1 <= i <= n -> (U i == 0)%Q.
  Proof.
    intros Hz Hc. rewrite row_value in Hz. destruct ends as (E1 & E0). rewrite E1, E0 in Hz. pose proof gaps_nonneg as G.
    pose proof (Hw 0 ltac:(lia)) as W0. pose proof (Hw n ltac:(lia)) as Wn. pose proof (sq_nonneg (U 1)) as S1. pose proof (sq_nonneg (U n)) as Sn.
    assert (GZ : (qsum 1 (n - 1) (fun i => w i * ((U (i + 1)%Z - U i) * (U (i + 1)%Z - U i))) == 0)%Q) by (destruct c0, c1; nra).
    assert (ST : forall i, 1 <= i <= n - 1 -> (U (i + 1)%Z == U i)%Q).
    { intros i Hi.
      assert (Z0 : (-1 * (w i * ((U (i + 1)%Z - U i) * (U (i + 1)%Z - U i))) == 0)%Q).
      { apply (qsum_zero_each 1 (n - 1) (fun i => -1 * (w i * ((U (i + 1)%Z - U i) * (U (i + 1)%Z - U i))))%Q).
        - intros k Hk. pose proof (Hw k ltac:(lia)). pose proof (sq_nonneg (U (k + 1) - U k)). nra.
        - rewrite qsum_scale, GZ. lra.
        - exact Hi. }
      pose proof (Hw i ltac:(lia)) as Wi.
      assert (X : ((U (i + 1)%Z - U i) * (U (i + 1)%Z - U i) == 0)%Q).
      { assert (Y : (w i * ((U (i + 1)%Z - U i) * (U (i + 1)%Z - U i)) == 0)%Q) by lra. apply Qmult_integral in Y. destruct Y as [Y|Y]; [lra|exact Y]. }
      apply sq_zero in X. lra. }
    assert (AL : forall k, (k <= Z.to_nat (n - 1))%nat -> (U (1 + Z.of_nat k)%Z == U 1%Z)%Q).
    { induction k as [|k IH]; intros Hk; [reflexivity|]. rewrite Nat2Z.inj_succ. replace (1 + Z.succ (Z.of_nat k)) with (1 + Z.of_nat k + 1) by lia.
      rewrite ST by lia. apply IH. lia. }
    assert (AI : forall i, 1 <= i <= n -> (U i == U 1%Z)%Q).
    { intros i Hi. pose proof (AL (Z.to_nat (i - 1)) ltac:(lia)) as X. rewrite Z2Nat.id in X by lia. replace (1 + (i - 1)) with i in X by lia. exact X. }
    assert (Z1 : (U 1%Z == 0)%Q).
    { destruct Hc as [-> | ->].
      - apply sq_zero. destruct c1; nra.
      - rewrite <- (AI n ltac:(lia)). apply sq_zero. destruct c0; nra. }
    intros i Hi. rewrite (AI i Hi). exact Z1.
  Qed.
End Row.

(** a rectangle of cells *)
Section Plane.
  Variable d : dims.
  Hypothesis Hmx : 1 <= mx d.
  Hypothesis Hmy : 1 <= my d.
  Variable hx hy l : Q.
  Hypothesis Hhx : (0 < hx)%Q.
  Hypothesis Hhy : (0 < hy)%Q.
  Hypothesis Hl : (l <= 0)%Q.
  Variable B U : Z -> Z -> Q.
  Hypothesis HB : forall i j, (0 <= i <= mx d + 1 /\ 1 <= j <= my d) \/ (1 <= i <= mx d /\ 0 <= j <= my d + 1) -> (0 < B i j)%Q.
  Variable cond : Z -> condition.
  Hypothesis HC : forall f, 0 <= f < 4 -> meets d hx hy f (cond f) zero U.
  Hypothesis HZ : forall i j, 1 <= i <= mx d -> 1 <= j <= my d -> (divg hx hy B U i j + l * U i j == 0)%Q.

  Definition wx (j i : Z) : Q := mean2 (B i j) (B (i + 1)%Z j).
  Definition wy (i j : Z) : Q := mean2 (B i j) (B i (j + 1)%Z).

  Lemma hx_sq : (0 < hx * hx)%Q. Proof. nra. Qed.
  Lemma hy_sq : (0 < hy * hy)%Q. Proof. nra. Qed.

  Lemma end_cond : forall h c ghost inside, (0 < h)%Q -> bc_at h c 0 ghost inside ->
    match c with Value => (ghost == - inside)%Q | Slope => (ghost == inside)%Q end.
  Proof.
    intros h c ghost inside Hh H. unfold bc_at in H. destruct c.
    - assert (X : (ghost + inside == 2 * ((ghost + inside) / 2))%Q) by field. rewrite H in X. lra.
    - assert (X : (ghost - inside == h * ((ghost - inside) / h))%Q) by (field; lra). rewrite H in X. lra.
  Qed.

  Lemma rows_ok : forall j, 1 <= j <= my d ->
    (row (mx d) (wx j) (fun i => U i j) <= 0)%Q /\
    ((row (mx d) (wx j) (fun i => U i j) == 0)%Q -> cond 0 = Value \/ cond 1 = Value -> forall i, 1 <= i <= mx d -> (U i j == 0)%Q).
  Proof.
    intros j Hj.
    assert (W : forall i, 0 <= i <= mx d -> (0 < wx j i)%Q).
    { intros i Hi. unfold wx, mean2. pose proof (HB i j ltac:(lia)). pose proof (HB (i + 1) j ltac:(lia)).
      apply Qlt_shift_div_l; [reflexivity|]. lra. }
    assert (E0 := HC 0 ltac:(lia) j Hj). assert (E1 := HC 1 ltac:(lia) j Hj).
    unfold spacing, ghost_at, inside_at, on, zero in E0, E1. cbn [Z.eqb Z.ltb Z.compare Pos.compare Pos.compare_cont Pos.eqb fst snd] in E0, E1.
    apply (end_cond hx _ _ _ Hhx) in E0. apply (end_cond hx _ _ _ Hhx) in E1. split.
    - apply (row_nonpos (mx d) Hmx (wx j) (fun i => U i j) W (cond 0) (cond 1) E0 E1).
    - apply (row_zero (mx d) Hmx (wx j) (fun i => U i j) W (cond 0) (cond 1) E0 E1).
  Qed.

  Lemma cols_ok : forall i, 1 <= i <= mx d ->
    (row (my d) (wy i) (fun j => U i j) <= 0)%Q /\
    ((row (my d) (wy i) (fun j => U i j) == 0)%Q -> cond 2 = Value \/ cond 3 = Value -> forall j, 1 <= j <= my d -> (U i j == 0)%Q).
  Proof.
    intros i Hi.
    assert (W : forall j, 0 <= j <= my d -> (0 < wy i j)%Q).
    { intros j Hj. unfold wy, mean2. pose proof (HB i j ltac:(lia)). pose proof (HB i (j + 1) ltac:(lia)).
      apply Qlt_shift_div_l; [reflexivity|]. lra. }
    assert (E0 := HC 2 ltac:(lia) i Hi). assert (E1 := HC 3 ltac:(lia) i Hi).
    unfold spacing, ghost_at, inside_at, on, zero in E0, E1. cbn [Z.eqb Z.ltb Z.compare Pos.compare Pos.compare_cont Pos.eqb fst snd] in E0, E1.
    apply (end_cond hy _ _ _ Hhy) in E0. apply (end_cond hy _ _ _ Hhy) in E1. split.
    - apply (row_nonpos (my d) Hmy (wy i) (fun j => U i j) W (cond 2) (cond 3) E0 E1).
    - apply (row_zero (my d) Hmy (wy i) (fun j => U i j) W (cond 2) (cond 3) E0 E1).
  Qed.

  Lemma energy :
    (0 == / (hx * hx) * qsum 1 (my d) (fun j => row (mx d) (wx j) (fun i => U i j)) +
          / (hy * hy) * qsum 1 (mx d) (fun i => row (my d) (wy i) (fun j => U i j)) +
          l * qsum 1 (mx d) (fun i => qsum 1 (my d) (fun j => U i j * U i j)))%Q.
  Proof.
    pose proof hx_sq as X2. pose proof hy_sq as Y2.
    assert (T : (0 == qsum 1 (mx d) (fun i => qsum 1 (my d) (fun j => U i j * (divg hx hy B U i j + l * U i j))))%Q).
    { rewrite (qsum_ext 1 (mx d) _ (fun _ => 0 * 0)%Q).
      - rewrite (qsum_scale 1 (mx d) 0 (fun _ => 0%Q)). ring.
      - intros i Hi. rewrite (qsum_ext 1 (my d) _ (fun _ => 0 * 0)%Q).
        + rewrite (qsum_scale 1 (my d) 0 (fun _ => 0%Q)). ring.
        + intros j Hj. rewrite HZ by assumption. ring. }
    rewrite T at 1. unfold row.
    rewrite (qsum_swap 1 (my d) 1 (mx d) (fun j i => U i j * (flux (wx j) (fun i => U i j) i - flux (wx j) (fun i => U i j) (i - 1)%Z))%Q).
    rewrite <- !qsum_scale, <- !qsum_add. apply qsum_ext. intros i Hi. rewrite <- !qsum_scale, <- !qsum_add. apply qsum_ext. intros j Hj.
    unfold flux, wx, wy, divg. replace (i - 1 + 1)%Z with i by lia. replace (j - 1 + 1)%Z with j by lia. unfold mean2. field. split; lra.
  Qed.

  Lemma plane_zero : (l < 0)%Q \/ (exists f, 0 <= f < 4 /\ cond f = Value) ->
    forall i j, 1 <= i <= mx d -> 1 <= j <= my d -> (U i j == 0)%Q.
  Proof.
    intros Hc.
    pose proof hx_sq as X2. pose proof hy_sq as Y2. pose proof energy as E.
    assert (IX : (0 < / (hx * hx))%Q) by now apply Qinv_lt_0_compat. assert (IY : (0 < / (hy * hy))%Q) by now apply Qinv_lt_0_compat.
    pose proof (qsum_nonpos 1 (my d) (fun j => row (mx d) (wx j) (fun i => U i j)) (fun j Hj => proj1 (rows_ok j Hj))) as R.
    pose proof (qsum_nonpos 1 (mx d) (fun i => row (my d) (wy i) (fun j => U i j)) (fun i Hi => proj1 (cols_ok i Hi))) as C.
    assert (S : (0 <= qsum 1 (mx d) (fun i => qsum 1 (my d) (fun j => U i j * U i j)))%Q).
    { assert (X : (qsum 1 (mx d) (fun i => -1 * qsum 1 (my d) (fun j => U i j * U i j)) <= 0)%Q).
      { apply qsum_nonpos. intros i Hi. rewrite <- (qsum_scale 1 (my d) (-1)). apply qsum_nonpos. intros j Hj. pose proof (sq_nonneg (U i j)). lra. }
      rewrite qsum_scale in X. lra. }
    set (r := qsum 1 (my d) (fun j => row (mx d) (wx j) (fun i => U i j))) in *.
    set (c := qsum 1 (mx d) (fun i => row (my d) (wy i) (fun j => U i j))) in *.
    set (s := qsum 1 (mx d) (fun i => qsum 1 (my d) (fun j => U i j * U i j)%Q)) in *.
    assert (Nr : (/ (hx * hx) * r <= 0)%Q) by nra. assert (Nc : (/ (hy * hy) * c <= 0)%Q) by nra. assert (Ns : (l * s <= 0)%Q) by nra.
    assert (Zr : (0 <= r)%Q). { destruct (Qlt_le_dec r 0) as [L|L]; [|exact L]. exfalso. assert (/ (hx * hx) * r < 0)%Q by nra. lra. }
    assert (Zc : (0 <= c)%Q). { destruct (Qlt_le_dec c 0) as [L|L]; [|exact L]. exfalso. assert (/ (hy * hy) * c < 0)%Q by nra. lra. }
    destruct Hc as [Hc|(f & Hf & Hc)].
    - assert (s <= 0)%Q. { destruct (Qlt_le_dec 0 s) as [L|L]; [|exact L]. exfalso. assert (l * s < 0)%Q by nra. lra. }
      intros i j Hi Hj. apply sq_zero.
      assert (Y : (-1 * qsum 1 (my d) (fun j => U i j * U i j) == 0)%Q).
      { apply (qsum_zero_each 1 (mx d) (fun i => -1 * qsum 1 (my d) (fun j => U i j * U i j))%Q).
        - intros i' Hi'. rewrite <- (qsum_scale 1 (my d) (-1)). apply qsum_nonpos. intros j' Hj'. pose proof (sq_nonneg (U i' j')). lra.
        - rewrite qsum_scale. fold s. lra.
        - exact Hi. }
      assert (Y2' : (-1 * (U i j * U i j) == 0)%Q).
      { apply (qsum_zero_each 1 (my d) (fun j => -1 * (U i j * U i j))%Q).
        - intros j' Hj'. pose proof (sq_nonneg (U i j')). lra.
        - rewrite (qsum_scale 1 (my d) (-1)). lra.
        - exact Hj. }
      lra.
    - assert (f < 2 \/ 2 <= f) as [Hf2|Hf2] by lia.
      + intros i j Hi Hj. apply (proj2 (rows_ok j Hj)); [|assert (f = 0 \/ f = 1) as [-> | ->] by lia; auto|exact Hi].
        apply (qsum_zero_each 1 (my d) (fun j => row (mx d) (wx j) (fun i => U i j))); [|exact Zr|exact Hj].
        intros k Hk. apply rows_ok, Hk.
      + intros i j Hi Hj. apply (proj2 (cols_ok i Hi)); [|assert (f = 2 \/ f = 3) as [-> | ->] by lia; auto|exact Hj].
        apply (qsum_zero_each 1 (mx d) (fun i => row (my d) (wy i) (fun j => U i j))); [|exact Zc|exact Hi].
        intros k Hk. apply cols_ok, Hk.
  Qed.
End Plane.
