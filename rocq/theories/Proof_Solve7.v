(** Conservation on a periodic grid. *)
From Coq Require Import ZArith QArith List Bool Lia Lqa.
From Verif Require Import Base_Float Model_Grid Spec_Grid Proof_Grid2 Proof_Sync Proof_Diag Model_Step Spec_Step Proof_Step3 Proof_Step4 Spec_Solve.
Import ListNotations.
Open Scope Z_scope.

Lemma qsum_zero : forall lo hi, (qsum lo hi (fun _ => 0%Q) == 0)%Q.
Proof.
  intros lo hi. unfold qsum. generalize (Z.to_nat (hi - lo + 1)). intros n. revert lo. induction n as [|n IH]; intros lo; cbn [qsum_n]; [reflexivity|]. rewrite (IH (lo + 1)). reflexivity.
Qed.
Lemma stands_per : forall lo hi n i, 0 < n -> stands true lo hi n (i + n) = stands true lo hi n i.
Proof. intros lo hi n i H. unfold stands. replace (i + n - 1) with (i - 1 + 1 * n) by lia. rewrite Z_mod_plus_full. reflexivity. Qed.
Lemma continued_per : forall B u, perx B = true -> pery B = true -> 0 < nx B -> 0 < ny B -> periodic (nx B) (ny B) (continued B u).
Proof.
  intros B u PX PY HX HY i j k. unfold continued, seen_in_mirror. rewrite PX, PY. cbn [negb andb orb]. rewrite !stands_per by assumption. split; reflexivity.
Qed.
Lemma continued_in : forall B u i j k, perx B = true -> pery B = true -> 1 <= i <= nx B -> 1 <= j <= ny B -> continued B u i j k = u i j k.
Proof.
  intros B u i j k PX PY Hi Hj. unfold continued, seen_in_mirror, stands. rewrite PX, PY. cbn [negb andb orb]. cbv zeta. rewrite !Z.mod_small, !Z.sub_add by lia. reflexivity.
Qed.

Section Periodic.
  Variable S : solver.
  Variable meqn : Z.
  Variable f : Z -> list Q -> list Q -> Z -> Q.
  Variables n m : Z.
  Variables c X : field.
  Variables p q : Q.
  Hypothesis HS : options_ok S.
  Hypothesis HF : flux_difference S meqn f.
  Hypothesis HC : periodic n m c.
  Hypothesis HX : periodic n m X.

  Lemma through_x_per : forall i j k, through_x S meqn f c c X p q (i + n) j k = through_x S meqn f c c X p q i j k.
  Proof.
    intros i j k. unfold through_x. f_equal.
    - replace (i + n - 1) with (i - 1 + n) by lia. f_equal; unfold vec; apply map_ext; intros a; [apply HC|apply HX].
    - replace (i + n) with (n + i) by lia. pose proof (west_left_sh exact S meqn n 0 c c X p q i j k) as E. rewrite Z.add_0_l in E. rewrite <- E. clear E.
      assert (AC : agree (i - 2) (i + 2) (j - 2) (j + 2) meqn (Proof_Step4.moved n 0 c) c) by (intros i' j' k' _ _ _; unfold Proof_Step4.moved; rewrite Z.add_0_l, (Z.add_comm n i'); apply HC).
      assert (AX : agree (i - 2) (i + 2) (j - 2) (j + 2) (maux S) (Proof_Step4.moved n 0 X) X) by (intros i' j' k' _ _ _; unfold Proof_Step4.moved; rewrite Z.add_0_l, (Z.add_comm n i'); apply HX).
      exact (proj1 (west_ext exact S meqn (i - 2) (i + 2) (j - 2) (j + 2) (Proof_Step4.moved n 0 c) c (Proof_Step4.moved n 0 c) c (Proof_Step4.moved n 0 X) X p q HS AC AC AX i j k ltac:(lia) ltac:(lia) ltac:(lia) ltac:(lia))).
  Qed.
  Lemma through_y_per : forall i j k, through_y S meqn f c c X p q i (j + m) k = through_y S meqn f c c X p q i j k.
  Proof.
    intros i j k. unfold through_y. f_equal.
    - replace (j + m - 1) with (j - 1 + m) by lia. f_equal; unfold vec; apply map_ext; intros a; [apply HC|apply HX].
    - replace (j + m) with (m + j) by lia. pose proof (south_left_sh exact S meqn 0 m c c X p q i j k) as E. rewrite Z.add_0_l in E. rewrite <- E. clear E.
      assert (AC : agree (i - 2) (i + 2) (j - 2) (j + 2) meqn (Proof_Step4.moved 0 m c) c) by (intros i' j' k' _ _ _; unfold Proof_Step4.moved; rewrite Z.add_0_l, (Z.add_comm m j'); apply HC).
      assert (AX : agree (i - 2) (i + 2) (j - 2) (j + 2) (maux S) (Proof_Step4.moved 0 m X) X) by (intros i' j' k' _ _ _; unfold Proof_Step4.moved; rewrite Z.add_0_l, (Z.add_comm m j'); apply HX).
      exact (proj1 (south_ext exact S meqn (i - 2) (i + 2) (j - 2) (j + 2) (Proof_Step4.moved 0 m c) c (Proof_Step4.moved 0 m c) c (Proof_Step4.moved 0 m X) X p q HS AC AC AX i j k ltac:(lia) ltac:(lia) ltac:(lia) ltac:(lia))).
  Qed.
End Periodic.

Theorem evolve_total : forall S meqn f B X dx dy dt u k, options_ok S -> flux_difference S meqn f -> perx B = true -> pery B = true -> 1 <= nx B -> 1 <= ny B -> periodic (nx B) (ny B) X ->
  (forall i j, 1 <= i <= nx B -> 1 <= j <= ny B -> ~ (capacity S X i j == 0)%Q) -> 1 <= k <= meqn ->
  (grid_total (nx B) (ny B) (fun i j => capacity S X i j * evolve exact S meqn B X dx dy dt u i j k) == grid_total (nx B) (ny B) (fun i j => capacity S X i j * u i j k))%Q.
Proof.
  intros S meqn f B X dx dy dt u k HS HF PX PY HX HY XP CAP Hk. unfold evolve. cbv zeta. pose proof (continued_per B u PX PY ltac:(lia) ltac:(lia)) as CP.
  set (c := continued B u) in *.
  set (px := fun i j => through_x S meqn f c c X (dt / dx) (dt / dy) i j k). set (py := fun i j => through_y S meqn f c c X (dt / dx) (dt / dy) i j k).
  transitivity (grid_total (nx B) (ny B) (fun i j => capacity S X i j * u i j k + (- (dt / dx)) * (px (i + 1)%Z j - px i j) + (- (dt / dy)) * (py i (j + 1)%Z - py i j))%Q).
  { unfold grid_total. apply qsum_ext. intros i Hi. apply qsum_ext. intros j Hj. rewrite (conservation_form S meqn f c c c X dx dy dt i j k HF Hk (CAP i j Hi Hj)).
    unfold px, py. unfold c at 1. rewrite continued_in by assumption. ring. }
  unfold grid_total.
  assert (X1 : (qsum 1 (nx B) (fun i => qsum 1 (ny B) (fun j => capacity S X i j * u i j k + (- (dt / dx)) * (px (i + 1)%Z j - px i j) + (- (dt / dy)) * (py i (j + 1)%Z - py i j))) ==
    qsum 1 (nx B) (fun i => qsum 1 (ny B) (fun j => capacity S X i j * u i j k)) + (- (dt / dx)) * qsum 1 (nx B) (fun i => qsum 1 (ny B) (fun j => px (i + 1)%Z j - px i j))
    + (- (dt / dy)) * qsum 1 (nx B) (fun i => qsum 1 (ny B) (fun j => py i (j + 1)%Z - py i j)))%Q).
  { rewrite <- !qsum_scale, <- !qsum_add. apply qsum_ext. intros i Hi. rewrite <- !qsum_scale, <- !qsum_add. reflexivity. }
  assert (X4 : (qsum 1 (nx B) (fun i => qsum 1 (ny B) (fun j => px (i + 1)%Z j - px i j)) == 0)%Q).
  { rewrite qsum_swap. rewrite (qsum_ext 1 (ny B) _ (fun _ => 0%Q)).
    - apply qsum_zero.
    - intros j Hj. rewrite (qsum_tele (nx B) (fun i => px i j) ltac:(lia)). unfold px. rewrite (Z.add_comm (nx B) 1). rewrite (through_x_per S meqn f (nx B) (ny B) c X _ _ HS CP XP 1 j k). ring. }
  assert (X5 : (qsum 1 (nx B) (fun i => qsum 1 (ny B) (fun j => py i (j + 1)%Z - py i j)) == 0)%Q).
  { rewrite (qsum_ext 1 (nx B) _ (fun _ => 0%Q)).
    - apply qsum_zero.
    - intros i Hi. rewrite (qsum_tele (ny B) (fun j => py i j) ltac:(lia)). unfold py. rewrite (Z.add_comm (ny B) 1). rewrite (through_y_per S meqn f (nx B) (ny B) c X _ _ HS CP XP i 1 k). ring. }
  rewrite X1, X4, X5. ring.
Qed.

Theorem evolves_total : forall S meqn f B X dx dy dts u k, options_ok S -> flux_difference S meqn f -> perx B = true -> pery B = true -> 1 <= nx B -> 1 <= ny B -> periodic (nx B) (ny B) X ->
  (forall i j, 1 <= i <= nx B -> 1 <= j <= ny B -> ~ (capacity S X i j == 0)%Q) -> 1 <= k <= meqn ->
  (grid_total (nx B) (ny B) (fun i j => capacity S X i j * evolves exact S meqn B X dx dy dts u i j k) == grid_total (nx B) (ny B) (fun i j => capacity S X i j * u i j k))%Q.
Proof.
  intros S meqn f B X dx dy dts u k HS HF PX PY HX HY XP CAP Hk. revert u. induction dts as [|dt dts IH]; intros u; [reflexivity|].
  unfold evolves. cbn [fold_left]. fold (evolves exact S meqn B X dx dy dts (evolve exact S meqn B X dx dy dt u)). rewrite IH. apply (evolve_total S meqn f); assumption.
Qed.
