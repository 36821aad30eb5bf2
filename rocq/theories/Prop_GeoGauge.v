(** C83: values GeoClaw records at a gauge. *)
From Coq Require Import ZArith QArith Qabs Qround Bool Lia Lqa Qfield.
From Verif Require Import Model_GeoGauge Spec_GeoGauge Proof_GeoGauge.
Open Scope Q_scope.

(** A gauge in the patch is in exactly one cell. *)
Theorem C83_cell : forall lower d x, 0 < d -> lower <= x ->
  exists i, (1 <= i)%Z /\ contains lower d i x /\ forall i', contains lower d i' x -> i' = i.
Proof.
  intros lower d x Hd Hx. exists (cell_of lower d x). destruct (contains_exists lower d x Hd Hx) as [A B].
  split; [exact A|]. split; [exact B|]. intros i' C. symmetry. now apply cell_contains.
Qed.
Print Assumptions C83_cell.

(** If one of the four cells is dry, the values of the cell of the gauge are recorded. *)
Theorem C83_dry : forall dry xlower ylower dx dy q aux xc yc i j, 0 < dx -> 0 < dy -> xlower <= xc -> ylower <= yc ->
  contains xlower dx i xc -> contains ylower dy j yc -> ~ all4 i j (fun i j => dry / 10 <= q 1%Z i j) ->
  let r := gauge_values dry xlower ylower dx dy q aux xc yc in
  (forall mq, recorded (q mq i j) (fst r mq)) /\ snd r == aux 1%Z i j.
Proof.
  intros dry xlower ylower dx dy q aux xc yc i j Hdx Hdy Hx Hy Ci Cj D. cbv zeta. unfold gauge_values.
  rewrite (cell_contains _ _ _ _ Hdx Hx Ci), (cell_contains _ _ _ _ Hdy Hy Cj). cbn [fst snd].
  match goal with |- context [if ?b then _ else _] => destruct b eqn:E end.
  - split; [intros; apply flush_recorded|reflexivity].
  - exfalso. apply D. rewrite !orb_false_iff, !less_false in E. destruct E as [[[E1 E2] E3] E4].
    assert (T : dry / 10 == (1 # 10) * dry) by field. unfold all4. rewrite !T. repeat split; assumption.
Qed.
Print Assumptions C83_dry.

(** If all four are wet, every field that is linear in each coordinate around the gauge is recorded exactly. *)
Theorem C83_linear : forall dry xlower ylower dx dy q aux xc yc i j, 0 < dx -> 0 < dy -> xlower <= xc -> ylower <= yc ->
  contains xlower dx i xc -> contains ylower dy j yc -> all4 i j (fun i j => dry / 10 <= q 1%Z i j) ->
  let r := gauge_values dry xlower ylower dx dy q aux xc yc in
  forall a b c d, let f := fun x y => a + b * x + c * y + d * x * y in
  (forall mq, all4 i j (fun i j => q mq i j == f (centre xlower dx i) (centre ylower dy j)) -> recorded (f xc yc) (fst r mq)) /\
  (all4 i j (fun i j => aux 1%Z i j == f (centre xlower dx i) (centre ylower dy j)) -> snd r == f xc yc).
Proof.
  intros dry xlower ylower dx dy q aux xc yc i j Hdx Hdy Hx Hy Ci Cj W. cbv zeta. intros a b c d. unfold gauge_values.
  pose proof (offset_val _ _ _ _ Hdx Hx Ci) as OX. pose proof (offset_val _ _ _ _ Hdy Hy Cj) as OY.
  rewrite (cell_contains _ _ _ _ Hdx Hx Ci), (cell_contains _ _ _ _ Hdy Hy Cj). cbn [fst snd].
  match goal with |- context [if ?b then _ else _] => replace b with false end.
  2:{ symmetry. assert (T : dry / 10 == (1 # 10) * dry) by field. unfold all4 in W. rewrite !T in W.
      rewrite !orb_false_iff, !less_false. tauto. }
  assert (B : forall v1 v2 v3 v4 : Q, let f := fun x y => a + b * x + c * y + d * x * y in
     v1 == f (centre xlower dx i) (centre ylower dy j) -> v2 == f (centre xlower dx (i + 1)) (centre ylower dy j) ->
     v3 == f (centre xlower dx i) (centre ylower dy (j + 1)) -> v4 == f (centre xlower dx (i + 1)) (centre ylower dy (j + 1)) ->
     bilinear (offset xlower dx xc) (offset ylower dy yc) v1 v2 v3 v4 == f xc yc).
  { intros v1 v2 v3 v4. cbv zeta. intros E1 E2 E3 E4. unfold bilinear. rewrite E1, E2, E3, E4, OX, OY. unfold centre. rewrite !inject_Z_plus. change (inject_Z 1) with 1. field. split; lra. }
  split.
  - intros mq (A1 & A2 & A3 & A4). apply (recorded_eq (bilinear (offset xlower dx xc) (offset ylower dy yc) (q mq i j) (q mq (i + 1)%Z j) (q mq i (j + 1)%Z) (q mq (i + 1)%Z (j + 1)%Z))); [now apply B|apply flush_recorded].
  - intros (A1 & A2 & A3 & A4). now apply B.
Qed.
Print Assumptions C83_linear.

(** If the gauge is in the upper right quarter of its cell, what is recorded lies between the values of the four cells, which
    are then the four nearest ones. *)
Theorem C83_between : forall dry xlower ylower dx dy q aux xc yc i j, 0 < dx -> 0 < dy -> xlower <= xc -> ylower <= yc ->
  contains xlower dx i xc -> contains ylower dy j yc -> centre xlower dx i <= xc -> centre ylower dy j <= yc ->
  let r := gauge_values dry xlower ylower dx dy q aux xc yc in
  forall lo hi, lo <= 0 <= hi ->
  (forall mq, all4 i j (fun i j => lo <= q mq i j <= hi) -> lo <= fst r mq <= hi).
Proof.
  intros dry xlower ylower dx dy q aux xc yc i j Hdx Hdy Hx Hy Ci Cj QX QY. cbv zeta. intros lo hi Z0 mq (A1 & A2 & A3 & A4). unfold gauge_values.
  pose proof (offset_val _ _ _ _ Hdx Hx Ci) as OX. pose proof (offset_val _ _ _ _ Hdy Hy Cj) as OY.
  rewrite (cell_contains _ _ _ _ Hdx Hx Ci), (cell_contains _ _ _ _ Hdy Hy Cj). cbn [fst].
  assert (BX : 0 <= offset xlower dx xc <= 1).
  { rewrite OX. destruct Ci as [_ U]. unfold centre in *. split; [apply Qle_shift_div_l; lra|apply Qle_shift_div_r; lra]. }
  assert (BY : 0 <= offset ylower dy yc <= 1).
  { rewrite OY. destruct Cj as [_ U]. unfold centre in *. split; [apply Qle_shift_div_l; lra|apply Qle_shift_div_r; lra]. }
  unfold flush. destruct (less _ tiny); [exact Z0|]. match goal with |- context [if ?b then _ else _] => destruct b end; [exact A1|]. now apply bilinear_between.
Qed.
Print Assumptions C83_between.

(** Elsewhere it need not: the four cells are always the cell of the gauge and those to its right and above, so in the left or
    lower half the formula extrapolates.  A gauge among cells with depths 1 and 4 records a depth below zero. *)
Theorem C83_between_refuted : ~ (forall dry xlower ylower dx dy q aux xc yc i j, 0 < dx -> 0 < dy -> 0 < dry -> xlower <= xc -> ylower <= yc ->
  contains xlower dx i xc -> contains ylower dy j yc -> (forall i j, 1 <= q 1%Z i j) ->
  0 <= fst (gauge_values dry xlower ylower dx dy q aux xc yc) 1%Z).
Proof.
  intros H. specialize (H (1 # 1000) 0 0 1 1 (fun _ i _ => if (i <=? 2)%Z then 1 else 4) (fun _ _ _ => 0) 1 (1 # 2) 2%Z 1%Z).
  assert (X : 0 <= fst (gauge_values (1 # 1000) 0 0 1 1 (fun _ i _ => if (i <=? 2)%Z then 1 else 4) (fun _ _ _ => 0) 1 (1 # 2)) 1%Z).
  { apply H; try reflexivity; try (vm_compute; discriminate); try (split; vm_compute; (reflexivity || discriminate)).
    intros i _. destruct (i <=? 2)%Z; vm_compute; discriminate. }
  vm_compute in X. apply X. reflexivity.
Qed.
Print Assumptions C83_between_refuted.

(** Instance: a gauge in cell (2,1), in the upper right quarter, over a depth that grows with x. *)
Example C83_instance :
  contains 0 1 2 (7 # 4) /\ contains 0 1 1 (3 # 4) /\ centre 0 1 2 <= 7 # 4 /\ centre 0 1 1 <= 3 # 4 /\
  let q := fun m i _ : Z => inject_Z i - (1 # 2) in
  all4 2 1 (fun i j => (1 # 1000) / 10 <= q 1%Z i j) /\ all4 2 1 (fun i j => q 1%Z i j == 0 + 1 * centre 0 1 i + 0 * centre 0 1 j + 0 * centre 0 1 i * centre 0 1 j) /\
  Qeq_bool (fst (gauge_values (1 # 1000) 0 0 1 1 q (fun _ _ _ => 3) (7 # 4) (3 # 4)) 1%Z) (7 # 4) = true.
Proof. repeat split; vm_compute; (reflexivity || discriminate). Qed.
