(** C62: ghost cells at the block corners of the pillow sphere. *)
From Coq Require Import ZArith QArith Qminmax List Lia Lqa Bool Qfield.
From Verif Require Import Base_Float Model_Face Spec_Face Proof_Face Model_Grid Spec_Grid Proof_Grid Proof_Grid3 Prop_Grid Proof_Fills Model_Pillow Spec_Pillow Proof_Pillow.
Import ListNotations.
Open Scope Z_scope.

Definition at2 (p : Z * Z) (mq : Z) : cell := (fst p, snd p, mq).

(** Patches of equal size: each gets the cells of the other one that are as far inside as its ghost cells are outside. *)
Theorem C62_copy : forall d c this other T O, 0 <= c < 4 -> mbc d <= mx d -> mbc d <= my d -> holds d this T -> holds d other O ->
  exists this' other', copy_block_corner d (this, other) c = Some (this', other') /\
    (forall a b mq, 1 <= a <= mbc d -> 1 <= b <= mbc d -> 1 <= mq <= meqn d ->
       this' (at2 (beyond d c a b) mq) = Some (O (fst (inside d c a b)) (snd (inside d c a b)) mq) /\
       other' (at2 (beyond d c a b) mq) = Some (T (fst (inside d c a b)) (snd (inside d c a b)) mq)) /\
    (forall i j mq, ~ (corner_ghost d c i j /\ 1 <= mq <= meqn d) -> this' (i, j, mq) = this (i, j, mq) /\ other' (i, j, mq) = other (i, j, mq)).
Proof.
  intros d c this other T O C B1 B2 HT HO. destruct (copy_ok d c this other T O C (conj B1 B2) HT HO) as ([t' o'] & E & A & U). exists t', o'. split; [exact E|]. split.
  - intros a b mq Ha Hb Hm. pose proof (A true a b mq Ha Hb Hm) as A1. pose proof (A false a b mq Ha Hb Hm) as A2. unfold view2, target2 in A1, A2. cbn [fst snd] in A1, A2. unfold at2.
    assert (M1 : mirror_i d c (fst (beyond d c a b)) = fst (inside d c a b)) by (unfold mirror_i, beyond, inside, step_out, step_in; cbn [fst snd]; destruct (upper_x c); lia).
    assert (M2 : mirror_j d c (snd (beyond d c a b)) = snd (inside d c a b)) by (unfold mirror_j, beyond, inside, step_out, step_in; cbn [fst snd]; destruct (upper_y c); lia).
    rewrite M1, M2 in A1, A2. split; assumption.
  - intros i j mq H. split; [exact (U true i j mq H)|exact (U false i j mq H)].
Qed.
Print Assumptions C62_copy.

(** A finer neighbor: a coarse ghost cell gets the content of the four mirrored fine cells, divided by its own area.  At corner 0 this
    needs that all ghost cells in a row have the same area. *)
Theorem C62_average : forall d c (q fine : arr) (ac af : area_t) (F : data) (KC KF : areas), 0 <= c < 4 -> 2 * mbc d <= mx d -> 2 * mbc d <= my d -> holds d fine F -> area_holds d af KF ->
  (forall i j, 1 - mbc d <= i <= mx d + mbc d -> 1 - mbc d <= j <= my d + mbc d -> ac (i, j) = Some (KC i j)) ->
  (c = 0 -> forall a b, 1 <= a <= mbc d -> 1 <= b <= mbc d -> (KC (1 - a)%Z (1 - a)%Z == KC (1 - a)%Z (1 - b)%Z)%Q) ->
  exists q', average_block_corner d q fine ac af 2 c = Some q' /\
    (forall a b mq, 1 <= a <= mbc d -> 1 <= b <= mbc d -> 1 <= mq <= meqn d ->
       at_cell q' (at2 (beyond d c a b) mq) (mirror_sum d c a b (fun i j => KF i j * F i j mq) / KC (fst (beyond d c a b)) (snd (beyond d c a b)))%Q) /\
    (forall i j mq, ~ (corner_ghost d c i j /\ 1 <= mq <= meqn d) -> q' (i, j, mq) = q (i, j, mq)).
Proof.
  intros d c q fine ac af F KC KF C B1 B2 HF HA HC H0. destruct (average_ok d c q fine ac af F KC KF C (conj B1 B2) HF HA HC) as (q' & E & A & U). exists q'. split; [exact E|]. split; [|exact U].
  intros a b mq Ha Hb Hm. destruct (A a b mq Ha Hb Hm) as (v & V1 & V2). exists v. split; [exact V1|]. rewrite V2. unfold ghost_mean, used_area. destruct (Z.eqb_spec c 0) as [->|N]; [|reflexivity].
  specialize (H0 eq_refl a b Ha Hb). change (fst (beyond d 0 a b)) with (1 - a). change (snd (beyond d 0 a b)) with (1 - b). unfold Qdiv. apply Qmult_comp; [reflexivity|]. apply Qinv_comp. exact H0.
Qed.
Print Assumptions C62_average.

(** This is a mean of the four values, if the area of the ghost cell is that of the four fine cells. *)
Theorem C62_average_mean : forall d c a b (F K : Z -> Z -> Q) kc, (kc == mirror_sum d c a b K)%Q -> (forall i j, 0 < K i j)%Q ->
  let at_ s t := F (fst (inside d c (2 * a - s) (2 * b - t))) (snd (inside d c (2 * a - s) (2 * b - t))) in
  within [at_ 1 1; at_ 1 0; at_ 0 1; at_ 0 0] (mirror_sum d c a b (fun i j => K i j * F i j) / kc)%Q.
Proof.
  intros d c a b F K kc E P. cbv beta zeta. unfold mirror_sum in *. cbv beta zeta in *.
  repeat match goal with |- context [F ?i ?j] => let x := fresh "f" in let k := fresh "k" in set (x := F i j) in *; set (k := K i j) in *; assert ((0 < k)%Q) by apply P; clearbody x k end.
  assert (KP : (0 < kc)%Q) by (rewrite E; lra).
  assert (EX : exists m, In m [f; f0; f1; f2] /\ (m <= f /\ m <= f0 /\ m <= f1 /\ m <= f2)%Q).
  { destruct (Qlt_le_dec f f0), (Qlt_le_dec f1 f2).
    - destruct (Qlt_le_dec f f1); [exists f|exists f1]; (split; [cbn [In]; tauto|lra]).
    - destruct (Qlt_le_dec f f2); [exists f|exists f2]; (split; [cbn [In]; tauto|lra]).
    - destruct (Qlt_le_dec f0 f1); [exists f0|exists f1]; (split; [cbn [In]; tauto|lra]).
    - destruct (Qlt_le_dec f0 f2); [exists f0|exists f2]; (split; [cbn [In]; tauto|lra]). }
  assert (EY : exists m, In m [f; f0; f1; f2] /\ (f <= m /\ f0 <= m /\ f1 <= m /\ f2 <= m)%Q).
  { destruct (Qlt_le_dec f f0), (Qlt_le_dec f1 f2).
    - destruct (Qlt_le_dec f0 f2); [exists f2|exists f0]; (split; [cbn [In]; tauto|lra]).
    - destruct (Qlt_le_dec f0 f1); [exists f1|exists f0]; (split; [cbn [In]; tauto|lra]).
    - destruct (Qlt_le_dec f f2); [exists f2|exists f]; (split; [cbn [In]; tauto|lra]).
    - destruct (Qlt_le_dec f f1); [exists f1|exists f]; (split; [cbn [In]; tauto|lra]). }
  split.
  - destruct EX as (m & I & L). exists m. split; [exact I|]. apply Qle_shift_div_l; [exact KP|]. rewrite E. nra.
  - destruct EY as (m & I & L). exists m. split; [exact I|]. apply Qle_shift_div_r; [exact KP|]. rewrite E. nra.
Qed.
Print Assumptions C62_average_mean.

(** At corner 0 the area is taken from the wrong cell (1-ibc,1-ibc): if the areas differ, a ghost cell does not get the mean; the
    constant 1 is not preserved. *)
Theorem C62_average_corner_0_refuted : forall d (q fine : arr) (ac af : area_t) (KC KF : areas), 2 * mbc d <= mx d -> 2 * mbc d <= my d -> holds d fine (fun _ _ _ => 1%Q) -> area_holds d af KF ->
  (forall i j, 1 - mbc d <= i <= mx d + mbc d -> 1 - mbc d <= j <= my d + mbc d -> ac (i, j) = Some (KC i j)) -> (forall i j, 0 < KF i j)%Q ->
  forall a b mq, 1 <= a <= mbc d -> 1 <= b <= mbc d -> 1 <= mq <= meqn d ->
  (KC (1 - a)%Z (1 - b)%Z == mirror_sum d 0 a b KF)%Q -> ~ (KC (1 - a)%Z (1 - a)%Z == KC (1 - a)%Z (1 - b)%Z)%Q -> (0 < KC (1 - a)%Z (1 - a)%Z)%Q ->
  exists q', average_block_corner d q fine ac af 2 0 = Some q' /\ ~ at_cell q' (1 - a, 1 - b, mq) 1.
Proof.
  intros d q fine ac af KC KF B1 B2 HF HA HC KP a b mq Ha Hb Hm E N KC0.
  destruct (average_ok d 0 q fine ac af (fun _ _ _ => 1%Q) KC KF ltac:(unfold ok_corner; lia) (conj B1 B2) HF HA HC) as (q' & EQ & A & U). exists q'. split; [exact EQ|].
  intros (v & V1 & V2). destruct (A a b mq Ha Hb Hm) as (w & W1 & W2). change (fst (beyond d 0 a b), snd (beyond d 0 a b), mq) with (1 - a, 1 - b, mq) in W1. assert (v = w) by congruence. subst w.
  unfold ghost_mean, used_area in W2. change (0 =? 0) with true in W2. cbv iota in W2. change (fst (beyond d 0 a b)) with (1 - a) in W2.
  apply N. rewrite E. assert (S : (mirror_sum d 0 a b (fun i j => KF i j * 1) == mirror_sum d 0 a b KF)%Q) by (unfold mirror_sum; ring). rewrite S in W2. rewrite V2 in W2.
  assert (D : (1 * KC (1 - a)%Z (1 - a)%Z == mirror_sum d 0 a b KF)%Q). { rewrite W2. field. intros Z. rewrite Z in KC0. discriminate KC0. } rewrite <- D. ring.
Qed.
Print Assumptions C62_average_corner_0_refuted.

(** A coarser neighbor: at corner 0, affine data are reproduced at the place of each mirrored fine cell; at all corners the values of the
    four cells next to the corner have the coarse value as mean and create no new extremes. *)
Theorem C62_interpolate : forall d c (coarse fine : arr) (C : data), 0 <= c < 4 -> 1 <= mbc d -> 1 <= mx d -> 1 <= my d -> holds_layer d coarse C ->
  exists q', interpolate_block_corner d coarse fine 2 c = Some q' /\
    (forall i j mq, ~ (corner_ghost d c i j /\ 1 <= mq <= meqn d) -> q' (i, j, mq) = fine (i, j, mq)) /\
    (forall mq, 1 <= mq <= meqn d -> let i := fst (inside d c 1 1) in let j := snd (inside d c 1 1) in
       (forall a b, 1 <= a <= Z.min 2 (mbc d) -> 1 <= b <= Z.min 2 (mbc d) -> exists v, q' (at2 (beyond d c a b) mq) = Some v /\
          within [C i j mq; C (i - 1) j mq; C (i + 1) j mq; C i (j - 1) mq; C i (j + 1) mq] v) /\
       (2 <= mbc d -> exists v11 v12 v21 v22, q' (at2 (beyond d c 1 1) mq) = Some v11 /\ q' (at2 (beyond d c 1 2) mq) = Some v12 /\
          q' (at2 (beyond d c 2 1) mq) = Some v21 /\ q' (at2 (beyond d c 2 2) mq) = Some v22 /\ ((v11 + v12 + v21 + v22) / 4 == C i j mq)%Q)) /\
    (forall z p r, c = 0 -> C = affine_data z p r -> forall a b mq, 1 <= a <= mbc d -> 1 <= b <= mbc d -> 1 <= mq <= meqn d ->
       at_cell q' (at2 (beyond d c a b) mq) (z + p * place (upper_x c) (mx d) a + r * place (upper_y c) (my d) b)%Q).
Proof.
  intros d c coarse fine C OC HB HX HY HC. destruct (interpolate_ok d c coarse fine C OC HB (conj HX HY) HC) as (q' & E & A & U). exists q'. split; [exact E|]. split; [exact U|].
  assert (O1 : (offset 1 == -1 # 4)%Q) by reflexivity. assert (O2 : (offset 2 == 1 # 4)%Q) by reflexivity.
  split.
  - intros mq Hm. cbv zeta. change (fst (inside d c 1 1)) with (ic d c). change (snd (inside d c 1 1)) with (jc d c). split.
    + intros a b Ha Hb. eexists. split; [unfold at2; apply A; lia|]. unfold slope_x, slope_y. apply within_stencil.
      * assert (a = 1 \/ a = 2) as [-> | ->] by lia; [right|left]; assumption.
      * assert (b = 1 \/ b = 2) as [-> | ->] by lia; [right|left]; assumption.
    + intros M. do 4 eexists. unfold at2. split; [apply A; lia|]. split; [apply A; lia|]. split; [apply A; lia|]. split; [apply A; lia|]. rewrite O1, O2. field.
  - intros z p r -> -> a b mq Ha Hb Hm. unfold at2, at_cell. rewrite (A a b mq Ha Hb Hm). eexists. split; [reflexivity|].
    assert (S1 : (slope_x d 0 (affine_data z p r) mq == p)%Q). { unfold slope_x. transitivity (compute_slopes p p); [|apply C21_linear]. apply slopes_proper; unfold affine_data, Z.sub; injs; change (inject_Z 1) with 1%Q; ring. }
    assert (S2 : (slope_y d 0 (affine_data z p r) mq == r)%Q). { unfold slope_y. transitivity (compute_slopes r r); [|apply C21_linear]. apply slopes_proper; unfold affine_data, Z.sub; injs; change (inject_Z 1) with 1%Q; ring. }
    rewrite S1, S2. change (ic d 0) with 1. change (jc d 0) with 1. unfold affine_data, offset, place. change (upper_x 0) with false. change (upper_y 0) with false. cbv iota. change (inject_Z 1) with 1%Q. change (inject_Z 2) with 2%Q. field.
Qed.
Print Assumptions C62_interpolate.

(** At the other corners the reconstruction is not mirrored: data that grow in x get the value of another place in every ghost cell of
    corners 1 and 3, data that grow in y in those of corners 2 and 3. *)
Theorem C62_interpolate_not_mirrored_refuted : forall d c (coarse fine : arr) z p r, 1 <= c < 4 -> 1 <= mbc d -> 1 <= mx d -> 1 <= my d -> holds_layer d coarse (affine_data z p r) ->
  (upper_x c = true /\ ~ (p == 0)%Q /\ (r == 0)%Q) \/ (upper_y c = true /\ (p == 0)%Q /\ ~ (r == 0)%Q) ->
  exists q', interpolate_block_corner d coarse fine 2 c = Some q' /\
    forall a b mq, 1 <= a <= mbc d -> 1 <= b <= mbc d -> 1 <= mq <= meqn d ->
      ~ at_cell q' (at2 (beyond d c a b) mq) (z + p * place (upper_x c) (mx d) a + r * place (upper_y c) (my d) b)%Q.
Proof.
  intros d c coarse fine z p r OC HB HX HY HC HH. destruct (interpolate_ok d c coarse fine (affine_data z p r) ltac:(unfold ok_corner; lia) HB (conj HX HY) HC) as (q' & E & A & U). exists q'. split; [exact E|].
  intros a b mq Ha Hb Hm (v & V1 & V2). unfold at2 in V1. rewrite (A a b mq Ha Hb Hm) in V1. injection V1 as V1. rewrite <- V1 in V2. clear V1 v A U E.
  assert (S1 : (slope_x d c (affine_data z p r) mq == p)%Q). { unfold slope_x. transitivity (compute_slopes p p); [|apply C21_linear]. apply slopes_proper; unfold affine_data, Z.sub; injs; change (inject_Z 1) with 1%Q; ring. }
  assert (S2 : (slope_y d c (affine_data z p r) mq == r)%Q). { unfold slope_y. transitivity (compute_slopes r r); [|apply C21_linear]. apply slopes_proper; unfold affine_data, Z.sub; injs; change (inject_Z 1) with 1%Q; ring. }
  rewrite S1, S2 in V2. unfold affine_data, ic, jc, offset, step_in, place in V2.
  assert (NH : forall x : Z, ~ (inject_Z x - (3 # 2) == 0)%Q). { intros x EX. assert (EZ : (inject_Z (2 * x) == inject_Z 3)%Q). { rewrite inject_Z_mult. assert (EY : (inject_Z x == 3 # 2)%Q) by (setoid_replace (inject_Z x) with (inject_Z x - (3 # 2) + (3 # 2))%Q by ring; rewrite EX; reflexivity). rewrite EY. reflexivity. } unfold Qeq, inject_Z in EZ. cbn [Qnum Qden] in EZ. lia. }
  assert (MX : forall m, (inject_Z (m + 1 - 1) == inject_Z m)%Q) by (intros m; replace (m + 1 - 1) with m by ring; reflexivity).
  destruct HH as [(UX & P & R)|(UY & P & R)].
  - rewrite UX in V2. rewrite R in V2. rewrite MX in V2. apply (NH a). change (inject_Z 2) with 2%Q in V2. 
    assert (Z0 : (p * (inject_Z a - (3 # 2)) == 0)%Q) by (match type of V2 with (?l == ?w)%Q => transitivity (l - w)%Q; [field|rewrite V2; ring] end).
    apply Qmult_integral in Z0. destruct Z0 as [Z0|Z0]; [contradiction|exact Z0].
  - rewrite UY in V2. rewrite P in V2. rewrite MX in V2. apply (NH b). change (inject_Z 2) with 2%Q in V2. 
    assert (Z0 : (r * (inject_Z b - (3 # 2)) == 0)%Q) by (match type of V2 with (?l == ?w)%Q => transitivity (l - w)%Q; [field|rewrite V2; ring] end).
    apply Qmult_integral in Z0. destruct Z0 as [Z0|Z0]; [contradiction|exact Z0].
Qed.
Print Assumptions C62_interpolate_not_mirrored_refuted.

(** Instances: patches of 8 by 8 cells with two layers of ghost cells. *)
Definition d8 : dims := mkDims 8 8 2 1.
Definition whole (F : data) : arr := fun '(i, j, mq) => Some (F i j mq).
Example C62_instance_copy : 0 <= 3 < 4 /\ mbc d8 <= mx d8 /\ mbc d8 <= my d8 /\ holds d8 (whole (fun i j _ => inject_Z (10 * i + j))) (fun i j _ => inject_Z (10 * i + j)) /\
  beyond d8 3 2 1 = (10, 9) /\ inside d8 3 2 1 = (7, 8).
Proof. repeat split; try (cbn; lia). Qed.
(** areas that grow with the distance from the diagonal: those of the ghost cells are the sums, and they differ *)
Definition kf (i j : Z) : Q := (inject_Z (i * i + j * j + 1))%Q.
Definition kc (i j : Z) : Q := mirror_sum d8 0 (1 - i) (1 - j) kf.
Example C62_instance_average : let KC := kc in
  (KC (1 - 1)%Z (1 - 2)%Z == mirror_sum d8 0 1 2 kf)%Q /\ ~ (KC (1 - 1)%Z (1 - 1)%Z == KC (1 - 1)%Z (1 - 2)%Z)%Q /\ (0 < KC (1 - 1)%Z (1 - 1)%Z)%Q /\ (forall i j, 0 < kf i j)%Q /\
  1 <= 1 <= mbc d8 /\ 1 <= 2 <= mbc d8 /\ 1 <= 1 <= meqn d8 /\ 2 * mbc d8 <= mx d8 /\ holds d8 (whole (fun _ _ _ => 1%Q)) (fun _ _ _ => 1%Q).
Proof.
  cbv zeta. split; [reflexivity|]. split; [vm_compute; discriminate|]. split; [vm_compute; reflexivity|]. split.
  { intros i j. unfold kf, Qlt, inject_Z. cbn [Qnum Qden]. nia. }
  cbn. repeat split; lia.
Qed.
Example C62_instance_interpolate : holds_layer d8 (whole (affine_data 0 1 0)) (affine_data 0 1 0) /\ upper_x 1 = true /\ ~ (1 == 0)%Q /\
  (place true 8 1 == 8 + (1 # 4))%Q /\ (place false 8 1 == 1 - (1 # 4))%Q.
Proof. repeat split; try (vm_compute; discriminate); reflexivity. Qed.
