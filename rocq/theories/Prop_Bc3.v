(** C76: physical boundary conditions of extruded (3D) patches. *)
From Coq Require Import ZArith QArith List Lia Bool.
From Verif Require Import Base_Float Model_Face Model_Grid Model_Bc3 Spec_Bc3 Proof_Bc3.
Import ListNotations.
Open Scope Z_scope.

Definition listed3 (l : list bool) (f : Z) : bool := nth (Z.to_nat f) l false.

(** Every cell of the patch gets the value of its image, with the normal velocity turned
    beyond a wall; edges and corners get the image in two or three directions. *)
Theorem C76_values : forall d block_mthbc faces q,
  0 <= mbc3 d -> mbc3 d <= mx3 d -> mbc3 d <= my3 d -> mbc3 d <= mz3 d ->
  usable3 d block_mthbc (listed3 faces) ->
  exists q', clawpack46_bc3 d block_mthbc faces q = Some q' /\
    (forall i j k m, in_q3 d (i, j, k, m) = true ->
       q' (i, j, k, m) = bc3_value d (side3_of block_mthbc (listed3 faces)) q i j k m) /\
    (forall c, in_q3 d c = false -> q' c = q c).
Proof.
  intros d k faces q Hb Hx Hy Hz U.
  destruct (bc3_ok d Hb Hx Hy Hz (side3_of k (listed3 faces))
    (fun f => if f <? 4 then (if nth (Z.to_nat f) faces false then k f else -1) else k f) q) as (q' & E & A).
  - split; intros f Hf; specialize (U f ltac:(lia)); unfold side3_of, applied, listed3 in *.
    + destruct (Z.leb_spec 4 f); [lia|]. destruct (Z.ltb_spec f 4); [|lia]. cbn [orb] in *. rewrite andb_false_r.
      destruct (nth (Z.to_nat f) faces false); [|cbn; lia]. destruct (U eq_refl) as (U1 & _).
      destruct (Z.eqb_spec (k f) 1), (Z.eqb_spec (k f) 3); cbn; auto.
    + destruct (Z.leb_spec 4 f); [|lia]. destruct (Z.ltb_spec f 4); [lia|]. cbn [orb] in *. rewrite andb_true_r.
      destruct (U eq_refl) as (U1 & _).
      destruct (Z.eqb_spec (k f) 1), (Z.eqb_spec (k f) 3), (Z.eqb_spec (k f) 2); cbn; auto.
  - intros f Hf Hw. specialize (U f Hf). unfold side3_of in Hw. destruct (applied (listed3 faces) f); [|discriminate].
    destruct (U eq_refl) as (_ & U2). apply U2.
    destruct (Z.eqb_spec (k f) 1); [discriminate|]. destruct (Z.eqb_spec (k f) 3); [assumption|].
    destruct (_ && _); discriminate.
  - exists q'. split; [exact E|]. split.
    + intros i j kk m Hin. rewrite A. now apply six_sides.
    + intros c Hc. rewrite A. now apply six_outside.
Qed.
Print Assumptions C76_values.

(** Interior cells keep their values, and so do ghost cells that lie beyond no active side. *)
Theorem C76_unchanged : forall d block_mthbc faces q q',
  0 <= mbc3 d -> mbc3 d <= mx3 d -> mbc3 d <= my3 d -> mbc3 d <= mz3 d ->
  usable3 d block_mthbc (listed3 faces) ->
  clawpack46_bc3 d block_mthbc faces q = Some q' ->
  forall i j k m, in_q3 d (i, j, k, m) = true -> 1 <= k <= mz3 d ->
    (listed3 faces 0 = true -> 1 <= i) -> (listed3 faces 1 = true -> i <= mx3 d) ->
    (listed3 faces 2 = true -> 1 <= j) -> (listed3 faces 3 = true -> j <= my3 d) ->
    q' (i, j, k, m) = q (i, j, k, m).
Proof.
  intros d b faces q q' Hb Hx Hy Hz U E i j k m Hin Hk H0 H1 H2 H3.
  destruct (C76_values d b faces q Hb Hx Hy Hz U) as (q1 & E1 & A & _). rewrite E in E1. injection E1 as <-.
  rewrite A by assumption. unfold bc3_value.
  assert (X : forall a c n t, 0 <= a < 4 -> 0 <= c < 4 -> (listed3 faces a = true -> 1 <= t) -> (listed3 faces c = true -> t <= n) ->
    image3 (side3_of b (listed3 faces) a) (side3_of b (listed3 faces) c) n t = t /\
    mirrored3 (side3_of b (listed3 faces) a) (side3_of b (listed3 faces) c) n t = false).
  { intros a c n t Ha Hc L R. unfold image3, mirrored3, side3_of, applied.
    destruct (Z.leb_spec 4 a); [lia|]. destruct (Z.leb_spec 4 c); [lia|]. cbn [orb].
    destruct (Z.ltb_spec t 1), (Z.ltb_spec n t); cbn [andb orb].
    all: try (destruct (listed3 faces a); [specialize (L eq_refl); lia|]).
    all: try (destruct (listed3 faces c); [specialize (R eq_refl); lia|]).
    all: split; reflexivity. }
  destruct (X 0 1 (mx3 d) i) as (-> & ->); try lia; auto.
  destruct (X 2 3 (my3 d) j) as (-> & ->); try lia; auto.
  assert (Y : forall a c, image3 a c (mz3 d) k = k /\ mirrored3 a c (mz3 d) k = false).
  { intros a c. unfold image3, mirrored3. destruct (Z.ltb_spec k 1), (Z.ltb_spec (mz3 d) k); try (exfalso; lia); split; reflexivity. }
  destruct (Y (side3_of b (listed3 faces) 4) (side3_of b (listed3 faces) 5)) as (-> & ->). reflexivity.
Qed.
Print Assumptions C76_unchanged.

(** Bottom and top, for every patch, wherever it lies: periodic, open and wall. *)
Theorem C76_vertical : forall d block_mthbc faces q q',
  0 <= mbc3 d -> mbc3 d <= mx3 d -> mbc3 d <= my3 d -> mbc3 d <= mz3 d ->
  usable3 d block_mthbc (listed3 faces) ->
  clawpack46_bc3 d block_mthbc faces q = Some q' ->
  forall i j e m, 1 <= i <= mx3 d -> 1 <= j <= my3 d -> 1 <= e <= mbc3 d -> 1 <= m <= meqn3 d ->
    (block_mthbc 4 = 1 -> q' (i, j, 1 - e, m) = q (i, j, 1, m)) /\
    (block_mthbc 4 = 2 -> q' (i, j, 1 - e, m) = q (i, j, mz3 d + 1 - e, m)) /\
    (block_mthbc 4 = 3 -> q' (i, j, 1 - e, m) =
       if m =? 4 then option_map Qopp (q (i, j, e, m)) else q (i, j, e, m)) /\
    (block_mthbc 5 = 1 -> q' (i, j, mz3 d + e, m) = q (i, j, mz3 d, m)) /\
    (block_mthbc 5 = 2 -> q' (i, j, mz3 d + e, m) = q (i, j, e, m)) /\
    (block_mthbc 5 = 3 -> q' (i, j, mz3 d + e, m) =
       if m =? 4 then option_map Qopp (q (i, j, mz3 d + 1 - e, m)) else q (i, j, mz3 d + 1 - e, m)).
Proof.
  intros d b faces q q' Hb Hx Hy Hz U E i j e m Hi Hj He Hm.
  destruct (C76_values d b faces q Hb Hx Hy Hz U) as (q1 & E1 & A & _). rewrite E in E1. injection E1 as <-.
  assert (IN : forall a c n x, 1 <= x <= n -> image3 a c n x = x /\ mirrored3 a c n x = false).
  { intros a c n x H. unfold image3, mirrored3. destruct (Z.ltb_spec x 1), (Z.ltb_spec n x); try (exfalso; lia); split; reflexivity. }
  set (s := side3_of b (listed3 faces)) in *.
  assert (V : forall k, 1 - mbc3 d <= k <= mz3 d + mbc3 d ->
    q' (i, j, k, m) = let v := q (i, j, image3 (s 4) (s 5) (mz3 d) k, m) in
      if mirrored3 (s 4) (s 5) (mz3 d) k && (m =? 4) then option_map Qopp v else v).
  { intros k Hk. rewrite A by (apply in_q3_iff; lia). unfold bc3_value.
    destruct (IN (s 0) (s 1) (mx3 d) i Hi) as (-> & ->). destruct (IN (s 2) (s 3) (my3 d) j Hj) as (-> & ->). reflexivity. }
  rewrite !V by lia. cbv zeta. clear V.
  assert (S4 : s 4 = if b 4 =? 1 then Open3 else if b 4 =? 3 then Wall3 else if (b 4 =? 2) && true then Periodic3 else Untouched) by reflexivity.
  assert (S5 : s 5 = if b 5 =? 1 then Open3 else if b 5 =? 3 then Wall3 else if (b 5 =? 2) && true then Periodic3 else Untouched) by reflexivity.
  assert (LO : forall a c, image3 a c (mz3 d) (1 - e) = match a with Untouched => 1 - e | Open3 => 1 | Wall3 => 1 - (1 - e) | Periodic3 => 1 - e + mz3 d end /\
    mirrored3 a c (mz3 d) (1 - e) = match a with Wall3 => true | _ => false end).
  { intros a c. unfold image3, mirrored3. destruct (Z.ltb_spec (1 - e) 1); [|lia]. destruct (Z.ltb_spec (mz3 d) (1 - e)); [lia|].
    split; [reflexivity|]. destruct a; reflexivity. }
  assert (HI : forall a c, image3 a c (mz3 d) (mz3 d + e) = match c with Untouched => mz3 d + e | Open3 => mz3 d | Wall3 => 2 * mz3 d + 1 - (mz3 d + e) | Periodic3 => mz3 d + e - mz3 d end /\
    mirrored3 a c (mz3 d) (mz3 d + e) = match c with Wall3 => true | _ => false end).
  { intros a c. unfold image3, mirrored3. destruct (Z.ltb_spec (mz3 d + e) 1); [lia|]. destruct (Z.ltb_spec (mz3 d) (mz3 d + e)); [|lia].
    split; [reflexivity|]. destruct c; reflexivity. }
  destruct (LO (s 4) (s 5)) as (-> & ->). destruct (HI (s 4) (s 5)) as (-> & ->). rewrite S4, S5.
  repeat split; intro X; rewrite X; cbn [Z.eqb Pos.eqb andb].
  - reflexivity.
  - replace (1 - e + mz3 d) with (mz3 d + 1 - e) by lia. reflexivity.
  - replace (1 - (1 - e)) with e by lia. reflexivity.
  - reflexivity.
  - replace (mz3 d + e - mz3 d) with e by lia. reflexivity.
  - replace (2 * mz3 d + 1 - (mz3 d + e)) with (mz3 d + 1 - e) by lia. reflexivity.
Qed.
Print Assumptions C76_vertical.

(** Applying the conditions again changes nothing. *)
Theorem C76_again : forall d block_mthbc faces q q',
  0 <= mbc3 d -> mbc3 d <= mx3 d -> mbc3 d <= my3 d -> mbc3 d <= mz3 d ->
  usable3 d block_mthbc (listed3 faces) ->
  clawpack46_bc3 d block_mthbc faces q = Some q' ->
  exists q'', clawpack46_bc3 d block_mthbc faces q' = Some q'' /\ forall c, q'' c = q' c.
Proof.
  intros d b faces q q' Hb Hx Hy Hz U E.
  destruct (C76_values d b faces q Hb Hx Hy Hz U) as (q1 & E1 & A & B). rewrite E in E1. injection E1 as <-.
  destruct (C76_values d b faces q' Hb Hx Hy Hz U) as (q2 & E2 & A2 & B2).
  exists q2. split; [exact E2|]. intros [[[i j] k] m]. destruct (in_q3 d (i, j, k, m)) eqn:Hin; [|now rewrite B2].
  rewrite A2 by assumption. rewrite (A i j k m Hin). set (s := side3_of b (listed3 faces)) in *.
  apply in_q3_iff in Hin. destruct Hin as (Hi & Hj & Hk & Hm).
  unfold bc3_value at 1. rewrite A.
  - unfold bc3_value.
    destruct (image_again d (s 0) (s 1) (mx3 d) i Hx Hi) as (-> & ->).
    destruct (image_again d (s 2) (s 3) (my3 d) j Hy Hj) as (-> & ->).
    destruct (image_again d (s 4) (s 5) (mz3 d) k Hz Hk) as (-> & ->). reflexivity.
  - apply in_q3_iff. split; [apply image_range; lia|]. split; [apply image_range; lia|]. split; [apply image_range; lia|exact Hm].
Qed.
Print Assumptions C76_again.

(** Number 2 on a horizontal side of the boundary of the domain is not an error as it is in
    two dimensions: only a message is printed, and the ghost cells keep what they had. *)
Theorem C76_periodic_refuted : forall d block_mthbc faces q q' f,
  0 <= mbc3 d -> mbc3 d <= mx3 d -> mbc3 d <= my3 d -> mbc3 d <= mz3 d ->
  usable3 d block_mthbc (listed3 faces) ->
  clawpack46_bc3 d block_mthbc faces q = Some q' ->
  0 <= f < 4 -> listed3 faces f = true -> block_mthbc f = 2 ->
  forall e t k m, 1 <= e <= mbc3 d -> 1 <= t -> 1 <= k <= mz3 d -> 1 <= m <= meqn3 d ->
    t <= (if f <? 2 then my3 d else mx3 d) ->
    let c := if f =? 0 then (1 - e, t, k, m) else if f =? 1 then (mx3 d + e, t, k, m)
             else if f =? 2 then (t, 1 - e, k, m) else (t, my3 d + e, k, m) in
    q' c = q c.
Proof.
  intros d b faces q q' f Hb Hx Hy Hz U E Hf Lf Kf e t k m He Ht Hk Hm Ht' c.
  destruct (C76_values d b faces q Hb Hx Hy Hz U) as (q1 & E1 & A & _). rewrite E in E1. injection E1 as <-.
  assert (IN : forall a x n y, 1 <= y <= n -> image3 a x n y = y /\ mirrored3 a x n y = false).
  { intros a x n y H. unfold image3, mirrored3. destruct (Z.ltb_spec y 1), (Z.ltb_spec n y); try (exfalso; lia); split; reflexivity. }
  set (s := side3_of b (listed3 faces)) in *.
  assert (SU : s f = Untouched).
  { unfold s, side3_of, applied. destruct (Z.leb_spec 4 f); [lia|]. rewrite Lf, Kf. reflexivity. }
  assert (LO : forall x n, image3 Untouched x n (1 - e) = 1 - e \/ n < 1 - e) by
    (intros x n; unfold image3; destruct (Z.ltb_spec (1 - e) 1); [left; reflexivity|lia]).
  assert (L1 : forall x n, mbc3 d <= n -> image3 Untouched x n (1 - e) = 1 - e /\ mirrored3 Untouched x n (1 - e) = false).
  { intros x n Hn. unfold image3, mirrored3. destruct (Z.ltb_spec (1 - e) 1); [|lia]. destruct (Z.ltb_spec n (1 - e)); [lia|].
    split; reflexivity. }
  assert (H1 : forall x n, mbc3 d <= n -> image3 x Untouched n (n + e) = n + e /\ mirrored3 x Untouched n (n + e) = false).
  { intros x n Hn. unfold image3, mirrored3. destruct (Z.ltb_spec (n + e) 1); [lia|]. destruct (Z.ltb_spec n (n + e)); [|lia].
    split; reflexivity. }
  assert (F : f = 0 \/ f = 1 \/ f = 2 \/ f = 3) by lia. unfold c. clear c LO.
  destruct (IN (s 4) (s 5) (mz3 d) k Hk) as (K1 & K2).
  destruct F as [->|[->|[->| ->]]]; cbn [Z.ltb Z.compare Pos.compare Pos.compare_cont] in Ht'; cbn [Z.eqb Pos.eqb];
    rewrite A by (apply in_q3_iff; lia); unfold bc3_value; rewrite K1, K2.
  - destruct (IN (s 2) (s 3) (my3 d) t ltac:(lia)) as (-> & ->). rewrite SU. destruct (L1 (s 1) (mx3 d) Hx) as (-> & ->). reflexivity.
  - destruct (IN (s 2) (s 3) (my3 d) t ltac:(lia)) as (-> & ->). rewrite SU. destruct (H1 (s 0) (mx3 d) Hx) as (-> & ->). reflexivity.
  - destruct (IN (s 0) (s 1) (mx3 d) t ltac:(lia)) as (-> & ->). rewrite SU. destruct (L1 (s 3) (my3 d) Hy) as (-> & ->). reflexivity.
  - destruct (IN (s 0) (s 1) (mx3 d) t ltac:(lia)) as (-> & ->). rewrite SU. destruct (H1 (s 2) (my3 d) Hy) as (-> & ->). reflexivity.
Qed.
Print Assumptions C76_periodic_refuted.

(** Fewer layers than ghost cells: a wall at the bottom of a single layer copies an old ghost
    value above the patch instead of a mirror image of the solution. *)
Theorem C76_thin_refuted : exists d block_mthbc q q',
  mz3 d = 1 /\ mbc3 d = 2 /\ block_mthbc 4 = 3 /\
  (forall i j m, q (i, j, 1, m) = Some 5%Q) /\
  clawpack46_bc3 d block_mthbc [false; false; false; false] q = Some q' /\
  q' (1, 1, -1, 1) = q (1, 1, 2, 1) /\ q' (1, 1, -1, 1) = Some 77%Q.
Proof.
  exists (mkDims3 2 2 1 2 4), (fun f => if f =? 4 then 3 else 1),
    (fun c => let '(i, j, k, m) := c in if k =? 1 then Some 5%Q else Some 77%Q).
  eexists. split; [reflexivity|]. split; [reflexivity|]. split; [reflexivity|]. split; [reflexivity|].
  split; [vm_compute; reflexivity|]. split; vm_compute; reflexivity.
Qed.
Print Assumptions C76_thin_refuted.

(** A wall asks for a velocity: with too few equations it writes outside of the array. *)
Theorem C76_scalar_wall_refuted : exists q, 
  clawpack46_bc3 (mkDims3 4 4 4 2 3) (fun f => if f <? 4 then 1 else 3) [false; false; false; false] q = None.
Proof. exists (fun _ => Some 0%Q). vm_compute. reflexivity. Qed.
Print Assumptions C76_scalar_wall_refuted.

(** The number 0 (user-supplied) stops the program; at bottom and top for every patch. *)
Theorem C76_user_refuted : forall d block_mthbc faces q q',
  clawpack46_bc3 d block_mthbc faces q = Some q' -> block_mthbc 4 <> 0 /\ block_mthbc 5 <> 0 /\
  forall f, 0 <= f < 4 -> listed3 faces f = true -> block_mthbc f <> 0.
Proof.
  intros d b faces q q' E. unfold clawpack46_bc3, bc3_default in E. cbn [Z.ltb Z.compare Pos.compare Pos.compare_cont] in E.
  unfold listed3. cbn [Z.to_nat Pos.to_nat Pos.iter_op Nat.add] in E.
  destruct (bc3_xlower d _ q) as [q1|] eqn:E1; [|discriminate]. cbn [bind] in E.
  destruct (bc3_xupper d _ q1) as [q2|] eqn:E2; [|discriminate]. cbn [bind] in E.
  destruct (bc3_ylower d _ q2) as [q3|] eqn:E3; [|discriminate]. cbn [bind] in E.
  destruct (bc3_yupper d _ q3) as [q4|] eqn:E4; [|discriminate]. cbn [bind] in E.
  destruct (bc3_zlower d _ q4) as [q5|] eqn:E5; [|discriminate]. cbn [bind] in E.
  split; [intro X; rewrite X in E5; discriminate|]. split; [intro X; rewrite X in E; discriminate|].
  intros f Hf Lf X. assert (F : f = 0 \/ f = 1 \/ f = 2 \/ f = 3) by lia.
  destruct F as [->|[->|[->| ->]]]; cbn [Z.to_nat Pos.to_nat Pos.iter_op Nat.add] in Lf.
  - rewrite Lf, X in E1. discriminate.
  - change (Pos.to_nat 1) with 1%nat in *. rewrite Lf, X in E2. discriminate.
  - change (Pos.to_nat 2) with 2%nat in *. rewrite Lf, X in E3. discriminate.
  - change (Pos.to_nat 3) with 3%nat in *. rewrite Lf, X in E4. discriminate.
Qed.
Print Assumptions C76_user_refuted.

(** Non-vacuity: a patch at the left edge of the domain, with a wall there, open elsewhere, and
    periodic bottom and top. *)
Definition ex_d := mkDims3 4 4 3 2 4.
Definition ex_bc (f : Z) : Z := if f =? 0 then 3 else if f <? 4 then 1 else 2.
Definition ex_q : arr3 := fun c => let '(i, j, k, m) := c in Some (inject_Z (1000 * i + 100 * j + 10 * k + m)).
Example C76_instance : usable3 ex_d ex_bc (listed3 [true; false; false; false]) /\
  exists q', clawpack46_bc3 ex_d ex_bc [true; false; false; false] ex_q = Some q' /\
    q' (-1, 2, 4, 2) = Some (inject_Z (-2212)) /\ q' (0, 2, -1, 1) = ex_q (1, 2, 2, 1) /\
    q' (6, 2, 2, 1) = ex_q (6, 2, 2, 1).
Proof.
  split.
  - intros f Hf _. assert (F : f = 0 \/ f = 1 \/ f = 2 \/ f = 3 \/ f = 4 \/ f = 5) by lia.
    destruct F as [->|[->|[->|[->|[->| ->]]]]]; vm_compute; split; discriminate.
  - eexists. split; [vm_compute; reflexivity|]. repeat split; vm_compute; reflexivity.
Qed.
