(** Areas. *)
From Coq Require Import ZArith Reals List Bool Lia Lra.
From Verif Require Import Model_Map Model_Grid Spec_Map Model_Metric Spec_Metric Proof_Metric1.
Import ListNotations.
Open Scope R_scope.

Lemma norm_cross_norm : forall u v, norm_cross u v = norm (cross u v).
Proof. intros [[a b] c] [[x y] z]. unfold norm_cross, norm, cross, dot. f_equal. ring. Qed.
Lemma norm_scale : forall s v, 0 <= s -> norm (scale s v) = s * norm v.
Proof.
  intros s [[x y] z] H. unfold norm, scale, dot. replace (s * x * (s * x) + s * y * (s * y) + s * z * (s * z)) with (s * s * (x * x + y * y + z * z)) by ring.
  rewrite sqrt_mult_alt by (apply Rmult_le_pos; exact H). rewrite sqrt_square by exact H. reflexivity.
Qed.
Lemma area_quad : forall q, get_area_approx q = quad_area (q 0 0)%Z (q 1 0)%Z (q 1 1)%Z (q 0 1)%Z.
Proof.
  intros q. unfold get_area_approx. cbv zeta. rewrite norm_cross_norm. unfold quad_area.
  match goal with |- norm ?u = norm ?v / 2 => replace u with (scale (1 / 2) v) end.
  - rewrite norm_scale by lra. field.
  - destruct (q 0 0)%Z as [[a1 a2] a3], (q 1 0)%Z as [[b1 b2] b3], (q 1 1)%Z as [[c1 c2] c3], (q 0 1)%Z as [[d1 d2] d3].
    unfold plus, minus, times, each, scale, cross, sub. apply f_equal2; [apply f_equal2|]; field.
Qed.

(** ** sums *)
Lemma sum_ext : forall n f g, (forall k, (k < n)%nat -> f k = g k) -> sum n f = sum n g.
Proof. induction n as [|n IH]; intros f g H; cbn [sum]; [reflexivity|]. rewrite (IH f g) by (intros k Hk; apply H; lia). rewrite (H n) by lia. reflexivity. Qed.
Lemma sum_app : forall n m f, sum (n + m) f = sum n f + sum m (fun k => f (n + k)%nat).
Proof. intros n m f. induction m as [|m IH]; [rewrite Nat.add_0_r; cbn [sum]; lra|]. rewrite Nat.add_succ_r. cbn [sum]. rewrite IH. lra. Qed.
Lemma sum_plus : forall n f g, sum n (fun k => f k + g k) = sum n f + sum n g.
Proof. induction n as [|n IH]; intros f g; cbn [sum]; [lra|]. rewrite IH. lra. Qed.
Lemma sum_const : forall n c, sum n (fun _ => c) = INR n * c.
Proof. induction n as [|n IH]; intros c; [cbn [sum INR]; lra|]. cbn [sum]. rewrite IH, S_INR. ring. Qed.
Lemma sum_nonneg : forall n f, (forall k, (k < n)%nat -> 0 <= f k) -> 0 <= sum n f.
Proof. induction n as [|n IH]; intros f H; cbn [sum]; [lra|]. pose proof (IH f ltac:(intros k Hk; apply H; lia)). pose proof (H n ltac:(lia)). lra. Qed.
Lemma sum_pairs : forall n f, sum (2 * n) f = sum n (fun k => f (2 * k)%nat + f (2 * k + 1)%nat).
Proof.
  induction n as [|n IH]; intros f; [reflexivity|]. replace (2 * S n)%nat with (S (S (2 * n))) by lia. cbn [sum]. rewrite IH. replace (2 * n + 1)%nat with (S (2 * n)) by lia. lra.
Qed.
Lemma loop_sum : forall f g n s, (forall k s, (k < n)%nat -> f (Z.of_nat k) s = Some (s + g k)) -> loop 0 (Z.of_nat n - 1) f s = Some (s + sum n g).
Proof.
  intros f g n s H. destruct (loop_inv (fun k t => t = s + sum (Z.to_nat k) g) f 0 (Z.of_nat n - 1) s) as (t & E & V).
  - lia.
  - cbn. lra.
  - intros k t Hk ->. exists (s + sum (Z.to_nat (k + 1)) g). split; [|reflexivity]. replace k with (Z.of_nat (Z.to_nat k)) at 1 by lia. rewrite H by lia. f_equal.
    replace (Z.to_nat (k + 1)) with (S (Z.to_nat k)) by lia. cbn [sum]. lra.
  - rewrite E, V. do 3 f_equal. lia.
Qed.

(** ** dividing a rectangle *)
Section Divide.
  Variable M : R -> R -> point.
  Lemma divided_one : forall x y w h, divided_area M 1 x y w h = rectangle_area M x y w h.
  Proof.
    intros x y w h. unfold divided_area. cbn [sum INR]. replace (x + 0 * (w / 1)) with x by field. replace (y + 0 * (h / 1)) with y by field.
    replace (w / 1) with w by field. replace (h / 1) with h by field. lra.
  Qed.
  Lemma divided_twice : forall n x y w h, (0 < n)%nat -> divided_area M (2 * n) x y w h =
    divided_area M n x y (w / 2) (h / 2) + divided_area M n (x + w / 2) y (w / 2) (h / 2) +
    divided_area M n x (y + h / 2) (w / 2) (h / 2) + divided_area M n (x + w / 2) (y + h / 2) (w / 2) (h / 2).
  Proof.
    intros n x y w h H. assert (N : INR n <> 0) by (apply not_0_INR; lia). unfold divided_area. replace (2 * n)%nat with (n + n)%nat by lia.
    assert (W : forall t, t / INR (n + n) = t / 2 / INR n) by (intros t; rewrite plus_INR; field; split; [exact N|lra]).
    rewrite sum_app.
    rewrite (sum_ext n _ (fun a => sum n (fun b => rectangle_area M (x + INR a * (w / 2 / INR n)) (y + INR b * (h / 2 / INR n)) (w / 2 / INR n) (h / 2 / INR n)) +
                                   sum n (fun b => rectangle_area M (x + INR a * (w / 2 / INR n)) (y + h / 2 + INR b * (h / 2 / INR n)) (w / 2 / INR n) (h / 2 / INR n)))).
    2:{ intros a _. rewrite sum_app, !W. f_equal. apply sum_ext. intros b _. rewrite plus_INR. f_equal. field. exact N. }
    rewrite (sum_ext n (fun k => sum (n + n) _)
               (fun a => sum n (fun b => rectangle_area M (x + w / 2 + INR a * (w / 2 / INR n)) (y + INR b * (h / 2 / INR n)) (w / 2 / INR n) (h / 2 / INR n)) +
                         sum n (fun b => rectangle_area M (x + w / 2 + INR a * (w / 2 / INR n)) (y + h / 2 + INR b * (h / 2 / INR n)) (w / 2 / INR n) (h / 2 / INR n)))).
    2:{ intros a _. rewrite sum_app, !W, plus_INR. f_equal; apply sum_ext; intros b _; rewrite ?plus_INR; f_equal; field; exact N. }
    rewrite !sum_plus. lra.
  Qed.
  (** an affine map: the area of a rectangle is the area of its image *)
  Lemma affine_rectangle : affine M -> exists k, 0 <= k /\ forall x y w h, rectangle_area M x y w h = k * Rabs (w * h).
  Proof.
    intros (o & u & v & H). exists (norm (cross u v)). split; [apply sqrt_pos|]. intros x y w h. unfold rectangle_area, quad_area. rewrite !H.
    destruct o as [[o1 o2] o3], u as [[u1 u2] u3], v as [[v1 v2] v3]. unfold norm, cross, sub, add, scale, dot.
    match goal with |- sqrt ?a / 2 = sqrt ?b * _ => replace a with ((2 * (w * h)) * (2 * (w * h)) * b) by ring; set (B := b) end.
    rewrite sqrt_mult_alt by (apply Rle_0_sqr). fold (Rsqr (2 * (w * h))). rewrite sqrt_Rsqr_abs. rewrite Rabs_mult, (Rabs_right 2) by lra. field.
  Qed.
  Lemma affine_divided : affine M -> forall n x y w h, (0 < n)%nat -> divided_area M n x y w h = rectangle_area M x y w h.
  Proof.
    intros A n x y w h H. destruct (affine_rectangle A) as (k & _ & E). assert (N : INR n <> 0) by (apply not_0_INR; lia). assert (P : 0 < INR n) by (apply lt_0_INR; lia).
    unfold divided_area. rewrite E. rewrite (sum_ext n _ (fun _ => INR n * (k * Rabs (w / INR n * (h / INR n))))).
    2:{ intros a _. rewrite <- (sum_const n (k * Rabs (w / INR n * (h / INR n)))). apply sum_ext. intros b _. apply E. }
    rewrite sum_const. replace (w / INR n * (h / INR n)) with (w * h * / (INR n * INR n)) by (field; exact N). rewrite Rabs_mult, (Rabs_right (/ _)).
    - field. exact N.
    - apply Rle_ge. left. apply Rinv_0_lt_compat. nra.
  Qed.
  Lemma rectangle_nonneg : forall x y w h, 0 <= rectangle_area M x y w h.
  Proof. intros x y w h. unfold rectangle_area, quad_area, norm. match goal with |- 0 <= sqrt ?a / 2 => pose proof (sqrt_pos a) end. lra. Qed.
End Divide.

Section Area.
  Variable c2m : Z -> R -> R -> point.
  Variable isaffine : bool.
  Variable maxlevel : Z.

  Lemma fill_quads_ok : forall p n dxf dyf xe ye, exists q, fill_quads c2m p (Z.of_nat n) dxf dyf xe ye = Some q /\
    forall a b, (0 <= a <= Z.of_nat n)%Z -> (0 <= b <= Z.of_nat n)%Z -> q (a, b) = Some (c2m (pblock p) (xe + IZR a * dxf) (ye + IZR b * dyf)).
  Proof.
    intros p n dxf dyf xe ye. unfold fill_quads.
    run_fill (fun (q : grid point) a b => q (a, b)) (fun a b => Some (c2m (pblock p) (xe + IZR a * dxf) (ye + IZR b * dyf))) (fun _ _ : Z => false) q V.
    - intros a b q Ha Hb. rewrite put_ok by (unfold in_quad; cbn [fst snd]; rewrite !andb_true_iff, !Z.leb_le; lia). eexists. split; [reflexivity|]. intros x y. cbv beta. rewrite same_pair. cbn [negb]. rewrite andb_true_r. reflexivity.
    - exists q. split; [reflexivity|]. intros a b Ha Hb. rewrite V. destruct (Z.leb_spec 0 a), (Z.leb_spec a (Z.of_nat n)), (Z.leb_spec 0 b), (Z.leb_spec b (Z.of_nat n)); try lia. reflexivity.
  Qed.
  Lemma sum_quads_ok : forall n q (f : Z -> Z -> point), (forall a b, (0 <= a <= Z.of_nat n)%Z -> (0 <= b <= Z.of_nat n)%Z -> q (a, b) = Some (f a b)) ->
    sum_quads (Z.of_nat n) q = Some (sum n (fun a => sum n (fun b => let a := Z.of_nat a in let b := Z.of_nat b in
      quad_area (f a b) (f (a + 1) b)%Z (f (a + 1) (b + 1))%Z (f a (b + 1))%Z))).
  Proof.
    intros n q f H. unfold sum_quads.
    rewrite (loop_sum _ (fun a => sum n (fun b => quad_area (f (Z.of_nat a) (Z.of_nat b)) (f (Z.of_nat a + 1) (Z.of_nat b))%Z (f (Z.of_nat a + 1) (Z.of_nat b + 1))%Z (f (Z.of_nat a) (Z.of_nat b + 1))%Z))).
    - f_equal. lra.
    - intros k s Hk. apply loop_sum. intros l t Hl. cbv zeta. unfold get, in_quad. cbn [fst snd].
      assert (G : forall a b, (0 <= a <= 1)%Z -> (0 <= b <= 1)%Z -> (if ((0 <=? Z.of_nat k + a) && (Z.of_nat k + a <=? Z.of_nat n) && (0 <=? Z.of_nat l + b) && (Z.of_nat l + b <=? Z.of_nat n))%Z
                 then q (Z.of_nat k + a, Z.of_nat l + b)%Z else None) = Some (f (Z.of_nat k + a) (Z.of_nat l + b))%Z).
      { intros a b Ha Hb. rewrite H by lia. destruct (Z.leb_spec 0 (Z.of_nat k + a)), (Z.leb_spec (Z.of_nat k + a) (Z.of_nat n)), (Z.leb_spec 0 (Z.of_nat l + b)), (Z.leb_spec (Z.of_nat l + b) (Z.of_nat n)); try lia. reflexivity. }
      rewrite !G by lia. cbn [bind]. rewrite area_quad. cbn [Z.eqb]. rewrite !Z.add_0_r. reflexivity.
  Qed.

  Definition aview (s : grid R) (j i : Z) : option R := s (i, j).
  (** the area that is computed for one cell *)
  Definition one_area (p : mpatch) (n : nat) (i j : Z) : R :=
    if isaffine then rectangle_area (c2m (pblock p)) (corner_x p i) (corner_y p j) (pdx p) (pdy p)
    else divided_area (c2m (pblock p)) n (corner_x p i) (corner_y p j) (pdx p) (pdy p).
  Lemma compute_area_ok : forall p n ghost a0, exists a, compute_area c2m isaffine p (Z.of_nat n) ghost a0 = Some a /\
    forall i j, cell_index p i j -> a (i, j) = if is_area_interior (pmx p) (pmy p) i j && ghost then a0 (i, j) else Some (one_area p n i j).
  Proof.
    intros p n ghost a0. unfold compute_area, one_area. destruct isaffine.
    - unfold compute_area_affine. cbv zeta.
      run_fill aview (fun j i => Some (rectangle_area (c2m (pblock p)) (corner_x p i) (corner_y p j) (pdx p) (pdy p))) (fun j i => is_area_interior (pmx p) (pmy p) i j && ghost) a V.
      + intros j i a Hj Hi. destruct (is_area_interior (pmx p) (pmy p) i j && ghost) eqn:E; cbn [negb].
        * eexists. split; [reflexivity|]. intros x y. rewrite andb_false_r. reflexivity.
        * rewrite put_ok by (apply in_p_ok; unfold cell_index; lia). eexists. split; [reflexivity|]. intros x y. unfold aview. rewrite same_pair, andb_true_r, (andb_comm (y =? i)%Z).
          destruct ((x =? j)%Z && (y =? i)%Z); [|reflexivity]. f_equal. rewrite area_quad. unfold rectangle_area, corner_x, corner_y. rewrite !minus_IZR. f_equal; f_equal; ring.
      + exists a. split; [reflexivity|]. intros i j H. unfold cell_index in H. specialize (V j i). unfold aview in V. rewrite V.
        destruct (Z.leb_spec (- pmbc p) j), (Z.leb_spec j (pmy p + pmbc p + 1)), (Z.leb_spec (- pmbc p) i), (Z.leb_spec i (pmx p + pmbc p + 1)); try lia. cbn [andb].
        destruct (is_area_interior (pmx p) (pmy p) i j && ghost); reflexivity.
    - unfold compute_area_general. cbv zeta.
      run_fill aview (fun j i => Some (divided_area (c2m (pblock p)) n (corner_x p i) (corner_y p j) (pdx p) (pdy p))) (fun j i => is_area_interior (pmx p) (pmy p) i j && ghost) a V.
      + intros j i a Hj Hi. destruct (is_area_interior (pmx p) (pmy p) i j && ghost) eqn:E; cbn [negb].
        * eexists. split; [reflexivity|]. intros x y. rewrite andb_false_r. reflexivity.
        * destruct (fill_quads_ok p n (pdx p / IZR (Z.of_nat n)) (pdy p / IZR (Z.of_nat n)) (xlower p + IZR (i - 1) * pdx p) (ylower p + IZR (j - 1) * pdy p)) as (q & -> & Q).
          cbn [bind]. rewrite (sum_quads_ok n q _ Q). cbn [bind].
          rewrite put_ok by (apply in_p_ok; unfold cell_index; lia). eexists. split; [reflexivity|]. intros x y. unfold aview. rewrite same_pair, andb_true_r, (andb_comm (y =? i)%Z).
          destruct ((x =? j)%Z && (y =? i)%Z); [|reflexivity]. f_equal. unfold divided_area. apply sum_ext. intros k _. apply sum_ext. intros l _. cbv zeta.
          unfold rectangle_area, corner_x, corner_y. rewrite !plus_IZR, !minus_IZR, <- !INR_IZR_INZ. f_equal; f_equal; ring.
      + exists a. split; [reflexivity|]. intros i j H. unfold cell_index in H. specialize (V j i). unfold aview in V. rewrite V.
        destruct (Z.leb_spec (- pmbc p) j), (Z.leb_spec j (pmy p + pmbc p + 1)), (Z.leb_spec (- pmbc p) i), (Z.leb_spec i (pmx p + pmbc p + 1)); try lia. cbn [andb].
        destruct (is_area_interior (pmx p) (pmy p) i j && ghost); reflexivity.
  Qed.

  Lemma one_area_cell : forall p i j, (plevel p <= maxlevel)%Z -> (isaffine = true -> affine (c2m (pblock p))) ->
    one_area p (Z.to_nat (2 ^ (maxlevel - plevel p))) i j = cell_area (c2m (pblock p)) maxlevel p i j.
  Proof.
    intros p i j L A. unfold one_area, cell_area. destruct isaffine; [|reflexivity]. symmetry. apply affine_divided; [apply A; reflexivity|].
    pose proof (Z.pow_pos_nonneg 2 (maxlevel - plevel p) ltac:(lia) ltac:(lia)). lia.
  Qed.
  Lemma area_default_ok : forall p a0, (plevel p <= maxlevel)%Z -> (isaffine = true -> affine (c2m (pblock p))) -> exists a, compute_area_default c2m isaffine maxlevel p a0 = Some a /\
    forall i j, cell_index p i j -> a (i, j) = Some (cell_area (c2m (pblock p)) maxlevel p i j).
  Proof.
    intros p a0 L A. unfold compute_area_default, pow_int. destruct (Z.ltb_spec (maxlevel - plevel p) 0); [lia|]. cbn [bind].
    pose proof (Z.pow_pos_nonneg 2 (maxlevel - plevel p) ltac:(lia) ltac:(lia)) as P.
    destruct (compute_area_ok p (Z.to_nat (2 ^ (maxlevel - plevel p))) false a0) as (a & E & V). rewrite Z2Nat.id in E by lia. exists a. split; [exact E|]. intros i j HI. rewrite V by exact HI.
    rewrite andb_false_r. f_equal. apply one_area_cell; assumption.
  Qed.
  Lemma area_ghost_ok : forall p a0, (plevel p <= maxlevel)%Z -> (isaffine = true -> affine (c2m (pblock p))) -> exists a, compute_area_ghost_default c2m isaffine maxlevel p a0 = Some a /\
    forall i j, cell_index p i j -> a (i, j) = if is_area_interior (pmx p) (pmy p) i j then a0 (i, j) else Some (cell_area (c2m (pblock p)) maxlevel p i j).
  Proof.
    intros p a0 L A. unfold compute_area_ghost_default, pow_int. destruct (Z.ltb_spec (maxlevel - plevel p) 0); [lia|]. cbn [bind].
    pose proof (Z.pow_pos_nonneg 2 (maxlevel - plevel p) ltac:(lia) ltac:(lia)) as P.
    destruct (compute_area_ok p (Z.to_nat (2 ^ (maxlevel - plevel p))) true a0) as (a & E & V). rewrite Z2Nat.id in E by lia. exists a. split; [exact E|]. intros i j HI. rewrite V by exact HI.
    rewrite andb_true_r. destruct (is_area_interior _ _ i j); [reflexivity|]. f_equal. apply one_area_cell; assumption.
  Qed.
End Area.
