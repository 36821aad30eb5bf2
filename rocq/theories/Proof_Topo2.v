(** More proofs about the bathymetry of grid cells: one file. *)
From Coq Require Import ZArith QArith Qround Qminmax List Bool Lia Lqa Sorted FinFun Setoid Morphisms Field.
From Verif Require Import Model_Topo Spec_Topo Proof_Topo.
Import ListNotations.
Open Scope Q_scope.

Lemma range_in lo hi k : In k (range lo hi) <-> (lo <= k <= hi)%Z.
Proof.
  unfold range. rewrite in_map_iff. split.
  - intros (n & <- & H). apply in_seq in H. lia.
  - intros H. exists (Z.to_nat (k - lo)). split; [lia|]. apply in_seq. lia.
Qed.
Lemma range_nodup lo hi : NoDup (range lo hi).
Proof.
  unfold range. apply FinFun.Injective_map_NoDup; [|apply seq_NoDup]. intros a b H. lia.
Qed.
Lemma qsum_single (l : list Z) k0 (v : Z -> Q) : NoDup l -> In k0 l ->
  qsum (map (fun k => if (k =? k0)%Z then v k else 0) l) == v k0.
Proof.
  intros N H. induction N as [|a l Na N IH]; [destruct H|]. rewrite qsum_cons.
  destruct (Z.eqb_spec a k0) as [->|Ne].
  - transitivity (v k0 + qsum (map (fun _ : Z => 0) l)); [|rewrite qsum_zero; ring].
    apply Qplus_comp; [reflexivity|]. apply qsum_ext. intros k Hk.
    destruct (Z.eqb_spec k k0) as [->|]; [contradiction|reflexivity].
  - rewrite IH; [ring|]. destruct H; [contradiction|assumption].
Qed.

(** * One direction of a file *)
Section Line.
  Variables (low dx : Q) (mx : Z).
  Hypothesis (Hdx : 0 < dx).
  Definition ln (k : Z) : Q := low + inject_Z (k - 1) * dx.
  Definition idx (x : Q) : Z := (Qfloor ((x - low) / dx) + 1)%Z.
  Definition i_start (a : Q) : Z := Z.max (idint ((a - low) / dx) + 1) 1.
  Definition i_end (b : Q) : Z := Z.min mx (Qceiling ((b - low) / dx) + 1).

  Lemma u_le x q : q <= (x - low) / dx <-> low + q * dx <= x.
  Proof.
    assert (E : (x - low) / dx * dx == x - low) by (field; lra).
    rewrite <- (Qmult_le_r q ((x - low) / dx) dx Hdx), E. split; intros; lra.
  Qed.
  Lemma u_lt x q : (x - low) / dx < q <-> x < low + q * dx.
  Proof.
    assert (E : (x - low) / dx * dx == x - low) by (field; lra).
    rewrite <- (Qmult_lt_r ((x - low) / dx) q dx Hdx), E. split; intros; lra.
  Qed.
  Lemma u_ge x q : (x - low) / dx <= q <-> x <= low + q * dx.
  Proof.
    assert (E : (x - low) / dx * dx == x - low) by (field; lra).
    rewrite <- (Qmult_le_r ((x - low) / dx) q dx Hdx), E. split; intros; lra.
  Qed.
  Lemma ln_lt j k : (j < k)%Z -> ln j < ln k.
  Proof.
    intros H. unfold ln. assert (L : inject_Z (j - 1) < inject_Z (k - 1)) by (rewrite <- Zlt_Qlt; lia).
    apply (Qmult_lt_r _ _ dx Hdx) in L. lra.
  Qed.
  Lemma ln_le j k : (j <= k)%Z -> ln j <= ln k.
  Proof.
    intros H. destruct (Z.eq_dec j k) as [->|]; [apply Qle_refl|]. apply Qlt_le_weak, ln_lt. lia.
  Qed.
  Lemma ln_lt_inv j k : ln j < ln k -> (j < k)%Z.
  Proof.
    intros H. destruct (Z_lt_le_dec j k) as [|L]; [assumption|]. apply ln_le in L. lra.
  Qed.
  Lemma idx_spec x : ln (idx x) <= x < ln (idx x + 1).
  Proof.
    unfold ln, idx. set (u := (x - low) / dx).
    replace (Qfloor u + 1 - 1)%Z with (Qfloor u) by lia. replace (Qfloor u + 1 + 1 - 1)%Z with (Qfloor u + 1)%Z by lia.
    split; [apply u_le, Qfloor_le|apply u_lt, Qlt_floor].
  Qed.
  Lemma idx_unique x k : ln k <= x < ln (k + 1) -> k = idx x.
  Proof.
    intros [H1 H2]. destruct (idx_spec x) as [I1 I2].
    assert (ln k < ln (idx x + 1)) by lra. assert (ln (idx x) < ln (k + 1)) by lra.
    apply ln_lt_inv in H. apply ln_lt_inv in H0. lia.
  Qed.
  Lemma start_eq a : low <= a -> i_start a = idx a.
  Proof.
    intros H. unfold i_start, idx, idint.
    assert (P : 0 <= (a - low) / dx) by (apply u_le; lra).
    destruct (Qle_bool 0 ((a - low) / dx)) eqn:E; [|apply Qle_bool_iff in P; congruence].
    pose proof (Qfloor_resp_le _ _ P) as F. change (Qfloor 0) with 0%Z in F. lia.
  Qed.
  Lemma end_spec b : b <= ln mx -> ln (i_end b - 1) < b <= ln (i_end b).
  Proof.
    intros H. unfold i_end. set (u := (b - low) / dx).
    assert (C1 : b <= ln (Qceiling u + 1)).
    { unfold ln. replace (Qceiling u + 1 - 1)%Z with (Qceiling u) by lia. apply u_ge, Qle_ceiling. }
    assert (C2 : ln (Qceiling u) < b).
    { unfold ln. apply Qnot_le_lt. intros L. apply u_ge in L. fold u in L. pose proof (Qceiling_lt u).
      unfold Qminus in *. lra. }
    destruct (Z.min_spec mx (Qceiling u + 1)) as [[M ->]|[M ->]].
    - split; [|assumption]. apply Qle_lt_trans with (ln (Qceiling u)); [apply ln_le; lia|assumption].
    - replace (Qceiling u + 1 - 1)%Z with (Qceiling u) by lia. split; assumption.
  Qed.
  (** the points of the interval lie in the cells of the loop *)
  Lemma idx_range a b x : low <= a -> b <= ln mx -> a < x -> x < b -> (i_start a <= idx x <= i_end b - 1)%Z.
  Proof.
    intros H1 H2 H3 H4. rewrite (start_eq a H1). destruct (idx_spec x) as [I1 I2], (idx_spec a) as [A1 A2], (end_spec b H2) as [E1 E2].
    split.
    - assert (L : ln (idx a) < ln (idx x + 1)) by lra. apply ln_lt_inv in L. lia.
    - assert (L : ln (idx x) < ln (i_end b)) by lra. apply ln_lt_inv in L. lia.
  Qed.
  Lemma loop_range a b k : low <= a -> a < b -> b <= ln mx -> (i_start a <= k <= i_end b - 1)%Z ->
    (1 <= k <= mx - 1)%Z /\ Qmax a (ln k) <= Qmin b (ln (k + 1)).
  Proof.
    intros H1 H2 H3 Hk. assert (S1 : (1 <= i_start a)%Z) by (unfold i_start; lia).
    assert (E : (i_end b <= mx)%Z) by (unfold i_end; lia).
    split; [lia|]. rewrite (start_eq a H1) in Hk.
    destruct (idx_spec a) as [A1 A2], (end_spec b H3) as [E1 E2].
    assert (a <= ln (k + 1)) by (apply Qle_trans with (ln (idx a + 1)); [lra|apply ln_le; lia]).
    assert (ln k <= b) by (apply Qle_trans with (ln (i_end b - 1)); [apply ln_le; lia|lra]).
    assert (ln k < ln (k + 1)) by (apply ln_lt; lia).
    apply Q.max_lub; apply Q.min_glb; lra.
  Qed.
  Lemma seg_bool a b p k :
    low <= a -> a < b -> b <= ln mx -> (1 <= k <= mx - 1)%Z -> fst p < snd p ->
    nocross (ln k) p -> nocross (ln (k + 1)) p ->
    Qle_bool (Qmax a (ln k)) (mid p) && Qle_bool (mid p) (Qmin b (ln (k + 1))) =
    (k =? idx (mid p))%Z && (Qle_bool a (mid p) && Qle_bool (mid p) b).
  Proof.
    intros H1 H2 H3 Hk Hp N1 N2.
    assert (M : fst p < mid p /\ mid p < snd p) by (unfold mid; lra).
    assert (L : ln k < ln (k + 1)) by (apply ln_lt; lia).
    apply eq_true_iff_eq. rewrite !andb_true_iff, !Qle_bool_iff, Z.eqb_eq, Q.max_lub_iff, Q.min_glb_iff. split.
    - intros [[Ha K1] [Hb K2]]. split; [|split; assumption]. apply idx_unique. split; [assumption|].
      destruct N2; lra.
    - intros [E [Ha Hb]]. pose proof (idx_spec (mid p)) as I. rewrite <- E in I. repeat split; try assumption; lra.
  Qed.
End Line.

Lemma has_max l a b : has l a -> has l b -> has l (Qmax a b).
Proof.
  intros (x & Hx & Ex) (y & Hy & Ey). destruct (Q.max_spec a b) as [[_ E]|[_ E]]; [exists y|exists x]; split; auto; now rewrite E.
Qed.
Lemma has_min l a b : has l a -> has l b -> has l (Qmin a b).
Proof.
  intros (x & Hx & Ex) (y & Hy & Ey). destruct (Q.min_spec a b) as [[_ E]|[_ E]]; [exists x|exists y]; split; auto; now rewrite E.
Qed.

(** the rectangle lies in the file *)
Definition within (r : rect) (f : topofile) : Prop :=
  t_xlow f <= r_x1 r /\ r_x2 r <= t_xhi f /\ t_ylow f <= r_y1 r /\ r_y2 r <= t_yhi f.

Lemma clip_within f r : within r f -> clip f r = r.
Proof.
  intros (H1 & H2 & H3 & H4). unfold clip, qltb.
  assert (X : forall a b, a <= b -> Qle_bool a b = true) by (intros; now apply Qle_bool_iff).
  rewrite (X 0 (r_x1 r - t_xlow f)), (X (r_x2 r - t_xhi f) 0), (X 0 (r_y1 r - t_ylow f)), (X (r_y2 r - t_yhi f) 0) by lra.
  now destruct r.
Qed.

Definition patch (f : topofile) (ii jj : Z) (x y : Q) : Q :=
  (node f (ii + 1) jj - node f ii jj) * ((x - xline f ii) / t_dx f)
  + (node f ii (jj + 1) - node f ii jj) * ((y - yline f jj) / t_dy f)
  + (node f (ii + 1) (jj + 1) - node f (ii + 1) jj - node f ii (jj + 1) + node f ii jj)
    * ((x - xline f ii) / t_dx f) * ((y - yline f jj) / t_dy f)
  + node f ii jj.
Definition cellrect (f : topofile) (r : rect) (ii jj : Z) : rect :=
  mkRect (Qmax (r_x1 r) (xline f ii)) (Qmin (r_x2 r) (xline f (ii + 1)))
         (Qmax (r_y1 r) (yline f jj)) (Qmin (r_y2 r) (yline f (jj + 1))).

Lemma height_patch f x y : 0 < t_dx f -> 0 < t_dy f ->
  height f x y == patch f (idx (t_xlow f) (t_dx f) x) (idx (t_ylow f) (t_dy f) y) x y.
Proof. intros. unfold height, patch, idx. cbn zeta. ring. Qed.

Definition fits (f : topofile) (xs ys : list Q) : Prop :=
  (forall i, (1 <= i <= t_mx f)%Z -> has xs (xline f i)) /\ (forall j, (1 <= j <= t_my f)%Z -> has ys (yline f j)).
Definition edges (r : rect) (xs ys : list Q) : Prop :=
  has xs (r_x1 r) /\ has xs (r_x2 r) /\ has ys (r_y1 r) /\ has ys (r_y2 r).

Lemma cell_part_sum f r xs ys ii jj : valid f -> proper r -> within r f ->
  StronglySorted Qlt xs -> StronglySorted Qlt ys -> fits f xs ys -> edges r xs ys ->
  (iistart f r <= ii <= iiend f r - 1)%Z -> (jjstart f r <= jj <= jjend f r - 1)%Z ->
  cell_part f r ii jj == riemann xs ys (over (cellrect f r ii jj) (patch f ii jj)).
Proof.
  intros (Dx & Dy & Mx & My) [Px Py] (W1 & W2 & W3 & W4) Sx Sy [Fx Fy] (E1 & E2 & E3 & E4) Hi Hj.
  destruct (loop_range (t_xlow f) (t_dx f) (t_mx f) Dx (r_x1 r) (r_x2 r) ii W1 Px W2 Hi) as [Ri Li].
  destruct (loop_range (t_ylow f) (t_dy f) (t_my f) Dy (r_y1 r) (r_y2 r) jj W3 Py W4 Hj) as [Rj Lj].
  change (ln (t_xlow f) (t_dx f)) with (xline f) in Li. change (ln (t_ylow f) (t_dy f)) with (yline f) in Lj.
  unfold patch. rewrite bilinear_sum; try assumption.
  - unfold cell_part, bilinearintegral, cellrect, node. cbn [r_x1 r_x2 r_y1 r_y2].
    assert (X : xline f (ii + 1) = t_xlow f + inject_Z ii * t_dx f) by (unfold xline; now replace (ii + 1 - 1)%Z with ii by lia).
    assert (Y : yline f (jj + 1) = t_ylow f + inject_Z jj * t_dy f) by (unfold yline; now replace (jj + 1 - 1)%Z with jj by lia).
    rewrite X, Y. replace (t_my f - (jj + 1) + 1)%Z with (t_my f - jj + 1 - 1)%Z by lia.
    reflexivity.
  - apply has_max; [assumption|apply Fx; lia].
  - apply has_min; [assumption|apply Fx; lia].
  - apply has_max; [assumption|apply Fy; lia].
  - apply has_min; [assumption|apply Fy; lia].
  - lra.
  - lra.
Qed.

Lemma topointegral_sum f r xs ys : valid f -> proper r -> within r f ->
  StronglySorted Qlt xs -> StronglySorted Qlt ys -> fits f xs ys -> edges r xs ys ->
  topointegral f r == riemann xs ys (over r (height f)).
Proof.
  intros V P W Sx Sy F E. unfold topointegral. rewrite (clip_within f r W).
  set (I := range (iistart f r) (iiend f r - 1)). set (J := range (jjstart f r) (jjend f r - 1)).
  transitivity (riemann xs ys (fun x y => qsum (map (fun jj => qsum (map (fun ii => over (cellrect f r ii jj) (patch f ii jj) x y) I)) J))).
  - rewrite (riemann_sum xs ys (fun jj x y => qsum (map (fun ii => over (cellrect f r ii jj) (patch f ii jj) x y) I)) J).
    apply qsum_ext. intros jj Hj.
    rewrite (riemann_sum xs ys (fun ii x y => over (cellrect f r ii jj) (patch f ii jj) x y) I).
    apply qsum_ext. intros ii Hi. apply range_in in Hi, Hj. now apply cell_part_sum.
  - apply riemann_ext. intros p q Hp Hq.
    destruct V as (Dx & Dy & Mx & My), P as [Px Py], W as (W1 & W2 & W3 & W4), F as [Fx Fy], E as (E1 & E2 & E3 & E4).
    pose proof (pairs_lt xs p Sx Hp) as Lp. pose proof (pairs_lt ys q Sy Hq) as Lq.
    assert (Mp : fst p < mid p /\ mid p < snd p) by (unfold mid; lra).
    assert (Mq : fst q < mid q /\ mid q < snd q) by (unfold mid; lra).
    set (i0 := idx (t_xlow f) (t_dx f) (mid p)). set (j0 := idx (t_ylow f) (t_dy f) (mid q)).
    set (rx := Qle_bool (r_x1 r) (mid p) && Qle_bool (mid p) (r_x2 r)).
    set (ry := Qle_bool (r_y1 r) (mid q) && Qle_bool (mid q) (r_y2 r)).
    transitivity (qsum (map (fun jj => if (jj =? j0)%Z then qsum (map (fun ii => if (ii =? i0)%Z then
        (if rx && ry then patch f ii jj (mid p) (mid q) else 0) else 0) I) else 0) J)).
    + apply qsum_ext. intros jj Hj. apply range_in in Hj.
      destruct (loop_range (t_ylow f) (t_dy f) (t_my f) Dy (r_y1 r) (r_y2 r) jj W3 Py W4 Hj) as [Rj _].
      transitivity (qsum (map (fun ii => if (jj =? j0)%Z then if (ii =? i0)%Z then
        (if rx && ry then patch f ii jj (mid p) (mid q) else 0) else 0 else 0) I)).
      * apply qsum_ext. intros ii Hi. apply range_in in Hi.
        destruct (loop_range (t_xlow f) (t_dx f) (t_mx f) Dx (r_x1 r) (r_x2 r) ii W1 Px W2 Hi) as [Ri _].
        unfold over, inside, cellrect. cbn [r_x1 r_x2 r_y1 r_y2].
        pose proof (seg_bool (t_xlow f) (t_dx f) (t_mx f) Dx (r_x1 r) (r_x2 r) p ii W1 Px W2 Ri Lp
          (pairs_nocross xs _ p Sx (Fx ii ltac:(lia)) Hp) (pairs_nocross xs _ p Sx (Fx (ii + 1)%Z ltac:(lia)) Hp)) as B1.
        pose proof (seg_bool (t_ylow f) (t_dy f) (t_my f) Dy (r_y1 r) (r_y2 r) q jj W3 Py W4 Rj Lq
          (pairs_nocross ys _ q Sy (Fy jj ltac:(lia)) Hq) (pairs_nocross ys _ q Sy (Fy (jj + 1)%Z ltac:(lia)) Hq)) as B2.
        change (ln (t_xlow f) (t_dx f)) with (xline f) in B1. change (ln (t_ylow f) (t_dy f)) with (yline f) in B2.
        rewrite B1, B2. fold i0 j0 rx ry.
        destruct (ii =? i0)%Z, (jj =? j0)%Z, rx, ry; reflexivity.
      * destruct (jj =? j0)%Z; [reflexivity|apply qsum_zero].
    + unfold over, inside. fold rx ry. destruct (rx && ry) eqn:R.
      * apply andb_true_iff in R. destruct R as [Rx Ry]. unfold rx, ry in Rx, Ry.
        rewrite andb_true_iff, !Qle_bool_iff in Rx, Ry.
        destruct (pairs_nocross xs _ p Sx E1 Hp), (pairs_nocross xs _ p Sx E2 Hp); try (exfalso; lra).
        destruct (pairs_nocross ys _ q Sy E3 Hq), (pairs_nocross ys _ q Sy E4 Hq); try (exfalso; lra).
        assert (Ii : In i0 I) by (apply range_in; apply (idx_range (t_xlow f) (t_dx f) (t_mx f) Dx); auto; lra).
        assert (Jj : In j0 J) by (apply range_in; apply (idx_range (t_ylow f) (t_dy f) (t_my f) Dy); auto; lra).
        rewrite (qsum_single J j0 (fun jj => qsum (map (fun ii => if (ii =? i0)%Z then patch f ii jj (mid p) (mid q) else 0) I)) (range_nodup _ _) Jj).
        rewrite (qsum_single I i0 (fun ii => patch f ii j0 (mid p) (mid q)) (range_nodup _ _) Ii).
        symmetry. now apply height_patch.
      * transitivity (qsum (map (fun _ : Z => 0) J)); [|apply qsum_zero]. apply qsum_ext. intros jj _.
        destruct (jj =? j0)%Z; [|reflexivity]. transitivity (qsum (map (fun _ : Z => 0) I)); [|apply qsum_zero].
        apply qsum_ext. intros ii _. destruct (ii =? i0)%Z; reflexivity.
Qed.
