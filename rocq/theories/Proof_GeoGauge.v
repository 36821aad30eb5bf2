(** Proofs about values recorded at a gauge. *)
From Coq Require Import ZArith QArith Qabs Qround Bool Lia Lqa Qfield.
From Verif Require Import Model_GeoGauge Spec_GeoGauge.
Open Scope Q_scope.

Lemma less_iff x y : less x y = true <-> x < y.
Proof.
  unfold less. rewrite negb_true_iff. split.
  - intros H. apply Qnot_le_lt. intros L. apply Qle_bool_iff in L. congruence.
  - intros H. destruct (Qle_bool y x) eqn:E; [|reflexivity]. apply Qle_bool_iff in E. exfalso. apply (Qlt_not_le _ _ H E).
Qed.
Lemma less_false x y : less x y = false <-> y <= x.
Proof.
  unfold less. rewrite negb_false_iff. apply Qle_bool_iff.
Qed.
Lemma fint_floor x : 0 <= x -> fint x = Qfloor x.
Proof. intros H. destruct x as [n d]. unfold fint, Qfloor. cbn [Qnum Qden]. apply Z.quot_div_nonneg; [|lia]. unfold Qle in H. cbn [Qnum Qden] in H. lia. Qed.
Lemma cell_contains lower d i x : 0 < d -> lower <= x -> contains lower d i x -> cell_of lower d x = i.
Proof.
  intros Hd Hx [A B]. unfold cell_of.
  assert (P : 0 <= (x - lower) / d) by (apply Qle_shift_div_l; lra). rewrite fint_floor by exact P.
  assert (L : inject_Z (i - 1) <= (x - lower) / d) by (apply Qle_shift_div_l; lra).
  assert (U : (x - lower) / d < inject_Z i) by (apply Qlt_shift_div_r; lra).
  pose proof (Qfloor_le ((x - lower) / d)) as F1. pose proof (Qlt_floor ((x - lower) / d)) as F2.
  assert (X1 : inject_Z (Qfloor ((x - lower) / d)) < inject_Z i) by lra. assert (X2 : inject_Z (i - 1) < inject_Z (Qfloor ((x - lower) / d) + 1)) by lra.
  rewrite <- Zlt_Qlt in X1, X2. lia.
Qed.
Lemma contains_exists lower d x : 0 < d -> lower <= x -> (1 <= cell_of lower d x)%Z /\ contains lower d (cell_of lower d x) x.
Proof.
  intros Hd Hx. unfold cell_of. assert (P : 0 <= (x - lower) / d) by (apply Qle_shift_div_l; lra). rewrite fint_floor by exact P.
  pose proof (Qfloor_le ((x - lower) / d)) as F1. pose proof (Qlt_floor ((x - lower) / d)) as F2.
  set (z := Qfloor ((x - lower) / d)) in *. assert (E : (x - lower) / d * d == x - lower) by (field; lra).
  set (y := (x - lower) / d) in *. clearbody y.
  split.
  - assert (X : inject_Z 0 < inject_Z (z + 1)) by (change (inject_Z 0) with 0; lra). rewrite <- Zlt_Qlt in X. lia.
  - unfold contains. replace (z + 1 - 1)%Z with z by lia. clearbody z.
    pose proof (Qmult_le_compat_r _ _ d F1 ltac:(lra)). pose proof (proj2 (Qmult_lt_r _ _ d Hd) F2). split; lra.
Qed.
Lemma offset_val lower d i x : 0 < d -> lower <= x -> contains lower d i x -> offset lower d x == (x - centre lower d i) / d.
Proof. intros Hd Hx C. unfold offset, centre. now rewrite (cell_contains lower d i x Hd Hx C). Qed.
Lemma flush_recorded x : recorded x (flush x).
Proof.
  unfold recorded, flush. destruct (less (Qabs x) tiny) eqn:E; [apply less_iff in E; left|apply less_false in E; right]; (split; [exact E|reflexivity]).
Qed.
Lemma recorded_eq x y v : x == y -> recorded x v -> recorded y v.
Proof. intros E. unfold recorded. now rewrite E. Qed.
Lemma convex t a b lo hi : 0 <= t <= 1 -> lo <= a <= hi -> lo <= b <= hi -> lo <= (1 - t) * a + t * b <= hi.
Proof. intros. split; nra. Qed.
Lemma bilinear_between xo yo a b c d lo hi : 0 <= xo <= 1 -> 0 <= yo <= 1 -> lo <= a <= hi -> lo <= b <= hi -> lo <= c <= hi -> lo <= d <= hi ->
  lo <= bilinear xo yo a b c d <= hi.
Proof.
  intros X Y A B C D. pose proof (convex xo a b lo hi X A B) as P. pose proof (convex xo c d lo hi X C D) as R.
  pose proof (convex yo _ _ lo hi Y P R) as T.
  setoid_replace (bilinear xo yo a b c d) with ((1 - yo) * ((1 - xo) * a + xo * b) + yo * ((1 - xo) * c + xo * d)); [exact T|unfold bilinear; ring].
Qed.
