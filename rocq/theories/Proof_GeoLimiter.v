(** Proofs about the limiter. *)
From Coq Require Import ZArith QArith Qminmax Qabs List Bool Lia Lqa.
From Verif Require Import Model_GeoLimiter Spec_GeoLimiter.
Import ListNotations.
Open Scope Q_scope.

Lemma total_ext n f g : (forall m, (1 <= m <= Z.of_nat n)%Z -> f m = g m) -> total n f = total n g.
Proof.
  induction n as [|n IH]; intros H; [reflexivity|]. cbn [total]. rewrite IH by (intros; apply H; lia). now rewrite H by lia.
Qed.
Lemma total_eq n f g : (forall m, f m == g m) -> total n f == total n g.
Proof. intros H. induction n as [|n IH]; [reflexivity|]. cbn [total]. now rewrite IH, H. Qed.
Lemma sums_eq meqn w mw i : sums meqn w mw i = (inner meqn w mw i i, inner meqn w mw i (i + 1)%Z).
Proof.
  unfold sums, inner, zlist. replace (meqn - 1 + 1)%Z with meqn by lia. generalize (Z.to_nat meqn). clear meqn. intros n.
  induction n as [|n IH]; [reflexivity|].
  rewrite seq_S, map_app, fold_left_app, IH. cbn [Nat.add map fold_left fst snd total].
  replace (1 + Z.of_nat n)%Z with (Z.of_nat (S n)) by lia. reflexivity.
Qed.
Lemma inner_ext meqn w w' mw i k :
  (forall m, (1 <= m <= meqn)%Z -> w m mw i = w' m mw i /\ w m mw k = w' m mw k) -> inner meqn w mw i k = inner meqn w' mw i k.
Proof. intros H. apply total_ext. intros m Hm. destruct (H m ltac:(lia)) as [-> ->]. reflexivity. Qed.
Lemma inner_comm meqn w mw i k : inner meqn w mw i k == inner meqn w mw k i.
Proof. apply total_eq. intros m. ring. Qed.

Definition factor (nan : Q) (meqn : Z) (s : Z -> Z -> Q) (meth : Z) (w : waves) (mw i : Z) : Q :=
  if negb (Qle_bool (s mw i) 0) then philim nan (inner meqn w mw i i) (inner meqn w mw (i - 1) i) meth
  else philim nan (inner meqn w mw i i) (inner meqn w mw i (i + 1)%Z) meth.
Definition limval (nan : Q) (meqn : Z) (s : Z -> Z -> Q) (meth : Z) (w : waves) (m mw i : Z) : Q :=
  if Qeq_bool (inner meqn w mw i i) 0 then w m mw i else factor nan meqn s meth w mw i * w m mw i.

Lemma sweep nan meqn s meth mw w n :
  let st := fold_left (interface nan meqn s meth mw) (map (fun k => (0 + Z.of_nat k)%Z) (seq 0 n)) (w, 0) in
  (forall m mw' i, fst st m mw' i =
     if (mw' =? mw)%Z && (1 <=? i)%Z && (i <? Z.of_nat n)%Z && (1 <=? m)%Z && (m <=? meqn)%Z then limval nan meqn s meth w m mw i else w m mw' i) /\
  ((0 < n)%nat -> snd st = inner meqn w mw (Z.of_nat n - 1) (Z.of_nat n)).
Proof.
  cbv zeta. induction n as [|n IH].
  - split; [|lia]. intros m mw' i. cbn [seq map fold_left fst]. destruct (Z.ltb_spec i (Z.of_nat 0)), (Z.leb_spec 1 i); try lia; now rewrite ?andb_false_r.
  - rewrite seq_S, map_app, fold_left_app. cbn [Nat.add map fold_left].
    destruct (fold_left (interface nan meqn s meth mw) (map (fun k => (0 + Z.of_nat k)%Z) (seq 0 n)) (w, 0)) as [w' dotl].
    destruct IH as [A B]. cbn [fst snd] in A, B. rewrite Z.add_0_l.
    assert (S0 : forall m i, (Z.of_nat n <= i)%Z -> w' m mw i = w m mw i).
    { intros m i Hi. rewrite A. destruct (Z.ltb_spec i (Z.of_nat n)); [lia|]. now rewrite !andb_false_r. }
    unfold interface. rewrite sums_eq.
    rewrite (inner_ext meqn w' w mw (Z.of_nat n) (Z.of_nat n)) by (intros; split; apply S0; lia).
    rewrite (inner_ext meqn w' w mw (Z.of_nat n) (Z.of_nat n + 1)) by (intros; split; apply S0; lia).
    replace (Z.of_nat (S n)) with (Z.of_nat n + 1)%Z by lia. replace (Z.of_nat n + 1 - 1)%Z with (Z.of_nat n) by lia.
    assert (KEEP : (Z.of_nat n = 0%Z \/ Qeq_bool (inner meqn w mw (Z.of_nat n) (Z.of_nat n)) 0 = true) -> forall m mw' i,
      w' m mw' i = if (mw' =? mw)%Z && (1 <=? i)%Z && (i <? Z.of_nat n + 1)%Z && (1 <=? m)%Z && (m <=? meqn)%Z then limval nan meqn s meth w m mw i else w m mw' i).
    { intros Z0 m mw' i. rewrite A. destruct (Z.eqb_spec mw' mw) as [->|]; [|reflexivity]. cbn [andb].
      destruct (Z.eq_dec i (Z.of_nat n)) as [->|N].
      - destruct (Z.ltb_spec (Z.of_nat n) (Z.of_nat n)); [lia|]. rewrite !andb_false_r. cbn [andb].
        destruct Z0 as [Z0|Z0].
        + rewrite Z0. reflexivity.
        + unfold limval. rewrite Z0. now destruct (_ && _).
      - replace (i <? Z.of_nat n + 1)%Z with (i <? Z.of_nat n)%Z; [reflexivity|]. destruct (Z.ltb_spec i (Z.of_nat n)), (Z.ltb_spec i (Z.of_nat n + 1)); lia || reflexivity. }
    destruct (Z.eqb_spec (Z.of_nat n) 0) as [E0|N0]; [split; [apply KEEP; now left|reflexivity]|].
    destruct (Qeq_bool (inner meqn w mw (Z.of_nat n) (Z.of_nat n)) 0) eqn:E; [split; [apply KEEP; now right|reflexivity]|].
    split; [|reflexivity]. clear KEEP. rewrite B by lia. intros m mw' i. cbn [fst]. unfold scale.
    destruct (Z.eqb_spec mw' mw) as [->|]; cbn [andb]; [|rewrite A; destruct (Z.eqb_spec mw' mw); [contradiction|reflexivity]].
    destruct (Z.eqb_spec i (Z.of_nat n)) as [->|N]; cbn [andb].
    + destruct (Z.leb_spec 1 (Z.of_nat n)); [|lia]. destruct (Z.ltb_spec (Z.of_nat n) (Z.of_nat n + 1)); [|lia]. cbn [andb].
      rewrite (S0 m (Z.of_nat n)) by lia. unfold limval, factor. rewrite E. destruct ((1 <=? m)%Z && (m <=? meqn)%Z); reflexivity.
    + rewrite A, Z.eqb_refl. cbn [andb].
      replace (i <? Z.of_nat n + 1)%Z with (i <? Z.of_nat n)%Z; [reflexivity|]. destruct (Z.ltb_spec i (Z.of_nat n)), (Z.ltb_spec i (Z.of_nat n + 1)); lia || reflexivity.
Qed.

Lemma limval_ext nan meqn s meth w w' m mw i : (1 <= m <= meqn)%Z -> (forall m i, w m mw i = w' m mw i) -> limval nan meqn s meth w m mw i = limval nan meqn s meth w' m mw i.
Proof.
  intros Hm H. unfold limval, factor. rewrite (inner_ext meqn w w' mw i i), (inner_ext meqn w w' mw (i - 1) i), (inner_ext meqn w w' mw i (i + 1)), H by (intros; split; apply H). reflexivity.
Qed.
Lemma limiter_eq nan meqn mwaves mx s mthlim w m mw i : (-1 <= mx)%Z ->
  limiter nan meqn mwaves mx s mthlim w m mw i =
  if (1 <=? mw)%Z && (mw <=? mwaves)%Z && negb (mthlim mw =? 0)%Z && (1 <=? i)%Z && (i <=? mx + 1)%Z && (1 <=? m)%Z && (m <=? meqn)%Z
  then limval nan meqn s (mthlim mw) w m mw i else w m mw i.
Proof.
  intros Hx. unfold limiter, zlist. replace (mwaves - 1 + 1)%Z with mwaves by lia.
  destruct (Z.ltb_spec mwaves 0) as [L|L].
  { replace (Z.to_nat mwaves) with O by lia. cbn [seq map fold_left]. destruct (Z.leb_spec 1 mw), (Z.leb_spec mw mwaves); try lia; reflexivity. }
  rewrite <- (Z2Nat.id mwaves) at 2 by lia. clear L. generalize (Z.to_nat mwaves). intros n. revert m mw i.
  induction n as [|n IH]; intros m mw i.
  - cbn [seq map fold_left]. destruct (Z.leb_spec 1 mw), (Z.leb_spec mw (Z.of_nat 0)); try lia; reflexivity.
  - rewrite seq_S, map_app, fold_left_app. cbn [Nat.add map fold_left].
    set (w1 := fold_left _ (map _ (seq 0 n)) w) in *. replace (1 + Z.of_nat n)%Z with (Z.of_nat (S n)) by lia.
    set (k := Z.of_nat (S n)). assert (Hk : k = (Z.of_nat n + 1)%Z) by (unfold k; lia).
    assert (O : forall m i, w1 m k i = w m k i).
    { intros m' i'. rewrite IH. destruct (Z.leb_spec k (Z.of_nat n)); [lia|]. now rewrite ?andb_false_r. }
    destruct (Z.eq_dec mw k) as [->|N].
    + destruct (Z.leb_spec 1 k); [|lia]. destruct (Z.leb_spec k k); [|lia]. cbn [andb].
      destruct (mthlim k =? 0)%Z; cbn [negb andb]; [apply O|].
      destruct (sweep nan meqn s (mthlim k) k w1 (Z.to_nat (mx + 1 - 0 + 1))) as [A _]. rewrite A, Z.eqb_refl. cbn [andb].
      replace (Z.of_nat (Z.to_nat (mx + 1 - 0 + 1))) with (mx + 2)%Z by lia.
      replace (i <=? mx + 1)%Z with (i <? mx + 2)%Z by (destruct (Z.ltb_spec i (mx + 2)), (Z.leb_spec i (mx + 1)); lia || reflexivity).
      destruct ((1 <=? i)%Z && (i <? mx + 2)%Z && (1 <=? m)%Z && (m <=? meqn)%Z) eqn:G; [|apply O].
      rewrite !andb_true_iff, !Z.leb_le in G. apply limval_ext; [lia|exact O].
    + replace (mw <=? k)%Z with (mw <=? Z.of_nat n)%Z by (destruct (Z.leb_spec mw (Z.of_nat n)), (Z.leb_spec mw k); lia || reflexivity).
      rewrite <- IH. destruct (mthlim k =? 0)%Z; [reflexivity|].
      destruct (sweep nan meqn s (mthlim k) k w1 (Z.to_nat (mx + 1 - 0 + 1))) as [A _]. rewrite A.
      destruct (Z.eqb_spec mw k); [contradiction|reflexivity].
Qed.

(** the function *)
Lemma philim_phi nan a b meth r : ~ a == 0 -> r == b / a -> philim nan a b meth == phi meth r.
Proof.
  intros Na E. unfold philim, phi. destruct (Qeq_bool a 0) eqn:Z0; [apply Qeq_bool_iff in Z0; contradiction|].
  unfold fdiv. rewrite Z0. set (t := b / a) in *. clearbody t. clear Z0 Na a b.
  destruct (Z.eqb_spec meth 5) as [->|N5]; [cbn; now symmetry|].
  assert (X : forall x y, (Qmin x y == x /\ x <= y) \/ (Qmin x y == y /\ y <= x)).
  { intros x y. destruct (Qlt_le_dec x y); [left; split; [apply Q.min_l|]; lra|right; split; [apply Q.min_r|]; lra]. }
  assert (Y : forall x y, (Qmax x y == y /\ x <= y) \/ (Qmax x y == x /\ y <= x)).
  { intros x y. destruct (Qlt_le_dec x y); [left; split; [apply Q.max_r|]; lra|right; split; [apply Q.max_l|]; lra]. }
  destruct (meth =? 2)%Z; [|destruct (meth =? 3)%Z; [|destruct (meth =? 4)%Z]].
  - destruct (X 1 (2 * t)) as [[X1 ?]|[X1 ?]]; destruct (X 2 t) as [[X2 ?]|[X2 ?]]; destruct (Y 0 (Qmin 1 (2 * t))) as [[Y1 ?]|[Y1 ?]];
    destruct (Y (Qmax 0 (Qmin 1 (2 * t))) (Qmin 2 t)) as [[Y2 ?]|[Y2 ?]];
    repeat destruct (Qlt_le_dec _ _); lra.
  - assert (NZ : Qeq_bool (1 + Qabs t) 0 = false).
    { pose proof (Qabs_nonneg t). destruct (Qeq_bool (1 + Qabs t) 0) eqn:G; [apply Qeq_bool_iff in G; lra|reflexivity]. }
    rewrite NZ. clear NZ. destruct (Qlt_le_dec 0 r).
    + rewrite Qabs_pos by lra. rewrite E. field. lra.
    + rewrite Qabs_neg by lra. setoid_replace (t + - t) with 0 by ring. unfold Qdiv. ring.
  - assert (C : (1 + t) / 2 == (1 # 2) * (1 + t)) by field. assert (C' : (1 + r) / 2 == (1 # 2) * (1 + r)) by field.
    set (u := (1 + t) / 2) in *. set (u' := (1 + r) / 2) in *. clearbody u u'. cbv zeta.
    destruct (X u 2) as [[X1 ?]|[X1 ?]]; destruct (X (Qmin u 2) (2 * t)) as [[X2 ?]|[X2 ?]]; destruct (Y 0 (Qmin (Qmin u 2) (2 * t))) as [[Y1 ?]|[Y1 ?]];
    repeat destruct (Qlt_le_dec _ _); lra.
  - destruct (X 1 t) as [[X1 ?]|[X1 ?]]; destruct (Y 0 (Qmin 1 t)) as [[Y1 ?]|[Y1 ?]]; repeat destruct (Qlt_le_dec _ _); lra.
Qed.
Lemma phi_eq meth r t : r == t -> phi meth r == phi meth t.
Proof.
  intros E. unfold phi. destruct (meth =? 5)%Z; [exact E|].
  destruct (meth =? 2)%Z; [|destruct (meth =? 3)%Z; [|destruct (meth =? 4)%Z]]; repeat destruct (Qlt_le_dec _ _); try lra; rewrite E; reflexivity.
Qed.
