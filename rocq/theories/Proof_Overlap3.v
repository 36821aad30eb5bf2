From Coq Require Import ZArith List Bool Lia Permutation Arith Sorted.
From Verif Require Import Model_Face Model_Domain Spec_Domain Model_Search Spec_Search Proof_Search Proof_Search2 Proof_Search3 Proof_Search4 Model_Overlap Spec_Overlap Proof_Overlap1 Proof_Overlap2.
Import ListNotations.
Open Scope Z_scope.

(** *** which process gets a point *)
Inductive sub {A} : list A -> list A -> Prop :=
| sub_nil : sub [] []
| sub_skip : forall x l l', sub l l' -> sub l (x :: l')
| sub_keep : forall x l l', sub l l' -> sub (x :: l) (x :: l').
Lemma sub_none : forall A (l : list A), sub [] l.
Proof. induction l; constructor; assumption. Qed.
Lemma sub_app : forall A (a b c e : list A), sub a b -> sub c e -> sub (a ++ c) (b ++ e).
Proof. intros A a b c e H K. induction H; cbn; [exact K|now constructor|now constructor]. Qed.
Lemma sub_in : forall A (l l' : list A) x, sub l l' -> In x l -> In x l'.
Proof. intros A l l' x H. induction H; intros X; [exact X|right; auto|destruct X as [->|X]; [now left|right; auto]]. Qed.
Lemma sub_sorted : forall l l', sub l l' -> StronglySorted Z.le l' -> StronglySorted Z.le l.
Proof.
  intros l l' H. induction H; intros K; [exact K|inversion K; auto|]. inversion K as [|? ? K1 K2]; subst. constructor; [auto|].
  rewrite Forall_forall in *. intros y Y. apply K2. exact (sub_in _ _ _ _ H Y).
Qed.

Lemma within_trans : forall d a b c, within d a b -> within d b c -> within d a c.
Proof. intros d a b c (A1 & A2 & A3) (B1 & B2 & B3). unfold within. destruct d; repeat split; lia. Qed.

Section Owner.
  Variable V : Type.
  Variable d : dim.
  Variable interpolate : site -> quad -> Z -> Z -> V -> bool * V.
  Variable machine : list (list block * list (option stree)).
  Variable ptrees : list stree.
  Hypothesis US : usable V d interpolate machine ptrees.
  Hypothesis PO : partition_ok d machine ptrees.
  Variable vs : list V.
  Notation hits := (hits V interpolate vs).
  Notation all_hits := (all_hits V interpolate vs).

  Lemma hits_subseq : forall tree i t, sub (hits tree i t) (map snd (leaves t)).
  Proof.
    intros tree i t. induction t as [q k|q ch IH] using stree_rect'; cbn [Proof_Overlap2.hits leaves].
    - destruct (test V interpolate vs tree q k i); [apply sub_keep; apply sub_nil|apply sub_none].
    - destruct (test V interpolate vs tree q (-1) i); [|apply sub_none].
      induction ch as [|t ch IHc]; [apply sub_nil|]. cbn [flat_map]. rewrite map_app. apply sub_app; [apply IH; now left|apply IHc; intros t' T; apply IH; now right].
  Qed.
  Lemma all_hits_subseq : forall f tree i, sub (all_hits tree i f) (map snd (flat_map leaves f)).
  Proof. induction f as [|t f IH]; intros tree i; [apply sub_nil|]. cbn [Proof_Overlap2.all_hits flat_map]. rewrite map_app. apply sub_app; [apply hits_subseq|apply IH]. Qed.

  (** a hit is a quadrant with one owner that was reported *)
  Lemma hits_leaf : forall tree i t r, In r (hits tree i t) -> exists a, In (a, r) (leaves t) /\ test V interpolate vs tree a r i = true.
  Proof.
    intros tree i t. induction t as [q k|q ch IH] using stree_rect'; intros r H; cbn [Proof_Overlap2.hits leaves] in *.
    - destruct (test V interpolate vs tree q k i) eqn:T; [|destruct H]. destruct H as [<-|[]]. exists q. split; [now left|exact T].
    - destruct (test V interpolate vs tree q (-1) i); [|destruct H]. apply in_flat_map in H. destruct H as (t & T & H). destruct (IH t T r H) as (a & A1 & A2).
      exists a. split; [apply in_flat_map; eauto|exact A2].
  Qed.
  Lemma all_hits_leaf : forall f tree i r, In r (all_hits tree i f) -> exists j t a, nth_error f j = Some t /\ In (a, r) (leaves t) /\ test V interpolate vs (tree + Z.of_nat j) a r i = true.
  Proof.
    induction f as [|t f IH]; intros tree i r H; [destruct H|]. cbn [Proof_Overlap2.all_hits] in H. apply in_app_or in H. destruct H as [H|H].
    - destruct (hits_leaf _ _ _ _ H) as (a & A1 & A2). exists 0%nat, t, a. rewrite Z.add_0_r. auto.
    - destruct (IH _ _ _ H) as (j & t' & a & A1 & A2 & A3). exists (S j), t', a. split; [exact A1|]. split; [exact A2|].
      replace (tree + Z.of_nat (S j)) with (tree + 1 + Z.of_nat j) by lia. exact A3.
  Qed.
  (** a reported quadrant with one owner is a hit, if all quadrants around it are reported *)
  Lemma leaf_hits : forall tree i t a r, nested d t -> In (a, r) (leaves t) -> test V interpolate vs tree a r i = true ->
    (forall b, within d a b -> test V interpolate vs tree b (-1) i = true) -> In r (hits tree i t).
  Proof.
    intros tree i t. induction t as [q k|q ch IH] using stree_rect'; intros a r N H T W; cbn [Proof_Overlap2.hits leaves] in *.
    - destruct H as [H|[]]. assert (q = a) by congruence. assert (k = r) by congruence. subst. rewrite T. now left.
    - inversion N as [|? ? Wq N1 N2]; subst. rewrite (W q (N2 _ H)). apply in_flat_map in H. destruct H as (t & T1 & H). apply in_flat_map. exists t. split; [exact T1|].
      apply (IH t T1 a r (N1 t T1) H T W).
  Qed.
  Lemma all_hits_in : forall f tree i j t r, nth_error f j = Some t -> In r (hits (tree + Z.of_nat j) i t) -> In r (all_hits tree i f).
  Proof.
    induction f as [|t0 f IH]; intros tree i j t r E H; [destruct j; discriminate|]. cbn [Proof_Overlap2.all_hits]. apply in_or_app. destruct j as [|j].
    - left. cbn in E. rewrite Z.add_0_r in H. congruence.
    - right. apply (IH (tree + 1) i j t r E). replace (tree + 1 + Z.of_nat j) with (tree + Z.of_nat (S j)) by lia. exact H.
  Qed.

  Lemma leaves_of_nonneg : forall pr jb i q, In (jb, i, q) (leaves_of pr) -> 0 <= i.
  Proof.
    intros pr jb i q H. unfold leaves_of in H. apply in_flat_map in H. destruct H as ((jb' & b) & _ & H). apply in_map_iff in H. destruct H as ((i' & q') & H1 & H2).
    assert (i' = i) by congruence. subst i'. apply in_number in H2. apply zget_ge in H2. lia.
  Qed.

  Lemma owner_ok : forall i v, nth_error vs i = Some v ->
    (hd (-1) (all_hits 0 i ptrees) = -1 /\ forall p, ~ contributes V interpolate machine p v) \/
    (exists p, (p < length machine)%nat /\ hd (-1) (all_hits 0 i ptrees) = Z.of_nat p /\ lowest_contributing V interpolate machine p v).
  Proof.
    intros i v Hv. destruct US as (_ & _ & _ & U4 & U5). destruct PO as (P1 & P2 & P3 & P4). rewrite Forall_forall in P1, P3.
    assert (A : forall p, contributes V interpolate machine p v -> In (Z.of_nat p) (all_hits 0 i ptrees)).
    { intros p (pr & ((jb & k) & q) & H1 & H2 & H3). destruct (P4 p pr jb k q H1 H2) as (t & a & E & IA & W). assert (K := leaves_of_nonneg _ _ _ _ H2).
      destruct (zget_ge _ _ _ _ E) as (J0 & _). rewrite zget_nat in E by exact J0.
      apply (all_hits_in _ 0 i (Z.to_nat jb) t _ E). rewrite Z.add_0_l, Z2Nat.id by exact J0.
      apply (leaf_hits _ _ _ a); [apply P1; exact (nth_error_In _ _ E)|exact IA| |].
      - unfold test. rewrite Hv. apply (U4 p jb k q a v K W H3).
      - intros b WB. unfold test. rewrite Hv. apply (U4 p jb k q b v K (within_trans _ _ _ _ W WB) H3). }
    assert (B : forall r, In r (all_hits 0 i ptrees) -> 0 <= r < Z.of_nat (length machine) /\ contributes V interpolate machine (Z.to_nat r) v).
    { intros r H. assert (R : 0 <= r < Z.of_nat (length machine)). { apply P3. exact (sub_in _ _ _ _ (all_hits_subseq ptrees 0 i) H). }
      split; [exact R|]. destruct (all_hits_leaf _ _ _ _ H) as (j & t & a & E & IA & T). unfold test in T. rewrite Hv in T.
      rewrite Z.add_0_l in T. rewrite <- (Z2Nat.id r) in IA, T by lia. apply (U5 _ (Z.of_nat j) t a v); [rewrite zget_of_nat; exact E|exact IA|exact T]. }
    assert (SO := sub_sorted _ _ (all_hits_subseq ptrees 0 i) P2).
    destruct (all_hits 0 i ptrees) as [|r l] eqn:E.
    - left. split; [reflexivity|]. intros p H. exact (A p H).
    - right. destruct (B r (or_introl eq_refl)) as (R & C). exists (Z.to_nat r). split; [lia|]. split; [cbn [hd]; lia|]. split; [exact C|].
      intros p' L H. inversion SO as [|? ? _ F]; subst. rewrite Forall_forall in F. destruct (A p' H) as [X|X]; [lia|]. specialize (F _ X). lia.
  Qed.
End Owner.

(** *** arrays *)
Lemma index_none : forall r ranks i found, ~ In r ranks -> index_of r i ranks found = found.
Proof. induction ranks as [|x l IH]; intros i found H; [reflexivity|]. cbn [index_of]. destruct (Z.eqb_spec x r) as [->|NE]; [exfalso; apply H; now left|]. apply IH. intros X. apply H. now right. Qed.
Lemma index_some : forall r ranks i found k, NoDup ranks -> nth_error ranks k = Some r -> index_of r i ranks found = i + Z.of_nat k.
Proof.
  induction ranks as [|x l IH]; intros i found k ND E; [destruct k; discriminate|]. inversion ND as [|? ? N1 N2]; subst. cbn [index_of]. destruct k as [|k].
  - cbn in E. assert (x = r) by congruence. subst x. rewrite Z.eqb_refl, index_none by exact N1. lia.
  - cbn in E. rewrite (IH _ _ k N2 E). lia.
Qed.
Definition count (l : list bool) : Z := Z.of_nat (length (filter (fun b => b) l)).
Lemma count_cons : forall b l, count (b :: l) = (if b then 1 else 0) + count l.
Proof. intros [|] l; unfold count; cbn [filter length]; lia. Qed.
Lemma count_upd : forall l i, nth_error l i = Some true -> count (upd l i false) = count l - 1.
Proof.
  induction l as [|b l IH]; intros i H; [destruct i; discriminate|]. destruct i as [|i]; cbn [nth_error upd] in *; rewrite !count_cons.
  - replace b with true by congruence. lia.
  - rewrite (IH i H). lia.
Qed.
Lemma count_nonneg : forall l, 0 <= count l.
Proof. intros l. unfold count. lia. Qed.
Lemma count_zero : forall l, count l <= 0 -> forall i b, nth_error l i = Some b -> b = false.
Proof.
  induction l as [|x l IH]; intros H i b E; [destruct i; discriminate|]. rewrite count_cons in H. pose proof (count_nonneg l). destruct i as [|i]; cbn in E.
  - destruct x; [lia|congruence].
  - apply (IH ltac:(destruct x; lia) i b E).
Qed.
Lemma count_pos : forall l, 0 < count l -> exists i, nth_error l i = Some true.
Proof.
  induction l as [|x l IH]; intros H; [cbn in H; lia|]. rewrite count_cons in H. destruct x; [exists 0%nat; reflexivity|]. destruct (IH ltac:(lia)) as (i & E). exists (S i). exact E.
Qed.
(** all requests but the one of the own rank *)
Lemma count_others : forall A (key : A -> Z) r l, NoDup (map key l) ->
  count (map (fun x => negb (key x =? r)) l) = Z.of_nat (length l) - (if 0 <=? index_of r 0 (map key l) (-1) then 1 else 0).
Proof.
  intros A key r l ND. destruct (in_dec Z.eq_dec r (map key l)) as [I|NI].
  - destruct (In_nth_error _ _ I) as (k & E). rewrite (index_some _ _ _ _ k ND E). destruct (Z.leb_spec 0 (0 + Z.of_nat k)); [|lia].
    clear H. revert k E I ND. induction l as [|x l IH]; intros k E I ND; [destruct I|]. cbn [map] in *. inversion ND as [|? ? N1 N2]; subst. rewrite count_cons. cbn [length]. destruct k as [|k].
    + cbn in E. assert (key x = r) by congruence. rewrite H, Z.eqb_refl. cbn [negb].
      assert (count (map (fun x0 => negb (key x0 =? r)) l) = Z.of_nat (length l)); [|lia]. rewrite H in N1. clear - N1. induction l as [|y l IH]; [reflexivity|]. cbn [map] in *. rewrite count_cons. cbn [length].
      destruct (Z.eqb_spec (key y) r) as [X|X]; [exfalso; apply N1; now left|]. cbn [negb]. rewrite IH; [lia|]. intros Y. apply N1. now right.
    + cbn in E. assert (X := nth_error_In _ _ E). destruct (Z.eqb_spec (key x) r) as [Y|Y]; [exfalso; apply N1; now rewrite Y|]. cbn [negb]. rewrite (IH k E X N2). lia.
  - rewrite index_none by exact NI. cbn [Z.leb Z.compare]. induction l as [|x l IH]; [reflexivity|]. cbn [map] in *. rewrite count_cons. cbn [length].
    destruct (Z.eqb_spec (key x) r) as [X|X]; [exfalso; apply NI; now left|]. cbn [negb]. inversion ND; subst. rewrite IH; [lia|assumption|]. intros Y. apply NI. now right.
Qed.
(** clearing one request *)
Lemma clear_one : forall A (key : A -> Z) (f : A -> bool) l i x, NoDup (map key l) -> nth_error l i = Some x ->
  upd (map f l) i false = map (fun y => f y && negb (key y =? key x)) l.
Proof.
  induction l as [|y l IH]; intros i x ND E; [destruct i; discriminate|]. cbn [map] in *. inversion ND as [|? ? N1 N2]; subst. destruct i as [|i]; cbn [nth_error upd] in *.
  - assert (y = x) by congruence. subst y. rewrite Z.eqb_refl, andb_false_r. f_equal. apply map_ext_in. intros z Z0. destruct (Z.eqb_spec (key z) (key x)) as [X|X]; [|now rewrite andb_true_r].
    exfalso. apply N1. rewrite <- X. now apply in_map.
  - assert (X := nth_error_In _ _ E). destruct (Z.eqb_spec (key y) (key x)) as [Y|Y]; [exfalso; apply N1; rewrite Y; now apply in_map|]. rewrite andb_true_r. f_equal. apply IH; assumption.
Qed.

Lemma copy_back_ok : forall V (f : V -> V) vs ops ids, Forall2 (fun v i => nth_error vs i = Some v) ops ids -> NoDup ids -> forall pts, length pts = length vs ->
  exists pts', copy_back V (map f ops) ids pts = Some pts' /\ length pts' = length vs /\
    (forall i v, In i ids -> nth_error vs i = Some v -> nth_error pts' i = Some (f v)) /\ (forall i, ~ In i ids -> nth_error pts' i = nth_error pts i).
Proof.
  intros V f vs ops ids F. induction F as [|v i ops ids E F IH]; intros ND pts L.
  - exists pts. split; [reflexivity|]. split; [exact L|]. split; [contradiction|reflexivity].
  - inversion ND as [|? ? N1 N2]; subst. cbn [map copy_back]. assert (LI := nth_some_lt _ _ _ _ E). rewrite put_upd by lia. cbn [bind].
    destruct (IH N2 (upd pts i (f v))) as (pts' & C1 & C2 & C3 & C4); [rewrite upd_length; exact L|]. exists pts'. split; [exact C1|]. split; [exact C2|]. split.
    + intros j w [<-|J] Hw; [|exact (C3 j w J Hw)]. rewrite (C4 i N1). replace w with v by congruence. apply upd_same. lia.
    + intros j J. rewrite C4 by (intros X; apply J; now right). apply upd_other. intros X. apply J. now left.
Qed.
