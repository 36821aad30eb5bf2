(** Lemmas about lists by position, files, and numbering. *)
From Coq Require Import ZArith List Bool Lia.
From Verif Require Import Base_Mem Model_Mesh Proof_Mesh Model_Vtk Spec_Vtk.
Import ListNotations.
Open Scope Z_scope.
Notation len l := (Z.of_nat (length l)).

Lemma zget_app1 : forall {A} (a b : list A) i, 0 <= i < len a -> zget (a ++ b) i = zget a i.
Proof. intros A a b i H. unfold zget. destruct (Z.ltb_spec i 0); [lia|]. apply nth_error_app1. lia. Qed.
Lemma zget_app2 : forall {A} (a b : list A) i, len a <= i -> zget (a ++ b) i = zget b (i - len a).
Proof.
  intros A a b i H. unfold zget. destruct (Z.ltb_spec i 0); [lia|]. destruct (Z.ltb_spec (i - len a) 0); [lia|].
  rewrite nth_error_app2 by lia. f_equal. lia.
Qed.
Lemma zget_lt : forall {A} (l : list A) i, 0 <= i < len l -> exists x, zget l i = Some x.
Proof.
  intros A l i H. unfold zget. destruct (Z.ltb_spec i 0); [lia|]. destruct (nth_error l (Z.to_nat i)) eqn:E; [eauto|].
  apply nth_error_None in E. lia.
Qed.
Lemma zget_dom : forall {A} (l : list A) i x, zget l i = Some x -> 0 <= i < len l.
Proof. intros A l i x H. exact (proj2 (zget_in _ _ _ _ H)). Qed.
Lemma zget_some_in : forall {A} (l : list A) i x, zget l i = Some x -> In x l.
Proof. intros A l i x H. unfold zget in H. destruct (i <? 0); [discriminate|]. now apply nth_error_In in H. Qed.
Lemma zget_cons : forall {A} (x : A) l i, zget (x :: l) i = if i =? 0 then Some x else zget l (i - 1).
Proof.
  intros A x l i. unfold zget. destruct (Z.eqb_spec i 0); [subst; reflexivity|]. destruct (Z.ltb_spec i 0), (Z.ltb_spec (i - 1) 0); try lia; try reflexivity.
  replace (Z.to_nat i) with (S (Z.to_nat (i - 1))) by lia. reflexivity.
Qed.
Lemma zget_range0 : forall n i, 0 <= i < n -> zget (zrange 0 n) i = Some i.
Proof. intros n i H. now apply zget_range. Qed.
Lemma range_len : forall lo hi, lo <= hi -> len (zrange lo hi) = hi - lo.
Proof. intros lo hi H. rewrite length_range. lia. Qed.
Lemma range_cons : forall lo hi, lo < hi -> zrange lo hi = lo :: zrange (lo + 1) hi.
Proof.
  intros lo hi H. rewrite (range_app lo (lo + 1) hi) by lia. replace (zrange lo (lo + 1)) with [lo]; [reflexivity|]. unfold zrange. replace (lo + 1 - lo) with 1 by lia. change (Z.to_nat 1) with 1%nat. cbn [seq map]. change (Z.of_nat 0) with 0. now rewrite Z.add_0_r.
Qed.
Lemma range_nil : forall lo hi, hi <= lo -> zrange lo hi = [].
Proof. intros lo hi H. unfold zrange. replace (Z.to_nat (hi - lo)) with 0%nat by lia. reflexivity. Qed.
Lemma range_ind : forall n (P : Z -> Prop), P 0 -> (forall k, 0 <= k < n -> P k -> P (k + 1)) -> 0 <= n -> P n.
Proof.
  intros n P H0 H1 Hn. assert (X : forall k, (Z.of_nat k <= n) -> P (Z.of_nat k)).
  { induction k as [|k IH]; intros Hk; [exact H0|]. replace (Z.of_nat (S k)) with (Z.of_nat k + 1) by lia. apply H1; [lia|]. apply IH. lia. }
  specialize (X (Z.to_nat n)). rewrite Z2Nat.id in X by lia. apply X. lia.
Qed.

Lemma flat_len : forall {A} (f : Z -> list A) w n, 0 <= n -> (forall i, 0 <= i < n -> len (f i) = w) -> len (flat_map f (zrange 0 n)) = n * w.
Proof.
  intros A f w n Hn. pattern n. apply range_ind with (n := n); [intros _; reflexivity| |exact Hn].
  intros k Hk IH H. rewrite (range_app 0 k (k + 1)) by lia. rewrite flat_map_app, app_length, Nat2Z.inj_add, IH by (intros; apply H; lia).
  rewrite (range_cons k) by lia. rewrite (range_nil (k + 1)) by lia. cbn [flat_map]. rewrite app_nil_r, H by lia. ring.
Qed.
Lemma flat_get : forall {A} (f : Z -> list A) w n i j, (forall i, 0 <= i < n -> len (f i) = w) -> 0 <= i < n -> 0 <= j < w ->
  zget (flat_map f (zrange 0 n)) (i * w + j) = zget (f i) j.
Proof.
  intros A f w n i j H Hi Hj. rewrite (range_app 0 i n) by lia. rewrite flat_map_app.
  assert (L : len (flat_map f (zrange 0 i)) = i * w) by (apply flat_len; [lia|intros; apply H; lia]).
  rewrite zget_app2 by lia. rewrite L. replace (i * w + j - i * w) with j by ring.
  rewrite (range_cons i) by lia. cbn [flat_map]. apply zget_app1. rewrite H by lia. lia.
Qed.
Lemma flat_list_get : forall {A B} (f : A -> list B) w l i j x, (forall x, In x l -> len (f x) = w) -> zget l i = Some x -> 0 <= j < w ->
  zget (flat_map f l) (i * w + j) = zget (f x) j.
Proof.
  intros A B f w l. induction l as [|y l IH]; intros i j x H Hi Hj.
  - exfalso. apply zget_dom in Hi. cbn in Hi. lia.
  - pose proof (zget_dom _ _ _ Hi) as D. rewrite zget_cons in Hi. cbn [flat_map]. destruct (Z.eqb_spec i 0) as [->|N].
    + injection Hi as ->. cbn [Z.mul Z.add]. apply zget_app1. rewrite H by now left. exact Hj.
    + pose proof (H y (or_introl eq_refl)) as Hy. rewrite zget_app2 by nia. rewrite Hy. replace (i * w + j - w) with ((i - 1) * w + j) by ring.
      apply IH; [intros z Hz; apply H; now right|exact Hi|exact Hj].
Qed.
Lemma flat_list_len : forall {A B} (f : A -> list B) w l, (forall x, In x l -> len (f x) = w) -> len (flat_map f l) = len l * w.
Proof.
  intros A B f w l. induction l as [|y l IH]; intros H; [reflexivity|]. cbn [flat_map length]. rewrite app_length, Nat2Z.inj_add, IH by (intros; apply H; now right).
  rewrite H by now left. lia.
Qed.

Lemma mapM_ext : forall {A B} (f g : A -> option B) l, (forall x, In x l -> f x = g x) -> mapM f l = mapM g l.
Proof.
  intros A B f g l. induction l as [|x l IH]; intros H; [reflexivity|]. cbn [mapM]. rewrite H by now left. rewrite IH; [reflexivity|]. intros y Hy. apply H. now right.
Qed.
Lemma range_shift : forall a lo hi, zrange (a + lo) (a + hi) = map (fun x => a + x) (zrange lo hi).
Proof. intros a lo hi. unfold zrange. rewrite map_map. replace (a + hi - (a + lo)) with (hi - lo) by lia. apply map_ext. intros k. lia. Qed.
Lemma mapM_map : forall {A B C} (f : B -> option C) (g : A -> B) l, mapM f (map g l) = mapM (fun x => f (g x)) l.
Proof. intros A B C f g l. induction l as [|x l IH]; [reflexivity|]. cbn [map mapM]. now rewrite IH. Qed.
(** reading [w] elements of which each is known *)
Lemma mapM_known : forall {A} (f : Z -> option A) (l : list A) o, (forall t, 0 <= t < len l -> f (o + t) = zget l t) -> mapM f (zrange o (o + len l)) = Some l.
Proof.
  intros A f l. revert f. induction l as [|x l IH]; intros f o H.
  - cbn [length]. rewrite range_nil by lia. reflexivity.
  - assert (L : len (x :: l) = 1 + len l) by (cbn [length]; lia). rewrite range_cons by lia. cbn [mapM].
    replace (f o) with (Some x) by (rewrite <- (Z.add_0_r o); rewrite H by lia; reflexivity).
    cbn [bind]. replace (o + len (x :: l)) with (o + 1 + len l) by lia. rewrite IH; [reflexivity|].
    intros t Ht. replace (o + 1 + t) with (o + (t + 1)) by lia. rewrite H by lia. rewrite zget_cons. destruct (Z.eqb_spec (t + 1) 0); [lia|]. f_equal. lia.
Qed.
Lemma mapM_sub : forall {A} (f : Z -> option A) (l : list A) o s w, 0 <= w -> (forall t, 0 <= t < w -> f (o + t) = zget l (s + t)) ->
  mapM f (zrange o (o + w)) = mapM (zget l) (zrange s (s + w)).
Proof.
  intros A f l o s w Hw H. replace (zrange o (o + w)) with (map (fun x => o + x) (zrange 0 w)) by (rewrite <- range_shift; f_equal; lia).
  replace (zrange s (s + w)) with (map (fun x => s + x) (zrange 0 w)) by (rewrite <- range_shift; f_equal; lia).
  rewrite !mapM_map. apply mapM_ext. intros x Hx. apply in_range in Hx. apply H. lia.
Qed.
Lemma mapM_some : forall {A B} (f : A -> option B) l, (forall x, In x l -> exists y, f x = Some y) -> exists r, mapM f l = Some r.
Proof.
  intros A B f l. induction l as [|x l IH]; intros H; [eexists; reflexivity|]. cbn [mapM]. destruct (H x (or_introl eq_refl)) as (y & ->).
  destruct IH as (r & ->); [intros z Hz; apply H; now right|]. eexists. reflexivity.
Qed.
Lemma slice_some : forall l w i, 0 <= w -> 0 <= i -> (i + 1) * w <= len l -> exists v, slice l w i = Some v.
Proof. intros l w i Hw Hi H. unfold slice. apply mapM_some. intros x Hx. apply in_range in Hx. apply zget_lt. nia. Qed.
(** a value in a list of encoded values *)
Lemma slice_flat : forall {A} (f : A -> list Z) w l i x, (forall x, len (f x) = w) -> zget l i = Some x -> slice (flat_map f l) w i = Some (f x).
Proof.
  intros A f w l i x H Hi. unfold slice. rewrite <- (H x) at 2. rewrite (H x). replace (i * w + w) with (i * w + len (f x)) by (rewrite H; reflexivity).
  apply mapM_known. intros t Ht. rewrite H in Ht. apply flat_list_get; auto.
Qed.
