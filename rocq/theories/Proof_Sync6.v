(** Conservation over the forest. *)
From Coq Require Import ZArith QArith List Lia Lqa Bool Qfield Permutation.
From Verif Require Import Base_Float Model_Face Spec_Face Proof_Face5 Model_Grid Spec_Grid Proof_Grid Proof_Grid2 Proof_Grid4 Proof_Grid5
  Model_Sync Spec_Sync Proof_Sync Proof_Sync2 Proof_Sync3 Proof_Sync4 Proof_Sync5.
Import ListNotations.
Open Scope Z_scope.

(* ---------------------------------------------------------------- sums *)

Lemma qsum_zero : forall lo hi f, (forall k, lo <= k <= hi -> (f k == 0)%Q) -> (qsum lo hi f == 0)%Q.
Proof.
  intros lo hi f H. rewrite (qsum_ext lo hi f (fun k => 0 * f k)%Q); [|intros k Hk; rewrite (H k Hk); ring].
  rewrite qsum_scale. ring.
Qed.

Lemma qsum_one : forall lo hi k0 f, lo <= k0 <= hi -> (forall k, lo <= k <= hi -> k <> k0 -> (f k == 0)%Q) -> (qsum lo hi f == f k0)%Q.
Proof.
  intros lo hi k0 f H0 H. rewrite (qsum_split lo (k0 - 1) hi) by lia. replace (k0 - 1 + 1) with k0 by lia.
  rewrite (qsum_split k0 k0 hi) by lia. rewrite (qsum_zero lo (k0 - 1)), (qsum_zero (k0 + 1) hi); try (intros k Hk; apply H; lia).
  unfold qsum. replace (Z.to_nat (k0 - k0 + 1)) with 1%nat by lia. cbn [qsum_n]. ring.
Qed.

Lemma qsum_rev : forall m f, (qsum 1 m (fun t => f (m + 1 - t)%Z) == qsum 1 m f)%Q.
Proof.
  intros m f. destruct (Z_le_gt_dec 0 m) as [Hm|Hm].
  2:{ unfold qsum. replace (Z.to_nat (m - 1 + 1)) with 0%nat by lia. reflexivity. }
  revert f. pattern m. apply natlike_ind; [|clear m Hm|exact Hm].
  - intros f. reflexivity.
  - intros m Hm IH f. replace (Z.succ m) with (m + 1) by lia. rewrite (qsum_split 1 m (m + 1) (fun t => f (m + 1 + 1 - t)%Z)) by lia.
    assert (E : (qsum 1 (m + 1) f == f 1%Z + qsum 1 m (fun t => f (t + 1)%Z))%Q).
    { rewrite (qsum_split 1 1 (m + 1)) by lia. rewrite <- (qsum_shift 1 m 1 f).
      unfold qsum at 1. change (Z.to_nat (1 - 1 + 1)) with 1%nat. cbn [qsum_n]. ring. }
    rewrite E. rewrite <- (IH (fun t => f (t + 1)%Z)).
    unfold qsum at 2. replace (Z.to_nat (m + 1 - (m + 1) + 1)) with 1%nat by lia. cbn [qsum_n].
    replace (m + 1 + 1 - (m + 1)) with 1 by lia.
    rewrite (qsum_ext 1 m (fun t => f (m + 1 + 1 - t)%Z) (fun t => f (m + 1 - t + 1)%Z)); [ring|].
    intros t _. replace (m + 1 - t + 1) with (m + 1 + 1 - t) by lia. reflexivity.
Qed.

Lemma qsum_flip : forall o m f, (qsum 1 m (fun t => f (flip o m t)) == qsum 1 m f)%Q.
Proof. intros [|] m f; unfold flip; [apply qsum_rev|reflexivity]. Qed.

Lemma lsum_ext : forall {A} (l : list A) f g, (forall x, In x l -> (f x == g x)%Q) -> (lsum l f == lsum l g)%Q.
Proof.
  intros A l f g. induction l as [|x l IH]; intros H; cbn [lsum fold_right]; [reflexivity|].
  fold (lsum l f). fold (lsum l g). rewrite (H x) by now left. rewrite IH; [reflexivity|]. intros y Hy. apply H. now right.
Qed.
Lemma lsum_add : forall {A} (l : list A) f g, (lsum l (fun x => f x + g x) == lsum l f + lsum l g)%Q.
Proof.
  intros A l f g. induction l as [|x l IH]; cbn [lsum fold_right]; [ring|].
  fold (lsum l (fun x => f x + g x)%Q). fold (lsum l f). fold (lsum l g). rewrite IH. ring.
Qed.
Lemma lsum_scale : forall {A} (l : list A) c f, (lsum l (fun x => c * f x) == c * lsum l f)%Q.
Proof.
  intros A l c f. unfold lsum. induction l as [|x l IH]; cbn [fold_right]; [ring|]. rewrite IH. ring.
Qed.
Lemma lsum_zero : forall {A} (l : list A) f, (forall x, In x l -> (f x == 0)%Q) -> (lsum l f == 0)%Q.
Proof. intros A l f H. rewrite (lsum_ext l f (fun x => 0 * f x)%Q); [rewrite lsum_scale; ring|]. intros x Hx. rewrite (H x Hx). ring. Qed.
Lemma lsum_app : forall {A} (l l' : list A) f, (lsum (l ++ l') f == lsum l f + lsum l' f)%Q.
Proof.
  intros A l l' f. unfold lsum. induction l as [|x l IH]; cbn [fold_right app]; [ring|]. rewrite IH. ring.
Qed.
Lemma lsum_map : forall {A B} (h : A -> B) l f, lsum (map h l) f = lsum l (fun x => f (h x)).
Proof. intros A B h l f. induction l as [|x l IH]; cbn [lsum fold_right map]; [reflexivity|]. unfold lsum in IH. now rewrite IH. Qed.
Lemma lsum_perm : forall {A} (l l' : list A) f, Permutation l l' -> (lsum l f == lsum l' f)%Q.
Proof.
  intros A l l' f P. induction P as [|x l l' P IH|x y l|l1 l2 l3 P1 IH1 P2 IH2]; cbn [lsum fold_right]; [reflexivity| |ring|].
  - fold (lsum l f). fold (lsum l' f). rewrite IH. reflexivity.
  - rewrite IH1, IH2. reflexivity.
Qed.
Lemma lsum_filter : forall {A} (b : A -> bool) l f, (lsum l (fun x => if b x then f x else 0) == lsum (filter b l) f)%Q.
Proof.
  intros A b l f. unfold lsum. induction l as [|x l IH]; cbn [fold_right filter]; [reflexivity|].
  destruct (b x); cbn [fold_right]; rewrite IH; ring.
Qed.
Lemma lsum_prod : forall {A B} (l : list A) (l' : list B) f, (lsum (list_prod l l') f == lsum l (fun x => lsum l' (fun y => f (x, y))))%Q.
Proof.
  intros A B l l' f. induction l as [|x l IH]; [reflexivity|].
  change (lsum (map (fun y => (x, y)) l' ++ list_prod l l') f ==
    lsum l' (fun y => f (x, y)) + lsum l (fun x => lsum l' (fun y => f (x, y))))%Q.
  rewrite lsum_app, lsum_map, IH. reflexivity.
Qed.
Lemma lsum_bij : forall {A B} (l : list A) (l' : list B) (phi : A -> B) (psi : B -> A) g, NoDup l -> NoDup l' ->
  (forall x, In x l -> In (phi x) l' /\ psi (phi x) = x) -> (forall y, In y l' -> In (psi y) l /\ phi (psi y) = y) ->
  (lsum l (fun x => g (phi x)) == lsum l' g)%Q.
Proof.
  intros A B l l' phi psi g N1 N2 H1 H2. rewrite <- lsum_map. apply lsum_perm. apply NoDup_Permutation.
  - clear - N1 H1. induction l as [|x l IH]; [constructor|]. cbn [map]. apply NoDup_cons_iff in N1. destruct N1 as [N1 N2].
    constructor; [|apply IH; [exact N2|]; intros y Hy; apply H1; now right].
    intros HI. apply in_map_iff in HI. destruct HI as (y & E & Hy). apply N1.
    rewrite <- (proj2 (H1 x (or_introl eq_refl))), <- E, (proj2 (H1 y (or_intror Hy))). exact Hy.
  - exact N2.
  - intros y. rewrite in_map_iff. split.
    + intros (x & <- & Hx). now apply H1.
    + intros Hy. exists (psi y). split; now apply H2.
Qed.
Lemma NoDup_append : forall {A} (l l' : list A), NoDup l -> NoDup l' -> (forall x, In x l -> ~ In x l') -> NoDup (l ++ l').
Proof.
  intros A l l' N1 N2 H. induction l as [|x l IH]; [exact N2|]. cbn [app]. apply NoDup_cons_iff in N1. destruct N1 as [N1 N3].
  constructor; [|apply IH; [exact N3|]; intros y Hy; apply H; now right].
  rewrite in_app_iff. intros [HI|HI]; [contradiction|]. apply (H x); [now left|exact HI].
Qed.
Lemma NoDup_prod : forall {A B} (l : list A) (l' : list B), NoDup l -> NoDup l' -> NoDup (list_prod l l').
Proof.
  intros A B l l' N1 N2. induction l as [|x l IH]; cbn [list_prod]; [constructor|]. apply NoDup_cons_iff in N1. destruct N1 as [N1 N3].
  apply NoDup_append; [|now apply IH|].
  - apply FinFun.Injective_map_NoDup; [|exact N2]. intros y y' E. congruence.
  - intros [a b] H1 H2. apply in_map_iff in H1. destruct H1 as (y & E & _). injection E as <- <-. apply in_prod_iff in H2. tauto.
Qed.
Lemma qsum_lsum : forall g, (qsum 0 3 g == lsum [0; 1; 2; 3]%Z g)%Q.
Proof. intros g. rewrite qsum4. cbn [lsum fold_right]. ring. Qed.

(* ---------------------------------------------------------------- one face *)

Section Face.
  Variable d : dims.
  Variable m : Z.
  Hypothesis Hx : mx d = m.
  Hypothesis Hy : my d = m.
  Hypothesis Hm : 1 <= m < 2 ^ 28.

  Lemma out_sum : forall r f o mq, consistent d r -> 0 <= f < 4 -> 1 <= mq <= meqn d ->
    (qsum 1 m (fun t => inflow_outside r f (flip o m t) mq) == through d r f mq)%Q.
  Proof.
    intros r f o mq HC Hf Hmq. rewrite (qsum_flip o m (fun t => inflow_outside r f t mq)). unfold through.
    rewrite (face_len_m d m Hx Hy). apply qsum_ext. intros t Ht. symmetry. apply HC; [exact Hf| |exact Hmq].
    now rewrite (face_len_m d m Hx Hy).
  Qed.

  Lemma same_sum : forall r rn f nf o mq, consistent d rn -> 0 <= f < 4 -> 0 <= nf < 4 -> 1 <= mq <= meqn d ->
    (qsum 1 m (fun t => same_delta m r rn f nf o t mq) == (1 # 2) * (- through d rn nf mq - through d r f mq))%Q.
  Proof.
    intros r rn f nf o mq HC Hf Hn Hmq. unfold same_delta. rewrite qsum_scale.
    rewrite (qsum_ext 1 m _ (fun t => -1 * inflow_outside rn nf (flip o m t) mq + -1 * inflow r f t mq)%Q) by (intros; ring).
    rewrite qsum_add, !qsum_scale, (out_sum rn nf o mq HC Hn Hmq).
    assert (T : through d r f mq = qsum 1 m (fun t => inflow r f t mq)) by (unfold through; now rewrite (face_len_m d m Hx Hy)).
    rewrite T. ring.
  Qed.

  Lemma half_sum : forall r rf f nf o pos mq, Z.Even m -> consistent d rf -> 0 <= f < 4 -> 0 <= nf < 4 -> 0 <= pos <= 1 -> 1 <= mq <= meqn d ->
    (qsum 1 m (fun t => half_delta m r rf f nf o pos t mq) ==
     - through d rf nf mq - qsum (pos * (m / 2) + 1)%Z ((pos + 1) * (m / 2))%Z (fun t => inflow r f t mq))%Q.
  Proof.
    intros r rf f nf o pos mq [h Eh] HC Hf Hn Hp Hmq.
    assert (E2 : m / 2 = h) by (rewrite Eh, Z.mul_comm, Z.div_mul; lia). rewrite E2.
    set (G := fun t => (- (inflow_outside rf nf (flip o m (2 * t - 1 - pos * m)) mq + inflow_outside rf nf (flip o m (2 * t - pos * m)) mq) - inflow r f t mq)%Q).
    assert (E : (qsum 1 m (fun t => half_delta m r rf f nf o pos t mq) == qsum (pos * h + 1)%Z ((pos + 1) * h)%Z G)%Q).
    { assert (P : pos = 0 \/ pos = 1) by lia. destruct P as [-> | ->].
      - rewrite (qsum_split 1 h m) by lia. change (0 * h + 1) with 1. replace ((0 + 1) * h) with h by lia.
        rewrite (qsum_zero (h + 1) m).
        + rewrite Qplus_0_r. apply qsum_ext. intros t Ht. unfold half_delta, in_halfb. rewrite E2.
          destruct (Z.leb_spec (0 * h + 1) t), (Z.leb_spec t ((0 + 1) * h)); try lia. cbn [andb]. unfold G. reflexivity.
        + intros t Ht. unfold half_delta, in_halfb. rewrite E2. destruct (Z.leb_spec (0 * h + 1) t), (Z.leb_spec t ((0 + 1) * h)); try lia; cbn [andb]; reflexivity.
      - rewrite (qsum_split 1 h m) by lia. replace (1 * h + 1) with (h + 1) by lia. replace ((1 + 1) * h) with m by lia.
        rewrite (qsum_zero 1 h).
        + rewrite Qplus_0_l. apply qsum_ext. intros t Ht. unfold half_delta, in_halfb. rewrite E2.
          destruct (Z.leb_spec (1 * h + 1) t), (Z.leb_spec t ((1 + 1) * h)); try lia. cbn [andb]. unfold G. reflexivity.
        + intros t Ht. unfold half_delta, in_halfb. rewrite E2. destruct (Z.leb_spec (1 * h + 1) t), (Z.leb_spec t ((1 + 1) * h)); try lia; cbn [andb]; reflexivity. }
    rewrite E. clear E.
    rewrite (qsum_ext _ _ G (fun t => -1 * (inflow_outside rf nf (flip o m (2 * t - 1 - pos * m)) mq + inflow_outside rf nf (flip o m (2 * t - pos * m)) mq) + -1 * inflow r f t mq)%Q) by (intros; unfold G; ring).
    rewrite qsum_add, !qsum_scale. rewrite <- (out_sum rf nf o mq HC Hn Hmq).
    assert (OP : forall g, (qsum 1 m g == qsum 1 h (fun k => g (2 * k - 1)%Z + g (2 * k)%Z))%Q).
    { intros g. replace (qsum 1 m g) with (qsum 1 (2 * h) g) by (now rewrite <- Eh). apply qsum_pairs. lia. }
    rewrite (OP (fun t => inflow_outside rf nf (flip o m t) mq)).
    replace (pos * h + 1) with (1 + pos * h) by lia. replace ((pos + 1) * h) with (h + pos * h) by lia.
    rewrite !(qsum_shift 1 h (pos * h)).
    rewrite (qsum_ext 1 h (fun k => inflow_outside rf nf (flip o m (2 * (k + pos * h) - 1 - pos * m)) mq + inflow_outside rf nf (flip o m (2 * (k + pos * h) - pos * m)) mq)%Q
       (fun k => inflow_outside rf nf (flip o m (2 * k - 1)) mq + inflow_outside rf nf (flip o m (2 * k)) mq)%Q).
    - ring.
    - intros k Hk. replace (2 * (k + pos * h) - 1 - pos * m) with (2 * k - 1) by lia. replace (2 * (k + pos * h) - pos * m) with (2 * k) by lia. reflexivity.
  Qed.

  Lemma total_edge : forall f g, 0 <= f < 4 ->
    (total d (fun i j => if depth f m (i, j) =? 0 then g (posn f (i, j)) else 0) == qsum 1 m g)%Q.
  Proof.
    intros f g Hf. unfold total. rewrite Hx, Hy.
    face4 f Hf; cbn [depth posn fst snd].
    - rewrite (qsum_one 1 m 1); [|lia|].
      + apply qsum_ext. intros k Hk. reflexivity.
      + intros k Hk Hne. apply qsum_zero. intros t Ht. destruct (Z.eqb_spec (1 - k) 0); [lia|reflexivity].
    - rewrite (qsum_one 1 m m); [|lia|].
      + apply qsum_ext. intros k Hk. rewrite Z.sub_diag. reflexivity.
      + intros k Hk Hne. apply qsum_zero. intros t Ht. destruct (Z.eqb_spec (k - m) 0); [lia|reflexivity].
    - apply qsum_ext. intros i Hi. rewrite (qsum_one 1 m 1); [reflexivity|lia|].
      intros k Hk Hne. destruct (Z.eqb_spec (1 - k) 0); [lia|reflexivity].
    - apply qsum_ext. intros i Hi. rewrite (qsum_one 1 m m); [rewrite Z.sub_diag; reflexivity|lia|].
      intros k Hk Hne. destruct (Z.eqb_spec (k - m) 0); [lia|reflexivity].
  Qed.
End Face.
