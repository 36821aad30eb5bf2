(** C56: error norms and the conservation check. *)
From Coq Require Import ZArith QArith Qminmax Qabs List Lia Lqa Bool Permutation.
From Verif Require Import Base_Float Model_Face Model_Grid Spec_Grid Proof_Grid Proof_Grid2 Model_Diag Spec_Diag Proof_Diag Proof_Diag2.
Import ListNotations.
Open Scope Z_scope.

(** Diagnostics are gathered any number of times on P processes, with whatever patches each process has at the moment.
    No gather fails; each report gives the norms and the sums over all patches of the forest at that moment, counting
    each patch once; the difference refers to the last gather that was marked as initial. *)
Theorem C56_history : forall d map_used compute_error conservation_check patch_error K F E P h,
  0 <= mx d -> 0 <= my d -> 0 <= mbc d -> 0 <= meqn d -> (0 < P)%nat ->
  (forall flag forest, In (flag, forest) h -> length forest = P /\
     (forall ps p, In ps forest -> In p ps -> patch_ok d map_used K F E compute_error patch_error p) /\
     (compute_error = true -> ~ (over (concat forest) (size_of d map_used K) == 0)%Q)) ->
  exists l' rs, gathers d map_used compute_error conservation_check patch_error h (repeat diag_initialize P) = Some (l', rs) /\
    length rs = length h /\
    forall k flag forest, nth_error h k = Some (flag, forest) -> exists r, nth_error rs k = Some r /\
      (compute_error = true -> right_norms d map_used K E (concat forest) r) /\
      (conservation_check = true -> forall k0 forest0, (k0 <= k)%nat -> nth_error h k0 = Some (true, forest0) ->
         (forall k' g, (k0 < k' <= k)%nat -> nth_error h k' = Some g -> fst g = false) ->
         right_sums d map_used K F (concat forest0) (concat forest) r).
Proof.
  intros d map_used ce cc pe K F E P h Hx Hy Hb Hm HP Hw.
  destruct (gathers_ok d map_used ce cc pe K F E Hx Hy Hb Hm P h (fun _ => 0%Q) (repeat diag_initialize P) HP) as (l' & rs & E1 & Len & HR).
  - intros [flag forest] Hin. exact (Hw flag forest Hin).
  - apply start_ok.
  - exists l', rs. split; [exact E1|]. split; [exact Len|]. intros k flag forest Hk. destruct (HR k flag forest Hk) as (r & Er & N & S).
    exists r. split; [exact Er|]. split; [exact N|]. intros C k0 forest0 H0 Hk0 HN. destruct (S C) as [S1 S2]. split; [exact S1|].
    intros m Hq. destruct (S2 m Hq) as (s & diff & X1 & X2 & X3). exists s, diff. split; [exact X1|]. split; [exact X2|].
    rewrite X3, (refm_init d map_used K F h (fun _ => 0%Q) k0 k forest0 Hk0).
    + unfold totals. replace (m - 1 + 1) with m by lia. reflexivity.
    + split; [exact H0|]. apply nth_error_Some. congruence.
    + exact HN.
Qed.
Print Assumptions C56_history.

(** The printed numbers do not depend on the number of processes, on the distribution of the patches and on their order. *)
Definition same_report (r r' : report) : Prop :=
  Forall2 (fun x y => (fst (fst x) == fst (fst y))%Q /\ (snd (fst x) == snd (fst y))%Q /\ (snd x == snd y)%Q) (norms r) (norms r') /\
  Forall2 (fun x y => (fst x == fst y)%Q /\ (snd x == snd y)%Q) (sums r) (sums r').

Lemma Forall2_pointwise : forall {A B} (R : A -> B -> Prop) l l' n, length l = n -> length l' = n ->
  (forall k x y, (k < n)%nat -> nth_error l k = Some x -> nth_error l' k = Some y -> R x y) -> Forall2 R l l'.
Proof.
  intros A B R l. induction l as [|a l IH]; intros [|b l'] n H1 H2 H; cbn [length] in *; subst n; try discriminate; constructor.
  - apply (H 0%nat); [lia|reflexivity|reflexivity].
  - apply (IH l' (length l)); [reflexivity|congruence|]. intros k x y Hk. apply (H (S k)). lia.
Qed.
Lemma largest_unique : forall d E l l' m v v', (forall p, In p l <-> In p l') -> largest d E l m v -> largest d E l' m v' -> (v == v')%Q.
Proof.
  intros d E l l' m v v' Hl [U A] [U' A'].
  assert (X : forall l l' v v', (forall p, In p l <-> In p l') ->
    (forall p i j, In p l -> 1 <= i <= mx d -> 1 <= j <= my d -> (Qabs (E p i j m) <= v)%Q) ->
    ((v' == 0)%Q \/ exists p i j, In p l' /\ 1 <= i <= mx d /\ 1 <= j <= my d /\ (v' == Qabs (E p i j m))%Q) ->
    (v == 0)%Q \/ (exists p i j, In p l /\ 1 <= i <= mx d /\ 1 <= j <= my d /\ (v == Qabs (E p i j m))%Q) -> (v' <= v)%Q).
  { clear. intros l l' v v' Hl U [A'|(p & i & j & Hp & Hi & Hj & A')] A.
    - destruct A as [A|(p & i & j & Hp & Hi & Hj & A)]; [lra|]. pose proof (Qabs_nonneg (E p i j m)). lra.
    - rewrite A'. apply U; [now apply Hl|exact Hi|exact Hj]. }
  apply Qle_antisym; [apply (X l' l)|apply (X l l')]; try assumption. intros p. symmetry. apply Hl.
Qed.

Theorem C56_partition : forall d map_used compute_error conservation_check patch_error K F E P P' h h',
  0 <= mx d -> 0 <= my d -> 0 <= mbc d -> 0 <= meqn d -> (0 < P)%nat -> (0 < P')%nat ->
  (forall flag forest, In (flag, forest) h -> length forest = P /\
     (forall ps p, In ps forest -> In p ps -> patch_ok d map_used K F E compute_error patch_error p) /\
     (compute_error = true -> ~ (over (concat forest) (size_of d map_used K) == 0)%Q)) ->
  (forall flag forest, In (flag, forest) h' -> length forest = P') ->
  Forall2 (fun g g' => fst g = fst g' /\ Permutation (concat (snd g)) (concat (snd g'))) h h' ->
  exists l l' rs rs',
    gathers d map_used compute_error conservation_check patch_error h (repeat diag_initialize P) = Some (l, rs) /\
    gathers d map_used compute_error conservation_check patch_error h' (repeat diag_initialize P') = Some (l', rs') /\
    (compute_error = true -> conservation_check = true -> Forall2 same_report rs rs').
Proof.
  intros d map_used ce cc pe K F E P P' h h' Hx Hy Hb Hm HP HP' Hw Hw' HF.
  destruct (gathers_ok d map_used ce cc pe K F E Hx Hy Hb Hm P h (fun _ => 0%Q) (repeat diag_initialize P) HP) as (l & rs & E1 & Len & HR).
  { intros [flag forest] Hin. exact (Hw flag forest Hin). }
  { apply start_ok. }
  destruct (gathers_ok d map_used ce cc pe K F E Hx Hy Hb Hm P' h' (fun _ => 0%Q) (repeat diag_initialize P') HP') as (l' & rs' & E1' & Len' & HR').
  { intros [flag forest] Hin. split; [exact (Hw' flag forest Hin)|]. cbn [snd].
    assert (G : exists g, In g h /\ Permutation (concat (snd g)) (concat forest)).
    { clear - HF Hin. induction HF as [|g g' h h' [_ H] HF IH]; [destruct Hin|]. destruct Hin as [->|Hin].
      - exists g. split; [now left|exact H].
      - destruct (IH Hin) as (x & Hx & X). exists x. split; [now right|exact X]. }
    destruct G as ([fl fo] & Hg & PM). cbn [snd] in PM. destruct (Hw fl fo Hg) as (_ & W2 & W3). split.
    - intros ps p Hps Hp. assert (Hc : In p (concat forest)) by (apply in_concat; eauto).
      apply (Permutation_in _ (Permutation_sym PM)) in Hc. apply in_concat in Hc. destruct Hc as (qs & Hqs & Hq). now apply (W2 qs).
    - intros C Z0. apply (W3 C). rewrite (over_perm _ _ _ PM). exact Z0. }
  { apply start_ok. }
  exists l, l', rs, rs'. split; [exact E1|]. split; [exact E1'|]. intros CE CC.
  pose proof (Forall2_len' _ _ _ HF) as LH.
  apply (Forall2_pointwise _ rs rs' (length h)); [exact Len|congruence|].
  intros k r r' Hk Hr Hr'.
  destruct (nth_error h k) as [[flag forest]|] eqn:Eh; [|apply nth_error_None in Eh; lia].
  destruct (Forall2_nth _ _ _ HF k _ Eh) as ([flag' forest'] & Eh' & _ & PM). cbn [snd] in PM.
  destruct (HR k _ _ Eh) as (r1 & Er1 & N1 & S1). rewrite Hr in Er1. injection Er1 as <-.
  destruct (HR' k _ _ Eh') as (r1' & Er1' & N1' & S1'). rewrite Hr' in Er1'. injection Er1' as <-.
  destruct (N1 CE) as [L1 A1]. destruct (N1' CE) as [L1' A1']. destruct (S1 CC) as [L2 A2]. destruct (S1' CC) as [L2' A2'].
  split.
  - apply (Forall2_pointwise _ _ _ _ L1 L1'). intros n x y Hn X Y.
    destruct (A1 (Z.of_nat n + 1) ltac:(lia)) as (a & b & c & Q1 & Q2 & Q3 & Q4).
    destruct (A1' (Z.of_nat n + 1) ltac:(lia)) as (a' & b' & c' & Q1' & Q2' & Q3' & Q4').
    replace (Z.to_nat (Z.of_nat n + 1 - 1)) with n in * by lia. rewrite X in Q1. injection Q1 as ->. rewrite Y in Q1'. injection Q1' as ->. cbn [fst snd].
    split; [rewrite Q2, Q2'; rewrite !(over_perm _ _ _ PM); reflexivity|]. split; [rewrite Q3, Q3'; rewrite !(over_perm _ _ _ PM); reflexivity|].
    apply (largest_unique d E (concat forest) (concat forest') (Z.of_nat n + 1)); [|exact Q4|exact Q4'].
    intros p. split; apply Permutation_in; [exact PM|now apply Permutation_sym].
  - apply (Forall2_pointwise _ _ _ _ L2 L2'). intros n x y Hn X Y.
    destruct (A2 (Z.of_nat n + 1) ltac:(lia)) as (s & diff & Q1 & Q2 & Q3).
    destruct (A2' (Z.of_nat n + 1) ltac:(lia)) as (s' & diff' & Q1' & Q2' & Q3').
    replace (Z.to_nat (Z.of_nat n + 1 - 1)) with n in * by lia. rewrite X in Q1. injection Q1 as ->. rewrite Y in Q1'. injection Q1' as ->. cbn [fst snd].
    split; [rewrite Q2, Q2'; apply over_perm, PM|]. rewrite Q3, Q3'.
    rewrite (refm_perm d map_used K F h h' (fun _ => 0%Q) k HF (fun _ => 0%Q) ltac:(reflexivity)). rewrite (over_perm _ _ _ PM). reflexivity.
Qed.
Print Assumptions C56_partition.

(** *** Instance: two patches, one twice as fine, on two processes; gathered twice, then on one process *)
Definition dd : dims := mkDims 2 1 1 1.
Definition pq (dx : Q) (a b : Q) : pdata := mkP dx 1 (fun _ => None)
  (fun '(i, j, m) => if (j =? 1) && (m =? 1) then (if i =? 1 then Some a else if i =? 2 then Some b else None) else None).
Definition fq (p : pdata) : data := fun i j m => match p_q p (i, j, m) with Some v => v | None => 0%Q end.
Definition err_of (p : pdata) : arr := fun c => option_map (fun v => (v - 1)%Q) (p_q p c).
Definition hist2 : list (bool * list (list pdata)) :=
  [(true, [[pq 1 2 4]; [pq (1#2) 1 0]]); (false, [[pq (1#2) 3 1; pq 1 2 (7#2)]; []])].

Lemma pq_ok : forall dx a b, patch_ok dd false (fun _ _ _ => 0%Q) fq (fun p i j m => (fq p i j m - 1)%Q) true (Some err_of) (pq dx a b).
Proof.
  intros dx a b. split; [discriminate|].
  assert (H : forall i j mq, interior dd (i, j, mq) -> p_q (pq dx a b) (i, j, mq) = Some (fq (pq dx a b) i j mq)).
  { intros i j mq (Hi & Hj & Hm). cbn in Hi, Hj, Hm. assert (j = 1) by lia. assert (mq = 1) by lia. subst.
    assert (Ei : i = 1 \/ i = 2) by lia. destruct Ei as [->| ->]; reflexivity. }
  split; [exact H|]. intros _. exists err_of. split; [reflexivity|]. intros i j mq Hi. unfold err_of. rewrite (H i j mq Hi). reflexivity.
Qed.

Example C56_instance : exists l rs,
  gathers dd false true true (Some err_of) hist2 (repeat diag_initialize 2) = Some (l, rs) /\ length rs = 2%nat /\
  (exists r a b c s x, nth_error rs 1 = Some r /\ norms r = [(a, b, c)] /\ sums r = [(s, x)] /\
     (a == 3 # 2)%Q /\ (c == 5 # 2)%Q /\ (s == 15 # 2)%Q /\ (x == 1)%Q).
Proof.
  destruct (C56_history dd false true true (Some err_of) (fun _ _ _ => 0%Q) fq (fun p i j m => (fq p i j m - 1)%Q) 2 hist2
    ltac:(cbn; lia) ltac:(cbn; lia) ltac:(cbn; lia) ltac:(cbn; lia) ltac:(lia)) as (l & rs & E & Len & H).
  - intros flag forest Hin. cbn [hist2 In] in Hin. destruct Hin as [Hin|[Hin|[]]]; injection Hin as <- <-; (split; [reflexivity|split]).
    + intros ps p [<-|[<-|[]]] Hp; cbn [In] in Hp; intuition subst; apply pq_ok.
    + intros _ Z0. vm_compute in Z0. discriminate Z0.
    + intros ps p [<-|[<-|[]]] Hp; cbn [In] in Hp; intuition subst; apply pq_ok.
    + intros _ Z0. vm_compute in Z0. discriminate Z0.
  - exists l, rs. split; [exact E|]. split; [exact Len|].
    destruct (H 1%nat _ _ eq_refl) as (r & Er & HN & HS).
    destruct (HN eq_refl) as [L1 N]. destruct (N 1 ltac:(cbn; lia)) as (a & b & c & Ea & V1 & V2 & V3).
    destruct (HS eq_refl 0%nat _ ltac:(lia) eq_refl) as [L2 S].
    { intros k' g Hk' Hg. assert (k' = 1%nat) by lia. subst. cbn in Hg. injection Hg as <-. reflexivity. }
    destruct (S 1 ltac:(cbn; lia)) as (s & x & Es & W1 & W2).
    exists r, a, b, c, s, x. split; [exact Er|].
    destruct (norms r) as [|n1 [|n2 nl]]; try discriminate L1. destruct (sums r) as [|s1 [|s2 sl]]; try discriminate L2.
    cbn in Ea, Es. injection Ea as ->. injection Es as ->. split; [reflexivity|]. split; [reflexivity|].
    split; [rewrite V1; vm_compute; reflexivity|]. split; [|split; [rewrite W1; vm_compute; reflexivity|rewrite W2; vm_compute; reflexivity]].
    destruct V3 as [U A]. 
    assert (C0 : ((5 # 2) <= c)%Q). { apply (U (pq 1 2 (7#2)) 2 1); [cbn; tauto|cbn; lia|cbn; lia]. }
    destruct A as [A|(p & i & j & Hp & Hi & Hj & A)]; [lra|]. cbn [concat app In hist2] in Hp. cbn in Hi, Hj. assert (j = 1) by lia. subst j.
    assert (Ei : i = 1 \/ i = 2) by lia. destruct Hp as [<-|[<-|[]]], Ei as [->| ->]; rewrite A in *; vm_compute in C0 |- *; try reflexivity; exfalso; apply C0; reflexivity.
Qed.
