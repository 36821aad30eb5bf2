(** Regridding of a whole domain: repopulation and reset. *)
From Coq Require Import ZArith List Bool Lia FinFun.
From Verif Require Import Model_Face Model_Domain Model_Iter Spec_Iter Proof_Iter Model_Regrid Spec_Regrid Proof_Regrid1 Proof_Regrid2.
Import ListNotations.
Open Scope Z_scope.

(** ** Lists *)
Lemma NoDup_app_iff {A} (l r : list A) : NoDup (l ++ r) <-> NoDup l /\ NoDup r /\ (forall x, In x l -> ~ In x r).
Proof.
  induction l as [|x l IH]; cbn [app].
  - split; [intros H; repeat split; [constructor|exact H|intros x []]|intros (_ & H & _); exact H].
  - split.
    + intros H. inversion H as [|y l' H1 H2]; subst. apply IH in H2. destruct H2 as (A1 & A2 & A3). rewrite in_app_iff in H1.
      split; [constructor; [tauto|exact A1]|]. split; [exact A2|]. intros y [<-|Y]; [tauto|apply A3, Y].
    + intros (H1 & H2 & H3). inversion H1 as [|y l' N1 N2]; subst. constructor.
      * rewrite in_app_iff. intros [X|X]; [contradiction|]. apply (H3 x (or_introl eq_refl) X).
      * apply IH. split; [exact N2|]. split; [exact H2|]. intros y Y. apply H3. right. exact Y.
Qed.

Definition keys_from (i0 : nat) (levels : list (list Z)) : list key :=
  flat_map (fun i => map (pair (i0 + i)%nat) (seq 0 (length (nth i levels [])))) (seq 0 (length levels)).
Lemma keys_from_0 levels : keys levels = keys_from 0 levels.
Proof. reflexivity. Qed.
Lemma keys_from_cons i0 l levels : keys_from i0 (l :: levels) = map (pair i0) (seq 0 (length l)) ++ keys_from (S i0) levels.
Proof.
  unfold keys_from. cbn [length seq flat_map nth]. rewrite Nat.add_0_r. f_equal. rewrite <- seq_shift, flat_map_concat_map, map_map, <- flat_map_concat_map.
  apply flat_map_ext. intros i. cbn [nth]. replace (i0 + S i)%nat with (S i0 + i)%nat by lia. reflexivity.
Qed.
Lemma keys_from_In i0 levels : forall k, In k (keys_from i0 levels) <-> (i0 <= fst k < i0 + length levels)%nat /\ (snd k < length (nth (fst k - i0) levels []))%nat.
Proof.
  intros [i j]. unfold keys_from. rewrite in_flat_map. cbn [fst snd]. split.
  - intros (x & X1 & X2). apply in_seq in X1. apply in_map_iff in X2. destruct X2 as (y & Y1 & Y2). injection Y1 as <- <-. apply in_seq in Y2. replace (i0 + x - i0)%nat with x by lia. lia.
  - intros (H1 & H2). exists (i - i0)%nat. split; [apply in_seq; lia|]. apply in_map_iff. exists j. split; [f_equal; lia|apply in_seq; lia].
Qed.
Lemma keys_In levels k : In k (keys levels) <-> is_patch levels k.
Proof. rewrite keys_from_0, keys_from_In. unfold is_patch. rewrite Nat.sub_0_r. intuition lia. Qed.
Lemma keys_from_NoDup i0 levels : NoDup (keys_from i0 levels).
Proof.
  revert i0. induction levels as [|l levels IH]; intros i0; [constructor|]. rewrite keys_from_cons. apply NoDup_app_iff. split; [|split; [apply IH|]].
  - apply Injective_map_NoDup; [intros x y E; injection E; auto|apply seq_NoDup].
  - intros k K1 K2. apply in_map_iff in K1. destruct K1 as (j & <- & _). apply keys_from_In in K2. cbn [fst] in K2. lia.
Qed.
Lemma keys_NoDup levels : NoDup (keys levels).
Proof. rewrite keys_from_0; apply keys_from_NoDup. Qed.

(** ** Which patches the calls of an adaptation name *)
Fixpoint all_reports (i0 : nat) (oss : list (list outcome)) : list acall :=
  match oss with
  | [] => []
  | os :: r => reports D2 i0 0 0 os ++ all_reports (S i0) r
  end.
Lemma iterate_adapted_list oss : iterate_adapted D2 (map (leaves_before D2) oss) (map (leaves_after D2) oss) = Some (all_reports 0 oss).
Proof.
  unfold iterate_adapted. generalize 0%nat at 1 2 as i0. induction oss as [|os oss IH]; intros i0; [reflexivity|].
  cbn [map adapted_blocks all_reports]. rewrite adapted_block_ok by lia. rewrite IH. reflexivity.
Qed.
Lemma map_pair_seq (i a n : nat) : map (fun k => (i, (a + k)%nat)) (seq 0 n) = map (pair i) (seq a n).
Proof. revert a. induction n as [|n IH]; intros a; [reflexivity|]. cbn [seq map]. rewrite Nat.add_0_r. f_equal. rewrite <- IH. rewrite <- (seq_shift n 0), map_map. apply map_ext. intros k. f_equal. lia. Qed.
Lemma old_keys_reports i os : forall oj nj, flat_map old_keys (reports D2 i oj nj os) = map (pair i) (seq oj (length (leaves_before D2 os))).
Proof.
  induction os as [|o os IH]; intros oj nj; [reflexivity|]. cbn [reports flat_map]. rewrite IH. unfold leaves_before. cbn [map concat]. rewrite app_length, seq_app, map_app. f_equal.
  unfold old_keys. cbn [a_rel a_block a_oj]. destruct o; cbn [relation_of before length]; [reflexivity|reflexivity|]. cbn [nch]. rewrite repeat_length. apply map_pair_seq.
Qed.
Lemma new_keys_reports i os : forall oj nj, flat_map new_keys (reports D2 i oj nj os) = map (pair i) (seq nj (length (leaves_after D2 os))).
Proof.
  induction os as [|o os IH]; intros oj nj; [reflexivity|]. cbn [reports flat_map]. rewrite IH. unfold leaves_after. cbn [map concat]. rewrite app_length, seq_app, map_app. f_equal.
  unfold new_keys. cbn [a_rel a_block a_nj]. destruct o; cbn [relation_of after length]; [reflexivity| |reflexivity]. cbn [nch]. rewrite repeat_length. apply map_pair_seq.
Qed.
Lemma flat_map_app' {A B} (f : A -> list B) l r : flat_map f (l ++ r) = flat_map f l ++ flat_map f r.
Proof. induction l as [|x l IH]; [reflexivity|]. cbn [app flat_map]. rewrite IH, app_assoc. reflexivity. Qed.
Lemma old_keys_all oss : forall i0, flat_map old_keys (all_reports i0 oss) = keys_from i0 (map (leaves_before D2) oss).
Proof. induction oss as [|os oss IH]; intros i0; [reflexivity|]. cbn [all_reports map]. rewrite flat_map_app', IH, keys_from_cons, old_keys_reports. reflexivity. Qed.
Lemma new_keys_all oss : forall i0, flat_map new_keys (all_reports i0 oss) = keys_from i0 (map (leaves_after D2) oss).
Proof. induction oss as [|os oss IH]; intros i0; [reflexivity|]. cbn [all_reports map]. rewrite flat_map_app', IH, keys_from_cons, new_keys_reports. reflexivity. Qed.
Lemma all_reports_rel oss : forall i0 c, In c (all_reports i0 oss) -> a_rel c <> BOUNDARY.
Proof.
  induction oss as [|os oss IH]; intros i0 c H; [destruct H|]. cbn [all_reports] in H. apply in_app_iff in H. destruct H as [H|H]; [|apply (IH _ _ H)].
  clear IH. revert H. generalize 0%nat at 1 as oj. generalize 0%nat at 1 as nj. induction os as [|o os IH]; intros nj oj H; [destruct H|]. cbn [reports] in H. destruct H as [<-|H]; [cbn [a_rel]; destruct o; discriminate|apply (IH _ _ H)].
Qed.
(** the call that reports an outcome *)
Lemma all_reports_call oss : forall i0 i os n o, nth_error oss i = Some os -> nth_error os n = Some o ->
  In (mkA (relation_of o) (i0 + i) (length (leaves_before D2 (firstn n os))) (length (leaves_after D2 (firstn n os)))) (all_reports i0 oss).
Proof.
  induction oss as [|os' oss IH]; intros i0 i os n o H1 H2; [destruct i; discriminate|]. cbn [all_reports]. apply in_app_iff. destruct i as [|i].
  - left. cbn [nth_error] in H1. injection H1 as ->. apply (nth_error_In _ n). rewrite reports_nth, H2, Nat.add_0_r. reflexivity.
  - right. cbn [nth_error] in H1. specialize (IH (S i0) i os n o H1 H2). replace (i0 + S i)%nat with (S i0 + i)%nat by lia. exact IH.
Qed.

Section Whole.
  Variable V : Type.
  Variable interp : V -> nat -> V.
  Variable average : list V -> V.
  Notation obj := (obj V).
  Notation amap := (tag -> option obj).
  Notation wrep := (wrep V).
  Notation aupd := (aupd V).
  Notation outcome_of := (outcome_of V interp average).

  Lemma outcome_of_ext init c old old' k o : (forall x, In x (old_keys c) -> old x = old' x) -> outcome_of init c old k o -> outcome_of init c old' k o.
  Proof.
    unfold outcome_of, Proof_Regrid2.outcome_of, old_keys. destruct c as [rel b oj nj]. cbn [a_rel a_block a_oj a_nj]. intros E (H1 & H2 & H3). split; [exact H1|]. split; [exact H2|]. destruct rel; [exact H3| | |].
    - destruct H3 as (Q & i & I4 & K & H3). split; [exact Q|]. exists i. split; [exact I4|]. split; [exact K|]. destruct init as [g|]; [exact H3|]. rewrite <- (E _ (or_introl eq_refl)). exact H3.
    - destruct H3 as (o1 & A & B). exists o1. rewrite <- (E _ (or_introl eq_refl)). auto.
    - destruct H3 as (Q & H3). split; [exact Q|]. destruct init as [g|]; [exact H3|]. destruct H3 as (vs & F & X). exists vs. split; [|exact X].
      assert (E' : forall i, In i (seq 0 4) -> old (b, (oj + i)%nat) = old' (b, (oj + i)%nat)) by (intros i I4; apply E; apply (in_map (fun i => (b, (oj + i)%nat))); exact I4).
      clear -F E'. induction F as [|i v l vs H F IH]; constructor; [rewrite <- (E' i (or_introl eq_refl)); exact H|apply IH; intros j J; apply E'; right; exact J].
  Qed.

  Lemma repopulate_all f init cs : forall c w a, wrep f c w a -> (forall x, In x cs -> a_rel x <> BOUNDARY) ->
    NoDup (flat_map old_keys cs) -> NoDup (flat_map new_keys cs) ->
    (forall k, In k (flat_map old_keys cs) -> is_patch (f_lo f) k /\ exists o v, a (TO k) = Some o /\ o_val V o = Some v /\ o_block V o = fst k) ->
    (forall k, In k (flat_map new_keys cs) -> is_patch (f_ln f) k /\ a (TN k) = None) ->
    exists w' a', for_each (repopulate V interp average init) cs w = Some w' /\
      wrep f (mkCounts (n_so c) (n_do c + Z.of_nat (length (flat_map old_keys cs))) (n_sn c + Z.of_nat (length (flat_map new_keys cs))) (n_dn c)) w' a' /\
      (forall k, In k (flat_map old_keys cs) -> a' (TO k) = None) /\
      (forall x k, In x cs -> In k (new_keys x) -> exists o', a' (TN k) = Some o' /\ outcome_of init x (fun k => a (TO k)) k o') /\
      (forall t, (forall k, In k (flat_map old_keys cs) -> t <> TO k) -> (forall k, In k (flat_map new_keys cs) -> t <> TN k) -> a' t = a t).
  Proof.
    induction cs as [|x cs IH]; intros c w a H RB N1 N2 PO PN.
    - exists w, a. split; [reflexivity|]. split; [|split; [intros k []|split; [intros x k []|reflexivity]]].
      cbn [flat_map length]. replace (mkCounts _ _ _ _) with c; [exact H|]. destruct c as [c1 c2 c3 c4]; cbn [n_so n_do n_sn n_dn]; f_equal; lia.
    - cbn [flat_map] in N1, N2, PO, PN. apply NoDup_app_iff in N1, N2. destruct N1 as (N1 & N1' & D1), N2 as (N2 & N2' & D2').
      destruct (repopulate_ok V interp average f init x c w a H (RB x (or_introl eq_refl))) as (w1 & a1 & E1 & H1 & A1 & A2 & A3).
      { intros k K. apply PO, in_app_iff. left. exact K. }
      { intros k K. apply PN, in_app_iff. left. exact K. }
      assert (AO : forall k, In k (flat_map old_keys cs) -> a1 (TO k) = a (TO k)).
      { intros k K. apply A3; [|intros; discriminate]. intros k' K' E. injection E as <-. apply (D1 k K' K). }
      assert (AN : forall k, In k (flat_map new_keys cs) -> a1 (TN k) = a (TN k)).
      { intros k K. apply A3; [intros; discriminate|]. intros k' K' E. injection E as <-. apply (D2' k K' K). }
      destruct (IH _ w1 a1 H1 (fun y Y => RB y (or_intror Y)) N1' N2') as (w' & a' & E2 & H2 & B1 & B2 & B3).
      { intros k K. rewrite (AO k K). apply PO, in_app_iff. right. exact K. }
      { intros k K. rewrite (AN k K). apply PN, in_app_iff. right. exact K. }
      exists w', a'. cbn [for_each flat_map]. rewrite E1. split; [exact E2|]. split.
      { cbn [n_so n_do n_sn n_dn] in H2. rewrite !app_length, !Nat2Z.inj_add, !Z.add_assoc. exact H2. }
      split; [|split].
      + intros k K. apply in_app_iff in K. destruct K as [K|K]; [|apply B1, K]. rewrite B3; [apply A1, K| |intros; discriminate]. intros k' K' E. injection E as <-. apply (D1 k K K').
      + intros y k [<-|Y] K.
        * destruct (A2 k K) as (o' & X1 & X2). exists o'. split; [|exact X2]. rewrite B3; [exact X1|intros; discriminate|]. intros k' K' E. injection E as <-. apply (D2' k K K').
        * destruct (B2 y k Y K) as (o' & X1 & X2). exists o'. split; [exact X1|]. refine (outcome_of_ext _ _ _ _ _ _ _ X2). intros z Z. apply AO, in_flat_map. exists y. auto.
      + intros t T1 T2. rewrite B3; [apply A3| |]; [intros k K; apply T1, in_app_iff; left; exact K|intros k K; apply T2, in_app_iff; left; exact K|intros k K; apply T1, in_app_iff; right; exact K|intros k K; apply T2, in_app_iff; right; exact K].
  Qed.

  (** ** Reset *)
  Definition some (o : option obj) : bool := match o with Some _ => true | None => false end.
  Definition live (a : amap) (ks : list key) : Z := Z.of_nat (length (filter (fun k => some (a (TO k))) ks)).
  Lemma live_cons a k ks : live a (k :: ks) = (if some (a (TO k)) then 1 else 0) + live a ks.
  Proof. unfold live. cbn [filter]. destruct (some (a (TO k))); [cbn [length]; lia|reflexivity]. Qed.
  Lemma live_ext a a' ks : (forall k, In k ks -> a' (TO k) = a (TO k)) -> live a' ks = live a ks.
  Proof. induction ks as [|k ks IH]; intros E; [reflexivity|]. rewrite !live_cons, (E k (or_introl eq_refl)), IH; [reflexivity|]. intros x X. apply E. right. exact X. Qed.
  Lemma live_full a ks : (forall k, In k ks -> a (TO k) <> None) -> live a ks = Z.of_nat (length ks).
  Proof. induction ks as [|k ks IH]; intros E; [reflexivity|]. rewrite live_cons, IH by (intros x X; apply E; right; exact X). specialize (E k (or_introl eq_refl)). destruct (a (TO k)); [cbn [some length]; lia|contradiction]. Qed.
  Lemma live_empty a ks : (forall k, In k ks -> a (TO k) = None) -> live a ks = 0.
  Proof. induction ks as [|k ks IH]; intros E; [reflexivity|]. rewrite live_cons, IH by (intros x X; apply E; right; exact X). rewrite (E k (or_introl eq_refl)). reflexivity. Qed.
  Lemma live_remove a a' k o ks : NoDup ks -> In k ks -> a (TO k) = Some o -> a' (TO k) = None -> (forall x, x <> k -> a' (TO x) = a (TO x)) -> live a ks = live a' ks + 1.
  Proof.
    intros N. induction N as [|x ks NX N IH]; intros K A B C; [destruct K|]. rewrite !live_cons. destruct K as [-> |K].
    - rewrite A, B. cbn [some]. rewrite (live_ext a' a); [lia|]. intros y Y. symmetry. apply C. intros ->. contradiction.
    - rewrite (C x) by (intros ->; contradiction). rewrite (IH K A B C). lia.
  Qed.

  Lemma delete_all f ks : NoDup ks -> forall c m old new a, wrep f c (m, old, new) a -> (forall k, In k ks -> is_patch (f_lo f) k) ->
    exists m' old' a', for_each (fun md k => data_delete V (fst md) (snd md) k) ks (m, old) = Some (m', old') /\
      wrep f (mkCounts (n_so c) (n_do c + live a ks) (n_sn c) (n_dn c)) (m', old', new) a' /\
      (forall k, In k ks -> a' (TO k) = None) /\ (forall t, (forall k, In k ks -> t <> TO k) -> a' t = a t).
  Proof.
    intros N. induction N as [|k ks NK N IH]; intros c m old new a H P.
    - exists m, old, a. split; [reflexivity|]. split; [|split; [intros k []|reflexivity]]. unfold live. cbn [filter length]. replace (mkCounts _ _ _ _) with c; [exact H|]. destruct c as [c1 c2 c3 c4]; cbn [n_so n_do n_sn n_dn]; f_equal; lia.
    - cbn [for_each fst snd]. rewrite live_cons. pose proof (P k (or_introl eq_refl)) as PK. destruct (a (TO k)) as [o|] eqn:A.
      + destruct (op_delete V f c m old new a k o H PK A) as (m1 & old1 & E1 & H1). rewrite E1.
        destruct (IH _ m1 old1 new _ H1 (fun x X => P x (or_intror X))) as (m' & old' & a' & E2 & H2 & B1 & B2).
        exists m', old', a'. split; [exact E2|]. split.
        { cbn [n_so n_do n_sn n_dn] in H2. cbn [some]. rewrite (live_ext a) in H2; [rewrite Z.add_assoc; exact H2|]. intros x X. apply aupd_other. intros Y. injection Y as ->. contradiction. }
        split.
        * intros x [<-|X]; [|apply B1, X]. rewrite B2; [apply aupd_same|]. intros y Y Z. injection Z as <-. contradiction.
        * intros t T. rewrite B2 by (intros x X; apply T; right; exact X). apply aupd_other. apply T. left. reflexivity.
      + assert (S0 : d_slot old k = None).
        { pose proof H as H'. unfold Proof_Regrid2.wrep in H'. destruct H' as (_ & _ & _ & _ & _ & _ & _ & _ & _ & _ & R). exact (rep_none V tag _ _ _ _ (TO k) R PK A). }
        unfold data_delete at 1. rewrite S0. destruct (IH c m old new a H (fun x X => P x (or_intror X))) as (m' & old' & a' & E2 & H2 & B1 & B2).
        exists m', old', a'. split; [exact E2|]. cbn [some]. split; [exact H2|]. split.
        * intros x [<-|X]; [|apply B1, X]. rewrite B2; [exact A|]. intros y Y Z. injection Z as <-. contradiction.
        * intros t T. apply B2. intros x X. apply T. right. exact X.
  Qed.

  (** ghost patches *)
  Definition gslots (old new : dom) (n : nat) (t : tag) : option nat :=
    match t with TO k => d_slot old k | TN k => d_slot new k | TG i => if Nat.ltb i n then None else nth i (d_ghost old) None end.
  Lemma skipn_nth {A} (l : list A) n d x r : skipn n l = x :: r -> nth n l d = x /\ skipn (S n) l = r /\ (n < length l)%nat.
  Proof. revert n. induction l as [|y l IH]; intros n E; [destruct n; discriminate|]. destruct n as [|n]; [cbn [skipn] in E; injection E as -> ->; cbn; repeat split; lia|]. cbn [skipn] in E. destruct (IH n E) as (A1 & A2 & A3). cbn [nth length]. repeat split; [exact A1|exact A2|lia]. Qed.
  Lemma ghost_delete_all (K : tag -> Prop) old new : forall rest n m a z, skipn n (d_ghost old) = rest ->
    (forall i, K (TG i) <-> (i < length (d_ghost old))%nat) -> rep V tag K (gslots old new n) m a ->
    (forall i, (n <= i < length (d_ghost old))%nat -> a (TG i) <> None) ->
    exists m' a', for_each (ghost_delete V) rest (m, z) = Some (m', z + Z.of_nat (length rest)) /\
      rep V tag K (gslots old new (length (d_ghost old))) m' a' /\ (forall k, a' (TO k) = a (TO k)) /\ (forall k, a' (TN k) = a (TN k)).
  Proof.
    induction rest as [|g rest IH]; intros n m a z SK KG R A.
    - exists m, a. split; [cbn [for_each length]; rewrite Z.add_0_r; reflexivity|]. split; [|auto].
      apply (rep_ext V tag K _ _ m a a R); [|reflexivity]. intros t T. destruct t as [k|k|i]; cbn [gslots]; try reflexivity.
      apply KG in T. assert (L : (length (d_ghost old) <= n)%nat) by (pose proof (skipn_length n (d_ghost old)) as Q; rewrite SK in Q; cbn [length] in Q; lia).
      destruct (Nat.ltb_spec i n); [|lia]. destruct (Nat.ltb_spec i (length (d_ghost old))); [reflexivity|lia].
    - destruct (skipn_nth _ _ None _ _ SK) as (S1 & S2 & S3).
      destruct (a (TG n)) as [o|] eqn:AN; [|exfalso; apply (A n); [lia|exact AN]].
      destruct (rep_some V tag K _ _ _ (TG n) o R (proj2 (KG n) S3) AN) as (id & E1 & H1). pose proof E1 as E1'. cbn [gslots] in E1'. destruct (Nat.ltb_spec n n); [lia|]. rewrite S1 in E1'.
      cbn [for_each]. unfold ghost_delete at 1. cbn [fst snd]. rewrite E1', H1.
      set (m1 := mkMem V (upd_heap V (m_heap V m) id None) (m_next V m)).
      assert (R1 : rep V tag K (gslots old new (S n)) m1 (aupd a (TG n) None)).
      { apply (rep_free V tag tag_dec K (gslots old new n) m a _ m1 _ (TG n) id o R); try assumption; try reflexivity.
        - apply KG, S3.
        - cbn [gslots]. destruct (Nat.ltb_spec n (S n)); [reflexivity|lia].
        - intros x _ NX. destruct x as [k|k|i]; cbn [gslots]; try reflexivity. assert (i <> n) by (intros ->; apply NX; reflexivity). destruct (Nat.ltb_spec i (S n)), (Nat.ltb_spec i n); try reflexivity; lia.
        - apply aupd_same.
        - intros x _ NX. apply aupd_other, NX. }
      destruct (IH (S n) m1 _ (z + 1) S2 KG R1) as (m' & a' & E2 & R2 & B1 & B2).
      { intros i L. rewrite aupd_other by (intros X; injection X as ->; lia). apply A. lia. }
      exists m', a'. split; [replace (z + Z.of_nat (length (Some id :: rest))) with (z + 1 + Z.of_nat (length rest)) by (cbn [length]; lia); exact E2|].
      split; [exact R2|]. split; [intros k; rewrite B1; apply aupd_other; discriminate|intros k; rewrite B2; apply aupd_other; discriminate].
  Qed.

  Lemma rep_reindex (K K' : tag -> Prop) (h : tag -> tag) s m a s' a' : rep V tag K s m a ->
    (forall t, K' t -> K (h t)) -> (forall t, K' t -> s' t = s (h t)) -> (forall t, K' t -> a' t = a (h t)) ->
    (forall t t', K' t -> K' t' -> h t = h t' -> t = t') -> (forall t, K t -> s t <> None -> exists t', K' t' /\ h t' = t) ->
    rep V tag K' s' m a'.
  Proof.
    intros ((G1 & G2 & G3) & R) HK HS HA INJ SUR. split; [split; [|split]|].
    - intros t id T S. rewrite (HS t T) in S. apply (G1 _ id (HK t T) S).
    - intros t t' id T T' S S'. rewrite (HS t T) in S. rewrite (HS t' T') in S'. apply (INJ t t' T T'). apply (G2 _ _ id (HK t T) (HK t' T') S S').
    - intros id L. destruct (G3 id L) as (t & T & S). destruct (SUR t T) as (t' & T' & <-); [congruence|]. exists t'. split; [exact T'|]. rewrite (HS t' T'). exact S.
    - intros t T. rewrite (HA t T), (R _ (HK t T)). unfold look. rewrite (HS t T). reflexivity.
  Qed.

  (** ** States between the phases *)
  Definition no_new : dom := domain_new [].
  Record stable (ns : bool) (ex : bool) (m : mem V) (d : dom) (a : amap) : Prop := {
    st_wrep : wrep (mkFrame (d_levels d) [] (d_ghost d) ex) (mkCounts (d_set d) (d_del d) 0 0) (m, d, no_new) a;
    st_patch : forall k, is_patch (d_levels d) k -> exists o v, a (TO k) = Some o /\ o_val V o = Some v /\ o_block V o = fst k /\ o_nset V o = ns;
    st_ghost : forall n, (n < length (d_ghost d))%nat -> a (TG n) <> None;
    st_noex : ex = false -> d_ghost d = [];
    st_count : d_set d - d_del d = Z.of_nat (length (keys (d_levels d))) + Z.of_nat (length (d_ghost d)) }.

  (** the new domain taken up *)
  Lemma wrep_new f c m d a news : wrep (mkFrame (f_lo f) [] (f_g f) (f_ex f)) (mkCounts (n_so c) (n_do c) 0 0) (m, d, no_new) a ->
    wrep (mkFrame (f_lo f) news (f_g f) (f_ex f)) (mkCounts (n_so c) (n_do c) 0 0) (m, d, domain_new news) (fun t => match t with TN _ => None | _ => a t end).
  Proof.
    intros H. unfold Proof_Regrid2.wrep in *. cbn [f_lo f_ln f_g f_ex n_so n_do n_sn n_dn] in *. destruct H as (H1 & H2 & H3 & H4 & H5 & H6 & H7 & H8 & H9 & H10 & R).
    split; [exact H1|]. split; [reflexivity|]. split; [exact H3|]. split; [exact H4|]. split; [exact H5|]. split; [exact H6|]. repeat (split; [reflexivity|]).
    assert (NP : forall k, ~ is_patch [] k) by (intros k (X & _); cbn [length] in X; lia).
    destruct R as ((G1 & G2 & G3) & R). split; [split; [|split]|].
    - intros t id T S. destruct t as [k|k|n]; cbn [slots domain_new d_slot] in *; [apply (G1 (TO k) id T S)|discriminate|apply (G1 (TG n) id T S)].
    - intros t t' id T T' S S'. destruct t as [k|k|n], t' as [k'|k'|n']; cbn [slots domain_new d_slot] in *; try discriminate.
      + apply (G2 (TO k) (TO k') id T T' S S').
      + apply (G2 (TO k) (TG n') id T T' S S').
      + apply (G2 (TG n) (TO k') id T T' S S').
      + apply (G2 (TG n) (TG n') id T T' S S').
    - intros id L. destruct (G3 id L) as (t & T & S). exists t. destruct t as [k|k|n]; [auto|exfalso; exact (NP k T)|auto].
    - intros t T. destruct t as [k|k|n]; [apply (R (TO k) T)|reflexivity|apply (R (TG n) T)].
  Qed.

  (** the reset of the old domain: its objects and ghost patches are freed, the counters agree,
      and the new domain holds everything that is left *)
  Lemma reset_ok f c m old new a : wrep f c (m, old, new) a ->
    (forall n, (n < length (f_g f))%nat -> a (TG n) <> None) -> (f_ex f = false -> f_g f = []) ->
    n_so c - n_do c = live a (keys (f_lo f)) + Z.of_nat (length (f_g f)) ->
    exists m' a', domain_reset V m old = Some (m', true) /\
      wrep (mkFrame (f_ln f) [] [] false) (mkCounts (n_sn c) (n_dn c) 0 0) (m', new, no_new) a' /\
      (forall k, a' (TO k) = a (TN k)).
  Proof.
    intros H G NX CT. pose proof H as H0. unfold Proof_Regrid2.wrep in H0. destruct H0 as (L0 & L1 & L2 & L3 & L4 & L5 & L6 & L7 & L8 & L9 & _).
    destruct (delete_all f (keys (f_lo f)) (keys_NoDup _) c m old new a H (fun k K => proj1 (keys_In _ k) K)) as (m1 & old1 & a1 & E1 & H1 & A1 & A2).
    unfold domain_reset. rewrite L0, E1.
    assert (FIN : forall m2 a2, rep V tag (domain_of (f_lo f) (f_ln f) (length (f_g f))) (gslots old1 new (length (f_g f))) m2 a2 -> (forall k, a2 (TO k) = a1 (TO k)) -> (forall k, a2 (TN k) = a1 (TN k)) ->
       exists a', wrep (mkFrame (f_ln f) [] [] false) (mkCounts (n_sn c) (n_dn c) 0 0) (m2, new, no_new) a' /\ forall k, a' (TO k) = a (TN k)).
    { intros m2 a2 R B1 B2. exists (fun t => match t with TO k => a2 (TN k) | _ => None end). split.
      - unfold Proof_Regrid2.wrep. cbn [f_lo f_ln f_g f_ex n_so n_do n_sn n_dn]. repeat (split; [first [assumption|reflexivity]|]).
        apply (rep_reindex (domain_of (f_lo f) (f_ln f) (length (f_g f))) _ (fun t => match t with TO k => TN k | t => t end) (gslots old1 new (length (f_g f))) m2 a2 _ _ R).
        + intros [k|k|n] T; cbn in T |- *; [exact T|destruct T as (T & _); cbn in T; lia|lia].
        + intros [k|k|n] T; cbn in T |- *; [reflexivity|destruct T as (T & _); cbn in T; lia|lia].
        + intros [k|k|n] T; cbn in T |- *; [reflexivity|destruct T as (T & _); cbn in T; lia|lia].
        + intros [k|k|n] [k'|k'|n'] T T' E; cbn [domain_of length] in T, T'; try lia; try (destruct T as (T & _); cbn in T; lia); try (destruct T' as (T' & _); cbn in T'; lia). injection E as ->. reflexivity.
        + intros [k|k|n] T S; cbn [gslots domain_of] in *.
          * exfalso. apply S. apply (rep_none V tag _ _ _ _ (TO k) R T). rewrite B1. apply A1, keys_In, T.
          * exists (TO k). auto.
          * exfalso. apply S. destruct (Nat.ltb_spec n (length (f_g f))); [reflexivity|lia].
      - intros k. cbn beta iota. rewrite B2. apply A2. intros; discriminate. }
    pose proof H1 as H2. unfold Proof_Regrid2.wrep in H2. cbn [n_so n_do n_sn n_dn] in H2. destruct H2 as (M0 & M1 & M2 & M3 & M4 & M5 & M6 & M7 & M8 & M9 & R1).
    rewrite M3. destruct (f_ex f) eqn:EX.
    - destruct (ghost_delete_all (domain_of (f_lo f) (f_ln f) (length (f_g f))) old1 new (d_ghost old1) 0 m1 a1 (d_del old1) eq_refl) as (m2 & a2 & E2 & R2 & B1 & B2).
      { intros i. rewrite M2. cbn [domain_of]. reflexivity. }
      { apply (rep_ext V tag _ _ _ _ _ _ R1); [|reflexivity]. intros [k|k|i] T; cbn [gslots slots]; reflexivity. }
      { intros i L. rewrite A2 by (intros; discriminate). apply G. rewrite <- M2. lia. }
      rewrite E2. rewrite M2 in R2. destruct (FIN m2 a2 R2 B1 B2) as (a' & W & Z). exists m2, a'. split; [|auto].
      do 2 f_equal. apply Z.eqb_eq. rewrite M4, M5, M2. lia.
    - destruct (FIN m1 a1) as (a' & W & Z); [|reflexivity|reflexivity|].
      { apply (rep_ext V tag _ _ _ _ _ _ R1); [|reflexivity]. intros [k|k|i] T; cbn [gslots slots]; try reflexivity. cbn [domain_of] in T. rewrite (NX eq_refl) in T. cbn in T. lia. }
      exists m1, a'. split; [|auto]. do 2 f_equal. apply Z.eqb_eq. rewrite M4, M5. rewrite (NX eq_refl) in CT. cbn [length] in CT. lia.
  Qed.

  (** ** Regridding up to the reset of the old domain *)
  Lemma regrid_stage init ns ex m d a oss : stable ns ex m d a -> d_levels d = map (leaves_before D2) oss ->
    let news := map (leaves_after D2) oss in
    exists m1 old new m2 a2, for_each (repopulate V interp average init) (all_reports 0 oss) (m, d, domain_new news) = Some (m1, old, new) /\
      domain_reset V m1 old = Some (m2, true) /\ stable false false m2 new a2 /\ d_levels new = news /\
      (forall x k, In x (all_reports 0 oss) -> In k (new_keys x) -> exists o', a2 (TO k) = Some o' /\ outcome_of init x (fun k => a (TO k)) k o').
  Proof.
    intros S L news. destruct S as [W P G NX CT].
    pose proof (wrep_new (mkFrame (d_levels d) [] (d_ghost d) ex) (mkCounts (d_set d) (d_del d) 0 0) m d a news W) as W1. cbn [f_lo f_g f_ex n_so n_do] in W1.
    pose proof (old_keys_all oss 0) as KO. pose proof (new_keys_all oss 0) as KN. rewrite <- keys_from_0 in KO, KN. rewrite <- L in KO. fold news in KN.
    destruct (repopulate_all _ init (all_reports 0 oss) _ _ _ W1 (all_reports_rel oss 0)) as ([[m1 old] new] & a1 & E1 & H1 & A1 & A2 & A3).
    - rewrite KO. apply keys_NoDup.
    - rewrite KN. apply keys_NoDup.
    - intros k K. rewrite KO in K. apply keys_In in K. split; [exact K|]. destruct (P k K) as (o & v & X1 & X2 & X3 & _). exists o, v. auto.
    - intros k K. rewrite KN in K. apply keys_In in K. split; [exact K|reflexivity].
    - cbn [n_so n_do n_sn n_dn] in H1. rewrite KO, KN in H1.
      destruct (reset_ok _ _ m1 old new a1 H1) as (m2 & a2 & E2 & H2 & B).
      + cbn [f_g]. intros n N. rewrite A3; [apply G, N|intros; discriminate|intros; discriminate].
      + exact NX.
      + cbn [n_so n_do f_lo f_g]. rewrite live_empty; [lia|]. intros k K. apply A1. rewrite KO. exact K.
      + pose proof H1 as H1'. unfold Proof_Regrid2.wrep in H1'. cbn [f_lo f_ln f_g f_ex n_so n_do n_sn n_dn] in H1'. destruct H1' as (_ & Q1 & _ & _ & _ & _ & Q2 & Q3 & Q4 & Q5 & _).
        cbn [f_ln n_sn n_dn] in H2. exists m1, old, new, m2, a2. split; [exact E1|]. split; [exact E2|]. split; [|split; [exact Q1|]].
        * constructor.
          -- rewrite Q1, Q2, Q3, Q4. exact H2.
          -- intros k K. rewrite Q1 in K. apply keys_In in K. rewrite <- KN in K. apply in_flat_map in K. destruct K as (x & X1 & X2). destruct (A2 x k X1 X2) as (o' & Y1 & Y2).
             rewrite B, Y1. pose proof Y2 as (Y3 & Y4 & Y5). destruct (a_rel x) eqn:ER; [contradiction| | |].
             ++ destruct Y5 as (_ & i & _ & _ & Y5). destruct init as [g|]; [|destruct Y5 as (v & _ & Y5)]; (eexists; eexists; split; [reflexivity|]; split; [exact Y5|]; split; [exact Y3|exact Y4]).
             ++ destruct Y5 as (o & Z1 & Z2 & _). assert (KO' : In (a_block x, a_oj x) (flat_map old_keys (all_reports 0 oss))) by (apply in_flat_map; exists x; split; [exact X1|]; unfold old_keys; rewrite ER; left; reflexivity).
                rewrite KO in KO'. apply keys_In in KO'. destruct (P _ KO') as (o1 & v & Z3 & Z4 & _). rewrite Z3 in Z1. injection Z1 as <-. exists o', v. split; [reflexivity|]. split; [congruence|]. split; [exact Y3|exact Y4].
             ++ destruct Y5 as (_ & Y5). destruct init as [g|]; [|destruct Y5 as (vs & _ & Y5)]; (eexists; eexists; split; [reflexivity|]; split; [exact Y5|]; split; [exact Y3|exact Y4]).
          -- intros n N. rewrite Q4 in N. cbn [length] in N. lia.
          -- intros _. exact Q4.
          -- rewrite Q1, Q2, Q3, Q4. cbn [length]. lia.
        * intros x k X1 X2. rewrite B. apply (A2 x k X1 X2).
  Qed.
End Whole.
