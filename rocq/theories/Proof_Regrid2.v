(** The operations of regridding on the patches of two domains. *)
From Coq Require Import ZArith List Bool Lia.
From Verif Require Import Model_Face Model_Iter Spec_Iter Model_Regrid Spec_Regrid Proof_Regrid1.
Import ListNotations.
Open Scope Z_scope.

Inductive tag := TO (k : key) | TN (k : key) | TG (n : nat).
Definition key_dec (x y : key) : {x = y} + {x <> y}.
Proof. decide equality; apply Nat.eq_dec. Defined.
Definition tag_dec (x y : tag) : {x = y} + {x <> y}.
Proof. decide equality; try apply key_dec; apply Nat.eq_dec. Defined.

Lemma key_eqb_eq a b : key_eqb a b = true <-> a = b.
Proof. destruct a as [a1 a2], b as [b1 b2]. unfold key_eqb. cbn [fst snd]. rewrite andb_true_iff, !Nat.eqb_eq. split; [intros (-> & ->); reflexivity|intros E; injection E; auto]. Qed.
Lemma upd_same {A} (s : key -> A) k v : upd_slot s k v k = v.
Proof. unfold upd_slot. assert (key_eqb k k = true) as -> by (apply key_eqb_eq; reflexivity). reflexivity. Qed.
Lemma upd_other {A} (s : key -> A) k v k' : k' <> k -> upd_slot s k v k' = s k'.
Proof. intros N. unfold upd_slot. destruct (key_eqb k' k) eqn:E; [apply key_eqb_eq in E; contradiction|reflexivity]. Qed.

Section Ops.
  Variable V : Type.
  Variable interp : V -> nat -> V.
  Variable average : list V -> V.
  Notation obj := (obj V).
  Notation amap := (tag -> option obj).

  Definition aupd (a : amap) (t : tag) (v : option obj) : amap := fun x => if tag_dec x t then v else a x.
  Lemma aupd_same a t v : aupd a t v t = v.
  Proof. unfold aupd. destruct (tag_dec t t); [reflexivity|contradiction]. Qed.
  Lemma aupd_other a t v x : x <> t -> aupd a t v x = a x.
  Proof. unfold aupd. destruct (tag_dec x t); [contradiction|reflexivity]. Qed.

  Definition domain_of (lo ln : list (list Z)) (ng : nat) (t : tag) : Prop :=
    match t with TO k => is_patch lo k | TN k => is_patch ln k | TG n => (n < ng)%nat end.
  Definition slots (old new : dom) (t : tag) : option nat :=
    match t with TO k => d_slot old k | TN k => d_slot new k | TG n => nth n (d_ghost old) None end.

  (** the parts of the domains that the operations leave alone *)
  Record frame := mkFrame { f_lo : list (list Z); f_ln : list (list Z); f_g : list (option nat); f_ex : bool }.
  (** counters: set and delete counts of the old and of the new domain *)
  Record counts := mkCounts { n_so : Z; n_do : Z; n_sn : Z; n_dn : Z }.

  Definition wrep (f : frame) (c : counts) (w : world V) (a : amap) : Prop :=
    let '(m, old, new) := w in
    d_levels old = f_lo f /\ d_levels new = f_ln f /\ d_ghost old = f_g f /\ d_exch old = f_ex f /\
    d_set old = n_so c /\ d_del old = n_do c /\ d_set new = n_sn c /\ d_del new = n_dn c /\
    d_ghost new = [] /\ d_exch new = false /\
    rep V tag (domain_of (f_lo f) (f_ln f) (length (f_g f))) (slots old new) m a.

  Ltac open_wrep H := destruct H as (?HL & ?HN & ?HG & ?HE & ?HS & ?HD & ?HSN & ?HDN & ?HGN & ?HEN & ?HR).
  Ltac close_wrep := cbn [d_levels d_slot d_ghost d_exch d_set d_del with_slot inc_set inc_del n_so n_do n_sn n_dn]; repeat (split; [first [assumption | lia | congruence]|]).

  Lemma wrep_ext f c w a a' : wrep f c w a -> (forall t, domain_of (f_lo f) (f_ln f) (length (f_g f)) t -> a' t = a t) -> wrep f c w a'.
  Proof. destruct w as [[m old] new]. intros H E. open_wrep H. unfold wrep. close_wrep. apply (rep_ext _ _ _ _ _ _ _ _ HR); [reflexivity|exact E]. Qed.

  Lemma op_counts f c m old new a x y : wrep f c (m, old, new) a ->
    wrep f (mkCounts (n_so c + x) (n_do c) (n_sn c + y) (n_dn c)) (m, inc_set old x, inc_set new y) a.
  Proof. intros H. open_wrep H. unfold wrep. close_wrep. exact HR. Qed.

  Lemma op_move f c m old new a k k' o : wrep f c (m, old, new) a -> is_patch (f_lo f) k -> is_patch (f_ln f) k' ->
    a (TO k) = Some o -> a (TN k') = None ->
    wrep f (mkCounts (n_so c) (n_do c + 1) (n_sn c + 1) (n_dn c))
      (m, inc_del (with_slot old (upd_slot (d_slot old) k None)) 1, inc_set (with_slot new (upd_slot (d_slot new) k' (d_slot old k))) 1)
      (aupd (aupd a (TO k) None) (TN k') (Some o)).
  Proof.
    intros H P1 P2 A1 A2. open_wrep H. unfold wrep. close_wrep.
    apply (rep_move V tag tag_dec _ _ _ a _ _ (TO k) (TN k') o HR); try assumption; try discriminate.
    - apply upd_same.
    - apply upd_same.
    - intros x _ N1 N2. destruct x as [x|x|x]; cbn [slots with_slot d_slot inc_set inc_del d_ghost]; [apply upd_other; intros ->; apply N1; reflexivity|apply upd_other; intros ->; apply N2; reflexivity|reflexivity].
    - rewrite aupd_other by discriminate. apply aupd_same.
    - apply aupd_same.
    - intros x _ N1 N2. rewrite !aupd_other by assumption. reflexivity.
  Qed.

  Lemma op_build f c m old new a k init : wrep f c (m, old, new) a -> is_patch (f_ln f) k -> a (TN k) = None ->
    exists w', build_new V (m, old, new) k init = Some w' /\
      wrep f (mkCounts (n_so c + 1) (n_do c) (n_sn c) (n_dn c)) w' (aupd a (TN k) (Some (mkObj V (fst k) (snd k) false init))).
  Proof.
    intros H P1 A1. open_wrep H. unfold build_new, alloc. destruct init as [v|].
    - cbn [modify m_heap m_next]. unfold upd_heap at 1. rewrite Nat.eqb_refl. cbn [set_val o_block o_patch o_nset]. eexists. split; [reflexivity|].
      unfold wrep. close_wrep.
      apply (rep_alloc V tag tag_dec _ (slots old new) m a _ _ _ (TN k) (mkObj V (fst k) (snd k) false (Some v)) HR); try assumption; cbn [m_heap m_next].
      + intros i. unfold upd_heap. destruct (Nat.eqb i (m_next V m)); reflexivity.
      + reflexivity.
      + apply upd_same.
      + intros x _ N. destruct x as [x|x|x]; cbn [slots with_slot d_slot inc_set inc_del d_ghost]; try reflexivity. apply upd_other. intros ->. apply N. reflexivity.
      + apply aupd_same.
      + intros x _ N. apply aupd_other, N.
    - eexists. split; [reflexivity|]. unfold wrep. close_wrep.
      apply (rep_alloc V tag tag_dec _ (slots old new) m a _ _ _ (TN k) (mkObj V (fst k) (snd k) false None) HR); try assumption; cbn [m_heap m_next]; try reflexivity.
      + apply upd_same.
      + intros x _ N. destruct x as [x|x|x]; cbn [slots with_slot d_slot inc_set inc_del d_ghost]; try reflexivity. apply upd_other. intros ->. apply N. reflexivity.
      + apply aupd_same.
      + intros x _ N. apply aupd_other, N.
  Qed.

  Lemma op_delete f c m old new a k o : wrep f c (m, old, new) a -> is_patch (f_lo f) k -> a (TO k) = Some o ->
    exists m' old', data_delete V m old k = Some (m', old') /\
      wrep f (mkCounts (n_so c) (n_do c + 1) (n_sn c) (n_dn c)) (m', old', new) (aupd a (TO k) None).
  Proof.
    intros H P1 A1. open_wrep H. destruct (rep_some _ _ _ _ _ _ (TO k) _ HR P1 A1) as (id & S1 & H1). cbn [slots] in S1.
    unfold data_delete. rewrite S1, H1. eexists. eexists. split; [reflexivity|]. unfold wrep. close_wrep.
    apply (rep_free V tag tag_dec _ (slots old new) m a _ _ _ (TO k) id o HR); try assumption; try reflexivity.
    - apply upd_same.
    - intros x _ N. destruct x as [x|x|x]; cbn [slots with_slot d_slot inc_set inc_del d_ghost]; try reflexivity. apply upd_other. intros ->. apply N. reflexivity.
    - apply aupd_same.
    - intros x _ N. apply aupd_other, N.
  Qed.

  Lemma op_modify f c m old new a t o o' fn : wrep f c (m, old, new) a -> domain_of (f_lo f) (f_ln f) (length (f_g f)) t ->
    a t = Some o -> fn o = Some o' ->
    exists m', modify V m (slots old new t) fn = Some m' /\ wrep f c (m', old, new) (aupd a t (Some o')).
  Proof.
    intros H P1 A1 F. open_wrep H. destruct (rep_some _ _ _ _ _ _ t _ HR P1 A1) as (id & S1 & H1).
    unfold modify. rewrite S1, H1, F. eexists. split; [reflexivity|]. unfold wrep. close_wrep.
    apply (rep_write V tag tag_dec _ (slots old new) m a _ _ t id o o' HR); try assumption; try reflexivity.
    - apply aupd_same.
    - intros x _ N. apply aupd_other, N.
  Qed.

  Definition value (o : option obj) : option V := match o with Some o => o_val V o | None => None end.
  Lemma op_read f c m old new a t : wrep f c (m, old, new) a -> domain_of (f_lo f) (f_ln f) (length (f_g f)) t ->
    read V m (slots old new t) = value (a t).
  Proof.
    intros H P1. open_wrep H. destruct HR as (_ & R). rewrite (R t P1). unfold look, read, value. destruct (slots old new t) as [id|]; reflexivity.
  Qed.

  (** ** Loops *)
  (** building patches (b, nj + i) for i in l, as the refinement loop does *)
  Lemma loop_build f b nj init l : NoDup l -> forall c w a, wrep f c w a ->
    (forall i, In i l -> is_patch (f_ln f) (b, (nj + i)%nat) /\ a (TN (b, (nj + i)%nat)) = None) ->
    exists w' a', for_each (fun (w : world V) i => let '(m, old, new) := w in let k := (b, (nj + i)%nat) in
        build_new V (m, inc_set old (-1), inc_set new 1) k (match init with Some f => Some (f k) | None => None end)) l w = Some w' /\
      wrep f (mkCounts (n_so c) (n_do c) (n_sn c + Z.of_nat (length l)) (n_dn c)) w' a' /\
      (forall i, In i l -> a' (TN (b, (nj + i)%nat)) = Some (mkObj V b (nj + i) false (match init with Some f => Some (f (b, (nj + i)%nat)) | None => None end))) /\
      (forall t, (forall i, In i l -> t <> TN (b, (nj + i)%nat)) -> a' t = a t).
  Proof.
    intros N. induction N as [|i l NI N IH]; intros c w a H P.
    - exists w, a. split; [reflexivity|]. split; [|split; [intros i []|reflexivity]]. destruct w as [[m old] new]. replace (mkCounts (n_so c) (n_do c) (n_sn c + Z.of_nat (length (@nil nat))) (n_dn c)) with c; [exact H|]. destruct c; cbn; f_equal; lia.
    - destruct w as [[m old] new]. cbn [for_each]. destruct (P i (or_introl eq_refl)) as (P1 & A1).
      pose proof (op_counts f c m old new a (-1) 1 H) as H1.
      destruct (op_build f _ m (inc_set old (-1)) (inc_set new 1) a (b, (nj + i)%nat) (match init with Some g => Some (g (b, (nj + i)%nat)) | None => None end) H1 P1 A1) as (w1 & E1 & H2).
      rewrite E1. cbn [n_so n_do n_sn n_dn fst snd] in H2.
      destruct (IH _ w1 _ H2) as (w' & a' & E2 & H3 & B1 & B2).
      { intros j J. destruct (P j (or_intror J)) as (Q1 & Q2). split; [exact Q1|]. rewrite aupd_other; [exact Q2|]. intros X. injection X as X. apply NI. replace i with j by lia. exact J. }
      exists w', a'. split; [exact E2|]. split.
      { destruct w' as [[m' old'] new']. cbn [n_so n_do n_sn n_dn] in H3. cbn [length]. replace (n_so c) with (n_so c + -1 + 1) at 1 by lia. replace (n_sn c + Z.of_nat (S (length l))) with (n_sn c + 1 + Z.of_nat (length l)) by lia. exact H3. }
      split.
      + intros j [<-|J]; [|apply B1, J]. rewrite B2; [apply aupd_same|]. intros j J X. injection X as X. apply NI. replace i with j by lia. exact J.
      + intros t T. rewrite B2 by (intros j J; apply T; right; exact J). apply aupd_other. apply T. left. reflexivity.
  Qed.

  (** writing values of new patches *)
  Lemma loop_write f b nj g l : NoDup l -> forall c m old new a, wrep f c (m, old, new) a ->
    (forall i, In i l -> is_patch (f_ln f) (b, (nj + i)%nat) /\ exists o, a (TN (b, (nj + i)%nat)) = Some o) ->
    exists m' a', for_each (fun m i => modify V m (d_slot new (b, (nj + i)%nat)) (set_val V (g i))) l m = Some m' /\
      wrep f c (m', old, new) a' /\
      (forall i o, In i l -> a (TN (b, (nj + i)%nat)) = Some o -> a' (TN (b, (nj + i)%nat)) = Some (mkObj V (o_block V o) (o_patch V o) (o_nset V o) (Some (g i)))) /\
      (forall t, (forall i, In i l -> t <> TN (b, (nj + i)%nat)) -> a' t = a t).
  Proof.
    intros N. induction N as [|i l NI N IH]; intros c m old new a H P.
    - exists m, a. split; [reflexivity|]. split; [exact H|]. split; [intros i o []|reflexivity].
    - cbn [for_each]. destruct (P i (or_introl eq_refl)) as (P1 & o & A1).
      destruct (op_modify f c m old new a (TN (b, (nj + i)%nat)) o _ (set_val V (g i)) H P1 A1 eq_refl) as (m1 & E1 & H1). cbn [slots] in E1. rewrite E1.
      destruct (IH c m1 old new _ H1) as (m' & a' & E2 & H3 & B1 & B2).
      { intros j J. destruct (P j (or_intror J)) as (Q1 & Q2). split; [exact Q1|]. rewrite aupd_other; [exact Q2|]. intros X. injection X as X. apply NI. replace i with j by lia. exact J. }
      exists m', a'. split; [exact E2|]. split; [exact H3|]. split.
      + intros j oj [<-|J] A.
        * rewrite B2; [rewrite aupd_same; rewrite A in A1; injection A1 as <-; reflexivity|]. intros j J X. injection X as X. apply NI. replace i with j by lia. exact J.
        * apply B1; [exact J|]. rewrite aupd_other; [exact A|]. intros X. injection X as X. apply NI. replace i with j by lia. exact J.
      + intros t T. rewrite B2 by (intros j J; apply T; right; exact J). apply aupd_other. apply T. left. reflexivity.
  Qed.

  (** deleting old patches *)
  Lemma loop_delete f (kf : nat -> key) l : NoDup l -> (forall i j, kf i = kf j -> i = j) -> forall c m old new a, wrep f c (m, old, new) a ->
    (forall i, In i l -> is_patch (f_lo f) (kf i) /\ exists o, a (TO (kf i)) = Some o) ->
    exists m' old' a', for_each (fun md i => data_delete V (fst md) (snd md) (kf i)) l (m, old) = Some (m', old') /\
      wrep f (mkCounts (n_so c) (n_do c + Z.of_nat (length l)) (n_sn c) (n_dn c)) (m', old', new) a' /\
      (forall i, In i l -> a' (TO (kf i)) = None) /\
      (forall t, (forall i, In i l -> t <> TO (kf i)) -> a' t = a t).
  Proof.
    intros N INJ. induction N as [|i l NI N IH]; intros c m old new a H P.
    - exists m, old, a. split; [reflexivity|]. split; [|split; [intros i []|reflexivity]]. replace (mkCounts (n_so c) (n_do c + Z.of_nat (length (@nil nat))) (n_sn c) (n_dn c)) with c; [exact H|]. destruct c; cbn; f_equal; lia.
    - cbn [for_each fst snd]. destruct (P i (or_introl eq_refl)) as (P1 & o & A1).
      destruct (op_delete f c m old new a (kf i) o H P1 A1) as (m1 & old1 & E1 & H1). rewrite E1.
      destruct (IH _ m1 old1 new _ H1) as (m' & old' & a' & E2 & H3 & B1 & B2).
      { intros j J. destruct (P j (or_intror J)) as (Q1 & Q2). split; [exact Q1|]. rewrite aupd_other; [exact Q2|]. intros X. injection X as X. apply INJ in X. subst j. contradiction. }
      exists m', old', a'. split; [exact E2|]. split.
      { cbn [n_so n_do n_sn n_dn] in H3. cbn [length]. replace (n_do c + Z.of_nat (S (length l))) with (n_do c + 1 + Z.of_nat (length l)) by lia. exact H3. }
      split.
      + intros j [<-|J]; [|apply B1, J]. rewrite B2; [apply aupd_same|]. intros j J X. injection X as X. apply INJ in X. subst j. contradiction.
      + intros t T. rewrite B2 by (intros j J; apply T; right; exact J). apply aupd_other. apply T. left. reflexivity.
  Qed.

  (** reading the values of the four old siblings *)
  Lemma loop_read f c m old new a b oj : wrep f c (m, old, new) a -> forall l acc,
    (forall i, In i l -> is_patch (f_lo f) (b, (oj + i)%nat)) -> forall vs, Forall2 (fun i v => value (a (TO (b, (oj + i)%nat))) = Some v) l vs ->
    for_each (fun l i => match read V m (d_slot old (b, (oj + i)%nat)) with Some v => Some (l ++ [v]) | None => None end) l acc = Some (acc ++ vs).
  Proof.
    intros H l. induction l as [|i l IH]; intros acc P vs F; inversion F as [|x v l' vs' F1 F2]; subst.
    - rewrite app_nil_r. reflexivity.
    - cbn [for_each]. pose proof (op_read f c m old new a (TO (b, (oj + i)%nat)) H (P i (or_introl eq_refl))) as R. cbn [slots] in R. rewrite R, F1.
      rewrite (IH (acc ++ [v])) with (vs := vs'); [rewrite <- app_assoc; reflexivity| |exact F2]. intros j J. apply P. right. exact J.
  Qed.

  (** ** The repopulation callback *)
  Definition old_keys (c : acall) : list key :=
    match a_rel c with
    | DOUBLESIZE => map (fun i => (a_block c, (a_oj c + i)%nat)) (seq 0 4)
    | _ => [(a_block c, a_oj c)]
    end.
  Definition new_keys (c : acall) : list key :=
    match a_rel c with
    | HALFSIZE => map (fun i => (a_block c, (a_nj c + i)%nat)) (seq 0 4)
    | _ => [(a_block c, a_nj c)]
    end.
  (** the objects of the new patches of a call *)
  Definition outcome_of (init : option (key -> V)) (c : acall) (old : key -> option obj) (k : key) (o' : obj) : Prop :=
    o_block V o' = fst k /\ o_nset V o' = false /\
    match a_rel c with
    | SAMESIZE => exists o, old (a_block c, a_oj c) = Some o /\ o_val V o' = o_val V o /\ o_block V o = o_block V o' /\ o_patch V o' = o_patch V o
    | HALFSIZE => o_patch V o' = snd k /\ exists i, (i < 4)%nat /\ k = (a_block c, (a_nj c + i)%nat) /\
        match init with
        | Some g => o_val V o' = Some (g k)
        | None => exists v, value (old (a_block c, a_oj c)) = Some v /\ o_val V o' = Some (interp v i)
        end
    | DOUBLESIZE => o_patch V o' = snd k /\
        match init with
        | Some g => o_val V o' = Some (g k)
        | None => exists vs, Forall2 (fun i v => value (old (a_block c, (a_oj c + i)%nat)) = Some v) (seq 0 4) vs /\ o_val V o' = Some (average vs)
        end
    | BOUNDARY => False
    end.

  Lemma repopulate_ok f init call : forall c w a, wrep f c w a -> a_rel call <> BOUNDARY ->
    (forall k, In k (old_keys call) -> is_patch (f_lo f) k /\ exists o v, a (TO k) = Some o /\ o_val V o = Some v /\ o_block V o = fst k) ->
    (forall k, In k (new_keys call) -> is_patch (f_ln f) k /\ a (TN k) = None) ->
    exists w' a', repopulate V interp average init w call = Some w' /\
      wrep f (mkCounts (n_so c) (n_do c + Z.of_nat (length (old_keys call))) (n_sn c + Z.of_nat (length (new_keys call))) (n_dn c)) w' a' /\
      (forall k, In k (old_keys call) -> a' (TO k) = None) /\
      (forall k, In k (new_keys call) -> exists o', a' (TN k) = Some o' /\ outcome_of init call (fun k => a (TO k)) k o') /\
      (forall t, (forall k, In k (old_keys call) -> t <> TO k) -> (forall k, In k (new_keys call) -> t <> TN k) -> a' t = a t).
  Proof.
    intros c [[m old] new] a H NB PO PN. destruct call as [rel b oj nj]. unfold old_keys, new_keys, repopulate, outcome_of in *. cbn [a_rel a_block a_oj a_nj] in *.
    assert (ND4 : NoDup (seq 0 4)) by apply seq_NoDup.
    destruct rel; [contradiction| | |].
    - (* refinement *)
      destruct (PO (b, oj) (or_introl eq_refl)) as (P1 & o & v & A1 & V1 & _). clear NB.
      assert (PN' : forall i, In i (seq 0 4) -> is_patch (f_ln f) (b, (nj + i)%nat) /\ a (TN (b, (nj + i)%nat)) = None).
      { intros i I4. apply PN. apply (in_map (fun i => (b, (nj + i)%nat))), I4. }
      destruct (loop_build f b nj init (seq 0 4) ND4 c (m, old, new) a H PN') as ([[m1 old1] new1] & a1 & E1 & H1 & B1 & B2). match goal with |- context [@for_each ?A ?S ?F (seq 0 4) (m, old, new)] => replace (@for_each A S F (seq 0 4) (m, old, new)) with (Some (m1, old1, new1)) by (symmetry; exact E1) end.
      assert (A1' : a1 (TO (b, oj)) = Some o) by (rewrite B2 by (intros; discriminate); exact A1).
      assert (F : exists m2 a2, (match init with Some _ => Some m1 | None => match read V m1 (d_slot old1 (b, oj)) with None => None | Some v => for_each (fun m i => modify V m (d_slot new1 (b, (nj + i)%nat)) (set_val V (interp v i))) (seq 0 4) m1 end end) = Some m2 /\
          wrep f (mkCounts (n_so c) (n_do c) (n_sn c + Z.of_nat (length (seq 0 4))) (n_dn c)) (m2, old1, new1) a2 /\
          (forall i, In i (seq 0 4) -> a2 (TN (b, (nj + i)%nat)) = Some (mkObj V b (nj + i) false (Some (match init with Some g => g (b, (nj + i)%nat) | None => interp v i end)))) /\
          (forall t, (forall i, In i (seq 0 4) -> t <> TN (b, (nj + i)%nat)) -> a2 t = a t)).
      { destruct init as [g|].
        - exists m1, a1. split; [reflexivity|]. split; [exact H1|]. split; [exact B1|exact B2].
        - pose proof (op_read f _ m1 old1 new1 a1 (TO (b, oj)) H1 P1) as R. cbn [slots] in R. rewrite R, A1'. cbn [value]. rewrite V1.
          destruct (loop_write f b nj (interp v) (seq 0 4) ND4 _ m1 old1 new1 a1 H1) as (m2 & a2 & E2 & H2 & C1 & C2).
          { intros i I4. split; [apply PN', I4|]. eexists. apply B1, I4. }
          exists m2, a2. split; [exact E2|]. split; [exact H2|]. split.
          + intros i I4. rewrite (C1 i _ I4 (B1 i I4)). reflexivity.
          + intros t T. rewrite (C2 t T). apply B2, T. }
      destruct F as (m2 & a2 & E2 & H2 & C1 & C2). rewrite E2.
      assert (A2 : a2 (TO (b, oj)) = Some o) by (rewrite C2 by (intros; discriminate); exact A1).
      destruct (op_delete f _ m2 old1 new1 a2 (b, oj) o H2 P1 A2) as (m3 & old3 & E3 & H3). rewrite E3. cbn [n_so n_do n_sn n_dn] in H3.
      assert (Z4 : In 0%nat (seq 0 4)) by (cbn; auto).
      assert (N0 : aupd a2 (TO (b, oj)) None (TN (b, nj)) = Some (mkObj V b nj false (Some (match init with Some g => g (b, nj) | None => interp v 0%nat end)))).
      { rewrite aupd_other by discriminate. specialize (C1 0%nat Z4). rewrite Nat.add_0_r in C1. exact C1. }
      assert (PN0 : is_patch (f_ln f) (b, nj)) by (destruct (PN' 0%nat Z4) as (X & _); rewrite Nat.add_0_r in X; exact X).
      destruct (op_modify f _ m3 old3 new1 _ (TN (b, nj)) _ _ (reset_neighbors V) H3 PN0 N0 eq_refl) as (m4 & E4 & H4). cbn [slots] in E4. rewrite E4.
      eexists. eexists. split; [reflexivity|]. split.
      { rewrite map_length. cbn [length]. change (Z.of_nat 1) with 1. exact H4. }
      split; [|split].
      + intros k [<-|[]]. rewrite aupd_other by discriminate. apply aupd_same.
      + intros k I4. apply in_map_iff in I4. destruct I4 as (i & <- & I4). cbn [fst snd].
        destruct (Nat.eq_dec i 0) as [-> |NZ].
        * rewrite Nat.add_0_r. rewrite aupd_same. eexists. split; [reflexivity|]. cbn [o_block o_nset o_patch o_val]. split; [reflexivity|]. split; [reflexivity|]. split; [reflexivity|]. exists 0%nat. split; [lia|]. split; [rewrite Nat.add_0_r; reflexivity|].
          destruct init as [g|]; [reflexivity|]. exists v. rewrite A1. split; [exact V1|reflexivity].
        * rewrite aupd_other by (intros X; injection X as X; lia). rewrite aupd_other by discriminate. rewrite (C1 i I4). eexists. split; [reflexivity|]. cbn [o_block o_nset o_patch o_val]. split; [reflexivity|]. split; [reflexivity|]. split; [reflexivity|]. exists i. apply in_seq in I4. split; [lia|]. split; [reflexivity|].
          destruct init as [g|]; [reflexivity|]. exists v. rewrite A1. split; [exact V1|reflexivity].
      + intros t T1 T2. assert (X0 : t <> TN (b, nj)). { rewrite <- (Nat.add_0_r nj). apply T2. apply in_map_iff. exists 0%nat. auto. }
        rewrite aupd_other by exact X0. rewrite aupd_other by (apply T1; left; reflexivity). apply C2. intros i I4. apply T2. apply in_map_iff. exists i. auto.
    - (* same size *)
      destruct (PO (b, oj) (or_introl eq_refl)) as (P1 & o & v & A1 & V1 & BO). destruct (PN (b, nj) (or_introl eq_refl)) as (P2 & A2).
      pose proof (op_move f c m old new a (b, oj) (b, nj) o H P1 P2 A1 A2) as H1.
      destruct (op_modify f _ _ _ _ _ (TN (b, nj)) o _ (reset_neighbors V) H1 P2 (aupd_same _ _ _) eq_refl) as (m4 & E4 & H4).
      cbn [slots] in E4. rewrite E4. eexists. eexists. split; [reflexivity|]. split; [exact H4|]. split; [|split].
      + intros k [<-|[]]. rewrite !aupd_other by discriminate. apply aupd_same.
      + intros k [<-|[]]. rewrite aupd_same. eexists. split; [reflexivity|]. cbn [o_block o_nset o_patch o_val fst snd]. split; [exact BO|]. split; [reflexivity|]. exists o. auto.
      + intros t T1 T2. rewrite !aupd_other; [reflexivity|apply T1; left; reflexivity|apply T2; left; reflexivity|apply T2; left; reflexivity].
    - (* coarsening *)
      destruct (PN (b, nj) (or_introl eq_refl)) as (P2 & A2).
      assert (PO' : forall i, In i (seq 0 4) -> is_patch (f_lo f) (b, (oj + i)%nat) /\ exists o v, a (TO (b, (oj + i)%nat)) = Some o /\ o_val V o = Some v).
      { intros i I4. destruct (PO (b, (oj + i)%nat)) as (X & o & v & Y & Z & _); [apply (in_map (fun i => (b, (oj + i)%nat))), I4|]. split; [exact X|]. exists o, v. auto. }
      pose proof (op_counts f c m old new a (-1) 1 H) as H1.
      assert (F : exists m1 old1 new1 o1 , (match init with
            | Some f => build_new V (m, inc_set old (-1), inc_set new 1) (b, nj) (Some (f (b, nj)))
            | None => match build_new V (m, inc_set old (-1), inc_set new 1) (b, nj) None with
                | None => None
                | Some (m1, old1, new1) =>
                    match for_each (fun l i => match read V m1 (d_slot old1 (b, (oj + i)%nat)) with Some v => Some (l ++ [v]) | None => None end) (seq 0 4) [] with
                    | None => None
                    | Some vs => match modify V m1 (d_slot new1 (b, nj)) (set_val V (average vs)) with Some m2 => Some (m2, old1, new1) | None => None end
                    end
                end
            end) = Some (m1, old1, new1) /\
          wrep f (mkCounts (n_so c) (n_do c) (n_sn c + 1) (n_dn c)) (m1, old1, new1) (aupd a (TN (b, nj)) (Some o1)) /\
          o_block V o1 = b /\ o_nset V o1 = false /\ o_patch V o1 = nj /\
          match init with Some g => o_val V o1 = Some (g (b, nj)) | None => exists vs, Forall2 (fun i v => value (a (TO (b, (oj + i)%nat))) = Some v) (seq 0 4) vs /\ o_val V o1 = Some (average vs) end).
      { destruct init as [g|].
        - destruct (op_build f _ m _ _ a (b, nj) (Some (g (b, nj))) H1 P2 A2) as ([[m1 old1] new1] & E1 & H2). exists m1, old1, new1. eexists. split; [exact E1|].
          cbn [n_so n_do n_sn n_dn] in H2. split; [replace (n_so c) with (n_so c + -1 + 1) by lia; exact H2|]. repeat split.
        - destruct (op_build f _ m _ _ a (b, nj) None H1 P2 A2) as ([[m1 old1] new1] & E1 & H2). cbn [n_so n_do n_sn n_dn fst snd] in H2.
          rewrite E1.
          assert (VS : exists vs, Forall2 (fun i v => value (a (TO (b, (oj + i)%nat))) = Some v) (seq 0 4) vs).
          { clear -PO'. induction (seq 0 4) as [|i l IH]; [exists []; constructor|]. destruct IH as (vs & F); [intros j J; apply PO'; right; exact J|]. destruct (PO' i (or_introl eq_refl)) as (_ & o & v & X & Y). exists (v :: vs). constructor; [rewrite X; exact Y|exact F]. }
          destruct VS as (vs & VS).
          assert (LR := loop_read f _ m1 old1 new1 _ b oj H2 (seq 0 4) [] (fun i I4 => proj1 (PO' i I4)) vs).
          rewrite LR; [|clear -VS; induction VS as [|i v l vs X VS IH]; constructor; [rewrite aupd_other by discriminate; exact X|exact IH]].
          cbn [app].
          destruct (op_modify f _ m1 old1 new1 _ (TN (b, nj)) _ _ (set_val V (average vs)) H2 P2 (aupd_same _ _ _) eq_refl) as (m2 & E2 & H3). cbn [slots] in E2. rewrite E2.
          exists m2, old1, new1. eexists. split; [reflexivity|]. split.
          + replace (n_so c) with (n_so c + -1 + 1) by lia. apply (wrep_ext _ _ _ _ _ H3). intros t _. destruct (tag_dec t (TN (b, nj))) as [-> |D]; [rewrite !aupd_same; reflexivity|rewrite !aupd_other by exact D; reflexivity].
          + cbn [o_block o_nset o_patch o_val]. split; [reflexivity|]. split; [reflexivity|]. split; [reflexivity|]. exists vs. auto. }
      destruct F as (m1 & old1 & new1 & o1 & E1 & H2 & Q1 & Q2 & Q3 & Q4). rewrite E1.
      destruct (loop_delete f (fun i => (b, (oj + i)%nat)) (seq 0 4) ND4 ltac:(intros i j X; injection X as X; lia) _ m1 old1 new1 _ H2) as (m2 & old2 & a2 & E2 & H3 & B1 & B2).
      { intros i I4. destruct (PO' i I4) as (X & o & v & Y & _). split; [exact X|]. exists o. rewrite aupd_other by discriminate. exact Y. }
      rewrite E2. cbn [n_so n_do n_sn n_dn] in H3.
      assert (A3 : a2 (TN (b, nj)) = Some o1) by (rewrite B2 by (intros; discriminate); apply aupd_same).
      destruct (op_modify f _ m2 old2 new1 a2 (TN (b, nj)) o1 _ (reset_neighbors V) H3 P2 A3 eq_refl) as (m3 & E3 & H4). cbn [slots] in E3. rewrite E3.
      eexists. eexists. split; [reflexivity|]. split.
      { rewrite map_length. exact H4. }
      split; [|split].
      + intros k I4. apply in_map_iff in I4. destruct I4 as (i & <- & I4). rewrite aupd_other by discriminate. apply B1, I4.
      + intros k [<-|[]]. rewrite aupd_same. eexists. split; [reflexivity|]. cbn [o_block o_nset o_patch o_val fst snd]. split; [exact Q1|]. split; [reflexivity|]. split; [exact Q3|]. exact Q4.
      + intros t T1 T2. assert (X : t <> TN (b, nj)) by (apply T2; left; reflexivity). rewrite aupd_other by exact X. rewrite B2; [apply aupd_other, X|]. intros i I4. apply T1. apply in_map_iff. exists i. auto.
  Qed.
End Ops.
