(** Loops over several arrays: what is written, what is read. *)
From Coq Require Import ZArith QArith Qminmax Qabs List Lia Bool.
From Verif Require Import Base_Float Model_Face Model_Grid Proof_Grid Proof_Tag Model_Step Spec_Step.
Import ListNotations.
Open Scope Z_scope.

Lemma nm_code_inj : forall a b, nm_code a = nm_code b -> a = b.
Proof. intros a b H. destruct a, b; try reflexivity; discriminate H. Qed.
Lemma addr_eqb_spec : forall a b, reflect (a = b) (addr_eqb a b).
Proof.
  intros [a c] [b c']. unfold addr_eqb. cbn [fst snd]. destruct (Z.eqb_spec (nm_code a) (nm_code b)) as [E|E]; cbn [andb].
  - apply nm_code_inj in E. subst b. destruct (cell_eqb_spec c c') as [->|N]; constructor; congruence.
  - constructor. congruence.
Qed.

Definition mwrites (R : addr -> Prop) (s0 : mem) (f : mem -> option mem) (W : addr -> Prop) (V : mem) : Prop :=
  forall s, (forall a, R a -> s a = s0 a) ->
    exists s', f s = Some s' /\ (forall a, W a -> s' a = V a) /\ (forall a, ~ W a -> s' a = s a) /\
               (forall a, s' a = V a \/ s' a = s a).
Definition nowhere (a : addr) : Prop := False.

Lemma mw_weaken : forall (R R' : addr -> Prop) s0 f W W' V, mwrites R s0 f W V ->
  (forall c, R c -> R' c) -> (forall c, W c <-> W' c) -> mwrites R' s0 f W' V.
Proof.
  intros R R' s0 f W W' V H HR HW s Hs. destruct (H s) as (s' & E & B & C & D); [intros c Hc; apply Hs, HR, Hc|].
  exists s'. split; [exact E|]. split; [|split; [|exact D]].
  - intros c Hc. apply B, HW, Hc.
  - intros c Hc. apply C. intros Hw. apply Hc, HW, Hw.
Qed.
Lemma mw_skip : forall s0 V, mwrites nowhere s0 skip nowhere V.
Proof. intros s0 V s _. exists s. split; [reflexivity|]. split; [intros c []|]. split; [reflexivity|now right]. Qed.
Lemma mw_loop : forall R s0 W V f lo hi,
  (forall k, lo <= k <= hi -> mwrites (R k) s0 (f k) (W k) V) ->
  (forall k k' c, lo <= k -> k < k' -> k' <= hi -> R k' c -> ~ W k c) ->
  mwrites (fun c => exists k, lo <= k <= hi /\ R k c) s0 (loop lo hi f) (fun c => exists k, lo <= k <= hi /\ W k c) V.
Proof.
  intros R s0 W V f lo hi. unfold loop.
  assert (G : forall n lo, (forall k, lo <= k < lo + Z.of_nat n -> mwrites (R k) s0 (f k) (W k) V) ->
    (forall k k' c, lo <= k -> k < k' -> k' < lo + Z.of_nat n -> R k' c -> ~ W k c) ->
    mwrites (fun c => exists k, lo <= k < lo + Z.of_nat n /\ R k c) s0 (loop_n n lo f)
           (fun c => exists k, lo <= k < lo + Z.of_nat n /\ W k c) V).
  { clear lo hi. induction n as [|n IH]; intros lo Hf HD s Hs.
    - exists s. cbn [loop_n]. split; [reflexivity|]. split; [|split; [reflexivity|now right]]. intros c (k & Hk & _). lia.
    - cbn [loop_n]. destruct (Hf lo ltac:(lia) s) as (s1 & E1 & A1 & B1 & C1).
      { intros c Hc. apply Hs. exists lo. split; [lia|exact Hc]. }
      rewrite E1. cbn [bind].
      destruct (IH (lo + 1)) with (s := s1) as (s' & E & A & B & C).
      + intros k Hk. apply Hf. lia.
      + intros k k' c H1 H2 H3. apply HD; lia.
      + intros c (k & Hk & Hc). rewrite B1.
        * apply Hs. exists k. split; [lia|exact Hc].
        * apply (HD lo k c); [lia|lia|lia|exact Hc].
      + exists s'. split; [exact E|]. split; [|split].
        * intros c (k & Hk & Hc). destruct (Z.eq_dec k lo) as [->|Hne].
          -- destruct (C c) as [Hv|Hv]; [exact Hv|]. rewrite Hv. now apply A1.
          -- apply A. exists k. split; [lia|exact Hc].
        * intros c Hc. rewrite B.
          -- apply B1. intros Hw. apply Hc. exists lo. split; [lia|exact Hw].
          -- intros (k & Hk & Hw). apply Hc. exists k. split; [lia|exact Hw].
        * intros c. destruct (C c) as [Hv|Hv]; [now left|]. rewrite Hv. apply C1. }
  intros Hf HD. assert (E : forall k, lo <= k < lo + Z.of_nat (Z.to_nat (hi - lo + 1)) <-> lo <= k <= hi).
  { intros k. destruct (Z_le_gt_dec 0 (hi - lo + 1)); lia. }
  eapply mw_weaken; [apply G| |].
  - intros k Hk. apply Hf, E, Hk.
  - intros k k' c H1 H2 H3. assert (lo <= k' <= hi) by (apply E; lia). apply HD; lia.
  - intros c (k & Hk & Hc). exists k. split; [apply E, Hk|exact Hc].
  - intros c. split; intros (k & Hk & Hc); exists k; (split; [apply E, Hk|exact Hc]).
Qed.
Lemma mw_seq : forall R R' s0 f g W W' V, mwrites R s0 f W V -> mwrites R' s0 g W' V ->
  (forall c, R' c -> ~ W c) -> mwrites (fun c => R c \/ R' c) s0 (sq f g) (fun c => W c \/ W' c) V.
Proof.
  intros R R' s0 f g W W' V Hf Hg HD s Hs. unfold sq.
  destruct (Hf s) as (s1 & E1 & A1 & B1 & C1); [intros c Hc; apply Hs; now left|].
  destruct (Hg s1) as (s2 & E2 & A2 & B2 & C2).
  { intros c Hc. rewrite B1 by now apply HD. apply Hs. now right. }
  exists s2. rewrite E1. split; [exact E2|]. split; [|split].
  - intros c [Hc|Hc]; [|now apply A2]. destruct (C2 c) as [Hv|Hv]; [exact Hv|]. rewrite Hv. now apply A1.
  - intros c Hc. rewrite B2 by tauto. apply B1. tauto.
  - intros c. destruct (C2 c) as [Hv|Hv]; [now left|]. rewrite Hv. apply C1.
Qed.

(** *** 1, ..., n *)
Lemma in_zrange : forall k lo hi, In k (zrange lo hi) <-> lo <= k <= hi.
Proof.
  intros k lo hi. unfold zrange. rewrite in_map_iff. split.
  - intros (x & <- & Hx). apply in_seq in Hx. lia.
  - intros H. exists (Z.to_nat (k - lo)). split; [lia|]. apply in_seq. lia.
Qed.
Lemma gather_map : forall {X} (f : Z -> option X) (g : Z -> X) l, (forall k, In k l -> f k = Some (g k)) -> gather_some (map f l) = Some (map g l).
Proof.
  intros X f g l H. induction l as [|k l IH]; [reflexivity|]. cbn [map gather_some]. rewrite (H k) by now left. cbn [bind].
  rewrite IH by (intros; apply H; now right). reflexivity.
Qed.
Lemma vec_ext : forall n f g, (forall k, 1 <= k <= n -> f k = g k) -> vec n f = vec n g.
Proof. intros n f g H. apply map_ext_in. intros k Hk. apply H. now apply in_zrange in Hk. Qed.
Lemma fold_ext : forall {X} (f g : X -> Z -> X) l, (forall k, In k l -> forall x, f x k = g x k) -> forall x, fold_left f l x = fold_left g l x.
Proof.
  intros X f g l H. induction l as [|k l IH]; intros x; [reflexivity|]. cbn [fold_left]. rewrite (H k) by now left. apply IH.
  intros k' Hk'. apply H. now right.
Qed.
Lemma total_ext : forall A n f g, (forall k, 1 <= k <= n -> f k = g k) -> total_of A n f = total_of A n g.
Proof. intros A n f g H. apply fold_ext. intros k Hk x. rewrite H by now apply in_zrange in Hk. reflexivity. Qed.
Lemma zrange_snoc : forall n, 0 <= n -> zrange 1 (n + 1) = zrange 1 n ++ [n + 1].
Proof.
  intros n Hn. unfold zrange. replace (Z.to_nat (n + 1 - 1 + 1)) with (Z.to_nat (n - 1 + 1) + 1)%nat by lia.
  rewrite seq_app, map_app. cbn [seq map]. f_equal. f_equal. lia.
Qed.
(** a loop that computes a value *)
Lemma loop_fold : forall {X} (f : Z -> X -> option X) (g : X -> Z -> X) n, 0 <= n -> (forall k x, 1 <= k <= n -> f k x = Some (g x k)) ->
  forall x, loop 1 n f x = Some (fold_left g (zrange 1 n) x).
Proof.
  intros X f g n Hn H x. destruct (loop_ok X 1 n f (fun k y => y = fold_left g (zrange 1 (k - 1)) x)) with (s := x) as (y & E & P).
  - lia.
  - intros k y Hk ->. eexists. split; [apply H; lia|]. replace (k + 1 - 1) with (k - 1 + 1) by lia. rewrite zrange_snoc, fold_left_app by lia.
    cbn [fold_left]. now replace (k - 1 + 1) with k by lia.
  - reflexivity.
  - rewrite E, P. f_equal. f_equal. f_equal. lia.
Qed.

(** the number in memory *)
Definition val (s : mem) (a : addr) : Q := match s a with Some v => v | None => 0%Q end.
Lemma val_some : forall s a v, s a = Some v -> val s a = v.
Proof. intros s a v H. unfold val. now rewrite H. Qed.
Definition set (s : mem) (a : addr) : Prop := s a = Some (val s a).
Lemma set_some : forall s a v, s a = Some v -> set s a.
Proof. intros s a v H. unfold set, val. now rewrite H. Qed.
Lemma set_eq : forall s s' a, set s a -> s' a = s a -> set s' a.
Proof. intros s s' a H E. unfold set, val in *. now rewrite E. Qed.
Lemma val_eq : forall s s' a, s' a = s a -> val s' a = val s a.
Proof. intros s s' a E. unfold val. now rewrite E. Qed.

Section Ops.
  Variable A : arith.
  Variable d : dims.
  Variable S : solver.

  Lemma mw_wr : forall s0 a v V, in_mem d S a = true -> V a = Some v -> mwrites nowhere s0 (wrm d S a v) (fun c => c = a) V.
  Proof.
    intros s0 a v V Hin HV s _. unfold wrm. rewrite Hin. eexists. split; [reflexivity|]. cbn beta. split; [|split].
    - intros c ->. destruct (addr_eqb_spec a a); congruence.
    - intros c Hn. destruct (addr_eqb_spec c a); [contradiction|reflexivity].
    - intros c. destruct (addr_eqb_spec c a) as [->|]; [left; now rewrite HV|now right].
  Qed.
  Lemma rdm_set : forall s a, in_mem d S a = true -> set s a -> rdm d S s a = Some (val s a).
  Proof. intros s a Hi H. unfold rdm. now rewrite Hi. Qed.
  Lemma rdm_some : forall s a v, in_mem d S a = true -> s a = Some v -> rdm d S s a = Some v.
  Proof. intros s a v Hi H. unfold rdm. now rewrite Hi. Qed.
  Lemma mw_read : forall R s0 b g W V, in_mem d S b = true -> set s0 b -> mwrites R s0 (g (val s0 b)) W V ->
    mwrites (fun c => c = b \/ R c) s0 (fun s => bind (rdm d S s b) (fun x => g x s)) W V.
  Proof.
    intros R s0 b g W V Hi Hb H s Hs. rewrite (rdm_some s b (val s0 b) Hi).
    - cbn [bind]. apply H. intros c Hc. apply Hs. now right.
    - rewrite (Hs b) by now left. exact Hb.
  Qed.
  Lemma mw_inc : forall s0 a v V, in_mem d S a = true -> set s0 a -> V a = Some (add A (val s0 a) v) ->
    mwrites (fun c => c = a \/ nowhere c) s0 (incm A d S a v) (fun c => c = a) V.
  Proof. intros s0 a v V Hi Ha HV. apply (mw_read nowhere s0 a (fun x s => wrm d S a (add A x v) s)); [exact Hi|exact Ha|]. now apply mw_wr. Qed.
  Lemma mw_dec : forall s0 a v V, in_mem d S a = true -> set s0 a -> V a = Some (sub A (val s0 a) v) ->
    mwrites (fun c => c = a \/ nowhere c) s0 (decm A d S a v) (fun c => c = a) V.
  Proof. intros s0 a v V Hi Ha HV. apply (mw_read nowhere s0 a (fun x s => wrm d S a (sub A x v) s)); [exact Hi|exact Ha|]. now apply mw_wr. Qed.
  Lemma mw_mov : forall s0 a b V, in_mem d S a = true -> in_mem d S b = true -> set s0 b -> V a = Some (val s0 b) ->
    mwrites (fun c => c = b \/ nowhere c) s0 (movm d S a b) (fun c => c = a) V.
  Proof. intros s0 a b V Hi Hb Sb HV. apply (mw_read nowhere s0 b (fun x s => wrm d S a x s)); [exact Hb|exact Sb|]. now apply mw_wr. Qed.
  Lemma mw_acc : forall s0 a b V, in_mem d S a = true -> in_mem d S b = true -> set s0 a -> set s0 b -> V a = Some (add A (val s0 a) (val s0 b)) ->
    mwrites (fun c => c = b \/ (c = a \/ nowhere c)) s0 (accm A d S a b) (fun c => c = a) V.
  Proof. intros s0 a b V Hi Hb Sa Sb HV. apply (mw_read (fun c => c = a \/ nowhere c) s0 b (fun x s => incm A d S a x s)); [exact Hb|exact Sb|]. now apply mw_inc. Qed.
  Lemma row_some : forall s a n i f, (forall m, 1 <= m <= n -> in_mem d S (a, (i, m, 1)) = true /\ s (a, (i, m, 1)) = Some (f m)) ->
    row d S s a n i = Some (vec n f).
  Proof. intros s a n i f H. apply gather_map. intros k Hk. apply in_zrange in Hk. destruct (H k Hk) as [H1 H2]. unfold rdm. now rewrite H1. Qed.
  Lemma mw_row : forall R s0 a n i g W V, (forall m, 1 <= m <= n -> in_mem d S (a, (i, m, 1)) = true /\ set s0 (a, (i, m, 1))) ->
    mwrites R s0 (g (vec n (fun m => val s0 (a, (i, m, 1))))) W V ->
    mwrites (fun c => (exists m, 1 <= m <= n /\ c = (a, (i, m, 1))) \/ R c) s0 (fun s => bind (row d S s a n i) (fun x => g x s)) W V.
  Proof.
    intros R s0 a n i g W V H HG s Hs. rewrite (row_some s a n i (fun m => val s0 (a, (i, m, 1)))).
    - cbn [bind]. apply HG. intros c Hc. apply Hs. now right.
    - intros m Hm. destruct (H m Hm) as [H1 H2]. split; [exact H1|]. rewrite Hs; [exact H2|]. left. now exists m.
  Qed.
End Ops.
