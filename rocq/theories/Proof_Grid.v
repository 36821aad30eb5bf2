(** Loops over cells: what is written, what is read. *)
From Coq Require Import ZArith QArith Qminmax Qabs List Lia Bool.
From Verif Require Import Base_Float Model_Face Model_Grid.
Import ListNotations.
Open Scope Z_scope.

Lemma cell_eqb_spec : forall a b, reflect (a = b) (cell_eqb a b).
Proof.
  intros [[i j] m] [[i' j'] m']. unfold cell_eqb.
  destruct (Z.eqb_spec i i') as [->|], (Z.eqb_spec j j') as [->|], (Z.eqb_spec m m') as [->|];
    cbn [andb]; constructor; congruence.
Qed.
Lemma cell_eqb_refl : forall a, cell_eqb a a = true.
Proof. intros a. destruct (cell_eqb_spec a a); congruence. Qed.

(** [f] succeeds on every state that agrees with [s0] on [R]; it sets the cells in [W]
    to [V] and leaves the others. *)
Definition writes (R : cell -> Prop) (s0 : arr) (f : arr -> option arr) (W : cell -> Prop) (V : arr) : Prop :=
  forall s, (forall c, R c -> s c = s0 c) ->
    exists s', f s = Some s' /\ (forall c, W c -> s' c = V c) /\ (forall c, ~ W c -> s' c = s c) /\
               (forall c, s' c = V c \/ s' c = s c).

Definition none (c : cell) : Prop := False.

Lemma writes_weaken : forall (R R' : cell -> Prop) s0 f W W' V, writes R s0 f W V ->
  (forall c, R c -> R' c) -> (forall c, W c <-> W' c) -> writes R' s0 f W' V.
Proof.
  intros R R' s0 f W W' V H HR HW s Hs. destruct (H s) as (s' & E & A & B & C); [intros c Hc; apply Hs, HR, Hc|].
  exists s'. split; [exact E|]. split; [|split].
  - intros c Hc. apply A, HW, Hc.
  - intros c Hc. apply B. intros Hw. apply Hc, HW, Hw.
  - exact C.
Qed.

Lemma writes_skip : forall R s0 V, writes R s0 (fun s => Some s) none V.
Proof.
  intros R s0 V s Hs. exists s. split; [reflexivity|]. split; [intros c []|]. split; [reflexivity|]. now right.
Qed.

Lemma writes_ext : forall R s0 f g W V, (forall s, g s = f s) -> writes R s0 f W V -> writes R s0 g W V.
Proof. intros R s0 f g W V E H s Hs. rewrite E. now apply H. Qed.

Lemma writes_loop_n : forall R s0 W V f n lo,
  (forall k, lo <= k < lo + Z.of_nat n -> writes (R k) s0 (f k) (W k) V) ->
  (forall k k' c, lo <= k -> k < k' -> k' < lo + Z.of_nat n -> R k' c -> ~ W k c) ->
  writes (fun c => exists k, lo <= k < lo + Z.of_nat n /\ R k c) s0 (loop_n n lo f)
         (fun c => exists k, lo <= k < lo + Z.of_nat n /\ W k c) V.
Proof.
  intros R s0 W V f n. induction n as [|n IH]; intros lo Hf HD s Hs.
  - exists s. cbn [loop_n]. split; [reflexivity|]. split; [|split; [reflexivity|now right]].
    intros c (k & Hk & _). lia.
  - cbn [loop_n]. destruct (Hf lo ltac:(lia) s) as (s1 & E1 & A1 & B1 & C1).
    { intros c Hc. apply Hs. exists lo. split; [lia|exact Hc]. }
    rewrite E1. cbn [bind].
    destruct (IH (lo + 1)) with (s := s1) as (s' & E & A & B & C).
    + intros k Hk. apply Hf. lia.
    + intros k k' c H1 H2 H3. apply HD; lia.
    + intros c (k & Hk & Hc). rewrite B1.
      * apply Hs. exists k. split; [lia|exact Hc].
      * apply (HD lo k c); [lia|lia|lia|exact Hc].
    + exists s'. split; [exact E|]. split; [|split].
      * intros c (k & Hk & Hc). destruct (Z.eq_dec k lo) as [->|Hne].
        -- destruct (C c) as [Hv|Hv]; [exact Hv|]. rewrite Hv. now apply A1.
        -- apply A. exists k. split; [lia|exact Hc].
      * intros c Hc. rewrite B.
        -- apply B1. intros Hw. apply Hc. exists lo. split; [lia|exact Hw].
        -- intros (k & Hk & Hw). apply Hc. exists k. split; [lia|exact Hw].
      * intros c. destruct (C c) as [Hv|Hv]; [now left|]. rewrite Hv. apply C1.
Qed.

(** do k = lo, hi *)
Lemma writes_loop : forall R s0 W V f lo hi,
  (forall k, lo <= k <= hi -> writes (R k) s0 (f k) (W k) V) ->
  (forall k k' c, lo <= k -> k < k' -> k' <= hi -> R k' c -> ~ W k c) ->
  writes (fun c => exists k, lo <= k <= hi /\ R k c) s0 (loop lo hi f)
         (fun c => exists k, lo <= k <= hi /\ W k c) V.
Proof.
  intros R s0 W V f lo hi Hf HD. unfold loop.
  assert (E : forall k, lo <= k < lo + Z.of_nat (Z.to_nat (hi - lo + 1)) <-> lo <= k <= hi).
  { intros k. destruct (Z_le_gt_dec 0 (hi - lo + 1)); lia. }
  eapply writes_weaken.
  - apply (writes_loop_n R s0 W V).
    + intros k Hk. apply Hf, E, Hk.
    + intros k k' c H1 H2 H3. apply HD; [exact H1|exact H2|]. apply E. lia.
  - intros c (k & Hk & Hc). exists k. split; [apply E, Hk|exact Hc].
  - intros c. split; intros (k & Hk & Hc); exists k; (split; [apply E, Hk|exact Hc]).
Qed.

(** without reads of the array itself *)
Lemma writes_loop0 : forall s0 W V f lo hi,
  (forall k, lo <= k <= hi -> writes none s0 (f k) (W k) V) ->
  writes none s0 (loop lo hi f) (fun c => exists k, lo <= k <= hi /\ W k c) V.
Proof.
  intros s0 W V f lo hi Hf. eapply writes_weaken.
  - apply (writes_loop (fun _ => none) s0 W V).
    + exact Hf.
    + intros k k' c _ _ _ [].
  - intros c (k & _ & []).
  - reflexivity.
Qed.

Lemma writes_cell : forall R s0 d c v, in_q d c = true -> forall (V : arr), V c = Some v ->
  writes R s0 (fun q => wr d q c v) (fun c' => c' = c) V.
Proof.
  intros R s0 d c v Hin V HV s _. unfold wr. rewrite Hin. eexists. split; [reflexivity|]. cbn beta. split; [|split].
  - intros c' ->. rewrite cell_eqb_refl. now rewrite HV.
  - intros c' Hn. destruct (cell_eqb_spec c' c); [contradiction|reflexivity].
  - intros c'. destruct (cell_eqb_spec c' c) as [->|]; [left; now rewrite HV|now right].
Qed.

(** one after the other *)
Lemma writes_seq : forall R R' s0 f g W W' V, writes R s0 f W V -> writes R' s0 g W' V ->
  (forall c, R' c -> ~ W c) ->
  writes (fun c => R c \/ R' c) s0 (fun s => bind (f s) g) (fun c => W c \/ W' c) V.
Proof.
  intros R R' s0 f g W W' V Hf Hg HD s Hs.
  destruct (Hf s) as (s1 & E1 & A1 & B1 & C1); [intros c Hc; apply Hs; now left|].
  destruct (Hg s1) as (s2 & E2 & A2 & B2 & C2).
  { intros c Hc. rewrite B1 by now apply HD. apply Hs. now right. }
  exists s2. rewrite E1. split; [exact E2|]. split; [|split].
  - intros c [Hc|Hc]; [|now apply A2]. destruct (C2 c) as [Hv|Hv]; [exact Hv|]. rewrite Hv. now apply A1.
  - intros c Hc. rewrite B2 by tauto. apply B1. tauto.
  - intros c. destruct (C2 c) as [Hv|Hv]; [now left|]. rewrite Hv. apply C1.
Qed.

(** loop over 1, 2 unfolds *)
Lemma loop12 : forall {S} (f : Z -> S -> option S) s, loop 1 2 f s = bind (f 1 s) (f 2).
Proof.
  intros S f s. unfold loop. change (Z.to_nat (2 - 1 + 1)) with 2%nat. cbn [loop_n].
  destruct (f 1 s) as [s1|]; [|reflexivity]. cbn [bind]. change (1 + 1) with 2. now destruct (f 2 s1).
Qed.

Lemma in_q_iff : forall d i j mq, in_q d (i, j, mq) = true <->
  1 - mbc d <= i <= mx d + mbc d /\ 1 - mbc d <= j <= my d + mbc d /\ 1 <= mq <= meqn d.
Proof. intros. unfold in_q. rewrite !andb_true_iff, !Z.leb_le. lia. Qed.

Lemma rd_some : forall d (q : arr) c v, in_q d c = true -> q c = Some v -> rd d q c = Some v.
Proof. intros d q c v H E. unfold rd. now rewrite H. Qed.
