(** Proofs about iterate_adapted and iterate_partitioned. *)
From Coq Require Import ZArith List Bool Lia.
From Verif Require Import Model_Face Model_Domain Model_Iter Spec_Iter.
Import ListNotations.
Open Scope Z_scope.

(** ** iterate_adapted *)
Fixpoint reports (d : dim) (i oj nj : nat) (os : list outcome) : list acall :=
  match os with
  | [] => []
  | o :: r => mkA (relation_of o) i oj nj ::
              reports d i (oj + length (before d o)) (nj + length (after d o)) r
  end.

Lemma skipn_app_exact : forall (A : Type) (a b : list A) n, n = length a -> skipn n (a ++ b) = b.
Proof. intros A a b n ->. rewrite skipn_app, skipn_all, Nat.sub_diag. reflexivity. Qed.

Lemma nch_num : forall d, num_children d = nch d.
Proof. destruct d; reflexivity. Qed.
Lemma nch_S : forall d, exists n, nch d = S n.
Proof. destruct d; eexists; reflexivity. Qed.

Lemma adapted_block_ok : forall d os i oj nj fuel,
  (length (leaves_before d os) <= fuel)%nat ->
  adapted_block fuel d i oj nj (leaves_before d os) (leaves_after d os) = Some (reports d i oj nj os).
Proof.
  intros d. induction os as [|o os IH]; intros i oj nj fuel Hf.
  - destruct fuel; reflexivity.
  - unfold leaves_before, leaves_after in *. cbn [map concat reports] in *.
    set (B := concat (map (before d) os)) in *. set (A := concat (map (after d) os)) in *.
    rewrite app_length in Hf.
    assert (Hb : length (before d o) <> 0%nat)
      by (destruct o; cbn; rewrite ?repeat_length; destruct (nch_S d) as (n & Hn0); lia).
    destruct fuel as [|fuel]; [lia|].
    specialize (IH i (oj + length (before d o))%nat (nj + length (after d o))%nat fuel ltac:(lia)).
    assert (Es : forall rb ra lo ln, before d o = lo :: rb -> after d o = ln :: ra ->
       Z.abs (lo - ln) <= 1 ->
       (if lo <? ln then (HALFSIZE, 1%nat, num_children d)
        else if ln <? lo then (DOUBLESIZE, num_children d, 1%nat)
        else (SAMESIZE, 1%nat, 1%nat)) = (relation_of o, length (before d o), length (after d o)) ->
       adapted_block (S fuel) d i oj nj (before d o ++ B) (after d o ++ A) =
       Some (mkA (relation_of o) i oj nj ::
             reports d i (oj + length (before d o)) (nj + length (after d o)) os)).
    { intros rb ra lo ln Eb Ea Hle Eif.
      remember (before d o) as bo. remember (after d o) as ao.
      rewrite <- (skipn_app_exact _ bo B (length bo) eq_refl) in IH.
      rewrite <- (skipn_app_exact _ ao A (length ao) eq_refl) in IH.
      assert (L1 : length (bo ++ B) = (length bo + length B)%nat) by apply app_length.
      assert (L2 : length (ao ++ A) = (length ao + length A)%nat) by apply app_length.
      remember (bo ++ B) as ob. remember (ao ++ A) as na.
      destruct ob as [|lo' ob]; [rewrite Eb in Heqob; discriminate|].
      destruct na as [|ln' na]; [rewrite Ea in Heqna; discriminate|].
      assert (lo' = lo) by (rewrite Eb in Heqob; cbn in Heqob; congruence).
      assert (ln' = ln) by (rewrite Ea in Heqna; cbn in Heqna; congruence).
      subst lo' ln'. cbn [adapted_block].
      replace (negb (Z.abs (lo - ln) <=? 1)) with false by lia.
      rewrite Eif.
      replace (length (lo :: ob) <? length bo)%nat with false by (symmetry; apply Nat.ltb_ge; lia).
      replace (length (ln :: na) <? length ao)%nat with false by (symmetry; apply Nat.ltb_ge; lia).
      cbn [orb]. rewrite IH. reflexivity. }
    destruct (nch_S d) as (n & En).
    destruct o as [l|l|l].
    + apply (Es [] [] l l); auto; [lia|]. rewrite Z.ltb_irrefl. reflexivity.
    + apply (Es [] (repeat (l + 1) n) l (l + 1)); auto.
      * cbn [after]. rewrite En. reflexivity.
      * lia.
      * replace (l <? l + 1) with true by lia. cbn [relation_of before after length].
        rewrite repeat_length, nch_num. reflexivity.
    + apply (Es (repeat l n) [] l (l - 1)); auto.
      * cbn [before]. rewrite En. reflexivity.
      * lia.
      * replace (l <? l - 1) with false by lia. replace (l - 1 <? l) with true by lia.
        cbn [relation_of before after length]. rewrite repeat_length, nch_num. reflexivity.
Qed.

Lemma reports_nth : forall d i os oj nj k,
  nth_error (reports d i oj nj os) k =
  match nth_error os k with
  | Some o => Some (mkA (relation_of o) i (oj + length (leaves_before d (firstn k os)))
                        (nj + length (leaves_after d (firstn k os))))
  | None => None
  end.
Proof.
  intros d i. induction os as [|o os IH]; intros oj nj k; [destruct k; reflexivity|].
  destruct k as [|k]; cbn [reports nth_error firstn].
  - cbn. rewrite !Nat.add_0_r. reflexivity.
  - rewrite IH. destruct (nth_error os k); [|reflexivity].
    unfold leaves_before, leaves_after. cbn [map concat]. rewrite !app_length, !Nat.add_assoc. reflexivity.
Qed.

Theorem iterate_adapted_ok : forall d oss,
  exists cs, iterate_adapted d (map (leaves_before d) oss) (map (leaves_after d) oss) = Some (concat cs) /\
    length cs = length oss /\
    forall i os, nth_error oss i = Some os ->
    exists c, nth_error cs i = Some c /\ length c = length os /\
      forall k, nth_error c k = report d os i k.
Proof.
  intros d oss. unfold iterate_adapted.
  assert (G : forall oss i0, exists cs,
    adapted_blocks d i0 (map (leaves_before d) oss) (map (leaves_after d) oss) = Some (concat cs) /\
    length cs = length oss /\
    forall i os, nth_error oss i = Some os ->
    exists c, nth_error cs i = Some c /\ length c = length os /\
      forall k, nth_error c k = report d os (i0 + i) k).
  { clear. induction oss as [|os oss IH]; intros i0.
    - exists []. repeat split; auto. intros i os E. destruct i; discriminate.
    - destruct (IH (S i0)) as (cs & E & Hl & H). exists (reports d i0 0 0 os :: cs).
      cbn [map adapted_blocks concat length]. rewrite adapted_block_ok by lia. rewrite E.
      split; [reflexivity|]. split; [rewrite Hl; reflexivity|].
      intros i os' Ei. destruct i as [|i].
      + cbn in Ei. injection Ei as <-. eexists. split; [reflexivity|]. split.
        * clear. generalize 0%nat at 1 as a. generalize 0%nat at 1 as b.
          induction os; intros; cbn; [reflexivity|]. rewrite IHos. reflexivity.
        * intro k. rewrite reports_nth. unfold report. rewrite Nat.add_0_r. reflexivity.
      + cbn in Ei |- *. destruct (H _ _ Ei) as (c & E1 & E2 & E3). exists c.
        rewrite <- plus_n_Sm. auto. }
  exact (G oss 0%nat).
Qed.

(** the reported ranges tile the leaves *)
Lemma tile : forall (f : outcome -> list Z) os j,
  (forall o, f o <> []) -> (j < length (concat (map f os)))%nat ->
  exists! k, (k < length os)%nat /\
     (length (concat (map f (firstn k os))) <= j < length (concat (map f (firstn (S k) os))))%nat.
Proof.
  intros f os. induction os as [|o os IH]; intros j Hf Hj; [cbn in Hj; lia|].
  cbn [map concat] in Hj. rewrite app_length in Hj.
  destruct (Nat.lt_ge_cases j (length (f o))) as [H|H].
  - exists 0%nat. split.
    + cbn [firstn map concat length]. rewrite app_length. cbn. lia.
    + intros k (Hk & Hr). destruct k as [|k]; [reflexivity|].
      cbn [firstn map concat] in Hr. rewrite app_length in Hr. lia.
  - destruct (IH (j - length (f o))%nat Hf ltac:(lia)) as (k & (Hk & Hr) & Hu).
    exists (S k). split.
    + split; [cbn; lia|]. cbn [firstn map concat] in Hr |- *. rewrite !app_length.
      destruct os as [|o2 os]; [cbn in Hk; lia|]. cbn [map concat] in Hr |- *.
      rewrite ?app_length in *. lia.
    + intros k' (Hk' & Hr'). destruct k' as [|k'].
      * cbn [firstn map concat length] in Hr'. rewrite app_length in Hr'. cbn in Hr'. lia.
      * f_equal. apply Hu. split; [cbn in Hk'; lia|].
        cbn [firstn map concat] in Hr' |- *. rewrite !app_length in Hr'.
        destruct os as [|o2 os]; [cbn in Hk'; lia|]. cbn [map concat] in Hr' |- *.
        rewrite ?app_length in *. lia.
Qed.

Lemma before_ne : forall d o, before d o <> [].
Proof. intros d o. destruct o; cbn; destruct (nch_S d) as (n & E); rewrite ?E; discriminate. Qed.
Lemma after_ne : forall d o, after d o <> [].
Proof. intros d o. destruct o; cbn; destruct (nch_S d) as (n & E); rewrite ?E; discriminate. Qed.

(** ** iterate_partitioned *)
Lemma zrange_split : forall a b c, a <= b <= c -> zrange a c = zrange a b ++ zrange b c.
Proof.
  intros a b c H. unfold zrange.
  replace (Z.to_nat (c - a)) with (Z.to_nat (b - a) + Z.to_nat (c - b))%nat by lia.
  rewrite seq_app, map_app. f_equal. cbn [plus].
  rewrite <- (Nat.add_0_r (Z.to_nat (b - a))) at 1.
  generalize 0%nat as s. generalize (Z.to_nat (c - b)) as n.
  induction n as [|n IH]; intros s; cbn [seq map]; [reflexivity|].
  f_equal; [lia|]. rewrite plus_n_Sm. apply IH.
Qed.

Lemma zrange_In : forall a b k, In k (zrange a b) <-> a <= k < b.
Proof.
  intros a b k. unfold zrange. rewrite in_map_iff. split.
  - intros (n & <- & H). apply in_seq in H. lia.
  - intro H. exists (Z.to_nat (k - a)). split; [lia|]. apply in_seq. lia.
Qed.

Section Part.
  Variable sizes : list Z.
  Hypothesis Hsz : Forall (fun n => 0 <= n) sizes.

  Lemma total_firstn_S : forall i, (i < length sizes)%nat ->
    exists n, 0 <= n /\ block_first sizes (S i) = block_first sizes i + n.
  Proof.
    unfold block_first. revert Hsz. induction sizes as [|s l IH]; intros H i Hi; [cbn in Hi; lia|].
    inversion H; subst. destruct i as [|i].
    - exists s. cbn. split; lia.
    - destruct (IH ltac:(assumption) i ltac:(cbn in Hi; lia)) as (m & Hm & E).
      exists m. split; [exact Hm|].
      change (total (firstn (S (S i)) (s :: l))) with (s + total (firstn (S i) l)).
      change (total (firstn (S i) (s :: l))) with (s + total (firstn i l)). lia.
  Qed.

  Lemma block_first_mono : forall i j, (i <= j <= length sizes)%nat ->
    block_first sizes i <= block_first sizes j.
  Proof.
    intros i j [Hij Hj]. induction j as [|j IH]; [replace i with 0%nat by lia; lia|].
    destruct (Nat.eq_dec i (S j)) as [->|]; [lia|].
    destruct (total_firstn_S j ltac:(lia)) as (sz & Hs & E). specialize (IH ltac:(lia) ltac:(lia)). lia.
  Qed.

  Lemma block_first_0 : block_first sizes 0 = 0.
  Proof. reflexivity. Qed.
  Lemma block_first_all : block_first sizes (length sizes) = total sizes.
  Proof. unfold block_first. rewrite firstn_all. reflexivity. Qed.

  Lemma total_app : forall a b, total (a ++ b) = total a + total b.
  Proof. induction a; intros b; unfold total in *; cbn [app fold_right] in *; [reflexivity|]. rewrite IHa. lia. Qed.

  (** num_patches_before in closed form *)
  Lemma before_closed : forall lo hi i, 0 <= lo <= hi -> (i <= length sizes)%nat ->
    total (map (local_num sizes lo hi) (seq 0 i)) =
    Z.max lo (Z.min hi (block_first sizes i)) - lo.
  Proof.
    intros lo hi i Hlh. induction i as [|i IH]; intros Hi.
    - rewrite block_first_0. cbn [seq map]. change (total []) with 0. lia.
    - rewrite seq_S, map_app, total_app, IH by lia. cbn [map total fold_right plus].
      destruct (total_firstn_S i ltac:(lia)) as (n & Hn & E).
      unfold local_num. lia.
  Qed.

  Variables (o0 o1 n0 n1 uf ul uof : Z).
  Hypothesis Ho : 0 <= o0 <= o1 /\ o1 <= total sizes.
  Hypothesis Hn : 0 <= n0 <= n1 /\ n1 <= total sizes.
  Hypothesis Hw : window o0 o1 n0 n1 uf ul uof.

  (** the window in terms of the block [B, B + sz), pure arithmetic *)
  Lemma win_all_new : forall B sz nj,
    Z.max 0 (Z.min n1 (B + sz) - Z.max n0 B) <= Z.max (uf - (Z.max n0 (Z.min n1 B) - n0)) 0 ->
    0 <= sz -> 0 <= B ->
    0 <= nj < Z.max 0 (Z.min n1 (B + sz) - Z.max n0 B) ->
    (o0 <=? Z.max n0 B + nj) && (Z.max n0 B + nj <? o1) = false.
  Proof.
    intros B sz nj C Hs HB Hj. apply andb_false_iff. rewrite Z.leb_gt, Z.ltb_ge.
    destruct Hw as (W1 & W2). clear Hw.
    destruct (Z.lt_ge_cases (Z.max o0 n0) (Z.min o1 n1)) as [W|W].
    - destruct (W1 W) as (-> & E2 & E3). clear W1 W2 E2 E3. lia.
    - clear W1 W2. lia.
  Qed.

  Lemma win_pre : forall B sz nj, 0 <= sz -> 0 <= B ->
    0 <= nj < Z.max (uf - (Z.max n0 (Z.min n1 B) - n0)) 0 ->
    nj < Z.max 0 (Z.min n1 (B + sz) - Z.max n0 B) ->
    (o0 <=? Z.max n0 B + nj) && (Z.max n0 B + nj <? o1) = false.
  Proof.
    intros B sz nj Hs HB Hj Hj2. apply andb_false_iff. rewrite Z.leb_gt, Z.ltb_ge.
    destruct Hw as (W1 & W2). clear Hw.
    destruct (Z.lt_ge_cases (Z.max o0 n0) (Z.min o1 n1)) as [W|W].
    - destruct (W1 W) as (E1 & E2 & E3). clear W1 W2 E2 E3. subst uf. lia.
    - clear W1 W2. lia.
  Qed.

  Lemma win_post : forall B sz nj, 0 <= sz -> 0 <= B ->
    Z.min (Z.max (uf + ul - (Z.max n0 (Z.min n1 B) - n0)) 0)
          (Z.max 0 (Z.min n1 (B + sz) - Z.max n0 B)) <= nj ->
    nj < Z.max 0 (Z.min n1 (B + sz) - Z.max n0 B) ->
    (o0 <=? Z.max n0 B + nj) && (Z.max n0 B + nj <? o1) = false.
  Proof.
    intros B sz nj Hs HB Hj Hj2. apply andb_false_iff. rewrite Z.leb_gt, Z.ltb_ge.
    destruct Hw as (W1 & W2). clear Hw.
    destruct (Z.lt_ge_cases (Z.max o0 n0) (Z.min o1 n1)) as [W|W].
    - destruct (W1 W) as (E1 & E2 & E3). clear W1 W2 E3. subst uf ul. lia.
    - clear W1 W2. lia.
  Qed.

  Lemma win_mid : forall B sz nj, 0 <= sz -> 0 <= B ->
    Z.max (uf - (Z.max n0 (Z.min n1 B) - n0)) 0 <= nj ->
    nj < Z.min (Z.max (uf + ul - (Z.max n0 (Z.min n1 B) - n0)) 0)
               (Z.max 0 (Z.min n1 (B + sz) - Z.max n0 B)) ->
    (o0 <=? Z.max n0 B + nj) && (Z.max n0 B + nj <? o1) = true.
  Proof.
    intros B sz nj Hs HB Hj Hj2. apply andb_true_iff. rewrite Z.leb_le, Z.ltb_lt.
    destruct Hw as (W1 & W2). clear Hw.
    destruct (Z.lt_ge_cases (Z.max o0 n0) (Z.min o1 n1)) as [W|W].
    - destruct (W1 W) as (E1 & E2 & E3). clear W1 W2 E3. subst uf ul. lia.
    - destruct (W2 W) as (E1 & E2 & E3). clear W1 W2. subst ul. lia.
  Qed.

  Lemma win_stay : forall x w nb, 0 <= w -> Z.max x 0 < nb ->
    0 <= Z.max x 0 /\ Z.max x 0 <= Z.min (Z.max (x + w) 0) nb /\ Z.min (Z.max (x + w) 0) nb <= nb.
  Proof. intros. lia. Qed.

  Lemma win_ul : 0 <= ul.
  Proof.
    destruct Hw as (W1 & W2). clear Hw.
    destruct (Z.lt_ge_cases (Z.max o0 n0) (Z.min o1 n1)) as [W|W];
    [destruct (W1 W) as (E1 & E2 & E3)|destruct (W2 W) as (E1 & E2 & E3)]; clear W1 W2; lia.
  Qed.

  Lemma side_pre : forall p q B E f l, 0 <= p -> 0 <= B -> B <= E -> p <= f -> f < l -> l <= q ->
    let nb := Z.max 0 (Z.min q E - Z.max p B) in
    let skip := Z.max p (Z.min q B) - p in
    let pre := Z.max (f - p - skip) 0 in
    (nb <= pre -> Z.min l E <= Z.max f B) /\
    (pre < nb -> pre + Z.max p B = Z.max f B /\
                 Z.min (Z.max (l - p - skip) 0) nb + Z.max p B = Z.max (Z.max f B) (Z.min l E)).
  Proof.
    clear. intros p q B E f l Hp HB HE Hf Hl Hq. cbv zeta. split; intros H.
    - destruct (Z.le_gt_cases q B); lia.
    - assert (Hb : B < q) by lia. assert (Hpe : p < E) by lia.
      rewrite (Z.min_r q B) in H |- * by lia.
      rewrite (Z.max_r 0 (Z.min q E - Z.max p B)) in H |- * by lia.
      set (P := Z.max p B) in *. assert (p <= P /\ B <= P /\ (P = p \/ P = B)) by lia. clearbody P.
      replace (f - p - (P - p)) with (f - P) in * by lia.
      replace (l - p - (P - p)) with (l - P) in * by lia.
      assert (Hfe : f < E) by lia.
      split; [lia|]. destruct (Z.le_gt_cases l P); lia.
  Qed.

  Lemma win_old : forall B sz, 0 <= sz -> 0 <= B ->
    let nb := Z.max 0 (Z.min n1 (B + sz) - Z.max n0 B) in
    let nskip := Z.max n0 (Z.min n1 B) - n0 in
    let obn := Z.max 0 (Z.min o1 (B + sz) - Z.max o0 B) in
    let oskip := Z.max o0 (Z.min o1 B) - o0 in
    let npre := Z.max (uf - nskip) 0 in
    let nstay := Z.min (Z.max (uf + ul - nskip) 0) nb in
    npre < nb ->
    let '(opre, ostay) := if obn <=? Z.max (uof - oskip) 0 then (obn, obn)
         else (Z.max (uof - oskip) 0, Z.min (Z.max (uof + ul - oskip) 0) obn) in
    0 <= opre /\ opre <= ostay /\ ostay <= obn /\ ostay - opre = nstay - npre /\
    (npre < nstay -> opre + Z.max o0 B = npre + Z.max n0 B).
  Proof.
    intros B sz Hs HB. cbv zeta.
    assert (L6 := win_ul).
    assert (S1 : forall f l, n0 <= f -> f < l -> l <= n1 -> _)
      by (intros f l; exact (side_pre n0 n1 B (B + sz) f l ltac:(lia) HB ltac:(lia))).
    assert (S2 : forall f l, o0 <= f -> f < l -> l <= o1 -> _)
      by (intros f l; exact (side_pre o0 o1 B (B + sz) f l ltac:(lia) HB ltac:(lia))).
    cbv zeta in S1, S2.
    destruct Hw as (W1 & W2). clear Hw Hsz.
    assert (Hb1 : 0 <= Z.max 0 (Z.min o1 (B + sz) - Z.max o0 B)) by apply Z.le_max_l.
    set (nb := Z.max 0 (Z.min n1 (B + sz) - Z.max n0 B)) in *.
    set (nskip := Z.max n0 (Z.min n1 B) - n0) in *.
    set (obn := Z.max 0 (Z.min o1 (B + sz) - Z.max o0 B)) in *.
    set (oskip := Z.max o0 (Z.min o1 B) - o0) in *.
    clearbody nb nskip obn oskip.
    set (nB := Z.max n0 B) in *. set (oB := Z.max o0 B) in *. clearbody nB oB.
    intros C.
    destruct (Z.lt_ge_cases (Z.max o0 n0) (Z.min o1 n1)) as [W|W].
    - destruct (W1 W) as (E1 & E2 & E3). clear W1 W2.
      set (f := Z.max o0 n0) in *. set (l := Z.min o1 n1) in *.
      assert (Hf : o0 <= f /\ n0 <= f) by (unfold f; lia).
      assert (Hl : l <= o1 /\ l <= n1) by (unfold l; lia).
      clearbody f l.
      specialize (S1 f l ltac:(lia) W ltac:(lia)). specialize (S2 f l ltac:(lia) W ltac:(lia)).
      replace (f - n0 - nskip) with (uf - nskip) in S1 by lia.
      replace (l - n0 - nskip) with (uf + ul - nskip) in S1 by lia.
      replace (f - o0 - oskip) with (uof - oskip) in S2 by lia.
      replace (l - o0 - oskip) with (uof + ul - oskip) in S2 by lia.
      destruct S1 as (_ & S1). destruct (S1 C) as (A1 & A2).
      destruct S2 as (S2a & S2b).
      set (M := Z.max f B) in *. set (X := Z.min l (B + sz)) in *.
      clearbody M X.
      set (npre := Z.max (uf - nskip) 0) in *. clearbody npre.
      set (nstay := Z.min (Z.max (uf + ul - nskip) 0) nb) in *. clearbody nstay.
      assert (Hop : 0 <= Z.max (uof - oskip) 0) by apply Z.le_max_r.
      set (op := Z.max (uof - oskip) 0) in *.
      assert (Hos : op < obn -> op <= Z.min (Z.max (uof + ul - oskip) 0) obn <= obn).
      { intro. unfold op in *. lia. }
      set (os := Z.min (Z.max (uof + ul - oskip) 0) obn) in *. clearbody op os.
      destruct (Z.leb_spec obn op) as [D|D].
      + specialize (S2a D). repeat split; lia.
      + specialize (S2b D). specialize (Hos D). repeat split; lia.
    - destruct (W2 W) as (E1 & E2 & E3). clear W1 W2 S1 S2 W. subst ul.
      rewrite !Z.add_0_r.
      set (a := uf - nskip) in *. set (c := uof - oskip) in *. clearbody a c.
      destruct (Z.leb_spec obn (Z.max c 0)) as [D|D]; repeat split; lia.
  Qed.

  Lemma partitioned_block_ok : forall i, (i < length sizes)%nat ->
    partitioned_block uf ul uof i
      (mkPB (local_num sizes o0 o1 i) (total (map (local_num sizes o0 o1) (seq 0 i))))
      (mkPB (local_num sizes n0 n1 i) (total (map (local_num sizes n0 n1) (seq 0 i)))) =
    Some (map (expected sizes o0 o1 n0 i) (zrange 0 (local_num sizes n0 n1 i))).
  Proof.
    intros i Hi. rewrite !before_closed by lia.
    destruct (total_firstn_S i Hi) as (sz & Hsz0 & E).
    assert (Hb0 : 0 <= block_first sizes i)
      by (rewrite <- block_first_0; apply block_first_mono; lia).
    unfold partitioned_block, expected, local_num, local_first. cbn [pb_num pb_before].
    rewrite E in *. set (B := block_first sizes i) in *. clearbody B. clear E.
    assert (L1 := fun nj C => win_all_new B sz nj C Hsz0 Hb0).
    assert (L2 := fun nj => win_pre B sz nj Hsz0 Hb0).
    assert (L3 := fun nj => win_post B sz nj Hsz0 Hb0).
    assert (L4 := fun nj => win_mid B sz nj Hsz0 Hb0).
    assert (L5 := win_old B sz Hsz0 Hb0). cbv zeta in L5.
    assert (L6 := win_ul).
    set (nb := Z.max 0 (Z.min n1 (B + sz) - Z.max n0 B)) in *.
    set (nskip := Z.max n0 (Z.min n1 B) - n0) in *.
    set (obn := Z.max 0 (Z.min o1 (B + sz) - Z.max o0 B)) in *.
    set (oskip := Z.max o0 (Z.min o1 B) - o0) in *.
    assert (Hnb0 : 0 <= nb) by apply Z.le_max_l.
    clearbody nb nskip obn oskip. clear Hw Ho Hn Hsz.
    set (nB := Z.max n0 B) in *. set (oB := Z.max o0 B) in *. clearbody nB oB.
    destruct (Z.eqb_spec nb 0) as [E0|E0]; [rewrite E0; reflexivity|].
    assert (N : forall a b,
      (forall nj, a <= nj < b -> (o0 <=? nB + nj) && (nB + nj <? o1) = false) ->
      map (fun nj => mkC i None nj) (zrange a b) =
      map (fun nj => mkC i (if (o0 <=? nB + nj) && (nB + nj <? o1) then Some (nB + nj - oB) else None) nj)
          (zrange a b)).
    { intros a b H1. apply map_ext_in. intros nj Hj. apply zrange_In in Hj.
      rewrite H1 by lia. reflexivity. }
    destruct (Z.leb_spec nb (Z.max (uf - nskip) 0)) as [C|C].
    - replace (negb ((0 <=? nb) && (nb <=? nb) && (nb <=? nb))) with false by lia.
      rewrite Z.eqb_refl. f_equal. apply N. intros nj Hj. apply L1; auto.
    - specialize (L5 C).
      assert (Hst := win_stay (uf - nskip) ul nb L6 C).
      replace (uf - nskip + ul) with (uf + ul - nskip) in Hst by lia.
      set (npre := Z.max (uf - nskip) 0) in *.
      set (nstay := Z.min (Z.max (uf + ul - nskip) 0) nb) in *.
      clearbody npre nstay.
      replace (negb ((0 <=? npre) && (npre <=? nstay) && (nstay <=? nb))) with false by lia.
      replace (npre =? nb) with false by lia.
      destruct (if obn <=? Z.max (uof - oskip) 0 then (obn, obn)
         else (Z.max (uof - oskip) 0, Z.min (Z.max (uof + ul - oskip) 0) obn)) as (opre, ostay).
      destruct L5 as (P1 & P2 & P3 & P4 & P5).
      replace (negb ((0 <=? opre) && (opre <=? ostay) && (ostay <=? obn))) with false by lia.
      replace (negb (ostay - opre =? nstay - npre)) with false by lia.
      f_equal. rewrite (zrange_split 0 npre nb) by lia. rewrite (zrange_split npre nstay nb) by lia.
      rewrite !map_app. f_equal; [|f_equal].
      + apply N. intros nj Hj. apply L2; lia.
      + apply map_ext_in. intros nj Hj. apply zrange_In in Hj. f_equal.
        rewrite L4 by lia. f_equal. specialize (P5 ltac:(lia)). lia.
      + apply N. intros nj Hj. apply L3; lia.
  Qed.

  Definition expected_calls : list pcall :=
    concat (map (fun i => map (expected sizes o0 o1 n0 i) (zrange 0 (local_num sizes n0 n1 i)))
                (seq 0 (length sizes))).

  Theorem iterate_partitioned_ok :
    iterate_partitioned uf ul uof (local_blocks sizes o0 o1) (local_blocks sizes n0 n1) =
    Some expected_calls.
  Proof.
    unfold iterate_partitioned, local_blocks, expected_calls.
    assert (G : forall n i, (i + n <= length sizes)%nat ->
      partitioned_blocks uf ul uof i
        (map (fun i => mkPB (local_num sizes o0 o1 i) (total (map (local_num sizes o0 o1) (seq 0 i)))) (seq i n))
        (map (fun i => mkPB (local_num sizes n0 n1 i) (total (map (local_num sizes n0 n1) (seq 0 i)))) (seq i n)) =
      Some (concat (map (fun i => map (expected sizes o0 o1 n0 i) (zrange 0 (local_num sizes n0 n1 i))) (seq i n)))).
    { induction n as [|n IH]; intros i Hi; [reflexivity|].
      cbn [seq map partitioned_blocks concat]. rewrite partitioned_block_ok by lia.
      rewrite IH by lia. reflexivity. }
    apply G. lia.
  Qed.
End Part.
