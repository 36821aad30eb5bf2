(** Proofs about the transfer of patch data during partition. *)
From Coq Require Import ZArith List Bool Lia.
From Verif Require Import Model_Face Model_Iter Spec_Iter Proof_Iter.
Import ListNotations.
Open Scope Z_scope.

Definition key (c : pcall) : nat * Z := (c_block c, c_new c).
Definition olds (cs : list pcall) : list (nat * Z) :=
  flat_map (fun c => match c_old c with Some o => [(c_block c, o)] | None => [] end) cs.

Lemma set2_same : forall A (f : nat -> Z -> A) i j v, set2 f i j v i j = v.
Proof. intros. unfold set2. rewrite Nat.eqb_refl, Z.eqb_refl. reflexivity. Qed.
Lemma set2_other : forall A (f : nat -> Z -> A) i j v i' j', (i', j') <> (i, j) ->
  set2 f i j v i' j' = f i' j'.
Proof.
  intros A f i j v i' j' H. unfold set2. destruct (Nat.eqb_spec i' i), (Z.eqb_spec j' j); auto.
  subst. congruence.
Qed.

Lemma run_calls_ok : forall A nbs (buf : list A) (dat : pcall -> A) cs st,
  (forall c oj, In c cs -> c_old c = Some oj -> x_old st (c_block c) oj = Some (dat c)) ->
  (forall c, In c cs -> c_old c = None -> exists b, nth_error nbs (c_block c) = Some b /\
       0 <= pb_before b + c_new c /\
       nth_error buf (Z.to_nat (pb_before b + c_new c)) = Some (dat c)) ->
  NoDup (map key cs) -> NoDup (olds cs) ->
  exists st', run_calls nbs buf st cs = Some st' /\
    (forall c, In c cs -> x_new st' (c_block c) (c_new c) = Some (dat c)) /\
    (forall i j, ~ In (i, j) (map key cs) -> x_new st' i j = x_new st i j) /\
    (forall i j, In (i, j) (olds cs) -> x_old st' i j = None) /\
    (forall i j, ~ In (i, j) (olds cs) -> x_old st' i j = x_old st i j) /\
    x_del_old st' = x_del_old st + Z.of_nat (length (olds cs)) /\
    x_set_old st' = x_set_old st /\
    x_set_new st' = x_set_new st + Z.of_nat (length cs).
Proof.
  intros A nbs buf dat. induction cs as [|c cs IH]; intros st H1 H2 N1 N2.
  - exists st. cbn [length olds flat_map]. repeat split; auto; try contradiction; lia.
  - cbn [map] in N1. apply NoDup_cons_iff in N1. destruct N1 as (K1 & N1).
    assert (S : exists st1, cb_partition_transfer nbs buf st c = Some st1 /\
      x_new st1 = set2 (x_new st) (c_block c) (c_new c) (Some (dat c)) /\
      (forall i j, In (i, j) (olds [c]) -> x_old st1 i j = None) /\
      (forall i j, ~ In (i, j) (olds [c]) -> x_old st1 i j = x_old st i j) /\
      x_del_old st1 = x_del_old st + Z.of_nat (length (olds [c])) /\
      x_set_old st1 = x_set_old st /\ x_set_new st1 = x_set_new st + 1).
    { unfold cb_partition_transfer, olds. cbn [flat_map]. destruct (c_old c) as [oj|] eqn:Eo.
      - eexists. split; [reflexivity|]. cbn [x_new x_old x_del_old x_set_old x_set_new app length].
        rewrite (H1 c oj (or_introl eq_refl) Eo). repeat split; auto.
        + intros i j [E|[]]. injection E as <- <-. apply set2_same.
        + intros i j Hn. apply set2_other. intro E. apply Hn. left. auto.
      - destruct (H2 c (or_introl eq_refl) Eo) as (b & Eb & H0 & Ev). rewrite Eb.
        replace (pb_before b + c_new c <? 0) with false by lia. rewrite Ev.
        eexists. split; [reflexivity|]. cbn [x_new x_old x_del_old x_set_old x_set_new app length].
        repeat split; auto; try contradiction; lia. }
    destruct S as (st1 & E1 & Enew & Eold1 & Eold2 & Ed & Es & En).
    assert (Eolds : olds (c :: cs) = olds [c] ++ olds cs).
    { unfold olds. cbn [flat_map]. rewrite app_nil_r. reflexivity. }
    rewrite Eolds in N2.
    assert (D : forall x, In x (olds [c]) -> ~ In x (olds cs)).
    { unfold olds at 1 in N2. unfold olds at 1. cbn [flat_map] in *. destruct (c_old c).
      - intros x [<-|[]]. cbn in N2. apply NoDup_cons_iff in N2. tauto.
      - intros x []. }
    assert (N2' : NoDup (olds cs)).
    { clear -N2. induction (olds [c]); cbn in N2; auto. apply NoDup_cons_iff in N2. tauto. }
    destruct (IH st1) as (st2 & R & A1 & A2 & A3 & A4 & A5 & A6 & A7).
    + intros c' oj Hin Eo. rewrite Eold2; [apply H1; [right; auto|auto]|].
      intro X. apply D in X. apply X. unfold olds. apply in_flat_map. exists c'.
      split; [auto|]. rewrite Eo. left. reflexivity.
    + intros c' Hin Eo. apply H2; [right; auto|auto].
    + exact N1.
    + exact N2'.
    + exists st2. cbn [run_calls]. rewrite E1. split; [exact R|].
      split; [|split; [|split; [|split; [|split; [|split]]]]].
      * intros c' [<-|Hin]; [|apply A1; auto]. rewrite A2 by exact K1. rewrite Enew. apply set2_same.
      * intros i j Hn. cbn [map In] in Hn. rewrite A2 by tauto. rewrite Enew. apply set2_other.
        intro E. apply Hn. left. unfold key. congruence.
      * intros i j Hin. rewrite Eolds in Hin. apply in_app_or in Hin. destruct Hin as [Hin|Hin].
        -- rewrite A4 by (apply D; exact Hin). apply Eold1. exact Hin.
        -- apply A3. exact Hin.
      * intros i j Hn. rewrite Eolds in Hn. rewrite in_app_iff in Hn.
        rewrite A4 by tauto. apply Eold2. tauto.
      * rewrite Eolds, app_length. lia.
      * lia.
      * cbn [length]. lia.
Qed.

Section Transfer.
  Variable sizes : list Z.
  Hypothesis Hsz : Forall (fun n => 0 <= n) sizes.
  Variables (o0 o1 n0 n1 uf ul uof : Z).
  Hypothesis Ho : 0 <= o0 <= o1 /\ o1 <= total sizes.
  Hypothesis Hn : 0 <= n0 <= n1 /\ n1 <= total sizes.
  Hypothesis Hw : window o0 o1 n0 n1 uf ul uof.

  (** global number of a reported patch *)
  Definition gnum (c : pcall) : Z := local_first sizes n0 (c_block c) + c_new c.
  Let cs := expected_calls sizes o0 o1 n0 n1.

  Lemma map_add_zrange : forall a n, map (fun j => a + j) (zrange 0 n) = zrange a (a + n).
  Proof.
    clear. intros a n. unfold zrange. rewrite map_map.
    replace (a + n - a) with (n - 0) by lia. apply map_ext. intros. lia.
  Qed.

  Lemma gnums : map gnum cs = zrange n0 n1.
  Proof.
    clear Hw Ho. unfold cs, expected_calls. rewrite concat_map, map_map.
    assert (G : forall k, (k <= length sizes)%nat ->
      concat (map (fun i => map gnum (map (expected sizes o0 o1 n0 i) (zrange 0 (local_num sizes n0 n1 i)))) (seq 0 k)) =
      zrange n0 (Z.max n0 (Z.min n1 (block_first sizes k)))).
    { induction k as [|k IH]; intros Hk.
      - cbn [seq map concat]. change (block_first sizes 0) with 0.
        replace (Z.max n0 (Z.min n1 0)) with n0 by lia. unfold zrange. rewrite Z.sub_diag. reflexivity.
      - rewrite seq_S, map_app, concat_app, IH by lia. cbn [map concat plus]. rewrite app_nil_r, map_map.
        unfold gnum, expected. cbn [c_block c_new].
        rewrite (map_add_zrange (local_first sizes n0 k)).
        destruct (total_firstn_S sizes Hsz k ltac:(lia)) as (sz & Hs & E).
        rewrite E. unfold local_num, local_first. rewrite E.
        set (B := block_first sizes k).
        destruct (Z.le_gt_cases (Z.min n1 (B + sz)) (Z.max n0 B)) as [C|C].
        + rewrite (Z.max_l 0 (Z.min n1 (B + sz) - Z.max n0 B)) by lia.
          rewrite Z.add_0_r. unfold zrange at 2. rewrite Z.sub_diag. cbn [Z.to_nat seq map].
          rewrite app_nil_r. f_equal. lia.
        + replace (Z.max n0 B + Z.max 0 (Z.min n1 (B + sz) - Z.max n0 B)) with (Z.min n1 (B + sz)) by lia.
          replace (Z.max n0 (Z.min n1 B)) with (Z.max n0 B) by lia.
          replace (Z.max n0 (Z.min n1 (B + sz))) with (Z.min n1 (B + sz)) by lia.
          symmetry. apply zrange_split. lia. }
    rewrite G by lia. rewrite block_first_all. f_equal. lia.
  Qed.

  Lemma cs_In : forall c, In c cs <-> exists i nj, (i < length sizes)%nat /\
    0 <= nj < local_num sizes n0 n1 i /\ c = expected sizes o0 o1 n0 i nj.
  Proof.
    intro c. unfold cs, expected_calls. rewrite in_concat. split.
    - intros (l & Hl & Hc). apply in_map_iff in Hl. destruct Hl as (i & <- & Hi).
      apply in_seq in Hi. apply in_map_iff in Hc. destruct Hc as (nj & <- & Hj).
      apply zrange_In in Hj. exists i, nj. repeat split; auto; lia.
    - intros (i & nj & Hi & Hj & ->). eexists. split.
      + apply in_map_iff. exists i. split; [reflexivity|]. apply in_seq. lia.
      + apply in_map_iff. exists nj. split; [reflexivity|]. apply zrange_In. lia.
  Qed.

  Lemma NoDup_zrange : forall a b, NoDup (zrange a b).
  Proof.
    clear. intros. unfold zrange. generalize (seq_NoDup (Z.to_nat (b - a)) 0).
    generalize (seq 0 (Z.to_nat (b - a))). induction l as [|x l IH]; intros H; cbn; [constructor|].
    inversion H; subst. constructor; [|auto]. rewrite in_map_iff. intros (y & E & Hy).
    assert (y = x) by lia. subst. contradiction.
  Qed.

  Lemma NoDup_map_factor : forall (X Y W : Type) (f : X -> Y) (h : Y -> W) (g : X -> W) l,
    (forall x, In x l -> g x = h (f x)) -> NoDup (map g l) -> NoDup (map f l).
  Proof.
    clear. intros X Y W f h g. induction l as [|x l IH]; intros H N; cbn in *; [constructor|].
    inversion N as [|? ? N1 N2]; subst. constructor; [|apply IH; auto].
    rewrite in_map_iff. intros (y & E & Hy). apply N1. rewrite in_map_iff. exists y.
    split; [|exact Hy]. rewrite (H y), (H x) by auto. congruence.
  Qed.

  Lemma keys_NoDup : NoDup (map key cs).
  Proof.
    apply (NoDup_map_factor _ _ _ key (fun k => local_first sizes n0 (fst k) + snd k) gnum).
    - intros c _. reflexivity.
    - rewrite gnums. apply NoDup_zrange.
  Qed.

  Lemma olds_gnum : forall c oj, In c cs -> c_old c = Some oj ->
    local_first sizes o0 (c_block c) + oj = gnum c /\ o0 <= gnum c < o1.
  Proof.
    intros c oj Hin E. apply cs_In in Hin. destruct Hin as (i & nj & Hi & Hj & ->).
    unfold gnum, expected in *. cbn [c_block c_new c_old] in *.
    destruct ((o0 <=? local_first sizes n0 i + nj) && (local_first sizes n0 i + nj <? o1)) eqn:X;
      [|discriminate]. injection E as <-. lia.
  Qed.

  Lemma olds_NoDup : NoDup (olds cs).
  Proof.
    assert (G : forall l, (forall c, In c l -> In c cs) -> NoDup (map gnum l) -> NoDup (olds l)).
    { induction l as [|c l IH]; intros Hs N; cbn [map] in N; [constructor|].
      apply NoDup_cons_iff in N. destruct N as (N1 & N2).
      unfold olds. cbn [flat_map]. fold (olds l).
      assert (IH' := IH (fun x Hx => Hs x (or_intror Hx)) N2).
      destruct (c_old c) as [oj|] eqn:Eo; [|exact IH']. cbn [app]. constructor; [|exact IH'].
      intro X. unfold olds in X. apply in_flat_map in X. destruct X as (c' & Hc' & X).
      destruct (c_old c') as [oj'|] eqn:Eo'; [|contradiction]. destruct X as [X|[]].
      injection X as E1 E2. apply N1. rewrite in_map_iff. exists c'. split; [|exact Hc'].
      destruct (olds_gnum c oj (Hs c (or_introl eq_refl)) Eo) as (G1 & _).
      destruct (olds_gnum c' oj' (Hs c' (or_intror Hc')) Eo') as (G2 & _). rewrite <- G1, <- G2, E1, E2. reflexivity. }
    apply G; auto. rewrite gnums. apply NoDup_zrange.
  Qed.

  Lemma olds_length : length (olds cs) =
    length (filter (fun g => (o0 <=? g) && (g <? o1)) (zrange n0 n1)).
  Proof.
    rewrite <- gnums. assert (G : forall l, (forall c, In c l -> In c cs) -> length (olds l) =
      length (filter (fun g => (o0 <=? g) && (g <? o1)) (map gnum l))).
    { induction l as [|c l IH]; intros Hs; [reflexivity|].
      unfold olds. cbn [flat_map map filter]. fold (olds l). rewrite app_length.
      rewrite (IH (fun x Hx => Hs x (or_intror Hx))).
      assert (Hc := Hs c (or_introl eq_refl)). apply cs_In in Hc.
      destruct Hc as (i & nj & Hi & Hj & ->). unfold gnum at 3, expected at 1 2. cbn [c_block c_new c_old].
      destruct ((o0 <=? local_first sizes n0 i + nj) && (local_first sizes n0 i + nj <? o1)) eqn:X;
        cbn [length]; unfold gnum, expected; cbn [c_block c_new]; rewrite ?X; reflexivity. }
    apply G. auto.
  Qed.

  Lemma range_decomp : forall lo hi, 0 <= lo <= hi -> hi <= total sizes ->
    forall i g, (i < length sizes)%nat ->
    (lo <= g < hi /\ block_first sizes i <= g < block_first sizes (S i) <->
     0 <= g - local_first sizes lo i < local_num sizes lo hi i).
  Proof. intros. unfold local_first, local_num. lia. Qed.

  Theorem partition_transfer_ok : forall A (data : Z -> A) (st : xfer A),
    (forall i oj, (i < length sizes)%nat -> 0 <= oj < local_num sizes o0 o1 i ->
       x_old st i oj = Some (data (local_first sizes o0 i + oj))) ->
    exists st',
      partition_transfer uf ul uof (local_blocks sizes o0 o1) (local_blocks sizes n0 n1)
        (map data (zrange n0 n1)) st = Some st' /\
      (forall i nj, (i < length sizes)%nat -> 0 <= nj < local_num sizes n0 n1 i ->
         x_new st' i nj = Some (data (local_first sizes n0 i + nj))) /\
      (forall i oj, (i < length sizes)%nat -> 0 <= oj < local_num sizes o0 o1 i ->
         let g := local_first sizes o0 i + oj in
         x_old st' i oj = if (n0 <=? g) && (g <? n1) then None else Some (data g)) /\
      x_del_old st' = x_del_old st +
        Z.of_nat (length (filter (fun g => (o0 <=? g) && (g <? o1)) (zrange n0 n1))) /\
      x_set_old st' = x_set_old st /\
      x_set_new st' = x_set_new st + (n1 - n0).
  Proof.
    intros A data st H1.
    unfold partition_transfer.
    rewrite (iterate_partitioned_ok sizes Hsz o0 o1 n0 n1 uf ul uof Ho Hn Hw). fold cs.
    assert (M : forall i, (i < length sizes)%nat ->
        block_first sizes i <= block_first sizes (S i) /\ 0 <= block_first sizes i /\
        block_first sizes (S i) <= total sizes).
    { intros i Hi. split; [|split].
      - apply block_first_mono; auto; lia.
      - rewrite <- (block_first_0 sizes). apply block_first_mono; auto; lia.
      - rewrite <- block_first_all. apply block_first_mono; auto; lia. }
    destruct (run_calls_ok A (local_blocks sizes n0 n1) (map data (zrange n0 n1))
                (fun c => data (gnum c)) cs st) as (st' & R & A1 & A2 & A3 & A4 & A5 & A6 & A7).
    - intros c oj Hin Eo. destruct (olds_gnum c oj Hin Eo) as (E & Hr).
      apply cs_In in Hin. destruct Hin as (i & nj & Hi & Hj & ->).
      unfold gnum in *. cbn [expected c_block c_new] in *. destruct (M i Hi) as (M1 & M2 & M3).
      rewrite <- E. apply H1; [exact Hi|].
      replace oj with (local_first sizes o0 i + oj - local_first sizes o0 i) by lia.
      rewrite E. apply range_decomp; auto; try lia. split; [lia|].
      assert (X : 0 <= (local_first sizes n0 i + nj) - local_first sizes n0 i < local_num sizes n0 n1 i) by lia.
      apply range_decomp in X; auto; lia.
    - intros c Hin Eo. apply cs_In in Hin. destruct Hin as (i & nj & Hi & Hj & ->).
      unfold gnum. cbn [expected c_block c_new]. destruct (M i Hi) as (M1 & M2 & M3).
      eexists. split.
      + unfold local_blocks. apply map_nth_error.
        rewrite (nth_error_nth' _ 0%nat) by (rewrite seq_length; exact Hi).
        rewrite seq_nth by exact Hi. reflexivity.
      + cbn [pb_before plus]. rewrite (before_closed sizes Hsz n0 n1 i) by lia.
        assert (E : Z.max n0 (Z.min n1 (block_first sizes i)) - n0 + nj = local_first sizes n0 i + nj - n0)
          by (unfold local_num, local_first in *; lia).
        rewrite E. assert (X : n0 <= local_first sizes n0 i + nj < n1)
          by (unfold local_num, local_first in *; lia).
        split; [lia|]. apply map_nth_error. unfold zrange.
        assert (Y : local_first sizes n0 i + nj = n0 + Z.of_nat (Z.to_nat (local_first sizes n0 i + nj - n0))) by lia.
        rewrite Y at 2. apply (map_nth_error (fun k => n0 + Z.of_nat k)).
        rewrite (nth_error_nth' _ 0%nat) by (rewrite seq_length; lia).
        rewrite seq_nth by lia. reflexivity.
    - exact keys_NoDup.
    - exact olds_NoDup.
    - exists st'. split; [exact R|]. split; [|split; [|split; [|split]]].
      + intros i nj Hi Hj. apply (A1 (expected sizes o0 o1 n0 i nj)). apply cs_In. exists i, nj. auto.
      + intros i oj Hi Hj. cbv zeta. destruct (M i Hi) as (M1 & M2 & M3).
        set (g := local_first sizes o0 i + oj).
        assert (Bg : o0 <= g < o1 /\ block_first sizes i <= g < block_first sizes (S i)).
        { apply (range_decomp o0 o1); auto; try lia. }
        destruct ((n0 <=? g) && (g <? n1)) eqn:X.
        * apply A3. unfold olds. apply in_flat_map.
          exists (expected sizes o0 o1 n0 i (g - local_first sizes n0 i)). split.
          -- apply cs_In. exists i, (g - local_first sizes n0 i). split; [exact Hi|]. split; [|reflexivity].
             apply (range_decomp n0 n1); auto; try lia. 
          -- unfold expected. cbn [c_old c_block].
             replace (local_first sizes n0 i + (g - local_first sizes n0 i)) with g by lia.
             replace ((o0 <=? g) && (g <? o1)) with true by lia. left. f_equal. unfold g. lia.
        * rewrite A4.
          -- rewrite H1 by auto. reflexivity.
          -- intro Hin. unfold olds in Hin. apply in_flat_map in Hin. destruct Hin as (c & Hc & Hin).
             destruct (c_old c) as [o|] eqn:Eo; [|contradiction]. destruct Hin as [E|[]].
             destruct (olds_gnum c o Hc Eo) as (G1 & G2).
             assert (gnum c = g) by (unfold g; injection E as E1 E2; subst; lia).
             assert (In (gnum c) (zrange n0 n1)) by (rewrite <- gnums; apply in_map; exact Hc).
             apply zrange_In in H0. lia.
      + rewrite A5, olds_length. reflexivity.
      + exact A6.
      + rewrite A7. f_equal.
        assert (L : length cs = length (zrange n0 n1)) by (rewrite <- gnums, map_length; reflexivity).
        rewrite L. unfold zrange. rewrite map_length, seq_length. lia.
  Qed.
End Transfer.
