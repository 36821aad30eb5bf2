(** Proofs about domain_new and the iterators: main results. *)
From Coq Require Import ZArith QArith Lia List Bool Permutation.
From Verif Require Import Base_Float Model_Face Model_Domain Spec_Domain Proof_Domain Proof_Domain2.
Import ListNotations.
Open Scope Z_scope.

Lemma aligned_range : forall d l x, aligned d l x -> l <= maxl d ->
  0 <= x <= side d 0 /\ 0 <= x + side d l <= side d 0.
Proof. intros d l x (k & _ & H1 & H2) Hl. assert (H := side_pos d l Hl). lia. Qed.

Lemma boundary_records : forall rnd d q fl, rounding rnd -> wf_quad d q ->
  (forall k, 0 <= k < 3 -> Z.testbit fl k = Z.testbit (child_id d q) k) ->
  (forall k, 6 <= k -> Z.testbit fl k = false) ->
  records d q (set_boundary_xylower rnd d fl (q_level q) (q_level q) q).
Proof.
  intros rnd d q fl Hr Hw H1 H2. unfold records.
  split; [reflexivity|]. split; [reflexivity|].
  assert (Hw' := Hw). destruct Hw' as (Hl & Hx & Hy & Hz).
  assert (Ax := aligned_range _ _ _ Hx ltac:(lia)). assert (Ay := aligned_range _ _ _ Hy ltac:(lia)).
  unfold set_boundary_xylower at 1 2 3 4 5 6. cbn [p_xl p_xu p_yl p_yu p_zl p_zu].
  rewrite quadrant_len_side.
  split; [apply coord_ok; tauto|]. split; [apply coord_ok; tauto|].
  split; [apply coord_ok; tauto|]. split; [apply coord_ok; tauto|].
  split.
  { intros ->. assert (Az := aligned_range _ _ _ Hz ltac:(lia)).
    split; apply coord_ok; tauto. }
  split.
  - rewrite flags_child by exact H1. apply child_number_ok. exact Hw.
  - apply flags_faces. exact H2.
Qed.

Lemma positions_from_In : forall T i0 i j, In (i, j) (positions_from i0 T) <->
  exists t, (i0 <= i)%nat /\ nth_error T (i - i0) = Some t /\ (j < length t)%nat.
Proof.
  induction T as [|t T IH]; intros i0 i j; cbn [positions_from].
  - split; [contradiction|]. intros (t & _ & E & _). destruct (i - i0)%nat; discriminate.
  - rewrite in_app_iff, IH, in_map_iff. split.
    + intros [(x & E & Hx)|(t' & Hi & E & Hj)].
      * injection E as <- <-. apply in_seq in Hx. exists t. rewrite Nat.sub_diag. repeat split; try lia.
        
      * exists t'. split; [lia|]. replace (i - i0)%nat with (S (i - S i0)) by lia. auto.
    + intros (t' & Hi & E & Hj). destruct (Nat.eq_dec i i0) as [->|].
      * left. rewrite Nat.sub_diag in E. cbn in E. injection E as ->.
        exists j. split; [reflexivity|]. apply in_seq. lia.
      * right. exists t'. split; [lia|].
        replace (i - i0)%nat with (S (i - S i0)) in E by lia. auto.
Qed.

Lemma positions_from_NoDup : forall T i0, NoDup (positions_from i0 T).
Proof.
  induction T as [|t T IH]; intros i0; cbn [positions_from]; [constructor|].
  assert (A : forall l, NoDup l -> NoDup (map (fun j : nat => (i0, j)) l)).
  { induction l as [|x l IHl]; intros H; cbn; [constructor|]. inversion H; subst.
    constructor; [|auto]. rewrite in_map_iff. intros (y & E & Hy). injection E as ->. contradiction. }
  assert (B : forall (a b : list (nat * nat)), NoDup a -> NoDup b ->
              (forall x, In x a -> ~ In x b) -> NoDup (a ++ b)).
  { induction a as [|x a IHa]; intros b Ha Hb Hd; cbn; [exact Hb|]. inversion Ha; subst.
    constructor.
    - rewrite in_app_iff. intros [?|?]; [contradiction|]. apply (Hd x); [left; auto|auto].
    - apply IHa; auto. intros y Hy. apply Hd. right; auto. }
  apply B; [apply A, seq_NoDup|apply IH|].
  intros x Hx Hx2. apply in_map_iff in Hx. destruct Hx as (j & <- & _).
  apply positions_from_In in Hx2. destruct Hx2 as (? & ? & _). lia.
Qed.

Lemma nth_split_at : forall (T : list (list quad)) i t, nth_error T i = Some t ->
  T = firstn i T ++ t :: skipn (S i) T /\ length (firstn i T) = i.
Proof.
  induction T as [|a T IH]; intros i t E; [destruct i; discriminate|].
  destruct i as [|i]; cbn in E.
  - injection E as ->. split; reflexivity.
  - destruct (IH _ _ E) as (E1 & E2). split.
    + change (a :: T = a :: (firstn i T ++ t :: skipn (S i) T)). rewrite <- E1. reflexivity.
    + cbn. rewrite E2. reflexivity.
Qed.

Lemma positions_nth' : forall T i t j, nth_error T i = Some t -> (j < length t)%nat ->
  nth_error (positions T) (Z.to_nat (count (firstn i T) + Z.of_nat j)) = Some (i, j).
Proof.
  intros T i t j E Hj. destruct (nth_split_at _ _ _ E) as (ET & Hi).
  rewrite ET at 1. rewrite positions_nth by exact Hj. rewrite Hi. reflexivity.
Qed.

Lemma mirrors_spec : forall T mirrors i t j,
  wf_mirrors T mirrors -> nth_error T i = Some t -> (j < length t)%nat ->
  (existsb (Z.eqb (count (firstn i T) + Z.of_nat j)) mirrors = true <->
   exists m, In m mirrors /\ nth_error (positions T) (Z.to_nat m) = Some (i, j)).
Proof.
  intros T mirrors i t j (Hm & _) E Hj. rewrite existsb_mem.
  assert (P := positions_nth' _ _ _ _ E Hj). split.
  - intro Hin. eexists. split; [exact Hin|exact P].
  - intros (m & Hin & E2).
    assert (N := proj1 (NoDup_nth_error (positions T)) (positions_from_NoDup T 0)).
    assert (L : (Z.to_nat m < length (positions T))%nat) by (apply nth_error_Some; congruence).
    specialize (N _ (Z.to_nat (count (firstn i T) + Z.of_nat j)) L ltac:(congruence)).
    assert (0 <= m) by (apply (increasing_In mirrors 0 m Hm Hin)).
    assert (0 <= count (firstn i T)) by apply count_nonneg.
    replace (count (firstn i T) + Z.of_nat j) with m by lia. exact Hin.
Qed.

Lemma family_at_skipn : forall d T i t j, nth_error T i = Some t ->
  (family_at d T (i, j) <-> family_list d (skipn j t)).
Proof.
  intros d T i t j E. unfold family_at, family_list. cbn [fst snd].
  assert (N : forall k, quad_at T (i, (j + k)%nat) = nth_error (skipn j t) k).
  { intro k. unfold quad_at. cbn [fst snd]. rewrite E. clear E. revert t.
    induction j as [|j IH]; intros t; [reflexivity|]. destruct t as [|a t]; cbn [skipn].
    - destruct k; reflexivity.
    - cbn. apply IH. }
  split; intros (pa & Hp & H); exists pa; (split; [exact Hp|]); intros k Hk;
    destruct (H k Hk) as (q & Eq & Hc); exists q; (split; [|exact Hc]);
    [rewrite <- N|rewrite N]; exact Eq.
Qed.

Lemma nth_error_qn : forall t j q, nth_error t j = Some q -> qn t j = q /\ (j < length t)%nat.
Proof.
  intros t j q E. split; [apply nth_error_nth; exact E|]. apply nth_error_Some. congruence.
Qed.

Lemma wf_forest_tree : forall d T i t, wf_forest d T -> nth_error T i = Some t -> Forall (wf_quad d) t.
Proof.
  intros d T i t H E. unfold wf_forest in H. rewrite Forall_forall in H.
  apply H. apply nth_error_In in E. exact E.
Qed.

Lemma wf_quad_nth : forall d t j q, Forall (wf_quad d) t -> nth_error t j = Some q -> wf_quad d q.
Proof. intros d t j q H E. rewrite Forall_forall in H. apply H. apply nth_error_In in E. exact E. Qed.

Lemma Forall_skipn : forall (A : Type) (P : A -> Prop) j l, Forall P l -> Forall P (skipn j l).
Proof.
  intros A P j l H. rewrite <- (firstn_skipn j l) in H. apply Forall_app in H. tauto.
Qed.

Theorem domain_new_represents : forall rnd, rounding rnd -> forall d T mirrors,
  wf_forest d T -> wf_mirrors T mirrors ->
  exists dom, domain_new rnd d mirrors T = Some dom /\ represents d T mirrors dom.
Proof.
  intros rnd Hr d T mirrors Hwf Hm.
  destruct (domain_new_ok rnd d mirrors T Hwf Hm) as (dom & E & (Hlen & Hb) & Hn & Hlr & Hex).
  exists dom. split; [exact E|]. unfold represents.
  split; [exact Hn|]. split; [exact Hlr|]. split; [exact Hex|]. split; [exact Hlen|].
  intros i t Et. destruct (Hb _ _ Et) as (b & Eb & (B1 & B2 & B3 & B4)).
  exists b. split; [exact Eb|]. split; [exact B1|].
  split; [rewrite B2, map_length, seq_length; reflexivity|]. split; [exact B4|].
  intros j q Eq. destruct (nth_error_qn _ _ _ Eq) as (Eqn & Hj).
  assert (Wt := wf_forest_tree _ _ _ _ Hwf Et). assert (Wq := wf_quad_nth _ _ _ _ Wt Eq).
  set (base := count (firstn i T)) in *.
  exists (patch_of rnd d mirrors t base j). split.
  { rewrite B2. apply map_nth_error. rewrite (nth_error_nth' _ 0%nat) by (rewrite seq_length; exact Hj).
    rewrite seq_nth by exact Hj. reflexivity. }
  unfold patch_of. rewrite Eqn.
  set (fs := (num_children d <=? length (skipn j t))%nat && is_familyv d (skipn j t)).
  set (pb := existsb (Z.eqb (base + Z.of_nat j)) mirrors).
  change (set_flag (set_flag (child_id d q) FLAG_FIRST_SIBLING fs) FLAG_ON_PARALLEL_BOUNDARY pb)
    with (flags_of d q fs pb).
  split; [apply boundary_records; auto|].
  - intros k Hk. rewrite flags_of_testbit by lia. replace (k =? 3) with false by lia.
    replace (k =? 4) with false by lia. rewrite !andb_false_r, !orb_false_r. reflexivity.
  - intros k Hk. rewrite flags_of_testbit by lia. replace (k =? 3) with false by lia.
    replace (k =? 4) with false by lia. rewrite !andb_false_r, !orb_false_r.
    apply child_id_testbit. lia.
  - split; [|split].
    + rewrite flags_low, flags_of_testbit by lia. rewrite child_id_testbit by lia. cbn [Z.eqb Pos.eqb].
      rewrite andb_true_r, andb_false_r, orb_false_r, orb_false_l. unfold fs.
      rewrite is_familyv_ok by (apply Forall_skipn; exact Wt).
      symmetry. apply family_at_skipn. exact Et.
    + rewrite flags_low, flags_of_testbit by lia. rewrite child_id_testbit by lia. cbn [Z.eqb Pos.eqb].
      rewrite andb_true_r, andb_false_r, orb_false_l. unfold pb.
      apply mirrors_spec with (t := t); auto.
    + rewrite flags_low, flags_of_testbit by lia. rewrite child_id_testbit by lia. cbn [Z.eqb Pos.eqb].
      rewrite !andb_false_r. reflexivity.
Qed.

(** ghost patches *)
Theorem ghost_patch_records : forall rnd, rounding rnd -> forall d q, wf_quad d q ->
  records d q (ghost_patch rnd d q) /\
  Z.testbit (p_flags (ghost_patch rnd d q)) 5 = true /\
  Z.testbit (p_flags (ghost_patch rnd d q)) 4 = false /\
  Z.testbit (p_flags (ghost_patch rnd d q)) 3 = false.
Proof.
  intros rnd Hr d q Hw. unfold ghost_patch.
  assert (B : forall k, 0 <= k ->
    Z.testbit (Z.lor (child_id d q) FLAG_IS_GHOST) k = Z.testbit (child_id d q) k || (k =? 5)).
  { intros k Hk. rewrite Z.lor_spec. change FLAG_IS_GHOST with (2 ^ 5).
    rewrite Z.pow2_bits_eqb by lia. rewrite Z.eqb_sym. reflexivity. }
  split; [apply boundary_records; auto|].
  - intros k Hk. rewrite B by lia. replace (k =? 5) with false by lia. apply orb_false_r.
  - intros k Hk. rewrite B by lia. replace (k =? 5) with false by lia. rewrite orb_false_r.
    apply child_id_testbit. lia.
  - rewrite !flags_low, !B by lia. rewrite !child_id_testbit by lia. auto.
Qed.

(** ** iterate_level *)
Lemma chase_ok : forall (rnd : Q -> Q) b l i L fuel p,
  chain (b_next b) p L -> (length L <= fuel)%nat ->
  (forall j, In j L -> exists pa, nth_error (b_patches b) j = Some pa /\ p_level pa = l) ->
  chase fuel b l i p = Some (map (fun j => (i, j)) L).
Proof.
  intros rnd b l i. induction L as [|a r IH]; intros fuel p H Hf Hl; cbn [chain] in H.
  - subst p. destruct fuel; reflexivity.
  - destruct H as [-> H]. destruct fuel as [|fuel]; [cbn in Hf; lia|]. cbn [chase map].
    destruct (Hl a (or_introl eq_refl)) as (pa & -> & <-). rewrite Z.eqb_refl. cbn [negb].
    rewrite (IH fuel (b_next b a) H); [reflexivity|cbn in Hf; lia|].
    intros j Hj. apply Hl. right. exact Hj.
Qed.

Lemma filter_map_pair : forall (f : nat * nat -> bool) i l,
  filter f (map (fun j : nat => (i, j)) l) = map (fun j => (i, j)) (filter (fun j => f (i, j)) l).
Proof.
  induction l as [|a l IH]; cbn; [reflexivity|]. destruct (f (i, a)); cbn; rewrite IH; reflexivity.
Qed.

Lemma filter_ext_in' : forall (A : Type) (f g : A -> bool) l,
  (forall a, In a l -> f a = g a) -> filter f l = filter g l.
Proof.
  induction l as [|a l IH]; intros H; cbn; [reflexivity|].
  rewrite (H a) by (left; auto). rewrite IH; [reflexivity|]. intros; apply H; right; auto.
Qed.

Lemma filter_length_le : forall (A : Type) (f : A -> bool) l, (length (filter f l) <= length l)%nat.
Proof. induction l as [|a l IH]; cbn; [lia|]. destruct (f a); cbn; lia. Qed.

(** generic traversal of the block list *)
Lemma blocks_traverse : forall (rnd : Q -> Q) d mirrors T bs
  (sel : nat * nat -> bool) (blockf : nat -> block_t -> option (list (nat * nat)))
  (loop : nat -> list block_t -> option (list (nat * nat))),
  blocks_ok rnd d mirrors T bs ->
  (forall i, loop i [] = Some []) ->
  (forall i b r, loop i (b :: r) = match blockf i b, loop (S i) r with
                                   | Some l, Some l' => Some (l ++ l') | _, _ => None end) ->
  (forall i t b, nth_error T i = Some t -> block_ok rnd d mirrors t (count (firstn i T)) b ->
     blockf i b = Some (map (fun j => (i, j)) (filter (fun j => sel (i, j)) (seq 0 (length t))))) ->
  loop 0%nat bs = Some (filter sel (positions T)).
Proof.
  intros rnd d mirrors T bs sel blockf loop (Hlen & Hb) L0 L1 Hblk.
  assert (G : forall rest done bsr, T = done ++ rest -> bsr = skipn (length done) bs ->
     loop (length done) bsr = Some (filter sel (positions_from (length done) rest))).
  { induction rest as [|t rest IH]; intros done bsr ET ->.
    - rewrite app_nil_r in ET. subst done. rewrite <- Hlen, skipn_all. cbn. rewrite L0. reflexivity.
    - assert (Et : nth_error T (length done) = Some t).
      { rewrite ET, nth_error_app2, Nat.sub_diag by lia. reflexivity. }
      destruct (Hb _ _ Et) as (b & Eb & Hok).
      assert (Es : skipn (length done) bs = b :: skipn (S (length done)) bs).
      { clear -Eb. revert Eb. generalize (length done). intros n. revert bs.
        induction n as [|n IHn]; intros [|x bs] E; try discriminate; cbn in *.
        - injection E as ->. reflexivity.
        - apply IHn. exact E. }
      rewrite Es, L1. rewrite (Hblk _ _ _ Et Hok).
      assert (IH' := IH (done ++ [t]) (skipn (length (done ++ [t])) bs)).
      rewrite app_length, Nat.add_1_r in IH'.
      rewrite IH'; [|rewrite <- app_assoc; exact ET|reflexivity].
      cbn [positions_from]. rewrite filter_app, filter_map_pair. reflexivity. }
  apply (G T [] bs); reflexivity.
Qed.

Theorem iterate_level_ok : forall rnd d T mirrors dom l,
  wf_forest d T -> wf_mirrors T mirrors -> domain_new rnd d mirrors T = Some dom ->
  0 <= l <= maxl d ->
  iterate_level d dom l = Some (filter (has_level T l) (positions T)).
Proof.
  intros rnd d T mirrors dom l Hwf Hm E Hl.
  destruct (domain_new_ok rnd d mirrors T Hwf Hm) as (dom' & E' & Hb & _).
  rewrite E in E'. injection E' as <-.
  unfold iterate_level. rewrite qmax_maxl.
  replace (negb ((0 <=? l) && (l <=? maxl d))) with false by lia.
  apply (blocks_traverse rnd d mirrors T (dom_blocks dom) (has_level T l)
           (fun i b => chase (length (b_patches b)) b l i (b_bylevel b l))
           (fun i bs => iterate_level_blocks i bs l)); auto.
  intros i t b Et (B1 & B2 & B3 & _).
  assert (S1 : forall j, (j < length t)%nat -> has_level T l (i, j) = (q_level (qn t j) =? l)).
  { intros j Hj. unfold has_level, quad_at. cbn [fst snd]. rewrite Et.
    rewrite (nth_error_nth' t dq Hj). reflexivity. }
  rewrite (chase_ok rnd b l i (idx t (length t) l)).
  - do 2 f_equal. unfold idx. apply filter_ext_in'. intros j Hj. apply in_seq in Hj.
    symmetry. apply S1. lia.
  - apply B3.
  - unfold idx. rewrite filter_length_le, B2, map_length. reflexivity.
  - intros j Hj. apply idx_In in Hj. destruct Hj as (Hj & Hlj). eexists. split.
    + rewrite B2. apply map_nth_error.
      rewrite (nth_error_nth' _ 0%nat) by (rewrite seq_length; exact Hj).
      rewrite seq_nth by exact Hj. reflexivity.
    + exact Hlj.
Qed.

Theorem iterate_patches_ok : forall rnd d T mirrors dom,
  wf_forest d T -> wf_mirrors T mirrors -> domain_new rnd d mirrors T = Some dom ->
  iterate_patches dom = positions T.
Proof.
  intros rnd d T mirrors dom Hwf Hm E.
  destruct (domain_new_ok rnd d mirrors T Hwf Hm) as (dom' & E' & Hb & _).
  rewrite E in E'. injection E' as <-.
  assert (G : Some (iterate_patches_blocks 0 (dom_blocks dom)) =
              Some (filter (fun _ => true) (positions T))).
  { apply (blocks_traverse rnd d mirrors T (dom_blocks dom) (fun _ => true)
           (fun i b => Some (map (fun j => (i, j)) (seq 0 (length (b_patches b)))))
           (fun i bs => Some (iterate_patches_blocks i bs))); auto.
    intros i t b Et (B1 & B2 & _). rewrite B2, map_length, seq_length.
    do 2 f_equal. generalize (seq 0 (length t)).
    induction l as [|a l IH]; cbn; [reflexivity|]. rewrite <- IH at 1. reflexivity. }
  injection G as G. unfold iterate_patches. rewrite G. clear G.
  generalize (positions T). induction l as [|a l IH]; cbn; [reflexivity|]. rewrite IH. reflexivity.
Qed.

(** every local patch lies in exactly one level list *)
Lemma all_levels_perm : forall d T, wf_forest d T ->
  Permutation (flat_map (fun l => filter (has_level T (Z.of_nat l)) (positions T))
                        (seq 0 (Z.to_nat (maxl d) + 1)))
              (positions T).
Proof.
  intros d T Hwf. set (n := (Z.to_nat (maxl d) + 1)%nat).
  assert (H : forall p, In p (positions T) -> exists l, (l < n)%nat /\ has_level T (Z.of_nat l) p = true /\
     forall l', has_level T (Z.of_nat l') p = true -> l' = l).
  { intros (i, j) Hp. apply positions_from_In in Hp. destruct Hp as (t & _ & Et & Hj).
    rewrite Nat.sub_0_r in Et. unfold has_level, quad_at. cbn [fst snd]. rewrite Et.
    destruct (nth_error t j) as [q|] eqn:Eq; [|apply nth_error_None in Eq; lia].
    assert (Wq := wf_quad_nth _ _ _ _ (wf_forest_tree _ _ _ _ Hwf Et) Eq). destruct Wq as (Hl & _).
    exists (Z.to_nat (q_level q)). unfold n. split; [lia|].
    split; [apply Z.eqb_eq; lia|]. intros l' E. apply Z.eqb_eq in E. lia. }
  revert H. generalize (positions T). induction l as [|p l IH]; intros H.
  - assert (E : forall k, flat_map (fun x : nat => filter (has_level T (Z.of_nat x)) []) k = []).
    { induction k; cbn; auto. }
    rewrite E. constructor.
  - destruct (H p (or_introl eq_refl)) as (lp & Hlp & Htrue & Huniq).
    specialize (IH (fun q Hq => H q (or_intror Hq))).
    replace n with (lp + S (n - lp - 1))%nat in IH |- * by lia.
    rewrite seq_app in IH |- *. cbn [seq plus] in IH |- *.
    rewrite flat_map_app in IH |- *. cbn [flat_map] in IH |- *.
    assert (E : forall k s, (forall x, In x (seq s k) -> x <> lp) ->
       flat_map (fun x => filter (has_level T (Z.of_nat x)) (p :: l)) (seq s k) =
       flat_map (fun x => filter (has_level T (Z.of_nat x)) l) (seq s k)).
    { induction k; intros s Hk; cbn [seq flat_map]; [reflexivity|].
      rewrite (IHk (S s)); [|intros; apply Hk; right; auto]. f_equal. cbn [filter].
      destruct (has_level T (Z.of_nat s) p) eqn:Es; [|reflexivity].
      apply Huniq in Es. exfalso. apply (Hk s); [left; auto|exact Es]. }
    rewrite !E; [|intros x Hx; apply in_seq in Hx; lia|intros x Hx; apply in_seq in Hx; lia].
    cbn [filter]. rewrite Htrue. rewrite <- app_comm_cons, <- Permutation_middle. apply perm_skip. exact IH.
Qed.

(** ** iterate_families *)
Definition fam (d : dim) (t : list quad) (j : nat) : bool :=
  (num_children d <=? length (skipn j t))%nat && is_familyv d (skipn j t).

Lemma nchild_num : forall d, nchild d = Z.of_nat (num_children d).
Proof. destruct d; reflexivity. Qed.

Lemma child_of_parent_id : forall d pa q k, wf_quad d pa -> wf_quad d q -> 0 <= k < nchild d ->
  is_child d pa q k -> child_id d q = k.
Proof.
  intros d pa q k (Hl & Hx & Hy & Hz) (Hlq & _) Hk (C1 & C2 & C3 & C4).
  assert (Hb : forall x n, 0 <= n -> aligned d (q_level pa) x ->
     bit (Z.testbit (x + bitof k n * side d (q_level q)) (maxlevel_of d - q_level q)) = bitof k n).
  { intros x n Hn (c & Ec & _). fold (mbit d (q_level q) (x + bitof k n * side d (q_level q))).
    rewrite mbit_div by lia. assert (Hs := side_pos d (q_level q) ltac:(lia)).
    rewrite Z.div_add by lia. rewrite Ec.
    replace (q_level pa) with (q_level q - 1) by lia. rewrite side_pred by lia.
    replace (c * (2 * side d (q_level q))) with (c * 2 * side d (q_level q)) by lia.
    rewrite Z.div_mul by lia. rewrite Z.add_comm, Z.mod_add by lia.
    unfold bitof. apply Z.mod_mod. lia. }
  unfold child_id. replace (q_level q =? 0) with false by lia.
  rewrite C2, C3, !Hb by (auto; lia).
  destruct d; cbn [nchild] in Hk.
  - assert (C : k = 0 \/ k = 1 \/ k = 2 \/ k = 3) by lia.
    destruct C as [ -> | [ -> | [ -> | -> ] ] ]; reflexivity.
  - rewrite C4, Hb by (auto; lia).
    assert (C : k = 0 \/ k = 1 \/ k = 2 \/ k = 3 \/ k = 4 \/ k = 5 \/ k = 6 \/ k = 7) by lia.
    destruct C as [ -> | [ -> | [ -> | [ -> | [ -> | [ -> | [ -> | -> ] ] ] ] ] ] ]; reflexivity.
Qed.

Lemma nth_error_skipn : forall (A : Type) j (t : list A) k,
  nth_error (skipn j t) k = nth_error t (j + k).
Proof.
  induction j as [|j IH]; intros t k; [reflexivity|]. destruct t as [|a t]; cbn; [destruct k; reflexivity|].
  apply IH.
Qed.

(** the members of a family have child numbers 0, 1, ... *)
Lemma fam_childid : forall d t j, Forall (wf_quad d) t -> fam d t j = true ->
  forall k, (k < num_children d)%nat ->
  exists q, nth_error t (j + k) = Some q /\ child_id d q = Z.of_nat k.
Proof.
  intros d t j Hwf H k Hk. unfold fam in H.
  apply is_familyv_ok in H; [|apply Forall_skipn; exact Hwf].
  destruct H as (pa & Hpa & H). assert (Hk' : 0 <= Z.of_nat k < nchild d) by (rewrite nchild_num; lia).
  destruct (H (Z.of_nat k) Hk') as (q & E & Hc). rewrite Nat2Z.id, nth_error_skipn in E.
  exists q. split; [exact E|]. eapply child_of_parent_id; eauto. eapply wf_quad_nth; eauto.
Qed.

Lemma fam_first : forall d t j q, nth_error t j = Some q -> fam d t j = true -> child_id d q = 0.
Proof.
  intros d t j q E H. unfold fam in H. apply andb_true_iff in H. destruct H as [_ H].
  destruct (skipn j t) as [|q0 r] eqn:Es; [discriminate|].
  assert (q0 = q).
  { assert (X := nth_error_skipn _ j t 0). rewrite Es, Nat.add_0_r in X. cbn in X. congruence. }
  subst q0. unfold is_familyv in H. rewrite !andb_true_iff in H. lia.
Qed.

Section Fam.
  Variables (rnd : Q -> Q) (d : dim) (mirrors : list Z) (t : list quad) (base : Z).
  Hypothesis Hwf : Forall (wf_quad d) t.

  Lemma patch_of_first : forall j, is_first_sibling (patch_of rnd d mirrors t base j) = fam d t j.
  Proof.
    intro j. unfold is_first_sibling, patch_of.
    set (p := set_boundary_xylower _ _ _ _ _ _).
    change FLAG_FIRST_SIBLING with (2 ^ 3).
    assert (B : Z.testbit (p_flags p) 3 = fam d t j).
    { unfold p. fold (fam d t j).
      change (set_flag (set_flag (child_id d (qn t j)) FLAG_FIRST_SIBLING (fam d t j))
         FLAG_ON_PARALLEL_BOUNDARY (existsb (Z.eqb (base + Z.of_nat j)) mirrors))
        with (flags_of d (qn t j) (fam d t j) (existsb (Z.eqb (base + Z.of_nat j)) mirrors)).
      rewrite flags_low, flags_of_testbit by lia. rewrite child_id_testbit by lia. cbn [Z.eqb Pos.eqb].
      rewrite andb_true_r, andb_false_r, orb_false_r, orb_false_l. reflexivity. }
    rewrite <- B. destruct (Z.testbit (p_flags p) 3) eqn:E.
    - apply negb_true_iff. apply Z.eqb_neq. intro E0.
      assert (X : Z.testbit (Z.land (p_flags p) (2 ^ 3)) 3 = true)
        by (rewrite Z.land_spec, E; reflexivity).
      rewrite E0 in X. rewrite Z.bits_0 in X. discriminate.
    - apply negb_false_iff. apply Z.eqb_eq. apply Z.bits_inj'. intros k Hk.
      rewrite Z.land_spec, Z.pow2_bits_eqb, Z.bits_0 by lia.
      destruct (Z.eqb_spec 3 k) as [<-|]; [rewrite E|]; [reflexivity|apply andb_false_r].
  Qed.

  Lemma patch_of_childid : forall j, patch_childid (patch_of rnd d mirrors t base j) = child_id d (qn t j).
  Proof.
    intro j. unfold patch_childid, patch_of.
    set (fs := (num_children d <=? length (skipn j t))%nat && is_familyv d (skipn j t)).
    set (pb := existsb (Z.eqb (base + Z.of_nat j)) mirrors).
    change (set_flag (set_flag (child_id d (qn t j)) FLAG_FIRST_SIBLING fs) FLAG_ON_PARALLEL_BOUNDARY pb)
      with (flags_of d (qn t j) fs pb).
    apply flags_child. intros k Hk. rewrite flags_of_testbit by lia.
    replace (k =? 3) with false by lia.
    replace (k =? 4) with false by lia. rewrite !andb_false_r, !orb_false_r. reflexivity.
  Qed.

  Let ps (j n : nat) := map (patch_of rnd d mirrors t base) (seq j n).

  Lemma families_block_ok : forall n i j skip, (j + n = length t)%nat -> (skip <= n)%nat ->
    (forall k, (k < skip)%nat -> fam d t (j + k) = false) ->
    families_block d i j skip (ps j n) =
    Some (map (fun j => (i, j)) (filter (fam d t) (seq j n))).
  Proof.
    induction n as [|n IH]; intros i j skip Hj Hs Hk.
    - reflexivity.
    - unfold ps. cbn [seq map families_block]. destruct skip as [|s].
      + rewrite patch_of_first. cbn [filter]. destruct (fam d t j) eqn:Ef.
        * assert (Hn : (num_children d <= S n)%nat).
          { unfold fam in Ef. apply andb_true_iff in Ef. destruct Ef as [Ef _].
            apply Nat.leb_le in Ef. rewrite skipn_length in Ef. lia. }
          assert (C : (num_children d <=? length (patch_of rnd d mirrors t base j
               :: map (patch_of rnd d mirrors t base) (seq (S j) n)))%nat &&
             forallb (fun k => match nth_error (patch_of rnd d mirrors t base j
               :: map (patch_of rnd d mirrors t base) (seq (S j) n)) k with
                               | Some pk => patch_childid pk =? Z.of_nat k
                               | None => false end) (seq 0 (num_children d)) = true).
          { apply andb_true_iff. split.
            - apply Nat.leb_le. cbn [length]. rewrite map_length, seq_length. exact Hn.
            - apply forallb_forall. intros k Hin. apply in_seq in Hin.
              change (patch_of rnd d mirrors t base j :: map (patch_of rnd d mirrors t base) (seq (S j) n))
                with (map (patch_of rnd d mirrors t base) (seq j (S n))).
              assert (E : nth_error (map (patch_of rnd d mirrors t base) (seq j (S n))) k =
                          Some (patch_of rnd d mirrors t base (j + k))).
              { apply map_nth_error. rewrite (nth_error_nth' _ 0%nat) by (rewrite seq_length; lia).
                rewrite seq_nth by lia. reflexivity. }
              rewrite E, patch_of_childid. apply Z.eqb_eq.
              destruct (fam_childid d t j Hwf Ef k ltac:(lia)) as (q & Eq & Hc).
              unfold qn. rewrite (nth_error_nth _ _ _ Eq). exact Hc. }
          rewrite C. fold (ps (S j) n).
          rewrite IH; [reflexivity|lia|lia|].
          intros k Hk2. destruct (fam d t (S j + k)) eqn:E2; [|reflexivity].
          destruct (fam_childid d t j Hwf Ef (S k) ltac:(lia)) as (q & Eq & Hc).
          replace (j + S k)%nat with (S j + k)%nat in Eq by lia.
          rewrite (fam_first _ _ _ _ Eq E2) in Hc. lia.
        * fold (ps (S j) n). apply IH; try lia. 
      + fold (ps (S j) n). rewrite IH; [|lia|lia|].
        * cbn [filter]. rewrite <- (Nat.add_0_r j) at 2. rewrite Hk by lia. reflexivity.
        * intros k Hk2. replace (S j + k)%nat with (j + S k)%nat by lia. apply Hk. lia.
  Qed.
End Fam.

(** decide family_at *)
Definition family_atb (d : dim) (T : list (list quad)) (ij : nat * nat) : bool :=
  match nth_error T (fst ij) with Some t => fam d t (snd ij) | None => false end.

Lemma family_atb_ok : forall d T ij, wf_forest d T -> (family_atb d T ij = true <-> family_at d T ij).
Proof.
  intros d T (i, j) Hwf. unfold family_atb. cbn [fst snd].
  destruct (nth_error T i) as [t|] eqn:Et.
  - rewrite (family_at_skipn d T i t j Et). unfold fam. apply is_familyv_ok.
    apply Forall_skipn. eapply wf_forest_tree; eauto.
  - split; [discriminate|]. intros (pa & _ & H).
    destruct (H 0 ltac:(destruct d; cbn; lia)) as (q & E & _).
    unfold quad_at in E. cbn [fst snd] in E. rewrite Et in E. discriminate.
Qed.

Theorem iterate_families_ok : forall rnd d T mirrors dom,
  wf_forest d T -> wf_mirrors T mirrors -> domain_new rnd d mirrors T = Some dom ->
  iterate_families d dom = Some (filter (family_atb d T) (positions T)).
Proof.
  intros rnd d T mirrors dom Hwf Hm E.
  destruct (domain_new_ok rnd d mirrors T Hwf Hm) as (dom' & E' & Hb & _).
  rewrite E in E'. injection E' as <-. unfold iterate_families.
  apply (blocks_traverse rnd d mirrors T (dom_blocks dom) (family_atb d T)
           (fun i b => families_block d i 0 0 (b_patches b))
           (families_blocks d)); auto.
  intros i t b Et (B1 & B2 & _). rewrite B2.
  rewrite families_block_ok; auto; [|eapply wf_forest_tree; eauto|lia|intros; lia].
  do 2 f_equal. apply filter_ext. intro j. unfold family_atb. cbn [fst snd]. rewrite Et. reflexivity.
Qed.

(** [S] is the subsequence of [L] of the elements satisfying [P]. *)
Theorem iterate_families_spec : forall rnd d T mirrors dom,
  wf_forest d T -> wf_mirrors T mirrors -> domain_new rnd d mirrors T = Some dom ->
  exists calls sel, iterate_families d dom = Some calls /\
    (forall ij, sel ij = true <-> family_at d T ij) /\ calls = filter sel (positions T).
Proof.
  intros. exists (filter (family_atb d T) (positions T)), (family_atb d T).
  split; [eapply iterate_families_ok; eauto|]. split; [|reflexivity].
  intro. apply family_atb_ok. assumption.
Qed.

(** families do not overlap *)
Theorem families_disjoint : forall d T i j j', wf_forest d T ->
  family_at d T (i, j) -> family_at d T (i, j') -> (j < j')%nat ->
  (j + num_children d <= j')%nat.
Proof.
  intros d T i j j' Hwf H1 H2 Hlt.
  apply family_atb_ok in H1; auto. apply family_atb_ok in H2; auto.
  unfold family_atb in *. cbn [fst snd] in *. destruct (nth_error T i) as [t|] eqn:Et; [|discriminate].
  assert (Wt := wf_forest_tree _ _ _ _ Hwf Et).
  destruct (Nat.le_gt_cases (j + num_children d) j') as [|Hgt]; [assumption|].
  destruct (fam_childid d t j Wt H1 (j' - j) ltac:(lia)) as (q & Eq & Hc).
  replace (j + (j' - j))%nat with j' in Eq by lia.
  rewrite (fam_first _ _ _ _ Eq H2) in Hc. lia.
Qed.
