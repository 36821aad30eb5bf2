(** Proofs about domain_new: the loop invariants. *)
From Coq Require Import ZArith QArith Lia List Bool.
From Verif Require Import Base_Float Model_Face Model_Domain Spec_Domain.
Import ListNotations.
Open Scope Z_scope.

(** ** Linked lists *)
Fixpoint chain (nx : nat -> option nat) (p : option nat) (L : list nat) : Prop :=
  match L with
  | [] => p = None
  | a :: r => p = Some a /\ chain nx (nx a) r
  end.

Lemma chain_upd_notin : forall L nx p k v, ~ In k L -> chain nx p L -> chain (upd nx k v) p L.
Proof.
  induction L as [|a r IH]; intros nx p k v Hn H; cbn in *; [exact H|].
  destruct H as [-> H]. split; [reflexivity|].
  unfold upd at 2. destruct (Nat.eqb_spec a k); [exfalso; apply Hn; left; auto|].
  apply IH; auto.
Qed.

Lemma chain_snoc : forall L nx p j, chain nx p L -> L <> [] -> NoDup L -> ~ In j L ->
  nx j = None -> chain (upd nx (last L 0%nat) (Some j)) p (L ++ [j]).
Proof.
  induction L as [|a r IH]; intros nx p j H Hne Hnd Hj Hn; [congruence|].
  cbn [chain] in H. destruct H as [-> H]. inversion Hnd as [|? ? Hna Hnd']; subst.
  destruct r as [|b r'].
  - cbn. split; [reflexivity|]. unfold upd. rewrite Nat.eqb_refl. split; [reflexivity|].
    destruct (Nat.eqb_spec j a) as [->|]; [exfalso; apply Hj; left; auto|]. exact Hn.
  - assert (HL : last (a :: b :: r') 0%nat = last (b :: r') 0%nat) by reflexivity.
    rewrite HL. clear HL.
    assert (HR : b :: r' <> []) by congruence.
    remember (b :: r') as R eqn:ER. clear ER b r'.
    cbn [app chain]. split; [reflexivity|].
    assert (a <> last R 0%nat).
    { intro E. apply Hna. rewrite E. destruct (exists_last (l := R)) as (x & y & E2); [exact HR|].
      rewrite E2. rewrite last_last. apply in_or_app. right. left. reflexivity. }
    unfold upd at 2. destruct (Nat.eqb_spec a (last R 0%nat)); [contradiction|].
    apply IH; auto. intro; apply Hj; right; auto.
Qed.

Lemma chain_hd : forall L nx p, chain nx p L -> (p = None <-> L = []).
Proof. destruct L; intros nx p H; cbn in H; [tauto|]. destruct H as [-> _]. split; congruence. Qed.

Definition dq := mkQuad 0 0 0 0.
Definition qn (t : list quad) (j : nat) := nth j t dq.
Definition idx (t : list quad) (n : nat) (l : Z) : list nat :=
  filter (fun j => q_level (qn t j) =? l) (seq 0 n).

Lemma idx_S : forall t n l,
  idx t (S n) l = idx t n l ++ (if q_level (qn t n) =? l then [n] else []).
Proof. intros. unfold idx. rewrite seq_S, filter_app. cbn [filter plus]. reflexivity. Qed.

Lemma idx_In : forall t n l j, In j (idx t n l) <-> (j < n)%nat /\ q_level (qn t j) = l.
Proof.
  intros. unfold idx. rewrite filter_In, in_seq. rewrite Z.eqb_eq. intuition lia.
Qed.

Lemma idx_NoDup : forall t n l, NoDup (idx t n l).
Proof. intros. unfold idx. apply NoDup_filter. apply seq_NoDup. Qed.

Section Loop.
  Variable rnd : Q -> Q.
  Variable d : dim.
  Variable mirrors : list Z.
  Variable T : list (list quad).

  Definition patch_of (t : list quad) (base : Z) (j : nat) : patch_t :=
    let q := qn t j in
    set_boundary_xylower rnd d
      (set_flag
         (set_flag (child_id d q) FLAG_FIRST_SIBLING
            (Nat.leb (num_children d) (length (skipn j t)) && is_familyv d (skipn j t)))
         FLAG_ON_PARALLEL_BOUNDARY (existsb (Z.eqb (base + Z.of_nat j)) mirrors))
      (q_level q) (q_level q) q.

  Definition minv (st_nm : nat) (st_mqn : Z) (ex : list (nat * nat)) (num : Z) : Prop :=
    exists mdone mrest, mirrors = mdone ++ mrest /\ Forall (fun m => m < num) mdone /\
      increasing_from num mrest /\ st_nm = length mdone /\ st_mqn = hd (-1) mrest /\
      map Some ex = map (fun m => nth_error (positions T) (Z.to_nat m)) mdone.

  Definition pinv (t : list quad) (base : Z) (n : nat) (st : bstate) : Prop :=
    s_patches st = map (patch_of t base) (seq 0 n) /\
    (forall l, chain (s_next st) (s_pbl st l) (idx t n l)) /\
    (forall l, idx t n l <> [] -> s_cur st l = Some (last (idx t n l) 0%nat)) /\
    (forall k, (n <= k)%nat -> s_next st k = None) /\
    s_num st = base + Z.of_nat n /\
    level_range d (firstn n t) (s_min st) (s_max st) /\
    minv (s_nm st) (s_mqn st) (s_exch st) (s_num st).

  Lemma increasing_weaken : forall l n m, m <= n -> increasing_from n l -> increasing_from m l.
  Proof. destruct l; cbn; intros; auto. intuition lia. Qed.

  Lemma increasing_In : forall l n m, increasing_from n l -> In m l -> n <= m.
  Proof.
    induction l as [|a r IH]; cbn; intros n m H Hin; [contradiction|].
    destruct H as [H1 H2]. destruct Hin as [->|Hin]; [lia|].
    specialize (IH _ _ H2 Hin). lia.
  Qed.

  Lemma existsb_mem : forall l m, existsb (Z.eqb m) l = true <-> In m l.
  Proof.
    intros. rewrite existsb_exists. split.
    - intros (x & Hx & E). apply Z.eqb_eq in E. subst. exact Hx.
    - intro. exists m. split; [auto|apply Z.eqb_refl].
  Qed.

  (** the mirror test: s_mqn = local number iff the number is in the list *)
  Lemma mirror_test : forall nm mqn ex num, 0 <= num -> minv nm mqn ex num ->
    (mqn =? num) = existsb (Z.eqb num) mirrors.
  Proof.
    intros nm mqn ex num H0 (md & mr & E & Hd & Hr & _ & -> & _).
    apply eq_true_iff_eq. rewrite existsb_mem, Z.eqb_eq, E. split.
    - intro E2. apply in_or_app. right. destruct mr as [|m r]; cbn in E2; [lia|]. subst. left; auto.
    - intro Hin. apply in_app_or in Hin. destruct Hin as [Hin|Hin].
      + rewrite Forall_forall in Hd. specialize (Hd _ Hin). lia.
      + destruct mr as [|m r]; [contradiction|]. cbn [hd]. cbn in Hr. destruct Hr as [Hr1 Hr2].
        destruct Hin as [->|Hin]; [auto|]. apply (increasing_In _ _ _ Hr2) in Hin. lia.
  Qed.

  Lemma level_range_snoc : forall t q lo hi,
    0 <= q_level q <= maxl d -> level_range d t lo hi ->
    level_range d (t ++ [q]) (Z.min lo (q_level q)) (Z.max hi (q_level q)).
  Proof.
    intros t q lo hi Hq (H1 & H2 & H3). repeat split.
    - apply in_app_or in H. destruct H as [H|[<-|[]]]; [specialize (H1 _ H)|]; lia.
    - apply in_app_or in H. destruct H as [H|[<-|[]]]; [specialize (H1 _ H)|]; lia.
    - destruct t; cbn in H; congruence.
    - destruct t; cbn in H; congruence.
    - destruct t as [|a t].
      + destruct (H2 eq_refl) as [-> ->]. exists q. split; [left; auto|lia].
      + destruct (H3 ltac:(congruence)) as [(x & Hx & Ex) _].
        destruct (Z.le_gt_cases lo (q_level q)).
        * exists x. split; [apply in_or_app; auto|lia].
        * exists q. split; [apply in_or_app; right; left; auto|lia].
    - destruct t as [|a t].
      + destruct (H2 eq_refl) as [-> ->]. exists q. split; [left; auto|lia].
      + destruct (H3 ltac:(congruence)) as [_ (x & Hx & Ex)].
        destruct (Z.le_gt_cases (q_level q) hi).
        * exists x. split; [apply in_or_app; auto|lia].
        * exists q. split; [apply in_or_app; right; left; auto|lia].
  Qed.

  Lemma qmax_maxl : qmaxlevel d = maxl d.
  Proof. destruct d; reflexivity. Qed.

  Lemma skipn_nth : forall (t : list quad) n q r, skipn n t = q :: r ->
    qn t n = q /\ skipn (S n) t = r /\ firstn (S n) t = firstn n t ++ [q] /\ (n < length t)%nat.
  Proof.
    induction t as [|a t IH]; intros n q r H.
    - rewrite skipn_nil in H. discriminate.
    - destruct n as [|n]; cbn [skipn] in H.
      + injection H; intros; subst. cbn. repeat split; lia.
      + destruct (IH _ _ _ H) as (A & B & C & D). repeat split; auto.
        * change (a :: firstn (S n) t = a :: firstn n t ++ [q]). rewrite C. reflexivity.
        * cbn. lia.
  Qed.

  Lemma patch_step_ok : forall i t base n q r st,
    0 <= base -> Forall (wf_quad d) t ->
    (forall j, (j < length t)%nat ->
       nth_error (positions T) (Z.to_nat (base + Z.of_nat j)) = Some (i, j)) ->
    skipn n t = q :: r -> pinv t base n st ->
    exists st', patch_step rnd d mirrors i n (q :: r) st = Some st' /\ pinv t base (S n) st'.
  Proof.
    intros i t base n q r st Hb Hwf Hpos Hs (P1 & P2 & P3 & P4 & P5 & P6 & P7).
    destruct (skipn_nth _ _ _ _ Hs) as (Eq & Es & Ef & Hn).
    assert (Hq : wf_quad d q).
    { rewrite Forall_forall in Hwf. apply Hwf. rewrite <- (firstn_skipn n t), Hs.
      apply in_or_app. right. left. reflexivity. }
    destruct Hq as (Hl & _).
    assert (Hn0 : 0 <= s_num st) by (rewrite P5; lia).
    assert (Et := mirror_test _ _ _ _ Hn0 P7).
    unfold patch_step.
    replace (negb ((0 <=? q_level q) && (q_level q <=? qmaxlevel d))) with false
      by (rewrite qmax_maxl; lia).
    set (ob := s_mqn st =? s_num st) in *.
    set (nm' := if ob then S (s_nm st) else s_nm st).
    set (mqn' := if ob then if Nat.ltb nm' (length mirrors) then nth nm' mirrors 0 else -1
                 else s_mqn st).
    set (exch' := if ob then s_exch st ++ [(i, n)] else s_exch st).
    (* mirrors *)
    assert (M : minv nm' mqn' exch' (s_num st + 1) /\
                (ob && Nat.ltb nm' (length mirrors) && negb (s_num st <? mqn')) = false).
    { destruct P7 as (md & mr & E & Hd & Hr & En & Em & Ex).
      destruct ob eqn:Eob.
      - assert (Eob' : s_mqn st = s_num st) by (apply Z.eqb_eq; exact Eob).
        destruct mr as [|m mr]; [cbn in Em; lia|]. cbn [hd] in Em.
        cbn in Hr. destruct Hr as [Hr1 Hr2].
        rewrite <- Em, Eob' in E, Hr1, Hr2. clear Em m.
        assert (E' : mirrors = (md ++ [s_num st]) ++ mr) by (rewrite <- app_assoc; exact E).
        assert (Elen : length mirrors = (S (s_nm st) + length mr)%nat)
          by (rewrite E', !app_length, En; cbn; lia).
        assert (Hm : mqn' = hd (-1) mr).
        { unfold mqn', nm'. rewrite Elen. destruct mr as [|m2 mr].
          - cbn [length]. rewrite Nat.add_0_r, Nat.ltb_irrefl. reflexivity.
          - replace (Nat.ltb (S (s_nm st)) (S (s_nm st) + length (m2 :: mr))) with true
              by (symmetry; apply Nat.ltb_lt; cbn; lia).
            rewrite E'. rewrite app_nth2; rewrite app_length; cbn [length]; [|lia].
            replace (S (s_nm st) - (length md + 1))%nat with 0%nat by lia. reflexivity. }
        split.
        + exists (md ++ [s_num st]), mr. repeat split; auto.
          * apply Forall_app. split.
            -- eapply Forall_impl; [|exact Hd]. cbn. intros; lia.
            -- constructor; [lia|constructor].
          * rewrite app_length. cbn. unfold nm'. lia.
          * unfold exch'. rewrite !map_app, Ex. f_equal. cbn [map]. f_equal.
            rewrite P5. symmetry. apply Hpos. exact Hn.
        + cbn [andb]. destruct (Nat.ltb nm' (length mirrors)) eqn:El; [|reflexivity].
          cbn [andb]. rewrite Hm. destruct mr as [|m2 mr].
          * exfalso. apply Nat.ltb_lt in El. unfold nm' in El. rewrite Elen in El. cbn in El. lia.
          * cbn [hd]. cbn in Hr2. apply negb_false_iff. apply Z.ltb_lt. lia.
      - split; [|reflexivity]. exists md, mr. repeat split; auto.
        + eapply Forall_impl; [|exact Hd]. cbn. intros; lia.
        + destruct mr as [|m mr]; [exact I|]. cbn in Hr |- *. destruct Hr as [Hr1 Hr2].
          cbn [hd] in Em. split; [|exact Hr2]. apply Z.eqb_neq in Eob. lia. }
    destruct M as (M1 & M2). rewrite M2.
    (* chains *)
    set (l0 := q_level q) in *.
    assert (Hex : exists nx, match s_pbl st l0 with
        | None => Some (s_next st)
        | Some _ => match s_cur st l0 with
                    | Some c => Some (upd (s_next st) c (Some n)) | None => None end
        end = Some nx /\
        (forall l, chain nx ((match s_pbl st l0 with None => updz (s_pbl st) l0 (Some n)
                       | Some _ => s_pbl st end) l) (idx t (S n) l)) /\
        (forall k, (S n <= k)%nat -> nx k = None)).
    { assert (C0 := P2 l0). destruct (s_pbl st l0) as [h|] eqn:Eh.
      - assert (Hne : idx t n l0 <> []).
        { intro E. rewrite E in C0. cbn in C0. congruence. }
        rewrite (P3 _ Hne). eexists. split; [reflexivity|].
        assert (Hlast : In (last (idx t n l0) 0%nat) (idx t n l0)).
        { destruct (exists_last Hne) as (x & y & E2). rewrite E2, last_last.
          apply in_or_app. right; left; auto. }
        split.
        + intro l. rewrite idx_S, Eq. fold l0. destruct (Z.eqb_spec l0 l) as [<-|Hne2].
          * rewrite Eh. apply chain_snoc; auto.
            -- apply idx_NoDup.
            -- rewrite idx_In. lia.
            
          * rewrite app_nil_r. apply chain_upd_notin; [|apply P2].
            intro Hin. apply idx_In in Hin. apply idx_In in Hlast. lia.
        + intros k Hk. unfold upd. destruct (Nat.eqb_spec k (last (idx t n l0) 0%nat)) as [E|].
          * apply idx_In in Hlast. lia.
          * apply P4. lia.
      - assert (Hnil : idx t n l0 = []) by (apply (chain_hd _ _ _ C0); reflexivity).
        eexists. split; [reflexivity|]. split; [|intros; apply P4; lia].
        intro l. rewrite idx_S, Eq. fold l0. unfold updz.
        rewrite (Z.eqb_sym l l0). destruct (Z.eqb_spec l0 l) as [<-|Hne2].
        + rewrite Hnil. cbn. split; [reflexivity|]. apply P4. lia.
        + rewrite app_nil_r. apply P2. }
    destruct Hex as (nx & -> & C1 & C2).
    eexists. split; [reflexivity|]. unfold pinv. cbn [s_patches s_next s_pbl s_cur s_num s_min s_max s_nm s_mqn s_exch].
    repeat split.
    - rewrite P1, seq_S, map_app. f_equal. cbn [map plus]. f_equal.
      unfold patch_of. rewrite Eq, Hs. rewrite <- P5, <- Et. reflexivity.
    - exact C1.
    - intros l Hne. rewrite idx_S in Hne |- *. rewrite Eq in Hne |- *. fold l0 in Hne |- *. unfold updz.
      rewrite (Z.eqb_sym l l0). destruct (Z.eqb_spec l0 l) as [El|].
      + rewrite last_last. reflexivity.
      + rewrite app_nil_r in Hne |- *. apply P3. exact Hne.
    - exact C2.
    - rewrite P5. lia.
    - rewrite Ef in H. apply (level_range_snoc (firstn n t) q _ _ Hl P6). exact H.
    - rewrite Ef in H. apply (level_range_snoc (firstn n t) q _ _ Hl P6). exact H.
    - rewrite Ef in H. destruct (firstn n t); discriminate.
    - rewrite Ef in H. destruct (firstn n t); discriminate.
    - rewrite Ef in H. rewrite Ef. apply (level_range_snoc (firstn n t) q _ _ Hl P6). exact H.
    - rewrite Ef in H. rewrite Ef. apply (level_range_snoc (firstn n t) q _ _ Hl P6). exact H.
    - exact M1.
  Qed.

  Lemma patch_loop_ok : forall rest i t base n st,
    0 <= base -> Forall (wf_quad d) t ->
    (forall j, (j < length t)%nat ->
       nth_error (positions T) (Z.to_nat (base + Z.of_nat j)) = Some (i, j)) ->
    skipn n t = rest -> (n <= length t)%nat -> pinv t base n st ->
    exists st', patch_loop rnd d mirrors i n rest st = Some st' /\ pinv t base (length t) st'.
  Proof.
    induction rest as [|q r IH]; intros i t base n st Hb Hwf Hpos Hs Hn Hp.
    - assert (n = length t).
      { assert (length (skipn n t) = 0%nat) by (rewrite Hs; reflexivity).
        rewrite skipn_length in H. lia. }
      subst n. exists st. split; [reflexivity|exact Hp].
    - destruct (patch_step_ok i t base n q r st Hb Hwf Hpos Hs Hp) as (st' & E & Hp').
      destruct (skipn_nth _ _ _ _ Hs) as (_ & Es & _ & Hlt).
      destruct (IH i t base (S n) st' Hb Hwf Hpos Es Hlt Hp') as (st2 & E2 & Hp2).
      exists st2. split; [|exact Hp2].
      cbn [patch_loop]. rewrite E. exact E2.
  Qed.

  (** ** Block loop *)
  Definition block_ok (t : list quad) (base : Z) (b : block_t) : Prop :=
    b_before b = base /\ b_patches b = map (patch_of t base) (seq 0 (length t)) /\
    (forall l, chain (b_next b) (b_bylevel b l) (idx t (length t) l)) /\
    level_range d t (b_min b) (b_max b).

  Definition blocks_ok (done : list (list quad)) (bs : list block_t) : Prop :=
    length bs = length done /\
    forall i t, nth_error done i = Some t ->
    exists b, nth_error bs i = Some b /\ block_ok t (count (firstn i done)) b.

  Definition dinv (done : list (list quad)) (ds : dstate) : Prop :=
    blocks_ok done (ds_blocks ds) /\ ds_num ds = count done /\
    level_range d (concat done) (ds_min ds) (ds_max ds) /\
    minv (ds_nm ds) (ds_mqn ds) (ds_exch ds) (ds_num ds).

  Lemma count_app : forall a b, count (a ++ b) = count a + count b.
  Proof. unfold count. induction a; cbn [app fold_right]; intros; [lia|]. rewrite IHa. lia. Qed.
  Lemma count_nonneg : forall a, 0 <= count a.
  Proof. induction a; unfold count in *; cbn [fold_right]; lia. Qed.

  Lemma positions_app : forall a b i,
    positions_from i (a ++ b) = positions_from i a ++ positions_from (i + length a) b.
  Proof.
    induction a as [|t a IH]; intros b i; cbn [app positions_from length].
    - rewrite Nat.add_0_r. reflexivity.
    - rewrite IH, <- app_assoc. do 3 f_equal. lia.
  Qed.

  Lemma positions_length : forall a i, Z.of_nat (length (positions_from i a)) = count a.
  Proof.
    induction a; intros; unfold count in *; cbn [positions_from fold_right]; [reflexivity|].
    rewrite app_length, map_length, seq_length, Nat2Z.inj_add, IHa. reflexivity.
  Qed.

  Lemma positions_nth : forall done t rest j, (j < length t)%nat ->
    nth_error (positions (done ++ t :: rest)) (Z.to_nat (count done + Z.of_nat j)) =
    Some (length done, j).
  Proof.
    intros done t rest j Hj. unfold positions. rewrite positions_app. cbn [positions_from plus].
    assert (L := positions_length done 0). assert (C := count_nonneg done).
    rewrite nth_error_app2 by lia.
    replace (Z.to_nat (count done + Z.of_nat j) - length (positions_from 0 done))%nat with j by lia.
    rewrite nth_error_app1 by (rewrite map_length, seq_length; exact Hj).
    apply map_nth_error.
    rewrite (nth_error_nth' _ 0%nat) by (rewrite seq_length; exact Hj).
    rewrite seq_nth by exact Hj. reflexivity.
  Qed.

  Lemma level_range_app : forall a b la ha lb hb,
    Forall (wf_quad d) a -> Forall (wf_quad d) b ->
    level_range d a la ha -> level_range d b lb hb ->
    level_range d (a ++ b) (Z.min la lb) (Z.max ha hb).
  Proof.
    intros a b la ha lb hb Wa Wb (A1 & A2 & A3) (B1 & B2 & B3).
    rewrite Forall_forall in Wa, Wb.
    assert (La : forall q, In q a -> 0 <= q_level q <= maxl d) by (intros; apply Wa; auto).
    assert (Lb : forall q, In q b -> 0 <= q_level q <= maxl d) by (intros; apply Wb; auto).
    repeat split.
    - apply in_app_or in H. destruct H as [H|H]; [specialize (A1 _ H)|specialize (B1 _ H)]; lia.
    - apply in_app_or in H. destruct H as [H|H]; [specialize (A1 _ H)|specialize (B1 _ H)]; lia.
    - apply app_eq_nil in H. destruct H as [-> ->]. destruct (A2 eq_refl), (B2 eq_refl). lia.
    - apply app_eq_nil in H. destruct H as [-> ->]. destruct (A2 eq_refl), (B2 eq_refl). lia.
    - destruct a as [|qa a'].
      + destruct (A2 eq_refl) as [-> ->]. cbn [app] in H |- *.
        destruct (B3 H) as [(x & Hx & Ex) _]. exists x. split; auto. specialize (Lb _ Hx). lia.
      + destruct (A3 ltac:(congruence)) as [(x & Hx & Ex) _]. destruct b as [|qb b'].
        * destruct (B2 eq_refl) as [-> ->]. exists x. rewrite app_nil_r. split; auto.
          specialize (La _ Hx). lia.
        * destruct (B3 ltac:(congruence)) as [(y & Hy & Ey) _].
          destruct (Z.le_gt_cases la lb).
          -- exists x. split; [apply in_or_app; auto|lia].
          -- exists y. split; [apply in_or_app; auto|lia].
    - destruct a as [|qa a'].
      + destruct (A2 eq_refl) as [-> ->]. cbn [app] in H |- *.
        destruct (B3 H) as [_ (x & Hx & Ex)]. exists x. split; auto. specialize (Lb _ Hx). lia.
      + destruct (A3 ltac:(congruence)) as [_ (x & Hx & Ex)]. destruct b as [|qb b'].
        * destruct (B2 eq_refl) as [-> ->]. exists x. rewrite app_nil_r. split; auto.
          specialize (La _ Hx). lia.
        * destruct (B3 ltac:(congruence)) as [_ (y & Hy & Ey)].
          destruct (Z.le_gt_cases hb ha).
          -- exists x. split; [apply in_or_app; auto|lia].
          -- exists y. split; [apply in_or_app; auto|lia].
  Qed.

  Lemma block_loop_ok : forall rest done ds,
    T = done ++ rest -> wf_forest d T -> dinv done ds ->
    exists ds', block_loop rnd d mirrors (length done) rest ds = Some ds' /\ dinv T ds'.
  Proof.
    induction rest as [|t rest IH]; intros done ds ET Hwf Hd.
    - rewrite app_nil_r in ET. subst done. exists ds. split; [reflexivity|exact Hd].
    - destruct Hd as ((Hlen & Hbl) & Hnum & Hlr & Hm).
      assert (Hwft : Forall (wf_quad d) t).
      { unfold wf_forest in Hwf. rewrite ET in Hwf. apply Forall_app in Hwf. destruct Hwf as [_ H].
        inversion H; auto. }
      assert (Hwfd : Forall (wf_quad d) (concat done)).
      { unfold wf_forest in Hwf. rewrite ET in Hwf. apply Forall_app in Hwf. destruct Hwf as [H _].
        apply Forall_concat. exact H. }
      set (st0 := mkS [] (fun _ => None) (fun _ => None) (ds_cur ds) (qmaxlevel d) (-1)
                      (ds_nm ds) (ds_mqn ds) (ds_exch ds) (ds_num ds)).
      assert (Hp0 : pinv t (count done) 0 st0).
      { unfold pinv, st0; cbn [s_patches s_next s_pbl s_cur s_num s_min s_max s_nm s_mqn s_exch].
        repeat split; cbn; auto; try contradiction; try congruence.
        - rewrite Hnum. lia.
        - apply qmax_maxl. }
      destruct (patch_loop_ok t (length done) t (count done) 0 st0) as (st & E & Hp); auto.
      + apply count_nonneg.
      + intros j Hj. rewrite ET. apply positions_nth. exact Hj.
      + lia.
      + destruct Hp as (P1 & P2 & P3 & P4 & P5 & P6 & P7). rewrite firstn_all in P6.
        assert (Hd' : dinv (done ++ [t])
           (mkD (ds_blocks ds ++
                 [mkB (ds_num ds) (s_patches st) (s_next st) (s_pbl st) (s_min st) (s_max st)
                      (s_nm st - ds_nm ds)%nat])
                (s_cur st) (Z.min (ds_min ds) (s_min st)) (Z.max (ds_max ds) (s_max st))
                (s_nm st) (s_mqn st) (s_exch st) (s_num st))).
        { unfold dinv. cbn [ds_blocks ds_num ds_min ds_max ds_nm ds_mqn ds_exch].
          split; [|split; [|split]].
          - split; [rewrite !app_length, Hlen; reflexivity|].
            intros i t' Ht'. destruct (Nat.lt_ge_cases i (length done)) as [Hi|Hi].
            + rewrite nth_error_app1 in Ht' by exact Hi.
              destruct (Hbl _ _ Ht') as (b & Eb & Hb). exists b. split.
              * rewrite nth_error_app1 by (rewrite Hlen; exact Hi). exact Eb.
              * rewrite firstn_app.
                replace (i - length done)%nat with 0%nat by lia. cbn [firstn].
                rewrite app_nil_r. exact Hb.
            + rewrite nth_error_app2 in Ht' by exact Hi.
              destruct (i - length done)%nat as [|k] eqn:Ek; [|destruct k; discriminate].
              injection Ht'; intros <-. assert (i = length done) by lia. subst i.
              rewrite nth_error_app2 by lia. rewrite Hlen, Nat.sub_diag.
              eexists. split; [reflexivity|].
              rewrite firstn_app, Nat.sub_diag, firstn_all. cbn [firstn]. rewrite app_nil_r.
              unfold block_ok. cbn [b_before b_patches b_next b_bylevel b_min b_max].
              repeat split; auto; apply P6; auto.
          - rewrite P5, count_app. change (count [t]) with (Z.of_nat (length t) + 0). lia.
          - rewrite concat_app. cbn [concat]. rewrite app_nil_r.
            apply level_range_app; auto.
          - exact P7. }
        destruct (IH (done ++ [t]) _ ltac:(rewrite <- app_assoc; exact ET) Hwf Hd') as (ds' & E2 & H2).
        exists ds'. split; [|exact H2].
        rewrite app_length, Nat.add_1_r in E2.
        cbn [block_loop]. unfold block_step. fold st0. rewrite E. exact E2.
  Qed.
End Loop.

Lemma domain_new_ok : forall rnd d mirrors T,
  wf_forest d T -> wf_mirrors T mirrors ->
  exists dom, domain_new rnd d mirrors T = Some dom /\
    blocks_ok rnd d mirrors T (dom_blocks dom) /\ dom_num dom = count T /\
    level_range d (concat T) (dom_min dom) (dom_max dom) /\
    map Some (dom_exchange dom) = map (fun m => nth_error (positions T) (Z.to_nat m)) mirrors.
Proof.
  intros rnd d mirrors T Hwf (Hm1 & Hm2).
  destruct (block_loop_ok rnd d mirrors T T []
    (mkD [] (fun _ => None) (qmaxlevel d) (-1) 0 (match mirrors with [] => -1 | m :: _ => m end) [] 0))
    as (ds & E & (H1 & H2 & H3 & H4)); auto.
  - unfold dinv. cbn [ds_blocks ds_num ds_min ds_max ds_nm ds_mqn ds_exch]. repeat split; auto.
    + intros i t H. destruct i; discriminate.
    + destruct H.
    + destruct H.
    + apply qmax_maxl.
    + exfalso; apply H; reflexivity.
    + exfalso; apply H; reflexivity.
    + exists [], mirrors. repeat split; auto.
  - unfold domain_new. cbn [length] in E. rewrite E.
    destruct H4 as (md & mr & Em & Hd & Hr & En & _ & Ex).
    assert (mr = []).
    { destruct mr as [|m mr]; auto. exfalso. cbn in Hr. destruct Hr as [Hr _].
      rewrite Em in Hm2. apply Forall_app in Hm2. destruct Hm2 as [_ Hm2]. inversion Hm2; subst. lia. }
    subst mr. rewrite app_nil_r in Em. subst md. rewrite En, Nat.eqb_refl.
    eexists. split; [reflexivity|]. cbn [dom_blocks dom_num dom_min dom_max dom_exchange]. auto.
Qed.
