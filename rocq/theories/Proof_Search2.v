From Coq Require Import ZArith QArith List Bool Lia Permutation Arith.
From Verif Require Import Base_Float Model_Face Model_Domain Spec_Domain Proof_Domain2 Model_Search Spec_Search Proof_Search.
Import ListNotations.
Open Scope Z_scope.

Lemma qlen_side : forall d l, quadrant_len d l = side d l.
Proof. intros [] l; reflexivity. Qed.
Lemma Qltb_false : forall a b, Qltb a b = false <-> (b <= a)%Q.
Proof. intros a b. unfold Qltb. rewrite negb_false_iff. apply Qle_bool_iff. Qed.
Lemma zget_ge : forall A (l : list A) i x, zget l i = Some x -> 0 <= i < Z.of_nat (length l).
Proof.
  intros A l i x H. unfold zget in H. destruct (Z.ltb_spec i 0); [discriminate|]. apply nth_some_lt in H. lia.
Qed.
Lemma zget_nat : forall A (l : list A) i, 0 <= i -> zget l i = nth_error l (Z.to_nat i).
Proof. intros A l i H. unfold zget. destruct (Z.ltb_spec i 0); [lia|reflexivity]. Qed.
Lemma zget_of_nat : forall A (l : list A) i, zget l (Z.of_nat i) = nth_error l i.
Proof. intros A l i. rewrite zget_nat by lia. now rewrite Nat2Z.id. Qed.

Section S.
  Variable rnd : Q -> Q.
  Hypothesis R : rounding rnd.
  Variable d : dim.

  Definition inb (q : quad) (pt : point) : bool :=
    let qh := quadrant_len d (q_level q) in
    negb (outside rnd d (pt_x pt) (q_x q) qh) && negb (outside rnd d (pt_y pt) (q_y q) qh) &&
    match d with D2 => true | D3 => negb (outside rnd d (pt_z pt) (q_z q) qh) end.

  Lemma between_ok : forall l x c, aligned d l c -> 0 <= side d l -> (negb (outside rnd d x c (side d l)) = true <-> between d x c (side d l)).
  Proof.
    intros l x c (k & _ & A & B) SD. unfold outside, between. rewrite negb_true_iff, orb_false_iff, !Qltb_false.
    rewrite (coord_ok rnd d c R) by lia. rewrite (coord_ok rnd d (c + side d l) R) by lia. tauto.
  Qed.
  Lemma inb_contains : forall q pt, wf_quad d q -> (inb q pt = true <-> contains d q pt).
  Proof.
    intros q pt (L & A & B & C). unfold inb, contains. rewrite qlen_side.
    assert (SD : 0 <= side d (q_level q)) by (destruct d; unfold side; apply Z.pow_nonneg; lia).
    rewrite !andb_true_iff, !between_ok by assumption. assert (B3 := between_ok (q_level q) (pt_z pt) (q_z q)). destruct d; [tauto|]. rewrite (B3 C SD). tauto.
  Qed.
  Lemma unit_mono : forall a b, a <= b -> (unit_coord d a <= unit_coord d b)%Q.
  Proof.
    intros a b H. unfold unit_coord. apply Qmult_le_compat_r; [rewrite <- Zle_Qle; exact H|].
    apply Qinv_le_0_compat. change 0%Q with (inject_Z 0). rewrite <- Zle_Qle. destruct d; unfold side; apply Z.pow_nonneg; lia.
  Qed.
  Lemma within_contains : forall q a pt, within d q a -> contains d q pt -> contains d a pt.
  Proof.
    intros q a pt ((A1 & A2) & (B1 & B2) & C) ((X1 & X2) & (Y1 & Y2) & Z'). unfold contains, between.
    split; [split|split; [split|]].
    - eapply Qle_trans; [apply unit_mono; exact A1|exact X1].
    - eapply Qle_trans; [exact X2|apply unit_mono; exact A2].
    - eapply Qle_trans; [apply unit_mono; exact B1|exact Y1].
    - eapply Qle_trans; [exact Y2|apply unit_mono; exact B2].
    - assert (UM := unit_mono). destruct d; [exact Logic.I|]. destruct C as (C1 & C2). destruct Z' as (Z1 & Z2). split.
      + eapply Qle_trans; [apply UM; exact C1|exact Z1].
      + eapply Qle_trans; [exact Z2|apply UM; exact C2].
  Qed.

  Section Points.
    Variable blocks : list block.
    Variable coords : list point.
    Definition before (tree : Z) : Z := match zget blocks tree with Some b => b_before b | None => 0 end.
    Definition idx (e : Z * Z) : nat := Z.to_nat (snd e).
    Definition m (tree : Z) (q : quad) (n : Z) (e : Z * Z) : bool :=
      (fst e =? tree) && match zget coords (snd e) with Some pt => inb q pt | None => false end.
    Definition uu (tree : Z) (q : quad) (n : Z) (e : Z * Z) (s : Z) : Z :=
      if m tree q n e && (0 <=? n) then if 0 <=? s then Z.min s (n - before tree) else n - before tree else s.
    Definition good (tree : Z) (q : quad) (n : Z) : Prop :=
      n = -1 \/ (0 <= n /\ exists b, zget blocks tree = Some b /\ zget (b_patches b) (n - b_before b) = Some q).
    Definition ok (e : Z * Z) (s : Z) : Prop :=
      0 <= snd e /\ (exists pt, zget coords (snd e) = Some pt) /\ exists b, zget blocks (fst e) = Some b /\ -1 <= s < Z.of_nat (length (b_patches b)) \/ False.

    Lemma point_fn : forall tree q n pt st s, good tree q n -> nth_error st (idx pt) = Some s -> ok pt s ->
      search_point_fn rnd d blocks coords tree q n pt st = Some (m tree q n pt, upd st (idx pt) (uu tree q n pt s)) /\ ok pt (uu tree q n pt s).
    Proof.
      intros tree q n [jb ip] st s G Hs (O1 & (pt & Hp) & b & O3). cbn [fst snd] in *. destruct O3 as [(Hb & O3)|[]].
      unfold idx in *. cbn [snd] in *.
      assert (NO : upd st (Z.to_nat ip) s = st) by (apply upd_id; exact Hs).
      assert (OKs : ok (jb, ip) s). { split; [exact O1|]. split; [exists pt; exact Hp|]. exists b. left. auto. }
      unfold search_point_fn, uu, m. cbn [fst snd]. destruct (Z.eqb_spec jb tree) as [->|NE]; cbn [negb andb].
      2:{ rewrite NO. auto. }
      rewrite Hp. cbn [bind]. unfold inb.
      destruct (outside rnd d (pt_x pt) (q_x q) (quadrant_len d (q_level q))) eqn:EX; cbn [negb andb]; [rewrite NO; auto|].
      destruct (outside rnd d (pt_y pt) (q_y q) (quadrant_len d (q_level q))) eqn:EY; cbn [negb andb]; [rewrite NO; auto|].
      assert (EZ : match d with D2 => true | D3 => negb (outside rnd d (pt_z pt) (q_z q) (quadrant_len d (q_level q))) end =
                   negb match d with D2 => false | D3 => outside rnd d (pt_z pt) (q_z q) (quadrant_len d (q_level q)) end) by (destruct d; reflexivity).
      destruct (match d with D2 => false | D3 => outside rnd d (pt_z pt) (q_z q) (quadrant_len d (q_level q)) end) eqn:EZ2.
      { rewrite EZ. cbn [negb andb]. rewrite NO. auto. }
      rewrite EZ. cbn [negb andb].
      destruct G as [-> |(N0 & b' & Hb' & HQ)].
      { cbn [Z.ltb Z.leb Z.compare check Z.eqb]. rewrite NO. auto. }
      assert (b' = b) by congruence. subst b'.
      destruct (Z.ltb_spec n 0) as [X|_]; [lia|]. destruct (Z.leb_spec 0 n) as [_|X]; [|lia].
      rewrite Hb. cbn [bind]. rewrite HQ. cbn [bind]. rewrite EX, EY. cbn [negb check]. rewrite EZ. cbn [check negb].
      rewrite (zget_nat _ st ip O1), Hs. cbn [bind]. unfold before. rewrite Hb.
      assert (C : (-1 <=? s) && (s <? Z.of_nat (length (b_patches b))) = true) by (apply andb_true_iff; split; [apply Z.leb_le|apply Z.ltb_lt]; lia).
      rewrite C. cbn [check]. assert (NB := zget_ge _ _ _ _ HQ).
      set (v := if 0 <=? s then Z.min s (n - b_before b) else n - b_before b).
      assert (V : 0 <= v < Z.of_nat (length (b_patches b)) /\ (v = s \/ s = -1 \/ v < s)) by (unfold v; destruct (Z.leb_spec 0 s); lia).
      split.
      - destruct (Z.eqb_spec v s) as [Ev|Nv]; [rewrite Ev, NO; reflexivity|].
        assert (C2 : (s =? -1) || (v <? s) = true). { apply orb_true_iff. rewrite Z.eqb_eq, Z.ltb_lt. lia. }
        rewrite C2. cbn [check]. unfold zput. destruct (Z.ltb_spec ip 0); [lia|]. rewrite put_upd by exact (nth_some_lt _ _ _ _ Hs). reflexivity.
      - split; [exact O1|]. split; [exists pt; exact Hp|]. exists b. left. split; [exact Hb|lia].
    Qed.

    Lemma uu_branch : forall tree q e s, uu tree q (-1) e s = s.
    Proof. intros tree q e s. unfold uu. rewrite andb_false_r. reflexivity. Qed.
    Lemma uu_miss : forall tree q n e s, m tree q n e = false -> uu tree q n e s = s.
    Proof. intros tree q n e s H. unfold uu. rewrite H. reflexivity. Qed.
    Lemma m_wf : forall tree a q n e, wf_quad d q -> wf_quad d a -> within d q a -> m tree a (-1) e = false -> m tree q n e = false.
    Proof.
      intros tree a q n e Wq Wa W H. unfold m in *. destruct (fst e =? tree); [|reflexivity]. cbn [andb] in *.
      destruct (zget coords (snd e)) as [pt|]; [|reflexivity]. destruct (inb q pt) eqn:E; [|reflexivity].
      apply inb_contains in E; [|exact Wq]. assert (X := within_contains q a pt W E). apply inb_contains in X; [congruence|exact Wa].
    Qed.

    Definition step_leaf (tree : Z) (e : Z * Z) (s : Z) (l : quad * Z) : Z := uu tree (fst l) (snd l) e s.
    Lemma visit_leaves : forall tree e t, nested d t -> (forall l, In l (leaves t) -> wf_quad d (fst l)) ->
      forall s, visit Z (Z * Z) m uu tree e t s = fold_left (step_leaf tree e) (leaves t) s.
    Proof.
      intros tree e. induction t as [q n|q ch IH] using stree_rect'; intros N W s; [reflexivity|].
      inversion N as [|? ? Wq N1 N2]; subst. cbn [visit leaves]. rewrite uu_branch. destruct (m tree q (-1) e) eqn:M.
      - clear M N2 N. revert s. induction ch as [|t ch IHc]; intros s; [reflexivity|]. cbn [fold_left flat_map].
        rewrite fold_left_app. rewrite IH; [|now left|apply N1; now left|intros l Hl; apply W; cbn; apply in_or_app; now left].
        apply IHc; [intros t' H; apply IH; now right| |intros t' H; apply N1; now right].
        intros l Hl. apply W. cbn. apply in_or_app. now right.
      - assert (Z0 : forall ls, (forall l, In l ls -> In l (flat_map leaves ch)) -> fold_left (step_leaf tree e) ls s = s).
        { induction ls as [|l ls IHl]; intros SUB; [reflexivity|]. cbn [fold_left]. change (step_leaf tree e s l) with (uu tree (fst l) (snd l) e s). rewrite uu_miss.
          - apply IHl. intros l' H. apply SUB. now right.
          - apply (m_wf tree q (fst l) (snd l) e); [apply W; apply SUB; now left|exact Wq|apply N2; apply SUB; now left|exact M]. }
        symmetry. apply Z0. auto.
    Qed.

    (** smallest patch number among the leaves that contain the point *)
    Definition hit (tree : Z) (e : Z * Z) (ls : list (quad * Z)) (i : Z) : Prop := exists q n, In (q, n) ls /\ m tree q n e = true /\ i = n - before tree.
    Lemma fold_min : forall tree e ls s, (forall l, In l ls -> 0 <= snd l /\ 0 <= snd l - before tree) -> -1 <= s ->
      let r := fold_left (step_leaf tree e) ls s in
      (r = -1 /\ s = -1 /\ forall i, ~ hit tree e ls i) \/
      (0 <= r /\ (r = s \/ hit tree e ls r) /\ (0 <= s -> r <= s) /\ forall i, hit tree e ls i -> r <= i).
    Proof.
      intros tree e. induction ls as [|[q n] ls IH]; intros s P S0; cbv zeta.
      - cbn [fold_left]. destruct (Z.eq_dec s (-1)) as [->|N]; [left|right].
        + split; [reflexivity|]. split; [reflexivity|]. intros i (q & n & [] & _).
        + split; [lia|]. split; [now left|]. split; [lia|]. intros i (q & n & [] & _).
      - cbn [fold_left]. destruct (P (q, n) (or_introl eq_refl)) as (P1 & P2). cbn [snd] in P1, P2.
        change (step_leaf tree e s (q, n)) with (uu tree q n e s).
        destruct (m tree q n e) eqn:M.
        + assert (U : uu tree q n e s = if 0 <=? s then Z.min s (n - before tree) else n - before tree).
          { unfold uu. rewrite M. destruct (Z.leb_spec 0 n); [reflexivity|lia]. }
          rewrite U. set (s1 := if 0 <=? s then Z.min s (n - before tree) else n - before tree).
          assert (S1 : 0 <= s1 /\ s1 <= n - before tree /\ (0 <= s -> s1 <= s) /\ (s1 = s \/ s1 = n - before tree)) by (unfold s1; destruct (Z.leb_spec 0 s); lia).
          destruct (IH s1 (fun l H => P l (or_intror H)) ltac:(lia)) as [(_ & X & _)|(A & B & C & D)]; [lia|right].
          split; [exact A|]. split; [|split].
          * destruct B as [B|(q' & n' & B1 & B2 & B3)]; [|right; exists q', n'; split; [now right|auto]].
            destruct S1 as (_ & _ & _ & [S1|S1]); [left; lia|right; exists q, n; split; [now left|]; split; [exact M|lia]].
          * intros X. assert (0 <= s1) by lia. specialize (C H). lia.
          * intros i (q' & n' & [X|X] & Y & Z1).
            -- assert (n' = n) by congruence. subst n'. specialize (C ltac:(lia)). lia.
            -- apply D. exists q', n'. auto.
        + rewrite uu_miss by exact M. destruct (IH s (fun l H => P l (or_intror H)) S0) as [(A & B & C)|(A & B & C & D)].
          * left. split; [exact A|]. split; [exact B|]. intros i (q' & n' & [X|X] & Y & Z1); [congruence|]. apply (C i). exists q', n'. auto.
          * right. split; [exact A|]. split; [|split; [exact C|]].
            -- destruct B as [B|(q' & n' & B1 & B2 & B3)]; [now left|right; exists q', n'; split; [now right|auto]].
            -- intros i (q' & n' & [X|X] & Y & Z1); [congruence|]. apply D. exists q', n'. auto.
    Qed.
  End Points.

  (** ** the points of the blocks *)
  Lemma range_nth : forall n a j, (j < n)%nat -> nth_error (range a n) j = Some (Z.of_nat (a + j)).
  Proof.
    induction n as [|n IH]; intros a j H; [lia|]. destruct j; cbn [range nth_error]; [f_equal; lia|]. rewrite IH by lia. f_equal. lia.
  Qed.
  Lemma range_in : forall n a x, In x (range a n) <-> Z.of_nat a <= x < Z.of_nat a + Z.of_nat n.
  Proof.
    induction n as [|n IH]; intros a x; cbn [range In]; [lia|]. rewrite IH. lia.
  Qed.
  Lemma range_nodup : forall n a, NoDup (map Z.to_nat (range a n)).
  Proof.
    induction n as [|n IH]; intros a; cbn [range map]; constructor; [|apply IH]. intros X. apply in_map_iff in X. destruct X as (x & X1 & X2).
    apply range_in in X2. rewrite Nat2Z.id in X1. lia.
  Qed.
  Lemma range_app : forall n a k, range a (n + k) = range a n ++ range (a + n) k.
  Proof. induction n as [|n IH]; intros a k; cbn; [f_equal; lia|]. f_equal. rewrite IH. f_equal. f_equal. lia. Qed.

  Lemma make_points_ok : forall offs jb pb, 0 <= pb ->
    (forall i, (i < length offs)%nat -> nth i (pb :: offs) 0 <= nth (S i) (pb :: offs) 0) ->
    exists pts, make_points jb pb offs = Some (pts, nth (length offs) (pb :: offs) 0) /\
      pb <= nth (length offs) (pb :: offs) 0 /\
      map snd pts = range (Z.to_nat pb) (Z.to_nat (nth (length offs) (pb :: offs) 0 - pb)) /\
      forall i ip, In (jb + Z.of_nat i, ip) pts <-> (i < length offs)%nat /\ nth i (pb :: offs) 0 <= ip < nth (S i) (pb :: offs) 0.
  Proof.
    induction offs as [|pe offs IH]; intros jb pb P M.
    - exists []. cbn [make_points length nth]. rewrite Z.sub_diag. split; [reflexivity|]. split; [lia|]. split; [reflexivity|].
      intros i ip. cbn. lia.
    - assert (M0 := M 0%nat ltac:(cbn; lia)). cbn in M0.
      destruct (IH (jb + 1) pe ltac:(lia)) as (pts & E & L & S0 & I0).
      { intros i Hi. exact (M (S i) ltac:(cbn; lia)). }
      cbn [make_points]. unfold check. destruct (Z.leb_spec pb pe); [|lia]. rewrite E. cbn [bind].
      change (nth (length (pe :: offs)) (pb :: pe :: offs) 0) with (nth (length offs) (pe :: offs) 0).
      eexists. split; [reflexivity|]. split; [lia|]. split.
      + rewrite map_app, map_map, S0. cbn [snd]. rewrite map_id.
        set (z := nth (length offs) (pe :: offs) 0) in *.
        replace (Z.to_nat (z - pb)) with (Z.to_nat (pe - pb) + Z.to_nat (z - pe))%nat by lia. rewrite range_app. f_equal. f_equal. lia.
      + intros i ip. rewrite in_app_iff, in_map_iff. destruct i as [|i].
        * change (nth 0 (pb :: pe :: offs) 0) with pb. change (nth 1 (pb :: pe :: offs) 0) with pe. split.
          -- intros [(x & X1 & X2)|X].
             ++ apply range_in in X2. assert (x = ip) by congruence. cbn; lia.
             ++ exfalso. assert (Hin := proj1 (I0 0%nat ip)). clear Hin.
                assert (F : forall y, In y pts -> jb < fst y).
                { clear - E. revert E. generalize (nth (length offs) (pe :: offs) 0) as z. revert jb pe pts. induction offs as [|o offs IH]; intros jb pe pts z E y Hy.
                  - cbn in E. assert (pts = []) by congruence. subst. contradiction.
                  - cbn [make_points] in E. unfold check in E. destruct (pe <=? o); [|discriminate]. destruct (make_points (jb + 1 + 1) o offs) as [[l la]|] eqn:E2; [|discriminate]. cbn [bind] in E.
                    match type of E with Some (?a, _) = _ => assert (X : a = pts) by congruence end. rewrite <- X in Hy. apply in_app_iff in Hy. destruct Hy as [Hy|Hy].
                    + apply in_map_iff in Hy. destruct Hy as (x & <- & _). cbn. lia.
                    + assert (Y := IH (jb + 1) o l la E2 y Hy). lia. }
                assert (Y := F _ X). cbn in Y. lia.
          -- intros (_ & X). left. exists ip. split; [f_equal; lia|]. apply range_in. lia.
        * change (nth (S i) (pb :: pe :: offs) 0) with (nth i (pe :: offs) 0). change (nth (S (S i)) (pb :: pe :: offs) 0) with (nth (S i) (pe :: offs) 0).
          replace (jb + Z.of_nat (S i)) with (jb + 1 + Z.of_nat i) by lia. rewrite I0. cbn [length]. split.
          -- intros [(x & X1 & X2)|X]; [|lia]. exfalso. assert (jb = jb + 1 + Z.of_nat i) by congruence. lia.
          -- intros X. right. lia.
  Qed.
End S.
