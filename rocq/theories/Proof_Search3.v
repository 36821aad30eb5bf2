From Coq Require Import ZArith QArith List Bool Lia Permutation Arith.
From Verif Require Import Base_Float Model_Face Model_Domain Spec_Domain Proof_Domain2 Model_Search Spec_Search Proof_Search Proof_Search2.
Import ListNotations.
Open Scope Z_scope.

Lemma make_points_fst : forall offs jb pb pts z, make_points jb pb offs = Some (pts, z) -> forall y, In y pts -> jb <= fst y.
Proof.
  induction offs as [|o offs IH]; intros jb pb pts z E y Hy.
  - cbn in E. assert (pts = []) by congruence. subst. contradiction.
  - cbn [make_points] in E. unfold check in E. destruct (pb <=? o); [|discriminate]. destruct (make_points (jb + 1) o offs) as [[l la]|] eqn:E2; [|discriminate]. cbn [bind] in E.
    match type of E with Some (?a, _) = _ => assert (X : a = pts) by congruence end. rewrite <- X in Hy. apply in_app_iff in Hy. destruct Hy as [Hy|Hy].
    + apply in_map_iff in Hy. destruct Hy as (x & <- & _). cbn. lia.
    + assert (Y := IH _ _ _ _ E2 y Hy). lia.
Qed.

Lemma nth_combine : forall A B (l : list A) (l' : list B) i, nth_error (combine l l') i =
  match nth_error l i, nth_error l' i with Some a, Some b => Some (a, b) | _, _ => None end.
Proof.
  induction l as [|x l IH]; intros [|y l'] [|i]; cbn; try reflexivity.
  - now destruct (nth_error l i).
  - apply IH.
Qed.
Lemma nth_seq : forall n a j, (j < n)%nat -> nth_error (seq a n) j = Some (a + j)%nat.
Proof.
  induction n as [|n IH]; intros a j H; [lia|]. destruct j; cbn [seq nth_error]; [f_equal; lia|].
  rewrite IH by lia. f_equal; lia.
Qed.
Lemma nth_seq_none : forall n a j, (n <= j)%nat -> nth_error (seq a n) j = None.
Proof. intros n a j H. apply nth_error_None. rewrite seq_length. exact H. Qed.
Lemma nth_number : forall A (l : list A) i, nth_error (number l) i = match nth_error l i with Some x => Some (Z.of_nat i, x) | None => None end.
Proof.
  intros A l i. unfold number. rewrite nth_combine, nth_error_map. destruct (nth_error l i) as [x|] eqn:E.
  - rewrite nth_seq by exact (nth_some_lt _ _ _ _ E). reflexivity.
  - destruct (option_map _ _); reflexivity.
Qed.
Lemma number_length : forall A (l : list A), length (number l) = length l.
Proof. intros A l. unfold number. rewrite combine_length, map_length, seq_length. lia. Qed.
Lemma in_number : forall A (l : list A) i x, In (i, x) (number l) <-> zget l i = Some x.
Proof.
  intros A l i x. split.
  - intros H. apply In_nth_error in H. destruct H as (k & H). rewrite nth_number in H. destruct (nth_error l k) as [y|] eqn:E; [|discriminate].
    assert (Z.of_nat k = i) by congruence. subst i. rewrite zget_of_nat. congruence.
  - intros H. assert (L := zget_ge _ _ _ _ H). rewrite zget_nat in H by lia. apply (nth_error_In _ (Z.to_nat i)). rewrite nth_number, H. rewrite Z2Nat.id by lia. reflexivity.
Qed.
Lemma in_numbered : forall b q n, In (q, n) (numbered b) <-> zget (b_patches b) (n - b_before b) = Some q.
Proof.
  intros b q n. unfold numbered. split.
  - intros H. apply In_nth_error in H. destruct H as (k & H). rewrite nth_combine, nth_error_map in H.
    destruct (nth_error (b_patches b) k) as [y|] eqn:E; [|discriminate]. rewrite nth_seq in H by exact (nth_some_lt _ _ _ _ E). cbn in H.
    assert (n = b_before b + Z.of_nat k) by congruence. subst n. replace (b_before b + Z.of_nat k - b_before b) with (Z.of_nat k) by lia. rewrite zget_of_nat. congruence.
  - intros H. assert (L := zget_ge _ _ _ _ H). rewrite zget_nat in H by lia. apply (nth_error_In _ (Z.to_nat (n - b_before b))).
    rewrite nth_combine, nth_error_map, H, nth_seq by lia. cbn. f_equal. f_equal. lia.
Qed.
Lemma mapM_ok : forall A B (f : A -> option B) (g : A -> B) l, (forall x, In x l -> f x = Some (g x)) -> mapM f l = Some (map g l).
Proof.
  induction l as [|x l IH]; intros H; [reflexivity|]. cbn. rewrite (H x (or_introl eq_refl)). cbn [bind]. rewrite IH by (intros y Y; apply H; now right). reflexivity.
Qed.
Lemma mapM_ex : forall A B (f : A -> option B) l, (forall x, In x l -> exists y, f x = Some y) ->
  exists ys, mapM f l = Some ys /\ length ys = length l /\ forall i x y, nth_error l i = Some x -> nth_error ys i = Some y -> f x = Some y.
Proof.
  induction l as [|x l IH]; intros H.
  - exists []. split; [reflexivity|]. split; [reflexivity|]. intros i x y E. destruct i; discriminate.
  - destruct (H x (or_introl eq_refl)) as (y & E). destruct IH as (ys & E2 & L & N); [intros z Z0; apply H; now right|].
    exists (y :: ys). cbn [mapM]. rewrite E. cbn [bind]. rewrite E2. split; [reflexivity|]. split; [cbn; lia|].
    intros [|i] a b X Y; cbn in X, Y; [congruence|]. exact (N i a b X Y).
Qed.
Lemma min_spec : forall l top, let r := fold_right Z.min top l in (r = top \/ In r l) /\ r <= top /\ forall x, In x l -> r <= x.
Proof.
  induction l as [|x l IH]; intros top; cbn; [split; [now left|split; [lia|contradiction]]|].
  destruct (IH top) as (A & B & C). cbv zeta in *. split; [|split].
  - destruct (Z.min_spec x (fold_right Z.min top l)) as [(_ & ->)|(_ & ->)]; [right; now left|]. destruct A as [A|A]; [now left|right; now right].
  - lia.
  - intros y [<-|Y]; [lia|]. specialize (C y Y). lia.
Qed.

Section S.
  Variable rnd : Q -> Q.
  Hypothesis R : rounding rnd.
  Variable d : dim.
  Variable nb : nat.
  Variable offs : list Z.
  Variable coords : list point.
  Hypothesis OO : offsets_ok nb offs (length coords).

  Section Proc.
    Variable blocks : list block.
    Variable forest : list (option stree).
    Hypothesis PO : process_ok d (blocks, forest).

    Lemma forest_at : forall j t, nth_error forest j = Some (Some t) -> exists b, nth_error blocks j = Some b /\ block_ok d b /\ nested d t /\ Permutation (leaves t) (numbered b).
    Proof.
      destruct PO as (B & F). cbn [fst snd] in *. clear PO. induction F as [|b o bs os S0 F IH]; intros j t H; [destruct j; discriminate|].
      inversion B; subst. destruct j as [|j].
      - cbn in H. assert (o = Some t) by congruence. subst o. exists b. cbn. cbn in S0. tauto.
      - cbn in H. exact (IH ltac:(assumption) j t H).
    Qed.
    Lemma forest_none : forall j b, nth_error blocks j = Some b -> nth_error forest j = Some None \/ nth_error forest j = None -> b_patches b = [].
    Proof.
      destruct PO as (B & F). cbn [fst snd] in *. clear PO. induction F as [|b o bs os S0 F IH]; intros j b' Hb H; [destruct j; discriminate|].
      inversion B; subst. destruct j as [|j].
      - cbn in H, Hb. destruct H as [H|H]; [|discriminate]. assert (o = None) by congruence. subst o. cbn in S0. congruence.
      - cbn in H, Hb. exact (IH ltac:(assumption) j b' Hb H).
    Qed.
    Lemma leaf_facts : forall b t l, block_ok d b -> Permutation (leaves t) (numbered b) -> In l (leaves t) ->
      0 <= snd l /\ 0 <= snd l - b_before b /\ wf_quad d (fst l) /\ zget (b_patches b) (snd l - b_before b) = Some (fst l).
    Proof.
      intros b t [q n] (B0 & W) P H. apply (Permutation_in _ P) in H. apply in_numbered in H. cbn [fst snd].
      assert (L := zget_ge _ _ _ _ H). split; [lia|]. split; [lia|]. split; [|exact H]. rewrite zget_nat in H by lia. apply nth_error_In in H. rewrite Forall_forall in W. exact (W q H).
    Qed.
    Lemma well_intro : forall tree t, (forall l, In l (leaves t) -> good blocks tree (fst l) (snd l)) -> well (good blocks) tree t.
    Proof.
      intros tree. induction t as [q n|q ch IH] using stree_rect'; intros H; [exact (H (q, n) (or_introl eq_refl))|].
      cbn [well]. split; [now left|]. apply well_in. intros t Ht. apply IH; [exact Ht|]. intros l Hl. apply H. cbn. apply in_flat_map. exists t. auto.
    Qed.
    Lemma well_forest : well_all (good blocks) 0 forest.
    Proof.
      assert (X : forall f tree, (forall j t, nth_error f j = Some (Some t) -> well (good blocks) (tree + Z.of_nat j) t) -> well_all (good blocks) tree f).
      { induction f as [|[t|] f IH]; intros tree H; [exact Logic.I| |].
        - cbn [well_all]. split; [replace tree with (tree + Z.of_nat 0) by lia; apply H; reflexivity|]. apply IH. intros j t' Hj. replace (tree + 1 + Z.of_nat j) with (tree + Z.of_nat (S j)) by lia. apply H. exact Hj.
        - cbn [well_all]. apply IH. intros j t' Hj. replace (tree + 1 + Z.of_nat j) with (tree + Z.of_nat (S j)) by lia. apply H. exact Hj. }
      apply X. intros j t H. destruct (forest_at j t H) as (b & Hb & BO & N & P). apply well_intro. intros l Hl.
      destruct (leaf_facts b t l BO P Hl) as (A & _ & _ & D). right. split; [exact A|]. exists b. rewrite Z.add_0_l, zget_of_nat. auto.
    Qed.

    Lemma visit_miss : forall tree e t s, fst e <> tree -> visit Z (Z * Z) (m rnd d coords) (uu rnd d blocks coords) tree e t s = s.
    Proof.
      intros tree e t s H. assert (M : forall q n, m rnd d coords tree q n e = false) by (intros q n; unfold m; destruct (Z.eqb_spec (fst e) tree); [contradiction|reflexivity]).
      destruct t as [q n|q ch]; cbn [visit]; [apply uu_miss; apply M|]. rewrite M. apply uu_branch.
    Qed.
    Lemma visit_all_at : forall f tree j ip s, tree <= j ->
      visit_all Z (Z * Z) (m rnd d coords) (uu rnd d blocks coords) tree f (j, ip) s =
      match nth_error f (Z.to_nat (j - tree)) with Some (Some t) => visit Z (Z * Z) (m rnd d coords) (uu rnd d blocks coords) j (j, ip) t s | _ => s end.
    Proof.
      assert (MISS : forall f tree j ip s, j < tree -> visit_all Z (Z * Z) (m rnd d coords) (uu rnd d blocks coords) tree f (j, ip) s = s).
      { induction f as [|[t|] f IH]; intros tree j ip s H; cbn [visit_all]; [reflexivity| |apply IH; lia]. rewrite visit_miss by (cbn; lia). apply IH. lia. }
      induction f as [|o f IH]; intros tree j ip s H.
      - destruct (Z.to_nat (j - tree)); reflexivity.
      - destruct (Z.eq_dec j tree) as [->|N].
        + rewrite Z.sub_diag. cbn [Z.to_nat nth_error]. destruct o as [t|]; cbn [visit_all]; apply MISS; lia.
        + replace (Z.to_nat (j - tree)) with (S (Z.to_nat (j - (tree + 1)))) by lia. cbn [nth_error].
          destruct o as [t|]; cbn [visit_all].
          * rewrite visit_miss by (cbn; lia). apply IH. lia.
          * apply IH. lia.
    Qed.

    Hypothesis LB : length blocks = nb.
    Lemma local_ok : exists res, search_before rnd d blocks forest offs coords = Some res /\ length res = length coords /\
      forall jb ip pt, (jb < nb)%nat -> nth jb offs 0 <= Z.of_nat ip < nth (S jb) offs 0 -> nth_error coords ip = Some pt ->
        exists r, nth_error res ip = Some r /\
          ((r = -1 /\ forall i, ~ has d (blocks, forest) jb pt i) \/
           (0 <= r /\ has d (blocks, forest) jb pt r /\ forall i, has d (blocks, forest) jb pt i -> r <= i)).
    Proof.
      destruct OO as (O1 & O2 & O3 & O4). unfold search_before. rewrite LB, O1, Nat.eqb_refl. cbn [check].
      destruct offs as [|o0 ofs] eqn:EO; [discriminate|]. cbn in O2. subst o0. cbn [zget Z.ltb Z.compare Z.to_nat nth_error bind Z.eqb check].
      assert (LF : length ofs = nb) by (cbn in O1; lia).
      assert (GN : zget (0 :: ofs) (Z.of_nat nb) = Some (Z.of_nat (length coords))).
      { rewrite zget_of_nat. rewrite <- O3. apply nth_error_nth'. cbn. lia. }
      rewrite GN. cbn [bind]. rewrite Z.eqb_refl. cbn [check tl].
      destruct (make_points_ok ofs 0 0 ltac:(lia)) as (pts & E & _ & SN & IP).
      { rewrite LF. exact O4. }
      rewrite E. cbn [bind]. rewrite LF, O3 in *. rewrite Z.eqb_refl. cbn [check].
      assert (ND : NoDup (map idx pts)).
      { unfold idx. rewrite <- (map_map snd Z.to_nat), SN. apply range_nodup. }
      assert (OKP : forall e, In e pts -> ok blocks coords e (-1) /\ (idx e < length coords)%nat).
      { intros [j ip] H. assert (J0 := make_points_fst _ _ _ _ _ E _ H). cbn in J0.
        assert (RI : In ip (map snd pts)) by (apply (in_map snd) in H; exact H). rewrite SN in RI. apply range_in in RI.
        replace j with (0 + Z.of_nat (Z.to_nat j)) in H by lia. apply IP in H. unfold idx. cbn [snd]. split; [|lia].
        split; [cbn; lia|]. split.
        - cbn [snd]. rewrite zget_nat by lia. destruct (nth_error coords (Z.to_nat ip)) as [pt|] eqn:EP; [now exists pt|]. apply nth_error_None in EP. lia.
        - cbn [fst]. destruct (nth_error blocks (Z.to_nat j)) as [b|] eqn:EB; [|apply nth_error_None in EB; lia].
          exists b. left. split; [rewrite zget_nat by lia; exact EB|lia]. }
      destruct (search_local_ok Z (Z * Z) (search_point_fn rnd d blocks coords) idx (m rnd d coords) (uu rnd d blocks coords) (good blocks) (ok blocks coords) (point_fn rnd d blocks coords) forest 0 pts (repeat (-1) (length coords)) well_forest ND) as (res & E2 & (R1 & R2 & _) & _).
      { intros e He. destruct (OKP e He) as (A & B). exists (-1). split; [|exact A]. rewrite nth_error_repeat by exact B. reflexivity. }
      exists res. split; [exact E2|]. split; [rewrite R1; apply repeat_length|].
      intros jb ip pt JB IPB HP.
      assert (Hin : In (0 + Z.of_nat jb, Z.of_nat ip) pts) by (apply IP; split; [exact JB|exact IPB]). rewrite Z.add_0_l in Hin.
      assert (LI := nth_some_lt _ _ _ _ HP).
      assert (RR := R2 (Z.of_nat jb, Z.of_nat ip) (-1) Hin). unfold idx in RR. cbn [snd] in RR. rewrite Nat2Z.id in RR.
      rewrite nth_error_repeat in RR by exact LI. specialize (RR eq_refl). eexists. split; [exact RR|].
      rewrite visit_all_at by lia. rewrite Z.sub_0_r, Nat2Z.id.
      destruct (nth_error blocks jb) as [b|] eqn:EB; [|apply nth_error_None in EB; lia].
      destruct (nth_error forest jb) as [[t|]|] eqn:EF.
      - destruct (forest_at jb t EF) as (b' & Hb' & BO & N & P). assert (b' = b) by congruence. subst b'.
        rewrite (visit_leaves rnd R d blocks coords) by (first [exact N | intros l Hl; exact (proj1 (proj2 (proj2 (leaf_facts b t l BO P Hl))))]).
        assert (BF : before blocks (Z.of_nat jb) = b_before b) by (unfold before; rewrite zget_of_nat, EB; reflexivity).
        assert (HH : forall i, hit rnd d blocks coords (Z.of_nat jb) (Z.of_nat jb, Z.of_nat ip) (leaves t) i <-> has d (blocks, forest) jb pt i).
        { intros i. unfold hit, has. cbn [fst]. rewrite BF. split.
          - intros (q & n & H1 & H2 & H3). exists b, q. split; [exact EB|]. destruct (leaf_facts b t _ BO P H1) as (_ & _ & W & D). cbn [fst snd] in *. rewrite H3. split; [exact D|].
            unfold m in H2. cbn [fst snd] in H2. rewrite Z.eqb_refl, zget_of_nat, HP in H2. cbn [andb] in H2. apply inb_contains in H2; assumption.
          - intros (b' & q & H1 & H2 & H3). assert (b' = b) by congruence. subst b'. exists q, (b_before b + i).
            assert (H4 : In (q, b_before b + i) (leaves t)). { apply (Permutation_in _ (Permutation_sym P)). apply in_numbered. replace (b_before b + i - b_before b) with i by lia. exact H2. }
            split; [exact H4|]. split; [|lia]. unfold m. cbn [fst snd]. rewrite Z.eqb_refl, zget_of_nat, HP. cbn [andb].
            apply inb_contains; [exact R|exact (proj1 (proj2 (proj2 (leaf_facts b t _ BO P H4))))|exact H3]. }
        destruct (fold_min rnd d blocks coords (Z.of_nat jb) (Z.of_nat jb, Z.of_nat ip) (leaves t) (-1)) as [(A & _ & C)|(A & B & _ & D)].
        + intros l Hl. rewrite BF. destruct (leaf_facts b t l BO P Hl) as (X & Y & _). auto.
        + lia.
        + left. split; [exact A|]. intros i Hi. apply (C i). apply HH. exact Hi.
        + right. split; [exact A|]. split; [destruct B as [B|B]; [lia|apply HH; exact B]|]. intros i Hi. apply D. apply HH. exact Hi.
      - left. split; [reflexivity|]. intros i (b' & q & H1 & H2 & _). cbn [fst] in H1. assert (b' = b) by congruence. subst b'.
        rewrite (forest_none jb b EB (or_introl EF)) in H2. apply zget_ge in H2. cbn in H2. lia.
      - left. split; [reflexivity|]. intros i (b' & q & H1 & H2 & _). cbn [fst] in H1. assert (b' = b) by congruence. subst b'.
        rewrite (forest_none jb b EB (or_intror EF)) in H2. apply zget_ge in H2. cbn in H2. lia.
    Qed.
  End Proc.

  Variable procs : list (list block * list (option stree)).
  Hypothesis PO : Forall (process_ok d) procs.
  Hypothesis LB : Forall (fun pr => length (fst pr) = nb) procs.

  Lemma search_points_ok : exists res, search_points rnd d procs offs coords = Some res /\ length res = length procs /\
    forall p pr jb ip pt, nth_error procs p = Some pr -> (jb < nb)%nat -> nth jb offs 0 <= Z.of_nat ip < nth (S jb) offs 0 -> nth_error coords ip = Some pt ->
      exists l r, nth_error res p = Some l /\ nth_error l ip = Some r /\
        ((lowest d procs p jb pt /\ has d pr jb pt r /\ forall i, has d pr jb pt i -> r <= i) \/ (~ lowest d procs p jb pt /\ r = -1)).
  Proof.
    rewrite Forall_forall in PO, LB. unfold search_points.
    destruct (mapM_ex _ _ (fun '(b, f) => search_before rnd d b f offs coords) procs) as (res & E & L & N).
    { intros [b f] H. destruct (local_ok b f (PO _ H) (LB _ H)) as (r & Er & _). now exists r. }
    rewrite E. cbn [bind]. eexists. split; [reflexivity|]. split; [rewrite map_length, number_length; exact L|].
    intros p pr jb ip pt HP JB IPB HC.
    assert (LC : forall p' pr', nth_error procs p' = Some pr' -> exists r' x, nth_error res p' = Some r' /\ nth_error r' ip = Some x /\
      ((x = -1 /\ forall i, ~ has d pr' jb pt i) \/ (0 <= x /\ has d pr' jb pt x /\ forall i, has d pr' jb pt i -> x <= i))).
    { intros p' [b f] H. assert (IN := nth_error_In _ _ H). destruct (local_ok b f (PO _ IN) (LB _ IN)) as (r' & Er & _ & X).
      destruct (nth_error res p') as [r1|] eqn:E1; [|apply nth_error_None in E1; apply nth_some_lt in H; lia].
      assert (Y := N p' (b, f) r1 H E1). cbn in Y. assert (r1 = r') by congruence. subst r1. destruct (X jb ip pt JB IPB HC) as (x & Hx & Z'). exists r', x. auto. }
    destruct (LC p pr HP) as (rl & x & Hrl & Hx & SP).
    rewrite nth_error_map, nth_number, Hrl. cbn [option_map].
    set (size := Z.of_nat (length procs)).
    set (founds := map (fun '(rank, r) => map (found size rank) r) (number res)).
    eexists _, _. split; [reflexivity|].
    rewrite nth_error_map, nth_combine, nth_error_map, (nth_seq _ _ _ (nth_some_lt _ _ _ _ HC)), Hx. cbn [option_map]. rewrite Nat.add_0_l. split; [reflexivity|].
    set (fl := map (fun f => nth ip f size) founds).
    assert (FL : forall p' pr' r' x', nth_error procs p' = Some pr' -> nth_error res p' = Some r' -> nth_error r' ip = Some x' -> nth_error fl p' = Some (found size (Z.of_nat p') x')).
    { intros p' pr' r' x' H1 H2 H3. unfold fl, founds. rewrite !nth_error_map, nth_number, H2. cbn [option_map]. f_equal.
      apply nth_error_nth. rewrite nth_error_map, H3. reflexivity. }
    assert (LL : length fl = length procs) by (unfold fl, founds; rewrite !map_length, number_length; exact L).
    destruct (min_spec fl size) as (M1 & M2 & M3). fold (allreduce_min fl size) in M1, M2, M3. set (mn := allreduce_min fl size) in *.
    assert (LP := nth_some_lt _ _ _ _ HP).
    assert (CH : mn = size \/ exists p' pr' x', mn = Z.of_nat p' /\ nth_error procs p' = Some pr' /\ 0 <= x' /\ has d pr' jb pt x').
    { destruct M1 as [M1|M1]; [now left|]. apply In_nth_error in M1. destruct M1 as (p' & M1). assert (LP' := nth_some_lt _ _ _ _ M1).
      destruct (nth_error procs p') as [pr'|] eqn:E1; [|apply nth_error_None in E1; lia].
      destruct (LC p' pr' E1) as (r' & x' & A & B & C). rewrite (FL p' pr' r' x' E1 A B) in M1. unfold found in M1.
      destruct C as [(C & _)|(C & D & _)]; [left; subst x'; cbn in M1; congruence|]. right. exists p', pr', x'. destruct (Z.ltb_spec x' 0); [lia|].
      split; [congruence|]. auto. }
    assert (LE : forall p' pr' i, nth_error procs p' = Some pr' -> has d pr' jb pt i -> mn <= Z.of_nat p').
    { intros p' pr' i H1 H2. destruct (LC p' pr' H1) as (r' & x' & A & B & C). destruct C as [(_ & C)|(C & _)]; [exfalso; exact (C i H2)|].
      assert (F := FL p' pr' r' x' H1 A B). unfold found in F. destruct (Z.ltb_spec x' 0); [lia|]. apply M3. eapply nth_error_In. exact F. }
    unfold keep. destruct (Z.eqb_spec mn (Z.of_nat p)) as [EQ|NE].
    - left. assert (HX : 0 <= x /\ has d pr jb pt x /\ forall i, has d pr jb pt i -> x <= i).
      { destruct SP as [(X1 & X2)|X]; [|exact X]. exfalso. destruct CH as [C|(p' & pr' & x' & C1 & C2 & C3 & C4)]; [unfold size in C; lia|].
        assert (p' = p) by lia. subst p'. assert (pr' = pr) by congruence. subst pr'. exact (X2 x' C4). }
      destruct HX as (X1 & X2 & X3). split; [|split; [exact X2|exact X3]]. split; [exists pr, x; auto|].
      intros p' pr' i H1 H2 H3. assert (Y := LE p' pr' i H2 H3). lia.
    - right. split; [|reflexivity]. intros ((pr' & i & H1 & H2) & H3). assert (pr' = pr) by congruence. subst pr'.
      assert (Y := LE p pr i HP H2). destruct CH as [C|(p' & pr' & x' & C1 & C2 & C3 & C4)]; [unfold size in C; lia|].
      apply (H3 p' pr' x'); [lia|exact C2|exact C4].
  Qed.
End S.
