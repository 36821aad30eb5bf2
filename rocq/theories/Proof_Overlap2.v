From Coq Require Import ZArith List Bool Lia Permutation Arith Sorted.
From Verif Require Import Model_Face Model_Domain Spec_Domain Model_Search Spec_Search Proof_Search Proof_Search2 Proof_Search3 Proof_Search4 Model_Overlap Spec_Overlap Proof_Overlap1.
Import ListNotations.
Open Scope Z_scope.

Lemma split_last_none : forall A (l : list A), split_last l = None -> l = [].
Proof. intros A [|x l] H; [reflexivity|]. cbn in H. destruct (split_last l) as [[l' y]|]; discriminate. Qed.
Lemma split_last_snoc : forall A (l : list A) x, split_last (l ++ [x]) = Some (l, x).
Proof. induction l as [|y l IH]; intros x; [reflexivity|]. cbn [app split_last]. rewrite IH. reflexivity. Qed.
Lemma snoc_case : forall A (l : list A), l = [] \/ exists l' x, l = l' ++ [x].
Proof. intros A l. destruct l as [|y l] using rev_ind; [now left|right; eauto]. Qed.
Lemma Forall2_snoc : forall A B (P : A -> B -> Prop) l l' x, Forall2 P l (l' ++ [x]) -> exists k y, l = k ++ [y] /\ Forall2 P k l' /\ P y x.
Proof.
  intros A B P l l' x H. apply Forall2_app_inv_r in H. destruct H as (k & k' & H1 & H2 & ->). inversion H2 as [|y ? k2 ? H3 H4]; subst. inversion H4; subst. eauto.
Qed.
Lemma Forall2_len : forall A B (P : A -> B -> Prop) l l', Forall2 P l l' -> length l = length l'.
Proof. intros A B P l l' H. induction H; cbn; congruence. Qed.
Lemma nth_upd_same : forall A (l : list A) i v x, (i < length l)%nat -> nth i (upd l i v) x = v.
Proof. intros A l i v x H. apply nth_error_nth. apply upd_same. exact H. Qed.
Lemma nth_upd_other : forall A (l : list A) i j v x, i <> j -> nth j (upd l i v) x = nth j l x.
Proof.
  intros A l i j v x H. destruct (nth_error l j) as [y|] eqn:E.
  - rewrite (nth_error_nth _ _ x E). apply nth_error_nth. rewrite upd_other by exact H. exact E.
  - apply nth_error_None in E. rewrite !nth_overflow; [reflexivity|exact E|rewrite upd_length; exact E].
Qed.
Lemma SSorted_snoc : forall l x, StronglySorted Z.lt l -> (forall y, In y l -> y < x) -> StronglySorted Z.lt (l ++ [x]).
Proof.
  induction l as [|z l IH]; intros x H K; [constructor; [constructor|constructor]|]. inversion H as [|? ? H1 H2]; subst. cbn [app]. constructor.
  - apply IH; [exact H1|]. intros y Y. apply K. now right.
  - rewrite Forall_forall in *. intros y Y. apply in_app_or in Y. destruct Y as [Y|[<-|[]]]; [now apply H2|]. apply K. now left.
Qed.
Lemma SSorted_app : forall l l', StronglySorted Z.le (l ++ l') -> StronglySorted Z.le l /\ StronglySorted Z.le l' /\ (forall x y, In x l -> In y l' -> x <= y).
Proof.
  induction l as [|z l IH]; intros l' H; [split; [constructor|split; [exact H|contradiction]]|]. cbn [app] in H. inversion H as [|? ? H1 H2]; subst.
  destruct (IH l' H1) as (A & B & C). rewrite Forall_forall in H2. split; [constructor; [exact A|]|split; [exact B|]].
  - rewrite Forall_forall. intros y Y. apply H2. apply in_or_app. now left.
  - intros x y [<-|X] Y; [apply H2; apply in_or_app; now right|apply C; assumption].
Qed.
Lemma last_max : forall l x y, StronglySorted Z.lt (l ++ [x]) -> In y (l ++ [x]) -> y <= x.
Proof.
  induction l as [|z l IH]; intros x y H Y; [destruct Y as [<-|[]]; lia|]. cbn [app] in *. inversion H as [|? ? H1 H2]; subst. rewrite Forall_forall in H2.
  destruct Y as [<-|Y]; [|apply IH; assumption]. assert (z < x); [|lia]. apply H2. apply in_or_app. right. now left.
Qed.

Section Partition.
  Variable V : Type.
  Variable interpolate : site -> quad -> Z -> Z -> V -> bool * V.
  Variable size : Z.
  Hypothesis U1 : forall s q jb v, snd (interpolate s q jb (-1) v) = v.
  Variable vs : list V.
  Notation n := (length vs).

  Definition mk (c : consumer V) (i : nat) : Z := nth i (marks V c) (-1).
  Definition ranks (c : consumer V) : list Z := map fst (qidx V c).
  Record inv (c : consumer V) : Prop := {
    i_points : points V c = vs;
    i_len : length (marks V c) = n;
    i_bufs : Forall2 (fun (sb : Z * list V) (qi : Z * list nat) => fst sb = fst qi /\ snd qi <> [] /\ Forall2 (fun v i => nth_error vs i = Some v) (snd sb) (snd qi)) (sendb V c) (qidx V c);
    i_sorted : StronglySorted Z.lt (ranks c);
    i_range : forall r, In r (ranks c) -> 0 <= r < size;
    i_marks : forall i r, 0 <= r -> (mk c i = r <-> exists ids, In (r, ids) (qidx V c) /\ In i ids);
    i_low : forall i, -1 <= mk c i;
    i_nodup : forall r ids, In (r, ids) (qidx V c) -> NoDup ids }.

  Lemma add_ok : forall c i r, inv c -> (i < n)%nat -> mk c i = -1 -> 0 <= r < size -> (forall r', In r' (ranks c) -> r' <= r) ->
    exists c', overlap_consumer_add V size c i r = Some c' /\ inv c' /\ marks V c' = upd (marks V c) i r /\ (forall r', In r' (ranks c') -> In r' (ranks c) \/ r' = r).
  Proof.
    intros c i r Hc Hi HM R HR. destruct Hc as [H1 H2 H3 H4 H5 H6 H7 H8].
    unfold overlap_consumer_add. assert (((0 <=? r) && (r <? size)) = true) as -> by lia. cbn [check].
    rewrite H1. destruct (nth_error vs i) as [v|] eqn:Ev; [|apply nth_error_None in Ev; lia]. cbn [bind].
    rewrite put_upd by lia. cbn [bind].
    assert (NI : forall r' ids, In (r', ids) (qidx V c) -> ~ In i ids).
    { intros r' ids X Y. assert (0 <= r') by (apply H5; apply in_map_iff; exists (r', ids); auto). assert (mk c i = r') by (apply H6; eauto). lia. }
    assert (MK : forall j c', marks V c' = upd (marks V c) i r -> mk c' j = if Nat.eqb j i then r else mk c j).
    { intros j c' E. unfold mk. rewrite E. destruct (Nat.eqb_spec j i) as [->|NE]; [apply nth_upd_same; lia|apply nth_upd_other; congruence]. }
    (* a new buffer *)
    assert (NEW : (forall r', In r' (ranks c) -> r' < r) -> inv (mkCo V vs (upd (marks V c) i r) (sendb V c ++ [(r, [v])]) (qidx V c ++ [(r, [i])]))).
    { intros LT. constructor; cbn [points marks sendb qidx].
      - reflexivity.
      - now rewrite upd_length.
      - apply Forall2_app; [exact H3|]. constructor; [|constructor]. cbn [fst snd]. split; [reflexivity|]. split; [discriminate|]. constructor; [exact Ev|constructor].
      - unfold ranks. cbn [qidx]. rewrite map_app. cbn [map fst]. apply SSorted_snoc; [exact H4|exact LT].
      - unfold ranks. cbn [qidx]. rewrite map_app. intros r' X. apply in_app_or in X. destruct X as [X|[<-|[]]]; [now apply H5|exact R].
      - intros j r' R'. rewrite (MK j) by reflexivity. destruct (Nat.eqb_spec j i) as [->|NE].
        + split.
          * intros <-. exists [i]. split; [apply in_or_app; right; now left|now left].
          * intros (ids & X & Y). apply in_app_or in X. destruct X as [X|[X|[]]]; [exfalso; exact (NI _ _ X Y)|congruence].
        + rewrite (H6 j r' R'). split.
          * intros (ids & X & Y). exists ids. split; [apply in_or_app; now left|exact Y].
          * intros (ids & X & Y). apply in_app_or in X. destruct X as [X|[X|[]]]; [eauto|]. exfalso. assert (ids = [i]) by congruence. subst ids. destruct Y as [Y|[]]. congruence.
      - intros j. rewrite (MK j) by reflexivity. destruct (Nat.eqb j i); [lia|apply H7].
      - intros r' ids X. apply in_app_or in X. destruct X as [X|[X|[]]]; [exact (H8 _ _ X)|]. assert (ids = [i]) by congruence. subst ids. constructor; [intros []|constructor]. }
    destruct (snoc_case _ (qidx V c)) as [E|(is & [qr oqs] & E)].
    - rewrite E in H3. inversion H3 as [EB|]; subst. cbn [split_last].
      eexists. split; [reflexivity|]. split; [|split; [reflexivity|]].
      + rewrite <- EB in NEW. apply NEW. unfold ranks. rewrite E. contradiction.
      + unfold ranks. cbn [qidx]. rewrite E. cbn [app map fst]. intros r' [<-|[]]. now right.
    - assert (H3' := H3). rewrite E in H3'. apply Forall2_snoc in H3'. destruct H3' as (bs & [sr ops] & EB & FB & (X1 & X2 & X3)). cbn [fst snd] in *. subst sr.
      rewrite EB, split_last_snoc, E, split_last_snoc. cbn [bind]. rewrite Z.eqb_refl. cbn [check].
      assert (QR : qr <= r). { apply HR. unfold ranks. rewrite E, map_app. apply in_or_app. right. now left. }
      assert ((qr <=? r) = true) as -> by lia. cbn [check]. rewrite (Forall2_len _ _ _ _ _ X3), Nat.eqb_refl. cbn [check].
      assert (0 < length oqs)%nat by (destruct oqs; [congruence|cbn; lia]). assert (Nat.ltb 0 (length oqs) = true) as -> by (apply Nat.ltb_lt; lia). cbn [check].
      destruct (Z.ltb_spec qr r) as [LT|GE].
      + eexists. split; [reflexivity|]. split; [|split; [reflexivity|]].
        * rewrite <- E, <- EB. apply NEW. intros r' X. assert (r' <= qr); [|lia]. unfold ranks in *. rewrite E, map_app in X, H4. cbn [map fst] in *. exact (last_max _ _ _ H4 X).
        * unfold ranks. cbn [qidx]. rewrite E, !map_app. cbn [map fst]. intros r' X. apply in_app_or in X. destruct X as [X|[<-|[]]]; [now left|now right].
      + assert (qr = r) by lia. subst qr. eexists. split; [reflexivity|]. 
        assert (EI : forall r' ids, In (r', ids) (is ++ [(r, oqs ++ [i])]) -> (In (r', ids) (qidx V c) /\ In (r', ids) is) \/ (r' = r /\ ids = oqs ++ [i])).
        { intros r' ids X. apply in_app_or in X. destruct X as [X|[X|[]]]; [left; split; [rewrite E; apply in_or_app; now left|exact X]|right]. split; congruence. }
        assert (OQ : In (r, oqs) (qidx V c)) by (rewrite E; apply in_or_app; right; now left).
        split; [|split; [reflexivity|]].
        * constructor; cbn [points marks sendb qidx].
          -- reflexivity.
          -- now rewrite upd_length.
          -- apply Forall2_app; [exact FB|]. constructor; [|constructor]. cbn [fst snd]. split; [reflexivity|]. split; [intros X; apply app_eq_nil in X; destruct X; discriminate|].
             apply Forall2_app; [exact X3|]. constructor; [exact Ev|constructor].
          -- unfold ranks in *. cbn [qidx]. rewrite E in H4. rewrite map_app in *. exact H4.
          -- unfold ranks in *. cbn [qidx]. rewrite E in H5. rewrite map_app in *. exact H5.
          -- intros j r' R'. rewrite (MK j) by reflexivity. destruct (Nat.eqb_spec j i) as [->|NE].
             ++ split.
                ** intros <-. exists (oqs ++ [i]). split; [apply in_or_app; right; now left|apply in_or_app; right; now left].
                ** intros (ids & X & Y). apply EI in X. destruct X as [(X & _)|(-> & ->)]; [exfalso; exact (NI _ _ X Y)|reflexivity].
             ++ rewrite (H6 j r' R'). split.
                ** intros (ids & X & Y). rewrite E in X. apply in_app_or in X. destruct X as [X|[X|[]]].
                   { exists ids. split; [apply in_or_app; now left|exact Y]. }
                   { assert (r' = r) by congruence. assert (ids = oqs) by congruence. subst. exists (oqs ++ [i]). split; [apply in_or_app; right; now left|apply in_or_app; now left]. }
                ** intros (ids & X & Y). apply EI in X. destruct X as [(X & _)|(-> & ->)]; [eauto|]. apply in_app_or in Y. destruct Y as [Y|[Y|[]]]; [exists oqs; auto|congruence].
          -- intros j. rewrite (MK j) by reflexivity. destruct (Nat.eqb j i); [lia|apply H7].
          -- intros r' ids X. apply EI in X. destruct X as [(X & _)|(-> & ->)]; [exact (H8 _ _ X)|].
             apply (Permutation_NoDup (l := i :: oqs)); [apply Permutation_cons_append|]. constructor; [exact (NI _ _ OQ)|exact (H8 _ _ OQ)].
        * unfold ranks. cbn [qidx]. rewrite E, !map_app. cbn [map fst]. intros r' X. now left.
  Qed.

  (** what the callback answers for a point in the partition search *)
  Definition test (tree : Z) (q : quad) (owner : Z) (i : nat) : bool :=
    match nth_error vs i with Some v => fst (interpolate (Meta owner) q tree (-1) v) | None => false end.

  Lemma points_id : forall c i v, points V c = vs -> nth_error vs i = Some v -> put (points V c) i v = Some vs.
  Proof. intros c i v E H. rewrite E, put_upd by exact (nth_some_lt _ _ _ _ H). now rewrite upd_id. Qed.

  Lemma fn_ok : forall tree q owner i c, inv c -> (i < n)%nat -> (owner = -1 \/ 0 <= owner < size) -> (0 <= owner -> forall r', In r' (ranks c) -> r' <= owner) ->
    exists c', interpolate_partition_fn V interpolate size tree q owner i c = Some ((mk c i <? 0) && test tree q owner i, c') /\ inv c' /\
      (forall j, mk c' j = if Nat.eqb j i && (mk c i <? 0) && test tree q owner i && (0 <=? owner) then owner else mk c j) /\
      (forall r', In r' (ranks c') -> In r' (ranks c) \/ (r' = owner /\ 0 <= owner)).
  Proof.
    intros tree q owner i c Hc Hi HO HR. unfold interpolate_partition_fn. assert (L := i_len c Hc).
    destruct (nth_error (marks V c) i) as [m|] eqn:Em; [|apply nth_error_None in Em; lia]. cbn [bind].
    assert (MM : mk c i = m) by (apply nth_error_nth; exact Em). rewrite MM.
    destruct (Z.leb_spec 0 m) as [G|G].
    - exists c. assert ((m <? 0) = false) as -> by lia. cbn [andb]. split; [reflexivity|]. split; [exact Hc|]. split; [|auto].
      intros j. rewrite andb_false_r. reflexivity.
    - assert ((m <? 0) = true) as -> by lia. unfold test.
      assert (IP := i_points c Hc). rewrite IP. destruct (nth_error vs i) as [v|] eqn:Ev; [|apply nth_error_None in Ev; lia]. cbn [bind].
      assert (SN := U1 (Meta owner) q tree v). destruct (interpolate (Meta owner) q tree (-1) v) as [b v'] eqn:EI. cbn [fst snd] in *. subst v'.
      rewrite put_upd by exact (nth_some_lt _ _ _ _ Ev). rewrite upd_id by exact Ev. cbn [bind].
      assert (Hc0 : inv (mkCo V vs (marks V c) (sendb V c) (qidx V c))). { destruct Hc as [H1 H2 H3 H4 H5 H6 H7 H8]. constructor; auto. }
      destruct b; cbn [negb andb].
      + destruct (Z.leb_spec 0 owner) as [GO|GO].
        * destruct (add_ok (mkCo V vs (marks V c) (sendb V c) (qidx V c)) i owner Hc0 Hi) as (c' & E1 & E2 & E3 & E4).
          { unfold mk in *. cbn [marks]. assert (X := i_low c Hc i). unfold mk in X. lia. }
          { lia. }
          { exact (HR GO). }
          rewrite E1. cbn [bind]. exists c'. split; [reflexivity|]. split; [exact E2|]. split.
          -- intros j. unfold mk. rewrite E3. cbn [marks]. rewrite !andb_true_r. destruct (Nat.eqb_spec j i) as [->|NE]; [apply nth_upd_same; lia|apply nth_upd_other; congruence].
          -- intros r' X. destruct (E4 r' X) as [Y| ->]; [left; exact Y|right; auto].
        * eexists. split; [reflexivity|]. split; [exact Hc0|]. split; [|auto]. intros j. rewrite !andb_false_r. reflexivity.
      + eexists. split; [reflexivity|]. split; [exact Hc0|]. split; [|auto]. intros j. rewrite !andb_false_r. reflexivity.
  Qed.

  Definition fresh (c : consumer V) (tree : Z) (q : quad) (owner : Z) (i : nat) : bool := (mk c i <? 0) && test tree q owner i.
  Definition memb (i : nat) (l : list nat) : bool := existsb (Nat.eqb i) l.
  Lemma memb_in : forall i l, memb i l = true <-> In i l.
  Proof. intros i l. unfold memb. rewrite existsb_exists. split; [intros (x & X & Y); apply Nat.eqb_eq in Y; now subst|intros H; exists i; split; [exact H|apply Nat.eqb_refl]]. Qed.
  Lemma filter_ext_in' : forall A (f g : A -> bool) l, (forall x, In x l -> f x = g x) -> filter f l = filter g l.
  Proof. exact filter_ext_in. Qed.

  Lemma ask_part : forall tree q owner pts c, inv c -> NoDup pts -> (forall i, In i pts -> (i < n)%nat) -> (owner = -1 \/ 0 <= owner < size) ->
    (0 <= owner -> forall r', In r' (ranks c) -> r' <= owner) ->
    exists c', ask (consumer V) nat (interpolate_partition_fn V interpolate size) tree q owner pts c = Some (filter (fresh c tree q owner) pts, c') /\ inv c' /\
      (forall j, mk c' j = if memb j pts && fresh c tree q owner j && (0 <=? owner) then owner else mk c j) /\
      (forall r', In r' (ranks c') -> In r' (ranks c) \/ (r' = owner /\ 0 <= owner)).
  Proof.
    intros tree q owner pts. induction pts as [|i pts IH]; intros c Hc ND HI HO HR.
    - exists c. split; [reflexivity|]. split; [exact Hc|]. split; [reflexivity|auto].
    - inversion ND as [|? ? N1 N2]; subst. cbn [ask].
      destruct (fn_ok tree q owner i c Hc (HI i (or_introl eq_refl)) HO HR) as (c1 & E1 & I1 & M1 & R1). rewrite E1. cbn [bind].
      destruct (IH c1 I1 N2 (fun j J => HI j (or_intror J)) HO) as (c2 & E2 & I2 & M2 & R2).
      { intros G r' X. destruct (R1 r' X) as [Y|(-> & _)]; [apply HR; assumption|lia]. }
      rewrite E2. cbn [bind]. 
      assert (FE : forall j, j <> i -> fresh c1 tree q owner j = fresh c tree q owner j).
      { intros j NE. unfold fresh. rewrite M1. destruct (Nat.eqb_spec j i); [contradiction|]. reflexivity. }
      exists c2. split; [|split; [exact I2|split]].
      + f_equal. f_equal. cbn [filter]. rewrite (filter_ext_in' _ (fresh c1 tree q owner) (fresh c tree q owner) pts); [reflexivity|].
        intros j J. apply FE. intros ->. contradiction.
      + intros j. rewrite M2. cbn [memb existsb]. fold (memb j pts). destruct (Nat.eqb_spec j i) as [->|NE].
        * assert (memb i pts = false) as -> by (destruct (memb i pts) eqn:X; [apply memb_in in X; contradiction|reflexivity]). cbn [andb orb]. rewrite M1, Nat.eqb_refl. reflexivity.
        * cbn [orb]. rewrite (FE j NE). rewrite M1. destruct (Nat.eqb_spec j i); [contradiction|]. reflexivity.
      + intros r' X. destruct (R2 r' X) as [Y|Y]; [exact (R1 r' Y)|now right].
  Qed.

  (** ranks of the quadrants with one owner where a point arrives *)
  Fixpoint hits (tree : Z) (i : nat) (t : stree) : list Z :=
    match t with
    | Leaf q r => if test tree q r i then [r] else []
    | Node q ch => if test tree q (-1) i then flat_map (hits tree i) ch else []
    end.
  Lemma hits_sub : forall tree i t r, In r (hits tree i t) -> In r (map snd (leaves t)).
  Proof.
    intros tree i t. induction t as [q k|q ch IH] using stree_rect'; intros r H; cbn [hits leaves] in *.
    - destruct (test tree q k i); [|destruct H]. destruct H as [<-|[]]. now left.
    - destruct (test tree q (-1) i); [|destruct H]. apply in_flat_map in H. destruct H as (t & T & H). apply in_map_iff. destruct (proj1 (in_map_iff _ _ _) (IH t T r H)) as (l & L1 & L2).
      exists l. split; [exact L1|]. apply in_flat_map. eauto.
  Qed.
  Definition first (m : Z) (l : list Z) : Z := if 0 <=? m then m else hd m l.
  Lemma first_app : forall m l l', (forall r, In r l -> 0 <= r) -> first (first m l) l' = first m (l ++ l').
  Proof.
    intros m [|x l] l' H; unfold first at 2 3; cbn [hd app].
    - destruct (Z.leb_spec 0 m); unfold first; destruct (Z.leb_spec 0 m); try lia; reflexivity.
    - destruct (Z.leb_spec 0 m); unfold first.
      + destruct (Z.leb_spec 0 m); [reflexivity|lia].
      + assert (0 <= x) by (apply H; now left). destruct (Z.leb_spec 0 x); [reflexivity|lia].
  Qed.

  Definition good_ranks (l : list Z) (c : consumer V) : Prop :=
    StronglySorted Z.le l /\ (forall r, In r l -> 0 <= r < size) /\ (forall r r', In r (ranks c) -> In r' l -> r <= r').
  Definition moved (l : list Z) (h : nat -> list Z) (pts : list nat) (c c' : consumer V) : Prop :=
    inv c' /\ (forall j, mk c' j = if memb j pts then first (mk c j) (h j) else mk c j) /\ (forall r, In r (ranks c') -> In r (ranks c) \/ In r l).
  Lemma moved_trans : forall l1 l2 h1 h2 pts c c1 c2, good_ranks (l1 ++ l2) c -> (forall j r, In r (h1 j) -> In r l1) -> moved l1 h1 pts c c1 -> moved l2 h2 pts c1 c2 ->
    moved (l1 ++ l2) (fun j => h1 j ++ h2 j) pts c c2.
  Proof.
    intros l1 l2 h1 h2 pts c c1 c2 (_ & G & _) S (A1 & A2 & A3) (B1 & B2 & B3). split; [exact B1|]. split.
    - intros j. rewrite B2, A2. destruct (memb j pts); [|reflexivity]. apply first_app. intros r R. apply G. apply in_or_app. left. exact (S j r R).
    - intros r R. destruct (B3 r R) as [X|X]; [destruct (A3 r X) as [Y|Y]; [now left|right; apply in_or_app; now left]|right; apply in_or_app; now right].
  Qed.
  Lemma good_next : forall l1 l2 c c1, good_ranks (l1 ++ l2) c -> (forall r, In r (ranks c1) -> In r (ranks c) \/ In r l1) -> good_ranks l2 c1.
  Proof.
    intros l1 l2 c c1 (A & B & C) H. destruct (SSorted_app _ _ A) as (_ & A2 & A3). split; [exact A2|]. split; [intros r R; apply B; apply in_or_app; now right|].
    intros r r' R R'. destruct (H r R) as [X|X]; [apply C; [exact X|apply in_or_app; now right]|apply A3; assumption].
  Qed.
  Lemma good_left : forall l1 l2 c, good_ranks (l1 ++ l2) c -> good_ranks l1 c.
  Proof.
    intros l1 l2 c (A & B & C). destruct (SSorted_app _ _ A) as (A1 & _ & _). split; [exact A1|]. split; [intros r R; apply B; apply in_or_app; now left|].
    intros r r' R R'. apply C; [exact R|apply in_or_app; now left].
  Qed.

  Lemma search_part : forall t tree pts c, inv c -> NoDup pts -> (forall i, In i pts -> (i < n)%nat) -> good_ranks (map snd (leaves t)) c ->
    exists c', search (consumer V) nat (interpolate_partition_fn V interpolate size) tree t pts c = Some c' /\ moved (map snd (leaves t)) (fun j => hits tree j t) pts c c'.
  Proof.
    induction t as [q k|q ch IH] using stree_rect'; intros tree pts c Hc ND HI GR.
    - cbn [search]. destruct GR as (_ & G1 & G2). assert (K := G1 k (or_introl eq_refl)).
      destruct (ask_part tree q k pts c Hc ND HI) as (c' & E & I1 & M1 & R1); [right; exact K|intros _ r' X; exact (G2 r' k X (or_introl eq_refl))|].
      rewrite E. cbn [bind]. exists c'. split; [reflexivity|]. split; [exact I1|]. split.
      + intros j. rewrite M1. unfold fresh, first. cbn [hits]. destruct (memb j pts); [|reflexivity]. cbn [andb]. assert ((0 <=? k) = true) as -> by lia.
        destruct (Z.leb_spec 0 (mk c j)) as [G|G]; [assert ((mk c j <? 0) = false) as -> by lia; reflexivity|]. assert ((mk c j <? 0) = true) as -> by lia. cbn [andb].
        destruct (test tree q k j); reflexivity.
      + intros r R. destruct (R1 r R) as [X|(-> & _)]; [now left|right; now left].
    - cbn [search]. destruct (ask_part tree q (-1) pts c Hc ND HI (or_introl eq_refl) ltac:(lia)) as (c1 & E & I1 & M1 & R1). rewrite E. cbn [bind].
      set (act := filter (fresh c tree q (-1)) pts).
      assert (M1' : forall j, mk c1 j = mk c j). { intros j. rewrite M1. cbn [Z.leb Z.compare]. rewrite andb_false_r. reflexivity. }
      assert (NA : NoDup act) by (apply NoDup_filter; exact ND).
      assert (HA : forall i, In i act -> (i < n)%nat) by (intros i X; apply filter_In in X; apply HI; tauto).
      cbn [leaves] in GR.
      assert (C : forall ch', (forall t, In t ch' -> In t ch) -> forall c0, inv c0 -> good_ranks (map snd (flat_map leaves ch')) c0 -> exists c',
        (fix children (ch0 : list stree) (st2 : consumer V) {struct ch0} : option (consumer V) :=
          match ch0 with [] => Some st2 | t :: ch1 => bind (search (consumer V) nat (interpolate_partition_fn V interpolate size) tree t act st2) (children ch1) end) ch' c0 = Some c' /\
        moved (map snd (flat_map leaves ch')) (fun j => flat_map (hits tree j) ch') act c0 c').
      { induction ch' as [|t ch' IHc]; intros SUB c0 H0 G0.
        - exists c0. split; [reflexivity|]. split; [exact H0|]. split; [|auto]. intros j. unfold first. cbn [flat_map hd]. destruct (memb j act); [|reflexivity]. destruct (0 <=? mk c0 j); reflexivity.
        - cbn [flat_map] in *. rewrite map_app in G0.
          destruct (IH t (SUB t (or_introl eq_refl)) tree act c0 H0 NA HA (good_left _ _ _ G0)) as (c2 & E2 & MV2). rewrite E2. cbn [bind].
          assert (G2 := good_next _ _ _ c2 G0 (proj2 (proj2 MV2))).
          destruct (IHc (fun t' X => SUB t' (or_intror X)) c2 (proj1 MV2) G2) as (c3 & E3 & MV3). exists c3. split; [exact E3|]. rewrite map_app.
          apply (moved_trans _ _ (fun j => hits tree j t) (fun j => flat_map (hits tree j) ch') act c0 c2 c3 G0); [intros j r; apply hits_sub|exact MV2|exact MV3]. }
      destruct (C ch (fun t X => X) c1 I1) as (c' & E' & (I' & M' & R')).
      { apply (good_next [] _ c c1 GR). intros r R. destruct (R1 r R) as [X|(_ & X)]; [now left|lia]. }
      exists c'. split; [exact E'|]. split; [exact I'|]. split.
      + intros j. rewrite M', M1'. cbn [hits]. unfold act. destruct (memb j (filter (fresh c tree q (-1)) pts)) eqn:X.
        * apply memb_in in X. apply filter_In in X. destruct X as (X1 & X2). apply memb_in in X1. rewrite X1. unfold fresh in X2. apply andb_true_iff in X2. destruct X2 as (_ & ->). reflexivity.
        * destruct (memb j pts) eqn:Y; [|reflexivity]. unfold first. destruct (Z.leb_spec 0 (mk c j)) as [G|G]; [reflexivity|].
          destruct (test tree q (-1) j) eqn:T; [|reflexivity]. exfalso. apply memb_in in Y. assert (memb j (filter (fresh c tree q (-1)) pts) = true); [|congruence].
          apply memb_in. apply filter_In. split; [exact Y|]. unfold fresh. rewrite T. apply andb_true_iff. split; [lia|reflexivity].
      + intros r R. cbn [leaves]. destruct (R' r R) as [X|X]; [destruct (R1 r X) as [Y|(_ & Y)]; [now left|lia]|now right].
  Qed.

  Fixpoint all_hits (tree : Z) (i : nat) (f : list stree) : list Z :=
    match f with [] => [] | t :: f => hits tree i t ++ all_hits (tree + 1) i f end.
  Lemma search_parts : forall f tree pts c, inv c -> NoDup pts -> (forall i, In i pts -> (i < n)%nat) -> good_ranks (map snd (flat_map leaves f)) c ->
    exists c', search_local (consumer V) nat (interpolate_partition_fn V interpolate size) tree (map Some f) pts c = Some c' /\ moved (map snd (flat_map leaves f)) (fun j => all_hits tree j f) pts c c'.
  Proof.
    induction f as [|t f IH]; intros tree pts c Hc ND HI GR.
    - exists c. split; [reflexivity|]. split; [exact Hc|]. split; [|auto]. intros j. unfold first. cbn [all_hits hd]. destruct (memb j pts); [|reflexivity]. destruct (0 <=? mk c j); reflexivity.
    - cbn [map flat_map search_local] in *. rewrite map_app in *. destruct (search_part t tree pts c Hc ND HI (good_left _ _ _ GR)) as (c1 & E1 & MV1). rewrite E1. cbn [bind].
      destruct (IH (tree + 1) pts c1 (proj1 MV1) ND HI (good_next _ _ _ c1 GR (proj2 (proj2 MV1)))) as (c2 & E2 & MV2). exists c2. split; [exact E2|].
      apply (moved_trans _ _ (fun j => hits tree j t) (fun j => all_hits (tree + 1) j f) pts c c1 c2 GR); [intros j r; apply hits_sub|exact MV1|exact MV2].
  Qed.

  Lemma partition_search_ok : forall ptrees, StronglySorted Z.le (owners ptrees) -> Forall (fun r => 0 <= r < size) (owners ptrees) ->
    exists c, partition_search V interpolate size ptrees vs = Some c /\ inv c /\ forall i, (i < n)%nat -> mk c i = hd (-1) (all_hits 0 i ptrees).
  Proof.
    intros ptrees SO RG. unfold partition_search. rewrite Forall_forall in RG.
    assert (N0 : forall i, nth i (repeat (-1) n) (-1) = -1).
    { intros i. destruct (nth_in_or_default i (repeat (-1) n) (-1)) as [X|X]; [exact (repeat_spec _ _ _ X)|exact X]. }
    destruct (search_parts ptrees 0 (seq 0 n) (mkCo V vs (repeat (-1) n) [] [])) as (c & E & (Hc & M & _)).
    - constructor; cbn [points marks sendb qidx].
      + reflexivity.
      + apply repeat_length.
      + constructor.
      + constructor.
      + intros r [].
      + intros i r R. unfold mk. cbn [marks]. rewrite N0. split; [lia|]. intros (ids & [] & _).
      + intros i. unfold mk. cbn [marks]. rewrite N0. lia.
      + intros r ids [].
    - apply seq_NoDup.
    - intros i H. apply in_seq in H. lia.
    - split; [exact SO|]. split; [exact RG|]. intros r r' [].
    - exists c. split; [exact E|]. split; [exact Hc|]. intros i Hi. rewrite M.
      assert (memb i (seq 0 n) = true) as -> by (apply memb_in; apply in_seq; lia). unfold mk, first. cbn [marks]. rewrite N0. reflexivity.
  Qed.
End Partition.
