From Coq Require Import ZArith List Bool Lia Permutation Arith Sorted.
From Verif Require Import Model_Face Model_Domain Spec_Domain Model_Search Spec_Search Proof_Search Proof_Search2 Proof_Search3 Proof_Search4 Model_Overlap Spec_Overlap Proof_Overlap1 Proof_Overlap2 Proof_Overlap3.
Import ListNotations.
Open Scope Z_scope.

Lemma SSorted_NoDup : forall l, StronglySorted Z.lt l -> NoDup l.
Proof.
  induction l as [|x l IH]; intros H; [constructor|]. inversion H as [|? ? H1 H2]; subst. constructor; [|auto].
  intros X. rewrite Forall_forall in H2. specialize (H2 _ X). lia.
Qed.
Lemma nodup_flat : forall (f : nat -> list Z) ss, NoDup ss -> (forall s, NoDup (f s)) -> (forall s x, In x (f s) -> x = Z.of_nat s) -> NoDup (flat_map f ss).
Proof.
  intros f ss ND F1 F2. induction ss as [|s ss IH]; [constructor|]. inversion ND as [|? ? N1 N2]; subst. cbn [flat_map]. specialize (IH N2).
  assert (D : forall x, In x (f s) -> ~ In x (flat_map f ss)).
  { intros x X Y. apply in_flat_map in Y. destruct Y as (s' & Y1 & Y2). apply F2 in X. apply F2 in Y2. assert (s = s') by lia. congruence. }
  specialize (F1 s). clear - F1 IH D. induction (f s) as [|x l IHl]; [exact IH|]. cbn [app]. inversion F1; subst. constructor.
  - intros X. apply in_app_or in X. destruct X as [X|X]; [contradiction|]. exact (D x (or_introl eq_refl) X).
  - apply IHl; [assumption|]. intros y Y. apply D. now right.
Qed.
Lemma nodup_inj : forall A (key : A -> Z) l x y, NoDup (map key l) -> In x l -> In y l -> key x = key y -> x = y.
Proof.
  intros A key. induction l as [|z l IH]; intros x y ND X Y E; [destruct X|]. cbn [map] in ND. inversion ND as [|? ? N1 N2]; subst.
  destruct X as [->|X], Y as [->|Y]; [reflexivity| | |apply IH; assumption]; exfalso; apply N1; [rewrite E|rewrite <- E]; now apply in_map.
Qed.
Lemma filter_single : forall A (key : A -> Z) r l, NoDup (map key l) -> filter (fun x => key x =? r) l = match find (fun x => key x =? r) l with Some x => [x] | None => [] end.
Proof.
  intros A key r. induction l as [|x l IH]; intros ND; [reflexivity|]. cbn [map] in ND. inversion ND as [|? ? N1 N2]; subst. cbn [filter find].
  destruct (Z.eqb_spec (key x) r) as [E|NE]; [|apply IH; exact N2]. f_equal. rewrite IH by exact N2. destruct (find (fun x0 => key x0 =? r) l) as [y|] eqn:F; [|reflexivity].
  exfalso. apply find_some in F. destruct F as (F1 & F2). apply N1. replace (key x) with (key y) by lia. now apply in_map.
Qed.
Lemma count_le : forall l, count l <= Z.of_nat (length l).
Proof. induction l as [|b l IH]; [cbn; lia|]. rewrite count_cons. cbn [length]. destruct b; lia. Qed.

Section Protocol.
  Variable V : Type.
  Variable interpolate : site -> quad -> Z -> Z -> V -> bool * V.
  Variable machine : list (list block * list (option stree)).
  Variable ptrees : list stree.
  Notation size := (length machine).
  Notation msize := (Z.of_nat size).
  Variable query : nat -> list V.
  Variable sr : nat -> consumer V.
  Variable A : nat -> V -> V.
  Hypothesis HS : forall p, (p < size)%nat -> partition_search V interpolate msize ptrees (query p) = Some (sr p).
  Hypothesis HI : forall p, (p < size)%nat -> inv V msize (query p) (sr p).
  Hypothesis HL : forall p, (p < size)%nat -> forall ops, local_search V interpolate (Z.of_nat p) (data machine p) ops = Some (map (A p) ops).
  Notation config := (config V).
  Notation proc := (proc V).
  Notation procs := (procs V).
  Notation ph := (ph V).
  Notation chan1 := (chan1 V).
  Notation chan2 := (chan2 V).
  Notation step := (step V interpolate machine ptrees).
  Notation sendb := (sendb V).
  Notation qidx := (qidx V).
  Notation mkP := (mkP V).
  Notation mkCo := (mkCo V).

  Definition bufs_of (s : nat) := sendb (sr s).
  Definition buf (s d : nat) : option (list V) := option_map snd (find (fun sb => fst sb =? Z.of_nat d) (bufs_of s)).

  (** *** send buffers *)
  Lemma map_fst_sendb : forall s, (s < size)%nat -> map fst (bufs_of s) = ranks V (sr s).
  Proof.
    intros s L. unfold ranks, bufs_of. assert (F := i_bufs _ _ _ _ (HI s L)). induction F as [|x y l l' (E & _) F IH]; [reflexivity|]. cbn [map]. now rewrite E, IH.
  Qed.
  Lemma nodup_sendb : forall s, (s < size)%nat -> NoDup (map fst (bufs_of s)).
  Proof. intros s L. rewrite map_fst_sendb by exact L. apply SSorted_NoDup. exact (i_sorted _ _ _ _ (HI s L)). Qed.
  Lemma sendb_range : forall s r ops, (s < size)%nat -> In (r, ops) (bufs_of s) -> 0 <= r < msize.
  Proof. intros s r ops L H. apply (i_range _ _ _ _ (HI s L)). rewrite <- map_fst_sendb by exact L. apply in_map_iff. exists (r, ops). auto. Qed.
  Lemma sendb_qidx : forall s i r ops, (s < size)%nat -> nth_error (bufs_of s) i = Some (r, ops) ->
    exists ids, nth_error (qidx (sr s)) i = Some (r, ids) /\ ids <> [] /\ Forall2 (fun v j => nth_error (query s) j = Some v) ops ids.
  Proof.
    intros s i r ops L. unfold bufs_of. assert (F := i_bufs _ _ _ _ (HI s L)). revert i. induction F as [|x y l l' (E1 & E2 & E3) F IH]; intros i H; [destruct i; discriminate|].
    destruct i as [|i]; cbn [nth_error] in *; [|apply IH; exact H]. assert (x = (r, ops)) by congruence. subst x. destruct y as [r' ids]. cbn [fst snd] in *. subst r'. exists ids. auto.
  Qed.
  Lemma sendb_nonempty : forall s r ops, (s < size)%nat -> In (r, ops) (bufs_of s) -> ops <> [].
  Proof.
    intros s r ops L H. apply In_nth_error in H. destruct H as (i & H). destruct (sendb_qidx _ _ _ _ L H) as (ids & _ & N & F). intros ->. inversion F; subst. congruence.
  Qed.
  Lemma buf_in : forall s d ops, buf s d = Some ops -> In (Z.of_nat d, ops) (bufs_of s).
  Proof.
    intros s d ops H. unfold buf in H. destruct (find _ (bufs_of s)) as [[r o]|] eqn:F; [|discriminate]. cbn in H. apply find_some in F. destruct F as (F1 & F2). cbn [fst] in F2.
    assert (o = ops) by congruence. assert (r = Z.of_nat d) by lia. subst. exact F1.
  Qed.
  Lemma in_buf : forall s d ops, (s < size)%nat -> In (Z.of_nat d, ops) (bufs_of s) -> buf s d = Some ops.
  Proof.
    intros s d ops L H. unfold buf. destruct (find _ (bufs_of s)) as [x|] eqn:F.
    - apply find_some in F. destruct F as (F1 & F2). cbn [option_map]. f_equal.
      assert (x = (Z.of_nat d, ops)) as -> by (apply (nodup_inj _ fst (bufs_of s)); [now apply nodup_sendb|exact F1|exact H|cbn [fst] in *; lia]). reflexivity.
    - exfalso. assert (X := find_none _ _ F _ H). cbn [fst] in X. lia.
  Qed.
  Lemma in_sendb_nat : forall s r ops, (s < size)%nat -> In (r, ops) (bufs_of s) -> exists d, r = Z.of_nat d /\ (d < size)%nat /\ buf s d = Some ops.
  Proof.
    intros s r ops L H. assert (R := sendb_range _ _ _ L H). exists (Z.to_nat r). split; [lia|]. split; [lia|]. apply in_buf; [exact L|]. rewrite Z2Nat.id by lia. exact H.
  Qed.

  (** *** senders *)
  Definition snd_of (p s : nat) : list (Z * Z) :=
    map (fun '(_, n) => (Z.of_nat s, n)) (filter (fun '(r, _) => r =? Z.of_nat p) (map (fun sb => (fst sb, Z.of_nat (length (snd sb)))) (bufs_of s))).
  Definition snd_list (p : nat) : list (Z * Z) := flat_map (snd_of p) (seq 0 size).
  Lemma snd_list_in : forall p r n, In (r, n) (snd_list p) <-> exists s ops, (s < size)%nat /\ r = Z.of_nat s /\ buf s p = Some ops /\ n = Z.of_nat (length ops).
  Proof.
    intros p r n. unfold snd_list, snd_of. rewrite in_flat_map. split.
    - intros (s & H1 & H2). apply in_seq in H1. apply in_map_iff in H2. destruct H2 as ((r' & n') & H2 & H3). apply filter_In in H3. destruct H3 as (H3 & H4).
      apply in_map_iff in H3. destruct H3 as ((r2 & ops) & H3 & H5). cbn [fst snd] in *. exists s, ops. split; [lia|]. split; [congruence|]. split; [|congruence].
      apply in_buf; [lia|]. assert (r2 = Z.of_nat p) by (assert (r2 = r') by congruence; lia). subst r2. exact H5.
    - intros (s & ops & L & -> & B & ->). exists s. split; [apply in_seq; lia|]. apply in_map_iff. exists (Z.of_nat p, Z.of_nat (length ops)). split; [reflexivity|]. apply filter_In. split; [|lia].
      apply in_map_iff. exists (Z.of_nat p, ops). split; [reflexivity|apply buf_in; exact B].
  Qed.
  Lemma nodup_filter_map : forall s p l, NoDup (map fst l) ->
    NoDup (map fst (map (fun '(_, n) => (Z.of_nat s, n)) (filter (fun '(r, _) => r =? Z.of_nat p) (map (fun sb : Z * list V => (fst sb, Z.of_nat (length (snd sb)))) l)))).
  Proof.
    intros s p l ND. set (l' := map _ l). assert (N' : NoDup (map fst l')). { unfold l'. rewrite map_map. exact ND. }
    assert (E : filter (fun '(r, _) => r =? Z.of_nat p) l' = filter (fun x => fst x =? Z.of_nat p) l') by (apply filter_ext; intros [a b]; reflexivity).
    rewrite E, filter_single by exact N'. destruct (find _ l') as [[a b]|]; cbn; constructor; [intros []|constructor].
  Qed.
  Lemma snd_list_nodup : forall p, NoDup (map fst (snd_list p)).
  Proof.
    intros p. unfold snd_list. rewrite flat_map_concat_map, concat_map, map_map, <- flat_map_concat_map.
    assert (E : flat_map (fun x => map fst (snd_of p x)) (seq 0 size) = flat_map (fun x => if Nat.ltb x size then map fst (snd_of p x) else []) (seq 0 size)).
    { assert (forall l, (forall x, In x l -> (x < size)%nat) -> flat_map (fun x => map fst (snd_of p x)) l = flat_map (fun x => if Nat.ltb x size then map fst (snd_of p x) else []) l).
      { induction l as [|x l IH]; intros H; [reflexivity|]. cbn [flat_map]. assert (Nat.ltb x size = true) as -> by (apply Nat.ltb_lt; apply H; now left). f_equal. apply IH. intros y Y. apply H. now right. }
      apply H. intros x X. apply in_seq in X. lia. }
    rewrite E. apply nodup_flat; [apply seq_NoDup| |].
    - intros s. destruct (Nat.ltb_spec s size) as [L|L]; [|constructor]. unfold snd_of. apply nodup_filter_map. now apply nodup_sendb.
    - intros s x H. destruct (Nat.ltb s size); [|destruct H]. unfold snd_of in H. apply in_map_iff in H. destruct H as ((a & b) & <- & H). apply in_map_iff in H. destruct H as ((a' & b') & H & _). cbn [fst]. congruence.
  Qed.

  (** *** the states of a process *)
  Definition preq (p : nat) (Hp : nat -> bool) (senders : list (Z * Z)) : list bool := map (fun x => negb (fst x =? Z.of_nat p) && negb (Hp (Z.to_nat (fst x)))) senders.
  Definition creq (p : nat) (Gp : nat -> bool) : list bool := map (fun x => negb (fst x =? Z.of_nat p) && negb (Gp (Z.to_nat (fst x)))) (bufs_of p).
  Definition ip (p : nat) (senders : list (Z * Z)) : Z := index_of (Z.of_nat p) 0 (map fst senders) (-1).
  Definition ic (p : nat) : Z := index_of (Z.of_nat p) 0 (map fst (bufs_of p)) (-1).
  Definition rbufs (p : nat) (senders : list (Z * Z)) : list (Z * Z) := map (fun '(r, n) => (r, if r =? Z.of_nat p then 0 else n)) senders.
  Definition value (p : nat) (got : nat -> bool) (i : nat) (v : V) : V :=
    let r := mk V (sr p) i in if (0 <=? r) && got (Z.to_nat r) then A (Z.to_nat r) v else v.
  Definition pts_ok (p : nat) (got : nat -> bool) (pts : list V) : Prop :=
    length pts = length (query p) /\ forall i v, nth_error (query p) i = Some v -> nth_error pts i = Some (value p got i v).
  Definition co_of (p : nat) (pts : list V) : consumer V := mkCo pts (marks V (sr p)) (bufs_of p) (qidx (sr p)).
  Definition handled_all (p : nat) (Hp : nat -> bool) : Prop := forall s, (s < size)%nat -> s <> p -> buf s p <> None -> Hp s = true.
  Definition got_all (p : nat) (Gp : nat -> bool) : Prop := forall d, d <> p -> buf p d <> None -> Gp d = true.
  Definition none (f : nat -> bool) : Prop := forall x, f x = false.

  Inductive pst (p : nat) (Hp Gp : nat -> bool) : proc -> Prop :=
  | st_search : none Hp -> none Gp -> pst p Hp Gp (mkP Searching (mkCo (query p) [] [] []) (-1) (-1) [] [] 0 [] 0)
  | st_notify : none Hp -> none Gp -> pst p Hp Gp (mkP Notifying (sr p) (-1) (-1) [] [] 0 [] 0)
  | st_post : forall senders, Permutation senders (snd_list p) -> none Hp -> none Gp ->
      pst p Hp Gp (mkP Posting (sr p) (-1) (ip p senders) (rbufs p senders) (preq p Hp senders) (count (preq p Hp senders)) [] 0)
  | st_produce : forall senders, Permutation senders (snd_list p) -> none Gp ->
      pst p Hp Gp (mkP Producing (sr p) (ic p) (ip p senders) (rbufs p senders) (preq p Hp senders) (count (preq p Hp senders)) (creq p Gp) 0)
  | st_consume : forall senders pts, Permutation senders (snd_list p) -> handled_all p Hp -> Gp p = false -> pts_ok p Gp pts ->
      pst p Hp Gp (mkP Consuming (co_of p pts) (ic p) (ip p senders) (rbufs p senders) (preq p Hp senders) (count (preq p Hp senders)) (creq p Gp) (count (creq p Gp)))
  | st_late : forall f senders pts crem, f = Waiting \/ f = Updating -> Permutation senders (snd_list p) -> handled_all p Hp -> got_all p Gp -> Gp p = false -> pts_ok p Gp pts ->
      pst p Hp Gp (mkP f (co_of p pts) (ic p) (ip p senders) (rbufs p senders) (preq p Hp senders) (count (preq p Hp senders)) (creq p Gp) crem)
  | st_finished : forall senders pts crem, handled_all p Hp -> got_all p Gp -> pts_ok p (fun r => Gp r || Nat.eqb r p) pts ->
      pst p Hp Gp (mkP Finished (co_of p pts) (ic p) (ip p senders) (rbufs p senders) (preq p Hp senders) (count (preq p Hp senders)) (creq p Gp) crem).

  Definition posted (s : proc) : bool := match ph s with Searching | Notifying | Posting | Failed => false | _ => true end.

  Definition want1 (c : config) (H : nat -> nat -> bool) (s d : nat) : list (list V) :=
    if (Nat.ltb s size && posted (procs c s)) && (negb (Nat.eqb s d) && negb (H d s)) then match buf s d with Some ops => [ops] | None => [] end else [].
  Definition want2 (H G : nat -> nat -> bool) (d s : nat) : list (list V) :=
    if H d s && negb (G s d) then match buf s d with Some ops => [map (A d) ops] | None => [] end else [].

  Record Inv (H G : nat -> nat -> bool) (c : config) : Prop := {
    v_pst : forall p, (p < size)%nat -> pst p (H p) (G p) (procs c p);
    v_H : forall d s, H d s = true -> (s < size)%nat /\ s <> d /\ posted (procs c s) = true;
    v_G : forall s d, G s d = true -> H d s = true;
    v_1 : forall s d, chan1 c s d = want1 c H s d;
    v_2 : forall d s, chan2 c d s = want2 H G d s }.

  (** a step of one process that changes no message *)
  Lemma setp_same : forall f p (s : proc), setp V f p s p = s.
  Proof. intros. unfold setp. now rewrite Nat.eqb_refl. Qed.
  Lemma setp_other : forall f p (s : proc) p', p' <> p -> setp V f p s p' = f p'.
  Proof. intros. unfold setp. destruct (Nat.eqb_spec p' p); [contradiction|reflexivity]. Qed.

  Lemma local_step : forall H G c p s, (p < size)%nat -> Inv H G c -> posted s = posted (procs c p) -> pst p (H p) (G p) s ->
    Inv H G (mkC V (setp V (procs c) p s) (chan1 c) (chan2 c)).
  Proof.
    intros H G c p s L [I1 I2 I3 I4 I5] P S. assert (E : forall p', posted (setp V (procs c) p s p') = posted (procs c p')).
    { intros p'. destruct (Nat.eq_dec p' p) as [->|NE]; [now rewrite setp_same|now rewrite setp_other]. }
    constructor; cbn [Model_Overlap.procs Model_Overlap.chan1 Model_Overlap.chan2].
    - intros p' L'. destruct (Nat.eq_dec p' p) as [->|NE]; [rewrite setp_same; exact S|rewrite setp_other by exact NE; auto].
    - intros d s' X. rewrite E. auto.
    - exact I3.
    - intros s' d. rewrite I4. unfold want1. cbn [Model_Overlap.procs]. now rewrite E.
    - exact I5.
  Qed.

  Lemma pst_entered : forall p Hp Gp s, pst p Hp Gp s -> entered V s -> announced V s = map (fun sb => (fst sb, Z.of_nat (length (snd sb)))) (bufs_of p).
  Proof. intros p Hp Gp s P N. unfold announced. inversion P; subst; cbn in *; try reflexivity. contradiction. Qed.

  Lemma announces_ok : forall H G c, Inv H G c -> (forall p', (p' < size)%nat -> entered V (procs c p')) -> forall p, announces V machine c p = snd_list p.
  Proof.
    intros H G c I N p. unfold announces, snd_list, snd_of.
    assert (forall l, (forall x, In x l -> (x < size)%nat) -> flat_map (fun s => map (fun '(_, n) => (Z.of_nat s, n)) (filter (fun '(r, _) => r =? Z.of_nat p) (announced V (procs c s)))) l =
      flat_map (fun s => map (fun '(_, n) => (Z.of_nat s, n)) (filter (fun '(r, _) => r =? Z.of_nat p) (map (fun sb => (fst sb, Z.of_nat (length (snd sb)))) (bufs_of s)))) l).
    { induction l as [|x l IH]; intros X; [reflexivity|]. cbn [flat_map]. assert (L : (x < size)%nat) by (apply X; now left).
      rewrite (pst_entered x _ _ _ (v_pst _ _ _ I x L) (N x L)). f_equal. apply IH. intros y Y. apply X. now right. }
    apply H0. intros x X. apply in_seq in X. lia.
  Qed.

  Lemma preq_none : forall p Hp senders, none Hp -> preq p Hp senders = map (fun '(r, _) => negb (r =? Z.of_nat p)) senders.
  Proof. intros p Hp senders N. apply map_ext. intros [r n]. rewrite (N _). cbn [fst negb]. apply andb_true_r. Qed.
  Lemma creq_none : forall p Gp, none Gp -> creq p Gp = map (fun x => negb (fst x =? Z.of_nat p)) (bufs_of p).
  Proof. intros p Gp N. apply map_ext. intros x. rewrite (N _). cbn [negb]. apply andb_true_r. Qed.

  Lemma senders_nodup : forall p senders, Permutation senders (snd_list p) -> NoDup (map fst senders).
  Proof. intros p senders P. apply (Permutation_NoDup (l := map fst (snd_list p))); [apply Permutation_map, Permutation_sym, P|apply snd_list_nodup]. Qed.

  (** the messages of process p *)
  Lemma add_all_spec : forall s msgs f s' d, add_all V f s msgs s' d = if Nat.eqb s' s then f s' d ++ map snd (filter (fun m => Nat.eqb (Z.to_nat (fst m)) d) msgs) else f s' d.
  Proof.
    intros s. unfold add_all. induction msgs as [|m msgs IH]; intros f s' d; [cbn; destruct (Nat.eqb s' s); [now rewrite app_nil_r|reflexivity]|].
    cbn [fold_left]. rewrite IH. unfold setc. cbn [filter]. destruct (Nat.eqb_spec s' s) as [->|NE]; [|reflexivity]. cbn [andb].
    rewrite (Nat.eqb_sym (Z.to_nat (fst m)) d). destruct (Nat.eqb_spec d (Z.to_nat (fst m))) as [->|ND]; [|reflexivity]. cbn [map]. rewrite <- app_assoc. reflexivity.
  Qed.
  Lemma filter_andb : forall A (f g : A -> bool) l, filter f (filter g l) = filter (fun x => g x && f x) l.
  Proof. intros B f g. induction l as [|x l IH]; [reflexivity|]. cbn [filter]. destruct (g x); cbn [filter andb]; [destruct (f x); now rewrite IH|exact IH]. Qed.
  Lemma post_msgs : forall s d, (s < size)%nat ->
    map snd (filter (fun m => Nat.eqb (Z.to_nat (fst m)) d) (filter (fun sb => negb (fst sb =? Z.of_nat s)) (bufs_of s))) =
    if negb (Nat.eqb s d) then match buf s d with Some ops => [ops] | None => [] end else [].
  Proof.
    intros s d L. rewrite filter_andb.
    assert (E : filter (fun x => negb (fst x =? Z.of_nat s) && Nat.eqb (Z.to_nat (fst x)) d) (bufs_of s) = if negb (Nat.eqb s d) then filter (fun x => fst x =? Z.of_nat d) (bufs_of s) else []).
    { assert (R := fun r ops => sendb_range s r ops L). revert R. clear. induction (bufs_of s) as [|[r ops] l IH]; intros R; [destruct (negb _); reflexivity|]. cbn [filter fst].
      assert (RR : 0 <= r < msize) by (apply (R r ops); now left). rewrite IH by (intros r' o' X; apply (R r' o'); now right).
      destruct (Nat.eqb_spec s d) as [->|NE]; cbn [negb].
      - destruct (Z.eqb_spec r (Z.of_nat d)); cbn [negb andb]; [reflexivity|]. destruct (Nat.eqb_spec (Z.to_nat r) d); [lia|reflexivity].
      - destruct (Z.eqb_spec r (Z.of_nat s)); cbn [negb andb].
        + destruct (Z.eqb_spec r (Z.of_nat d)); [lia|reflexivity].
        + destruct (Nat.eqb_spec (Z.to_nat r) d), (Z.eqb_spec r (Z.of_nat d)); try lia; reflexivity. }
    rewrite E. destruct (negb (Nat.eqb s d)); [|reflexivity]. rewrite filter_single by now apply nodup_sendb. unfold buf. destruct (find _ _); reflexivity.
  Qed.

  Lemma inv_post : forall H G c p s' msgs, (p < size)%nat -> Inv H G c -> ph (procs c p) = Posting -> do_post V (Z.of_nat p) (procs c p) = (s', msgs) ->
    Inv H G (mkC V (setp V (procs c) p s') (add_all V (chan1 c) p msgs) (chan2 c)).
  Proof.
    intros H G c p s' msgs L I P E. assert (S := v_pst _ _ _ I p L). destruct I as [I1 I2 I3 I4 I5].
    assert (NP : posted (procs c p) = false) by (unfold posted; now rewrite P).
    inversion S as [ | |senders S1 S2 S3 SE| | | |]; subst; match goal with X : _ = procs c p |- _ => rewrite <- X in P, E end; try discriminate.
    2: { cbn in P. match goal with X : _ \/ _ |- _ => destruct X; subst; discriminate end. }
    unfold do_post in E. cbn [co sendb iconrank iprorank p_bufs p_reqs p_remaining c_remaining Model_Overlap.sendb] in E.
    assert (E1 := f_equal fst E). assert (E2 := f_equal snd E). cbn [fst snd] in E1, E2. clear E. subst msgs.
    assert (PS : posted s' = true) by (subst s'; reflexivity).
    constructor; cbn [Model_Overlap.procs Model_Overlap.chan1 Model_Overlap.chan2].
    - intros p' L'. destruct (Nat.eq_dec p' p) as [->|NE]; [rewrite setp_same|rewrite setp_other by exact NE; auto].
      subst s'. change (Model_Overlap.sendb V (sr p)) with (bufs_of p). rewrite <- (creq_none p (G p) S3). apply st_produce; assumption.
    - intros d s X. destruct (I2 d s X) as (X1 & X2 & X3). split; [exact X1|]. split; [exact X2|]. destruct (Nat.eq_dec s p) as [->|NE]; [rewrite setp_same; exact PS|rewrite setp_other by exact NE; exact X3].
    - exact I3.
    - intros s d. rewrite add_all_spec, I4. unfold want1. cbn [Model_Overlap.procs]. destruct (Nat.eqb_spec s p) as [->|NE]; [|rewrite setp_other by exact NE; reflexivity].
      rewrite setp_same, NP, PS, andb_false_r. cbn [andb app]. assert (Nat.ltb p size = true) as -> by (apply Nat.ltb_lt; exact L). cbn [andb].
      change (Model_Overlap.sendb V (sr p)) with (bufs_of p). rewrite post_msgs by exact L.
      assert (HF : H d p = false). { destruct (H d p) eqn:X; [|reflexivity]. destruct (I2 _ _ X) as (_ & _ & X3). congruence. }
      rewrite HF. cbn [negb]. now rewrite andb_true_r.
    - exact I5.
  Qed.

  Definition set2 (H : nat -> nat -> bool) (a b : nat) : nat -> nat -> bool := fun x y => (Nat.eqb x a && Nat.eqb y b) || H x y.
  Lemma set2_same : forall H a b, set2 H a b a b = true.
  Proof. intros. unfold set2. now rewrite !Nat.eqb_refl. Qed.
  Lemma set2_other : forall H a b x y, x <> a \/ y <> b -> set2 H a b x y = H x y.
  Proof. intros H a b x y N. unfold set2. destruct (Nat.eqb_spec x a), (Nat.eqb_spec y b); try reflexivity. destruct N; contradiction. Qed.

  (** a request that is still active *)
  Lemma active_sender : forall H G c p i r n senders, (p < size)%nat -> Inv H G c -> Permutation senders (snd_list p) ->
    nth_error (preq p (H p) senders) i = Some true -> nth_error (rbufs p senders) i = Some (r, n) ->
    exists s ops, (s < size)%nat /\ s <> p /\ r = Z.of_nat s /\ nth_error senders i = Some (Z.of_nat s, n) /\ buf s p = Some ops /\ n = Z.of_nat (length ops) /\ H p s = false.
  Proof.
    intros H G c p i r n senders L I P E1 E2. unfold preq in E1. unfold rbufs in E2. rewrite nth_error_map in E1, E2. destruct (nth_error senders i) as [[r' n']|] eqn:E; [|discriminate].
    cbn [option_map fst] in *. assert (r' = r) by congruence. subst r'.
    assert (IN : In (r, n') (snd_list p)) by (apply (Permutation_in _ P); exact (nth_error_In _ _ E)).
    apply snd_list_in in IN. destruct IN as (s & ops & Ls & -> & B & ->). rewrite Nat2Z.id in E1.
    destruct (Z.eqb_spec (Z.of_nat s) (Z.of_nat p)) as [X|X]; [discriminate|]. cbn [negb andb] in E1.
    exists s, ops. assert (n = Z.of_nat (length ops)) by congruence. subst n. repeat (split; [try assumption; try reflexivity; try lia|]).
    destruct (H p s); [discriminate|reflexivity].
  Qed.

  Lemma setc_spec : forall f s d l s' d', setc V f s d l s' d' = if Nat.eqb s' s && Nat.eqb d' d then l else f s' d'.
  Proof. reflexivity. Qed.

  Lemma inv_produce : forall H G c p i r n msg rest, (p < size)%nat -> Inv H G c -> ph (procs c p) = Producing -> 0 < p_remaining V (procs c p) ->
    nth_error (p_reqs V (procs c p)) i = Some true -> nth_error (p_bufs V (procs c p)) i = Some (r, n) -> chan1 c (Z.to_nat r) p = msg :: rest ->
    exists s' ops H', do_produce V interpolate (data machine p) (Z.of_nat p) i msg (procs c p) = Some (s', ops) /\ ph s' = Producing /\ p_remaining V s' = p_remaining V (procs c p) - 1 /\
      Inv H' G (mkC V (setp V (procs c) p s') (setc V (chan1 c) (Z.to_nat r) p rest) (setc V (chan2 c) p (Z.to_nat r) (chan2 c p (Z.to_nat r) ++ [ops]))).
  Proof.
    intros H G c p i r n msg rest L I P R0 E1 E2 EC. assert (S := v_pst _ _ _ I p L).
    inversion S as [ | | |senders S1 S2 SE| | |]; subst; match goal with X : _ = procs c p |- _ => rename X into EP end; rewrite <- EP in P; try discriminate.
    2: { cbn in P. match goal with X : _ \/ _ |- _ => destruct X; subst; discriminate end. }
    rewrite <- EP in E1, E2, R0. cbn [p_reqs p_bufs p_remaining] in E1, E2, R0.
    destruct (active_sender _ _ _ _ _ _ _ _ L I S1 E1 E2) as (s & ops & Ls & Ns & -> & Ei & B & -> & HF). rewrite Nat2Z.id in *.
    rewrite (v_1 _ _ _ I) in EC. unfold want1 in EC. rewrite B, HF in EC. assert (Nat.ltb s size = true) as X by (apply Nat.ltb_lt; exact Ls). rewrite X in EC. cbn [andb negb] in EC. rewrite andb_true_r in EC.
    destruct (posted (procs c s)) eqn:PS; [|discriminate]. cbn [andb] in EC. destruct (Nat.eqb_spec s p) as [?|_]; [contradiction|]. cbn [negb] in EC.
    assert (msg = ops) by congruence. assert (rest = []) by congruence. subst msg rest. clear EC.
    assert (NS := senders_nodup _ _ S1).
    unfold do_produce. cbn [p_bufs p_reqs p_remaining co iconrank iprorank c_reqs c_remaining]. rewrite E2. cbn [bind]. rewrite Z.eqb_refl. cbn [check]. rewrite (HL p L). cbn [bind].
    assert (Li : (i < length (preq p (H p) senders))%nat) by exact (nth_some_lt _ _ _ _ E1). rewrite put_upd by exact Li. cbn [bind].
    assert (EU : upd (preq p (H p) senders) i false = preq p (set2 H p s p) senders).
    { unfold preq. rewrite (clear_one _ fst _ senders i _ NS Ei). cbn [fst]. apply map_ext_in. intros [r' n'] IN. cbn [fst].
      assert (IN' : In (r', n') (snd_list p)) by (apply (Permutation_in _ S1); exact IN). apply snd_list_in in IN'. destruct IN' as (s' & _ & _ & -> & _ & _). rewrite Nat2Z.id.
      unfold set2. rewrite Nat.eqb_refl. cbn [andb]. destruct (Nat.eqb_spec s' s) as [->|NE]; [rewrite Z.eqb_refl; cbn; now rewrite !andb_false_r|].
      destruct (Z.eqb_spec (Z.of_nat s') (Z.of_nat s)); [lia|]. cbn [orb negb]. now rewrite andb_true_r. }
    eexists _, (map (A p) ops), (set2 H p s). split; [reflexivity|]. split; [reflexivity|]. split; [reflexivity|].
    destruct I as [I1 I2 I3 I4 I5].
    assert (EX : forall p', posted (setp V (procs c) p (mkP Producing (sr p) (ic p) (ip p senders) (rbufs p senders) (upd (preq p (H p) senders) i false) (count (preq p (H p) senders) - 1) (creq p (G p)) 0) p') = posted (procs c p')).
    { intros p'. destruct (Nat.eq_dec p' p) as [->|NE]; [rewrite setp_same, <- EP; reflexivity|now rewrite setp_other]. }
    constructor; cbn [Model_Overlap.procs Model_Overlap.chan1 Model_Overlap.chan2].
    - intros p' L'. destruct (Nat.eq_dec p' p) as [->|NE].
      + rewrite setp_same, <- (count_upd _ _ E1), EU. apply st_produce; assumption.
      + rewrite setp_other by exact NE. assert (Q := I1 p' L'). assert (EH : forall x, set2 H p s p' x = H p' x) by (intros x; apply set2_other; now left).
        assert (EPR : forall l, preq p' (set2 H p s p') l = preq p' (H p') l) by (intros l; apply map_ext; intros x; now rewrite EH).
        assert (forall P : (nat -> bool) -> Prop, True) by trivial.
        inversion Q; subst; rewrite <- ?EPR; constructor; auto; try (intros x; rewrite EH; auto); unfold handled_all in *; intros; rewrite EH; auto.
    - intros d s' X1. rewrite EX. unfold set2 in X1. apply orb_prop in X1. destruct X1 as [X1|X1]; [|auto]. apply andb_prop in X1. destruct X1 as (X1 & X2).
      apply Nat.eqb_eq in X1, X2. subst. auto.
    - intros s' d X1. apply I3 in X1. unfold set2. rewrite X1. apply orb_true_r.
    - intros s' d. rewrite setc_spec. unfold want1. cbn [Model_Overlap.procs]. rewrite EX. destruct (Nat.eqb_spec s' s) as [->|NE]; [destruct (Nat.eqb_spec d p) as [->|NE]|]; cbn [andb].
      + rewrite set2_same. cbn [negb]. now rewrite !andb_false_r.
      + rewrite set2_other by now left. apply I4.
      + rewrite set2_other by now right. apply I4.
    - intros d s'. rewrite setc_spec. unfold want2. destruct (Nat.eqb_spec d p) as [->|NE]; [destruct (Nat.eqb_spec s' s) as [->|NE]|]; cbn [andb].
      + rewrite set2_same, I5, B. unfold want2. rewrite HF. cbn [andb app]. destruct (G s p) eqn:EG; [apply I3 in EG; congruence|reflexivity].
      + rewrite set2_other by now right. apply I5.
      + rewrite set2_other by now left. apply I5.
  Qed.

  Lemma inv_search : forall H G c p, (p < size)%nat -> Inv H G c -> ph (procs c p) = Searching ->
    do_search V interpolate msize ptrees (procs c p) = mkP Notifying (sr p) (-1) (-1) [] [] 0 [] 0 /\
    Inv H G (mkC V (setp V (procs c) p (mkP Notifying (sr p) (-1) (-1) [] [] 0 [] 0)) (chan1 c) (chan2 c)).
  Proof.
    intros H G c p L I P. assert (S := v_pst _ _ _ I p L).
    inversion S as [S1 S2 SE| | | | | |]; subst; match goal with X : _ = procs c p |- _ => rename X into EP end; rewrite <- EP in P; try discriminate.
    2: { cbn in P. match goal with X : _ \/ _ |- _ => destruct X; subst; discriminate end. }
    split.
    - unfold do_search. cbn [co points]. rewrite (HS p L). reflexivity.
    - apply local_step; [exact L|exact I|rewrite <- EP; reflexivity|]. apply st_notify; assumption.
  Qed.

  Lemma inv_notify : forall H G c p senders, (p < size)%nat -> Inv H G c -> ph (procs c p) = Notifying -> (forall p', (p' < size)%nat -> entered V (procs c p')) ->
    Permutation senders (announces V machine c p) ->
    ph (do_notify V (Z.of_nat p) senders (procs c p)) = Posting /\
    Inv H G (mkC V (setp V (procs c) p (do_notify V (Z.of_nat p) senders (procs c p))) (chan1 c) (chan2 c)).
  Proof.
    intros H G c p senders L I P N PE. rewrite (announces_ok H G c I N p) in PE. assert (S := v_pst _ _ _ I p L). split; [reflexivity|].
    inversion S as [|S1 S2 SE| | | | |]; subst; match goal with X : _ = procs c p |- _ => rename X into EP end; rewrite <- EP in P; try discriminate.
    2: { cbn in P. match goal with X : _ \/ _ |- _ => destruct X; subst; discriminate end. }
    apply local_step; [exact L|exact I|rewrite <- EP; reflexivity|].
    unfold do_notify. cbn [co c_reqs c_remaining].
    assert (ER := preq_none p (H p) senders S1). rewrite <- ER.
    assert (EC : Z.of_nat (length senders) - (if 0 <=? index_of (Z.of_nat p) 0 (map fst senders) (-1) then 1 else 0) = count (preq p (H p) senders)).
    { rewrite <- (count_others _ fst (Z.of_nat p) senders (senders_nodup _ _ PE)). f_equal. rewrite ER. apply map_ext. intros [r n]. reflexivity. }
    rewrite EC. apply st_post; assumption.
  Qed.

  Lemma none_pts : forall p Gp, (p < size)%nat -> none Gp -> pts_ok p Gp (points V (sr p)).
  Proof.
    intros p Gp L N. rewrite (i_points _ _ _ _ (HI p L)). split; [reflexivity|]. intros i v E. unfold value. rewrite (N _), andb_false_r. exact E.
  Qed.

  Lemma requests_done : forall p Hp senders, Permutation senders (snd_list p) -> count (preq p Hp senders) <= 0 -> handled_all p Hp.
  Proof.
    intros p Hp senders P C s L NE B. destruct (buf s p) as [ops|] eqn:EB; [|congruence].
    assert (IN : In (Z.of_nat s, Z.of_nat (length ops)) (snd_list p)) by (apply snd_list_in; eauto 8).
    apply (Permutation_in _ (Permutation_sym P)) in IN. apply In_nth_error in IN. destruct IN as (i & E).
    assert (X := count_zero _ C i (negb (Z.of_nat s =? Z.of_nat p) && negb (Hp s))). unfold preq in X. rewrite nth_error_map, E in X. cbn [option_map fst] in X. rewrite Nat2Z.id in X.
    specialize (X eq_refl). destruct (Z.eqb_spec (Z.of_nat s) (Z.of_nat p)); [lia|]. destruct (Hp s); [reflexivity|discriminate].
  Qed.
  Lemma answers_done : forall p Gp, (p < size)%nat -> count (creq p Gp) <= 0 -> got_all p Gp.
  Proof.
    intros p Gp L C d NE B. destruct (buf p d) as [ops|] eqn:EB; [|congruence]. apply buf_in in EB. apply In_nth_error in EB. destruct EB as (i & E).
    assert (X := count_zero _ C i (negb (Z.of_nat d =? Z.of_nat p) && negb (Gp d))). unfold creq in X. rewrite nth_error_map, E in X. cbn [option_map fst] in X. rewrite Nat2Z.id in X.
    specialize (X eq_refl). destruct (Z.eqb_spec (Z.of_nat d) (Z.of_nat p)); [lia|]. destruct (Gp d); [reflexivity|discriminate].
  Qed.

  Lemma inv_to_consume : forall H G c p, (p < size)%nat -> Inv H G c -> ph (procs c p) = Producing -> p_remaining V (procs c p) <= 0 ->
    ph (to_consume V (procs c p)) = Consuming /\ c_remaining V (to_consume V (procs c p)) <= Z.of_nat (length (bufs_of p)) /\
    Inv H G (mkC V (setp V (procs c) p (to_consume V (procs c p))) (chan1 c) (chan2 c)).
  Proof.
    intros H G c p L I P R. assert (S := v_pst _ _ _ I p L). split; [reflexivity|].
    inversion S as [ | | |senders S1 S2 SE| | |]; subst; match goal with X : _ = procs c p |- _ => rename X into EP end; rewrite <- EP in P; try discriminate.
    2: { cbn in P. match goal with X : _ \/ _ |- _ => destruct X; subst; discriminate end. }
    rewrite <- EP in R. cbn [p_remaining] in R.
    unfold to_consume. cbn [co iconrank iprorank p_bufs p_reqs p_remaining c_reqs c_remaining].
    assert (EC : (if 0 <=? ic p then Z.of_nat (length (creq p (G p))) - 1 else Z.of_nat (length (creq p (G p)))) = count (creq p (G p))).
    { rewrite (creq_none p (G p) S2) at 3. rewrite (count_others _ fst (Z.of_nat p) _ (nodup_sendb p L)). unfold ic, creq. rewrite map_length. destruct (0 <=? _); lia. }
    rewrite EC. split.
    { assert (X := count_le (creq p (G p))). unfold creq in X at 2. rewrite map_length in X. exact X. }
    apply local_step; [exact L|exact I|rewrite <- EP; reflexivity|].
    replace (sr p) with (co_of p (points V (sr p))) by (unfold co_of, bufs_of; destruct (sr p); reflexivity).
    apply st_consume; [exact S1|exact (requests_done _ _ _ S1 R)|apply S2|apply none_pts; assumption].
  Qed.

  (** copying an answer back *)
  Lemma copy_answer : forall p i d ops got pts, (p < size)%nat -> nth_error (bufs_of p) i = Some (Z.of_nat d, ops) -> pts_ok p got pts ->
    exists pts', update_from_buffer V (map (A d) ops) i (qidx (sr p)) pts = Some pts' /\ pts_ok p (fun x => Nat.eqb x d || got x) pts'.
  Proof.
    intros p i d ops got pts L E (P1 & P2). destruct (sendb_qidx _ _ _ _ L E) as (ids & Eq & _ & F). unfold update_from_buffer. rewrite Eq. cbn [bind].
    assert (IN := nth_error_In _ _ Eq). destruct (copy_back_ok V (A d) (query p) ops ids F (i_nodup _ _ _ _ (HI p L) _ _ IN) pts P1) as (pts' & C1 & C2 & C3 & C4).
    exists pts'. split; [exact C1|]. split; [exact C2|]. intros j v Ev. unfold value. destruct (in_dec Nat.eq_dec j ids) as [J|J].
    - assert (M : mk V (sr p) j = Z.of_nat d) by (apply (i_marks _ _ _ _ (HI p L) j (Z.of_nat d)); [lia|eauto]). rewrite M, Nat2Z.id, Nat.eqb_refl.
      assert ((0 <=? Z.of_nat d) = true) as -> by lia. cbn [andb orb]. apply C3; assumption.
    - rewrite (C4 j J), (P2 j v Ev). unfold value. f_equal. destruct (Z.leb_spec 0 (mk V (sr p) j)) as [M|M]; [|reflexivity]. cbn [andb].
      destruct (Nat.eqb_spec (Z.to_nat (mk V (sr p) j)) d) as [X|X]; [|reflexivity]. exfalso. assert (ME : mk V (sr p) j = Z.of_nat d) by lia.
      apply (i_marks _ _ _ _ (HI p L) j (Z.of_nat d)) in ME; [|lia]. destruct ME as (ids' & X1 & X2).
      assert ((Z.of_nat d, ids') = (Z.of_nat d, ids)).
      { apply (nodup_inj _ fst (qidx (sr p))); [|exact X1|exact IN|reflexivity]. change (map fst (qidx (sr p))) with (ranks V (sr p)). apply SSorted_NoDup. exact (i_sorted _ _ _ _ (HI p L)). }
      assert (ids' = ids) by congruence. subst ids'. contradiction.
  Qed.

  Lemma pts_ok_ext : forall p f g pts, (forall x, f x = g x) -> pts_ok p f pts -> pts_ok p g pts.
  Proof. intros p f g pts E (P1 & P2). split; [exact P1|]. intros i v Ev. rewrite (P2 i v Ev). unfold value. now rewrite E. Qed.

  Lemma inv_consume : forall H G c p i r n msg rest, (p < size)%nat -> Inv H G c -> ph (procs c p) = Consuming ->
    nth_error (c_reqs V (procs c p)) i = Some true -> nth_error (sendb (co V (procs c p))) i = Some (r, n) -> chan2 c (Z.to_nat r) p = msg :: rest ->
    exists s' G', do_consume V i msg (procs c p) = Some s' /\ ph s' = Consuming /\ c_remaining V s' = c_remaining V (procs c p) - 1 /\
      Inv H G' (mkC V (setp V (procs c) p s') (chan1 c) (setc V (chan2 c) (Z.to_nat r) p rest)).
  Proof.
    intros H G c p i r n msg rest L I P E1 E2 EC. assert (S := v_pst _ _ _ I p L).
    inversion S as [ | | | |senders pts S1 S2 S3 S4 SE| |]; subst; match goal with X : _ = procs c p |- _ => rename X into EP end; rewrite <- EP in P; try discriminate.
    2: { cbn in P. match goal with X : _ \/ _ |- _ => destruct X; subst; discriminate end. }
    rewrite <- EP in E1, E2. cbn [c_reqs co co_of Model_Overlap.sendb] in E1, E2. rename n into ops.
    destruct (in_sendb_nat _ _ _ L (nth_error_In _ _ E2)) as (d & -> & Ld & B). rewrite Nat2Z.id in *.
    unfold creq in E1. rewrite nth_error_map, E2 in E1. cbn [option_map fst] in E1. rewrite Nat2Z.id in E1.
    destruct (Z.eqb_spec (Z.of_nat d) (Z.of_nat p)) as [|ND]; [discriminate|]. cbn [negb andb] in E1. destruct (G p d) eqn:EG; [discriminate|]. clear E1.
    rewrite (v_2 _ _ _ I) in EC. unfold want2 in EC. rewrite EG, B in EC. destruct (H d p) eqn:EH; [|discriminate]. cbn [andb negb] in EC.
    assert (msg = map (A d) ops) by congruence. assert (rest = []) by congruence. subst msg rest. clear EC.
    unfold do_consume. cbn [co co_of Model_Overlap.sendb Model_Overlap.qidx points marks iconrank iprorank p_bufs p_reqs p_remaining c_reqs c_remaining]. rewrite E2. cbn [bind].
    rewrite map_length, Nat.eqb_refl. cbn [check].
    destruct (copy_answer p i d ops (G p) pts L E2 S4) as (pts' & C1 & C2). rewrite C1. cbn [bind].
    assert (Li : (i < length (creq p (G p)))%nat) by (unfold creq; rewrite map_length; exact (nth_some_lt _ _ _ _ E2)). rewrite put_upd by exact Li. cbn [bind].
    assert (EU : upd (creq p (G p)) i false = creq p (set2 G p d p)).
    { unfold creq. rewrite (clear_one _ fst _ (bufs_of p) i _ (nodup_sendb p L) E2). cbn [fst]. apply map_ext_in. intros [r' n'] IN. cbn [fst].
      destruct (in_sendb_nat _ _ _ L IN) as (d' & -> & _ & _). rewrite Nat2Z.id.
      unfold set2. rewrite Nat.eqb_refl. cbn [andb]. destruct (Nat.eqb_spec d' d) as [->|NE]; [rewrite Z.eqb_refl; cbn; now rewrite !andb_false_r|].
      destruct (Z.eqb_spec (Z.of_nat d') (Z.of_nat d)); [lia|]. cbn [orb negb]. now rewrite andb_true_r. }
    assert (E1 : nth_error (creq p (G p)) i = Some true).
    { unfold creq. rewrite nth_error_map, E2. cbn [option_map fst]. rewrite Nat2Z.id, EG. destruct (Z.eqb_spec (Z.of_nat d) (Z.of_nat p)); [lia|reflexivity]. }
    eexists _, (set2 G p d). split; [reflexivity|]. split; [reflexivity|]. split; [reflexivity|].
    destruct I as [I1 I2 I3 I4 I5].
    assert (EX : forall s2 p', posted s2 = true -> posted (setp V (procs c) p s2 p') = posted (procs c p')).
    { intros s2 p' X. destruct (Nat.eq_dec p' p) as [->|NE]; [rewrite setp_same, <- EP; exact X|now rewrite setp_other]. }
    constructor; cbn [Model_Overlap.procs Model_Overlap.chan1 Model_Overlap.chan2].
    - intros p' L'. destruct (Nat.eq_dec p' p) as [->|NE].
      + rewrite setp_same, <- (count_upd _ _ E1), EU. apply st_consume; [exact S1|exact S2| |].
        * rewrite set2_other by (right; lia). exact S3.
        * apply (pts_ok_ext p (fun x => Nat.eqb x d || G p x)); [|exact C2]. intros x. unfold set2. now rewrite Nat.eqb_refl.
      + rewrite setp_other by exact NE. assert (Q := I1 p' L'). assert (EGG : forall x, set2 G p d p' x = G p' x) by (intros x; apply set2_other; now left).
        assert (EPR : creq p' (set2 G p d p') = creq p' (G p')) by (apply map_ext; intros x; now rewrite EGG).
        assert (EPT : forall pts, pts_ok p' (G p') pts -> pts_ok p' (set2 G p d p') pts) by (intros pts0; apply pts_ok_ext; intros x; now rewrite EGG).
        assert (EGA : got_all p' (G p') -> got_all p' (set2 G p d p')) by (intros X d' N' B'; rewrite EGG; auto).
        assert (ENN : none (G p') -> none (set2 G p d p')) by (intros X x; rewrite EGG; apply X).
        assert (EPF : forall pts, pts_ok p' (fun r => G p' r || Nat.eqb r p') pts -> pts_ok p' (fun r => set2 G p d p' r || Nat.eqb r p') pts) by (intros pts0; apply pts_ok_ext; intros x; now rewrite EGG).
        inversion Q; subst; rewrite <- ?EPR; constructor; auto; rewrite EGG; assumption.
    - intros d' s' X. rewrite EX by reflexivity. auto.
    - intros s' d' X. unfold set2 in X. apply orb_prop in X. destruct X as [X|X]; [|auto]. apply andb_prop in X. destruct X as (X1 & X2). apply Nat.eqb_eq in X1, X2. subst. exact EH.
    - intros s' d'. rewrite I4. unfold want1. cbn [Model_Overlap.procs]. rewrite EX by reflexivity. reflexivity.
    - intros d' s'. rewrite setc_spec. unfold want2. destruct (Nat.eqb_spec d' d) as [->|NE]; [destruct (Nat.eqb_spec s' p) as [->|NE]|]; cbn [andb].
      + rewrite set2_same. cbn [negb]. now rewrite andb_false_r.
      + rewrite set2_other by now left. apply I5.
      + rewrite set2_other by now right. apply I5.
  Qed.

  Lemma inv_to_wait : forall H G c p, (p < size)%nat -> Inv H G c -> ph (procs c p) = Consuming -> c_remaining V (procs c p) <= 0 ->
    Inv H G (mkC V (setp V (procs c) p (set_ph V (procs c p) Waiting)) (chan1 c) (chan2 c)).
  Proof.
    intros H G c p L I P R. assert (S := v_pst _ _ _ I p L).
    inversion S as [ | | | |senders pts S1 S2 S3 S4 SE| |]; subst; match goal with X : _ = procs c p |- _ => rename X into EP end; rewrite <- EP in P; try discriminate.
    2: { cbn in P. match goal with X : _ \/ _ |- _ => destruct X; subst; discriminate end. }
    rewrite <- EP in R. cbn [c_remaining] in R. apply local_step; [exact L|exact I|rewrite <- EP; reflexivity|].
    unfold set_ph. cbn [co iconrank iprorank p_bufs p_reqs p_remaining c_reqs c_remaining].
    apply st_late; auto. apply answers_done; assumption.
  Qed.
  Lemma inv_wait : forall H G c p, (p < size)%nat -> Inv H G c -> ph (procs c p) = Waiting ->
    Inv H G (mkC V (setp V (procs c) p (set_ph V (procs c p) Updating)) (chan1 c) (chan2 c)).
  Proof.
    intros H G c p L I P. assert (S := v_pst _ _ _ I p L).
    inversion S as [ | | | | |f senders pts crem S0 S1 S2 S3 S4 S5 SE|]; subst; match goal with X : _ = procs c p |- _ => rename X into EP end; rewrite <- EP in P; try discriminate.
    cbn in P. subst f. apply local_step; [exact L|exact I|rewrite <- EP; reflexivity|].
    unfold set_ph. cbn [co iconrank iprorank p_bufs p_reqs p_remaining c_reqs c_remaining]. apply st_late; auto.
  Qed.

  Lemma ascending_ok : forall l a, StronglySorted Z.lt l -> (forall x, In x l -> a < x) -> ascending a l = true.
  Proof.
    induction l as [|x l IH]; intros a H K; [reflexivity|]. inversion H as [|? ? H1 H2]; subst. cbn [ascending]. assert ((a <? x) = true) as -> by (specialize (K x (or_introl eq_refl)); lia). cbn [andb].
    rewrite Forall_forall in H2. apply IH; assumption.
  Qed.
  Lemma ip_range : forall p senders i r n, NoDup (map fst senders) -> nth_error senders i = Some (r, n) -> (Z.of_nat i =? ip p senders) = (r =? Z.of_nat p).
  Proof.
    intros p senders i r n ND E. unfold ip. destruct (in_dec Z.eq_dec (Z.of_nat p) (map fst senders)) as [J|J].
    - destruct (In_nth_error _ _ J) as (k & K). rewrite (index_some _ _ _ _ k ND K). destruct (Z.eqb_spec r (Z.of_nat p)) as [->|NE].
      + assert (i = k); [|apply Z.eqb_eq; lia]. apply (NoDup_nth_error (map fst senders)); [exact ND|rewrite map_length; exact (nth_some_lt _ _ _ _ E)|]. rewrite K, nth_error_map, E. reflexivity.
      + assert (i <> k); [|apply Z.eqb_neq; lia]. intros ->. rewrite nth_error_map, E in K. cbn in K. congruence.
    - rewrite index_none by exact J. destruct (Z.eqb_spec r (Z.of_nat p)) as [->|NE]; [|apply Z.eqb_neq; lia]. exfalso. apply J. apply in_map_iff. exists (Z.of_nat p, n). split; [reflexivity|exact (nth_error_In _ _ E)].
  Qed.

  Lemma free_ok : forall p f pts senders a b cc dd, (p < size)%nat -> Permutation senders (snd_list p) ->
    free_checks V (mkP f (co_of p pts) (ic p) (ip p senders) (rbufs p senders) a b cc dd) = true.
  Proof.
    intros p f pts senders a b cc dd L P. unfold free_checks. cbn [co iprorank p_bufs co_of Model_Overlap.sendb]. rewrite !andb_true_iff. split; [split|].
    - rewrite map_fst_sendb by exact L. apply ascending_ok; [exact (i_sorted _ _ _ _ (HI p L))|]. intros x X. apply (i_range _ _ _ _ (HI p L)) in X. lia.
    - apply forallb_forall. intros [r ops] X. cbn [snd]. apply Nat.ltb_lt. assert (N := sendb_nonempty _ _ _ L X). destruct ops; [congruence|cbn; lia].
    - apply forallb_forall. intros (i & (r & n)) X. apply in_number in X. destruct (zget_ge _ _ _ _ X) as (I0 & _). rewrite zget_nat in X by exact I0.
      unfold rbufs in X. rewrite nth_error_map in X. destruct (nth_error senders (Z.to_nat i)) as [[r' n']|] eqn:E; [|discriminate]. cbn [option_map] in X.
      assert (r' = r) by congruence. subst r'. assert (Q := ip_range p senders _ _ _ (senders_nodup _ _ P) E). rewrite Z2Nat.id in Q by exact I0. rewrite Q.
      destruct (r =? Z.of_nat p); [assert (n = 0) as -> by congruence; reflexivity|]. cbv iota. assert (n' = n) by congruence. subst n'.
      assert (IN : In (r, n) (snd_list p)) by (apply (Permutation_in _ P); exact (nth_error_In _ _ E)). apply snd_list_in in IN. destruct IN as (s & ops & Ls & _ & B & ->).
      apply buf_in in B. assert (N := sendb_nonempty _ _ _ Ls B). apply Z.ltb_lt. destruct ops; [congruence|cbn [length]; lia].
  Qed.

  Lemma inv_local : forall H G c p, (p < size)%nat -> Inv H G c -> ph (procs c p) = Updating ->
    ph (do_local V interpolate (data machine p) (Z.of_nat p) (procs c p)) = Finished /\
    Inv H G (mkC V (setp V (procs c) p (do_local V interpolate (data machine p) (Z.of_nat p) (procs c p))) (chan1 c) (chan2 c)).
  Proof.
    intros H G c p L I P. assert (S := v_pst _ _ _ I p L).
    inversion S as [ | | | | |f senders pts crem S0 S1 S2 S3 S4 S5 SE|]; subst; match goal with X : _ = procs c p |- _ => rename X into EP end; rewrite <- EP in P; try discriminate.
    cbn in P. subst f.
    assert (UP : exists pts', update_local V interpolate (data machine p) (Z.of_nat p) (mkP Updating (co_of p pts) (ic p) (ip p senders) (rbufs p senders) (preq p (H p) senders) (count (preq p (H p) senders)) (creq p (G p)) crem) = Some (co_of p pts') /\
      pts_ok p (fun r => G p r || Nat.eqb r p) pts').
    { unfold update_local. cbn [co iconrank co_of Model_Overlap.sendb Model_Overlap.qidx points marks]. unfold ic. destruct (in_dec Z.eq_dec (Z.of_nat p) (map fst (bufs_of p))) as [J|J].
      - destruct (In_nth_error _ _ J) as (k & K). rewrite (index_some _ _ _ _ k (nodup_sendb p L) K). rewrite nth_error_map in K. destruct (nth_error (bufs_of p) k) as [[r ops]|] eqn:E; [|discriminate].
        cbn [option_map fst] in K. assert (r = Z.of_nat p) by congruence. subst r.
        assert (((0 <=? 0 + Z.of_nat k) && Nat.ltb 0 (length (bufs_of p))) = true) as ->.
        { apply andb_true_intro. split; [apply Z.leb_le; lia|]. apply Nat.ltb_lt. apply nth_some_lt in E. lia. }
        rewrite Z.add_0_l, zget_of_nat, E. cbn [bind]. rewrite (HL p L). cbn [bind]. rewrite Nat2Z.id.
        destruct (copy_answer p k p ops (G p) pts L E S5) as (pts' & C1 & C2). rewrite C1. cbn [bind]. exists pts'. split; [reflexivity|].
        apply (pts_ok_ext p (fun x => Nat.eqb x p || G p x)); [intros x; apply orb_comm|exact C2].
      - rewrite index_none by exact J. cbn [Z.leb Z.compare andb]. exists pts. split; [reflexivity|]. destruct S5 as (P1 & P2). split; [exact P1|]. intros i v Ev. rewrite (P2 i v Ev). unfold value.
        destruct (Z.leb_spec 0 (mk V (sr p) i)) as [M|M]; [|reflexivity]. cbn [andb]. destruct (Nat.eqb_spec (Z.to_nat (mk V (sr p) i)) p) as [X|X]; [|now rewrite orb_false_r].
        exfalso. assert (ME : mk V (sr p) i = Z.of_nat p) by lia. apply (i_marks _ _ _ _ (HI p L) i (Z.of_nat p)) in ME; [|lia]. destruct ME as (ids & X1 & _).
        apply J. rewrite map_fst_sendb by exact L. unfold ranks. apply in_map_iff. exists (Z.of_nat p, ids). auto. }
    destruct UP as (pts' & U1 & U2). unfold do_local. rewrite U1. cbn [try]. rewrite free_ok by assumption. cbn [check try]. split; [reflexivity|].
    apply local_step; [exact L|exact I|rewrite <- EP; reflexivity|]. cbn [iconrank iprorank p_bufs p_reqs p_remaining c_reqs c_remaining]. apply st_finished; assumption.
  Qed.

  (** *** all steps *)
  Definition mu (p : nat) (s : proc) : nat :=
    match ph s with
    | Searching => 7 + length (snd_list p) + length (bufs_of p)
    | Notifying => 6 + length (snd_list p) + length (bufs_of p)
    | Posting => 5 + length (snd_list p) + length (bufs_of p)
    | Producing => 4 + Z.to_nat (p_remaining V s) + length (bufs_of p)
    | Consuming => 3 + Z.to_nat (c_remaining V s)
    | Waiting => 2 | Updating => 1 | Finished => 0 | Failed => 0
    end.
  Definition total (c : config) : nat := list_sum (map (fun p => mu p (procs c p)) (seq 0 size)).
  Lemma total_less : forall f p s c1 c2 c1' c2', (p < size)%nat -> (mu p s < mu p (f p))%nat -> (total (mkC V (setp V f p s) c1 c2) < total (mkC V f c1' c2'))%nat.
  Proof.
    intros f p s c1 c2 c1' c2' L D. unfold total. cbn [Model_Overlap.procs].
    assert (forall l, NoDup l -> (list_sum (map (fun q => mu q (setp V f p s q)) l) + (if in_dec Nat.eq_dec p l then mu p (f p) - mu p s else 0) <= list_sum (map (fun q => mu q (f q)) l))%nat).
    { induction l as [|q l IH]; intros ND; [cbn; lia|]. inversion ND as [|? ? N1 N2]; subst. specialize (IH N2). cbn [map]. change (list_sum (?a :: ?b)) with (a + list_sum b)%nat.
      destruct (Nat.eq_dec q p) as [->|NE].
      - rewrite setp_same. destruct (in_dec Nat.eq_dec p l); [contradiction|]. destruct (in_dec Nat.eq_dec p (p :: l)) as [_|X]; [|exfalso; apply X; now left]. lia.
      - rewrite setp_other by exact NE. destruct (in_dec Nat.eq_dec p (q :: l)) as [[X|X]|X]; [congruence| |].
        + destruct (in_dec Nat.eq_dec p l); [lia|contradiction].
        + destruct (in_dec Nat.eq_dec p l); [exfalso; apply X; now right|lia]. }
    specialize (H (seq 0 size) (seq_NoDup _ _)). destruct (in_dec Nat.eq_dec p (seq 0 size)) as [X|X]; [lia|]. exfalso. apply X. apply in_seq. lia.
  Qed.

  Lemma step_inv : forall b c c' H G, Inv H G c -> step b c c' -> exists H' G', Inv H' G' c' /\ (total c' < total c)%nat.
  Proof.
    intros b c c' H G I ST.
    assert (TL : forall p s c1 c2, (p < size)%nat -> (mu p s < mu p (procs c p))%nat -> (total (mkC V (setp V (procs c) p s) c1 c2) < total c)%nat).
    { intros p s c1 c2 L D. destruct c as [f k1 k2]. apply total_less; assumption. }
    destruct ST as [c p L P|c p senders L P N PE|c p s' msgs L P E|c p i r n msg rest s' ops L P R E1 E2 EC E|c p i r n msg rest L P R E1 E2 EC E|c p L P R|
                    c p i r n msg rest s' L P R E1 E2 EC E|c p i r n msg rest L P R E1 E2 EC E|c p L P R|c p L P W|c p L P].
    - destruct (inv_search H G c p L I P) as (E & I'). rewrite E. exists H, G. split; [exact I'|]. apply TL; [exact L|]. unfold mu. rewrite P. cbn [Model_Overlap.ph]. lia.
    - destruct (inv_notify H G c p senders L I P N PE) as (E & I'). exists H, G. split; [exact I'|]. apply TL; [exact L|]. unfold mu. rewrite P, E. lia.
    - assert (I' := inv_post H G c p s' msgs L I P E). exists H, G. split; [exact I'|]. apply TL; [exact L|]. unfold mu. rewrite P.
      assert (S := v_pst _ _ _ I p L). inversion S as [ | |senders S1 S2 S3 SE| | | |]; match goal with X : _ = procs c p |- _ => rename X into EP end; rewrite <- EP in P; try discriminate.
      2: { cbn in P. match goal with X : _ \/ _ |- _ => destruct X; subst; discriminate end. }
      rewrite <- EP in E. unfold do_post in E. cbn [co p_remaining] in E. assert (E1 := f_equal fst E). cbn [fst] in E1. subst s'. cbn [Model_Overlap.ph p_remaining].
      assert (X := count_le (preq p (H p) senders)). unfold preq in X at 2. rewrite map_length, (Permutation_length S1) in X. lia.
    - destruct (inv_produce H G c p i r n msg rest L I P R E1 E2 EC) as (s2 & o2 & H' & E' & P' & R' & I'). assert (s2 = s') by congruence. assert (o2 = ops) by congruence. subst.
      exists H', G. split; [exact I'|]. apply TL; [exact L|]. unfold mu. rewrite P, P', R'. lia.
    - exfalso. destruct (inv_produce H G c p i r n msg rest L I P R E1 E2 EC) as (s2 & o2 & H' & E' & _). congruence.
    - destruct (inv_to_consume H G c p L I P R) as (P' & R' & I'). exists H, G. split; [exact I'|]. apply TL; [exact L|]. unfold mu. rewrite P, P'. lia.
    - destruct (inv_consume H G c p i r n msg rest L I P E1 E2 EC) as (s2 & G' & E' & P' & R' & I'). assert (s2 = s') by congruence. subst.
      exists H, G'. split; [exact I'|]. apply TL; [exact L|]. unfold mu. rewrite P, P', R'. lia.
    - exfalso. destruct (inv_consume H G c p i r n msg rest L I P E1 E2 EC) as (s2 & G' & E' & _). congruence.
    - assert (I' := inv_to_wait H G c p L I P R). exists H, G. split; [exact I'|]. apply TL; [exact L|]. unfold mu. rewrite P. cbn [set_ph Model_Overlap.ph]. lia.
    - assert (I' := inv_wait H G c p L I P). exists H, G. split; [exact I'|]. apply TL; [exact L|]. unfold mu. rewrite P. cbn [set_ph Model_Overlap.ph]. lia.
    - destruct (inv_local H G c p L I P) as (P' & I'). exists H, G. split; [exact I'|]. apply TL; [exact L|]. unfold mu. rewrite P, P'. lia.
  Qed.

  Definition no2 : nat -> nat -> bool := fun _ _ => false.
  Lemma inv_initial : Inv no2 no2 (initial V query).
  Proof.
    constructor; cbn [initial Model_Overlap.procs Model_Overlap.chan1 Model_Overlap.chan2].
    - intros p L. apply st_search; intros x; reflexivity.
    - discriminate.
    - discriminate.
    - intros s d. unfold want1. cbn. now rewrite andb_false_r.
    - reflexivity.
  Qed.
  Lemma reach_inv : forall c, steps V interpolate machine ptrees (initial V query) c -> exists H G, Inv H G c.
  Proof.
    intros c R. remember (initial V query) as c0 eqn:E0. induction R as [c|c c1 c2 R IH ST]; [subst; exists no2, no2; apply inv_initial|].
    destruct (IH E0) as (H & G & I). destruct (step_inv _ _ _ _ _ I ST) as (H' & G' & I' & _). eauto.
  Qed.

  (** *** progress *)
  Lemma find_or : forall (Q : nat -> Prop), (forall p, {Q p} + {~ Q p}) -> (exists p, (p < size)%nat /\ Q p) \/ (forall p, (p < size)%nat -> ~ Q p).
  Proof.
    intros Q D. generalize size. induction n as [|n IH]; [right; intros p X; lia|]. destruct IH as [(p & L & X)|IH]; [left; exists p; split; [lia|exact X]|].
    destruct (D n) as [X|X]; [left; exists n; split; [lia|exact X]|]. right. intros p L. destruct (Nat.eq_dec p n) as [->|NE]; [exact X|apply IH; lia].
  Qed.
  Lemma phase_dec : forall a b : phase, {a = b} + {a <> b}.
  Proof. decide equality. Qed.

  Lemma buf_range : forall s d ops, (s < size)%nat -> buf s d = Some ops -> (d < size)%nat.
  Proof. intros s d ops L B. apply buf_in in B. apply (sendb_range s) in B; [lia|exact L]. Qed.

  Lemma progress : forall H G c, Inv H G c -> (forall p, (p < size)%nat -> ph (procs c p) = Finished) \/ exists c', step true c c'.
  Proof.
    intros H G c I. assert (D := fun f => find_or (fun p => ph (procs c p) = f) (fun p => phase_dec _ _)).
    destruct (D Searching) as [(p & L & P)|N1]; [right; eexists; eapply s_search; eassumption|].
    assert (EN : forall p', (p' < size)%nat -> entered V (procs c p')).
    { intros p L. specialize (N1 p L). assert (S := v_pst _ _ _ I p L). unfold entered. inversion S as [| | | | |f ? ? ? O|]; cbn; try exact Logic.I; [|destruct O; subst; exact Logic.I]. exfalso. match goal with X : _ = procs c p |- _ => rewrite <- X in N1 end. now apply N1. }
    destruct (D Notifying) as [(p & L & P)|N2]; [right; eexists; eapply s_notify; [exact L|exact P|exact EN|apply Permutation_refl]|].
    destruct (D Posting) as [(p & L & P)|N3]; [right; destruct (do_post V (Z.of_nat p) (procs c p)) as [s' msgs] eqn:E; eexists; eapply s_post; eassumption|].
    assert (PO : forall p, (p < size)%nat -> posted (procs c p) = true).
    { intros p L. specialize (N1 p L). specialize (N2 p L). specialize (N3 p L). assert (S := v_pst _ _ _ I p L). unfold posted.
      inversion S as [| | | | |f ? ? ? O|]; cbn; try reflexivity; try (destruct O; subst; reflexivity); exfalso; match goal with X : _ = procs c p |- _ => rewrite <- X in N1, N2, N3 end; cbn in *; congruence. }
    destruct (D Producing) as [(p & L & P)|N4].
    { right. destruct (Z.leb_spec (p_remaining V (procs c p)) 0) as [R|R]; [eexists; eapply s_to_consume; eassumption|].
      assert (S := v_pst _ _ _ I p L).
      inversion S as [ | | |senders S1 S2 SE| | |]; subst; match goal with X : _ = procs c p |- _ => rename X into EP end; rewrite <- EP in P; try discriminate.
      2: { cbn in P. match goal with X : _ \/ _ |- _ => destruct X; subst; discriminate end. }
      assert (R' := R). rewrite <- EP in R'. cbn [p_remaining] in R'. destruct (count_pos _ R') as (i & E1).
      assert (E2 : exists r n, nth_error (rbufs p senders) i = Some (r, n)).
      { assert (X := nth_some_lt _ _ _ _ E1). unfold preq in X. rewrite map_length in X. unfold rbufs. rewrite nth_error_map. destruct (nth_error senders i) as [[r n]|] eqn:E; [cbn; eauto|apply nth_error_None in E; lia]. }
      destruct E2 as (r & n & E2). destruct (active_sender _ _ _ _ _ _ _ _ L I S1 E1 E2) as (s & ops & Ls & Ns & -> & _ & B & _ & HF).
      assert (EC : chan1 c s p = ops :: []).
      { rewrite (v_1 _ _ _ I). unfold want1. rewrite (PO s Ls), B, HF. assert (Nat.ltb s size = true) as -> by (apply Nat.ltb_lt; exact Ls). destruct (Nat.eqb_spec s p); [contradiction|reflexivity]. }
      assert (E1' : nth_error (p_reqs V (procs c p)) i = Some true) by (rewrite <- EP; exact E1).
      assert (E2' : nth_error (p_bufs V (procs c p)) i = Some (Z.of_nat s, n)) by (rewrite <- EP; exact E2).
      assert (P' : ph (procs c p) = Producing) by (rewrite <- EP; reflexivity).
      rewrite <- (Nat2Z.id s) in EC.
      destruct (do_produce V interpolate (data machine p) (Z.of_nat p) i ops (procs c p)) as [[s' o]|] eqn:E.
      - eexists. exact (s_produce V interpolate machine ptrees true c p i (Z.of_nat s) n ops [] s' o L P' R E1' E2' EC E).
      - eexists. exact (s_produce_fails V interpolate machine ptrees true c p i (Z.of_nat s) n ops [] L P' R E1' E2' EC E). }
    assert (HA : forall p, (p < size)%nat -> handled_all p (H p)).
    { intros p L. specialize (PO p L). specialize (N4 p L). assert (S := v_pst _ _ _ I p L).
      inversion S as [| | | | |f ? ? ? O|]; try assumption; exfalso; match goal with X : _ = procs c p |- _ => rewrite <- X in PO, N4 end; cbn in *; congruence. }
    destruct (D Consuming) as [(p & L & P)|N5].
    { right. destruct (Z.leb_spec (c_remaining V (procs c p)) 0) as [R|R]; [eexists; eapply s_to_wait; eassumption|].
      assert (S := v_pst _ _ _ I p L).
      inversion S as [ | | | |senders pts S1 S2 S3 S4 SE| |]; subst; match goal with X : _ = procs c p |- _ => rename X into EP end; rewrite <- EP in P; try discriminate.
      2: { cbn in P. match goal with X : _ \/ _ |- _ => destruct X; subst; discriminate end. }
      assert (R' := R). rewrite <- EP in R'. cbn [c_remaining] in R'. destruct (count_pos _ R') as (i & E1).
      assert (E1b := E1). unfold creq in E1b. rewrite nth_error_map in E1b. destruct (nth_error (bufs_of p) i) as [[r ops]|] eqn:E2; [|discriminate]. cbn [option_map fst] in E1b.
      destruct (in_sendb_nat _ _ _ L (nth_error_In _ _ E2)) as (d & -> & Ld & B). rewrite Nat2Z.id in E1b.
      destruct (Z.eqb_spec (Z.of_nat d) (Z.of_nat p)) as [|ND]; [discriminate|]. cbn [negb andb] in E1b. destruct (G p d) eqn:EG; [discriminate|].
      assert (EH : H d p = true) by (apply (HA d Ld p L); [lia|congruence]).
      assert (EC : chan2 c d p = map (A d) ops :: []). { rewrite (v_2 _ _ _ I). unfold want2. rewrite EH, EG, B. reflexivity. }
      assert (E1' : nth_error (c_reqs V (procs c p)) i = Some true) by (rewrite <- EP; exact E1).
      assert (E2' : nth_error (sendb (co V (procs c p))) i = Some (Z.of_nat d, ops)) by (rewrite <- EP; exact E2).
      assert (P' : ph (procs c p) = Consuming) by (rewrite <- EP; reflexivity).
      assert (EC' : chan2 c (Z.to_nat (Z.of_nat d)) p = map (A d) ops :: []) by (rewrite Nat2Z.id; exact EC).
      destruct (do_consume V i (map (A d) ops) (procs c p)) as [s'|] eqn:E.
      - eexists. exact (s_consume V interpolate machine ptrees true c p i (Z.of_nat d) ops (map (A d) ops) [] s' L P' R E1' E2' EC' E).
      - eexists. exact (s_consume_fails V interpolate machine ptrees true c p i (Z.of_nat d) ops (map (A d) ops) [] L P' R E1' E2' EC' E). }
    assert (GA : forall p, (p < size)%nat -> got_all p (G p)).
    { intros p L. specialize (PO p L). specialize (N4 p L). specialize (N5 p L). assert (S := v_pst _ _ _ I p L).
      inversion S as [| | | | |f ? ? ? O|]; try assumption; exfalso; match goal with X : _ = procs c p |- _ => rewrite <- X in PO, N4, N5 end; cbn in *; congruence. }
    assert (CE : forall p d, (p < size)%nat -> chan1 c p d = [] /\ chan2 c p d = []).
    { intros p d L. rewrite (v_1 _ _ _ I), (v_2 _ _ _ I). unfold want1, want2. split.
      - destruct (buf p d) as [ops|] eqn:B; [|destruct (_ && _); reflexivity]. destruct (Nat.eqb_spec p d) as [->|NE]; [cbn [negb andb]; now rewrite andb_false_r|].
        rewrite (HA d (buf_range _ _ _ L B) p L NE) by congruence. cbn [negb]. now rewrite !andb_false_r.
      - destruct (H p d) eqn:EH; [|reflexivity]. destruct (v_H _ _ _ I _ _ EH) as (Ld & ND & _). cbn [andb]. destruct (buf d p) as [ops|] eqn:B; [|destruct (negb _); reflexivity].
        rewrite (GA d Ld p) by congruence. reflexivity. }
    destruct (D Waiting) as [(p & L & P)|N6]; [right; eexists; eapply s_wait; [exact L|exact P|intros _ d; apply CE; exact L]|].
    destruct (D Updating) as [(p & L & P)|N7]; [right; eexists; eapply s_local; eassumption|].
    left. intros p L. specialize (PO p L). specialize (N4 p L). specialize (N5 p L). specialize (N6 p L). specialize (N7 p L). unfold posted in PO. destruct (ph (procs c p)); congruence.
  Qed.

  (** *** the results *)
  Lemma no_failure : forall H G c, Inv H G c -> forall p, (p < size)%nat -> ph (procs c p) <> Failed.
  Proof. intros H G c I p L. assert (S := v_pst _ _ _ I p L). inversion S as [| | | | |f ? ? ? O|]; cbn; try discriminate. destruct O; subst; discriminate. Qed.
  Lemma finished_points : forall H G c, Inv H G c -> forall p, (p < size)%nat -> ph (procs c p) = Finished ->
    length (points V (co V (procs c p))) = length (query p) /\
    forall i v, nth_error (query p) i = Some v -> nth_error (points V (co V (procs c p))) i = Some (let r := mk V (sr p) i in if 0 <=? r then A (Z.to_nat r) v else v).
  Proof.
    intros H G c I p L P. assert (S := v_pst _ _ _ I p L).
    inversion S as [ | | | | | |senders pts crem S1 S2 S3]; subst; match goal with X : _ = procs c p |- _ => rename X into EP end; rewrite <- EP in P; try discriminate.
    1: { cbn in P. match goal with X : _ \/ _ |- _ => destruct X; subst; discriminate end. }
    cbn [co co_of points]. destruct S3 as (P1 & P2). split; [exact P1|]. intros i v Ev. rewrite (P2 i v Ev). f_equal. unfold value. cbv zeta.
    destruct (Z.leb_spec 0 (mk V (sr p) i)) as [M|M]; [|reflexivity]. cbn [andb]. set (r := Z.to_nat (mk V (sr p) i)).
    destruct (Nat.eqb_spec r p) as [X|X]; [now rewrite orb_true_r|]. rewrite (S2 r X); [reflexivity|].
    assert (ME : mk V (sr p) i = Z.of_nat r) by lia. apply (i_marks _ _ _ _ (HI p L) i (Z.of_nat r)) in ME; [|lia]. destruct ME as (ids & X1 & _).
    assert (IN : In (Z.of_nat r) (map fst (bufs_of p))) by (rewrite map_fst_sendb by exact L; apply in_map_iff; exists (Z.of_nat r, ids); auto).
    apply in_map_iff in IN. destruct IN as ((r' & ops) & E & IN). cbn [fst] in E. subst r'. rewrite (in_buf _ _ _ L IN). discriminate.
  Qed.
End Protocol.
