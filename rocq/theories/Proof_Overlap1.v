From Coq Require Import ZArith List Bool Lia Permutation Arith.
From Verif Require Import Model_Face Model_Domain Spec_Domain Model_Search Spec_Search Proof_Search Proof_Search2 Proof_Search3 Proof_Search4 Model_Overlap Spec_Overlap.
Import ListNotations.
Open Scope Z_scope.

Section Local.
  Variable V : Type.
  Variable d : dim.
  Variable interpolate : site -> quad -> Z -> Z -> V -> bool * V.
  Variable p : nat.
  Notation L := (Local (Z.of_nat p)).
  Hypothesis U1 : forall s q jb v, snd (interpolate s q jb (-1) v) = v.
  Hypothesis U2 : forall s q jb i s' q' jb' i' v, fst (interpolate s q jb i (snd (interpolate s' q' jb' i' v))) = fst (interpolate s q jb i v).
  Hypothesis U3 : forall v l, ~ hit V interpolate p v l -> contribute V interpolate p v l = v.
  Hypothesis U4 : forall jb i q a v, 0 <= i -> within d q a -> hit V interpolate p v (jb, i, q) -> fst (interpolate L a jb (-1) v) = true.
  Variable blocks : list block.
  Notation pno := (pno blocks).
  Notation contribute := (contribute V interpolate p).

  Variable ops : list V.
  Definition ml (tree : Z) (q : quad) (n : Z) (i : nat) : bool :=
    match nth_error ops i with Some v => fst (interpolate L q tree (pno tree n) v) | None => false end.
  Definition ul (tree : Z) (q : quad) (n : Z) (i : nat) (s : V) : V := snd (interpolate L q tree (pno tree n) s).
  (** the value has the same tests as the point at the beginning *)
  Definition alike (s v : V) : Prop := forall st q jb n, fst (interpolate st q jb n s) = fst (interpolate st q jb n v).
  Definition okl (i : nat) (s : V) : Prop := exists v, nth_error ops i = Some v /\ alike s v.

  Lemma alike_step : forall s v st q jb n, alike s v -> alike (snd (interpolate st q jb n s)) v.
  Proof. intros s v st q jb n A st' q' jb' n'. rewrite U2. apply A. Qed.

  Lemma local_fn : forall tree q n i st s, good blocks tree q n -> nth_error st (id i) = Some s -> okl i s ->
    interpolate_local_fn V interpolate (Z.of_nat p) blocks tree q n i st = Some (ml tree q n i, upd st (id i) (ul tree q n i s)) /\ okl i (ul tree q n i s).
  Proof.
    intros tree q n i st s G Hs (v & Hv & A). unfold id in *. split; [|exists v; split; [exact Hv|apply alike_step; exact A]].
    unfold interpolate_local_fn, ml, ul, Proof_Search4.pno. rewrite Hs, Hv. cbn [bind]. destruct G as [-> |(N0 & b & Hb & HQ)].
    - cbn [Z.leb Z.compare]. rewrite <- (A L q tree (-1)). destruct (interpolate L q tree (-1) s) as [mm w]. cbn [fst snd].
      rewrite put_upd by exact (nth_some_lt _ _ _ _ Hs). reflexivity.
    - destruct (Z.leb_spec 0 n); [|lia]. unfold before. rewrite Hb. cbn [bind]. rewrite HQ. cbn [bind].
      rewrite <- (A L q tree (n - b_before b)). destruct (interpolate L q tree (n - b_before b) s) as [mm w]. cbn [fst snd].
      rewrite put_upd by exact (nth_some_lt _ _ _ _ Hs). reflexivity.
  Qed.

  Definition named (tree : Z) (l : quad * Z) : Z * Z * quad := (tree, snd l - before blocks tree, fst l).
  Lemma contribute_alike : forall l s v, alike s v -> alike (fold_left contribute l s) v.
  Proof. induction l as [|[[jb i] q] l IH]; intros s v A; [exact A|]. cbn [fold_left]. apply IH. cbn [Spec_Overlap.contribute]. apply alike_step. exact A. Qed.
  Lemma contribute_none : forall l v s, alike s v -> (forall x, In x l -> ~ hit V interpolate p v x) -> fold_left contribute l s = s.
  Proof.
    induction l as [|x l IH]; intros v s A H; [reflexivity|]. cbn [fold_left]. rewrite U3.
    - apply (IH v); [exact A|]. intros y Y. apply H. now right.
    - intros X. apply (H x (or_introl eq_refl)). destruct x as [[jb i] q]. cbn [hit] in *. rewrite <- (A _ q jb i). exact X.
  Qed.

  Lemma visit_fold : forall tree i v t, nth_error ops i = Some v -> nested d t -> (forall l, In l (leaves t) -> 0 <= snd l /\ 0 <= snd l - before blocks tree) ->
    forall s, alike s v -> visit V nat ml ul tree i t s = fold_left contribute (map (named tree) (leaves t)) s.
  Proof.
    intros tree i v t Hv. induction t as [q n|q ch IH] using stree_rect'; intros N W s A.
    - destruct (W (q, n) (or_introl eq_refl)) as (W1 & W2). cbn [snd] in *. cbn [visit leaves map fold_left]. unfold ul, named, Proof_Search4.pno. cbn [fst snd Spec_Overlap.contribute].
      destruct (Z.leb_spec 0 n); [|lia]. reflexivity.
    - inversion N as [|? ? Wq N1 N2]; subst. cbn [visit leaves]. assert (E : ul tree q (-1) i s = s) by apply U1. rewrite E.
      destruct (ml tree q (-1) i) eqn:M.
      + clear M N2 N E. revert s A. induction ch as [|t ch IHc]; intros s A; [reflexivity|]. cbn [fold_left flat_map]. rewrite map_app, fold_left_app.
        rewrite IH; [|now left|apply N1; now left| |exact A]; [|intros l Hl; apply W; cbn; apply in_or_app; now left].
        apply IHc.
        * intros t' H. apply IH. now right.
        * intros l Hl. apply W. cbn. apply in_or_app. now right.
        * intros t' H. apply N1. now right.
        * apply contribute_alike. exact A.
      + symmetry. apply (contribute_none _ v); [exact A|]. intros x X Hx. apply in_map_iff in X. destruct X as (l & <- & Hl).
        assert (Y := U4 _ _ _ q v (proj2 (W l Hl)) (N2 l Hl) Hx). unfold ml, Proof_Search4.pno in M. rewrite Hv in M. cbn [Z.leb Z.compare] in M. congruence.
  Qed.
End Local.

Section Process.
  Variable V : Type.
  Variable d : dim.
  Variable interpolate : site -> quad -> Z -> Z -> V -> bool * V.
  Variable p : nat.
  Notation L := (Local (Z.of_nat p)).
  Hypothesis U1 : forall s q jb v, snd (interpolate s q jb (-1) v) = v.
  Hypothesis U2 : forall s q jb i s' q' jb' i' v, fst (interpolate s q jb i (snd (interpolate s' q' jb' i' v))) = fst (interpolate s q jb i v).
  Hypothesis U3 : forall v l, ~ hit V interpolate p v l -> contribute V interpolate p v l = v.
  Hypothesis U4 : forall jb i q a v, 0 <= i -> within d q a -> hit V interpolate p v (jb, i, q) -> fst (interpolate L a jb (-1) v) = true.

  (** the leaves in the order of the search *)
  Fixpoint order (blocks : list block) (tree : Z) (f : list (option stree)) : list (Z * Z * quad) :=
    match f with
    | [] => []
    | None :: f => order blocks (tree + 1) f
    | Some t :: f => map (named blocks tree) (leaves t) ++ order blocks (tree + 1) f
    end.

  Lemma forest_order : forall blocks bs f, Forall2 (search_tree_of d) bs f -> Forall (block_ok d) bs ->
    forall tree, (forall j b, nth_error bs j = Some b -> zget blocks (tree + Z.of_nat j) = Some b) ->
    Permutation (order blocks tree f) (flat_map (fun '(jb, b) => map (fun '(i, q) => (jb, i, q)) (number (b_patches b))) (number_from tree bs)) /\
    (forall ops i v, nth_error ops i = Some v -> forall s, alike V interpolate s v ->
      visit_all V nat (ml V interpolate p blocks ops) (ul V interpolate p blocks) tree f i s = fold_left (contribute V interpolate p) (order blocks tree f) s).
  Proof.
    intros blocks bs f F. induction F as [|b o bs f S0 F IH]; intros BO tree HB.
    - split; [apply Permutation_refl|]. reflexivity.
    - inversion BO as [|? ? BO1 BO2]; subst.
      assert (HB0 : zget blocks tree = Some b). { rewrite <- (Z.add_0_r tree). exact (HB 0%nat b eq_refl). }
      destruct (IH BO2 (tree + 1)) as (P0 & V0).
      { intros j b' H. replace (tree + 1 + Z.of_nat j) with (tree + Z.of_nat (S j)) by lia. exact (HB (S j) b' H). }
      assert (BF : before blocks tree = b_before b) by (unfold before; rewrite HB0; reflexivity).
      rewrite number_from_cons. cbn [flat_map]. destruct o as [t|].
      + destruct S0 as (N & P). cbn [order]. split.
        * apply Permutation_app; [|exact P0]. rewrite <- numbered_number, map_map. 
          replace (map _ (numbered b)) with (map (named blocks tree) (numbered b)).
          { apply Permutation_map. exact P. }
          apply map_ext. intros [q n]. unfold named. cbn [fst snd]. now rewrite BF.
        * intros ops i v Hv s A. cbn [visit_all]. rewrite fold_left_app.
          rewrite (visit_fold V d interpolate p U1 U2 U3 U4 blocks ops tree i v t Hv N); [|intros l Hl; rewrite BF; destruct (leaf_facts d b t l BO1 P Hl) as (X & Y & _); auto|exact A].
          apply (V0 ops i v Hv). apply contribute_alike; assumption.
      + cbn [order]. split.
        * cbn in S0. rewrite S0. exact P0.
        * intros ops i v Hv s A. cbn [visit_all]. apply (V0 ops i v Hv s A).
  Qed.

  Definition proc_order (pr : list block * list (option stree)) : list (Z * Z * quad) := order (fst pr) 0 (snd pr).
  Definition answer (pr : list block * list (option stree)) (v : V) : V := fold_left (contribute V interpolate p) (proc_order pr) v.

  Lemma order_perm : forall pr, process_ok d pr -> Permutation (proc_order pr) (leaves_of pr).
  Proof.
    intros [blocks f] (B & F). cbn [fst snd] in *. unfold proc_order, leaves_of. cbn [fst snd]. rewrite <- number_from_0.
    apply (forest_order blocks blocks f F B 0). intros j b H. rewrite Z.add_0_l, zget_of_nat. exact H.
  Qed.

  Lemma local_search_ok : forall pr, process_ok d pr -> forall ops, local_search V interpolate (Z.of_nat p) pr ops = Some (map (answer pr) ops).
  Proof.
    intros [blocks f] PO ops. unfold local_search. cbn [fst snd].
    destruct (search_local_ok V nat (interpolate_local_fn V interpolate (Z.of_nat p) blocks) id (ml V interpolate p blocks ops) (ul V interpolate p blocks) (good blocks)
      (okl V interpolate ops) (local_fn V interpolate p U2 blocks ops) f 0 (seq 0 (length ops)) ops (well_forest d blocks f PO)) as (st & E & (R1 & R2 & _) & _).
    - rewrite map_id. apply seq_NoDup.
    - intros i H. apply in_seq in H. destruct (nth_error ops i) as [v|] eqn:Ev; [|apply nth_error_None in Ev; lia].
      exists v. split; [exact Ev|]. exists v. split; [exact Ev|]. intros st q jb n. reflexivity.
    - rewrite E. f_equal. apply list_ext. intros i. rewrite nth_error_map. destruct (nth_error ops i) as [v|] eqn:Ev.
      + assert (LI := nth_some_lt _ _ _ _ Ev). assert (X := R2 i v). cbv beta delta [id] in X. rewrite X; [|apply in_seq; lia|exact Ev]. cbn [option_map]. f_equal.
        destruct PO as (B & F). cbn [fst snd] in *. unfold answer, proc_order. cbn [fst snd].
        apply (forest_order blocks blocks f F B 0) with (v := v); [|exact Ev|intros st' q jb n; reflexivity].
        intros j b H. rewrite Z.add_0_l, zget_of_nat. exact H.
      + apply nth_error_None. rewrite R1. apply nth_error_None in Ev. exact Ev.
  Qed.
End Process.
