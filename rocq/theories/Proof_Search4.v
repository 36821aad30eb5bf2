From Coq Require Import ZArith QArith List Bool Lia Permutation Arith Setoid Morphisms.
From Verif Require Import Base_Float Model_Face Model_Domain Spec_Domain Model_Search Spec_Search Proof_Search Proof_Search2 Proof_Search3.
Import ListNotations.
Open Scope Z_scope.

Lemma Qsum_nil : Qsum [] = 0%Q. Proof. reflexivity. Qed.
Lemma Qsum_cons : forall x l, Qsum (x :: l) = (x + Qsum l)%Q. Proof. reflexivity. Qed.
Lemma Qsum_app : forall l l', (Qsum (l ++ l') == Qsum l + Qsum l')%Q.
Proof. induction l as [|x l IH]; intros l'; cbn [app]; rewrite ?Qsum_nil, ?Qsum_cons; [ring|]. rewrite IH. ring. Qed.
Lemma Qsum_perm : forall l l', Permutation l l' -> (Qsum l == Qsum l')%Q.
Proof. intros l l' H. induction H; rewrite ?Qsum_cons; [reflexivity|rewrite IHPermutation; reflexivity|ring|etransitivity; eassumption]. Qed.
Lemma Qsum_zero : forall A (f : A -> Q) l, (forall x, In x l -> (f x == 0)%Q) -> (Qsum (map f l) == 0)%Q.
Proof. induction l as [|x l IH]; intros H; cbn [map]; [reflexivity|]. rewrite Qsum_cons. rewrite (H x (or_introl eq_refl)), IH by (intros y Y; apply H; now right). ring. Qed.
Lemma Qsum_ext : forall A (f g : A -> Q) l, (forall x, In x l -> (f x == g x)%Q) -> (Qsum (map f l) == Qsum (map g l))%Q.
Proof. induction l as [|x l IH]; intros H; cbn [map]; [reflexivity|]. rewrite !Qsum_cons. rewrite (H x (or_introl eq_refl)), IH by (intros y Y; apply H; now right). reflexivity. Qed.
Lemma Qsum_flat : forall A B (f : B -> Q) (g : A -> list B) l, (Qsum (map f (flat_map g l)) == Qsum (map (fun x => Qsum (map f (g x))) l))%Q.
Proof. induction l as [|x l IH]; cbn [flat_map map]; [reflexivity|]. rewrite map_app, Qsum_app, IH, Qsum_cons. reflexivity. Qed.
Lemma list_ext : forall A (l l' : list A), (forall i, nth_error l i = nth_error l' i) -> l = l'.
Proof.
  induction l as [|x l IH]; intros [|y l'] H; [reflexivity|discriminate (H 0%nat)|discriminate (H 0%nat)|].
  assert (H0 := H 0%nat). cbn in H0. f_equal; [congruence|]. apply IH. intros i. exact (H (S i)).
Qed.

Section Rays.
  Variable d : dim.
  Variable ray : Type.
  Variable integrate_ray : quad -> Z -> Z -> ray -> bool * Q.
  Variable rays : list ray.
  Hypothesis CO : consistent d integrate_ray.

  Section Proc.
    Variable blocks : list block.
    Definition pno (tree n : Z) : Z := if 0 <=? n then n - before blocks tree else -1.
    Definition mr (tree : Z) (q : quad) (n : Z) (i : Z) : bool :=
      match zget rays i with Some r => fst (integrate_ray q tree (pno tree n) r) | None => false end.
    Definition ur (tree : Z) (q : quad) (n : Z) (i : Z) (s : Q) : Q :=
      if 0 <=? n then match zget rays i with Some r => (s + snd (integrate_ray q tree (pno tree n) r))%Q | None => s end else s.
    Definition okr (i : Z) (s : Q) : Prop := 0 <= i /\ exists r, zget rays i = Some r.

    Lemma ray_fn : forall tree q n i st s, good blocks tree q n -> nth_error st (Z.to_nat i) = Some s -> okr i s ->
      integrate_ray_fn ray integrate_ray blocks rays tree q n i st = Some (mr tree q n i, upd st (Z.to_nat i) (ur tree q n i s)) /\ okr i (ur tree q n i s).
    Proof.
      intros tree q n i st s G Hs (I0 & r & Hr). split; [|split; [exact I0|now exists r]].
      unfold integrate_ray_fn, mr, ur, pno. rewrite Hr. cbn [bind]. destruct G as [-> |(N0 & b & Hb & HQ)].
      - cbn [Z.leb Z.compare]. destruct (integrate_ray q tree (-1) r) as [mm v]. cbn [fst]. rewrite upd_id by exact Hs. reflexivity.
      - destruct (Z.leb_spec 0 n); [|lia]. unfold before. rewrite Hb. cbn [bind]. rewrite HQ. cbn [bind].
        destruct (integrate_ray q tree (n - b_before b) r) as [mm v]. cbn [fst snd]. rewrite zget_nat, Hs by lia. cbn [bind].
        unfold zput. destruct (Z.ltb_spec i 0); [lia|]. rewrite put_upd by exact (nth_some_lt _ _ _ _ Hs). reflexivity.
    Qed.

    Definition part (tree : Z) (r : ray) (l : quad * Z) : Q := snd (integrate_ray (fst l) tree (snd l - before blocks tree) r).
    Lemma visit_sum : forall tree i r t, zget rays i = Some r -> nested d t -> (forall l, In l (leaves t) -> 0 <= snd l /\ 0 <= snd l - before blocks tree) ->
      forall s, (visit Q Z mr ur tree i t s == s + Qsum (map (part tree r) (leaves t)))%Q.
    Proof.
      intros tree i r t Hr. induction t as [q n|q ch IH] using stree_rect'; intros N W s.
      - destruct (W (q, n) (or_introl eq_refl)) as (W1 & W2). cbn [snd] in *. cbn [visit leaves map]. rewrite Qsum_cons, Qsum_nil. unfold ur, part, pno. cbn [fst snd].
        destruct (Z.leb_spec 0 n); [|lia]. rewrite Hr. ring.
      - inversion N as [|? ? Wq N1 N2]; subst. cbn [visit leaves]. assert (U : ur tree q (-1) i s = s) by reflexivity. rewrite U.
        destruct (mr tree q (-1) i) eqn:M.
        + clear M N2 N U. revert s. induction ch as [|t ch IHc]; intros s; [cbn [fold_left flat_map map]; rewrite Qsum_nil; ring|]. cbn [fold_left flat_map]. rewrite map_app, Qsum_app.
          rewrite IHc.
          * rewrite IH; [ring|now left|apply N1; now left|]. intros l Hl. apply W. cbn. apply in_or_app. now left.
          * intros t' H. apply IH. now right.
          * intros l Hl. apply W. cbn. apply in_or_app. now right.
          * intros t' H. apply N1. now right.
        + rewrite Qsum_zero; [ring|]. intros l Hl. destruct (Qeq_dec (part tree r l) 0) as [E|NE]; [exact E|exfalso].
          assert (X := CO (fst l) q tree _ r (proj2 (W l Hl)) (N2 l Hl) NE). unfold mr, pno in M. rewrite Hr in M. cbn [Z.leb Z.compare] in M. congruence.
    Qed.
  End Proc.

  Definition number_from {A} (k : Z) (l : list A) : list (Z * A) := combine (map (fun i => k + Z.of_nat i) (seq 0 (length l))) l.
  Lemma number_from_cons : forall A k (x : A) l, number_from k (x :: l) = (k, x) :: number_from (k + 1) l.
  Proof.
    intros A k x l. unfold number_from. cbn [length seq map combine]. f_equal; [f_equal; lia|]. f_equal.
    rewrite <- seq_shift, map_map. apply map_ext. intros i. lia.
  Qed.
  Lemma number_from_0 : forall A (l : list A), number_from 0 l = number l.
  Proof. intros A l. unfold number_from, number. f_equal. Qed.
  Lemma numbered_number : forall b, map (fun l => (snd l - b_before b, fst l)) (numbered b) = number (b_patches b).
  Proof.
    intros b. apply list_ext. intros i. rewrite nth_error_map, nth_number. unfold numbered. rewrite nth_combine, nth_error_map.
    destruct (nth_error (b_patches b) i) as [q|] eqn:E; [|reflexivity]. rewrite nth_seq by exact (nth_some_lt _ _ _ _ E). cbn. f_equal. f_equal. lia.
  Qed.

  (** contribution of a leaf (block, patch number, quadrant) *)
  Definition contribution (r : ray) (l : Z * Z * quad) : Q := let '(jb, i, q) := l in snd (integrate_ray q jb i r).

  Lemma forest_sum : forall blocks r i, zget rays i = Some r -> forall bs f, Forall2 (search_tree_of d) bs f -> Forall (block_ok d) bs ->
    forall tree, (forall j b, nth_error bs j = Some b -> zget blocks (tree + Z.of_nat j) = Some b) ->
    well_all (good blocks) tree f /\
    forall s, (visit_all Q Z (mr blocks) (ur blocks) tree f i s ==
      s + Qsum (map (contribution r) (flat_map (fun '(jb, b) => map (fun '(i, q) => (jb, i, q)) (number (b_patches b))) (number_from tree bs))))%Q.
  Proof.
    intros blocks r i Hr bs f F. induction F as [|b o bs f S0 F IH]; intros BO tree HB.
    - split; [exact Logic.I|]. intros s. cbn [visit_all number_from length seq map combine flat_map]. unfold number_from. cbn [length seq map combine flat_map]. rewrite Qsum_nil. ring.
    - inversion BO as [|? ? BO1 BO2]; subst.
      assert (HB0 : zget blocks tree = Some b). { rewrite <- (Z.add_0_r tree). exact (HB 0%nat b eq_refl). }
      destruct (IH BO2 (tree + 1)) as (W & V).
      { intros j b' H. replace (tree + 1 + Z.of_nat j) with (tree + Z.of_nat (S j)) by lia. exact (HB (S j) b' H). }
      assert (BF : before blocks tree = b_before b) by (unfold before; rewrite HB0; reflexivity).
      assert (C0 : forall l, Permutation l (numbered b) -> (Qsum (map (part blocks tree r) l) == Qsum (map (contribution r) (map (fun '(i, q) => (tree, i, q)) (number (b_patches b)))))%Q).
      { intros l P. rewrite (Qsum_perm _ _ (Permutation_map (part blocks tree r) P)). rewrite map_map, <- numbered_number, map_map.
        apply Qsum_ext. intros [q n] _. unfold part, contribution. cbn [fst snd]. rewrite BF. reflexivity. }
      destruct o as [t|].
      + destruct S0 as (N & P). split.
        * cbn [well_all]. split; [|exact W]. apply well_intro. intros l Hl. destruct (leaf_facts d b t l BO1 P Hl) as (A & _ & _ & D). right. split; [exact A|]. exists b. auto.
        * intros s. cbn [visit_all]. rewrite V. rewrite number_from_cons. cbn [flat_map]. rewrite map_app, Qsum_app.
          rewrite (visit_sum blocks tree i r t Hr N).
          -- rewrite (C0 _ P). ring.
          -- intros l Hl. rewrite BF. destruct (leaf_facts d b t l BO1 P Hl) as (A & B & _). auto.
      + split; [exact W|]. intros s. cbn [visit_all]. rewrite V. rewrite number_from_cons. cbn [flat_map]. rewrite map_app, Qsum_app.
        cbn in S0. rewrite S0. cbn [number length seq map combine]. unfold number. cbn [length seq map combine]. rewrite Qsum_nil. ring.
  Qed.

  Lemma local_integral : forall blocks forest, process_ok d (blocks, forest) -> exists res, integrate_local ray integrate_ray blocks forest rays = Some res /\
    length res = length rays /\ forall i r, nth_error rays i = Some r -> exists v, nth_error res i = Some v /\ (v == Qsum (map (contribution r) (leaves_of (blocks, forest))))%Q.
  Proof.
    intros blocks forest (B & F). cbn [fst snd] in *. unfold integrate_local.
    assert (HB : forall j b, nth_error blocks j = Some b -> zget blocks (0 + Z.of_nat j) = Some b) by (intros j b H; rewrite Z.add_0_l, zget_of_nat; exact H).
    assert (W : well_all (good blocks) 0 forest).
    { apply (well_forest d blocks forest). split; assumption. }
    destruct (search_local_ok Q Z (integrate_ray_fn ray integrate_ray blocks rays) Z.to_nat (mr blocks) (ur blocks) (good blocks) okr (ray_fn blocks) forest 0 (range 0 (length rays)) (repeat 0%Q (length rays)) W (range_nodup _ _)) as (res & E & (R1 & R2 & _) & _).
    { intros i H. apply range_in in H. exists 0%Q. rewrite nth_error_repeat by lia. split; [reflexivity|]. split; [lia|].
      rewrite zget_nat by lia. destruct (nth_error rays (Z.to_nat i)) as [r|] eqn:ER; [now exists r|]. apply nth_error_None in ER. lia. }
    exists res. split; [exact E|]. split; [rewrite R1; apply repeat_length|]. intros i r Hr. assert (L := nth_some_lt _ _ _ _ Hr).
    assert (RR := R2 (Z.of_nat i) 0%Q). rewrite Nat2Z.id, nth_error_repeat in RR by exact L. specialize (RR ltac:(apply range_in; lia) eq_refl).
    eexists. split; [exact RR|]. assert (Hr' : zget rays (Z.of_nat i) = Some r) by (rewrite zget_of_nat; exact Hr).
    destruct (forest_sum blocks r (Z.of_nat i) Hr' blocks forest F B 0 HB) as (_ & V). rewrite V. unfold leaves_of. cbn [fst]. rewrite number_from_0. ring.
  Qed.

  Lemma integrate_ok : forall procs, Forall (process_ok d) procs -> exists res, integrate_rays ray integrate_ray procs rays = Some res /\ length res = length rays /\
    forall i r, nth_error rays i = Some r -> exists v, nth_error res i = Some v /\ (v == Qsum (map (contribution r) (all_leaves procs)))%Q.
  Proof.
    intros procs PO. rewrite Forall_forall in PO. unfold integrate_rays.
    destruct (mapM_ex _ _ (fun '(b, f) => integrate_local ray integrate_ray b f rays) procs) as (res & E & L & N).
    { intros [b f] H. destruct (local_integral b f (PO _ H)) as (x & X & _). now exists x. }
    rewrite E. cbn [bind]. eexists. split; [reflexivity|]. split; [rewrite map_length, seq_length; reflexivity|].
    intros i r Hr. assert (LI := nth_some_lt _ _ _ _ Hr). rewrite nth_error_map, nth_seq by exact LI. cbn [option_map]. eexists. split; [reflexivity|].
    rewrite Nat.add_0_l. unfold allreduce_sum. fold (Qsum (map (fun l => nth i l 0%Q) res)). unfold all_leaves. rewrite Qsum_flat.
    clear E. revert res L N. induction procs as [|[b f] procs IH]; intros res L N.
    - destruct res; [reflexivity|discriminate].
    - destruct res as [|x res]; [discriminate|]. cbn [map]. rewrite !Qsum_cons.
      assert (N0 := N 0%nat _ _ eq_refl eq_refl). cbn in N0.
      destruct (local_integral b f (PO _ (or_introl eq_refl))) as (x' & X1 & _ & X2). assert (x' = x) by congruence. subst x'.
      destruct (X2 i r Hr) as (v & V1 & V2). rewrite (nth_error_nth _ _ _ V1), V2.
      assert (IH' := IH (fun y H => PO y (or_intror H)) res ltac:(cbn in L; lia) (fun j y z H1 H2 => N (S j) y z H1 H2)). rewrite IH'. reflexivity.
  Qed.
End Rays.
