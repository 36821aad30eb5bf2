(** C30: point search; C31: ray integrals. *)
From Coq Require Import ZArith QArith List Bool Lia Permutation Arith.
From Verif Require Import Base_Float Model_Face Model_Domain Spec_Domain Model_Search Spec_Search Proof_Search Proof_Search2 Proof_Search3 Proof_Search4.
Import ListNotations.
Open Scope Z_scope.

(** A point of block [jb] gets, on the lowest process with a patch that contains it, the smallest number of
    such a patch, and -1 on all others. *)
Theorem C30_search_points : forall rnd, rounding rnd -> forall d procs nb offsets coordinates,
  Forall (process_ok d) procs -> Forall (fun pr => length (fst pr) = nb) procs -> offsets_ok nb offsets (length coordinates) ->
  exists res, search_points rnd d procs offsets coordinates = Some res /\ length res = length procs /\
    forall p pr jb ip pt, nth_error procs p = Some pr -> (jb < nb)%nat -> nth jb offsets 0 <= Z.of_nat ip < nth (S jb) offsets 0 ->
      nth_error coordinates ip = Some pt ->
      exists l r, nth_error res p = Some l /\ nth_error l ip = Some r /\
        ((lowest d procs p jb pt /\ has d pr jb pt r /\ forall i, has d pr jb pt i -> r <= i) \/ (~ lowest d procs p jb pt /\ r = -1)).
Proof. intros rnd R d procs nb offs coords PO LB OO. exact (search_points_ok rnd R d nb offs coords OO procs PO LB). Qed.
Print Assumptions C30_search_points.

(** Exactly one process reports a point that some patch contains, and none a point that no patch contains. *)
Theorem C30_exactly_once : forall rnd, rounding rnd -> forall d procs nb offsets coordinates res,
  Forall (process_ok d) procs -> Forall (fun pr => length (fst pr) = nb) procs -> offsets_ok nb offsets (length coordinates) ->
  search_points rnd d procs offsets coordinates = Some res ->
  forall jb ip pt, (jb < nb)%nat -> nth jb offsets 0 <= Z.of_nat ip < nth (S jb) offsets 0 -> nth_error coordinates ip = Some pt ->
  let reports p := exists l r, nth_error res p = Some l /\ nth_error l ip = Some r /\ 0 <= r in
  (forall p p', reports p -> reports p' -> p = p') /\
  ((exists p, reports p) <-> exists p pr i, nth_error procs p = Some pr /\ has d pr jb pt i).
Proof.
  intros rnd R d procs nb offs coords res PO LB OO E jb ip pt JB IP HC reports.
  destruct (C30_search_points rnd R d procs nb offs coords PO LB OO) as (res' & E' & L & H). assert (res' = res) by congruence. subst res'.
  assert (RP : forall p, reports p <-> lowest d procs p jb pt).
  { intros p. split.
    - intros (l & r & H1 & H2 & H3). destruct (nth_error procs p) as [pr|] eqn:EP; [|apply nth_error_None in EP; apply nth_some_lt in H1; lia].
      destruct (H p pr jb ip pt EP JB IP HC) as (l' & r' & X1 & X2 & [(X3 & _)|(_ & X3)]); [exact X3|]. assert (l' = l) by congruence. subst l'. assert (r = r') by congruence. lia.
    - intros LW. destruct LW as ((pr & i & EP & Hi) & LW).
      destruct (H p pr jb ip pt EP JB IP HC) as (l' & r' & X1 & X2 & [(X3 & X4 & _)|(X3 & _)]).
      + exists l', r'. split; [exact X1|]. split; [exact X2|]. destruct X4 as (b & q & _ & X4 & _). apply zget_ge in X4. lia.
      + exfalso. apply X3. split; [exists pr, i; auto|exact LW]. }
  split.
  - intros p p' H1 H2. apply RP in H1. apply RP in H2. destruct H1 as ((pr & i & A1 & A2) & A3). destruct H2 as ((pr' & i' & B1 & B2) & B3).
    destruct (lt_eq_lt_dec p p') as [[LT|EQ]|LT]; [|exact EQ|].
    + exfalso. exact (B3 p pr i LT A1 A2).
    + exfalso. exact (A3 p' pr' i' LT B1 B2).
  - split.
    + intros (p & Hp). apply RP in Hp. destruct Hp as ((pr & i & A1 & A2) & _). exists p, pr, i. auto.
    + intros (p & pr & i & A1 & A2).
      (* every process before the first match reports -1: decide with the results *)
      assert (DEC : forall n, (exists p0, reports p0 /\ (p0 < n)%nat) \/ (forall p' pr' i', (p' < n)%nat -> nth_error procs p' = Some pr' -> ~ has d pr' jb pt i')).
      { induction n as [|n IH]; [right; intros p' pr' i' X; lia|]. destruct IH as [(p0 & X & Y)|IH]; [left; exists p0; split; [exact X|lia]|].
        destruct (nth_error procs n) as [prn|] eqn:EN.
        - destruct (H n prn jb ip pt EN JB IP HC) as (l' & r' & X1 & X2 & [(X3 & _)|(X3 & _)]).
          + left. exists n. split; [apply RP; exact X3|lia].
          + right. intros p' pr' i' Lp Hp Hh. destruct (Nat.eq_dec p' n) as [->|NE]; [|apply (IH p' pr' i'); [lia|exact Hp|exact Hh]].
            apply X3. split; [exists pr', i'; auto|]. exact IH.
        - right. intros p' pr' i' Lp Hp Hh. destruct (Nat.eq_dec p' n) as [->|NE]; [congruence|]. apply (IH p' pr' i'); [lia|exact Hp|exact Hh]. }
      destruct (DEC (S p)) as [(p0 & X & _)|X]; [now exists p0|]. exfalso. exact (X p pr i ltac:(lia) A1 A2).
Qed.
Print Assumptions C30_exactly_once.

(** Each integral is the sum of the contributions of all leaves of all processes. *)
Theorem C31_integrals : forall d ray (integrate_ray : quad -> Z -> Z -> ray -> bool * Q) rays procs,
  consistent d integrate_ray -> Forall (process_ok d) procs ->
  exists res, integrate_rays ray integrate_ray procs rays = Some res /\ length res = length rays /\
    forall k r, nth_error rays k = Some r -> exists v, nth_error res k = Some v /\
      (v == Qsum (map (fun '(jb, i, q) => snd (integrate_ray q jb i r)) (all_leaves procs)))%Q.
Proof. intros d ray f rays procs C P. exact (integrate_ok d ray f rays C procs P). Qed.
Print Assumptions C31_integrals.

(** Two partitions of the same forest give the same integrals, if the contribution of a patch does not depend on
    its local number. *)
Theorem C31_partition_independent : forall d ray (integrate_ray : quad -> Z -> Z -> ray -> bool * Q) rays procs procs' res res',
  consistent d integrate_ray -> Forall (process_ok d) procs -> Forall (process_ok d) procs' ->
  (forall q jb i i' r, 0 <= i -> 0 <= i' -> (snd (integrate_ray q jb i r) == snd (integrate_ray q jb i' r))%Q) ->
  Permutation (map (fun '(jb, i, q) => (jb, q)) (all_leaves procs)) (map (fun '(jb, i, q) => (jb, q)) (all_leaves procs')) ->
  integrate_rays ray integrate_ray procs rays = Some res -> integrate_rays ray integrate_ray procs' rays = Some res' ->
  forall k v v', nth_error res k = Some v -> nth_error res' k = Some v' -> (v == v')%Q.
Proof.
  intros d ray f rays procs procs' res res' C P P' IND PM E E' k v v' Hv Hv'.
  destruct (C31_integrals d ray f rays procs C P) as (r1 & X1 & L1 & V1). destruct (C31_integrals d ray f rays procs' C P') as (r2 & X2 & L2 & V2).
  assert (r1 = res) by congruence. assert (r2 = res') by congruence. subst r1 r2.
  destruct (nth_error rays k) as [r|] eqn:ER; [|apply nth_error_None in ER; apply nth_some_lt in Hv; lia].
  destruct (V1 k r ER) as (a & A1 & A2). destruct (V2 k r ER) as (b & B1 & B2). assert (a = v) by congruence. assert (b = v') by congruence. subst a b.
  rewrite A2, B2.
  assert (N : forall pr jb i q, In (jb, i, q) (all_leaves pr) -> 0 <= i).
  { intros pr jb i q H. apply in_flat_map in H. destruct H as (x & _ & H). apply in_flat_map in H. destruct H as ((jb' & b) & _ & H).
    apply in_map_iff in H. destruct H as ((i' & q') & H1 & H2). assert (i' = i) by congruence. subst i'. apply in_number in H2. apply zget_ge in H2. lia. }
  assert (S : forall pr, (Qsum (map (fun '(jb, i, q) => snd (f q jb i r)) (all_leaves pr)) == Qsum (map (fun '(jb, q) => snd (f q jb 0%Z r)) (map (fun '(jb, i, q) => (jb, q)) (all_leaves pr))))%Q).
  { intros pr. rewrite map_map. apply Qsum_ext. intros ((jb & i) & q) H. apply IND; [exact (N pr jb i q H)|lia]. }
  rewrite !S. apply Qsum_perm. apply Permutation_map. exact PM.
Qed.
Print Assumptions C31_partition_independent.

(** *** Example: the four children of a block on two processes *)
Definition h1 : Z := 2 ^ 29.
Definition ch (i j : Z) : quad := mkQuad 1 (i * h1) (j * h1) 0.
Definition root : quad := mkQuad 0 0 0 0.
Definition procs2 : list (list block * list (option stree)) :=
  [([mkB 0 [ch 0 0; ch 1 0]], [Some (Node root [Leaf (ch 0 0) 0; Leaf (ch 1 0) 1])]);
   ([mkB 0 [ch 0 1; ch 1 1]], [Some (Node root [Leaf (ch 1 1) 1; Leaf (ch 0 1) 0])])].
Definition points2 : list point := [mkPt (1 # 2) (1 # 2) 0; mkPt (3 # 4) (3 # 4) 0; mkPt (2 # 1) (0 # 1) 0; mkPt (1 # 1) (0 # 1) 0].
(** user callback: the integral of a ray x = r along y is the height of the patches it crosses *)
Definition cross (q : quad) (jb i : Z) (r : Q) : bool * Q :=
  let c := Qle_bool (unit_coord D2 (q_x q)) r && Qle_bool r (unit_coord D2 (q_x q + side D2 (q_level q))) in
  (c, if c then unit_coord D2 (side D2 (q_level q)) else 0%Q).

Lemma ch_wf : forall i j, 0 <= i <= 1 -> 0 <= j <= 1 -> wf_quad D2 (ch i j).
Proof.
  assert (S1 : side D2 1 = h1) by reflexivity. assert (S0 : side D2 0 = 2 * h1) by (unfold h1; cbn; reflexivity).
  assert (P : 0 < h1) by (unfold h1; apply Z.pow_pos_nonneg; lia).
  assert (A : forall i, 0 <= i <= 1 -> aligned D2 1 (i * h1)).
  { intros i Hi. exists i. rewrite S1, S0. assert (i = 0 \/ i = 1) as [-> | ->] by lia; lia. }
  intros i j Hi Hj. split; [cbn; lia|]. split; [apply A; exact Hi|]. split; [apply A; exact Hj|reflexivity].
Qed.
Lemma root_wf : wf_quad D2 root.
Proof.
  assert (P : 0 < side D2 0) by (apply Z.pow_pos_nonneg; lia).
  assert (A : aligned D2 0 0) by (exists 0; lia). split; [cbn; lia|]. split; [exact A|]. split; [exact A|reflexivity].
Qed.
Lemma ch_within : forall i j, 0 <= i <= 1 -> 0 <= j <= 1 -> within D2 (ch i j) root.
Proof.
  assert (S0 : side D2 0 = 2 * h1) by (unfold h1; cbn; reflexivity). assert (S1 : side D2 1 = h1) by reflexivity.
  assert (P : 0 < h1) by (unfold h1; apply Z.pow_pos_nonneg; lia).
  intros i j Hi Hj. unfold within. cbn [q_x q_y q_level ch root]. rewrite S0, S1.
  assert (i = 0 \/ i = 1) as [-> | ->] by lia; assert (j = 0 \/ j = 1) as [-> | ->] by lia; (split; [lia|split; [lia|exact Logic.I]]).
Qed.
Lemma procs2_ok : Forall (process_ok D2) procs2.
Proof.
  assert (F : forall b x y, b = mkB 0 [x; y] -> wf_quad D2 x -> wf_quad D2 y -> Forall (block_ok D2) [b]).
  { intros b x y -> W1 W2. constructor; [|constructor]. split; [cbn; lia|]. repeat (constructor; [assumption|]). constructor. }
  constructor; [|constructor; [|constructor]].
  - split; [apply (F _ (ch 0 0) (ch 1 0) eq_refl); apply ch_wf; lia|]. constructor; [|constructor]. cbn [search_tree_of fst snd]. split.
    + apply n_node; [exact root_wf| |].
      * intros t [<-|[<-|[]]]; constructor.
      * intros l [<-|[<-|[]]]; apply ch_within; lia.
    + apply Permutation_refl.
  - split; [apply (F _ (ch 0 1) (ch 1 1) eq_refl); apply ch_wf; lia|]. constructor; [|constructor]. cbn [search_tree_of fst snd]. split.
    + apply n_node; [exact root_wf| |].
      * intros t [<-|[<-|[]]]; constructor.
      * intros l [<-|[<-|[]]]; apply ch_within; lia.
    + apply perm_swap.
Qed.
Example C30_instance :
  Forall (process_ok D2) procs2 /\ offsets_ok 1 [0; 4] (length points2) /\
  search_points (fun x => x) D2 procs2 [0; 4] points2 = Some [[0; -1; -1; 1]; [-1; 1; -1; -1]].
Proof.
  split; [exact procs2_ok|]. split.
  - split; [reflexivity|]. split; [reflexivity|]. split; [reflexivity|]. intros i Hi. assert (i = 0%nat) by lia. subst i. cbn. lia.
  - vm_compute. reflexivity.
Qed.
Lemma cross_consistent : consistent D2 cross.
Proof.
  intros q a jb i r _ ((A1 & A2) & _) H. unfold cross in *. cbn [fst snd] in *.
  destruct (Qle_bool (unit_coord D2 (q_x q)) r && Qle_bool r (unit_coord D2 (q_x q + side D2 (q_level q)))) eqn:E; [|exfalso; apply H; reflexivity].
  apply andb_true_iff in E. rewrite !Qle_bool_iff in E. destruct E as (E1 & E2). apply andb_true_iff. rewrite !Qle_bool_iff. split.
  - eapply Qle_trans; [apply unit_mono; exact A1|exact E1].
  - eapply Qle_trans; [exact E2|apply unit_mono; exact A2].
Qed.
Example C31_instance : consistent D2 cross /\
  option_map (map Qred) (integrate_rays Q cross procs2 [(1 # 4)%Q; (1 # 2)%Q; (3 # 1)%Q]) = Some [(1 # 1)%Q; (2 # 1)%Q; 0%Q].
Proof. split; [exact cross_consistent|]. vm_compute. reflexivity. Qed.
