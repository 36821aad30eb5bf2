(** C32: exchange of query points between overlapping domains. *)
From Coq Require Import ZArith List Bool Lia Permutation Arith Sorted.
From Verif Require Import Model_Face Model_Domain Spec_Domain Model_Search Spec_Search Proof_Search4 Model_Overlap Spec_Overlap Proof_Overlap1 Proof_Overlap2 Proof_Overlap3 Proof_Overlap4 Prop_Search.
Import ListNotations.
Open Scope Z_scope.

Section Setup.
  Variable V : Type.
  Variable d : dim.
  Variable interpolate : site -> quad -> Z -> Z -> V -> bool * V.
  Variable machine : list (list block * list (option stree)).
  Variable ptrees : list stree.
  Hypothesis US : usable V d interpolate machine ptrees.
  Hypothesis MO : machine_ok d machine ptrees.
  Variable query : nat -> list V.
  Notation size := (length machine).

  Definition found (vs : list V) : consumer V := match partition_search V interpolate (Z.of_nat size) ptrees vs with Some c => c | None => mkCo V [] [] [] [] end.
  Lemma found_ok : forall vs, partition_search V interpolate (Z.of_nat size) ptrees vs = Some (found vs) /\ inv V (Z.of_nat size) vs (found vs) /\
    forall i, (i < length vs)%nat -> mk V (found vs) i = hd (-1) (all_hits V interpolate vs 0 i ptrees).
  Proof.
    intros vs. destruct US as (U1 & _). destruct MO as (_ & _ & S1 & S2 & _).
    destruct (partition_search_ok V interpolate (Z.of_nat size) U1 vs ptrees S1 S2) as (c & E & I & M). unfold found. rewrite E. auto.
  Qed.
  Definition ans (p : nat) : V -> V := answer V interpolate p (data machine p).
  Lemma HS : forall p, (p < size)%nat -> partition_search V interpolate (Z.of_nat size) ptrees (query p) = Some (found (query p)).
  Proof. intros p _. apply found_ok. Qed.
  Lemma HI : forall p, (p < size)%nat -> inv V (Z.of_nat size) (query p) (found (query p)).
  Proof. intros p _. apply found_ok. Qed.
  Lemma data_ok : forall p, (p < size)%nat -> process_ok d (data machine p) /\ nth_error machine p = Some (data machine p).
  Proof.
    intros p L. destruct MO as (F & _). unfold data. split; [rewrite Forall_forall in F; apply F; now apply nth_In|]. now apply nth_error_nth'.
  Qed.
  Lemma HL : forall p, (p < size)%nat -> forall ops, local_search V interpolate (Z.of_nat p) (data machine p) ops = Some (map (ans p) ops).
  Proof.
    intros p L ops. destruct US as (U1 & U2 & U3 & U4 & _). apply (local_search_ok V d interpolate p U1 U2 (U3 p)); [|apply data_ok; exact L].
    intros jb i q a v H1 H2 H3. apply (U4 p jb i q a v H1 H2 H3).
  Qed.
  Definition INV := Inv V machine query (fun p => found (query p)) ans.
  Lemma reach : forall c, steps V interpolate machine ptrees (initial V query) c -> exists H G, INV H G c.
  Proof. exact (reach_inv V interpolate machine ptrees query (fun p => found (query p)) ans HS HI HL). Qed.

  Lemma value_answered : forall vs i v, nth_error vs i = Some v ->
    answered V interpolate machine v (let r := mk V (found vs) i in if 0 <=? r then ans (Z.to_nat r) v else v).
  Proof.
    intros vs i v Ev. cbv zeta. destruct (found_ok vs) as (_ & _ & M). rewrite M by exact (proj1 (nth_error_Some vs i) ltac:(congruence)).
    destruct MO as (_ & PO). destruct (owner_ok V d interpolate machine ptrees US PO vs i v Ev) as [(-> & N)|(p & L & -> & LC)].
    - right. split; [exact N|reflexivity].
    - left. assert ((0 <=? Z.of_nat p) = true) as -> by (apply Z.leb_le; lia). rewrite Nat2Z.id. destruct (data_ok p L) as (D1 & D2).
      exists p, (data machine p), (proc_order (data machine p)). split; [exact LC|]. split; [exact D2|]. split; [destruct US as (U1 & U2 & U3 & U4 & _); apply (order_perm V d interpolate p U1 U2 (U3 p)); [intros jb k q a w H1 H2 H3; apply (U4 p jb k q a w H1 H2 H3)|exact D1]|]. reflexivity.
  Qed.
End Setup.

(** Whatever the order of searches, messages and answers: when a process returns, its array has kept its length, and
    every query point, at its own position, has received one call for each leaf of the lowest process that contributes
    to it, or is unchanged if none does.  No assertion fails and no buffer is overrun on the way. *)
Theorem C32_answers : forall V d interpolate machine ptrees query c,
  usable V d interpolate machine ptrees -> machine_ok d machine ptrees ->
  steps V interpolate machine ptrees (initial V query) c ->
  forall p, (p < length machine)%nat ->
    ph V (procs V c p) <> Failed /\
    (finished V c p ->
      length (query_points V c p) = length (query p) /\
      forall i v, nth_error (query p) i = Some v -> exists v', nth_error (query_points V c p) i = Some v' /\ answered V interpolate machine v v').
Proof.
  intros V d f machine ptrees query c US MO R p L. destruct (reach V d f machine ptrees US MO query c R) as (H & G & I).
  split; [exact (no_failure V machine query _ _ H G c I p L)|]. intros F.
  destruct (finished_points V machine query _ _ (HI V d f machine ptrees US MO query) H G c I p L F) as (P1 & P2). split; [exact P1|].
  intros i v Ev. eexists. split; [exact (P2 i v Ev)|]. apply (value_answered V d f machine ptrees US MO (query p)). exact Ev.
Qed.
Print Assumptions C32_answers.

(** No deadlock, even if a send completes only when it has been received: as long as a process has not returned, some
    process can go on. *)
Theorem C32_no_deadlock : forall V d interpolate machine ptrees query c,
  usable V d interpolate machine ptrees -> machine_ok d machine ptrees ->
  steps V interpolate machine ptrees (initial V query) c ->
  (exists p, (p < length machine)%nat /\ ~ finished V c p) -> exists c', step V interpolate machine ptrees true c c'.
Proof.
  intros V d f machine ptrees query c US MO R (p & L & NF). destruct (reach V d f machine ptrees US MO query c R) as (H & G & I).
  destruct (progress V f machine ptrees query _ _ (HI V d f machine ptrees US MO query) H G c I) as [A|A]; [|exact A]. exfalso. exact (NF (A p L)).
Qed.
Print Assumptions C32_no_deadlock.

Lemma strict_step : forall V f machine ptrees c c', step V f machine ptrees true c c' -> step V f machine ptrees false c c'.
Proof. intros V f machine ptrees c c' S. inversion S; subst; econstructor; eauto; discriminate. Qed.

(** Every execution ends, and every execution can be continued to one in which all processes have returned. *)
Theorem C32_terminates : forall V d interpolate machine ptrees query,
  usable V d interpolate machine ptrees -> machine_ok d machine ptrees ->
  (~ exists run : nat -> config V, run 0%nat = initial V query /\ forall n, step V interpolate machine ptrees false (run n) (run (S n))) /\
  forall c, steps V interpolate machine ptrees (initial V query) c ->
    exists c', steps V interpolate machine ptrees c c' /\ forall p, (p < length machine)%nat -> finished V c' p.
Proof.
  intros V d f machine ptrees query US MO.
  assert (ST := step_inv V f machine ptrees query _ _ (HS V d f machine ptrees US MO query) (HI V d f machine ptrees US MO query) (HL V d f machine ptrees US MO)).
  assert (PR := progress V f machine ptrees query _ (ans V f machine) (HI V d f machine ptrees US MO query)).
  set (M := total V machine (fun p => found V f machine ptrees (query p))) in *. split.
  - intros (run & R0 & RS).
    assert (X : forall n, (exists H G, INV V f machine ptrees query H G (run n)) /\ (M (run n) + n <= M (run 0%nat))%nat).
    { induction n as [|n (IH1 & IH2)].
      - split; [|lia]. rewrite R0. exists no2, no2. apply inv_initial.
      - destruct IH1 as (H & G & I). destruct (ST _ _ _ H G I (RS n)) as (H' & G' & I' & LT). split; [exists H', G'; exact I'|]. lia. }
    destruct (X (S (M (run 0%nat)))) as (_ & Y). lia.
  - intros c R. destruct (reach V d f machine ptrees US MO query c R) as (H & G & I). clear R.
    remember (M c) as m eqn:EM. revert c H G I EM. induction m as [m IH] using lt_wf_ind. intros c H G I ->.
    destruct (PR H G c I) as [A|(c1 & S1)]; [exists c; split; [constructor|exact A]|].
    destruct (ST _ _ _ H G I S1) as (H' & G' & I' & LT). destruct (IH (M c1) LT c1 H' G' I' eq_refl) as (c2 & R2 & A2). exists c2. split; [|exact A2].
    clear - S1 R2. induction R2 as [c1|c1 c3 c4 R2 IH S2]; [eapply more; [constructor|]; now apply strict_step|]. eapply more; [apply IH; exact S1|exact S2].
Qed.
Print Assumptions C32_terminates.

(** Compiled without MPI: the same answers. *)
Theorem C32_serial : forall V d interpolate pr ptrees vs,
  usable V d interpolate [pr] ptrees -> machine_ok d [pr] ptrees ->
  exists vs', overlap_serial V interpolate 1 ptrees pr 0 vs = Some vs' /\ length vs' = length vs /\
    forall i v, nth_error vs i = Some v -> exists v', nth_error vs' i = Some v' /\ answered V interpolate [pr] v v'.
Proof.
  intros V d f pr ptrees vs US MO. destruct (found_ok V d f [pr] ptrees US MO vs) as (E & I & _). set (c := found V f [pr] ptrees vs) in *. cbn [length] in E, I.
  change (Z.of_nat 1) with 1 in *. unfold overlap_serial. rewrite E. cbn [bind]. unfold update_local. cbn [co iconrank]. change (0 <=? 0) with true. cbn [andb].
  assert (VA := value_answered V d f [pr] ptrees US MO vs). fold c in VA. cbv zeta in VA.
  destruct I as [I1 I2 I3 I4 I5 I6 I7 I8].
  assert (R0 : forall i, mk V c i = -1 \/ mk V c i = 0).
  { intros i. assert (X := I7 i). destruct (Z.eq_dec (mk V c i) (-1)) as [Y|Y]; [now left|]. right. destruct (proj1 (I6 i (mk V c i) ltac:(lia)) eq_refl) as (ids & Z1 & _).
    assert (W : 0 <= mk V c i < 1) by (apply I5; unfold ranks; apply in_map_iff; exists (mk V c i, ids); auto). lia. }
  destruct (sendb V c) as [|[r ops] l] eqn:ES.
  - cbn [length Nat.ltb Nat.leb bind]. exists (points V c). split; [reflexivity|]. rewrite I1. split; [reflexivity|]. intros i v Ev. exists v. split; [exact Ev|].
    assert (EQ : qidx V c = []) by (apply Forall2_len in I3; destruct (qidx V c); [reflexivity|discriminate]). specialize (VA i v Ev). destruct (R0 i) as [X|X]; [rewrite X in VA; exact VA|].
    destruct (proj1 (I6 i 0 ltac:(lia)) X) as (ids & Z1 & _). rewrite EQ in Z1. destruct Z1.
  - cbn [length Nat.ltb Nat.leb]. unfold zget. change (0 <? 0) with false. cbn [Z.to_nat nth_error bind].
    destruct (qidx V c) as [|[r' ids] l'] eqn:EQ; [inversion I3|].
    assert (X : r = r' /\ Forall2 (fun v i => nth_error vs i = Some v) ops ids) by (inversion I3 as [|? ? ? ? (X1 & X2 & X3)]; auto). destruct X as (<- & X3).
    assert (r = 0). { assert (0 <= r < 1); [|lia]. apply I5. unfold ranks. rewrite EQ. now left. } subst r.
    assert (HLL := HL V d f [pr] ptrees US MO 0%nat ltac:(cbn; lia) ops). change (Z.of_nat 0) with 0 in HLL. unfold data in HLL at 1. cbn [nth] in HLL. rewrite HLL. cbn [bind].
    unfold update_from_buffer. cbn [nth_error bind].
    destruct (copy_back_ok V (ans V f [pr] 0) vs ops ids X3 (I8 0 ids ltac:(now left)) (points V c) ltac:(now rewrite I1)) as (pts & C1 & C2 & C3 & C4).
    rewrite C1. cbn [bind points]. exists pts. split; [reflexivity|]. split; [exact C2|]. intros i v Ev. specialize (VA i v Ev).
    assert (IN : mk V c i = 0 <-> In i ids).
    { rewrite (I6 i 0 ltac:(lia)). split; [|intros X; exists ids; split; [now left|exact X]]. intros (ids' & Z1 & Z2).
      assert ((0, ids') = (0, ids)); [|congruence]. apply (nodup_inj _ fst ((0, ids) :: l')); [apply SSorted_NoDup; unfold ranks in I4; rewrite EQ in I4; exact I4|exact Z1|now left|reflexivity]. }
    destruct (in_dec Nat.eq_dec i ids) as [J|J].
    + exists (ans V f [pr] 0 v). split; [exact (C3 i v J Ev)|]. rewrite (proj2 IN J) in VA. exact VA.
    + exists v. split; [rewrite (C4 i J), I1; exact Ev|]. destruct (R0 i) as [X|X]; [rewrite X in VA; exact VA|]. exfalso. apply J. now apply IN.
Qed.
Print Assumptions C32_serial.

(** *** Example: the four children of a block on two processes (Prop_Search); a point has a position and a list of the
    contributions (process and patch number) *)
Definition pt : Type := Z * Z * list (Z * Z).
Definition inside (q : quad) (v : pt) : bool :=
  let '(x, y, _) := v in (q_x q <=? x) && (x <=? q_x q + side D2 (q_level q)) && (q_y q <=? y) && (y <=? q_y q + side D2 (q_level q)).
Definition contributions : site -> quad -> Z -> Z -> pt -> bool * pt := fun s q jb i v =>
  let '(x, y, l) := v in
  let c := (jb =? 0) && inside q v in
  (c, if c && (0 <=? i) then (x, y, l ++ [(match s with Meta r => r | Local r => r end, i)]) else v).
Definition ptrees2 : list stree := [Node root [Leaf (ch 0 0) 0; Leaf (ch 1 0) 0; Leaf (ch 0 1) 1; Leaf (ch 1 1) 1]].

Lemma inside_within : forall q a v, within D2 q a -> inside q v = true -> inside a v = true.
Proof.
  intros q a [[x y] l] (W1 & W2 & _) H. unfold inside in *. rewrite !andb_true_iff, !Z.leb_le in *. lia.
Qed.
Lemma leaves0 : leaves_of (nth 0 procs2 ([], [])) = [(0, 0, ch 0 0); (0, 1, ch 1 0)].
Proof. reflexivity. Qed.
Lemma leaves1 : leaves_of (nth 1 procs2 ([], [])) = [(0, 0, ch 0 1); (0, 1, ch 1 1)].
Proof. reflexivity. Qed.
Lemma contributions_usable : usable pt D2 contributions procs2 ptrees2.
Proof.
  assert (P : forall s q jb i v, fst (fst (snd (contributions s q jb i v))) = fst (fst v) /\ snd (fst (snd (contributions s q jb i v))) = snd (fst v)).
  { intros s q jb i [[x y] l]. cbn [contributions snd]. destruct (_ && (0 <=? i)); split; reflexivity. }
  assert (Q : forall s q jb i v v', fst v = fst v' -> fst (contributions s q jb i v) = fst (contributions s q jb i v')).
  { intros s q jb i [[x y] l] [[x' y'] l'] E. cbn [fst] in E. assert (x = x') by congruence. assert (y = y') by congruence. subst. reflexivity. }
  assert (F : forall s q jb i v, fst (contributions s q jb i v) = (jb =? 0) && inside q v) by (intros s q jb i [[x y] l]; reflexivity).
  split; [|split; [|split; [|split]]].
  - intros s q jb [[x y] l]. cbn [contributions snd]. change (0 <=? -1) with false. now rewrite andb_false_r.
  - intros s q jb i s' q' jb' i' v. apply Q. destruct (P s' q' jb' i' v) as (P1 & P2). destruct (snd (contributions s' q' jb' i' v)) as [[a b] ?], v as [[a' b'] ?]. cbn in *. congruence.
  - intros p v [[jb i] q] H. unfold hit in H. unfold contribute. rewrite F in H. destruct v as [[x y] l]. cbn [contributions snd]. destruct ((jb =? 0) && inside q (x, y, l)); [contradiction|reflexivity].
  - intros p jb i q a v _ W H. unfold hit in H. rewrite !F in *. rewrite andb_true_iff in H. destruct H as (H1 & H2). rewrite H1, (inside_within _ _ _ W H2). auto.
  - intros p jb t a v E IN H. rewrite F in H. rewrite andb_true_iff in H. destruct H as (H1 & H2). apply Z.eqb_eq in H1. subst jb. cbn in E. assert (t = Node root [Leaf (ch 0 0) 0; Leaf (ch 1 0) 0; Leaf (ch 0 1) 1; Leaf (ch 1 1) 1]) as -> by congruence.
    assert (X : exists i, nth_error procs2 p = Some (nth p procs2 ([], [])) /\ In (0, i, a) (leaves_of (nth p procs2 ([], [])))).
    { cbn [leaves flat_map app] in IN. destruct IN as [IN|[IN|[IN|[IN|[]]]]].
      - assert (p = 0%nat) as -> by (assert (0 = Z.of_nat p) by congruence; lia). exists 0. split; [reflexivity|]. rewrite leaves0. left. congruence.
      - assert (p = 0%nat) as -> by (assert (0 = Z.of_nat p) by congruence; lia). exists 1. split; [reflexivity|]. rewrite leaves0. right. left. congruence.
      - assert (p = 1%nat) as -> by (assert (1 = Z.of_nat p) by congruence; lia). exists 0. split; [reflexivity|]. rewrite leaves1. left. congruence.
      - assert (p = 1%nat) as -> by (assert (1 = Z.of_nat p) by congruence; lia). exists 1. split; [reflexivity|]. rewrite leaves1. right. left. congruence. }
    destruct X as (i & X1 & X2). exists (nth p procs2 ([], [])), (0, i, a). split; [exact X1|]. split; [exact X2|]. unfold hit. rewrite F. now rewrite H2.
Qed.
Lemma machine2_ok : machine_ok D2 procs2 ptrees2.
Proof.
  split; [exact procs2_ok|]. split; [|split; [|split]].
  - constructor; [|constructor]. apply n_node; [exact root_wf| |].
    + intros t [<-|[<-|[<-|[<-|[]]]]]; constructor.
    + intros l [<-|[<-|[<-|[<-|[]]]]]; apply ch_within; lia.
  - cbn. repeat constructor; lia.
  - cbn. repeat constructor; lia.
  - assert (W : forall q, within D2 q q) by (intros q; unfold within; split; [lia|split; [lia|exact Logic.I]]).
    intros p pr jb i q E IN. destruct p as [|[|p]]; [| |destruct p; discriminate].
    + assert (pr = nth 0 procs2 ([], [])) by (cbn in *; congruence). subst pr. rewrite leaves0 in IN. eexists _, q.
      assert (jb = 0 /\ (q = ch 0 0 \/ q = ch 1 0)) as (-> & Q) by (destruct IN as [IN|[IN|[]]]; split; try congruence; [left|right]; congruence).
      split; [reflexivity|]. split; [|apply W]. destruct Q as [-> | ->]; [now left|right; now left].
    + assert (pr = nth 1 procs2 ([], [])) by (cbn in *; congruence). subst pr. rewrite leaves1 in IN. eexists _, q.
      assert (jb = 0 /\ (q = ch 0 1 \/ q = ch 1 1)) as (-> & Q) by (destruct IN as [IN|[IN|[]]]; split; try congruence; [left|right]; congruence).
      split; [reflexivity|]. split; [|apply W]. destruct Q as [-> | ->]; [right; right; now left|right; right; right; now left].
Qed.

(** process 0 asks for the corner of all four patches and a point outside, process 1 for two inner points *)
Definition query2 (p : nat) : list pt := match p with O => [(h1, h1, []); (5 * h1, 0, [])] | _ => [(1, 1, []); (h1 + 1, h1 + 1, [])] end.
Example C32_instance :
  usable pt D2 contributions procs2 ptrees2 /\ machine_ok D2 procs2 ptrees2 /\
  lowest_contributing pt contributions procs2 0 (h1, h1, []) /\ contributes pt contributions procs2 1 (h1, h1, []) /\
  lowest_contributing pt contributions procs2 1 (h1 + 1, h1 + 1, []).
Proof.
  split; [exact contributions_usable|]. split; [exact machine2_ok|].
  assert (C : forall p v, contributes pt contributions procs2 p v <-> exists l, In l (leaves_of (nth p procs2 ([], []))) /\ hit pt contributions p v l).
  { intros p v. split.
    - intros (pr & l & E & H). exists l. rewrite (nth_error_nth _ _ ([], []) E). exact H.
    - intros (l & H1 & H2). exists (nth p procs2 ([], [])), l. split; [|auto]. destruct p as [|[|p]]; [reflexivity|reflexivity|]. destruct p; destruct H1. }
  split; [split; [|intros p' X; lia]|split].
  - apply C. exists (0, 0, ch 0 0). rewrite leaves0. split; [now left|vm_compute; reflexivity].
  - apply C. exists (0, 0, ch 0 1). rewrite leaves1. split; [now left|vm_compute; reflexivity].
  - split.
    + apply C. exists (0, 1, ch 1 1). rewrite leaves1. split; [right; now left|vm_compute; reflexivity].
    + intros p' X. assert (p' = 0%nat) as -> by lia. intros Y. apply C in Y. destruct Y as (l & Y1 & Y2). rewrite leaves0 in Y1. destruct Y1 as [<-|[<-|[]]]; vm_compute in Y2; discriminate.
Qed.

(** The English property fails for a point to which several processes contribute: only the contributions of the lowest
    of them arrive. *)
Theorem C32_several_processes_refuted :
  ~ (forall V d interpolate machine ptrees query c, usable V d interpolate machine ptrees -> machine_ok d machine ptrees ->
       steps V interpolate machine ptrees (initial V query) c -> (forall p, (p < length machine)%nat -> finished V c p) ->
       forall p i v, (p < length machine)%nat -> nth_error (query p) i = Some v ->
       exists v', nth_error (query_points V c p) i = Some v' /\ answered_by_all V interpolate machine v v').
Proof.
  intros A. destruct (C32_terminates pt D2 contributions procs2 ptrees2 query2 contributions_usable machine2_ok) as (_ & T).
  destruct (T _ (Model_Overlap.none pt contributions procs2 ptrees2 (initial pt query2))) as (c & R & F).
  specialize (A pt D2 contributions procs2 ptrees2 query2 c contributions_usable machine2_ok R F 0%nat 0%nat (h1, h1, []) ltac:(cbn; lia) eq_refl). destruct A as (v' & E & l & PM & EV).
  destruct (C32_answers pt D2 contributions procs2 ptrees2 query2 c contributions_usable machine2_ok R 0%nat ltac:(cbn; lia)) as (_ & B).
  destruct (B (F 0%nat ltac:(cbn; lia))) as (_ & B2). destruct (B2 0%nat (h1, h1, []) eq_refl) as (w & E' & AN). assert (w = v') by congruence. subst w. clear B B2 E'.
  destruct C32_instance as (_ & _ & LC & _).
  (* number of contributions of process 1 *)
  pose (n1 := fun v : pt => length (filter (fun x => fst x =? 1) (snd v))).
  assert (ST : forall p leaf v, n1 (contribute pt contributions p v leaf) = (if Nat.eqb p 1 && (0 <=? snd (fst leaf)) && (fst (fst leaf) =? 0) && inside (snd leaf) v then S (n1 v) else n1 v) /\
                 fst (contribute pt contributions p v leaf) = fst v).
  { intros p [[jb i] q] [[x y] lg]. cbn [contribute contributions snd fst]. set (b := inside q (x, y, lg)). destruct (jb =? 0), b, (0 <=? i); cbn [andb]; rewrite ?andb_false_r; split; try reflexivity; unfold n1; cbn [snd]; try lia.
    rewrite filter_app, app_length. cbn [filter fst]. destruct (Nat.eqb_spec p 1) as [->|NE]; [simpl; lia|]. destruct (Z.eqb_spec (Z.of_nat p) 1); [lia|simpl; lia]. }
  assert (Z0 : n1 v' = 0%nat).
  { destruct AN as [(p & pr & l0 & LC' & E0 & PM0 & ->)|(N & _)]; [|exfalso; exact (N 0%nat (proj1 LC))].
    assert (p = 0%nat) as ->. { destruct p; [reflexivity|]. exfalso. exact (proj2 LC' 0%nat ltac:(lia) (proj1 LC)). }
    assert (G : forall k v, n1 v = 0%nat -> n1 (fold_left (contribute pt contributions 0) k v) = 0%nat).
    { induction k as [|x k IH]; intros v H; [exact H|]. cbn [fold_left]. apply IH. destruct (ST 0%nat x v) as (X & _). rewrite X, H. reflexivity. }
    apply G. reflexivity. }
  assert (Z1 : forall k v, fst v = (h1, h1) -> In (1%nat, (0, 0, ch 0 1)) k -> (0 < n1 (fold_left (fun w '(p, leaf) => contribute pt contributions p w leaf) k v))%nat).
  { assert (MON : forall k v, (n1 v <= n1 (fold_left (fun w '(p, leaf) => contribute pt contributions p w leaf) k v))%nat).
    { induction k as [|[p x] k IH]; intros v; [apply le_n|]. cbn [fold_left]. destruct (ST p x v) as (X & _). specialize (IH (contribute pt contributions p v x)). rewrite X in IH. destruct (_ && inside (snd x) v); lia. }
    induction k as [|[p x] k IH]; intros v Ev IN; [destruct IN|]. cbn [fold_left]. destruct (ST p x v) as (X & Y). destruct IN as [IN|IN].
    - assert (p = 1%nat) by congruence. assert (x = (0, 0, ch 0 1)) by congruence. subst p x. cbn [fst snd] in X.
      assert (IS : inside (ch 0 1) v = true). { destruct v as [[x y] lg]. cbn [fst] in Ev. assert (x = h1) by congruence. assert (y = h1) by congruence. subst. vm_compute. reflexivity. }
      rewrite IS in X. change ((1 =? 1)%nat && (0 <=? 0) && (0 =? 0) && true) with true in X. specialize (MON k (contribute pt contributions 1 v (0, 0, ch 0 1))). rewrite X in MON. cbv iota in MON. lia.
    - apply IH; [congruence|exact IN]. }
  assert (X := Z1 l (h1, h1, []) eq_refl). rewrite <- EV, Z0 in X. assert (0 < 0)%nat; [|lia]. apply X. apply (Permutation_in _ (Permutation_sym PM)). right. right. now left.
Qed.
Print Assumptions C32_several_processes_refuted.
