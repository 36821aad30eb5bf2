(** Samples are written exactly once. *)
From Coq Require Import ZArith QArith List Bool Lia Arith.
From Verif Require Import Model_Search Model_Gauge Spec_Gauge Proof_Search Proof_Search2 Proof_Search3.
Import ListNotations.
Open Scope Z_scope.

Lemma flat_map_none : forall A B (f : A -> list B) l, (forall x, In x l -> f x = []) -> flat_map f l = [].
Proof. induction l as [|x l IH]; intros H; [reflexivity|]. cbn. rewrite (H x (or_introl eq_refl)), IH; [reflexivity|]. intros y Y. apply H. now right. Qed.
Lemma flat_map_one : forall A B (f : A -> list B) l x, NoDup l -> In x l -> (forall y, In y l -> y <> x -> f y = []) -> flat_map f l = f x.
Proof.
  induction l as [|y l IH]; intros x ND IN H; [contradiction|]. inversion ND; subst. cbn. destruct IN as [->|IN].
  - rewrite flat_map_none; [apply app_nil_r|]. intros z Z. apply H; [now right|]. congruence.
  - rewrite (H y (or_introl eq_refl)); [|congruence]. cbn. apply IH; auto. intros z Z. apply H. now right.
Qed.
Lemma mapM_id_some : forall A (l : list A), mapM (fun x => x) (map Some l) = Some l.
Proof. induction l as [|x l IH]; [reflexivity|]. cbn. rewrite IH. reflexivity. Qed.
Lemma firstn_upd : forall A (l : list A) n v, (n < length l)%nat -> firstn (S n) (upd l n v) = firstn n l ++ [v].
Proof. induction l as [|x l IH]; intros n v H; cbn in H; [lia|]. destruct n; [reflexivity|]. cbn [upd]. rewrite firstn_cons, IH by lia. reflexivity. Qed.
Lemma find_some_in : forall f P p, (find f (seq 0 P) = Some p) -> (p < P)%nat /\ f p = true.
Proof. intros f P p H. apply find_some in H. destruct H as (H & H'). apply in_seq in H. split; [lia|exact H']. Qed.

  (** choose witnesses for all gauges *)
  Lemma choose2 (n : nat) (A B : Type) (a0 : A) (b0 : B) (R : nat -> A -> B -> Prop) : (forall i, (i < n)%nat -> exists a b, R i a b) ->
    exists f g, forall i, (i < n)%nat -> R i (f i) (g i).
  Proof.
    intros H. induction n as [|k IH]; [exists (fun _ => a0), (fun _ => b0); intros i X; lia|].
    destruct IH as (f & g & FG); [intros i X; apply H; lia|]. destruct (H k ltac:(lia)) as (a & b & AB).
    exists (fun i => if Nat.eqb i k then a else f i), (fun i => if Nat.eqb i k then b else g i). intros i X.
    destruct (Nat.eqb i k) eqn:E; [apply Nat.eqb_eq in E; subst; exact AB|]. apply Nat.eqb_neq in E. apply FG. lia.
  Qed.

Section Values.
  Variable V : Type.
  Notation world := (world V). Notation gauge := (gauge V).

  Definition outof (x : option (gauge * list (sample V))) : list (sample V) := match x with Some (_, o) => o | None => [] end.

  (** a collective call, executed in any order *)
  Lemma phase (f : nat -> nat -> gauge -> option (gauge * list (sample V))) : (forall p i g g' o, f p i g = Some (g', o) -> num V g' = num V g) ->
    forall order w, NoDup order -> (forall p i, In (p, i) order -> exists g' o, f p i (gauges V w p i) = Some (g', o)) ->
    exists w', foldM (act V f) order w = Some w' /\
      (forall p i, In (p, i) order -> exists o, f p i (gauges V w p i) = Some (gauges V w' p i, o)) /\
      (forall p i, ~ In (p, i) order -> gauges V w' p i = gauges V w p i) /\
      forall id, files V w' id = files V w id ++ flat_map (fun pi => if id =? num V (gauges V w (fst pi) (snd pi)) then outof (f (fst pi) (snd pi) (gauges V w (fst pi) (snd pi))) else []) order.
  Proof.
    intros NUM. induction order as [|[p i] order IH]; intros w ND H.
    - exists w. split; [reflexivity|]. split; [contradiction|]. split; [reflexivity|]. intros id. cbn. now rewrite app_nil_r.
    - inversion ND as [|? ? NI ND']; subst. destruct (H p i (or_introl eq_refl)) as (g' & o & E).
      cbn [foldM]. unfold act at 1. rewrite E. cbn [bind].
      set (w1 := mkW V (fun p' i' => if Nat.eqb p' p && Nat.eqb i' i then g' else gauges V w p' i') (fun id => if id =? num V (gauges V w p i) then files V w id ++ o else files V w id)).
      assert (SAME : gauges V w1 p i = g') by (unfold w1; cbn; now rewrite !Nat.eqb_refl).
      assert (OTHER : forall p' i', (p', i') <> (p, i) -> gauges V w1 p' i' = gauges V w p' i').
      { intros p' i' NE. unfold w1. cbn. destruct (Nat.eqb p' p) eqn:E1; [|reflexivity]. destruct (Nat.eqb i' i) eqn:E2; [|reflexivity].
        apply Nat.eqb_eq in E1, E2. congruence. }
      destruct (IH w1 ND') as (w' & F & G1 & G2 & G3).
      { intros p' i' IN. rewrite OTHER by (intros [= -> ->]; contradiction). apply H. now right. }
      exists w'. split; [exact F|]. split; [|split].
      + intros p' i' [[= <- <-]|IN].
        * exists o. rewrite (G2 p i NI), SAME. exact E.
        * destruct (G1 p' i' IN) as (o' & E'). rewrite OTHER in E' by (intros [= -> ->]; contradiction). exists o'. exact E'.
      + intros p' i' NIN. rewrite G2 by (intros X; apply NIN; now right). apply OTHER. intros [= -> ->]. apply NIN. now left.
      + intros id. rewrite G3. cbn [flat_map fst snd]. rewrite E. cbn [outof].
        assert (X : flat_map (fun pi => if id =? num V (gauges V w1 (fst pi) (snd pi)) then outof (f (fst pi) (snd pi) (gauges V w1 (fst pi) (snd pi))) else []) order
                  = flat_map (fun pi => if id =? num V (gauges V w (fst pi) (snd pi)) then outof (f (fst pi) (snd pi) (gauges V w (fst pi) (snd pi))) else []) order).
        { clear -OTHER NI. induction order as [|[p' i'] l IH]; [reflexivity|]. cbn [flat_map fst snd]. rewrite IH by (intros X; apply NI; now right).
          rewrite OTHER; [reflexivity|]. intros [= -> ->]. apply NI. now left. }
        rewrite X. unfold w1. cbn [files]. destruct (id =? num V (gauges V w p i)); [now rewrite app_assoc|reflexivity].
  Qed.

  Variables (len : Z) (n P : nat) (gs : nat -> gauge).
  Hypothesis LEN : 1 <= len.
  Hypothesis ST : forall i, (i < n)%nat -> started V len n (gs i).
  Hypothesis IDS : forall i j, (i < n)%nat -> (j < n)%nat -> num V (gs i) = num V (gs j) -> i = j.

  (** gauge [i] with everything that never changes *)
  Definition same (i : nat) (g : gauge) : Prop :=
    num V g = num V (gs i) /\ t1 V g = t1 V (gs i) /\ t2 V g = t2 V (gs i) /\ min_time_increment V g = min_time_increment V (gs i) /\
    location V g = location V (gs i) /\ length (buffer V g) = Z.to_nat len.
  Definition inv (i : nat) (w : world) (located : bool) (owner : option nat) (last : Q) (file pend : list (sample V)) : Prop :=
    (forall p, (p < P)%nat -> let g := gauges V w p i in same i g /\ last_time V g = last /\
       (located = true -> is_local V g = Some (match owner with Some q => Nat.eqb p q | None => false end)) /\
       (owner = Some p -> 0 <= next V g < len /\ firstn (Z.to_nat (next V g)) (buffer V g) = map Some pend) /\
       (owner <> Some p -> next V g = 0)) /\
    (owner = None -> pend = []) /\ (forall q, owner = Some q -> (q < P)%nat) /\
    files V w (num V (gs i)) = file.

  Lemma body_num c p i g g' o : body V len (Z.of_nat n) c p i g = Some (g', o) -> num V g' = num V g.
  Proof.
    destruct c as [t v|r|]; cbn [body].
    - unfold gauge_update. destruct (_ && _); [|intros [= <- <-]; reflexivity].
      cbn [set_last is_local]. destruct (is_local V g) as [[]|]; cbn [bind]; [| |discriminate].
      + unfold update_gauge. cbn [set_last buffer next]. destruct (zput _ _ _) as [b|]; [|discriminate]. cbn [bind].
        destruct (_ =? _); [|intros [= <- <-]; reflexivity]. unfold print_and_reset. destruct (print_gauge_buffer _ _); [|discriminate]. intros [= <- <-]. reflexivity.
      + destruct (_ =? 0); [|discriminate]. intros [= <- <-]. reflexivity.
    - unfold locate_gauge. destruct (_ && _); [|discriminate]. cbn [check]. destruct (zget _ _) as [z|]; [|discriminate]. cbn [bind].
      destruct (_ && _); [|intros [= <- <-]; reflexivity]. unfold print_and_reset. destruct (print_gauge_buffer _ _); [|discriminate]. intros [= <- <-]. reflexivity.
    - unfold finalize_gauge. destruct (is_local V g) as [[]|]; cbn [bind]; [|intros [= <- <-]; reflexivity|discriminate].
      destruct (print_gauge_buffer _ _); [|discriminate]. intros [= <- <-]. reflexivity.
  Qed.

  (** what a call does to gauge [i] when only process [q] (if any) writes *)
  Lemma call_step c order w : order_ok P n order ->
    (forall i p, (i < n)%nat -> (p < P)%nat -> num V (gauges V w p i) = num V (gs i)) ->
    (forall i p, (i < n)%nat -> (p < P)%nat -> exists g' o, body V len (Z.of_nat n) c p i (gauges V w p i) = Some (g', o)) ->
    exists w', run_call V len (Z.of_nat n) (c, order) w = Some w' /\
      (forall i p, (i < n)%nat -> (p < P)%nat -> exists o, body V len (Z.of_nat n) c p i (gauges V w p i) = Some (gauges V w' p i, o)) /\
      (forall i q, (i < n)%nat -> (q < P)%nat ->
         (forall p g' o, (p < P)%nat -> p <> q -> body V len (Z.of_nat n) c p i (gauges V w p i) = Some (g', o) -> o = []) ->
         files V w' (num V (gs i)) = files V w (num V (gs i)) ++ outof (body V len (Z.of_nat n) c q i (gauges V w q i))) /\
      (forall i, (i < n)%nat -> (forall p g' o, (p < P)%nat -> body V len (Z.of_nat n) c p i (gauges V w p i) = Some (g', o) -> o = []) ->
         files V w' (num V (gs i)) = files V w (num V (gs i))).
  Proof.
    intros (ND & ALL) NUM EX. destruct (phase (body V len (Z.of_nat n) c) (body_num c) order w ND) as (w' & F & G1 & G2 & G3).
    { intros p i IN. apply ALL in IN. apply EX; tauto. }
    exists w'. split; [exact F|]. split; [|split].
    - intros i p HI HP. apply G1. apply ALL. auto.
    - intros i q HI HQ ONLY. rewrite G3. f_equal. rewrite (flat_map_one _ _ _ order (q, i)); [cbn [fst snd]|exact ND|apply ALL; auto|].
      + rewrite (NUM i q HI HQ), Z.eqb_refl. reflexivity.
      + intros [p j] IN NE. cbn [fst snd]. pose proof (proj1 (ALL p j) IN) as (HP & HJ). destruct (_ =? _) eqn:E; [|reflexivity].
        apply Z.eqb_eq in E. rewrite (NUM j p HJ HP) in E. apply IDS in E; auto. subst j. destruct (EX i p HI HP) as (g' & o & E). rewrite E. cbn [outof].
        eapply ONLY; [exact HP| |exact E]. congruence.
    - intros i HI NONE. rewrite G3. rewrite flat_map_none; [apply app_nil_r|].
      intros [p j] IN. cbn [fst snd]. pose proof (proj1 (ALL p j) IN) as (HP & HJ). destruct (_ =? _) eqn:E; [|reflexivity].
      apply Z.eqb_eq in E. rewrite (NUM j p HJ HP) in E. apply IDS in E; auto. subst j. destruct (EX i p HI HP) as (g' & o & E). rewrite E. cbn [outof].
      eapply NONE; [exact HP|exact E].
  Qed.

  Lemma print_ok g pend : firstn (Z.to_nat (next V g)) (buffer V g) = map Some pend -> print_gauge_buffer V g = Some pend.
  Proof. intros H. unfold print_gauge_buffer. rewrite H. apply mapM_id_some. Qed.

  (** results of one gauge in an update *)
  Lemma update_local i g t v last pend : same i g -> last_time V g = last -> is_local V g = Some true -> 0 <= next V g < len ->
    firstn (Z.to_nat (next V g)) (buffer V g) = map Some pend ->
    exists g' o pend', gauge_update V len t v g = Some (g', o) /\ same i g' /\ is_local V g' = Some true /\ 0 <= next V g' < len /\
      firstn (Z.to_nat (next V g')) (buffer V g') = map Some pend' /\
      last_time V g' = (if due (t1 V (gs i)) (t2 V (gs i)) (min_time_increment V (gs i)) last t then t else last) /\
      o ++ pend' = pend ++ (if due (t1 V (gs i)) (t2 V (gs i)) (min_time_increment V (gs i)) last t then [(t, v)] else []).
  Proof.
    intros SM LT IL NX FN. destruct SM as (S1 & S2 & S3 & S4 & S5 & S6). unfold gauge_update. rewrite S2, S3, S4, LT. fold (due (t1 V (gs i)) (t2 V (gs i)) (min_time_increment V (gs i)) last t).
    destruct (due _ _ _ _ _) eqn:D.
    - cbn [set_last is_local]. rewrite IL. cbn [bind]. unfold update_gauge. cbn [set_last buffer next].
      unfold zput. destruct (next V g <? 0) eqn:E0; [apply Z.ltb_lt in E0; lia|]. rewrite put_upd by (rewrite S6; lia). cbn [bind set_buffer buffer next].
      assert (FU : firstn (Z.to_nat (next V g + 1)) (upd (buffer V g) (Z.to_nat (next V g)) (Some (t, v))) = map Some (pend ++ [(t, v)])).
      { rewrite map_app, <- FN. replace (Z.to_nat (next V g + 1)) with (S (Z.to_nat (next V g))) by lia. rewrite firstn_upd by (rewrite S6; lia). reflexivity. }
      destruct (next V g + 1 =? len) eqn:EL.
      + apply Z.eqb_eq in EL. unfold print_and_reset. rewrite (print_ok _ (pend ++ [(t, v)])) by exact FU. cbn [bind].
        do 2 eexists. exists []. split; [reflexivity|]. cbn [set_buffer num t1 t2 min_time_increment location is_local buffer next last_time]. unfold same. cbn [set_buffer set_last num t1 t2 min_time_increment location is_local buffer next last_time].
        rewrite upd_length. repeat apply conj; try assumption; try lia; try reflexivity. apply app_nil_r.
      + apply Z.eqb_neq in EL. do 2 eexists. exists (pend ++ [(t, v)]). split; [reflexivity|]. unfold same. cbn [set_buffer set_last num t1 t2 min_time_increment location is_local buffer next last_time].
        rewrite upd_length. repeat apply conj; try assumption; try lia; try reflexivity.
    - exists g, [], pend. split; [reflexivity|]. unfold same. repeat apply conj; try assumption; try lia; try reflexivity. symmetry. apply app_nil_r.
  Qed.
  Lemma update_remote i g t v last : same i g -> last_time V g = last -> is_local V g = Some false -> next V g = 0 ->
    exists g', gauge_update V len t v g = Some (g', []) /\ same i g' /\ is_local V g' = Some false /\ next V g' = 0 /\
      last_time V g' = (if due (t1 V (gs i)) (t2 V (gs i)) (min_time_increment V (gs i)) last t then t else last).
  Proof.
    intros SM LT IL NX. destruct SM as (S1 & S2 & S3 & S4 & S5 & S6). unfold gauge_update. rewrite S2, S3, S4, LT. fold (due (t1 V (gs i)) (t2 V (gs i)) (min_time_increment V (gs i)) last t).
    destruct (due _ _ _ _ _) eqn:D.
    - cbn [set_last is_local next]. rewrite IL. cbn [bind]. rewrite NX. cbn [Z.eqb check]. eexists. split; [reflexivity|]. unfold same. cbn [set_last num t1 t2 min_time_increment location is_local buffer next last_time].
      repeat apply conj; try assumption; try lia; try reflexivity.
    - exists g. split; [reflexivity|]. unfold same. repeat apply conj; try assumption; try lia; try reflexivity.
  Qed.

  Definition next_last (i : nat) (last t : Q) : Q := if due (t1 V (gs i)) (t2 V (gs i)) (min_time_increment V (gs i)) last t then t else last.

  Lemma step_update t v order w : order_ok P n order -> forall (o : nat -> option nat) last file pend,
    (forall i, (i < n)%nat -> inv i w true (o i) (last i) (file i) (pend i)) ->
    exists w', run_call V len (Z.of_nat n) (Update V t v, order) w = Some w' /\
      forall i, (i < n)%nat -> exists file' pend', inv i w' true (o i) (next_last i (last i) t) file' pend' /\
        file' ++ pend' = file i ++ pend i ++ (if due (t1 V (gs i)) (t2 V (gs i)) (min_time_increment V (gs i)) (last i) t then match o i with Some p => [(t, v p i)] | None => [] end else []).
  Proof.
    intros OK o last file pend H. destruct (call_step (Update V t v) order w OK) as (w' & R & B & F1 & F2).
    { intros i p HI HP. destruct (H i HI) as (G & _). apply (G p HP). }
    { intros i p HI HP. destruct (H i HI) as (G & _). destruct (G p HP) as (G1 & G2 & G3 & G4 & G5). cbn [body]. specialize (G3 eq_refl).
      destruct (o i) as [q|] eqn:EO.
      - destruct (Nat.eqb p q) eqn:EQ.
        + apply Nat.eqb_eq in EQ. subst q. destruct (G4 eq_refl) as (N1 & N2). destruct (update_local i _ t (v p i) _ _ G1 G2 G3 N1 N2) as (g' & ot & pd & E & _). eauto.
        + apply Nat.eqb_neq in EQ. destruct (update_remote i _ t (v p i) _ G1 G2 G3 (G5 ltac:(congruence))) as (g' & E & _). eauto.
      - destruct (update_remote i _ t (v p i) _ G1 G2 G3 (G5 ltac:(congruence))) as (g' & E & _). eauto. }
    exists w'. split; [exact R|]. intros i HI. destruct (H i HI) as (G & HN & HQ & HF). destruct (o i) as [q|] eqn:EO.
    - specialize (HQ q eq_refl). destruct (G q HQ) as (G1 & G2 & G3 & G4 & G5). specialize (G3 eq_refl). rewrite Nat.eqb_refl in G3. destruct (G4 eq_refl) as (N1 & N2).
      destruct (update_local i _ t (v q i) _ _ G1 G2 G3 N1 N2) as (g' & ot & pd & E & X1 & X2 & X3 & X4 & X5 & X6).
      exists (file i ++ ot), pd. split; [|rewrite <- app_assoc, X6; reflexivity].
      split; [|split; [discriminate|split; [intros q0 [= <-]; exact HQ|]]].
      + intros p HP. destruct (B i p HI HP) as (ob & EB). cbn [body] in EB. destruct (Nat.eq_dec p q) as [->|NE].
        * rewrite E in EB. injection EB as <- <-. split; [exact X1|]. split; [exact X5|]. split; [intros _; now rewrite Nat.eqb_refl|]. split; [auto|congruence].
        * destruct (G p HP) as (Y1 & Y2 & Y3 & Y4 & Y5). specialize (Y3 eq_refl). destruct (Nat.eqb p q) eqn:EQ; [apply Nat.eqb_eq in EQ; contradiction|].
          destruct (update_remote i _ t (v p i) _ Y1 Y2 Y3 (Y5 ltac:(congruence))) as (g2 & E2 & Z1 & Z2 & Z3 & Z4). rewrite E2 in EB. injection EB as <- <-.
          split; [exact Z1|]. split; [exact Z4|]. split; [intros _; exact Z2|]. split; [congruence|auto].
      + rewrite (F1 i q HI HQ); [cbn [body]; rewrite E, HF; reflexivity|].
        intros p g2 o2 HP NE EB. cbn [body] in EB. destruct (G p HP) as (Y1 & Y2 & Y3 & Y4 & Y5). specialize (Y3 eq_refl). destruct (Nat.eqb p q) eqn:EQ; [apply Nat.eqb_eq in EQ; contradiction|].
        destruct (update_remote i _ t (v p i) _ Y1 Y2 Y3 (Y5 ltac:(congruence))) as (g3 & E2 & _). congruence.
    - exists (file i), (pend i). split; [|destruct (due _ _ _ _ _); now rewrite app_nil_r].
      split; [|split; [auto|split; [discriminate|]]].
      + intros p HP. destruct (B i p HI HP) as (ob & EB). cbn [body] in EB. destruct (G p HP) as (Y1 & Y2 & Y3 & Y4 & Y5). specialize (Y3 eq_refl).
        destruct (update_remote i _ t (v p i) _ Y1 Y2 Y3 (Y5 ltac:(congruence))) as (g2 & E2 & Z1 & Z2 & Z3 & Z4). rewrite E2 in EB. injection EB as <- <-.
        split; [exact Z1|]. split; [exact Z4|]. split; [intros _; exact Z2|]. split; [discriminate|auto].
      + rewrite (F2 i HI); [exact HF|]. intros p g2 o2 HP EB. cbn [body] in EB. destruct (G p HP) as (Y1 & Y2 & Y3 & Y4 & Y5). specialize (Y3 eq_refl).
        destruct (update_remote i _ t (v p i) _ Y1 Y2 Y3 (Y5 ltac:(congruence))) as (g3 & E2 & _). congruence.
  Qed.

  (** results of one gauge in a search *)
  Lemma locate_ok i g r pend : same i g -> (i < n)%nat -> length r = n -> 0 <= next V g < len -> firstn (Z.to_nat (next V g)) (buffer V g) = map Some pend ->
    let here := 0 <=? nth (Z.to_nat (location V (gs i))) r (-1) in
    exists g' o pend', locate_gauge V (Z.of_nat n) r g = Some (g', o) /\ same i g' /\ is_local V g' = Some here /\ last_time V g' = last_time V g /\
      0 <= next V g' < len /\ firstn (Z.to_nat (next V g')) (buffer V g') = map Some pend' /\ (here = false -> next V g' = 0 /\ pend' = []) /\ (next V g = 0 -> next V g' = 0 /\ o = []) /\
      o ++ pend' = pend.
  Proof.
    intros (S1 & S2 & S3 & S4 & S5 & S6) HI LR NX FN here. destruct (ST i HI) as (_ & _ & _ & LOC). unfold locate_gauge. rewrite S5.
    destruct (0 <=? location V (gs i)) eqn:E1; [|apply Z.leb_gt in E1; lia]. destruct (location V (gs i) <? Z.of_nat n) eqn:E2; [|apply Z.ltb_ge in E2; lia]. cbn [andb check].
    rewrite zget_nat by lia. rewrite (nth_error_nth' r (-1)) by lia. cbn [bind]. fold here. cbn [set_patch next].
    destruct here eqn:EH; cbn [negb andb].
    - exists (set_patch V g (nth (Z.to_nat (location V (gs i))) r (-1))), [], pend. split; [reflexivity|].
      unfold same. cbn [set_patch num t1 t2 min_time_increment location is_local buffer next last_time]. fold here. rewrite EH.
      repeat apply conj; try assumption; try lia; try reflexivity; try discriminate; auto.
    - destruct (0 <? next V g) eqn:EN.
      + unfold print_and_reset. rewrite (print_ok _ pend) by exact FN. cbn [bind]. do 2 eexists. exists []. split; [reflexivity|].
        unfold same. cbn [set_patch set_buffer num t1 t2 min_time_increment location is_local buffer next last_time]. fold here. rewrite EH.
        apply Z.ltb_lt in EN. repeat apply conj; try assumption; try lia; try reflexivity; auto; apply app_nil_r.
      + apply Z.ltb_ge in EN. exists (set_patch V g (nth (Z.to_nat (location V (gs i))) r (-1))), [], pend. split; [reflexivity|].
        unfold same. cbn [set_patch num t1 t2 min_time_increment location is_local buffer next last_time]. fold here. rewrite EH.
        assert (N0 : next V g = 0) by lia. assert (PE : pend = []) by (rewrite N0 in FN; destruct pend; [reflexivity|discriminate]).
        repeat apply conj; try assumption; try lia; try reflexivity; auto.
  Qed.

  Lemma owner_here r i p : (i < n)%nat -> (p < P)%nat -> results_ok V P n (Locate V r) ->
    (0 <=? nth (Z.to_nat (location V (gs i))) (r p) (-1)) = match owner_of P r (location V (gs i)) with Some q => Nat.eqb p q | None => false end.
  Proof.
    intros HI HP SO. destruct (ST i HI) as (_ & _ & _ & LOC). change (finds r (location V (gs i)) p = match owner_of P r (location V (gs i)) with Some q => Nat.eqb p q | None => false end).
    unfold owner_of. destruct (find (finds r (location V (gs i))) (seq 0 P)) as [q|] eqn:E.
    - apply find_some_in in E. destruct E as (HQ & FQ). destruct (Nat.eqb p q) eqn:EQ; [apply Nat.eqb_eq in EQ; now subst q|].
      apply Nat.eqb_neq in EQ. destruct (finds r (location V (gs i)) p) eqn:FP; [|reflexivity]. exfalso. apply EQ. destruct (SO p HP) as (_ & U). exact (U q (location V (gs i)) HQ LOC FP FQ).
    - apply (find_none _ _ E). apply in_seq. lia.
  Qed.

  Lemma step_locate r order w located : order_ok P n order -> results_ok V P n (Locate V r) -> forall (o : nat -> option nat) last file pend,
    (forall i, (i < n)%nat -> inv i w located (o i) (last i) (file i) (pend i)) ->
    exists w', run_call V len (Z.of_nat n) (Locate V r, order) w = Some w' /\
      forall i, (i < n)%nat -> exists file' pend', inv i w' true (owner_of P r (location V (gs i))) (last i) file' pend' /\ file' ++ pend' = file i ++ pend i.
  Proof.
    intros OK SO o last file pend H.
    assert (PR : forall i p, (i < n)%nat -> (p < P)%nat -> 0 <= next V (gauges V w p i) < len /\
      firstn (Z.to_nat (next V (gauges V w p i))) (buffer V (gauges V w p i)) = map Some (if match o i with Some q => Nat.eqb p q | None => false end then pend i else [])).
    { intros i p HI HP. destruct (H i HI) as (G & _). destruct (G p HP) as (_ & _ & _ & G4 & G5). destruct (o i) as [q|].
      - destruct (Nat.eqb p q) eqn:EQ; [apply Nat.eqb_eq in EQ; subst q; auto|]. apply Nat.eqb_neq in EQ. rewrite G5 by congruence. split; [lia|reflexivity].
      - rewrite G5 by congruence. split; [lia|reflexivity]. }
    assert (LO : forall i p, (i < n)%nat -> (p < P)%nat -> exists g' ot pend', locate_gauge V (Z.of_nat n) (r p) (gauges V w p i) = Some (g', ot) /\ same i g' /\
      is_local V g' = Some (match owner_of P r (location V (gs i)) with Some q => Nat.eqb p q | None => false end) /\ last_time V g' = last i /\
      0 <= next V g' < len /\ firstn (Z.to_nat (next V g')) (buffer V g') = map Some pend' /\
      (match owner_of P r (location V (gs i)) with Some q => Nat.eqb p q | None => false end = false -> next V g' = 0 /\ pend' = []) /\
      (next V (gauges V w p i) = 0 -> next V g' = 0 /\ ot = []) /\ ot ++ pend' = if match o i with Some q => Nat.eqb p q | None => false end then pend i else []).
    { intros i p HI HP. destruct (PR i p HI HP) as (N1 & N2). destruct (H i HI) as (G & _). destruct (G p HP) as (G1 & G2 & _). destruct (SO p HP) as (LR & _).
      destruct (locate_ok i _ (r p) _ G1 HI LR N1 N2) as (g' & ot & pd & X1 & X2 & X3 & X4 & X5 & X6 & X7 & X8 & X9).
      rewrite (owner_here r i p HI HP SO) in X3, X7. exists g', ot, pd. rewrite X4, G2. auto 10. }
    destruct (call_step (Locate V r) order w OK) as (w' & R & B & F1 & F2).
    { intros i p HI HP. destruct (H i HI) as (G & _). apply (G p HP). }
    { intros i p HI HP. destruct (LO i p HI HP) as (g' & ot & pd & E & _). cbn [body]. eauto. }
    exists w'. split; [exact R|]. intros i HI. destruct (H i HI) as (G & HN & HQ & HF).
    (* every process keeps or prints its buffer *)
    assert (INV : forall file' pend', files V w' (num V (gs i)) = file' ->
      (owner_of P r (location V (gs i)) = None -> pend' = []) ->
      (forall q, owner_of P r (location V (gs i)) = Some q -> forall g' ot pd, locate_gauge V (Z.of_nat n) (r q) (gauges V w q i) = Some (g', ot) -> 
          firstn (Z.to_nat (next V g')) (buffer V g') = map Some pd -> pd = pend') ->
      inv i w' true (owner_of P r (location V (gs i))) (last i) file' pend').
    { intros file' pend' EF E1 E2. split; [|split; [exact E1|split; [|exact EF]]].
      - intros p HP. destruct (LO i p HI HP) as (g' & ot & pd & X1 & X2 & X3 & X4 & X5 & X6 & X7 & X8 & X9). destruct (B i p HI HP) as (ob & EB). cbn [body] in EB. rewrite X1 in EB. injection EB as <- <-.
        split; [exact X2|]. split; [exact X4|]. split; [intros _; exact X3|]. split.
        + intros EQ. split; [exact X5|]. rewrite X6. f_equal. eapply E2; [exact EQ|exact X1|exact X6].
        + intros NE. apply X7. destruct (owner_of P r (location V (gs i))) as [q|]; [apply Nat.eqb_neq; congruence|reflexivity].
      - intros q EQ. unfold owner_of in EQ. apply find_some_in in EQ. apply EQ. }
    assert (INJ : forall (a b : list (sample V)), map Some a = map Some b -> a = b).
    { induction a as [|x a IH]; destruct b; cbn; intros Hab; try discriminate; [reflexivity|]. injection Hab as -> Hab. f_equal. auto. }
    destruct (o i) as [q|] eqn:EO.
    - specialize (HQ q eq_refl). destruct (LO i q HI HQ) as (g' & ot & pd & X1 & X2 & X3 & X4 & X5 & X6 & X7 & X8 & X9). rewrite EO, Nat.eqb_refl in X9.
      assert (FQ : files V w' (num V (gs i)) = file i ++ ot).
      { rewrite (F1 i q HI HQ); [cbn [body]; rewrite X1, HF; reflexivity|]. intros p g2 o2 HP NE EB. cbn [body] in EB.
        destruct (LO i p HI HP) as (g3 & o3 & pd3 & Y1 & _ & _ & _ & _ & _ & _ & Y8 & _). destruct (G p HP) as (_ & _ & _ & _ & G5).
        assert (o2 = o3) by congruence. subst o2. apply Y8. apply G5. congruence. }
      exists (file i ++ ot), pd. split; [|rewrite <- app_assoc, X9; reflexivity]. apply INV; [exact FQ| |].
      + intros EN. rewrite EN in X7. apply X7. reflexivity.
      + intros q' EQ' g2 o2 pd2 E2 F2'. destruct (Nat.eq_dec q' q) as [->|NE].
        * assert (g2 = g') by congruence. subst g2. rewrite X6 in F2'. symmetry. apply INJ. exact F2'.
        * rewrite EQ' in X7. destruct X7 as (_ & ->); [apply Nat.eqb_neq; congruence|].
          assert (HQ' : (q' < P)%nat) by (unfold owner_of in EQ'; apply find_some_in in EQ'; apply EQ').
          destruct (LO i q' HI HQ') as (g3 & o3 & pd3 & Y1 & _ & _ & _ & _ & Y6 & _ & Y8 & Y9). destruct (G q' HQ') as (_ & _ & _ & _ & G5).
          assert (g2 = g3) by congruence. subst g3. destruct (Y8 (G5 ltac:(congruence))) as (N0 & _). rewrite N0 in F2'. destruct pd2; [reflexivity|discriminate].
    - exists (file i), (pend i). split; [|reflexivity]. rewrite (HN eq_refl) in *. apply INV.
      + rewrite (F2 i HI); [exact HF|]. intros p g2 o2 HP EB. cbn [body] in EB. destruct (LO i p HI HP) as (g3 & o3 & pd3 & Y1 & _ & _ & _ & _ & _ & _ & Y8 & _). destruct (G p HP) as (_ & _ & _ & _ & G5).
        assert (o2 = o3) by congruence. subst o2. apply Y8. apply G5. congruence.
      + reflexivity.
      + intros q' EQ' g2 o2 pd2 E2 F2'. assert (HQ' : (q' < P)%nat) by (unfold owner_of in EQ'; apply find_some_in in EQ'; apply EQ').
        destruct (LO i q' HI HQ') as (g3 & o3 & pd3 & Y1 & _ & _ & _ & _ & Y6 & _ & Y8 & Y9). destruct (G q' HQ') as (_ & _ & _ & _ & G5).
        assert (g2 = g3) by congruence. subst g3. destruct (Y8 (G5 ltac:(congruence))) as (N0 & _). rewrite N0 in F2'. destruct pd2; [reflexivity|discriminate].
  Qed.

  Lemma step_finalize order w : order_ok P n order -> forall (o : nat -> option nat) last file pend,
    (forall i, (i < n)%nat -> inv i w true (o i) (last i) (file i) (pend i)) ->
    exists w', run_call V len (Z.of_nat n) (Finalize V, order) w = Some w' /\
      forall i, (i < n)%nat -> files V w' (num V (gs i)) = file i ++ pend i.
  Proof.
    intros OK o last file pend H.
    assert (FI : forall i p, (i < n)%nat -> (p < P)%nat -> finalize_gauge V (gauges V w p i) = Some (gauges V w p i, if match o i with Some q => Nat.eqb p q | None => false end then pend i else [])).
    { intros i p HI HP. destruct (H i HI) as (G & _). destruct (G p HP) as (_ & _ & G3 & G4 & G5). unfold finalize_gauge. rewrite (G3 eq_refl). cbn [bind].
      destruct (o i) as [q|]; [|reflexivity]. destruct (Nat.eqb p q) eqn:EQ; [|reflexivity]. apply Nat.eqb_eq in EQ. subst q. destruct (G4 eq_refl) as (_ & FN). rewrite (print_ok _ _ FN). reflexivity. }
    destruct (call_step (Finalize V) order w OK) as (w' & R & B & F1 & F2).
    { intros i p HI HP. destruct (H i HI) as (G & _). apply (G p HP). }
    { intros i p HI HP. cbn [body]. rewrite (FI i p HI HP). eauto. }
    exists w'. split; [exact R|]. intros i HI. destruct (H i HI) as (G & HN & HQ & HF). destruct (o i) as [q|] eqn:EO.
    - specialize (HQ q eq_refl). rewrite (F1 i q HI HQ).
      + cbn [body]. rewrite (FI i q HI HQ), EO, Nat.eqb_refl, HF. reflexivity.
      + intros p g2 o2 HP NE EB. cbn [body] in EB. rewrite (FI i p HI HP), EO in EB. apply Nat.eqb_neq in NE. rewrite NE in EB. congruence.
    - rewrite (F2 i HI); [rewrite HF, (HN eq_refl), app_nil_r; reflexivity|]. intros p g2 o2 HP EB. cbn [body] in EB. rewrite (FI i p HI HP), EO in EB. congruence.
  Qed.

  Notation exp_i := (fun i => expected V P i (location V (gs i)) (t1 V (gs i)) (t2 V (gs i)) (min_time_increment V (gs i))).

  Lemma run_mid : forall mid w (o : nat -> option nat) last file pend fin,
    Forall (fun c => order_ok P n (snd c) /\ results_ok V P n (fst c) /\ plain V (fst c)) mid -> order_ok P n fin ->
    (forall i, (i < n)%nat -> inv i w true (o i) (last i) (file i) (pend i)) ->
    exists w', run_calls V len (Z.of_nat n) (mid ++ [(Finalize V, fin)]) w = Some w' /\
      forall i, (i < n)%nat -> files V w' (num V (gs i)) = file i ++ pend i ++ exp_i i (o i) (last i) (map fst mid).
  Proof.
    induction mid as [|[c order] mid IH]; intros w o last file pend fin F OF H.
    - destruct (step_finalize fin w OF o last file pend H) as (w' & R & FW). exists w'. unfold run_calls. cbn [foldM app]. rewrite R. split; [reflexivity|].
      intros i HI. cbn [map expected]. rewrite app_nil_r. apply FW, HI.
    - inversion F as [|? ? (OK & SO & PL) F']; subst. cbn [fst snd] in OK, SO, PL. destruct c as [t v|r|]; [| |contradiction].
      + destruct (step_update t v order w OK o last file pend H) as (w1 & R & X).
        destruct (choose2 n _ _ [] [] _ X) as (file' & pend' & X'). destruct (IH w1 o (fun i => next_last i (last i) t) file' pend' fin F' OF) as (w' & R' & FW).
        { intros i HI. apply X', HI. }
        exists w'. unfold run_calls. cbn [foldM app]. rewrite R. cbn [bind]. split; [exact R'|]. intros i HI. rewrite (FW i HI). destruct (X' i HI) as (_ & E). cbn [map fst expected].
        rewrite app_assoc, E. unfold next_last. destruct (due _ _ _ _ _); rewrite <- !app_assoc; reflexivity.
      + destruct (step_locate r order w true OK SO o last file pend H) as (w1 & R & X).
        destruct (choose2 n _ _ [] [] _ X) as (file' & pend' & X'). destruct (IH w1 (fun i => owner_of P r (location V (gs i))) last file' pend' fin F' OF) as (w' & R' & FW).
        { intros i HI. apply X', HI. }
        exists w'. unfold run_calls. cbn [foldM app]. rewrite R. cbn [bind]. split; [exact R'|]. intros i HI. rewrite (FW i HI). destruct (X' i HI) as (_ & E). cbn [map fst expected].
        rewrite app_assoc, E, <- app_assoc. reflexivity.
  Qed.

  Lemma expected_fin i loc a b inc : forall l ow la, expected V P i loc a b inc ow la (l ++ [Finalize V]) = expected V P i loc a b inc ow la l.
  Proof.
    induction l as [|c l IH]; intros ow la; [reflexivity|]. destruct c; cbn [expected app]; [|apply IH|apply IH]. destruct (due _ _ _ _ _); [f_equal|]; apply IH.
  Qed.
  Lemma run_ok cs w : history V (map fst cs) -> Forall (fun c => order_ok P n (snd c) /\ results_ok V P n (fst c)) cs ->
    (forall p i, (p < P)%nat -> (i < n)%nat -> gauges V w p i = gs i) ->
    exists w', run_calls V len (Z.of_nat n) cs w = Some w' /\
      forall i, (i < n)%nat -> files V w' (num V (gs i)) = files V w (num V (gs i)) ++ exp_i i None (t1 V (gs i)) (map fst cs).
  Proof.
    intros (r & mid & EC & PL) F W. destruct cs as [|[c0 order0] cs]; [discriminate|]. cbn [map fst] in EC. injection EC as -> EC.
    assert (exists mid' fin, cs = mid' ++ [(Finalize V, fin)] /\ map fst mid' = mid) as (mid' & fin & -> & EM).
    { destruct (exists_last (l := cs)) as (mid' & [c fin] & ->); [intros ->; destruct mid; discriminate|]. rewrite map_app in EC. cbn [map fst] in EC. apply app_inj_tail in EC. destruct EC as (EC & ->). eauto. }
    inversion F as [|? ? (OK & SO) F']; subst. cbn [fst snd] in OK, SO. apply Forall_app in F'. destruct F' as (F1 & F2). inversion F2 as [|? ? (OF & _) _]; subst. cbn [snd] in OF.
    destruct (step_locate r order0 w false OK SO (fun _ => None) (fun i => t1 V (gs i)) (fun i => files V w (num V (gs i))) (fun _ => [])) as (w1 & R & X).
    { intros i HI. destruct (ST i HI) as (S1 & S2 & S3 & S4). split; [|split; [auto|split; [discriminate|reflexivity]]]. intros p HP. rewrite (W p i HP HI).
      split; [unfold same; auto 10|]. split; [exact S1|]. split; [discriminate|]. split; [discriminate|auto]. }
    destruct (choose2 n _ _ [] [] _ X) as (file' & pend' & X'). destruct (run_mid mid' w1 (fun i => owner_of P r (location V (gs i))) (fun i => t1 V (gs i)) file' pend' fin) as (w' & R' & FW).
    { apply Forall_forall. intros [c order] IN. rewrite Forall_forall in F1, PL. destruct (F1 _ IN) as (A & B). split; [exact A|]. split; [exact B|]. apply PL. apply (in_map fst) in IN. exact IN. }
    { exact OF. }
    { intros i HI. apply X', HI. }
    exists w'. unfold run_calls. cbn [foldM]. rewrite R. cbn [bind]. split; [exact R'|]. intros i HI. rewrite (FW i HI). destruct (X' i HI) as (_ & E). cbn [map fst expected].
    rewrite app_assoc, E, app_nil_r, map_app. cbn [map fst]. f_equal.
    symmetry. apply expected_fin.
  Qed.
End Values.
