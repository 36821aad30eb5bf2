(** Slots of the gauges. *)
From Coq Require Import ZArith QArith List Bool Lia Arith.
From Verif Require Import Model_Search Model_Gauge Spec_Gauge Spec_Search Proof_Search Proof_Search2 Proof_Search3.
Import ListNotations.
Open Scope Z_scope.

Lemma nth_upd_same : forall A (l : list A) i v d, (i < length l)%nat -> nth i (upd l i v) d = v.
Proof. intros. apply nth_error_nth with (d := d). now apply upd_same. Qed.
Lemma nth_upd_other : forall A (l : list A) i j v d, i <> j -> nth j (upd l i v) d = nth j l d.
Proof. intros. destruct (nth_error l j) as [x|] eqn:E.
  - rewrite (nth_error_nth _ _ d E). apply nth_error_nth. now rewrite upd_other.
  - rewrite nth_overflow; [|rewrite upd_length; now apply nth_error_None]. symmetry. apply nth_overflow. now apply nth_error_None. Qed.

Section Values.
  Variable V : Type.
  Notation gauge := (gauge V).
  Variable rnd : Q -> Q.
  Variables mi mj : Z.
  Variable normalize : Z -> Q * Q -> Q * Q.
  Variable box : Z -> option ((Q * Q) * (Q * Q)).
  Variables (len : Z) (nb : nat) (gs0 : list gauge).
  Notation n := (length gs0).
  Hypothesis LEN : 0 <= len.

  Definition gz (i : nat) : gauge := nth i gs0 (mkGauge V 0 0 0 0 0 0 0 0 0 0 None [] 0).
  (** gauge [i] lies in block [b] *)
  Definition lies (b i : nat) : Prop := exists c, box (Z.of_nat b) = Some c /\ in_closed_box (normalize (Z.of_nat b) (xc V (gz i), yc V (gz i))) c.
  Hypothesis BOXES : forall b, (b < nb)%nat -> exists c, box (Z.of_nat b) = Some c.
  Hypothesis ONE : forall i, (i < n)%nat -> exists b, (b < nb)%nat /\ lies b i /\ forall b', (b' < nb)%nat -> lies b' i -> b' = b.

  Definition corners (b : nat) : (Q * Q) * (Q * Q) := match box (Z.of_nat b) with Some c => c | None => ((0, 0), (0, 0))%Q end.
  Definition norm (b i : nat) : Q * Q := normalize (Z.of_nat b) (xc V (gz i), yc V (gz i)).
  Definition inb (b i : nat) : bool :=
    let c := corners b in let p := norm b i in
    Qle_bool (fst (fst c)) (fst p) && Qle_bool (fst p) (fst (snd c)) && Qle_bool (snd (fst c)) (snd p) && Qle_bool (snd p) (snd (snd c)).
  Definition coords (b i : nat) : Q * Q :=
    let c := corners b in let p := norm b i in
    (rnd (inject_Z mi * rnd (fst p - fst (fst c))), rnd (inject_Z mj * rnd (snd p - snd (fst c))))%Q.
  Lemma inb_lies b i : (b < nb)%nat -> (inb b i = true <-> lies b i).
  Proof.
    intros B. destruct (BOXES b B) as (c & E). unfold inb, lies, corners. rewrite E. rewrite !andb_true_iff, !Qle_bool_iff. unfold in_closed_box. fold (norm b i). split.
    - intros H. exists c. tauto.
    - intros (c' & E' & H). assert (c' = c) by congruence. subst c'. tauto.
  Qed.

  Definition row (m : nat) (b : nat) : list (nat * nat) := map (pair b) (filter (inb b) (seq 0 m)).
  Definition slots (B : nat) : list (nat * nat) := flat_map (row n) (seq 0 B).
  Lemma slots_S B : slots (S B) = slots B ++ row n B.
  Proof. unfold slots. rewrite seq_S, flat_map_app. cbn. now rewrite app_nil_r. Qed.
  Lemma row_in m b b' i : In (b', i) (row m b) <-> b' = b /\ (i < m)%nat /\ inb b i = true.
  Proof. unfold row. rewrite in_map_iff. split.
    - intros (x & [= <- <-] & H). apply filter_In in H. destruct H as (H & H'). apply in_seq in H. split; [reflexivity|]. split; [lia|exact H'].
    - intros (-> & H & H'). exists i. split; [reflexivity|]. apply filter_In. split; [apply in_seq; lia|exact H']. Qed.
  Lemma slots_in B b i : In (b, i) (slots B) <-> (b < B /\ i < n)%nat /\ inb b i = true.
  Proof. unfold slots. rewrite in_flat_map. split.
    - intros (b' & H & H'). apply row_in in H'. apply in_seq in H. destruct H' as (-> & H' & H''). split; [lia|exact H''].
    - intros ((H & H') & H''). exists b. split; [apply in_seq; lia|]. apply row_in. auto. Qed.
  Lemma row_S m b : row (S m) b = row m b ++ (if inb b m then [(b, m)] else []).
  Proof. unfold row. rewrite seq_S, filter_app, map_app. cbn. destruct (inb b m); reflexivity. Qed.
  Lemma row_nodup m b : NoDup (map snd (row m b)).
  Proof. induction m as [|m IH]; [constructor|]. rewrite row_S, map_app. destruct (inb b m); cbn; [|now rewrite app_nil_r].
    assert (N : ~ In m (map snd (row m b))). { intros H. apply in_map_iff in H. destruct H as ([b' i] & E & H). apply row_in in H. cbn in E. lia. }
    clear -IH N. induction (map snd (row m b)) as [|x l IHl]; cbn; [constructor; [auto|constructor]|]. inversion IH; subst. constructor.
    - intros H. apply in_app_or in H. destruct H as [H|[H|[]]]; [contradiction|]. subst. apply N. now left.
    - apply IHl; [assumption|]. intros H. apply N. now right. Qed.
  Lemma nodup_app : forall (l l' : list nat), NoDup l -> NoDup l' -> (forall x, In x l -> ~ In x l') -> NoDup (l ++ l').
  Proof. induction l as [|x l IH]; intros l' H H' D; [exact H'|]. inversion H; subst. cbn. constructor.
    - intros X. apply in_app_or in X. destruct X as [X|X]; [contradiction|]. apply (D x (or_introl eq_refl) X).
    - apply IH; auto. intros y Y. apply D. now right. Qed.
  (** no gauge gets two slots *)
  Lemma slots_row_nodup B m : (B < nb)%nat -> (m <= n)%nat -> NoDup (map snd (slots B ++ row m B)).
  Proof.
    revert m. induction B as [|B IH]; intros m HB HM.
    - cbn. apply row_nodup.
    - rewrite map_app. apply nodup_app; [rewrite slots_S; apply IH; lia|apply row_nodup|].
      intros i H H'. apply in_map_iff in H. destruct H as ([b1 i1] & E1 & H). cbn in E1. subst i1. apply in_map_iff in H'. destruct H' as ([b2 i2] & E2 & H'). cbn in E2. subst i2.
      apply slots_in in H. apply row_in in H'. destruct H as ((X1 & X2) & X3). destruct H' as (-> & X4 & X5).
      destruct (ONE i X2) as (b & _ & _ & U). apply inb_lies in X3; [|lia]. apply inb_lies in X5; [|lia]. apply U in X3; [|lia]. apply U in X5; [|lia]. lia.
  Qed.
  Lemma nodup_le (l : list nat) m : NoDup l -> (forall x, In x l -> (x < m)%nat) -> (length l <= m)%nat.
  Proof. intros ND H. rewrite <- (seq_length m 0). apply NoDup_incl_length; [exact ND|]. intros x X. apply in_seq. specialize (H x X). lia. Qed.

  (** state after the slots [S] have been given away *)
  Definition ginit (i : nat) : gauge := mkGauge V (num V (gz i)) (xc V (gz i)) (yc V (gz i)) (t1 V (gz i)) (t2 V (gz i)) (min_time_increment V (gz i)) (t1 V (gz i)) (-1) (-1) (-1) (is_local V (gz i)) (repeat None (Z.to_nat len)) 0.
  Definition inv (S : list (nat * nat)) (st : place_state V) : Prop :=
    let '(gs, cs, ng) := st in
    ng = Z.of_nat (length S) /\ length gs = n /\ length cs = n /\
    (forall k b i, nth_error S k = Some (b, i) -> nth_error gs i = Some (set_place V (ginit i) (Z.of_nat b) (Z.of_nat k)) /\ nth_error cs k = Some (coords b i)) /\
    (forall i, (i < n)%nat -> ~ In i (map snd S) -> nth_error gs i = Some (ginit i)).

  Lemma place_step b i S st : (b < nb)%nat -> (i < n)%nat -> (inb b i = true -> ~ In i (map snd S)) -> NoDup (map snd S) -> (forall x, In x (map snd S) -> (x < n)%nat) -> inv S st ->
    exists st', place V rnd mi mj normalize (Z.of_nat b) (corners b) i st = Some st' /\ inv (S ++ if inb b i then [(b, i)] else []) st'.
  Proof.
    destruct st as [[gs cs] ng]. intros HB HI NI ND BD (E1 & L1 & L2 & H1 & H2). 
    assert (exists g, nth_error gs i = Some g /\ xc V g = xc V (gz i) /\ yc V g = yc V (gz i) /\ (~ In i (map snd S) -> g = ginit i)) as (g & EG & EX & EY & GI).
    { destruct (in_dec Nat.eq_dec i (map snd S)) as [IN|NIN].
      - apply in_map_iff in IN. destruct IN as ([b0 i0] & X & IN). cbn in X. subst i0. apply In_nth_error in IN. destruct IN as (k & IN). destruct (H1 k b0 i IN) as (X & _).
        eexists. split; [exact X|]. split; [reflexivity|]. split; [reflexivity|]. intros N. exfalso. apply N. apply nth_error_In in IN. apply (in_map snd) in IN. exact IN.
      - exists (ginit i). split; [apply H2; assumption|]. auto. }
    unfold place. rewrite EG. cbn [bind]. rewrite EX, EY.
    change (normalize (Z.of_nat b) (xc V (gz i), yc V (gz i))) with (norm b i).
    destruct (corners b) as [[xll yll] [xur yur]] eqn:EC. destruct (norm b i) as [x y] eqn:EN.
    assert (IB : inb b i = Qle_bool xll x && Qle_bool x xur && Qle_bool yll y && Qle_bool y yur) by (unfold inb; rewrite EC, EN; reflexivity).
    rewrite <- IB. destruct (inb b i) eqn:EI.
    - specialize (NI eq_refl). rewrite (GI NI) in *. assert (LT : (length S < n)%nat).
      { assert (length (i :: map snd S) <= n)%nat; [|cbn in H; rewrite map_length in H; lia]. apply nodup_le; [constructor; assumption|]. intros x0 [<-|X]; [exact HI|apply BD, X]. }
      unfold zput. subst ng. destruct (Z.of_nat (length S) <? 0) eqn:E0; [apply Z.ltb_lt in E0; lia|]. rewrite Nat2Z.id, put_upd by lia. cbn [bind]. rewrite put_upd by lia. cbn [bind].
      eexists. split; [reflexivity|]. split; [rewrite app_length; cbn; lia|]. rewrite !upd_length. split; [exact L1|]. split; [exact L2|]. split.
      + intros k b' i' E. destruct (Nat.eq_dec k (length S)) as [->|NE].
        * rewrite nth_error_app2, Nat.sub_diag in E by lia. injection E as <- <-. rewrite upd_same by lia. split; [reflexivity|]. rewrite upd_same by lia. unfold coords. rewrite EC, EN. reflexivity.
        * assert (k < length S)%nat. { assert (k < length (S ++ [(b, i)]))%nat by (apply nth_error_Some; congruence). rewrite app_length in H. cbn in H. lia. }
          rewrite nth_error_app1 in E by lia. destruct (H1 k b' i' E) as (X1 & X2). rewrite upd_other; [|intros ->; apply NI; apply nth_error_In in E; apply (in_map snd) in E; exact E].
          rewrite upd_other by lia. auto.
      + intros i' HI' NI'. rewrite map_app in NI'. cbn in NI'. rewrite upd_other by (intros ->; apply NI'; apply in_or_app; right; now left). apply H2; [exact HI'|]. intros X. apply NI'. apply in_or_app. now left.
    - eexists. split; [reflexivity|]. rewrite app_nil_r. split; [exact E1|]. auto.
  Qed.

  Lemma place_row b : (b < nb)%nat -> forall m st, (m <= n)%nat -> inv (slots b) st ->
    exists st', foldM (place V rnd mi mj normalize (Z.of_nat b) (corners b)) (seq 0 m) st = Some st' /\ inv (slots b ++ row m b) st'.
  Proof.
    intros HB. induction m as [|m IH]; intros st HM I0.
    - exists st. split; [reflexivity|]. cbn. now rewrite app_nil_r.
    - destruct (IH st ltac:(lia) I0) as (st1 & E1 & I1). rewrite seq_S.
      assert (FA : forall A B (f : A -> B -> option B) l l' x, foldM f (l ++ l') x = bind (foldM f l x) (foldM f l')).
      { clear. induction l as [|a l IH]; intros l' x; [reflexivity|]. cbn. destruct (f a x); [apply IH|reflexivity]. }
      rewrite FA, E1. cbn [bind foldM Nat.add].
      assert (NX : forall x, In x (map snd (slots b ++ row m b)) -> (x < n)%nat).
      { intros x H. rewrite map_app in H. apply in_app_or in H. destruct H as [H|H]; apply in_map_iff in H; destruct H as ([b1 i1] & X & H); cbn in X; subst i1; [apply slots_in in H|apply row_in in H]; lia. }
      destruct (place_step b m (slots b ++ row m b) st1 HB ltac:(lia)) as (st2 & E2 & I2); [|apply slots_row_nodup; lia|exact NX|exact I1|].
      + intros EB. rewrite map_app. intros H. apply in_app_or in H. destruct H as [H|H].
        * apply in_map_iff in H. destruct H as ([b1 i1] & X & H). cbn in X. subst i1. apply slots_in in H. destruct H as ((X1 & X2) & X3).
          destruct (ONE m X2) as (b0 & _ & _ & U). apply inb_lies in X3; [|lia]. apply inb_lies in EB; [|lia]. apply U in X3; [|lia]. apply U in EB; [|lia]. lia.
        * apply in_map_iff in H. destruct H as ([b1 i1] & X & H). cbn in X. apply row_in in H. lia.
      + rewrite E2. cbn [bind]. exists st2. split; [reflexivity|]. rewrite row_S, app_assoc. exact I2.
  Qed.

  Lemma slots_pos B k b i : nth_error (slots B) k = Some (b, i) -> (b < B)%nat /\ (length (slots b) <= k < length (slots (S b)))%nat.
  Proof.
    induction B as [|B IH]; [destruct k; discriminate|]. rewrite slots_S. intros E. destruct (Nat.lt_ge_cases k (length (slots B))) as [LT|GE].
    - rewrite nth_error_app1 in E by lia. destruct (IH E) as (X & Y). split; [lia|exact Y].
    - pose proof E as E'. rewrite nth_error_app2 in E by lia. pose proof (nth_error_In _ _ E) as IN. apply row_in in IN. destruct IN as (-> & _).
      split; [lia|]. split; [exact GE|]. rewrite slots_S. apply nth_error_Some. congruence.
  Qed.

  Definition offs_ok (B : nat) (offs : list Z) : Prop :=
    length offs = S nb /\ forall b, (b <= B)%nat -> nth b offs 0 = Z.of_nat (length (slots b)).

  Lemma place_blocks : forall B, (B <= nb)%nat -> forall st offs, inv [] st -> length offs = S nb -> nth 0 offs 0 = 0 ->
    exists st' offs', foldM (place_block V rnd mi mj normalize box n) (seq 0 B) (st, offs) = Some (st', offs') /\ inv (slots B) st' /\ offs_ok B offs'.
  Proof.
    induction B as [|B IH]; intros HB st offs I0 LO O0.
    - exists st, offs. split; [reflexivity|]. split; [exact I0|]. split; [exact LO|]. intros b Hb. replace b with O by lia. exact O0.
    - destruct (IH ltac:(lia) st offs I0 LO O0) as (st1 & offs1 & E1 & I1 & O1). rewrite seq_S.
      assert (FA : forall A B (f : A -> B -> option B) l l' x, foldM f (l ++ l') x = bind (foldM f l x) (foldM f l')).
      { clear. induction l as [|a l IH]; intros l' x; [reflexivity|]. cbn. destruct (f a x); [apply IH|reflexivity]. }
      rewrite FA, E1. cbn [bind foldM Nat.add place_block]. destruct (BOXES B ltac:(lia)) as (c & EC). rewrite EC. cbn [bind].
      replace c with (corners B) by (unfold corners; rewrite EC; reflexivity).
      destruct (place_row B ltac:(lia) n st1 ltac:(lia) I1) as (st2 & E2 & I2). rewrite E2. cbn [bind]. rewrite <- slots_S in I2.
      destruct O1 as (L1 & O1). unfold zput. destruct (Z.of_nat B + 1 <? 0) eqn:E0; [apply Z.ltb_lt in E0; lia|]. rewrite put_upd by lia. cbn [bind].
      do 2 eexists. split; [reflexivity|]. split; [exact I2|]. split; [now rewrite upd_length|]. intros b Hb. replace (Z.to_nat (Z.of_nat B + 1)) with (S B) by lia.
      destruct (Nat.eq_dec b (S B)) as [->|NE].
      + rewrite nth_upd_same by lia. destruct st2 as [[gs2 cs2] ng2]. destruct I2 as (-> & _). reflexivity.
      + rewrite nth_upd_other by lia. apply O1. lia.
  Qed.

  Lemma slots_length : length (slots nb) = n.
  Proof.
    rewrite <- (map_length snd (slots nb)). apply Nat.le_antisymm.
    - destruct (Nat.eq_dec nb 0) as [Z0|NZ]; [rewrite Z0; cbn; lia|]. replace nb with (S (pred nb)) by lia. rewrite slots_S. apply nodup_le; [apply slots_row_nodup; lia|].
      intros x H. rewrite map_app in H. apply in_app_or in H. destruct H as [H|H]; apply in_map_iff in H; destruct H as ([b1 i1] & X & H); cbn in X; subst i1; [apply slots_in in H|apply row_in in H]; lia.
    - rewrite <- (seq_length n 0) at 1. apply NoDup_incl_length; [apply seq_NoDup|]. intros i H. apply in_seq in H. destruct (ONE i ltac:(lia)) as (b & HB & HL & _).
      apply in_map_iff. exists (b, i). split; [reflexivity|]. apply slots_in. split; [lia|]. apply inb_lies; assumption.
  Qed.

  Lemma start_ok : mapM (gauge_start V len) gs0 = Some (map ginit (seq 0 n)).
  Proof.
    assert (H : forall l k, (forall j, (j < length l)%nat -> nth_error l j = nth_error gs0 (k + j)) -> mapM (gauge_start V len) l = Some (map ginit (seq k (length l)))).
    { induction l as [|g l IH]; intros k H; [reflexivity|]. cbn [mapM length seq map]. unfold gauge_start at 1. destruct (0 <=? len) eqn:E; [|apply Z.leb_gt in E; lia]. cbn [check bind].
      rewrite (IH (S k)); [|intros j Hj; specialize (H (S j) ltac:(cbn; lia)); cbn in H; rewrite H; f_equal; lia]. cbn [bind]. f_equal. f_equal.
      specialize (H O ltac:(cbn; lia)). cbn in H. rewrite Nat.add_0_r in H. unfold ginit, gz. rewrite (nth_error_nth gs0 k _ (eq_sym H)). reflexivity. }
    apply H. intros j _. reflexivity.
  Qed.

  Lemma init_ok cs0 offs0 : length cs0 = n -> length offs0 = S nb ->
    exists gs cs offs, gauge_initialize V rnd mi mj normalize box len nb gs0 cs0 offs0 = Some (gs, cs, offs) /\
      length gs = n /\ length cs = n /\ offsets_ok nb offs n /\
      (forall i, (i < n)%nat -> exists b k, (b < nb)%nat /\ (k < n)%nat /\ lies b i /\
         nth_error gs i = Some (set_place V (ginit i) (Z.of_nat b) (Z.of_nat k)) /\
         nth b offs 0 <= Z.of_nat k < nth (S b) offs 0 /\ nth_error cs k = Some (coords b i)) /\
      (forall i j g g', nth_error gs i = Some g -> nth_error gs j = Some g' -> location V g = location V g' -> i = j).
  Proof.
    intros LC LO. unfold gauge_initialize. rewrite start_ok. cbn [bind]. unfold zput. cbn [Z.ltb Z.compare]. rewrite put_upd by (cbn; lia). cbn [bind].
    rewrite map_length, seq_length.
    destruct (place_blocks nb (le_n nb) (map ginit (seq 0 n), cs0, 0) (upd offs0 (Z.to_nat 0) 0)) as ([[gs cs] ng] & offs & E & I1 & O1).
    { split; [reflexivity|]. split; [now rewrite map_length, seq_length|]. split; [exact LC|]. split; [intros k b i; destruct k; discriminate|].
      intros i HI _. rewrite nth_error_map, nth_seq by lia. reflexivity. }
    { now rewrite upd_length. }
    { apply nth_upd_same. cbn. lia. }
    unfold place_state in *. rewrite E. cbn [bind]. exists gs, cs, offs. split; [reflexivity|]. destruct I1 as (E1 & L1 & L2 & H1 & H2). destruct O1 as (LO1 & O1).
    split; [exact L1|]. split; [exact L2|]. split.
    { split; [exact LO1|]. split; [rewrite O1 by lia; reflexivity|]. split; [rewrite O1 by lia; now rewrite slots_length|].
      intros b Hb. rewrite !O1 by lia. rewrite slots_S, app_length. lia. }
    assert (ALL : forall i, (i < n)%nat -> exists b k, nth_error (slots nb) k = Some (b, i)).
    { intros i HI. destruct (ONE i HI) as (b & HB & HL & _). assert (IN : In (b, i) (slots nb)) by (apply slots_in; split; [lia|]; apply inb_lies; assumption).
      apply In_nth_error in IN. destruct IN as (k & IN). eauto. }
    split.
    - intros i HI. destruct (ALL i HI) as (b & k & EK). destruct (H1 k b i EK) as (X1 & X2). destruct (slots_pos nb k b i EK) as (X3 & X4). exists b, k.
      split; [exact X3|]. split; [rewrite <- slots_length; apply nth_error_Some; congruence|]. split.
      { apply nth_error_In in EK. apply slots_in in EK. apply inb_lies; tauto. }
      split; [exact X1|]. split; [rewrite !O1 by lia; lia|exact X2].
    - intros i j g g' Ei Ej EQ. pose proof (nth_some_lt _ _ _ _ Ei). pose proof (nth_some_lt _ _ _ _ Ej). rewrite L1 in *.
      destruct (ALL i ltac:(lia)) as (b & k & EK). destruct (H1 k b i EK) as (X1 & _). destruct (ALL j ltac:(lia)) as (b' & k' & EK'). destruct (H1 k' b' j EK') as (X1' & _).
      assert (g = set_place V (ginit i) (Z.of_nat b) (Z.of_nat k)) by congruence. assert (g' = set_place V (ginit j) (Z.of_nat b') (Z.of_nat k')) by congruence. subst g g'. cbn in EQ.
      assert (k = k') by lia. subst k'. congruence.
  Qed.
End Values.
