From Coq Require Import ZArith QArith List Bool Lia Permutation Arith.
From Verif Require Import Base_Float Model_Face Model_Domain Spec_Domain Proof_Domain2 Model_Search Spec_Search.
Import ListNotations.
Open Scope nat_scope.

Fixpoint upd {A} (l : list A) (i : nat) (v : A) : list A :=
  match l, i with [], _ => [] | _ :: l, O => v :: l | x :: l, S i => x :: upd l i v end.
Lemma put_upd : forall A (l : list A) i v, i < length l -> put l i v = Some (upd l i v).
Proof.
  induction l as [|x l IH]; intros i v H; [cbn in H; lia|]. destruct i; [reflexivity|]. cbn [put upd]. rewrite IH by (cbn in H; lia). reflexivity.
Qed.
Lemma upd_length : forall A (l : list A) i v, length (upd l i v) = length l.
Proof. induction l as [|x l IH]; intros [|i] v; cbn; auto. Qed.
Lemma upd_same : forall A (l : list A) i v, i < length l -> nth_error (upd l i v) i = Some v.
Proof. induction l as [|x l IH]; intros i v H; [cbn in H; lia|]. destruct i; [reflexivity|]. apply IH. cbn in H. lia. Qed.
Lemma upd_other : forall A (l : list A) i j v, i <> j -> nth_error (upd l i v) j = nth_error l j.
Proof. induction l as [|x l IH]; intros [|i] [|j] v H; cbn; try reflexivity; [lia|]. apply IH. lia. Qed.
Lemma upd_id : forall A (l : list A) i v, nth_error l i = Some v -> upd l i v = l.
Proof. induction l as [|x l IH]; intros [|i] v H; cbn in *; try congruence. f_equal. now apply IH. Qed.
Lemma nth_some_lt : forall A (l : list A) i x, nth_error l i = Some x -> i < length l.
Proof. intros A l i x H. apply nth_error_Some. congruence. Qed.

Lemma stree_rect' : forall P : stree -> Prop, (forall q n, P (Leaf q n)) ->
  (forall q ch, (forall t, In t ch -> P t) -> P (Node q ch)) -> forall t, P t.
Proof.
  intros P H1 H2. fix IH 1. intros [q n|q ch]; [apply H1|]. apply H2. induction ch as [|t ch IHc]; intros u H; [destruct H|].
  destruct H as [<-|H]; [apply IH|exact (IHc u H)].
Qed.

Section Slots.
  Variables S P : Type.
  Variable fn : Z -> quad -> Z -> P -> list S -> option (bool * list S).
  Variable idx : P -> nat.
  Variable m : Z -> quad -> Z -> P -> bool.
  Variable uu : Z -> quad -> Z -> P -> S -> S.
  Variable good : Z -> quad -> Z -> Prop.
  Variable ok : P -> S -> Prop.
  Hypothesis F : forall tree q n pt st s, good tree q n -> nth_error st (idx pt) = Some s -> ok pt s ->
    fn tree q n pt st = Some (m tree q n pt, upd st (idx pt) (uu tree q n pt s)) /\ ok pt (uu tree q n pt s).

  Definition runs (vis : P -> S -> S) (pts : list P) (st st' : list S) : Prop :=
    length st' = length st /\
    (forall pt s, In pt pts -> nth_error st (idx pt) = Some s -> nth_error st' (idx pt) = Some (vis pt s)) /\
    (forall i, ~ In i (map idx pts) -> nth_error st' i = nth_error st i).
  Definition sok (pts : list P) (st : list S) : Prop := forall pt, In pt pts -> exists s, nth_error st (idx pt) = Some s /\ ok pt s.

  Lemma ask_ok : forall tree q n pts st, good tree q n -> NoDup (map idx pts) -> sok pts st ->
    exists st', ask (list S) P fn tree q n pts st = Some (filter (m tree q n) pts, st') /\ runs (uu tree q n) pts st st' /\ sok pts st'.
  Proof.
    intros tree q n. induction pts as [|pt pts IH]; intros st G ND SO.
    - exists st. split; [reflexivity|]. split; [|exact SO]. split; [reflexivity|]. split; [contradiction|reflexivity].
    - inversion ND as [|? ? N1 N2]; subst. destruct (SO pt (or_introl eq_refl)) as (s & Hs & Os).
      destruct (F tree q n pt st s G Hs Os) as (E & O2). cbn [ask]. rewrite E. cbn [bind].
      assert (NE : forall pt', In pt' pts -> idx pt <> idx pt') by (intros pt' H X; apply N1; rewrite X; now apply in_map).
      destruct (IH (upd st (idx pt) (uu tree q n pt s)) G N2) as (st' & E2 & (R1 & R2 & R3) & SO2).
      { intros pt' H. destruct (SO pt' (or_intror H)) as (s' & Hs' & Os'). exists s'. rewrite upd_other by exact (NE pt' H). auto. }
      rewrite E2. cbn [bind]. exists st'. split; [reflexivity|].
      assert (ST : nth_error st' (idx pt) = Some (uu tree q n pt s)).
      { rewrite R3 by exact N1. apply upd_same. exact (nth_some_lt _ _ _ _ Hs). }
      split.
      + split; [rewrite R1; apply upd_length|]. split.
        * intros pt' s' [<-|H] Hs'; [replace s' with s by congruence; exact ST|]. apply R2; [exact H|]. rewrite upd_other by exact (NE pt' H). exact Hs'.
        * intros i H. cbn in H. rewrite R3 by tauto. apply upd_other. tauto.
      + intros pt' [<-|H]; [exists (uu tree q n pt s); auto|exact (SO2 pt' H)].
  Qed.

  Lemma runs_comp : forall v1 v2 f pts st st1 st2, NoDup (map idx pts) -> sok pts st -> runs v1 pts st st1 -> runs v2 (filter f pts) st1 st2 ->
    runs (fun pt s => if f pt then v2 pt (v1 pt s) else v1 pt s) pts st st2.
  Proof.
    intros v1 v2 f pts st st1 st2 ND SO (A1 & A2 & A3) (B1 & B2 & B3). split; [congruence|]. split.
    - intros pt s H Hs. destruct (f pt) eqn:E.
      + apply B2; [apply filter_In; auto|]. apply A2; assumption.
      + rewrite B3; [apply A2; assumption|]. intros X. apply in_map_iff in X. destruct X as (pt' & X1 & X2). apply filter_In in X2. destruct X2 as (X2 & X3).
        assert (pt' = pt); [|congruence]. clear - ND H X1 X2. induction pts as [|p pts IH]; [contradiction|]. inversion ND as [|? ? N1 N2]; subst.
        destruct H as [<-|H]; destruct X2 as [<-|X2]; [reflexivity| | |exact (IH N2 H X2)].
        * exfalso. apply N1. rewrite <- X1. now apply in_map.
        * exfalso. apply N1. rewrite X1. now apply in_map.
    - intros i H. rewrite B3, A3; [reflexivity|exact H|]. intros X. apply H. apply in_map_iff in X. destruct X as (pt & X1 & X2).
      apply filter_In in X2. rewrite <- X1. apply in_map. tauto.
  Qed.
  Lemma nodup_filter : forall f pts, NoDup (map idx pts) -> NoDup (map idx (filter f pts)).
  Proof.
    intros f. induction pts as [|p pts IH]; intros H; [constructor|]. inversion H as [|? ? N1 N2]; subst. cbn. destruct (f p); [|now apply IH].
    cbn. constructor; [|now apply IH]. intros X. apply N1. apply in_map_iff in X. destruct X as (p' & X1 & X2). apply filter_In in X2. rewrite <- X1. apply in_map. tauto.
  Qed.

  Fixpoint visit (tree : Z) (pt : P) (t : stree) (s : S) : S :=
    match t with
    | Leaf q n => uu tree q n pt s
    | Node q ch => if m tree q (-1) pt then fold_left (fun s t => visit tree pt t s) ch (uu tree q (-1) pt s) else uu tree q (-1) pt s
    end.
  Fixpoint well (tree : Z) (t : stree) : Prop :=
    match t with
    | Leaf q n => good tree q n
    | Node q ch => good tree q (-1) /\ fold_right (fun t X => well tree t /\ X) True ch
    end.
  Lemma well_in : forall tree ch, fold_right (fun t X => well tree t /\ X) True ch <-> forall t, In t ch -> well tree t.
  Proof.
    intros tree. induction ch as [|t ch IH]; cbn; [split; [contradiction|auto]|]. split.
    - intros (A & B) t' [<-|H]; [exact A|]. apply IH; assumption.
    - intros H. split; [apply H; now left|]. apply IH. intros t' X. apply H. now right.
  Qed.

  Lemma sok_filter : forall f pts st, sok pts st -> sok (filter f pts) st.
  Proof. intros f pts st H pt X. apply filter_In in X. apply H. tauto. Qed.
  Lemma filter_true : forall (pts : list P), filter (fun _ => true) pts = pts.
  Proof. induction pts; cbn; [reflexivity|]. now f_equal. Qed.

  Lemma search_ok : forall t tree pts st, well tree t -> NoDup (map idx pts) -> sok pts st ->
    exists st', search (list S) P fn tree t pts st = Some st' /\ runs (fun pt => visit tree pt t) pts st st' /\ sok pts st'.
  Proof.
    induction t as [q n|q ch IH] using stree_rect'; intros tree pts st W ND SO.
    - cbn [search]. destruct (ask_ok tree q n pts st W ND SO) as (st' & E & R & SO'). rewrite E. cbn [bind]. exists st'. auto.
    - cbn [search well] in *. destruct W as (G & W). rewrite well_in in W.
      destruct (ask_ok tree q (-1) pts st G ND SO) as (st1 & E & R & SO1). rewrite E. cbn [bind].
      set (act := filter (m tree q (-1)) pts).
      assert (C : forall ch', (forall t, In t ch' -> In t ch) -> forall st0, sok act st0 -> exists st',
        (fix children (ch0 : list stree) (st2 : list S) {struct ch0} : option (list S) :=
          match ch0 with [] => Some st2 | t :: ch1 => bind (search (list S) P fn tree t act st2) (children ch1) end) ch' st0 = Some st' /\
        runs (fun pt s => fold_left (fun s t => visit tree pt t s) ch' s) act st0 st' /\ sok act st').
      { induction ch' as [|t ch' IHc]; intros SUB st0 SO0.
        - exists st0. split; [reflexivity|]. split; [|exact SO0]. split; [reflexivity|]. split; [intros pt s _ H; exact H|reflexivity].
        - assert (NA : NoDup (map idx act)) by (apply nodup_filter; exact ND).
          destruct (IH t (SUB t (or_introl eq_refl)) tree act st0 (W t (SUB t (or_introl eq_refl))) NA SO0) as (st2 & E2 & R2 & SO2).
          rewrite E2. cbn [bind]. destruct (IHc (fun t' H => SUB t' (or_intror H)) st2 SO2) as (st3 & E3 & R3 & SO3).
          exists st3. split; [exact E3|]. split; [|exact SO3].
          assert (RR := runs_comp (fun pt => visit tree pt t) (fun pt s => fold_left (fun s t => visit tree pt t s) ch' s) (fun _ => true) act st0 st2 st3 NA SO0 R2).
          rewrite filter_true in RR. exact (RR R3). }
      destruct (C ch (fun t H => H) st1 (sok_filter _ _ _ SO1)) as (st' & E2 & R2 & SO2). exists st'. split; [exact E2|].
      assert (RR := runs_comp (uu tree q (-1)) (fun pt s => fold_left (fun s t => visit tree pt t s) ch s) (m tree q (-1)) pts st st1 st' ND SO R R2).
      split; [exact RR|].
      intros pt H. destruct (m tree q (-1) pt) eqn:M.
      + apply SO2. apply filter_In. auto.
      + destruct (SO1 pt H) as (s & Hs & Os). exists s. split; [|exact Os].
        destruct R2 as (_ & _ & R2). rewrite R2; [exact Hs|]. intros X. destruct RR as (_ & RR & _).
        destruct (SO pt H) as (s0 & Hs0 & _). destruct R as (_ & R & _).
        apply in_map_iff in X. destruct X as (pt' & X1 & X2). apply filter_In in X2. destruct X2 as (X2 & X3).
        assert (pt' = pt); [|congruence]. clear - ND H X1 X2. induction pts as [|p pts IH]; [contradiction|]. inversion ND as [|? ? N1 N2]; subst.
        destruct H as [<-|H]; destruct X2 as [<-|X2]; [reflexivity| | |exact (IH N2 H X2)].
        * exfalso. apply N1. rewrite <- X1. now apply in_map.
        * exfalso. apply N1. rewrite X1. now apply in_map.
  Qed.

  Fixpoint visit_all (tree : Z) (forest : list (option stree)) (pt : P) (s : S) : S :=
    match forest with
    | [] => s
    | None :: f => visit_all (tree + 1) f pt s
    | Some t :: f => visit_all (tree + 1) f pt (visit tree pt t s)
    end.
  Fixpoint well_all (tree : Z) (forest : list (option stree)) : Prop :=
    match forest with
    | [] => True
    | None :: f => well_all (tree + 1) f
    | Some t :: f => well tree t /\ well_all (tree + 1) f
    end.
  Lemma search_local_ok : forall forest tree pts st, well_all tree forest -> NoDup (map idx pts) -> sok pts st ->
    exists st', search_local (list S) P fn tree forest pts st = Some st' /\ runs (visit_all tree forest) pts st st' /\ sok pts st'.
  Proof.
    induction forest as [|[t|] forest IH]; intros tree pts st W ND SO.
    - exists st. split; [reflexivity|]. split; [|exact SO]. split; [reflexivity|]. split; [intros pt s _ H; exact H|reflexivity].
    - cbn [search_local well_all] in *. destruct W as (W1 & W2). destruct (search_ok t tree pts st W1 ND SO) as (st1 & E1 & R1 & SO1).
      rewrite E1. cbn [bind]. destruct (IH (tree + 1)%Z pts st1 W2 ND SO1) as (st2 & E2 & R2 & SO2). exists st2. split; [exact E2|]. split; [|exact SO2].
      assert (RR := runs_comp (fun pt => visit tree pt t) (visit_all (tree + 1) forest) (fun _ => true) pts st st1 st2 ND SO R1).
      rewrite filter_true in RR. exact (RR R2).
    - apply IH; assumption.
  Qed.
End Slots.
