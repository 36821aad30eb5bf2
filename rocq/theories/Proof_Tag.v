(** Scanning the cells of patches. *)
From Coq Require Import ZArith QArith Qminmax Qabs Lqa List Sorted Lia Bool.
From Verif Require Import Base_Float Model_Face Model_Grid Spec_Grid Model_Tag Spec_Tag Proof_Grid Proof_Ghost.
Import ListNotations.
Open Scope Z_scope.

Lemma loop_ok : forall (S : Type) lo hi (f : Z -> S -> option S) (P : Z -> S -> Prop), lo <= hi + 1 ->
  (forall k s, lo <= k <= hi -> P k s -> exists s', f k s = Some s' /\ P (k + 1) s') ->
  forall s, P lo s -> exists s', loop lo hi f s = Some s' /\ P (hi + 1) s'.
Proof.
  intros S lo hi f P Hlo Hf. unfold loop.
  assert (G : forall n k s, lo <= k -> k + Z.of_nat n = hi + 1 -> P k s -> exists s', loop_n n k f s = Some s' /\ P (hi + 1) s').
  { induction n as [|n IH]; intros k s Hk He HP.
    - exists s. split; [reflexivity|]. replace (hi + 1) with k by lia. exact HP.
    - destruct (Hf k s ltac:(lia) HP) as (s1 & E1 & P1). cbn [loop_n]. rewrite E1. cbn [bind]. apply IH; [lia|lia|exact P1]. }
  intros s HP. apply (G _ lo); [lia|lia|exact HP].
Qed.

(** a loop as a run over a list *)
Fixpoint runl {A S} (step : A -> S -> option S) (l : list A) (s : S) : option S :=
  match l with [] => Some s | a :: l => bind (step a s) (fun s => runl step l s) end.
Lemma runl_app : forall A S (step : A -> S -> option S) l1 l2 s, runl step (l1 ++ l2) s = bind (runl step l1 s) (runl step l2).
Proof.
  intros A S step l1 l2. induction l1 as [|a l1 IH]; intros s; cbn [runl app bind]; [reflexivity|].
  destruct (step a s) as [s1|]; cbn [bind]; [apply IH|reflexivity].
Qed.
Lemma loop_runl : forall S lo hi (f : Z -> S -> option S) s, loop lo hi f s = runl f (zseq lo hi) s.
Proof.
  intros S lo hi f. unfold loop, zseq.
  assert (G : forall n k s m, loop_n n (k + Z.of_nat m) f s = runl f (map (fun x => k + Z.of_nat x) (seq m n)) s).
  { induction n as [|n IH]; intros k s m; cbn [loop_n seq map runl]; [reflexivity|].
    destruct (f (k + Z.of_nat m) s) as [s1|]; cbn [bind]; [|reflexivity].
    replace (k + Z.of_nat m + 1) with (k + Z.of_nat (Datatypes.S m)) by lia. apply IH. }
  intros s. specialize (G (Z.to_nat (hi - lo + 1)) lo s 0%nat). rewrite Z.add_0_r in G. exact G.
Qed.
Lemma loop_ext : forall S lo hi (f g : Z -> S -> option S), (forall k s, lo <= k <= hi -> f k s = g k s) ->
  forall s, loop lo hi f s = loop lo hi g s.
Proof.
  intros S lo hi f g H. unfold loop.
  assert (G : forall n k s, lo <= k -> k + Z.of_nat n <= Z.max (hi + 1) lo -> loop_n n k f s = loop_n n k g s).
  { induction n as [|n IH]; intros k s Hk Hn; [reflexivity|]. cbn [loop_n]. rewrite H by lia.
    destruct (g k s) as [s1|]; cbn [bind]; [apply IH; lia|reflexivity]. }
  intros s. apply G; lia.
Qed.
Lemma runl_flat : forall A B S (step : B -> S -> option S) (L : A -> list B) l s,
  runl (fun a s => runl step (L a) s) l s = runl step (flat_map L l) s.
Proof.
  intros A B S step L l. induction l as [|a l IH]; intros s; cbn [runl flat_map]; [reflexivity|].
  rewrite runl_app. destruct (runl step (L a) s) as [s1|]; cbn [bind]; [apply IH|reflexivity].
Qed.
Lemma runl_map : forall A B S (step : B -> S -> option S) (g : A -> B) l s,
  runl (fun a s => step (g a) s) l s = runl step (map g l) s.
Proof.
  intros A B S step g l. induction l as [|a l IH]; intros s; cbn [runl map]; [reflexivity|].
  destruct (step (g a) s) as [s1|]; cbn [bind]; [apply IH|reflexivity].
Qed.

(** j outermost, i outermost *)
Definition row_order (d : dims) : list (Z * Z) :=
  flat_map (fun j => map (fun i => (i, j)) (zseq (1 - mbc d) (mx d + mbc d))) (zseq (1 - mbc d) (my d + mbc d)).
Definition col_order (d : dims) : list (Z * Z) :=
  flat_map (fun i => map (fun j => (i, j)) (zseq (1 - mbc d) (my d + mbc d))) (zseq (1 - mbc d) (mx d + mbc d)).

Lemma zseq_nodup : forall lo hi, NoDup (zseq lo hi).
Proof.
  intros lo hi. unfold zseq. apply FinFun.Injective_map_NoDup; [intros a b H; lia|apply seq_NoDup].
Qed.
Lemma nodup_flat : forall A B (L : A -> list B) (k : B -> A) l, NoDup l -> (forall a, NoDup (L a)) ->
  (forall a b, In b (L a) -> k b = a) -> NoDup (flat_map L l).
Proof.
  intros A B L k l Hl HL Hk. induction Hl as [|a l Ha Hl IH]; cbn [flat_map]; [constructor|].
  assert (G : forall l1, NoDup l1 -> (forall b, In b l1 -> k b = a) -> NoDup (l1 ++ flat_map L l)).
  { intros l1 H1. induction H1 as [|b l1 Hb H1 IH1]; intros Hin; cbn [app]; [exact IH|].
    constructor.
    - intros X. apply in_app_or in X. destruct X as [X|X]; [contradiction|].
      apply in_flat_map in X. destruct X as (a' & Ha' & Hb'). apply Hk in Hb'. rewrite (Hin b) in Hb' by now left.
      subst a'. contradiction.
    - apply IH1. intros b' Hb'. apply Hin. now right. }
  apply G; [apply HL|]. intros b Hb. now apply Hk.
Qed.
Lemma row_visits : forall d, visits_all d (row_order d).
Proof.
  intros d. split.
  - apply (nodup_flat _ _ _ snd); [apply zseq_nodup| |].
    + intros j. apply FinFun.Injective_map_NoDup; [intros a b H; congruence|apply zseq_nodup].
    + intros j c H. apply in_map_iff in H. destruct H as (i & <- & _). reflexivity.
  - intros [i j]. unfold row_order, in_array. rewrite in_flat_map. cbn [fst snd]. split.
    + intros (j' & Hj & H). apply in_map_iff in H. destruct H as (i' & E & Hi). apply in_zseq in Hi, Hj.
      assert (i = i' /\ j = j') as (-> & ->) by (split; congruence). tauto.
    + intros (Hi & Hj). exists j. split; [now apply in_zseq|]. apply in_map_iff. exists i. split; [reflexivity|now apply in_zseq].
Qed.
Lemma col_visits : forall d, visits_all d (col_order d).
Proof.
  intros d. split.
  - apply (nodup_flat _ _ _ fst); [apply zseq_nodup| |].
    + intros j. apply FinFun.Injective_map_NoDup; [intros a b H; congruence|apply zseq_nodup].
    + intros j c H. apply in_map_iff in H. destruct H as (i & <- & _). reflexivity.
  - intros [i j]. unfold col_order, in_array. rewrite in_flat_map. cbn [fst snd]. split.
    + intros (i' & Hi & H). apply in_map_iff in H. destruct H as (j' & E & Hj). apply in_zseq in Hi, Hj.
      assert (i = i' /\ j = j') as (-> & ->) by (split; congruence). tauto.
    + intros (Hi & Hj). exists i. split; [now apply in_zseq|]. apply in_map_iff. exists j. split; [reflexivity|now apply in_zseq].
Qed.

Lemma sorted_flat : forall A B (L : A -> list B) (RA : A -> A -> Prop) (RB : B -> B -> Prop) l, StronglySorted RA l ->
  (forall a, StronglySorted RB (L a)) -> (forall a a' b b', RA a a' -> In b (L a) -> In b' (L a') -> RB b b') ->
  StronglySorted RB (flat_map L l).
Proof.
  intros A B L RA RB l Hl HL HR. induction Hl as [|a l Hl IH Ha]; cbn [flat_map]; [constructor|].
  rewrite Forall_forall in Ha.
  assert (G : forall l1, StronglySorted RB l1 -> (forall b, In b l1 -> In b (L a)) -> StronglySorted RB (l1 ++ flat_map L l)).
  { intros l1 H1. induction H1 as [|b l1 H1 IH1 Hb]; intros Hin; cbn [app]; [exact IH|].
    constructor; [apply IH1; intros b' Hb'; apply Hin; now right|]. apply Forall_app. split; [exact Hb|].
    apply Forall_forall. intros b' Hb'. apply in_flat_map in Hb'. destruct Hb' as (a' & Ha' & Hb').
    apply (HR a a'); [now apply Ha|apply Hin; now left|exact Hb']. }
  apply G; [apply HL|]. intros b Hb. exact Hb.
Qed.
Lemma zseq_sorted : forall lo hi, StronglySorted Z.lt (zseq lo hi).
Proof.
  intros lo hi. unfold zseq. generalize (Z.to_nat (hi - lo + 1)) as n. generalize 0%nat as m. intros m n. revert m.
  induction n as [|n IH]; intros m; cbn [seq map]; [constructor|]. constructor; [apply IH|].
  apply Forall_forall. intros x Hx. apply in_map_iff in Hx. destruct Hx as (y & <- & Hy). apply in_seq in Hy. lia.
Qed.
Lemma map_sorted : forall A B (g : A -> B) (RA : A -> A -> Prop) (RB : B -> B -> Prop) l, StronglySorted RA l ->
  (forall a b, RA a b -> RB (g a) (g b)) -> StronglySorted RB (map g l).
Proof.
  intros A B g RA RB l Hl H. induction Hl as [|a l Hl IH Ha]; cbn [map]; [constructor|]. constructor; [exact IH|].
  rewrite Forall_forall in *. intros x Hx. apply in_map_iff in Hx. destruct Hx as (y & <- & Hy). apply H. now apply Ha.
Qed.
Lemma row_sorted : forall d, row_major d (row_order d).
Proof.
  intros d. split; [|apply row_visits]. unfold row_order.
  apply (sorted_flat _ _ _ Z.lt); [apply zseq_sorted| |].
  - intros j. apply (map_sorted _ _ _ Z.lt); [apply zseq_sorted|]. intros a b H. unfold by_rows. cbn [fst snd]. lia.
  - intros a a' b b' H Hb Hb'. apply in_map_iff in Hb, Hb'. destruct Hb as (x & <- & _), Hb' as (y & <- & _).
    unfold by_rows. cbn [fst snd]. lia.
Qed.
Lemma col_sorted : forall d, col_major d (col_order d).
Proof.
  intros d. split; [|apply col_visits]. unfold col_order.
  apply (sorted_flat _ _ _ Z.lt); [apply zseq_sorted| |].
  - intros j. apply (map_sorted _ _ _ Z.lt); [apply zseq_sorted|]. intros a b H. unfold by_cols. cbn [fst snd]. lia.
  - intros a a' b b' H Hb Hb'. apply in_map_iff in Hb, Hb'. destruct Hb as (x & <- & _), Hb' as (y & <- & _).
    unfold by_cols. cbn [fst snd]. lia.
Qed.

Lemma Qgtb_iff : forall x y, Qgtb x y = true <-> (y < x)%Q.
Proof.
  intros x y. unfold Qgtb. rewrite negb_true_iff, <- not_true_iff_false, Qle_bool_iff. split.
  - apply Qnot_le_lt.
  - intros H1 H2. lra.
Qed.
Lemma Qgtb_false : forall x y, Qgtb x y = false <-> (x <= y)%Q.
Proof. intros x y. unfold Qgtb. rewrite negb_false_iff. apply Qle_bool_iff. Qed.

Lemma least_app : forall mq seen x v, least mq seen x -> least mq (seen ++ [v]) (Qmin x (v mq)).
Proof.
  intros mq seen x v (A & w & Hw & Ew). split.
  - intros u Hu. apply in_app_or in Hu. destruct Hu as [Hu|[<-|[]]].
    + specialize (A u Hu). pose proof (Q.le_min_l x (v mq)). lra.
    + apply Q.le_min_r.
  - destruct (Q.min_dec x (v mq)) as [E|E]; [|].
    + exists w. split; [apply in_or_app; now left|]. rewrite E. exact Ew.
    + exists v. split; [apply in_or_app; right; now left|]. exact E.
Qed.
Lemma greatest_app : forall mq seen x v, greatest mq seen x -> greatest mq (seen ++ [v]) (Qmax x (v mq)).
Proof.
  intros mq seen x v (A & w & Hw & Ew). split.
  - intros u Hu. apply in_app_or in Hu. destruct Hu as [Hu|[<-|[]]].
    + specialize (A u Hu). pose proof (Q.le_max_l x (v mq)). lra.
    + apply Q.le_max_r.
  - destruct (Q.max_dec x (v mq)) as [E|E]; [|].
    + exists w. split; [apply in_or_app; now left|]. rewrite E. exact Ew.
    + exists v. split; [apply in_or_app; right; now left|]. exact E.
Qed.
Lemma least_unique : forall mq seen x y, least mq seen x -> least mq seen y -> (x == y)%Q.
Proof.
  intros mq seen x y (A & v & Hv & Ev) (B & w & Hw & Ew). specialize (A w Hw). specialize (B v Hv). lra.
Qed.
Lemma greatest_unique : forall mq seen x y, greatest mq seen x -> greatest mq seen y -> (x == y)%Q.
Proof.
  intros mq seen x y (A & v & Hv & Ev) (B & w & Hw & Ew). specialize (A w Hw). specialize (B v Hv). lra.
Qed.

Lemma shows_same : forall d t f xl yl seen c a b, shows d t f xl yl seen c a -> shows d t f xl yl seen c b -> same_args d a b.
Proof.
  intros d t f xl yl seen [i j] a b
    (A1 & A2 & A3 & A4 & A5 & A6 & A7 & A8 & A9 & A10) (B1 & B2 & B3 & B4 & B5 & B6 & B7 & B8 & B9 & B10).
  assert (G : c_ghost a = c_ghost b).
  { destruct (c_ghost a) eqn:Ea, (c_ghost b) eqn:Eb; try reflexivity.
    - assert (X : true = false) by (apply A8, B8; reflexivity). exact X.
    - assert (X : true = false) by (apply B8, A8; reflexivity). symmetry. exact X. }
  split; [congruence|]. split; [now rewrite A2, B2|]. split; [now rewrite A3, B3|]. split; [now rewrite A4, B4|].
  split; [congruence|]. split; [now rewrite A6, B6|]. split; [now rewrite A7, B7|]. split; [exact G|]. split.
  - intros mq Hm. destruct (A9 mq Hm) as ((x1 & E1 & H1) & (x2 & E2 & H2) & (x3 & E3 & H3)).
    destruct (B9 mq Hm) as ((y1 & F1 & K1) & (y2 & F2 & K2) & (y3 & F3 & K3)).
    rewrite E1, E2, E3, F1, F2, F3. cbn [same_q]. split; [now rewrite H1, K1|].
    split; [eapply least_unique; eassumption|eapply greatest_unique; eassumption].
  - intros Hg ii jj mq Hi Hj Hm. apply A8 in Hg.
    destruct (A10 Hg ii jj mq Hi Hj Hm) as (x & E & H). destruct (B10 Hg ii jj mq Hi Hj Hm) as (y & F & K).
    rewrite E, F. cbn [same_q]. now rewrite H, K.
Qed.

Section Scanning.
  Variable d : dims.
  Hypothesis Hd : usual d.
  Variable t : setting.
  Variable crit : cargs -> option Z.
  Hypothesis Hc : usable d t crit.
  Notation visit' := (visit d crit (t_block t) (t_dx t) (t_dy t) (t_th t) (t_init t)).

  (** the running minimum and maximum over [seen] *)
  Definition inv (seen : list (Z -> Q)) (s : scan) : Prop :=
    forall mq, 1 <= mq <= meqn d ->
      (exists x, s_min s mq = Some x /\ least mq seen x) /\ (exists x, s_max s mq = Some x /\ greatest mq seen x).

  Lemma vset_eq : forall v mq x, vset v mq x mq = Some x.
  Proof. intros. unfold vset. now rewrite Z.eqb_refl. Qed.
  Lemma vset_ne : forall v mq x k, k <> mq -> vset v mq x k = v k.
  Proof. intros. unfold vset. destruct (Z.eqb_spec k mq); [contradiction|reflexivity]. Qed.

  Lemma rd_ok : forall q f i j mq, all_set d q f -> in_array d (i, j) -> 1 <= mq <= meqn d -> rd d q (i, j, mq) = Some (f i j mq).
  Proof.
    intros q f i j mq Hq (Hi & Hj) Hm. cbn [fst snd] in *. unfold rd.
    rewrite (proj2 (in_q_iff d i j mq)) by lia. now apply Hq.
  Qed.

  Lemma take_ok : forall q f i j s seen, all_set d q f -> in_array d (i, j) -> inv seen s ->
    exists s', take d q i j s = Some s' /\ inv (seen ++ [f i j]) s' /\ (forall mq, 1 <= mq <= meqn d -> s_val s' mq = Some (f i j mq)).
  Proof.
    intros q f i j s seen Hq Hin Hs. destruct Hd as (_ & _ & _ & Hm1). unfold take.
    destruct (loop_ok scan 1 (meqn d) (fun mq s0 =>
       bind (rd d q (i, j, mq)) (fun x => bind (s_min s0 mq) (fun lo => bind (s_max s0 mq) (fun hi =>
         Some (mkScan (vset (s_min s0) mq (Qmin lo x)) (vset (s_max s0) mq (Qmax hi x)) (vset (s_val s0) mq x) (s_quad s0))))))
      (fun k s' => forall mq, 1 <= mq <= meqn d ->
         (mq < k -> s_val s' mq = Some (f i j mq) /\
            (exists x, s_min s' mq = Some x /\ least mq (seen ++ [f i j]) x) /\
            (exists x, s_max s' mq = Some x /\ greatest mq (seen ++ [f i j]) x)) /\
         (k <= mq -> s_min s' mq = s_min s mq /\ s_max s' mq = s_max s mq))) with (s := s) as (s' & E & P).
    - lia.
    - intros k s0 Hk HP. rewrite (rd_ok q f i j k Hq Hin Hk). cbn [bind].
      destruct (HP k Hk) as (_ & HK). destruct (HK ltac:(lia)) as (K1 & K2).
      destruct (Hs k Hk) as ((lo & L1 & L2) & (hi & U1 & U2)). rewrite K1, K2, L1, U1. cbn [bind].
      eexists. split; [reflexivity|]. intros mq Hm. cbn [s_min s_max s_val s_quad]. destruct (Z.eq_dec mq k) as [->|N].
      + rewrite !vset_eq. split; [|lia]. intros _. split; [reflexivity|]. split.
        * eexists. split; [reflexivity|]. now apply (least_app k seen lo (f i j)).
        * eexists. split; [reflexivity|]. now apply (greatest_app k seen hi (f i j)).
      + rewrite !vset_ne by exact N. destruct (HP mq Hm) as (P1 & P2). split; intros H; [apply P1; lia|apply P2; lia].
    - intros mq Hm. split; [lia|]. intros _. now split.
    - exists s'. split; [exact E|]. split; [intros mq Hm|intros mq Hm]; destruct (P mq Hm) as (P1 & _); destruct (P1 ltac:(lia)) as (V & L & U).
      + now split.
      + exact V.
  Qed.

  Lemma quad_ok : forall q f i j s, all_set d q f -> in_patch d (i, j) ->
    exists s', fill_quad d q i j s = Some s' /\ s_min s' = s_min s /\ s_max s' = s_max s /\ s_val s' = s_val s /\
    forall ii jj mq, -1 <= ii <= 1 -> -1 <= jj <= 1 -> 1 <= mq <= meqn d -> s_quad s' ii jj mq = Some (f (i + ii) (j + jj) mq).
  Proof.
    intros q f i j s Hq (Hi & Hj). cbn [fst snd] in *. destruct Hd as (Hx & Hy & Hb & Hm1). unfold fill_quad.
    set (Base := fun s' : scan => s_min s' = s_min s /\ s_max s' = s_max s /\ s_val s' = s_val s).
    set (D := fun (jj ii mq : Z) (s' : scan) => Base s' /\ forall ii' jj' mq', -1 <= ii' <= 1 -> -1 <= jj' <= 1 -> 1 <= mq' <= meqn d ->
        jj' < jj \/ jj' = jj /\ (ii' < ii \/ ii' = ii /\ mq' < mq) -> s_quad s' ii' jj' mq' = Some (f (i + ii') (j + jj') mq')).
    destruct (loop_ok scan (-1) 1 (fun jj => loop (-1) 1 (fun ii => loop 1 (meqn d) (fun mq s0 =>
      bind (rd d q (i + ii, j + jj, mq)) (fun x =>
      Some (mkScan (s_min s0) (s_max s0) (s_val s0)
             (fun ii' jj' => if (ii' =? ii) && (jj' =? jj) then vset (s_quad s0 ii jj) mq x else s_quad s0 ii' jj'))))))
      (fun jj => D jj (-1) 1)) with (s := s) as (s' & E & P).
    - lia.
    - intros jj s0 Hjj H0. destruct (loop_ok scan (-1) 1 (fun ii => loop 1 (meqn d) (fun mq s1 =>
      bind (rd d q (i + ii, j + jj, mq)) (fun x =>
      Some (mkScan (s_min s1) (s_max s1) (s_val s1)
             (fun ii' jj' => if (ii' =? ii) && (jj' =? jj) then vset (s_quad s1 ii jj) mq x else s_quad s1 ii' jj')))))
       (fun ii => D jj ii 1)) with (s := s0) as (s2 & E2 & P2); [lia| |exact H0|].
      + intros ii s1 Hii H1. destruct (loop_ok scan 1 (meqn d) (fun mq s1 =>
          bind (rd d q (i + ii, j + jj, mq)) (fun x =>
          Some (mkScan (s_min s1) (s_max s1) (s_val s1)
             (fun ii' jj' => if (ii' =? ii) && (jj' =? jj) then vset (s_quad s1 ii jj) mq x else s_quad s1 ii' jj'))))
          (fun mq => D jj ii mq)) with (s := s1) as (s3 & E3 & P3); [lia| |exact H1|].
        * intros mq s4 Hmq (B4 & Q4). rewrite (rd_ok q f _ _ mq Hq) by (try exact Hmq; split; cbn [fst snd]; lia). cbn [bind].
          eexists. split; [reflexivity|]. split; [exact B4|]. cbn [s_quad]. intros ii' jj' mq' I' J' M' H'.
          destruct (Z.eqb_spec ii' ii) as [Ei|Ni]; cbn [andb]; [|apply Q4; try assumption; lia].
          destruct (Z.eqb_spec jj' jj) as [Ej|Nj]; [|apply Q4; try assumption; lia].
          subst ii' jj'. destruct (Z.eq_dec mq' mq) as [->|Nm]; [apply vset_eq|].
          rewrite vset_ne by exact Nm. apply Q4; try assumption. lia.
        * exists s3. split; [exact E3|]. destruct P3 as (B3 & Q3). split; [exact B3|].
          intros ii' jj' mq' I' J' M' H'. apply Q3; try assumption. lia.
      + exists s2. split; [exact E2|]. destruct P2 as (B2 & Q2). split; [exact B2|].
        intros ii' jj' mq' I' J' M' H'. apply Q2; try assumption. lia.
    - split; [repeat split|]. intros ii' jj' mq' I' J' M' H'. lia.
    - exists s'. destruct P as ((B1 & B2 & B3) & Q1). split; [exact E|]. split; [exact B1|]. split; [exact B2|]. split; [exact B3|].
      intros ii jj mq I' J' M'. apply Q1; try assumption. lia.
  Qed.

  Lemma ghost_iff : forall i j, is_ghost d i j = false <-> in_patch d (i, j).
  Proof.
    intros i j. unfold is_ghost, in_patch. cbn [fst snd].
    destruct (Z.ltb_spec i 1), (Z.ltb_spec j 1), (Z.ltb_spec (mx d) i), (Z.ltb_spec (my d) j); cbn [orb];
      (split; [intros; try discriminate; lia|intros; try reflexivity; lia]).
  Qed.

  Lemma visit_ok : forall stop tag q f xl yl i j s seen, tag <> stop -> all_set d q f -> in_array d (i, j) -> inv seen s ->
    exists s' a r, visit' stop q xl yl i j (s, tag) = Some (s', if 0 <? r then stop else tag) /\
      inv (seen ++ [f i j]) s' /\ shows d t f xl yl (seen ++ [f i j]) (i, j) a /\ crit a = Some r.
  Proof.
    intros stop tag q f xl yl i j s seen Ht Hq Hin Hs. unfold visit.
    destruct (Z.eqb_spec tag stop) as [E|_]; [contradiction|].
    destruct (take_ok q f i j s seen Hq Hin Hs) as (s1 & E1 & I1 & V1). rewrite E1. cbn [bind].
    assert (G : exists s2, (if is_ghost d i j then Some s1 else fill_quad d q i j s1) = Some s2 /\ inv (seen ++ [f i j]) s2 /\
       (forall mq, 1 <= mq <= meqn d -> s_val s2 mq = Some (f i j mq)) /\
       (in_patch d (i, j) -> forall ii jj mq, -1 <= ii <= 1 -> -1 <= jj <= 1 -> 1 <= mq <= meqn d ->
          s_quad s2 ii jj mq = Some (f (i + ii) (j + jj) mq))).
    { destruct (is_ghost d i j) eqn:Eg.
      - exists s1. split; [reflexivity|]. split; [exact I1|]. split; [exact V1|].
        intros Hp. apply ghost_iff in Hp. congruence.
      - apply ghost_iff in Eg. destruct (quad_ok q f i j s1 Hq Eg) as (s2 & E2 & M & X & V & QQ).
        exists s2. split; [exact E2|]. unfold inv. rewrite M, X, V. split; [exact I1|]. split; [exact V1|]. intros _. exact QQ. }
    destruct G as (s2 & E2 & I2 & V2 & Q2). rewrite E2. cbn [bind].
    set (a := args d (t_block t) (t_dx t) (t_dy t) (t_th t) (t_init t) xl yl i j s2).
    assert (SH : shows d t f xl yl (seen ++ [f i j]) (i, j) a).
    { unfold a, args. cbn [shows c_block c_dx c_dy c_th c_init c_xc c_yc c_ghost c_qval c_qmin c_qmax c_quad].
      split; [reflexivity|]. split; [reflexivity|]. split; [reflexivity|]. split; [reflexivity|]. split; [reflexivity|].
      split; [reflexivity|]. split; [reflexivity|]. split; [apply ghost_iff|]. split.
      - intros mq Hm. split; [exists (f i j mq); split; [now apply V2|reflexivity]|]. now apply I2.
      - intros Hp ii jj mq I' J' M'. exists (f (i + ii) (j + jj) mq). split; [now apply Q2|reflexivity]. }
    destruct (proj2 Hc f xl yl _ _ a SH) as (r & Er). rewrite Er. cbn [bind].
    exists s2, a, r. split; [reflexivity|]. split; [exact I2|]. now split.
  Qed.

  Definition step (stop : Z) (q : arr) (xl yl : Q) (c : Z * Z) (st : scan * Z) : option (scan * Z) :=
    visit' stop q xl yl (fst c) (snd c) st.
  Lemma step_done : forall stop q xl yl l s, runl (step stop q xl yl) l (s, stop) = Some (s, stop).
  Proof.
    intros stop q xl yl l s. induction l as [|c l IH]; cbn [runl]; [reflexivity|].
    unfold step at 1, visit. rewrite Z.eqb_refl. cbn [bind]. exact IH.
  Qed.

  (** one patch *)
  Lemma scan_ok : forall stop tag q f xl yl l s before, tag <> stop -> all_set d q f -> (forall c, In c l -> in_array d c) -> inv before s ->
    exists s' tag', runl (step stop q xl yl) l (s, tag) = Some (s', tag') /\
     (tag' = stop /\ holds_somewhere d t crit f xl yl before l \/
      tag' = tag /\ ~ holds_somewhere d t crit f xl yl before l /\ inv (before ++ vals f l) s').
  Proof.
    intros stop tag q f xl yl l. induction l as [|[i j] l IH]; intros s before Ht Hq Hin Hs; cbn [runl].
    - exists s, tag. split; [reflexivity|]. right. split; [reflexivity|]. cbn [vals map]. rewrite app_nil_r. split; [|exact Hs].
      intros (pre & c & post & E & _). destruct pre; discriminate E.
    - unfold step at 1. cbn [fst snd].
      destruct (visit_ok stop tag q f xl yl i j s before Ht Hq (Hin _ (or_introl eq_refl)) Hs) as (s1 & a & r & E1 & I1 & SH & Er).
      rewrite E1. cbn [bind]. destruct (Z.ltb_spec 0 r) as [Hr|Hr].
      + rewrite step_done. exists s1, stop. split; [reflexivity|]. left. split; [reflexivity|].
        exists [], (i, j), l. split; [reflexivity|]. exists a, r. now split.
      + destruct (IH s1 (before ++ [f i j]) Ht Hq (fun c Hcc => Hin c (or_intror Hcc)) I1) as (s2 & tag2 & E2 & H).
        exists s2, tag2. split; [exact E2|].
        assert (AP : forall x, (before ++ [f i j]) ++ vals f x = before ++ vals f ((i, j) :: x)).
        { intros x. rewrite <- app_assoc. reflexivity. }
        destruct H as [(-> & pre & c & post & El & Hh)|(-> & Hn & I2)].
        * left. split; [reflexivity|]. exists ((i, j) :: pre), c, post. split; [now rewrite El|]. rewrite AP in Hh. exact Hh.
        * right. split; [reflexivity|]. split.
          -- intros (pre & c & post & El & Hh). destruct pre as [|c0 pre].
             ++ assert (c = (i, j)) by (cbn in El; congruence). subst c. destruct Hh as (a' & r' & SH' & Er' & Hr').
                pose proof (proj1 Hc a a' (shows_same _ _ _ _ _ _ _ _ _ SH SH')) as EE. rewrite Er, Er' in EE.
                assert (r = r') by congruence. lia.
             ++ cbn [app] in El. assert (c0 = (i, j) /\ l = pre ++ c :: post) as (-> & ->) by (split; congruence).
                apply Hn. exists pre, c, post. split; [reflexivity|]. rewrite AP. exact Hh.
          -- rewrite <- AP. exact I2.
  Qed.

  Lemma start_ok : forall q f, all_set d q f -> exists s, start d q = Some s /\ inv [f 1 1] s.
  Proof.
    intros q f Hq. destruct Hd as (Hx & Hy & Hb & Hm1). unfold start.
    destruct (loop_ok scan 1 (meqn d) (fun mq s => bind (rd d q (1, 1, mq)) (fun x =>
      Some (mkScan (vset (s_min s) mq x) (vset (s_max s) mq x) (s_val s) (s_quad s))))
      (fun k s => forall mq, 1 <= mq <= meqn d -> mq < k -> s_min s mq = Some (f 1 1 mq) /\ s_max s mq = Some (f 1 1 mq)))
      with (s := mkScan unset unset unset (fun _ _ => unset)) as (s' & E & P).
    - lia.
    - intros k s Hk HP. rewrite (rd_ok q f 1 1 k Hq) by (try exact Hk; split; cbn [fst snd]; lia). cbn [bind].
      eexists. split; [reflexivity|]. intros mq Hm Hlt. cbn [s_min s_max].
      destruct (Z.eq_dec mq k) as [->|N]; [now rewrite !vset_eq|]. rewrite !vset_ne by exact N. apply HP; [exact Hm|lia].
    - intros mq Hm Hlt. lia.
    - exists s'. split; [exact E|]. intros mq Hm. destruct (P mq Hm ltac:(lia)) as (P1 & P2). split.
      + exists (f 1 1 mq). split; [exact P1|]. split; [intros v [<-|[]]; apply Qle_refl|]. exists (f 1 1). split; [now left|reflexivity].
      + exists (f 1 1 mq). split; [exact P2|]. split; [intros v [<-|[]]; apply Qle_refl|]. exists (f 1 1). split; [now left|reflexivity].
  Qed.

  Lemma row_loop : forall stop q xl yl st,
    loop (1 - mbc d) (my d + mbc d) (fun j => loop (1 - mbc d) (mx d + mbc d) (fun i => visit' stop q xl yl i j)) st
    = runl (step stop q xl yl) (row_order d) st.
  Proof.
    intros stop q xl yl st. unfold row_order. rewrite <- runl_flat, loop_runl.
    assert (E : forall l st, runl (fun j => loop (1 - mbc d) (mx d + mbc d) (fun i => visit' stop q xl yl i j)) l st =
      runl (fun j s => runl (step stop q xl yl) (map (fun i => (i, j)) (zseq (1 - mbc d) (mx d + mbc d))) s) l st).
    { induction l as [|j l IH]; intros s; cbn [runl]; [reflexivity|]. rewrite loop_runl.
      rewrite <- (runl_map _ _ _ (step stop q xl yl) (fun i => (i, j))).
      change (fun a => step stop q xl yl (a, j)) with (fun i => visit' stop q xl yl i j).
      destruct (runl _ _ s) as [s1|]; cbn [bind]; [apply IH|reflexivity]. }
    apply E.
  Qed.
  Lemma col_loop : forall stop q xl yl st,
    loop (1 - mbc d) (mx d + mbc d) (fun i => loop (1 - mbc d) (my d + mbc d) (fun j => visit' stop q xl yl i j)) st
    = runl (step stop q xl yl) (col_order d) st.
  Proof.
    intros stop q xl yl st. unfold col_order. rewrite <- runl_flat, loop_runl.
    assert (E : forall l st, runl (fun i => loop (1 - mbc d) (my d + mbc d) (fun j => visit' stop q xl yl i j)) l st =
      runl (fun i s => runl (step stop q xl yl) (map (fun j => (i, j)) (zseq (1 - mbc d) (my d + mbc d))) s) l st).
    { induction l as [|j l IH]; intros s; cbn [runl]; [reflexivity|]. rewrite loop_runl.
      rewrite <- (runl_map _ _ _ (step stop q xl yl) (fun i => (j, i))).
      change (fun a => step stop q xl yl (j, a)) with (fun i => visit' stop q xl yl j i).
      destruct (runl _ _ s) as [s1|]; cbn [bind]; [apply IH|reflexivity]. }
    apply E.
  Qed.

  Lemma refine_ok : forall q f xl yl, all_set d q f -> exists tag,
    fort_tag4refinement d crit (t_block t) (t_dx t) (t_dy t) (t_th t) (t_init t) q xl yl = Some tag /\
    (tag = 1 /\ holds_somewhere d t crit f xl yl [f 1 1] (row_order d) \/
     tag = 0 /\ ~ holds_somewhere d t crit f xl yl [f 1 1] (row_order d)).
  Proof.
    intros q f xl yl Hq. unfold fort_tag4refinement. destruct (start_ok q f Hq) as (s & E & Hs). rewrite E. cbn [bind].
    rewrite row_loop.
    destruct (scan_ok 1 0 q f xl yl (row_order d) s [f 1 1] ltac:(lia) Hq (fun c => proj1 (proj2 (row_visits d) c)) Hs)
      as (s' & tag & E2 & H). rewrite E2. cbn [bind snd]. exists tag. split; [reflexivity|].
    destruct H as [H|(H1 & H2 & _)]; [now left|right; now split].
  Qed.

  Lemma test_ok : forall q f xl yl bef s, all_set d q f -> inv bef s ->
    exists s' tag', test_refine d crit (t_block t) (t_dx t) (t_dy t) (t_th t) (t_init t) q xl yl (s, 1) = Some (s', tag') /\
    (tag' = 0 /\ holds_somewhere d t crit f xl yl bef (col_order d) \/
     tag' = 1 /\ ~ holds_somewhere d t crit f xl yl bef (col_order d) /\ inv (bef ++ vals f (col_order d)) s').
  Proof.
    intros q f xl yl bef s Hq Hs. unfold test_refine. cbn [fst snd]. rewrite col_loop.
    apply (scan_ok 0 1 q f xl yl (col_order d) _ bef ltac:(lia) Hq (fun c => proj1 (proj2 (col_visits d) c))).
    exact Hs.
  Qed.

  Lemma coarsen_ok : forall q f xl yl, t_init t = 0 -> (forall g, 0 <= g < 4 -> all_set d (q g) (f g)) -> exists tag,
    fort_tag4coarsening d crit (t_block t) (t_dx t) (t_dy t) (t_th t) (t_init t) q xl yl = Some tag /\
    (tag = 0 /\ (exists g, (g < 4)%nat /\ holds_somewhere d t crit (f (Z.of_nat g)) (xl (Z.of_nat g)) (yl (Z.of_nat g)) (before f (col_order d) g) (col_order d)) \/
     tag = 1 /\ (forall g, (g < 4)%nat -> ~ holds_somewhere d t crit (f (Z.of_nat g)) (xl (Z.of_nat g)) (yl (Z.of_nat g)) (before f (col_order d) g) (col_order d))).
  Proof.
    intros q f xl yl Hi Hq. unfold fort_tag4coarsening.
    assert (Ei : negb (t_init t =? 0) = false) by (rewrite Hi; reflexivity). rewrite Ei.
    destruct (start_ok (q 0) (f 0) (Hq 0 ltac:(lia))) as (s & E & Hs). rewrite E. cbn [bind].
    destruct (test_ok (q 0) (f 0) (xl 0) (yl 0) (before f (col_order d) 0) s (Hq 0 ltac:(lia)) Hs) as (s0 & g0 & E0 & H0).
    rewrite E0. cbn [bind snd]. destruct H0 as [(-> & H0)|(-> & N0 & I0)].
    { exists 0. split; [reflexivity|]. left. split; [reflexivity|]. exists 0%nat. split; [lia|exact H0]. }
    change (1 =? 0) with false. cbv iota.
    destruct (test_ok (q 1) (f 1) (xl 1) (yl 1) (before f (col_order d) 1) s0 (Hq 1 ltac:(lia)) I0) as (s1 & g1 & E1 & H1).
    rewrite E1. cbn [bind snd]. destruct H1 as [(-> & H1)|(-> & N1 & I1)].
    { exists 0. split; [reflexivity|]. left. split; [reflexivity|]. exists 1%nat. split; [lia|exact H1]. }
    change (1 =? 0) with false. cbv iota.
    destruct (test_ok (q 2) (f 2) (xl 2) (yl 2) (before f (col_order d) 2) s1 (Hq 2 ltac:(lia)) I1) as (s2 & g2 & E2 & H2).
    rewrite E2. cbn [bind snd]. destruct H2 as [(-> & H2)|(-> & N2 & I2)].
    { exists 0. split; [reflexivity|]. left. split; [reflexivity|]. exists 2%nat. split; [lia|exact H2]. }
    change (1 =? 0) with false. cbv iota.
    destruct (test_ok (q 3) (f 3) (xl 3) (yl 3) (before f (col_order d) 3) s2 (Hq 3 ltac:(lia)) I2) as (s3 & g3 & E3 & H3).
    rewrite E3. cbn [bind snd]. exists g3. split; [reflexivity|]. destruct H3 as [(-> & H3)|(-> & N3 & I3)].
    - left. split; [reflexivity|]. exists 3%nat. split; [lia|exact H3].
    - right. split; [reflexivity|]. intros g Hg.
      destruct g as [|[|[|[|g]]]]; [exact N0|exact N1|exact N2|exact N3|lia].
  Qed.
End Scanning.
