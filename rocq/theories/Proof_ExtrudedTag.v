(** Scanning the cells of extruded patches. *)
From Coq Require Import ZArith QArith Qminmax Qabs Lqa List Lia Bool.
From Verif Require Import Base_Float Model_Face Model_Grid Spec_Grid Model_Tag Model_Extruded Model_ExtrudedTag Spec_Extruded
  Spec_ExtrudedTag Proof_Tag.
Import ListNotations.
Open Scope Z_scope.

Section Scan3.
  Variable d : dims3.
  Hypothesis Hd : usual3 d.
  Variables crit tv : Z.
  Variables dx dy dz th : Q.
  Hypothesis Hth : (0 <= th)%Q.
  Hypothesis Ho : good_options d crit tv dx dy dz.
  Variable f : Z -> data3.

  (** [first]: the cell the scan starts from; [met S]: the criterion is met by S (and the first cell) *)
  Definition first : fcell := (0, 1, 1, 1).
  Definition among (S : fcell -> Prop) (c : fcell) : Prop := S c \/ c = first.
  Definition met (S : fcell -> Prop) : Prop :=
    match crit with
    | 0 => exists c, S c /\ (th < value f tv c)%Q
    | 1 => exists c, S c /\ in_patch3 d c /\ jumps f tv th c
    | 2 => exists c c', among S c /\ among S c' /\ (th < value f tv c - value f tv c')%Q
    | _ => exists c, S c /\ in_patch3 d c /\ steep f tv th dx dy dz c
    end.
  Lemma met_sub : forall S T : fcell -> Prop, (forall c, S c -> T c) -> met S -> met T.
  Proof.
    intros S T H M. unfold met, among in *. destruct Ho as (Hc & _).
    assert (EE : crit = 0 \/ crit = 1 \/ crit = 2 \/ crit = 3) by lia.
    destruct EE as [K|[K|[K|K]]]; rewrite K in *.
    - destruct M as (c & A & B). exists c. split; [now apply H|exact B].
    - destruct M as (c & A & B). exists c. split; [now apply H|exact B].
    - destruct M as (c & c' & A & A' & B). exists c, c'. split; [destruct A as [A|A]; [left; now apply H|now right]|].
      split; [destruct A' as [A'|A']; [left; now apply H|now right]|exact B].
    - destruct M as (c & A & B). exists c. split; [now apply H|exact B].
  Qed.
  Lemma met_none : ~ met (fun _ => False).
  Proof.
    unfold met, among. destruct Ho as (Hc & _).
    assert (EE : crit = 0 \/ crit = 1 \/ crit = 2 \/ crit = 3) by lia.
    destruct EE as [K|[K|[K|K]]]; rewrite K; [intros (c & [] & _)|intros (c & [] & _)| |intros (c & [] & _)].
    intros (c & c' & [[]|A] & [[]|A'] & B). subst c c'. lra.
  Qed.

  Definition inv3 (S : fcell -> Prop) (s : scan3) : Prop :=
    forall mq, 1 <= mq <= meqn (flat d) ->
      (exists x, t_min s mq = Some x /\ (forall c, among S c -> (x <= value f mq c)%Q) /\ exists c, among S c /\ (x == value f mq c)%Q) /\
      (exists x, t_max s mq = Some x /\ (forall c, among S c -> (value f mq c <= x)%Q) /\ exists c, among S c /\ (x == value f mq c)%Q).
  Lemma inv3_same : forall S T s, (forall c, S c <-> T c) -> inv3 S s -> inv3 T s.
  Proof.
    intros S T s H Hs mq Hm. destruct (Hs mq Hm) as ((x & X1 & X2 & c & X3 & X4) & (y & Y1 & Y2 & c' & Y3 & Y4)). unfold among in *. split.
    - exists x. split; [exact X1|]. split; [intros c0 H0; apply X2; rewrite H; exact H0|exists c; rewrite <- H; now split].
    - exists y. split; [exact Y1|]. split; [intros c0 H0; apply Y2; rewrite H; exact H0|exists c'; rewrite <- H; now split].
  Qed.

  Lemma rd3_ok : forall q g i j k mq, all_set3 d q (f g) -> in_array3 d (g, i, j, k) -> 1 <= mq <= meqn (flat d) ->
    rd3 d q (i, j, k, mq) = Some (f g i j k mq).
  Proof.
    intros q g i j k mq Hq Hin Hm. unfold rd3. replace (in_q3 d (i, j, k, mq)) with true; [now apply Hq|].
    symmetry. unfold in_q3. unfold in_array3 in Hin. rewrite !andb_true_iff, !Z.leb_le. lia.
  Qed.

  Definition more (S : fcell -> Prop) (c : fcell) : fcell -> Prop := fun c' => S c' \/ c' = c.

  Lemma take3_ok : forall q g i j k s S, all_set3 d q (f g) -> in_array3 d (g, i, j, k) -> inv3 S s ->
    exists s', take3 d q i j k s = Some s' /\ inv3 (more S (g, i, j, k)) s' /\
      (forall mq, 1 <= mq <= meqn (flat d) -> t_val s' mq = Some (f g i j k mq)).
  Proof.
    intros q g i j k s S Hq Hin Hs. destruct Hd as (_ & _ & _ & _ & Hm1). unfold take3.
    destruct (loop_ok scan3 1 (meqn (flat d)) (fun mq s0 =>
       bind (rd3 d q (i, j, k, mq)) (fun x => bind (t_min s0 mq) (fun lo => bind (t_max s0 mq) (fun hi =>
         Some (mkScan3 (vset (t_min s0) mq (Qmin lo x)) (vset (t_max s0) mq (Qmax hi x)) (vset (t_val s0) mq x) (t_quad s0))))))
      (fun n s' => forall mq, 1 <= mq <= meqn (flat d) ->
         (mq < n -> t_val s' mq = Some (f g i j k mq) /\
            exists lo hi, t_min s mq = Some lo /\ t_max s mq = Some hi /\
              t_min s' mq = Some (Qmin lo (f g i j k mq)) /\ t_max s' mq = Some (Qmax hi (f g i j k mq))) /\
         (n <= mq -> t_min s' mq = t_min s mq /\ t_max s' mq = t_max s mq))) with (s := s) as (s' & E & P).
    - lia.
    - intros n s0 Hk HP. rewrite (rd3_ok q g i j k n Hq Hin Hk). cbn [bind].
      destruct (HP n Hk) as (_ & HK). destruct (HK ltac:(lia)) as (K1 & K2).
      destruct (Hs n Hk) as ((lo & L1 & L2) & (hi & U1 & U2)). rewrite K1, K2, L1, U1. cbn [bind].
      eexists. split; [reflexivity|]. intros mq Hm. cbn [t_min t_max t_val t_quad]. destruct (Z.eq_dec mq n) as [->|N].
      + rewrite !vset_eq. split; [|lia]. intros _. split; [reflexivity|]. exists lo, hi. now rewrite L1, U1.
      + rewrite !vset_ne by exact N. destruct (HP mq Hm) as (P1 & P2). split; intros H; [apply P1; lia|apply P2; lia].
    - intros mq Hm. split; [lia|]. intros _. now split.
    - exists s'. split; [exact E|]. split; [|intros mq Hm; destruct (P mq Hm) as (P1 & _); now destruct (P1 ltac:(lia))].
      intros mq Hm. destruct (P mq Hm) as (P1 & _). destruct (P1 ltac:(lia)) as (_ & lo & hi & M1 & M2 & M3 & M4).
      destruct (Hs mq Hm) as ((x & X1 & X2 & c & X3 & X4) & (y & Y1 & Y2 & c' & Y3 & Y4)).
      assert (x = lo) by congruence. assert (y = hi) by congruence. subst x y. unfold among, more in *.
      set (v := f g i j k mq) in *. assert (Ev : value f mq (g, i, j, k) = v) by reflexivity. split.
      + exists (Qmin lo v). split; [exact M3|]. split.
        * intros c0 [[H0|H0]|H0].
          -- pose proof (Q.le_min_l lo v). specialize (X2 c0 (or_introl H0)). lra.
          -- subst c0. rewrite Ev. apply Q.le_min_r.
          -- pose proof (Q.le_min_l lo v). specialize (X2 c0 (or_intror H0)). lra.
        * destruct (Q.min_spec lo v) as [(_ & Em)|(_ & Em)].
          -- exists c. split; [destruct X3; [left; now left|now right]|]. rewrite Em. exact X4.
          -- exists (g, i, j, k). split; [left; now right|]. rewrite Em, Ev. reflexivity.
      + exists (Qmax hi v). split; [exact M4|]. split.
        * intros c0 [[H0|H0]|H0].
          -- pose proof (Q.le_max_l hi v). specialize (Y2 c0 (or_introl H0)). lra.
          -- subst c0. rewrite Ev. apply Q.le_max_r.
          -- pose proof (Q.le_max_l hi v). specialize (Y2 c0 (or_intror H0)). lra.
        * destruct (Q.max_spec hi v) as [(_ & Em)|(_ & Em)].
          -- exists (g, i, j, k). split; [left; now right|]. rewrite Em, Ev. reflexivity.
          -- exists c'. split; [destruct Y3; [left; now left|now right]|]. rewrite Em. exact Y4.
  Qed.

  Lemma quad3_ok : forall q g i j k s, all_set3 d q (f g) -> in_patch3 d (g, i, j, k) ->
    exists s', fill_quad3 d q i j k s = Some s' /\ t_min s' = t_min s /\ t_max s' = t_max s /\ t_val s' = t_val s /\
    forall ii jj kk mq, -1 <= ii <= 1 -> -1 <= jj <= 1 -> -1 <= kk <= 1 -> 1 <= mq <= meqn (flat d) ->
      t_quad s' ii jj kk mq = Some (f g (i + ii) (j + jj) (k + kk) mq).
  Proof.
    intros q g i j k s Hq Hin. unfold in_patch3 in Hin. destruct Hd as (Hx & Hy & Hz & Hb & Hm1). unfold fill_quad3.
    set (Base := fun s' : scan3 => t_min s' = t_min s /\ t_max s' = t_max s /\ t_val s' = t_val s).
    set (D := fun (jj ii kk mq : Z) (s' : scan3) => Base s' /\ forall ii' jj' kk' mq', -1 <= ii' <= 1 -> -1 <= jj' <= 1 -> -1 <= kk' <= 1 ->
        1 <= mq' <= meqn (flat d) ->
        jj' < jj \/ jj' = jj /\ (ii' < ii \/ ii' = ii /\ (kk' < kk \/ kk' = kk /\ mq' < mq)) ->
        t_quad s' ii' jj' kk' mq' = Some (f g (i + ii') (j + jj') (k + kk') mq')).
    match goal with |- context [loop (-1) 1 ?F s] => destruct (loop_ok scan3 (-1) 1 F (fun jj => D jj (-1) (-1) 1)) with (s := s) as (s' & E & P) end.
    - lia.
    - intros jj s0 Hjj H0.
      match goal with |- context [loop (-1) 1 ?F s0] => destruct (loop_ok scan3 (-1) 1 F (fun ii => D jj ii (-1) 1)) with (s := s0) as (s2 & E2 & P2) end; [lia| |exact H0|].
      + intros ii s1 Hii H1.
        match goal with |- context [loop (-1) 1 ?F s1] => destruct (loop_ok scan3 (-1) 1 F (fun kk => D jj ii kk 1)) with (s := s1) as (s3 & E3 & P3) end; [lia| |exact H1|].
        * intros kk s4 Hkk H4.
          match goal with |- context [loop 1 ?h ?F s4] => destruct (loop_ok scan3 1 h F (fun mq => D jj ii kk mq)) with (s := s4) as (s5 & E5 & P5) end; [lia| |exact H4|].
          -- intros mq s6 Hmq (B6 & Q6). rewrite (rd3_ok q g _ _ _ mq Hq) by (try exact Hmq; unfold in_array3; lia). cbn [bind].
             eexists. split; [reflexivity|]. split; [exact B6|]. cbn [t_quad]. intros ii' jj' kk' mq' I' J' K' M' H'.
             destruct (Z.eqb_spec ii' ii) as [Ei|Ni]; cbn [andb]; [|apply Q6; try assumption; lia].
             destruct (Z.eqb_spec jj' jj) as [Ej|Nj]; cbn [andb]; [|apply Q6; try assumption; lia].
             destruct (Z.eqb_spec kk' kk) as [Ek|Nk]; [|apply Q6; try assumption; lia].
             subst ii' jj' kk'. destruct (Z.eq_dec mq' mq) as [->|Nm]; [apply vset_eq|].
             rewrite vset_ne by exact Nm. apply Q6; try assumption. lia.
          -- exists s5. split; [exact E5|]. destruct P5 as (B5 & Q5). split; [exact B5|].
             intros ii' jj' kk' mq' I' J' K' M' H'. apply Q5; try assumption. lia.
        * exists s3. split; [exact E3|]. destruct P3 as (B3 & Q3). split; [exact B3|].
          intros ii' jj' kk' mq' I' J' K' M' H'. apply Q3; try assumption. lia.
      + exists s2. split; [exact E2|]. destruct P2 as (B2 & Q2). split; [exact B2|].
        intros ii' jj' kk' mq' I' J' K' M' H'. apply Q2; try assumption. lia.
    - split; [repeat split|]. intros ii' jj' kk' mq' I' J' K' M' H'. lia.
    - exists s'. destruct P as ((B1 & B2 & B3) & Q1). split; [exact E|]. split; [exact B1|]. split; [exact B2|]. split; [exact B3|].
      intros ii jj kk mq I' J' K' M'. apply Q1; try assumption. lia.
  Qed.

  Lemma ghost3_iff : forall g i j k, is_ghost3 d i j k = false <-> in_patch3 d (g, i, j, k).
  Proof.
    intros g i j k. unfold is_ghost3, in_patch3. rewrite negb_false_iff, !andb_true_iff, !Z.leb_le. lia.
  Qed.

  Lemma rdv_in : forall (v : vec) x, v tv = Some x -> rdv (meqn (flat d)) v tv = Some x.
  Proof.
    intros v x H. unfold rdv. destruct Ho as (_ & Ht & _).
    replace ((1 <=? tv) && (tv <=? meqn (flat d))) with true; [exact H|]. symmetry. rewrite andb_true_iff, !Z.leb_le. exact Ht.
  Qed.

  Lemma jump_iff : forall a b c : Q, Qgtb (Qmax (Qmax a b) c) th = true <-> (th < a \/ th < b \/ th < c)%Q.
  Proof.
    intros a b c. rewrite Qgtb_iff, Q.max_lt_iff, Q.max_lt_iff. tauto.
  Qed.

  Lemma crit_ok : forall g i j k s S, ~ met S -> inv3 (more S (g, i, j, k)) s ->
    (forall mq, 1 <= mq <= meqn (flat d) -> t_val s mq = Some (f g i j k mq)) ->
    (in_patch3 d (g, i, j, k) -> forall ii jj kk mq, -1 <= ii <= 1 -> -1 <= jj <= 1 -> -1 <= kk <= 1 -> 1 <= mq <= meqn (flat d) ->
      t_quad s ii jj kk mq = Some (f g (i + ii) (j + jj) (k + kk) mq)) ->
    exists r, tag_criteria3 (meqn (flat d)) crit tv
      (mkArgs3 (t_val s) (t_min s) (t_max s) (t_quad s) dx dy dz th (is_ghost3 d i j k)) = Some r /\
      (0 <? r = true <-> met (more S (g, i, j, k))).
  Proof.
    intros g i j k s S HN Hs HV HQ. pose proof Ho as (Hc & Ht & Hne).
    assert (EE : crit = 0 \/ crit = 1 \/ crit = 2 \/ crit = 3) by lia.
    unfold tag_criteria3. unfold met in *. destruct EE as [K|[K|[K|K]]]; rewrite K in HN, Hne; rewrite K.
    - unfold value_exceeds3. cbn [a_qval a_th]. rewrite (rdv_in _ _ (HV tv Ht)). cbn [bind]. eexists. split; [reflexivity|].
      destruct (Qgtb (f g i j k tv) th) eqn:E.
      + apply Qgtb_iff in E. split; [intros _|reflexivity]. exists (g, i, j, k). split; [now right|exact E].
      + apply Qgtb_false in E. split; [intros H; vm_compute in H; discriminate H|]. intros (c & [H|H] & B).
        * exfalso. apply HN. exists c. now split.
        * subst c. unfold value in B. lra.
    - unfold difference_exceeds3. cbn [a_ghost a_quad a_th]. destruct (is_ghost3 d i j k) eqn:G.
      + eexists. split; [reflexivity|]. split; [intros H; vm_compute in H; discriminate H|]. intros (c & [H|H] & I & B).
        * exfalso. apply HN. exists c. split; [exact H|now split].
        * subst c. apply ghost3_iff in I. congruence.
      + apply (ghost3_iff g) in G. specialize (HQ G).
        rewrite (rdv_in _ _ (HQ 1 0 0 tv ltac:(lia) ltac:(lia) ltac:(lia) Ht)), (rdv_in _ _ (HQ (-1) 0 0 tv ltac:(lia) ltac:(lia) ltac:(lia) Ht)),
          (rdv_in _ _ (HQ 0 1 0 tv ltac:(lia) ltac:(lia) ltac:(lia) Ht)), (rdv_in _ _ (HQ 0 (-1) 0 tv ltac:(lia) ltac:(lia) ltac:(lia) Ht)),
          (rdv_in _ _ (HQ 0 0 1 tv ltac:(lia) ltac:(lia) ltac:(lia) Ht)), (rdv_in _ _ (HQ 0 0 (-1) tv ltac:(lia) ltac:(lia) ltac:(lia) Ht)).
        cbn [bind]. eexists. split; [reflexivity|]. rewrite !Z.add_0_r.
        assert (J : Qgtb (Qmax (Qmax (Qabs (f g (i + 1)%Z j k tv - f g (i + -1)%Z j k tv)) (Qabs (f g i (j + 1)%Z k tv - f g i (j + -1)%Z k tv)))
           (Qabs (f g i j (k + 1)%Z tv - f g i j (k + -1)%Z tv))) th = true <-> jumps f tv th (g, i, j, k)).
        { rewrite jump_iff. unfold jumps. replace (i - 1) with (i + -1) by lia. replace (j - 1) with (j + -1) by lia.
          replace (k - 1) with (k + -1) by lia. reflexivity. }
        match goal with |- context [Qgtb ?a ?b] => destruct (Qgtb a b) eqn:E end.
        * split; [intros _|reflexivity]. exists (g, i, j, k). split; [now right|]. split; [exact G|]. now apply J.
        * split; [intros H; vm_compute in H; discriminate H|]. intros (c & [H|H] & I & B).
          -- exfalso. apply HN. exists c. split; [exact H|now split].
          -- subst c. apply J in B. discriminate B.
    - unfold minmax_exceeds3. cbn [a_qmax a_qmin a_th]. destruct (Hs tv Ht) as ((x & X1 & X2 & c & X3 & X4) & (y & Y1 & Y2 & c' & Y3 & Y4)).
      rewrite (rdv_in _ _ X1), (rdv_in _ _ Y1). cbn [bind]. eexists. split; [reflexivity|].
      destruct (Qgtb (y - x) th) eqn:E.
      + apply Qgtb_iff in E. split; [intros _|reflexivity]. exists c', c. split; [exact Y3|]. split; [exact X3|]. lra.
      + apply Qgtb_false in E. split; [intros H; vm_compute in H; discriminate H|]. intros (c1 & c2 & H1 & H2 & B).
        specialize (Y2 c1 H1). specialize (X2 c2 H2). lra.
    - unfold gradient_exceeds3. cbn [a_ghost a_quad a_th a_dx a_dy a_dz]. destruct (is_ghost3 d i j k) eqn:G.
      + eexists. split; [reflexivity|]. split; [intros H; vm_compute in H; discriminate H|]. intros (c & [H|H] & I & B).
        * exfalso. apply HN. exists c. split; [exact H|now split].
        * subst c. apply ghost3_iff in I. congruence.
      + apply (ghost3_iff g) in G. specialize (HQ G). destruct (Hne eq_refl) as (Nx & Ny & Nz).
        rewrite (rdv_in _ _ (HQ 1 0 0 tv ltac:(lia) ltac:(lia) ltac:(lia) Ht)), (rdv_in _ _ (HQ (-1) 0 0 tv ltac:(lia) ltac:(lia) ltac:(lia) Ht)),
          (rdv_in _ _ (HQ 0 1 0 tv ltac:(lia) ltac:(lia) ltac:(lia) Ht)), (rdv_in _ _ (HQ 0 (-1) 0 tv ltac:(lia) ltac:(lia) ltac:(lia) Ht)),
          (rdv_in _ _ (HQ 0 0 1 tv ltac:(lia) ltac:(lia) ltac:(lia) Ht)), (rdv_in _ _ (HQ 0 0 (-1) tv ltac:(lia) ltac:(lia) ltac:(lia) Ht)).
        cbn [bind]. rewrite !Z.add_0_r.
        assert (Z0 : forall a : Q, ~ (a == 0)%Q -> Qeq_bool (2 * a) 0 = false).
        { intros a Na. destruct (Qeq_bool (2 * a) 0) eqn:E; [|reflexivity]. apply Qeq_bool_eq in E. exfalso. apply Na. lra. }
        rewrite (Z0 dx Nx), (Z0 dy Ny), (Z0 dz Nz). cbn [orb]. eexists. split; [reflexivity|].
        unfold sqrt_gt. replace (Qgtb 0 th) with false by (symmetry; apply Qgtb_false; exact Hth).
        set (Gr := Qgtb _ (th * th)).
        assert (J : Gr = true <-> steep f tv th dx dy dz (g, i, j, k)).
        { unfold Gr. rewrite Qgtb_iff. unfold steep. replace (i - 1) with (i + -1) by lia. replace (j - 1) with (j + -1) by lia.
          replace (k - 1) with (k + -1) by lia. reflexivity. }
        destruct Gr eqn:E.
        * split; [intros _|reflexivity]. exists (g, i, j, k). split; [now right|]. split; [exact G|]. now apply J.
        * split; [intros H; vm_compute in H; discriminate H|]. intros (c & [H|H] & I & B).
          -- exfalso. apply HN. exists c. split; [exact H|now split].
          -- subst c. apply J in B. discriminate B.
  Qed.

  (** a part of the scan that looks at the cells [C] *)
  Definition union (S C : fcell -> Prop) : fcell -> Prop := fun c => S c \/ C c.
  Definition scans (stop : Z) (F : scan3 * Z -> option (scan3 * Z)) (C : fcell -> Prop) : Prop :=
    (forall s, F (s, stop) = Some (s, stop)) /\
    forall s tag S, tag <> stop -> inv3 S s -> ~ met S ->
      exists s' tag', F (s, tag) = Some (s', tag') /\
        (tag' = stop /\ met (union S C) \/ tag' = tag /\ inv3 (union S C) s' /\ ~ met (union S C)).

  Lemma visit_scans : forall stop q g i j k, all_set3 d q (f g) -> in_array3 d (g, i, j, k) ->
    scans stop (visit3 d crit tv dx dy dz stop th q i j k) (fun c => c = (g, i, j, k)).
  Proof.
    intros stop q g i j k Hq Hin. split; [intros s; unfold visit3; now rewrite Z.eqb_refl|].
    intros s tag S Ht Hs HN. unfold visit3. destruct (Z.eqb_spec tag stop) as [E|_]; [contradiction|].
    destruct (take3_ok q g i j k s S Hq Hin Hs) as (s1 & E1 & I1 & V1). rewrite E1. cbn [bind].
    assert (R : exists s2, (if is_ghost3 d i j k then Some s1 else fill_quad3 d q i j k s1) = Some s2 /\ inv3 (more S (g, i, j, k)) s2 /\
      (forall mq, 1 <= mq <= meqn (flat d) -> t_val s2 mq = Some (f g i j k mq)) /\
      (in_patch3 d (g, i, j, k) -> forall ii jj kk mq, -1 <= ii <= 1 -> -1 <= jj <= 1 -> -1 <= kk <= 1 -> 1 <= mq <= meqn (flat d) ->
        t_quad s2 ii jj kk mq = Some (f g (i + ii) (j + jj) (k + kk) mq))).
    { destruct (is_ghost3 d i j k) eqn:G.
      - exists s1. split; [reflexivity|]. split; [exact I1|]. split; [exact V1|]. intros H. apply ghost3_iff in H. congruence.
      - apply (ghost3_iff g) in G. destruct (quad3_ok q g i j k s1 Hq G) as (s2 & E2 & A & B & C & D). exists s2. split; [exact E2|].
        split; [intros mq Hm; rewrite A, B; exact (I1 mq Hm)|]. split; [intros mq Hm; rewrite C; exact (V1 mq Hm)|]. intros _. exact D. }
    destruct R as (s2 & E2 & I2 & V2 & Q2). rewrite E2. cbn [bind].
    destruct (crit_ok g i j k s2 S HN I2 V2 Q2) as (r & Er & Hr). rewrite Er. cbn [bind].
    eexists. eexists. split; [reflexivity|]. destruct (0 <? r) eqn:E.
    - left. split; [reflexivity|]. now apply Hr.
    - right. split; [reflexivity|]. split; [exact I2|]. intros H. apply Hr in H. discriminate H.
  Qed.

  Lemma loop_scans : forall stop lo hi F C, lo <= hi + 1 -> (forall k, lo <= k <= hi -> scans stop (F k) (C k)) ->
    scans stop (loop lo hi F) (fun c => exists k, lo <= k <= hi /\ C k c).
  Proof.
    intros stop lo hi F C Hl HF. split.
    - intros s. destruct (loop_ok (scan3 * Z) lo hi F (fun _ st => st = (s, stop))) with (s := (s, stop)) as (st & E & P); [exact Hl| |reflexivity|].
      + intros k st Hk ->. exists (s, stop). split; [apply (HF k Hk)|reflexivity].
      + rewrite E, P. reflexivity.
    - intros s tag S Ht Hs HN.
      destruct (loop_ok (scan3 * Z) lo hi F (fun n st => exists s' tag', st = (s', tag') /\
        (tag' = stop /\ met (union S (fun c => exists k, lo <= k < n /\ C k c)) \/
         tag' = tag /\ inv3 (union S (fun c => exists k, lo <= k < n /\ C k c)) s' /\ ~ met (union S (fun c => exists k, lo <= k < n /\ C k c)))))
        with (s := (s, tag)) as (st & E & s' & tag' & -> & P).
      + exact Hl.
      + intros k st Hk (s' & tag' & -> & [(-> & P)|(-> & I1 & N1)]).
        * exists (s', stop). split; [apply (HF k Hk)|]. exists s', stop. split; [reflexivity|]. left. split; [reflexivity|].
          revert P. apply met_sub. intros c [H|(k' & H1 & H2)]; [now left|right; exists k'; split; [lia|exact H2]].
        * destruct (HF k Hk) as (_ & G). destruct (G s' tag _ Ht I1 N1) as (s2 & tag2 & E2 & R). exists (s2, tag2). split; [exact E2|].
          exists s2, tag2. split; [reflexivity|].
          assert (U : forall c, union (union S (fun c => exists k', lo <= k' < k /\ C k' c)) (C k) c <->
                                union S (fun c => exists k', lo <= k' < k + 1 /\ C k' c) c).
          { intros c. unfold union. split.
            - intros [[H|(k' & H1 & H2)]|H]; [now left|right; exists k'; split; [lia|exact H2]|right; exists k; split; [lia|exact H]].
            - intros [H|(k' & H1 & H2)]; [left; now left|]. destruct (Z.eq_dec k' k) as [->|]; [now right|left; right; exists k'; split; [lia|exact H2]]. }
          destruct R as [(-> & R)|(-> & R1 & R2)].
          -- left. split; [reflexivity|]. revert R. apply met_sub. intros c. apply U.
          -- right. split; [reflexivity|]. split; [apply (inv3_same _ _ s2 U R1)|]. intros H. apply R2. revert H. apply met_sub. intros c. apply U.
      + exists s, tag. split; [reflexivity|]. right. split; [reflexivity|].
        assert (U : forall c, S c <-> union S (fun c => exists k, lo <= k < lo /\ C k c) c).
        { intros c. unfold union. split; [now left|]. intros [H|(k & H & _)]; [exact H|lia]. }
        split; [apply (inv3_same _ _ s U Hs)|]. intros H. apply HN. revert H. apply met_sub. intros c. apply U.
      + exists s', tag'. split; [exact E|].
        assert (U : forall c, union S (fun c => exists k, lo <= k < hi + 1 /\ C k c) c <-> union S (fun c => exists k, lo <= k <= hi /\ C k c) c).
        { intros c. unfold union. split; (intros [H|(k & H1 & H2)]; [now left|right; exists k; split; [lia|exact H2]]). }
        destruct P as [(-> & R)|(-> & R1 & R2)].
        * left. split; [reflexivity|]. revert R. apply met_sub. intros c. apply U.
        * right. split; [reflexivity|]. split; [apply (inv3_same _ _ s' U R1)|]. intros H. apply R2. revert H. apply met_sub. intros c. apply U.
  Qed.

  Lemma scans_same : forall stop F C C', (forall c, C c <-> C' c) -> scans stop F C -> scans stop F C'.
  Proof.
    intros stop F C C' H (A & B). split; [exact A|]. intros s tag S Ht Hs HN. destruct (B s tag S Ht Hs HN) as (s' & tag' & E & R).
    assert (U : forall c, union S C c <-> union S C' c) by (intros c; unfold union; rewrite H; reflexivity).
    exists s', tag'. split; [exact E|]. destruct R as [(-> & R)|(-> & R1 & R2)].
    - left. split; [reflexivity|]. revert R. apply met_sub. intros c. apply U.
    - right. split; [reflexivity|]. split; [apply (inv3_same _ _ s' U R1)|]. intros N. apply R2. revert N. apply met_sub. intros c. apply U.
  Qed.

  Lemma start3_ok : forall q, all_set3 d q (f 0) -> exists s, start3 d q = Some s /\ inv3 (fun _ => False) s.
  Proof.
    intros q Hq. destruct Hd as (Hx & Hy & Hz & Hb & Hm1). unfold start3.
    match goal with |- context [loop 1 ?h ?F ?s0] => destruct (loop_ok scan3 1 h F (fun n s => forall mq, 1 <= mq < n ->
      t_min s mq = Some (f 0 1 1 1 mq) /\ t_max s mq = Some (f 0 1 1 1 mq))) with (s := s0) as (s & E & P) end.
    - lia.
    - intros n s Hn HP. rewrite (rd3_ok q 0 1 1 1 n Hq) by (try exact Hn; unfold in_array3; lia). cbn [bind]. eexists. split; [reflexivity|].
      intros mq Hm. cbn [t_min t_max]. destruct (Z.eq_dec mq n) as [->|N]; [rewrite !vset_eq; now split|].
      rewrite !vset_ne by exact N. apply HP. lia.
    - intros mq Hm. lia.
    - exists s. split; [exact E|]. intros mq Hm. destruct (P mq ltac:(lia)) as (P1 & P2). split.
      + exists (f 0 1 1 1 mq). split; [exact P1|]. split; [intros c [[]| ->]; cbn; lra|]. exists first. split; [now right|reflexivity].
      + exists (f 0 1 1 1 mq). split; [exact P2|]. split; [intros c [[]| ->]; cbn; lra|]. exists first. split; [now right|reflexivity].
  Qed.

  Lemma met_meets : forall S : fcell -> Prop, S first -> met S <-> meets d crit tv th dx dy dz f S.
  Proof.
    intros S HF. unfold met, meets, among. destruct Ho as (Hc & _).
    assert (EE : crit = 0 \/ crit = 1 \/ crit = 2 \/ crit = 3) by lia.
    destruct EE as [K|[K|[K|K]]]; rewrite K; try reflexivity. split.
    - intros (c & c' & [A|A] & [A'|A'] & B); subst; eauto.
    - intros (c & c' & A & A' & B). exists c, c'. split; [now left|]. split; [now left|exact B].
  Qed.
  Lemma met_same : forall S T : fcell -> Prop, (forall c, S c <-> T c) -> met S <-> met T.
  Proof. intros S T H. split; apply met_sub; intros c; apply H. Qed.

  Lemma refine3_ok : forall q, all_set3 d q (f 0) -> exists tag, fort_tag4refinement3 d crit tv dx dy dz th q = Some tag /\
    (tag = 0 \/ tag = 1) /\ (tag = 1 <-> meets d crit tv th dx dy dz f (fun c => in_array3 d c /\ fst (fst (fst c)) = 0)).
  Proof.
    intros q Hq. destruct Hd as (Hx & Hy & Hz & Hb & Hm1). unfold fort_tag4refinement3.
    destruct (start3_ok q Hq) as (s & E & Is). rewrite E. cbn [bind].
    set (C := fun c : fcell => in_array3 d c /\ fst (fst (fst c)) = 0).
    assert (SC : scans 1 (loop (1 - mbc (flat d)) (mz d + mbc (flat d)) (fun k => loop (1 - mbc (flat d)) (my (flat d) + mbc (flat d)) (fun j =>
          loop (1 - mbc (flat d)) (mx (flat d) + mbc (flat d)) (fun i => visit3 d crit tv dx dy dz 1 th q i j k)))) C).
    { eapply scans_same; [|apply loop_scans; [lia|]; intros k Hk; apply loop_scans; [lia|]; intros j Hj; apply loop_scans; [lia|]; intros i Hi;
        apply (visit_scans 1 q 0 i j k Hq); unfold in_array3; lia].
      intros [[[g i] j] k]. unfold C, in_array3. cbn [fst]. split.
      - intros (k' & K1 & j' & K2 & i' & K3 & K4). assert (g = 0) by congruence. assert (i' = i) by congruence.
        assert (j' = j) by congruence. assert (k' = k) by congruence. subst. lia.
      - intros ((K1 & K2 & K3) & ->). exists k. split; [exact K3|]. exists j. split; [exact K2|]. exists i. split; [exact K1|reflexivity]. }
    destruct SC as (_ & SC). destruct (SC s 0 (fun _ => False) ltac:(lia) Is met_none) as (s' & tag & E' & R).
    rewrite E'. cbn [bind snd]. exists tag. split; [reflexivity|].
    assert (U : met (union (fun _ => False) C) <-> meets d crit tv th dx dy dz f C).
    { rewrite <- met_meets by (unfold C, first, in_array3; cbn [fst]; lia). apply met_same. intros c. unfold union. tauto. }
    destruct R as [(-> & R)|(-> & _ & R)].
    - split; [now right|]. split; [intros _; now apply U|reflexivity].
    - split; [now left|]. split; [discriminate|]. intros H. exfalso. apply R. now apply U.
  Qed.

  (** the cells of a sibling that are looked at *)
  Definition looked (g : Z) (c : fcell) : Prop :=
    in_array3 d c /\ let '(g', _, _, k) := c in g' = g /\ 1 <= k <= mz d.

  Lemma test3_ok : forall q g s S, all_set3 d q (f g) -> inv3 S s -> ~ met S ->
    exists s' tag, test_refine3 d crit tv dx dy dz th q (s, 1) = Some (s', tag) /\
      (tag = 0 /\ met (union S (looked g)) \/ tag = 1 /\ inv3 (union S (looked g)) s' /\ ~ met (union S (looked g))).
  Proof.
    intros q g s S Hq Hs HN. destruct Hd as (Hx & Hy & Hz & Hb & Hm1). unfold test_refine3. cbn [fst snd].
    assert (SC : scans 0 (loop 1 (mz d) (fun k => loop (1 - mbc (flat d)) (mx (flat d) + mbc (flat d)) (fun i =>
          loop (1 - mbc (flat d)) (my (flat d) + mbc (flat d)) (fun j => visit3 d crit tv dx dy dz 0 th q i j k)))) (looked g)).
    { eapply scans_same; [|apply loop_scans; [lia|]; intros k Hk; apply loop_scans; [lia|]; intros i Hi; apply loop_scans; [lia|]; intros j Hj;
        apply (visit_scans 0 q g i j k Hq); unfold in_array3; lia].
      intros [[[g' i] j] k]. unfold looked, in_array3. split.
      - intros (k' & K1 & i' & K2 & j' & K3 & K4). assert (g' = g) by congruence. assert (i' = i) by congruence.
        assert (j' = j) by congruence. assert (k' = k) by congruence. subst. lia.
      - intros ((K1 & K2 & K3) & -> & K4). exists k. split; [exact K4|]. exists i. split; [exact K1|]. exists j. split; [exact K2|reflexivity]. }
    destruct SC as (_ & SC). apply (SC (mkScan3 (t_min s) (t_max s) unset unset3) 1 S ltac:(lia) Hs HN).
  Qed.

  Lemma coarsen3_ok : forall q, (forall g, 0 <= g < 4 -> all_set3 d (q g) (f g)) ->
    exists tag, fort_tag4coarsening3 d crit tv dx dy dz th 0 q = Some tag /\ (tag = 0 \/ tag = 1) /\
      (tag = 1 <-> ~ meets d crit tv th dx dy dz f (fun c => exists g, 0 <= g < 4 /\ looked g c)).
  Proof.
    intros q Hq. unfold fort_tag4coarsening3. cbn [Z.eqb negb].
    set (C := fun c => exists g, 0 <= g < 4 /\ looked g c).
    assert (U : met C <-> meets d crit tv th dx dy dz f C).
    { apply met_meets. exists 0. split; [lia|]. destruct Hd as (Hx & Hy & Hz & Hb & Hm1). unfold looked, first, in_array3. lia. }
    destruct (start3_ok (q 0) (Hq 0 ltac:(lia))) as (s & E & Is). rewrite E. cbn [bind].
    destruct (test3_ok (q 0) 0 s _ (Hq 0 ltac:(lia)) Is met_none) as (s0 & t0 & E0 & R0). rewrite E0. cbn [bind snd].
    destruct R0 as [(-> & R0)|(-> & I0 & R0)]; cbn [Z.eqb].
    { exists 0. split; [reflexivity|]. split; [now left|]. split; [discriminate|]. intros H. exfalso. apply H, U. revert R0. apply met_sub.
      intros c [[]|H0]. exists 0. split; [lia|exact H0]. }
    destruct (test3_ok (q 1) 1 s0 _ (Hq 1 ltac:(lia)) I0 R0) as (s1 & t1 & E1 & R1). rewrite E1. cbn [bind snd].
    destruct R1 as [(-> & R1)|(-> & I1 & R1)]; cbn [Z.eqb].
    { exists 0. split; [reflexivity|]. split; [now left|]. split; [discriminate|]. intros H. exfalso. apply H, U. revert R1. apply met_sub.
      intros c [[[]|H0]|H0]; [exists 0|exists 1]; (split; [lia|exact H0]). }
    destruct (test3_ok (q 2) 2 s1 _ (Hq 2 ltac:(lia)) I1 R1) as (s2 & t2 & E2 & R2). rewrite E2. cbn [bind snd].
    destruct R2 as [(-> & R2)|(-> & I2 & R2)]; cbn [Z.eqb].
    { exists 0. split; [reflexivity|]. split; [now left|]. split; [discriminate|]. intros H. exfalso. apply H, U. revert R2. apply met_sub.
      intros c [[[[]|H0]|H0]|H0]; [exists 0|exists 1|exists 2]; (split; [lia|exact H0]). }
    destruct (test3_ok (q 3) 3 s2 _ (Hq 3 ltac:(lia)) I2 R2) as (s3 & t3 & E3 & R3). rewrite E3. cbn [bind snd].
    exists t3. split; [reflexivity|]. destruct R3 as [(-> & R3)|(-> & I3 & R3)].
    - split; [now left|]. split; [discriminate|]. intros H. exfalso. apply H, U. revert R3. apply met_sub.
      intros c [[[[[]|H0]|H0]|H0]|H0]; [exists 0|exists 1|exists 2|exists 3]; (split; [lia|exact H0]).
    - split; [now right|]. split; [|reflexivity]. intros _ H. apply R3. apply U in H. revert H. apply met_sub.
      intros c (g & Hg & H). assert (g = 0 \/ g = 1 \/ g = 2 \/ g = 3) as [->|[->|[->| ->]]] by lia; unfold union; tauto.
  Qed.
End Scan3.
