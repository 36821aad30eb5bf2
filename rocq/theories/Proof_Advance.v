From Coq Require Import ZArith Znumtheory QArith Qminmax Qfield List Bool Lia Lqa.
From Verif Require Import Model_Advance Spec_Advance.
Import ListNotations.
Open Scope Z_scope.

(** * Counters *)
Lemma iter_half : forall k n, (Z.of_nat k <= n) ->
  Nat.iter k (fun s => s / 2) (2 ^ n) = 2 ^ (n - Z.of_nat k).
Proof.
  induction k; intros n H.
  - cbn [Nat.iter nat_rect]. f_equal. lia.
  - cbn [Nat.iter nat_rect]. fold (Nat.iter k (fun s => s / 2) (2 ^ n)). rewrite IHk by lia.
    replace (n - Z.of_nat k) with (1 + (n - Z.of_nat (S k))) by lia.
    rewrite Z.pow_add_r by lia. change (2 ^ 1) with 2.
    rewrite Z.mul_comm, Z.div_mul by lia. reflexivity.
Qed.

Lemma iter_double : forall k, Nat.iter k (fun n => n * 2) 1 = 2 ^ Z.of_nat k.
Proof.
  induction k.
  - reflexivity.
  - cbn [Nat.iter nat_rect]. fold (Nat.iter k (fun n => n * 2) 1). rewrite IHk.
    rewrite Nat2Z.inj_succ, Z.pow_succ_r by lia. lia.
Qed.

Lemma pow2_neq0 : forall n, 0 <= n -> ~ (inject_Z (2 ^ n) == 0)%Q.
Proof.
  intros n H E. assert (0 < 2 ^ n) by (apply Z.pow_pos_nonneg; lia).
  unfold Qeq, inject_Z in E. cbn [Qnum Qden] in E. lia.
Qed.

Lemma iter_dt : forall k dt, (Nat.iter k (fun d => d / 2) dt == dt / inject_Z (2 ^ Z.of_nat k))%Q.
Proof.
  induction k; intro dt.
  - cbn [Nat.iter nat_rect]. change (2 ^ Z.of_nat 0) with 1. field.
  - cbn [Nat.iter nat_rect]. fold (Nat.iter k (fun d => d / 2)%Q dt). rewrite IHk.
    rewrite Nat2Z.inj_succ, Z.pow_succ_r by lia. rewrite inject_Z_mult.
    field. apply pow2_neq0. lia.
Qed.

(** * Events in context *)
Fixpoint good (P : list event -> event -> Prop) (pre evs : list event) : Prop :=
  match evs with
  | [] => True
  | e :: r => P pre e /\ good P (pre ++ [e]) r
  end.

Lemma good_app : forall P a b pre, good P pre (a ++ b) <-> good P pre a /\ good P (pre ++ a) b.
Proof.
  induction a as [|e a IH]; intros b pre; cbn [app good].
  - rewrite app_nil_r. tauto.
  - rewrite IH, <- app_assoc. cbn [app]. tauto.
Qed.

Lemma good_every : forall P evs, good P [] evs -> every evs P.
Proof.
  intros P evs H pre e post E. subst. apply good_app in H. destruct H as [_ H].
  cbn [app good] in H. tauto.
Qed.

Lemma good_impl : forall (P P' : list event -> event -> Prop) evs pre,
  (forall p e, P p e -> P' p e) -> good P pre evs -> good P' pre evs.
Proof. induction evs; intros; cbn [good] in *; firstorder. Qed.

Lemma steps_on_app : forall l a b, steps_on l (a ++ b) = steps_on l a ++ steps_on l b.
Proof. intros. unfold steps_on. apply flat_map_app. Qed.

Lemma reached_app : forall t0 l a b, reached t0 l (a ++ b) = reached (reached t0 l a) l b.
Proof. intros. unfold reached. rewrite steps_on_app, fold_left_app. reflexivity. Qed.

Lemma reached_step : forall t0 l l' t h,
  reached t0 l [Step l' t h] = if l' =? l then (t0 + h)%Q else t0.
Proof. intros. unfold reached, steps_on. cbn [flat_map app]. destruct (l' =? l); reflexivity. Qed.

Lemma reached_nostep : forall t0 l evs, steps_on l evs = [] -> reached t0 l evs = t0.
Proof. intros. unfold reached. rewrite H. reflexivity. Qed.

(** * Multiples *)
Definition up (n inc : Z) : Z := inc * ((n + inc - 1) / inc).

Lemma up_mult : forall n inc, 0 < inc -> (inc | n) -> up n inc = n.
Proof.
  intros n inc Hi [k E]. subst. unfold up.
  replace (k * inc + inc - 1) with ((inc - 1) + k * inc) by lia.
  rewrite Z.div_add, (Z.div_small (inc - 1)) by lia. lia.
Qed.

Lemma up_mult_succ : forall n inc, 0 < inc -> (inc | n) -> up (n + 1) inc = n + inc.
Proof.
  intros n inc Hi [k E]. subst. unfold up.
  replace (k * inc + 1 + inc - 1) with (0 + (k + 1) * inc) by lia.
  rewrite Z.div_add, Z.div_0_l by lia. lia.
Qed.

Lemma up_other : forall n inc, 0 < inc -> ~ (inc | n) -> up (n + 1) inc = up n inc.
Proof.
  intros n inc Hi H. unfold up. f_equal.
  pose proof (Z.div_mod n inc ltac:(lia)) as E. pose proof (Z.mod_pos_bound n inc Hi) as B.
  assert (n mod inc <> 0) by (intro X; apply H; apply Z.mod_divide; lia).
  set (q := n / inc) in *. set (r := n mod inc) in *. clearbody q r.
  replace (n + 1 + inc - 1) with (r + (q + 1) * inc) by lia.
  replace (n + inc - 1) with ((r - 1) + (q + 1) * inc) by lia.
  rewrite !Z.div_add by lia. rewrite !Z.div_small by lia. reflexivity.
Qed.

Lemma up_half : forall n inc, 0 < inc -> (inc | n) -> ~ (2 * inc | n) -> up n (2 * inc) = n + inc.
Proof.
  intros n inc Hi [k E] H. subst. unfold up.
  assert (k mod 2 = 1).
  { pose proof (Z.mod_pos_bound k 2 ltac:(lia)). destruct (Z.eq_dec (k mod 2) 0); [|lia].
    exfalso. apply H. apply Z.mod_divide in e; [|lia]. destruct e as [j e]. exists j. lia. }
  pose proof (Z.div_mod k 2 ltac:(lia)). set (j := k / 2) in *. clearbody j.
  replace (k * inc + 2 * inc - 1) with ((inc - 1) + (j + 1) * (2 * inc)) by nia.
  rewrite Z.div_add by lia. rewrite Z.div_small by lia. nia.
Qed.

Lemma up_eq_iff : forall n inc, 0 < inc -> (up n inc = n <-> (inc | n)).
Proof.
  intros. split; intro H0. rewrite <- H0. unfold up. exists ((n + inc - 1) / inc). lia.
  apply up_mult; auto.
Qed.

(** * Largest CFL *)
Lemma largest_nil : forall cfl, largest_cfl cfl [] 0.
Proof.
  intros. split; [|split]. intros l t h []. apply Qle_refl. left; reflexivity.
Qed.

Lemma largest_weaken : forall cfl evs evs' m,
  largest_cfl cfl evs m -> (forall l t h, In (Step l t h) evs <-> In (Step l t h) evs') ->
  largest_cfl cfl evs' m.
Proof.
  intros cfl evs evs' m (A & B & C) H. split; [|split]; auto.
  intros. apply A. apply H; auto.
  destruct C as [C|(l & t & h & C & D)]; [left; auto|right]. exists l, t, h. split; auto. apply H; auto.
Qed.

Lemma largest_eq : forall cfl evs m m', (m == m')%Q -> largest_cfl cfl evs m -> largest_cfl cfl evs m'.
Proof.
  intros cfl evs m m' E (A & B & C). split; [|split].
  - intros. rewrite <- E. auto.
  - rewrite <- E; auto.
  - destruct C as [C|(l & t & h & C & D)]. left; lra. right. exists l, t, h. split; auto. lra.
Qed.

Lemma largest_step : forall cfl pre m l t h, largest_cfl cfl pre m ->
  largest_cfl cfl (pre ++ [Step l t h]) (Qmax m (cfl l t h)).
Proof.
  intros cfl pre m l t h (A & B & C). split; [|split].
  - intros l' t' h' H. apply in_app_or in H. destruct H as [H|[H|[]]].
    + eapply Qle_trans. apply A; eauto. apply Q.le_max_l.
    + inversion H; subst. apply Q.le_max_r.
  - eapply Qle_trans. apply B. apply Q.le_max_l.
  - destruct (Q.max_spec m (cfl l t h)) as [[H E]|[H E]].
    + right. exists l, t, h. split. apply in_or_app; right; left; reflexivity. auto.
    + destruct C as [C|(l' & t' & h' & C & D)].
      * left. rewrite E; auto.
      * right. exists l', t', h'. split. apply in_or_app; auto. rewrite E; auto.
Qed.

Lemma largest_nonstep : forall cfl pre q m, (forall l, steps_on l q = []) ->
  largest_cfl cfl pre m -> largest_cfl cfl (pre ++ q) m.
Proof.
  intros. eapply largest_weaken; eauto. intros. rewrite in_app_iff.
  split; auto. intros [|H1]; auto.
  exfalso. specialize (H l). apply in_split in H1. destruct H1 as (a & b & E). subst.
  rewrite steps_on_app in H. apply app_eq_nil in H. destruct H as [_ H].
  unfold steps_on in H. cbn [flat_map] in H. rewrite Z.eqb_refl in H. discriminate.
Qed.

Section Inc.
  Variable G : Z.
  Definition inc (l : Z) : Z := 2 ^ (G - l).
  Lemma inc_pos : forall l, l <= G -> 0 < inc l.
  Proof. intros. apply Z.pow_pos_nonneg; lia. Qed.
  Lemma inc_pred : forall l, l <= G -> inc (l - 1) = 2 * inc l.
  Proof.
    intros. unfold inc. replace (G - (l - 1)) with (1 + (G - l)) by lia.
    rewrite Z.pow_add_r by lia. reflexivity.
  Qed.

End Inc.

  Lemma interp_lt : forall l' a evs p, interpolated l' a p -> steps_on l' evs = [] ->
    interpolated l' a (p ++ evs).
  Proof.
    intros l' a evs p (x & y & E & F) H. exists x, (y ++ evs). subst. split.
    rewrite <- app_assoc. reflexivity. rewrite steps_on_app, F, H. reflexivity.
  Qed.


(** * One call of advance_level, subcycled *)
Section Sub.
  Variable cfg : config.
  Variable cfl : Z -> Q -> Q -> Q.
  Variable t0 h : Q.
  Variable G L : Z.
  Hypothesis HG : global_max cfg = G.
  Hypothesis HL : Z.min (local_min cfg) G = L.
  Hypothesis HS : subcycle cfg = true.

  Lemma local_ltb : forall l, l <= G -> (local_min cfg <? l) = (L <? l).
  Proof. clear HS. intros. destruct (Z.ltb_spec (local_min cfg) l), (Z.ltb_spec L l); lia. Qed.

  Notation inc := (inc G).

  (** counters agree with the events so far; [b] bounds the levels described *)
  Definition inv (c : counters) (pre : list event) : Prop :=
    (forall l, L <= l <= G -> c_inc c l = inc l) /\
    (forall l, L <= l <= G -> (c_dt c l == inject_Z (inc l) * h)%Q) /\
    (forall l, L <= l <= G -> (c_time c l == t0 + inject_Z (c_last c l) * h)%Q) /\
    (forall l, L <= l <= G -> (reached t0 l pre == c_time c l)%Q) /\
    (forall l, L <= l <= G -> Z.of_nat (length (steps_on l pre)) * inc l = c_last c l).

  (** what each step and interpolation must satisfy *)
  Definition ok_event (pre : list event) (e : event) : Prop :=
    match e with
    | Step l t dt =>
      (L <= l <= G \/ l = G) /\ (dt == inject_Z (inc l) * h)%Q /\
      (L <= l -> (t == reached t0 l pre)%Q) /\
      (L < l -> (reached t0 (l - 1)%Z pre == t)%Q \/ (reached t0 (l - 1)%Z pre == t + dt)%Q)
    | Interp l a =>
      L <= l < G /\ (a == 1 # 2)%Q /\
      (reached t0 (l + 1)%Z pre == reached t0 l pre - (1 - a) * (inject_Z (inc l) * h))%Q
    | Ghost _ _ _ _ => False
    | Sync _ _ => False
    end.

  Definition before (c : counters) (nf : Z) (l : Z) : Prop :=
    forall j, L <= j <= l -> c_last c j = up nf (inc j).

  Lemma advance_level_ok : forall fuel l nf m c pre,
    L <= l <= G -> (Z.to_nat (l - L) <= fuel)%nat ->
    (inc l | nf) -> inv c pre -> before c nf l -> largest_cfl cfl pre m ->
    exists c' evs m', advance_level cfg cfl fuel l nf m c = Some (c', evs, m') /\
      inv c' (pre ++ evs) /\ before c' (nf + 1) l /\
      (forall j, l < j <= G -> c_last c' j = c_last c j) /\
      c_total c' = c_total c /\ c_inc c' = c_inc c /\
      good ok_event pre evs /\ largest_cfl cfl (pre ++ evs) m' /\
      (forall j, l < j -> steps_on j evs = []) /\
      (forall j, L <= j < l -> (inc j | nf) -> exists a, (a == 1#2)%Q /\ interpolated j a (pre ++ evs)) /\
      (forall j, L <= j <= l -> ~ (inc j | nf) ->  steps_on j evs = []).
  Proof.
    induction fuel; intros l nf m c pre Hl Hf Hd Hinv Hb Hm;
      cbn [advance_level]; fold advance_level; rewrite local_ltb by lia.
    all: set (c1 := increment c l).
    all: assert (Hlast : forall j, L <= j < l -> c_last c1 j = up nf (inc j))
        by (intros; unfold c1, increment, updl; cbn [c_last]; destruct (Z.eqb_spec j l); [lia|apply Hb; lia]).
    all: assert (Hll : c_last c1 l = nf + inc l)
        by (unfold c1, increment, updl; cbn [c_last]; rewrite Z.eqb_refl, (Hb l) by lia;
            rewrite up_mult by (auto; apply inc_pos; lia); destruct Hinv as (HI & _); rewrite HI by lia; reflexivity).
    all: assert (Hother : forall j, l < j -> c_last c1 j = c_last c j)
        by (intros; unfold c1, increment, updl; cbn [c_last]; destruct (Z.eqb_spec j l); [lia|reflexivity]).
    all: assert (Hinv1 : inv c1 (pre ++ [Step l (c_time c l) (c_dt c l)])).
    1,3: destruct Hinv as (H1 & H2 & H3 & H4 & H5); split; [|split; [|split; [|split]]];
         [ intros; apply H1; auto | intros; apply H2; auto | | |].
    1,4: intros j Hj; unfold c1, increment, updl; cbn [c_last c_time c_dt];
         destruct (Z.eqb_spec j l); [subst j|apply H3; auto];
         rewrite H3, H2, H1, inject_Z_plus by auto; ring.
    1,3: intros j Hj; rewrite reached_app, reached_step; unfold c1, increment, updl; cbn [c_time c_dt];
         rewrite (Z.eqb_sym l j); destruct (Z.eqb_spec j l); [subst j; rewrite H4 by auto; reflexivity|apply H4; auto].
    1,2: intros j Hj; rewrite steps_on_app, app_length, Nat2Z.inj_add, Z.mul_add_distr_r, H5 by auto;
         unfold c1, increment, updl, steps_on; cbn [c_last flat_map app];
         rewrite (Z.eqb_sym l j); destruct (Z.eqb_spec j l); cbn [length app]; [subst j; rewrite H1 by auto|]; lia.
    all: assert (Hok : ok_event pre (Step l (c_time c l) (c_dt c l))).
    1,3: destruct Hinv as (H1 & H2 & H3 & H4 & H5); cbn [ok_event]; split; [|split; [|split]];
         [left; lia | apply H2; auto | intros; symmetry; apply H4; auto |];
         intro HLl; rewrite H4 by lia; rewrite !H3 by lia; rewrite !Hb by lia;
         rewrite inc_pred by lia; rewrite (up_mult nf (inc l)) by (auto; apply inc_pos; lia);
         destruct (Zdivide_dec (2 * inc l) nf) as [D|D];
         [left; rewrite up_mult by (auto; pose proof (inc_pos G l ltac:(lia)); lia); reflexivity
         |right; rewrite up_half by (auto; apply inc_pos; lia); rewrite H2 by lia; rewrite inject_Z_plus; ring].
    all: assert (Hm1 : largest_cfl cfl (pre ++ [Step l (c_time c l) (c_dt c l)])
                         (Qmax m (cfl l (c_time c l) (c_dt c l)))) by (apply largest_step; auto).
    all: destruct (Z.ltb_spec L l) as [HLl|HLl]; cbn [andb].
    1: lia.
    2: destruct (Z.eqb_spec (c_last c1 (l - 1)) nf) as [Heq|Hne].
    2: {
      assert (Hd1 : (inc (l - 1) | nf)).
      { rewrite Hlast in Heq by lia. apply up_eq_iff in Heq; auto. apply inc_pos; lia. }
      rewrite Heq.
      destruct (IHfuel (l - 1) nf (Qmax m (cfl l (c_time c l) (c_dt c l))) c1
                  (pre ++ [Step l (c_time c l) (c_dt c l)]))
        as (c' & evs & m' & E & A1 & A2 & A3 & A4 & A5 & A6 & A7 & A8 & A9 & A10).
      lia. lia. auto. auto. intros j Hj; apply Hlast; lia. auto.
      rewrite E, HS. unfold compute_alpha. rewrite local_ltb by lia.
      replace (L <? l) with true by (symmetry; apply Z.ltb_lt; lia). cbn [negb].
      assert (HI : c_inc c' (l - 1) = 2 * inc l).
      { destruct A1 as (HI & _). rewrite HI by lia. apply inc_pred; lia. }
      assert (Hlc' : c_last c' l = nf + inc l) by (rewrite A3 by lia; auto).
      pose proof (inc_pos G l ltac:(lia)) as Hp.
      rewrite HI. replace (2 * inc l =? 0) with false by (symmetry; apply Z.eqb_neq; lia).
      rewrite Hlc'.
      assert (Hmod : (nf + inc l) mod (2 * inc l) = inc l).
      { rewrite inc_pred in Hd1 by lia. destruct Hd1 as [k Ek]. rewrite Ek.
        rewrite Z.add_comm, Z.mod_add by lia. apply Z.mod_small; lia. }
      rewrite Hmod.
      set (al := (inject_Z (inc l) / inject_Z (2 * inc l))%Q).
      assert (Hal : (al == 1 # 2)%Q).
      { unfold al. rewrite inject_Z_mult. change (inject_Z 2) with 2%Q. field.
        intro X. unfold Qeq, inject_Z in X. cbn [Qnum Qden] in X. lia. }
      assert (Hnos : forall j, steps_on j [Interp (l - 1) al] = []) by reflexivity.
      eexists _, _, _. split. reflexivity.
      rewrite !app_assoc. rewrite <- (app_assoc pre).
      change (Step l (c_time c l) (c_dt c l) :: evs) with ([Step l (c_time c l) (c_dt c l)] ++ evs) in *.
      rewrite (app_assoc pre) in *.
      split; [|split; [|split; [|split; [|split; [|split; [|split; [|split; [|split]]]]]]]].
      - destruct A1 as (H1 & H2 & H3 & H4 & H5). split; [|split; [|split; [|split]]]; auto.
        2: { intros. rewrite steps_on_app, (Hnos l0), app_nil_r. auto. }
        intros. rewrite reached_app, (reached_nostep _ _ _ (Hnos l0)). auto.
      - intros j Hj. destruct (Z.eq_dec j l). subst j.
        + rewrite Hlc'. rewrite up_mult_succ; auto.
        + apply A2; lia.
      - intros j Hj. rewrite A3 by lia. apply Hother; lia.
      - exact A4.
      - exact A5.
      - rewrite <- app_assoc. cbn [app good]. split. exact Hok. apply good_app. split. exact A6. cbn [good]. split; [|exact I].
        cbn [ok_event]. destruct A1 as (H1 & H2 & H3 & H4 & H5). split. lia. split. exact Hal.
        replace (l - 1 + 1) with l by lia. rewrite !H4 by lia. rewrite !H3 by lia.
        rewrite Hlc', A2 by lia. rewrite inc_pred in * by lia.
        rewrite up_mult_succ by (auto; lia). rewrite Hal. rewrite !inject_Z_plus, inject_Z_mult.
        change (inject_Z 2) with 2%Q. ring.
      - apply largest_nonstep. apply Hnos. eapply largest_eq; [|apply A7].
        symmetry. apply Q.max_r. 
        destruct A7 as (B1 & B2 & B3). destruct Hm1 as (C1 & C2 & C3).
        destruct C3 as [C3|(l' & t' & h' & C3 & C4)]. rewrite C3; auto.
        rewrite C4. apply B1. apply in_or_app; auto.
      - intros j Hj. rewrite !steps_on_app. rewrite (A8 j) by lia. unfold steps_on. cbn [flat_map app].
        destruct (Z.eqb_spec l j); [lia|reflexivity].
      - intros j Hj Hdj. destruct (Z.eq_dec j (l - 1)).
        + subst j. exists al. split; [exact Hal|]. eexists _, []. split. reflexivity. reflexivity.
        + destruct (A9 j ltac:(lia) Hdj) as (a & Ha & Hi). exists a. split; auto.
          apply interp_lt; auto.
      - intros j Hj Hn. rewrite !steps_on_app. destruct (Z.eq_dec j l). subst j; contradiction.
        rewrite (A10 j) by (auto; lia).
        unfold steps_on. cbn [flat_map app]. destruct (Z.eqb_spec l j); [lia|reflexivity]. }
    all: eexists _, _, _; split; [reflexivity|].
    all: split; [exact Hinv1|split; [|split; [intros; apply Hother; lia|split; [reflexivity|
         split; [reflexivity|split; [cbn [good]; auto|split; [exact Hm1|split; [|split]]]]]]]].
    all: try (intros j Hj; unfold steps_on; cbn [flat_map app]; destruct (Z.eqb_spec l j); [lia|reflexivity]).
    all: try (intros j Hj Hn; destruct (Z.eq_dec j l); [subst; contradiction|];
              unfold steps_on; cbn [flat_map app]; destruct (Z.eqb_spec l j); [lia|reflexivity]).
    all: try (intros j Hj; destruct (Z.eq_dec j l);
              [subst j; rewrite Hll; rewrite up_mult_succ; auto; apply inc_pos; lia|]).
    all: try lia.
    - rewrite Hlast by lia. rewrite up_other; auto. apply inc_pos; lia.
      intro D. apply Hne. rewrite Hlast by lia. apply up_mult. apply inc_pos; lia.
      (* a coarser increment dividing nf makes the next coarser one divide it *)
      destruct D as [k D]. exists (k * 2 ^ (l - 1 - j)). rewrite D. unfold inc.
      replace (G - j) with ((l - 1 - j) + (G - (l - 1))) by lia. rewrite Z.pow_add_r by lia. ring.
    - intros j Hj Hdj. exfalso. apply Hne. rewrite Hlast by lia. apply up_mult. apply inc_pos; lia.
      destruct Hdj as [k D]. exists (k * 2 ^ (l - 1 - j)). rewrite D. unfold inc.
      replace (G - j) with ((l - 1 - j) + (G - (l - 1))) by lia. rewrite Z.pow_add_r by lia. ring.
  Qed.
End Sub.
