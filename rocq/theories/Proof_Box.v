From Coq Require Import ZArith List Lia Bool.
From Verif Require Import Model_Box Spec_Box.
Import ListNotations.
Local Open Scope Z_scope.

Lemma set_nth_length : forall {A} (l : list A) i x, length (set_nth l i x) = length l.
Proof. induction l; intros [|i] x; cbn [set_nth length]; congruence. Qed.

Lemma set_nth_eq : forall {A} (l : list A) i x, (i < length l)%nat ->
  set_nth l i x = firstn i l ++ x :: skipn (S i) l.
Proof.
  induction l as [|a l IH]; intros [|i] x H; cbn [length set_nth firstn skipn app] in *; try lia; [reflexivity|].
  f_equal. rewrite IH by lia. reflexivity.
Qed.

Lemma nth_error_skipn_gen : forall {A} (l : list A) n k, nth_error (skipn n l) k = nth_error l (n + k).
Proof.
  induction l as [|a l IH]; intros [|n] k; cbn [skipn nth_error Nat.add]; try reflexivity.
  - destruct k; reflexivity.
  - apply IH.
Qed.

(** Contents of block [b] being filled: the first [i] values are those of [new]. *)
Lemma hfill_ok : forall n h b l i f new,
  h_blk h b = Some l -> (i + n = length l)%nat -> length new = length l ->
  (forall h' k l', (forall x, x <> b -> h_blk h' x = h_blk h x) ->
     h_blk h' b = Some l' -> length l' = length l ->
     (forall k', (k <= k')%nat -> nth_error l' k' = nth_error l k') ->
     (i <= k < length l)%nat -> f h' k = nth_error new k) ->
  firstn i l = firstn i new ->
  exists h', hfill h (At b) i n f = Some h' /\ h_blk h' b = Some new /\
             h_next h' = h_next h /\ (forall x, x <> b -> h_blk h' x = h_blk h x).
Proof.
  induction n as [|n IH]; intros h b l i f new Hb Hl Hn Hf Hpre; cbn [hfill].
  - exists h. split; [reflexivity|]. split; [|split; reflexivity].
    rewrite Hb. f_equal. rewrite <- (firstn_all l), <- (firstn_all new), Hn, <- Hl, Nat.add_0_r.
    exact Hpre.
  - rewrite (Hf h i l) by (try assumption; try reflexivity; lia).
    destruct (nth_error new i) as [v|] eqn:Ev; [|apply nth_error_None in Ev; lia].
    cbn [bind hstore]. rewrite Hb. cbn [bind].
    assert (Hi : (i <? length l)%nat = true) by (apply Nat.ltb_lt; lia). rewrite Hi.
    set (h1 := mkH _ _).
    destruct (IH h1 b (set_nth l i v) (S i) f new) as (h' & E1 & E2 & E3 & E4).
    + unfold h1. cbn [h_blk]. now rewrite Nat.eqb_refl.
    + rewrite set_nth_length. lia.
    + rewrite set_nth_length. exact Hn.
    + intros h' k l' Ho Hb' Hl' Hk' Hk. rewrite set_nth_length in *.
      apply (Hf h' k l'); [|exact Hb'|exact Hl'| |lia].
      * intros x Hx. rewrite (Ho x Hx). unfold h1. cbn [h_blk].
        now rewrite (proj2 (Nat.eqb_neq x b) Hx).
      * intros k' Hle. rewrite (Hk' k' Hle). rewrite set_nth_eq by lia.
        rewrite nth_error_app2; [|rewrite firstn_length; lia].
        rewrite firstn_length, Nat.min_l by lia.
        replace (k' - i)%nat with (S (k' - S i)) by lia. cbn [nth_error].
        rewrite nth_error_skipn_gen. f_equal. lia.
    + rewrite set_nth_eq by lia.
      replace (S i) with (length (firstn i l) + 1)%nat at 1 by (rewrite firstn_length; lia).
      rewrite firstn_app_2. cbn [firstn]. rewrite Hpre.
      clear -Ev. revert new Ev. induction i; intros [|a new] Ev; cbn in *; try discriminate.
      * congruence.
      * f_equal. now apply IHi.
    + exists h'. split; [exact E1|]. split; [exact E2|]. split; [exact E3|].
      intros x Hx. rewrite (E4 x Hx). unfold h1. cbn [h_blk]. now rewrite (proj2 (Nat.eqb_neq x b) Hx).
Qed.

Lemma hfill_none : forall n h p i f,
  (exists k, (i <= k < i + n)%nat /\ forall h', f h' k = None) -> hfill h p i n f = None.
Proof.
  induction n as [|n IH]; intros h p i f (k & Hk & Hf); cbn [hfill]; [lia|].
  destruct (Nat.eq_dec k i) as [->|Hne]; [now rewrite Hf|].
  destruct (f h i) as [v|]; [|reflexivity]. cbn [bind].
  destruct (hstore h p i v) as [h1|]; [|reflexivity]. cbn [bind].
  apply IH. exists k. split; [lia|exact Hf].
Qed.

Lemma cells_fold : forall box a, fold_left (fun a r => a * (snd r - fst r + 1)) box a = a * cells box.
Proof.
  unfold cells. induction box as [|r box IH]; intros a; cbn [fold_left fold_right]; [lia|].
  rewrite IH. ring.
Qed.

Section Refine.
  Variable debug : bool.
  Variable I : Type.
  Variable I_dec : forall a b : I, {a = b} + {a <> b}.

  Notation astate := (astate I).
  Notation aset := (aset I I_dec).
  Notation upd := (upd I I_dec).

  Definition rel1 (h : heap) (f : fab) (x : abox) : Prop :=
    f_size f = Z.of_nat (length (a_vals x)) /\ f_box f = a_box x /\ f_fields f = a_fields x /\
    match f_data f with
    | Null => a_vals x = []
    | At b => a_vals x <> [] /\ h_blk h b = Some (a_vals x)
    | Wild => False
    end.

  Record R (s : state I) (a : astate) : Prop := mkR {
    R_box : forall i, match s_fab s i, a i with
                      | None, None => True
                      | Some f, Some x => rel1 (s_heap s) f x
                      | _, _ => False end;
    R_inj : forall i j f g b, s_fab s i = Some f -> s_fab s j = Some g ->
              f_data f = At b -> f_data g = At b -> i = j;
    R_own : forall b, h_blk (s_heap s) b <> None ->
              exists i f, s_fab s i = Some f /\ f_data f = At b;
    R_bnd : forall b, h_blk (s_heap s) b <> None -> (b < h_next (s_heap s))%nat }.

  Lemma R_init : R init (fun _ => None).
  Proof.
    split; cbn.
    - intros i. exact Logic.I.
    - discriminate.
    - congruence.
    - congruence.
  Qed.

  (** Replace box [i] by one whose block is [b'], everything else untouched. *)
  Lemma R_update : forall s a i h' p f' x',
    R s a -> (s_fab s i <> None \/ p = Null) ->
    f_data f' = p -> rel1 h' f' x' ->
    (h_next (s_heap s) <= h_next h')%nat ->
    (forall b, p = At b -> (b < h_next h')%nat /\
       (exists f, s_fab s i = Some f /\ f_data f = At b) \/ (h_next (s_heap s) <= b < h_next h')%nat) ->
    (forall f b, s_fab s i = Some f -> f_data f = At b -> p = At b \/ h_blk h' b = None) ->
    (forall b, p <> At b -> (forall f, s_fab s i = Some f -> f_data f <> At b) -> h_blk h' b = h_blk (s_heap s) b) ->
    R (upd s h' i (Some f')) (aset a i (Some x')).
  Proof.
    intros s a i h' p f' x' HR _ Hp Hrel Hnext Hown Hold Hother.
    assert (Hfresh : forall j g b, j <> i -> s_fab s j = Some g -> f_data g = At b ->
              h_blk h' b = h_blk (s_heap s) b /\ p <> At b).
    { intros j g b Hne Hj Hd.
      assert (Hblk : h_blk (s_heap s) b <> None).
      { pose proof (R_box s a HR j) as H. rewrite Hj in H. destruct (a j); [|destruct H].
        destruct H as (_ & _ & _ & H). rewrite Hd in H. destruct H as [_ H]. congruence. }
      assert (Hpb : p <> At b).
      { intros E. destruct (Hown b E) as [[_ (f & Hf & Hfd)]|Hr].
        - apply Hne. exact (R_inj s a HR j i g f b Hj Hf Hd Hfd).
        - pose proof (R_bnd s a HR b Hblk). lia. }
      split; [|exact Hpb]. apply Hother; [exact Hpb|].
      intros f Hf E. apply Hne. exact (R_inj s a HR j i g f b Hj Hf Hd E). }
    split; cbn [s_fab s_heap upd]; unfold Spec_Box.aset, Model_Box.upd; cbn [s_fab s_heap].
    - intros j. destruct (I_dec j i) as [->|Hne]; [exact Hrel|].
      pose proof (R_box s a HR j) as H. destruct (s_fab s j) as [g|] eqn:Ej; [|exact H].
      destruct (a j) as [y|]; [|exact H]. destruct H as (H1 & H2 & H3 & H4).
      split; [exact H1|]. split; [exact H2|]. split; [exact H3|].
      destruct (f_data g) eqn:Ed; [exact H4| |exact H4].
      rewrite (proj1 (Hfresh j g b Hne Ej Ed)). exact H4.
    - intros j k f g b. destruct (I_dec j i) as [->|Hj], (I_dec k i) as [->|Hk]; intros E1 E2 E3 E4.
      + reflexivity.
      + exfalso. apply (proj2 (Hfresh k g b Hk E2 E4)). injection E1 as <-. congruence.
      + exfalso. apply (proj2 (Hfresh j f b Hj E1 E3)). injection E2 as <-. congruence.
      + exact (R_inj s a HR j k f g b E1 E2 E3 E4).
    - intros b Hb.
      assert (Hcase : p = At b \/ p <> At b).
      { destruct p as [|b0|]; try (right; congruence).
        destruct (Nat.eq_dec b0 b); [left; congruence|right; congruence]. }
      destruct Hcase as [Hpb|Hpb].
      + exists i, f'. destruct (I_dec i i); [split; [reflexivity|congruence]|contradiction].
      + assert (Hno : forall f, s_fab s i = Some f -> f_data f <> At b).
        { intros f Hf E. destruct (Hold f b Hf E); congruence. }
        rewrite (Hother b Hpb Hno) in Hb. destruct (R_own s a HR b Hb) as (j & g & Hj & Hg).
        exists j, g. destruct (I_dec j i) as [->|Hne]; [|now split].
        exfalso. exact (Hno g Hj Hg).
    - intros b Hb.
      assert (Hcase : p = At b \/ p <> At b).
      { destruct p as [|b0|]; try (right; congruence).
        destruct (Nat.eq_dec b0 b); [left; congruence|right; congruence]. }
      destruct Hcase as [Hpb|Hpb].
      + destruct (Hown b Hpb) as [[H _]|H]; lia.
      + assert (Hno : forall f, s_fab s i = Some f -> f_data f <> At b).
        { intros f Hf E. destruct (Hold f b Hf E); congruence. }
        rewrite (Hother b Hpb Hno) in Hb. pose proof (R_bnd s a HR b Hb). lia.
  Qed.

  Lemma upd_self : forall s h i f, s_fab s i = Some f ->
    forall j, s_fab (upd s h i (Some f)) j = s_fab s j.
  Proof. intros s h i f H j. cbn. destruct (I_dec j i) as [->|]; congruence. Qed.

  Lemma R_ext : forall h f g a b, (forall i, f i = g i) -> (forall i, a i = b i) ->
    R (mkS h f) a -> R (mkS h g) b.
  Proof.
    intros h f g a b Hf Ha [B1 B2 B3 B4]. split; cbn [s_fab s_heap] in *.
    - intros i. rewrite <- Hf, <- Ha. apply B1.
    - intros i j x y c. rewrite <- !Hf. apply B2.
    - intros c Hc. destruct (B3 c Hc) as (i & x & Hx). exists i, x. now rewrite <- Hf.
    - exact B4.
  Qed.

  (** Overwriting all numbers of box [i]. *)
  Lemma overwrite_ok : forall s a i f x new fn,
    R s a -> s_fab s i = Some f -> a i = Some x -> length new = length (a_vals x) ->
    (forall h' k l', (forall b, f_data f <> At b -> h_blk h' b = h_blk (s_heap s) b) ->
       (forall b, f_data f = At b -> h_blk h' b = Some l') -> length l' = length (a_vals x) ->
       (forall k', (k <= k')%nat -> nth_error l' k' = nth_error (a_vals x) k') ->
       (k < length (a_vals x))%nat -> fn h' k = nth_error new k) ->
    exists h', hfill (s_heap s) (f_data f) 0 (Z.to_nat (f_size f)) fn = Some h' /\
      forall box n, R (upd s h' i (Some (mkFab (f_data f) (f_size f) box n)))
                      (aset a i (Some (mkA new box n))).
  Proof.
    intros s a i f x new fn HR Hf Hx Hlen Hfn.
    pose proof (R_box s a HR i) as Hi. rewrite Hf, Hx in Hi. destruct Hi as (Hs & Hb & Hn & Hd).
    rewrite Hs, Nat2Z.id. destruct (f_data f) as [|b|] eqn:Ed; [| |destruct Hd].
    - rewrite Hd in *. cbn [length hfill]. destruct new; [|discriminate].
      exists (s_heap s). split; [reflexivity|]. intros box n.
      apply (R_update s a i (s_heap s) Null); try assumption; try reflexivity; try congruence.
      + now right.
      + repeat split; cbn [f_size f_box f_fields f_data a_vals a_box a_fields length]; lia.
    - destruct Hd as [Hne Hblk].
      destruct (hfill_ok (length (a_vals x)) (s_heap s) b (a_vals x) 0 fn new) as (h' & E1 & E2 & E3 & E4).
      + exact Hblk.
      + lia.
      + exact Hlen.
      + intros h' k l' Ho Hb' Hl' Hk' Hk. apply (Hfn h' k l'); try assumption; try lia.
        * intros b0 Hb0. apply Ho. congruence.
        * intros b0 Hb0. injection Hb0 as <-. exact Hb'.
      + reflexivity.
      + exists h'. split; [exact E1|]. intros box n.
        apply (R_update s a i h' (At b)); try assumption; try reflexivity; try lia.
        * left. congruence.
        * split; [cbn; congruence|]. repeat split; cbn [f_data a_vals]; [|exact E2].
          intros ->. destruct (a_vals x); [contradiction|discriminate].
        * intros b0 Hb0. injection Hb0 as <-. left. split; [|now exists f].
          rewrite E3. apply (R_bnd s a HR). congruence.
        * intros f0 b0 Hf0 Hb0. left. congruence.
        * intros b0 Hb0 _. apply E4. congruence.
  Qed.

  Lemma set_data_ok : forall s a i f x n,
    R s a -> s_fab s i = Some f -> a i = Some x -> 0 <= n ->
    exists h' p, set_dataPtr debug (s_heap s) (f_data f) (f_size f) n = Some (h', p) /\
      (forall box m, R (upd s h' i (Some (mkFab p n box m)))
         (aset a i (Some (mkA (defined debug (a_vals x) (Z.to_nat n)) box m)))) /\
      (forall j g b, j <> i -> s_fab s j = Some g -> f_data g = At b ->
         h_blk h' b = h_blk (s_heap s) b /\ p <> At b).
  Proof.
    intros s a i f x n HR Hf Hx Hn0.
    pose proof (R_box s a HR i) as Hi. rewrite Hf, Hx in Hi. destruct Hi as (Hs & Hb & Hn & Hd).
    assert (Hdisj : forall j g b, j <> i -> s_fab s j = Some g -> f_data g = At b ->
              f_data f <> At b /\ (b < h_next (s_heap s))%nat).
    { intros j g b Hne Hj Hg. split.
      - intros E. apply Hne. exact (R_inj s a HR j i g f b Hj Hf Hg E).
      - apply (R_bnd s a HR). pose proof (R_box s a HR j) as H. rewrite Hj in H.
        destruct (a j); [|destruct H]. destruct H as (_ & _ & _ & H). rewrite Hg in H.
        destruct H as [_ H]. congruence. }
    unfold set_dataPtr. rewrite (proj2 (Z.ltb_ge n 0) Hn0).
    destruct (Z.eqb_spec n 0) as [->|Hnz].
    - (* size 0: data is released *)
      assert (Hdef : defined debug (a_vals x) (Z.to_nat 0) = []).
      { unfold defined. cbn [Z.to_nat repeat]. destruct debug; [reflexivity|].
        destruct (a_vals x); reflexivity. }
      rewrite Hdef. destruct (f_data f) as [|b|] eqn:Ed; [| |destruct Hd].
      + exists (s_heap s), Null. split; [reflexivity|]. split.
        * intros box m. apply (R_update s a i (s_heap s) Null); try assumption; try reflexivity; try congruence.
          -- now right.
          -- repeat split.
        * intros j g b Hne Hj Hg. split; [reflexivity|discriminate].
      + destruct Hd as [Hne Hblk]. cbn [hdelete]. rewrite Hblk. cbn [bind].
        eexists _, Null. split; [reflexivity|]. split.
        * intros box m. apply (R_update s a i _ Null); try assumption; try reflexivity; try congruence.
          -- now right.
          -- repeat split.
          -- intros f0 b0 Hf0 Hb0. right. cbn [h_blk]. assert (b0 = b) by congruence. subst b0.
             now rewrite Nat.eqb_refl.
          -- intros b0 _ Hb0. cbn [h_blk]. destruct (Nat.eqb_spec b0 b); [|reflexivity].
             subst b0. exfalso. exact (Hb0 f Hf Ed).
        * intros j g b0 Hne0 Hj Hg. split; [|discriminate]. cbn [h_blk].
          destruct (Nat.eqb_spec b0 b); [|reflexivity]. subst b0.
          destruct (Hdisj j g b Hne0 Hj Hg). congruence.
    - (* positive size *)
      assert (Hnp : 0 < n) by lia.
      assert (Hmid : exists h1 b1,
        (if negb (f_size f =? n)
         then bind (match f_data f with Null => Some (s_heap s) | _ => hdelete (s_heap s) (f_data f) end)
                   (fun h => Some (hnew h (Z.to_nat n)))
         else Some (s_heap s, f_data f)) = Some (h1, At b1) /\
        h_blk h1 b1 = Some (if Nat.eqb (length (a_vals x)) (Z.to_nat n) then a_vals x
                            else repeat None (Z.to_nat n)) /\
        (h_next (s_heap s) <= h_next h1)%nat /\
        ((b1 < h_next h1)%nat /\ f_data f = At b1 \/ (h_next (s_heap s) <= b1 < h_next h1)%nat) /\
        (forall b, f_data f = At b -> At b1 = At b \/ h_blk h1 b = None) /\
        (forall b, b1 <> b -> f_data f <> At b -> h_blk h1 b = h_blk (s_heap s) b)).
      { destruct (Z.eqb_spec (f_size f) n) as [E|E]; cbn [negb].
        - rewrite (proj2 (Nat.eqb_eq (length (a_vals x)) (Z.to_nat n))) by lia.
          destruct (f_data f) as [|b|] eqn:Ed; [|exists (s_heap s), b|destruct Hd].
          + rewrite Hd in Hs. cbn in Hs. lia.
          + destruct Hd as [Hne Hblk]. split; [reflexivity|]. split; [exact Hblk|].
            split; [lia|]. split; [|split].
            * left. split; [|reflexivity]. apply (R_bnd s a HR). congruence.
            * intros b0 Hb0. left. congruence.
            * reflexivity.
        - rewrite (proj2 (Nat.eqb_neq (length (a_vals x)) (Z.to_nat n))) by lia.
          destruct (f_data f) as [|b|] eqn:Ed; [| |destruct Hd].
          + cbn [bind hnew]. eexists _, _. split; [reflexivity|]. cbn [h_blk h_next].
            rewrite Nat.eqb_refl. split; [reflexivity|]. split; [lia|]. split; [right; lia|]. split.
            * discriminate.
            * intros b Hb0 _. destruct (Nat.eqb_spec b (h_next (s_heap s))); [congruence|reflexivity].
          + destruct Hd as [Hne Hblk]. cbn [hdelete]. rewrite Hblk. cbn [bind hnew].
            assert (Hbb : (b < h_next (s_heap s))%nat) by (apply (R_bnd s a HR); congruence).
            eexists _, _. split; [reflexivity|]. cbn [h_blk h_next].
            rewrite Nat.eqb_refl. split; [reflexivity|]. split; [lia|]. split; [right; lia|]. split.
            * intros b0 Hb0. right. assert (b0 = b) by congruence. subst b0.
              destruct (Nat.eqb_spec b (h_next (s_heap s))); [lia|]. now rewrite Nat.eqb_refl.
            * intros b0 Hb0 Hb1. destruct (Nat.eqb_spec b0 (h_next (s_heap s))); [congruence|].
              destruct (Nat.eqb_spec b0 b); [congruence|reflexivity]. }
      destruct Hmid as (h1 & b1 & -> & Hblk1 & Hnx & Hown & Hold & Hoth). cbn [bind].
      set (vals := if Nat.eqb (length (a_vals x)) (Z.to_nat n) then a_vals x
                   else repeat None (Z.to_nat n)) in *.
      assert (Hvl : length vals = Z.to_nat n).
      { unfold vals. destruct (Nat.eqb_spec (length (a_vals x)) (Z.to_nat n)); [assumption|apply repeat_length]. }
      assert (Hres : exists h2, (if debug
          then bind (hfill h1 (At b1) 0 (Z.to_nat n) (fun _ _ => Some (Some snan))) (fun h => Some (h, At b1))
          else Some (h1, At b1)) = Some (h2, At b1) /\
          h_blk h2 b1 = Some (defined debug (a_vals x) (Z.to_nat n)) /\ h_next h2 = h_next h1 /\
          (forall b, b <> b1 -> h_blk h2 b = h_blk h1 b)).
      { unfold defined. destruct debug.
        - destruct (hfill_ok (Z.to_nat n) h1 b1 vals 0 (fun _ _ => Some (Some snan))
                     (repeat (Some snan) (Z.to_nat n))) as (h2 & E1 & E2 & E3 & E4).
          + exact Hblk1.
          + lia.
          + now rewrite repeat_length.
          + intros h' k l' _ _ _ _ Hk. symmetry. apply nth_error_repeat. lia.
          + reflexivity.
          + rewrite E1. exists h2. now repeat split.
        - exists h1. repeat split. exact Hblk1. }
      destruct Hres as (h2 & -> & Hblk2 & Hn2 & Hoth2).
      assert (Hdl : length (defined debug (a_vals x) (Z.to_nat n)) = Z.to_nat n).
      { unfold defined. destruct debug; [apply repeat_length|]. exact Hvl. }
      exists h2, (At b1). split; [reflexivity|]. split.
      + intros box m. apply (R_update s a i h2 (At b1)); try assumption; try reflexivity; try lia.
        * left. congruence.
        * split; [cbn; lia|]. repeat split; cbn [f_data a_vals]; [|exact Hblk2].
          intros E. rewrite E in Hdl. cbn in Hdl. lia.
        * intros b Hb0. assert (b = b1) by congruence. subst b. rewrite Hn2.
          destruct Hown as [[H1 H2]|H]; [left; split; [exact H1|now exists f]|now right].
        * intros f0 b Hf0 Hb0. assert (f0 = f) by congruence. subst f0.
          destruct (Nat.eq_dec b b1) as [->|Hne]; [now left|].
          destruct (Hold b Hb0) as [H|H]; [now left|right]. now rewrite Hoth2.
        * intros b Hb0 Hb1. assert (b <> b1) by congruence. rewrite Hoth2 by assumption.
          apply Hoth; [congruence|now apply Hb1].
      + intros j g b Hne Hj Hg. destruct (Hdisj j g b Hne Hj Hg) as [H1 H2].
        assert (b <> b1).
        { intros ->. destruct Hown as [[_ H]|H]; [contradiction|lia]. }
        split; [|congruence]. rewrite Hoth2 by assumption. apply Hoth; [congruence|exact H1].
  Qed.

  Definition agree (x : option (state I)) (y : option astate) : Prop :=
    match x, y with Some s, Some a => R s a | None, None => True | _, _ => False end.

  Lemma defined_same : forall l, debug = false -> defined debug l (length l) = l.
  Proof. intros l ->. unfold defined. now rewrite Nat.eqb_refl. Qed.

  Lemma defined_length : forall l n, length (defined debug l n) = n.
  Proof.
    intros l n. unfold defined. destruct debug; [apply repeat_length|].
    destruct (Nat.eqb_spec (length l) n); [assumption|apply repeat_length].
  Qed.

  Lemma step_ok : forall s a o, R s a -> legal debug I o ->
    agree (step debug I I_dec s o) (astep debug I I_dec a o).
  Proof.
    intros s a o HR Hleg. destruct o as [i|i|i box n|i j|i k v|i v|i d]; cbn [step astep].
    - (* Construct *)
      unfold construct. pose proof (R_box s a HR i) as Hi.
      destruct (s_fab s i) as [f|] eqn:Ef, (a i) as [x|] eqn:Ex; try (destruct Hi; fail); try exact Logic.I.
      apply (R_update s a i (s_heap s) Null); try assumption; try reflexivity; try congruence.
      + now right.
      + repeat split.
    - (* Destroy *)
      unfold destruct_. pose proof (R_box s a HR i) as Hi.
      destruct (s_fab s i) as [f|] eqn:Ef, (a i) as [x|] eqn:Ex; cbn [bind]; try (destruct Hi; fail); try exact Logic.I.
      destruct Hi as (H1 & H2 & H3 & H4).
      destruct (f_data f) as [|b|] eqn:Ed; [| |destruct H4].
      + cbn [agree]. split; unfold Model_Box.upd, Spec_Box.aset; cbn [s_fab s_heap].
        * intros j. destruct (I_dec j i); [exact Logic.I|apply (R_box s a HR)].
        * intros j k f0 g b. destruct (I_dec j i), (I_dec k i); try discriminate.
          apply (R_inj s a HR).
        * intros b Hb. destruct (R_own s a HR b Hb) as (j & g & Hj & Hg). exists j, g.
          destruct (I_dec j i) as [->|]; [congruence|now split].
        * apply (R_bnd s a HR).
      + destruct H4 as [H4 H5]. cbn [hdelete]. rewrite H5. cbn [bind agree].
        split; unfold Model_Box.upd, Spec_Box.aset; cbn [s_fab s_heap h_blk h_next].
        * intros j. destruct (I_dec j i) as [->|Hne]; [exact Logic.I|].
          pose proof (R_box s a HR j) as Hj. destruct (s_fab s j) as [g|] eqn:Eg; [|exact Hj].
          destruct (a j); [|exact Hj]. destruct Hj as (G1 & G2 & G3 & G4).
          split; [exact G1|]. split; [exact G2|]. split; [exact G3|].
          destruct (f_data g) as [|b0|] eqn:Egd; [exact G4| |exact G4]. cbn [h_blk].
          destruct (Nat.eqb_spec b0 b) as [->|]; [|exact G4].
          exfalso. apply Hne. exact (R_inj s a HR j i g f b Eg Ef Egd Ed).
        * intros j k f0 g b0. destruct (I_dec j i), (I_dec k i); try discriminate.
          apply (R_inj s a HR).
        * intros b0. destruct (Nat.eqb_spec b0 b) as [->|Hne]; [congruence|]. intros Hb.
          destruct (R_own s a HR b0 Hb) as (j & g & Hj & Hg). exists j, g.
          destruct (I_dec j i) as [->|]; [|now split].
          exfalso. apply Hne. congruence.
        * intros b0. destruct (Nat.eqb_spec b0 b); [congruence|]. apply (R_bnd s a HR).
    - (* Define *)
      unfold define. pose proof (R_box s a HR i) as Hi.
      destruct (s_fab s i) as [f|] eqn:Ef, (a i) as [x|] eqn:Ex; cbn [bind]; try (destruct Hi; fail); try exact Logic.I.
      rewrite cells_fold, Z.mul_1_l.
      destruct (Z.ltb_spec (cells box) 0) as [Hc|Hc].
      + rewrite (proj2 (Z.leb_gt 0 (cells box)) Hc). exact Logic.I.
      + rewrite (proj2 (Z.leb_le 0 (cells box)) Hc). cbn [andb].
        destruct (Z.leb_spec 0 (cells box * n)) as [Hn|Hn].
        * destruct (set_data_ok s a i f x (cells box * n) HR Ef Ex Hn) as (h' & p & E & HRn & _).
          rewrite E. cbn [bind agree]. apply HRn.
        * unfold set_dataPtr. rewrite (proj2 (Z.ltb_lt (cells box * n) 0) Hn). exact Logic.I.
    - (* Assign *)
      unfold assign. pose proof (R_box s a HR i) as Hi. pose proof (R_box s a HR j) as Hj.
      destruct (s_fab s i) as [f|] eqn:Ef, (a i) as [x|] eqn:Ex; cbn [bind]; try (destruct Hi; fail); try exact Logic.I.
      destruct (s_fab s j) as [g|] eqn:Eg, (a j) as [y|] eqn:Ey; cbn [bind]; try (destruct Hj; fail); try exact Logic.I.
      destruct Hj as (J1 & J2 & J3 & J4).
      destruct (set_data_ok s a i f x (f_size g) HR Ef Ex ltac:(lia)) as (h' & p & E & HRn & Hsep).
      rewrite E. cbn [bind]. specialize (HRn (f_box g) (f_fields g)).
      rewrite J1, Nat2Z.id in HRn.
      set (s1 := upd s h' i (Some (mkFab p (Z.of_nat (length (a_vals y))) (f_box g) (f_fields g)))) in *.
      set (a1 := aset a i _) in HRn.
      assert (Ef1 : s_fab s1 i = Some (mkFab p (Z.of_nat (length (a_vals y))) (f_box g) (f_fields g))).
      { cbn. destruct (I_dec i i); [reflexivity|contradiction]. }
      assert (Ex1 : a1 i = Some (mkA (defined debug (a_vals x) (length (a_vals y))) (f_box g) (f_fields g))).
      { unfold a1, Spec_Box.aset. destruct (I_dec i i); [reflexivity|contradiction]. }
      destruct (overwrite_ok s1 a1 i _ _ (a_vals y)
                 (fun h k => hload h (if I_dec i j then p else f_data g) k) HRn Ef1 Ex1)
        as (h2 & E2 & HR2).
      { cbn [a_vals]. now rewrite defined_length. }
      { cbn [a_vals f_data]. rewrite defined_length. intros h2 k l' Hoth Hl' Hlen Hpre Hk.
        destruct (I_dec i j) as [->|Hne].
        - assert (x = y) by congruence. subst y. assert (Hdbg : debug = false) by (destruct debug; [|reflexivity]; exfalso; now apply Hleg).
          rewrite defined_same in Hpre by assumption.
          destruct p as [|b|] eqn:Ep.
          + exfalso. pose proof (R_box s1 a1 HRn j) as H. rewrite Ef1, Ex1 in H.
            destruct H as (_ & _ & _ & H). cbn [f_data a_vals] in H.
            rewrite defined_same in H by assumption. rewrite H in Hk. cbn in Hk. lia.
          + cbn [hload]. rewrite (Hl' b eq_refl). cbn [bind]. apply Hpre. lia.
          + exfalso. pose proof (R_box s1 a1 HRn j) as H. rewrite Ef1, Ex1 in H.
            destruct H as (_ & _ & _ & H). exact H.
        - destruct (f_data g) as [|b|] eqn:Egd.
          + rewrite J4 in Hk. cbn in Hk. lia.
          + destruct J4 as [J4 J5].
            destruct (Hsep j g b (fun e => Hne (eq_sym e)) Eg Egd) as [H1 H2].
            cbn [hload]. rewrite (Hoth b H2). unfold s1. cbn [s_heap Model_Box.upd].
            rewrite H1, J5. reflexivity.
          + destruct J4. }
      cbn [s_heap f_data f_size] in E2. unfold s1 in E2. cbn [s_heap Model_Box.upd f_size f_data] in E2.
      rewrite J1. rewrite E2. cbn [bind agree].
      specialize (HR2 (f_box g) (f_fields g)). cbn [f_data f_size] in HR2.
      unfold Model_Box.upd, Spec_Box.aset in *. cbn [s_fab s_heap] in *.
      refine (R_ext _ _ _ _ _ _ _ HR2).
      + intros j0. cbn. destruct (I_dec j0 i); reflexivity.
      + intros j0. unfold a1, Spec_Box.aset. destruct (I_dec j0 i); [|reflexivity].
        rewrite J2, J3. destruct y; reflexivity.
    - (* Write *)
      unfold write. pose proof (R_box s a HR i) as Hi.
      destruct (s_fab s i) as [f|] eqn:Ef, (a i) as [x|] eqn:Ex; cbn [bind]; try (destruct Hi; fail); try exact Logic.I.
      destruct Hi as (H1 & H2 & H3 & H4).
      destruct (f_data f) as [|b|] eqn:Ed; cbn [hstore bind]; [| |destruct H4].
      + rewrite H4. cbn [length Nat.ltb Nat.leb]. exact Logic.I.
      + destruct H4 as [H4 H5]. rewrite H5. cbn [bind].
        destruct (Nat.ltb_spec k (length (a_vals x))) as [Hk|Hk]; [|exact Logic.I]. cbn [bind agree].
        rewrite <- set_nth_eq by assumption.
        match goal with |- R (mkS ?h _) _ => set (h' := h) end.
        refine (R_ext h' (s_fab (upd s h' i (Some f))) _ _ _ _ (fun _ => eq_refl) _).
        * now apply upd_self.
        * apply (R_update s a i h' (At b)); try assumption; try reflexivity; try lia.
          -- left. congruence.
          -- repeat split; cbn [a_vals a_box a_fields]; rewrite ?set_nth_length; try assumption.
             rewrite Ed. split.
             ++ intros E. apply (f_equal (@length _)) in E. rewrite set_nth_length in E. cbn in E. lia.
             ++ unfold h'. cbn [h_blk]. now rewrite Nat.eqb_refl.
          -- intros b0 Hb0. left. assert (b0 = b) by congruence. subst b0. split; [|now exists f].
             unfold h'. cbn [h_next]. apply (R_bnd s a HR). congruence.
          -- intros f0 b0 Hf0 Hb0. left. congruence.
          -- intros b0 Hb0 _. unfold h'. cbn [h_blk]. destruct (Nat.eqb_spec b0 b); [congruence|reflexivity].
    - (* SetValue *)
      unfold set_to_value. pose proof (R_box s a HR i) as Hi.
      destruct (s_fab s i) as [f|] eqn:Ef, (a i) as [x|] eqn:Ex; cbn [bind]; try (destruct Hi; fail); try exact Logic.I.
      destruct (overwrite_ok s a i f x (repeat (Some v) (length (a_vals x))) (fun _ _ => Some (Some v)) HR Ef Ex)
        as (h' & E & HR').
      + apply repeat_length.
      + intros h' k l' _ _ _ _ Hk. symmetry. now apply nth_error_repeat.
      + rewrite E. cbn [bind agree]. specialize (HR' (f_box f) (f_fields f)).
        destruct Hi as (H1 & H2 & H3 & H4). rewrite <- H2, <- H3.
        refine (R_ext h' _ _ _ _ _ (fun _ => eq_refl) HR').
        apply (upd_self s h' i). rewrite Ef. destruct f; reflexivity.
    - (* CopyFrom *)
      unfold copyFrom. pose proof (R_box s a HR i) as Hi.
      destruct (s_fab s i) as [f|] eqn:Ef, (a i) as [x|] eqn:Ex; cbn [bind]; try (destruct Hi; fail); try exact Logic.I.
      destruct (Nat.leb_spec (length (a_vals x)) (length d)) as [Hd|Hd].
      + destruct (overwrite_ok s a i f x (map Some (firstn (length (a_vals x)) d))
                   (fun _ k => option_map Some (nth_error d k)) HR Ef Ex) as (h' & E & HR').
        * rewrite map_length, firstn_length. lia.
        * intros h' k l' _ _ _ _ Hk. rewrite nth_error_map. f_equal.
          rewrite <- (firstn_skipn (length (a_vals x)) d) at 1.
          rewrite nth_error_app1; [reflexivity|]. rewrite firstn_length. lia.
        * rewrite E. cbn [bind agree]. specialize (HR' (f_box f) (f_fields f)).
          destruct Hi as (H1 & H2 & H3 & H4). rewrite <- H2, <- H3.
          refine (R_ext h' _ _ _ _ _ (fun _ => eq_refl) HR').
          apply (upd_self s h' i). rewrite Ef. destruct f; reflexivity.
      + rewrite hfill_none; [exact Logic.I|]. exists (length d). destruct Hi as (H1 & _).
        split; [lia|]. intros _. now rewrite (proj2 (nth_error_None d (length d))) by lia.
  Qed.

  Lemma run_ok : forall l s a, R s a -> Forall (legal debug I) l ->
    agree (run debug I I_dec s l) (arun debug I I_dec a l).
  Proof.
    induction l as [|o l IH]; intros s a HR HL; cbn [run arun]; [exact HR|].
    apply Forall_cons_iff in HL. destruct HL as [H1 H2]. pose proof (step_ok s a o HR H1) as H.
    destruct (step debug I I_dec s o) as [s'|], (astep debug I I_dec a o) as [a'|]; cbn [bind];
      try (destruct H; fail); [now apply IH|exact Logic.I].
  Qed.

  Lemma R_shows : forall s a i x, R s a -> a i = Some x -> shows I s i (a_vals x).
  Proof.
    intros s a i x HR Hx. pose proof (R_box s a HR i) as Hi. rewrite Hx in Hi.
    unfold shows, copyTo. destruct (s_fab s i) as [f|]; [|destruct Hi]. cbn [bind].
    destruct Hi as (H1 & _ & _ & H4). rewrite H1, Nat2Z.id.
    destruct (f_data f) as [|b|]; [rewrite H4; reflexivity| |destruct H4].
    destruct H4 as [_ H4]. cbn [hload]. rewrite H4. cbn [bind].
    assert (G : forall n k, (k + n = length (a_vals x))%nat ->
      (fix go (k n : nat) := match n with
       | O => Some []
       | S n => bind (nth_error (a_vals x) k) (fun v => bind (go (S k) n) (fun l => Some (v :: l)))
       end) k n = Some (skipn k (a_vals x))).
    { induction n as [|n IHn]; intros k Hk.
      - rewrite skipn_all2 by lia. reflexivity.
      - rewrite (IHn (S k)) by lia.
        destruct (nth_error (a_vals x) k) eqn:E; [|apply nth_error_None in E; lia].
        cbn [bind]. f_equal. clear -E. revert k E. generalize (a_vals x).
        induction l; intros [|k] E; cbn in *; try discriminate; [congruence|now apply IHl]. }
    now rewrite G.
  Qed.

  Lemma R_dead : forall s a i, R s a -> a i = None -> s_fab s i = None.
  Proof.
    intros s a i HR Hi. pose proof (R_box s a HR i) as H. rewrite Hi in H.
    destruct (s_fab s i); [destruct H|reflexivity].
  Qed.
End Refine.
