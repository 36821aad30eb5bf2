From Coq Require Import ZArith List Bool Lia.
From Verif Require Import Model_Face Model_Mesh Spec_Mesh.
Import ListNotations.
Open Scope Z_scope.

(* ------------------------------------------------------------ lists *)

Lemma zget_in : forall A (l : list A) i x, zget l i = Some x -> In x l /\ 0 <= i < Z.of_nat (length l).
Proof.
  intros A l i x H. unfold zget in H. destruct (Z.ltb_spec i 0); [discriminate|]. split.
  - apply nth_error_In in H; exact H.
  - assert (nth_error l (Z.to_nat i) <> None) as N by congruence. apply nth_error_Some in N. lia.
Qed.

Lemma zget_some : forall A (l : list A) i, 0 <= i < Z.of_nat (length l) -> exists x, zget l i = Some x.
Proof.
  intros A l i Hi. unfold zget. destruct (Z.ltb_spec i 0); [lia|].
  destruct (nth_error l (Z.to_nat i)) eqn:E; [eauto|]. apply nth_error_None in E. lia.
Qed.

Lemma in_zget : forall A (l : list A) x, In x l -> exists i, zget l i = Some x.
Proof.
  intros A l x H. apply In_nth_error in H. destruct H as [n H]. exists (Z.of_nat n). unfold zget.
  destruct (Z.ltb_spec (Z.of_nat n) 0); [lia|]. rewrite Nat2Z.id. exact H.
Qed.

Lemma zget_map : forall A B (f : A -> B) l i, zget (map f l) i = option_map f (zget l i).
Proof. intros A B f l i. unfold zget. destruct (i <? 0); [reflexivity|]. apply nth_error_map. Qed.

Lemma nth_error_range : forall lo hi k, (k < Z.to_nat (hi - lo))%nat -> nth_error (zrange lo hi) k = Some (lo + Z.of_nat k).
Proof.
  intros lo hi k H. unfold zrange. rewrite nth_error_map.
  rewrite (nth_error_nth' (seq 0 (Z.to_nat (hi - lo))) 0%nat) by (rewrite seq_length; exact H).
  rewrite seq_nth by exact H. reflexivity.
Qed.

Lemma length_range : forall lo hi, length (zrange lo hi) = Z.to_nat (hi - lo).
Proof. intros lo hi. unfold zrange. rewrite map_length, seq_length. reflexivity. Qed.

Lemma zget_range : forall hi k, 0 <= k < hi -> zget (zrange 0 hi) k = Some k.
Proof.
  intros hi k H. unfold zget. destruct (Z.ltb_spec k 0); [lia|]. rewrite nth_error_range by lia. f_equal. lia.
Qed.

Lemma in_range : forall lo hi k, In k (zrange lo hi) <-> lo <= k < hi.
Proof.
  intros lo hi k. unfold zrange. rewrite in_map_iff. split.
  - intros [n [<- H]]. apply in_seq in H. lia.
  - intros H. exists (Z.to_nat (k - lo)). split; [lia|]. apply in_seq. lia.
Qed.

Lemma range_app : forall lo mid hi, lo <= mid -> mid <= hi -> zrange lo hi = zrange lo mid ++ zrange mid hi.
Proof.
  intros lo mid hi H1 H2. unfold zrange.
  replace (Z.to_nat (hi - lo)) with (Z.to_nat (mid - lo) + Z.to_nat (hi - mid))%nat by lia.
  rewrite seq_app, map_app. f_equal. rewrite (plus_n_O (0 + _)).
  replace (0 + Z.to_nat (mid - lo) + 0)%nat with (Z.to_nat (mid - lo)) by lia.
  rewrite <- (map_id (seq (Z.to_nat (mid - lo)) _)).
  replace (seq (Z.to_nat (mid - lo)) (Z.to_nat (hi - mid))) with (map (fun k => (Z.to_nat (mid - lo) + k)%nat) (seq 0 (Z.to_nat (hi - mid)))).
  - rewrite !map_map. apply map_ext. intros a. lia.
  - clear. generalize (Z.to_nat (hi - mid)) as n. intros n.
    assert (forall k s, map (fun k => (Z.to_nat (mid - lo) + k)%nat) (seq s k) = seq (Z.to_nat (mid - lo) + s) k) as G.
    { induction k as [|k IH]; intros s; cbn [seq map]; [reflexivity|]. f_equal. rewrite IH. f_equal. lia. }
    rewrite G. f_equal. lia.
Qed.

Lemma mapM_all : forall A B (f : A -> option B) (Q : A -> B -> Prop) l,
  (forall x, In x l -> exists y, f x = Some y /\ Q x y) -> exists ys, mapM f l = Some ys /\ Forall2 Q l ys.
Proof.
  intros A B f Q l. induction l as [|x l IH]; intros H.
  - exists []. split; [reflexivity|constructor].
  - destruct (H x (or_introl eq_refl)) as [y [E Hy]].
    destruct IH as [ys [Es Hs]]; [intros; apply H; right; assumption|].
    exists (y :: ys). cbn [mapM]. rewrite E. unfold bind. rewrite Es. split; [reflexivity|constructor; assumption].
Qed.

Lemma mapM_map : forall A B (f : A -> option B) (g : A -> B) l,
  (forall x, In x l -> f x = Some (g x)) -> mapM f l = Some (map g l).
Proof.
  intros A B f g l. induction l as [|x l IH]; intros H; [reflexivity|].
  cbn [mapM map]. rewrite (H x (or_introl eq_refl)). unfold bind. rewrite IH; [reflexivity|].
  intros; apply H; right; assumption.
Qed.

Lemma forall2_zget : forall A B (Q : A -> B -> Prop) l l' i x, Forall2 Q l l' -> zget l i = Some x -> exists y, zget l' i = Some y /\ Q x y.
Proof.
  intros A B Q l l' i x H. unfold zget. destruct (i <? 0); [discriminate|]. generalize (Z.to_nat i) as n. clear i.
  induction H as [|a b l l' H0 H IH]; intros [|n] E; cbn [nth_error] in *; try discriminate.
  - injection E as ->. eauto.
  - exact (IH n E).
Qed.

Lemma forall2_len : forall A B (Q : A -> B -> Prop) l l', Forall2 Q l l' -> length l = length l'.
Proof. intros A B Q l l' H. induction H; cbn [length]; congruence. Qed.

Lemma skipn_concat : forall A (ls : list (list A)) s r k, (forall l, In l ls -> length l = s) -> (k <= length ls)%nat ->
  skipn (k * s) (concat ls ++ r) = concat (skipn k ls) ++ r.
Proof.
  intros A ls s r. induction ls as [|l ls IH]; intros k H Hk.
  - cbn [length] in Hk. replace k with 0%nat by lia. reflexivity.
  - destruct k as [|k]; [reflexivity|]. cbn [concat skipn length] in *.
    replace (S k * s)%nat with (length l + k * s)%nat by (rewrite (H l (or_introl eq_refl)); lia).
    rewrite <- app_assoc, skipn_app, skipn_all2 by lia. cbn [app].
    replace (length l + k * s - length l)%nat with (k * s)%nat by lia.
    apply IH; [intros; apply H; right; assumption|lia].
Qed.

Lemma skipn_nth : forall A (ls : list A) k x, nth_error ls k = Some x -> skipn k ls = x :: skipn (S k) ls.
Proof.
  intros A ls. induction ls as [|a ls IH]; intros [|k] x H; cbn [nth_error] in H; try discriminate.
  - injection H as ->. reflexivity.
  - cbn [skipn]. rewrite (IH k x H). reflexivity.
Qed.

Lemma half_pos : forall d, num_half d = 2 \/ num_half d = 4. Proof. intros d. destruct d; [left|right]; reflexivity. Qed.
Lemma orient_pos : forall d, num_orientations d = 8 \/ num_orientations d = 24. Proof. intros d. destruct d; [left|right]; reflexivity. Qed.
Lemma faces_orient : forall d, num_faces d <= num_orientations d. Proof. intros d. destruct d; vm_compute; congruence. Qed.

(* ---------------------------------------------- numbering and queries *)

Section World.
  Variable d : dim.
  Variable w : world.
  Hypothesis WOK : world_ok d w.
  Variable p : Z.
  Hypothesis Hp : 0 <= p < procs w.
  Variable dom : domain.
  Hypothesis REP : represents d w p dom.
  Notation m := (dmesh dom).

  Lemma before_nonneg : forall b, 0 <= b <= nblocks w -> 0 <= before w p b.
  Proof.
    intros b Hb. unfold before. destruct WOK as (_ & _ & Hc & _).
    assert (forall x, In x (map (count w p) (zrange 0 b)) -> 0 <= x) as N.
    { intros x Hx. apply in_map_iff in Hx. destruct Hx as [k [<- Hk]]. apply in_range in Hk. apply Hc; lia. }
    revert N. generalize (map (count w p) (zrange 0 b)). induction l as [|x l IH]; intros N; cbn [fold_right]; [lia|].
    pose proof (N x (or_introl eq_refl)). assert (0 <= fold_right Z.add 0 l) by (apply IH; intros; apply N; right; assumption). lia.
  Qed.

  Lemma before_succ : forall b, 0 <= b -> before w p (b + 1) = before w p b + count w p b.
  Proof.
    intros b Hb. unfold before. rewrite (range_app 0 b (b + 1)) by lia. rewrite map_app, fold_right_app.
    replace (zrange b (b + 1)) with [b].
    - cbn [map fold_right].
      assert (forall l z, fold_right Z.add z l = fold_right Z.add 0 l + z) as F
        by (induction l as [|x l IH]; intros z; cbn [fold_right]; [lia|rewrite IH; lia]).
      rewrite F. lia.
    - unfold zrange. replace (b + 1 - b) with 1 by lia. change (Z.to_nat 1) with 1%nat. cbn [seq map]. f_equal. lia.
  Qed.

  Lemma before_mono : forall b c, 0 <= b <= c -> c <= nblocks w -> before w p b <= before w p c.
  Proof.
    intros b c Hb Hc. destruct WOK as (_ & _ & Hn & _).
    replace c with (b + Z.of_nat (Z.to_nat (c - b))) by lia.
    assert (Z.of_nat (Z.to_nat (c - b)) <= nblocks w - b) as B by lia. revert B.
    induction (Z.to_nat (c - b)) as [|k IH]; intros B; [replace (b + Z.of_nat 0) with b by lia; lia|].
    replace (b + Z.of_nat (S k)) with (b + Z.of_nat k + 1) by lia. rewrite before_succ by lia.
    pose proof (Hn p (b + Z.of_nat k) Hp ltac:(lia)). specialize (IH ltac:(lia)). lia.
  Qed.

  Lemma total_bound : forall b k, 0 <= b < nblocks w -> 0 <= k < count w p b -> 0 <= before w p b + k < total w p.
  Proof.
    intros b k Hb Hk. pose proof (before_nonneg b ltac:(lia)). unfold total.
    pose proof (before_mono (b + 1) (nblocks w) ltac:(lia) ltac:(lia)). rewrite before_succ in * by lia. lia.
  Qed.

  Lemma own_bound : forall x, is_patch w x -> fst x = p -> 0 <= snd x < total w p.
  Proof.
    intros x (H1 & H2 & H3) E. rewrite E in H3.
    pose proof (total_bound (block_of w x) (snd x - before w p (block_of w x)) H2 ltac:(lia)). lia.
  Qed.

  Lemma rep_block : forall b, 0 <= b < nblocks w -> exists blk, zget (blocks dom) b = Some blk /\
       b_num blk = count w p b /\ b_before blk = before w p b /\
       (0 < count w p b -> b_offset blk = before w p b /\ first_tree dom <= b <= last_tree dom) /\
       (forall f k, 0 <= f < num_faces d -> 0 <= k < count w p b -> face_of w (p, before w p b + k) f = Edge -> zget (b_boundary blk) f = Some true) /\
       (forall k, 0 <= k < count w p b -> zget (b_levels blk) k = Some (level_of w (p, before w p b + k))) /\
       (forall k, In k (b_exchange blk) -> 0 <= k < count w p b).
  Proof. apply REP. Qed.

  Lemma rep_layer : forall i x, zget (layer w p) i = Some x ->
    is_patch w x /\ fst x <> p /\ 0 <= i < ghost_num_quadrants m /\
    zget (ghost_to_proc m) i = Some (fst x) /\ zget (ghosts m) i = Some (mkG (block_of w x) (snd x) (level_of w x)).
  Proof.
    intros i x H. destruct (zget_in _ _ _ _ H) as [Hin Hi].
    destruct WOK as (_ & _ & _ & _ & _ & _ & _ & HL & _). destruct (HL p x Hp Hin) as [A B].
    destruct REP as (_ & _ & _ & _ & Hg & _ & _ & _ & HG & _). destruct (HG i x H) as [C D].
    rewrite Hg. auto.
  Qed.

  Lemma lnq : local_num_quadrants m = total w p. Proof. apply REP. Qed.
  Lemma gnq : ghost_num_quadrants m = Z.of_nat (length (layer w p)). Proof. apply REP. Qed.
  Lemma rank : mpirank dom = p. Proof. apply REP. Qed.
  Lemma total_nonneg : 0 <= total w p.
  Proof. unfold total. destruct WOK as (Hb & _). apply before_nonneg. lia. Qed.

  Ltac b_true := repeat match goal with
    | |- _ && _ = true => apply andb_true_intro; split
    | |- (_ <=? _) = true => apply Z.leb_le
    | |- (_ <? _) = true => apply Z.ltb_lt
    | |- (_ =? _) = true => apply Z.eqb_eq
    end.
  Lemma check_true : forall A b (x : option A), b = true -> check b x = x. Proof. intros A b x ->. reflexivity. Qed.

  Lemma encode_ok : forall x id, is_patch w x -> number w p x id ->
    exists q i, finds w p x q i /\ encode_neighbor dom id = Some (q, block_of w x, i).
  Proof.
    intros x id Hx [[E ->]|[E (i & Hi & ->)]].
    - pose proof (own_bound x Hx E) as B. pose proof Hx as (H1 & H2 & H3). rewrite E in H3.
      exists p, (snd x - before w p (block_of w x)). split; [split; [congruence|split; [auto|congruence]]|].
      unfold encode_neighbor. rewrite lnq, gnq. rewrite check_true by (b_true; lia).
      destruct (Z.ltb_spec (snd x) (total w p)); [|lia].
      destruct REP as (_ & _ & _ & _ & _ & _ & _ & HT & _). rewrite HT by lia.
      replace (p, snd x) with x by (destruct x; cbn in *; congruence).
      destruct (rep_block (block_of w x) H2) as (blk & Eb & N & Be & Of & _). unfold bind. rewrite Eb.
      destruct (Of ltac:(lia)) as [_ T]. rewrite check_true by (b_true; lia).
      rewrite Be, N. rewrite check_true by (b_true; lia). rewrite rank. reflexivity.
    - destruct (rep_layer i x Hi) as (_ & _ & Hr & A & B).
      exists (fst x), i. split; [split; [congruence|split; [congruence|auto]]|].
      unfold encode_neighbor. rewrite lnq. pose proof total_nonneg. rewrite check_true by (b_true; lia).
      destruct (Z.ltb_spec (total w p + i) (total w p)); [lia|].
      replace (total w p + i - total w p) with i by lia. unfold bind. rewrite A, B. cbn [g_tree].
      destruct Hx as (_ & H2 & _). destruct REP as (_ & _ & Hl & _). rewrite Hl. rewrite check_true by (b_true; lia). reflexivity.
  Qed.

  Lemma totalleaf_ok : forall b k, 0 <= b < nblocks w -> 0 <= k < count w p b -> totalleaf dom b k = Some (before w p b + k).
  Proof.
    intros b k Hb Hk. destruct (rep_block b Hb) as (blk & Eb & N & Be & Of & _). destruct (Of ltac:(lia)) as [O T].
    unfold totalleaf. rewrite check_true by (b_true; lia). unfold bind. rewrite Eb. rewrite check_true by (b_true; lia).
    pose proof (total_bound b k Hb Hk). rewrite O, lnq. apply check_true. b_true; lia.
  Qed.

  Lemma local_patch : forall b k, 0 <= b < nblocks w -> 0 <= k < count w p b ->
    is_patch w (p, before w p b + k) /\ block_of w (p, before w p b + k) = b.
  Proof.
    intros b k Hb Hk. destruct WOK as (_ & _ & _ & _ & HB & _). pose proof (HB p b k Hp Hb Hk) as E.
    split; [|exact E]. unfold is_patch. rewrite E. cbn [fst snd]. lia.
  Qed.


  Lemma mapM_half : forall xs row, Z.of_nat (length xs) = num_half d -> (forall y, In y xs -> is_patch w y) ->
    Forall2 (number w p) xs row ->
    exists n, mapM (fun k => bind (zget row k) (encode_neighbor dom)) (zrange 0 (num_half d)) = Some n /\
      Forall2 (fun y e => finds w p y (fst (fst e)) (snd e) /\ snd (fst e) = block_of w y) xs n.
  Proof.
    intros xs row HL HP HF.
    assert (exists n, mapM (encode_neighbor dom) row = Some n /\
              Forall2 (fun y e => finds w p y (fst (fst e)) (snd e) /\ snd (fst e) = block_of w y) xs n) as (n & E & F).
    { clear HL. induction HF as [|y id ys ids H0 HF IH].
      - exists []. split; [reflexivity|constructor].
      - destruct IH as (n & E & F); [intros; apply HP; right; assumption|].
        destruct (encode_ok y id (HP y (or_introl eq_refl)) H0) as (q & i & Fd & En).
        exists ((q, block_of w y, i) :: n). cbn [mapM]. unfold bind. rewrite En, E. split; [reflexivity|].
        constructor; [cbn [fst snd]; auto|exact F]. }
    exists n. split; [|exact F]. rewrite <- E. rewrite <- HL, (forall2_len _ _ _ _ _ HF). clear.
    assert (forall pre, mapM (fun k => bind (zget (pre ++ row) k) (encode_neighbor dom)) (zrange (Z.of_nat (length pre)) (Z.of_nat (length (pre ++ row)))) = mapM (encode_neighbor dom) row) as G.
    { induction row as [|a row IH]; intros pre.
      - rewrite app_nil_r. unfold zrange. rewrite Z.sub_diag. reflexivity.
      - specialize (IH (pre ++ [a])). rewrite <- app_assoc in IH. cbn [app] in IH.
        rewrite (range_app _ (Z.of_nat (length pre) + 1)) by (rewrite ?app_length; cbn [length]; lia).
        replace (zrange (Z.of_nat (length pre)) (Z.of_nat (length pre) + 1)) with [Z.of_nat (length pre)].
        2:{ unfold zrange. replace (Z.of_nat (length pre) + 1 - Z.of_nat (length pre)) with 1 by lia. change (Z.to_nat 1) with 1%nat. cbn [seq map]. f_equal. lia. }
        cbn [app mapM]. replace (zget (pre ++ a :: row) (Z.of_nat (length pre))) with (Some a).
        2:{ unfold zget. destruct (Z.ltb_spec (Z.of_nat (length pre)) 0); [lia|]. rewrite Nat2Z.id, nth_error_app2, Nat.sub_diag by lia. reflexivity. }
        rewrite app_length in IH. cbn [length] in IH. rewrite Nat2Z.inj_add in IH. change (Z.of_nat 1) with 1 in IH. rewrite IH. reflexivity. }
    exact (G []).
  Qed.

  Lemma same_blocks : forall xs n, Forall2 (fun y e => finds w p y (fst (fst e)) (snd e) /\ snd (fst e) = block_of w y) xs n ->
    (forall y z, In y xs -> In z xs -> block_of w y = block_of w z) ->
    forall y e, In y xs -> In e n -> snd (fst e) = block_of w y.
  Proof.
    intros xs n F HB y e Hy He. destruct (in_zget _ _ _ He) as [i Hi].
    assert (exists y', zget xs i = Some y' /\ snd (fst e) = block_of w y') as (y' & Ey & E).
    { destruct (zget_in _ _ _ _ Hi) as [_ B]. rewrite <- (forall2_len _ _ _ _ _ F) in B.
      destruct (zget_some _ xs i B) as [y' Ey]. destruct (forall2_zget _ _ _ _ _ _ _ F Ey) as (e' & Ee & _ & Q).
      rewrite Hi in Ee. injection Ee as <-. eauto. }
    rewrite E. apply HB; [apply (zget_in _ _ _ _ Ey)|exact Hy].
  Qed.

  Lemma face_ok : forall b k f, 0 <= b < nblocks w -> 0 <= k < count w p b -> 0 <= f < num_faces d ->
    exists a, face_neighbors d dom b k f = Some a /\ right_face d w p (p, before w p b + k) f a.
  Proof.
    intros b k f Hb Hk Hf. set (n := before w p b + k). pose proof (total_bound b k Hb Hk) as Hn. fold n in Hn.
    destruct (local_patch b k Hb Hk) as [Hx Eb]. fold n in Hx, Eb.
    destruct (rep_block b Hb) as (blk & Gb & _ & _ & _ & Bd & _).
    assert (face_entry d w p n f m) as (qtq & qtf & E1 & E2 & M).
    { destruct REP as (_ & _ & _ & _ & _ & _ & _ & _ & _ & HF & _). apply HF; assumption. }
    destruct WOK as (_ & _ & _ & _ & _ & HA & _). specialize (HA (p, n) f Hx Hf).
    unfold face_neighbors. rewrite check_true.
    2:{ apply Z.eqb_eq. rewrite gnq. apply REP. }
    rewrite totalleaf_ok by assumption. unfold bind at 1. fold n. rewrite check_true by (b_true; lia).
    rewrite Gb. unfold bind at 1. rewrite E1. unfold bind at 1. rewrite E2. unfold bind at 1.
    unfold right_face, across_ok in *. cbn [fst snd]. pose proof (half_pos d) as HH. pose proof (orient_pos d) as HO. pose proof (faces_orient d) as HFO.
    destruct (face_of w (p, n) f) as [|y rf|ys rf|y sub rf] eqn:EF.
    - destruct M as [Mq Mf]. rewrite Mq, Mf, !Z.eqb_refl. cbn [andb]. rewrite (Bd f k Hf Hk EF). unfold bind. cbn [check]. rewrite rank.
      eexists. split; [reflexivity|]. rewrite Eb. unfold n. replace (before w p b + k - before w p b) with k by lia. reflexivity.
    - destruct M as [M ->]. destruct HA as (Hy & Hrf & Hne).
      assert ((qtq =? n) && (rf =? f) = false) as ->.
      { apply andb_false_iff. destruct (Z.eqb_spec qtq n) as [Qn|]; [|left; reflexivity].
        destruct (Z.eqb_spec rf f) as [->|]; [|right; reflexivity]. exfalso.
        destruct M as [[Ey Es]|[Ey (i & Hi & Es)]].
        - apply Hne. split; [|reflexivity]. destruct y; cbn [fst snd] in *. congruence.
        - destruct (rep_layer _ _ Hi) as (_ & _ & Hr & _). lia. }
      destruct (Z.ltb_spec rf 0); [lia|].
      destruct (encode_ok y qtq Hy M) as (q & i & Fd & En). unfold bind. rewrite En.
      destruct (Z.ltb_spec rf (num_orientations d)); [|lia]. eexists. split; [reflexivity|]. exists q, i. split; [exact Fd|reflexivity].
    - destruct M as (-> & row & Er & FN). destruct HA as (HL & Hrf & HP & HBl).
      assert ((qtq =? n) && (rf - num_orientations d =? f) = false) as ->.
      { apply andb_false_iff. right. apply Z.eqb_neq. lia. }
      destruct (Z.ltb_spec (rf - num_orientations d) 0); [|lia]. rewrite Er. unfold bind at 1.
      destruct (mapM_half ys row HL HP FN) as (nn & En & Fn). rewrite En. unfold bind at 1.
      pose proof (forall2_len _ _ _ _ _ Fn) as LN.
      assert (forall i, 0 <= i < num_half d -> exists e, zget nn i = Some e) as Gn
        by (intros i Hi; apply zget_some; lia).
      destruct (zget_some _ ys 0 ltac:(lia)) as [y0 Ey0].
      assert (forall i e, zget nn i = Some e -> zget (map (fun x => snd (fst x)) nn) i = Some (block_of w y0)) as Gb'.
      { intros i e Ee. rewrite zget_map, Ee. cbn [option_map]. f_equal.
        apply (same_blocks ys nn Fn HBl y0 e); [apply (zget_in _ _ _ _ Ey0)|apply (zget_in _ _ _ _ Ee)]. }
      rewrite check_true.
      2:{ apply forallb_forall. intros i Hi. apply in_range in Hi.
          destruct (Gn (i - 1) ltac:(lia)) as [e1 Ee1]. destruct (Gn i ltac:(lia)) as [e2 Ee2].
          rewrite (Gb' _ _ Ee1), (Gb' _ _ Ee2). apply Z.eqb_refl. }
      destruct (Gn 0 ltac:(lia)) as [e0 Ee0]. rewrite (Gb' _ _ Ee0). unfold bind.
      rewrite check_true by (b_true; lia).
      eexists. split; [reflexivity|]. exists (map (fun e => (fst (fst e), snd e)) nn). cbn [fa_rel fa_proc fa_patch fa_face fa_block].
      split; [|split; [reflexivity|split; [rewrite map_map; reflexivity|split; [rewrite map_map; reflexivity|split; [lia|]]]]].
      + clear - Fn. induction Fn as [|y e ys nn [F1 F2] Fn IH]; cbn [map]; constructor; [exact F1|exact IH].
      + intros y Hy. apply HBl; [apply (zget_in _ _ _ _ Ey0)|exact Hy].
    - destruct M as [M ->]. destruct HA as (Hy & Hrf & Hs).
      assert (num_orientations d <= num_orientations d * (sub + 1) + rf) as Q by nia.
      assert ((qtq =? n) && (num_orientations d * (sub + 1) + rf =? f) = false) as ->.
      { apply andb_false_iff. right. apply Z.eqb_neq. lia. }
      destruct (Z.ltb_spec (num_orientations d * (sub + 1) + rf) 0); [lia|].
      destruct (encode_ok y qtq Hy M) as (q & i & Fd & En). unfold bind. rewrite En.
      destruct (Z.ltb_spec (num_orientations d * (sub + 1) + rf) (num_orientations d)); [lia|].
      assert (Z.quot (num_orientations d * (sub + 1) + rf) (num_orientations d) = sub + 1) as ->.
      { rewrite Z.quot_div_nonneg by lia. symmetry. apply (Z.div_unique _ _ _ rf); lia. }
      assert (Z.rem (num_orientations d * (sub + 1) + rf) (num_orientations d) = rf) as ->.
      { rewrite Z.rem_mod_nonneg by lia. symmetry. apply (Z.mod_unique _ _ (sub + 1)); lia. }
      rewrite check_true by (b_true; lia). eexists. split; [reflexivity|]. exists q, i. split; [exact Fd|].
      replace (sub + 1 - 1) with sub by lia. unfold none. destruct HH as [-> | ->]; reflexivity.
  Qed.

  (** the encoded face of any entry and our own face *)
  Definition far_face (x : patch) (f : Z) : Z :=
    match face_of w x f with Edge => f | Same _ rf | Finer _ rf | Coarser _ _ rf => rf end.

  Lemma parity : forall a b, Z.lxor (normal_out a) (normal_out b) = Z.land (a + b) 1.
  Proof.
    intros a b. unfold normal_out. change 1 with (Z.ones 1) at 1. rewrite Z.land_ones by lia. change (2 ^ 1) with 2.
    rewrite (Z.add_mod a b 2) by lia.
    pose proof (Z.mod_pos_bound a 2 ltac:(lia)). pose proof (Z.mod_pos_bound b 2 ltac:(lia)).
    assert (a mod 2 = 0 \/ a mod 2 = 1) as [-> | ->] by lia; assert (b mod 2 = 0 \/ b mod 2 = 1) as [-> | ->] by lia; reflexivity.
  Qed.

  Lemma normal_ok : forall b k f, 0 <= b < nblocks w -> 0 <= k < count w p b -> 0 <= f < num_faces d ->
    normal_match d dom b k f = Some (if Z.even (f + far_face (p, before w p b + k) f) then 0 else 1).
  Proof.
    intros b k f Hb Hk Hf. set (n := before w p b + k). pose proof (total_bound b k Hb Hk) as Hn. fold n in Hn.
    destruct (local_patch b k Hb Hk) as [Hx Eb]. fold n in Hx, Eb.
    assert (face_entry d w p n f m) as (qtq & qtf & E1 & E2 & M).
    { destruct REP as (_ & _ & _ & _ & _ & _ & _ & _ & _ & HF & _). apply HF; assumption. }
    destruct WOK as (_ & _ & _ & _ & _ & HA & _). specialize (HA (p, n) f Hx Hf).
    unfold normal_match. rewrite totalleaf_ok by assumption. unfold bind at 1. fold n. rewrite check_true by (b_true; lia).
    rewrite E2. unfold bind. pose proof (half_pos d) as HH. pose proof (orient_pos d) as HO. pose proof (faces_orient d) as HFO.
    assert (- num_orientations d <= qtf < num_orientations d * (1 + num_half d) /\ exists j, qtf = far_face (p, n) f + num_orientations d * j) as [R (j & Q)].
    { unfold far_face, across_ok in *. destruct (face_of w (p, n) f).
      - destruct M as [Mq Mf]. rewrite Mf. split; [nia|]. exists 0. lia.
      - destruct M as [_ ->]. split; [nia|]. exists 0. lia.
      - destruct M as [-> _]. split; [nia|]. exists (-1). lia.
      - destruct M as [_ ->]. split; [nia|]. exists (sub + 1). lia. }
    rewrite check_true by (b_true; lia).
    assert (exists h, num_orientations d = 2 * h) as [h Eh] by (destruct HO as [-> | ->]; [exists 4|exists 12]; reflexivity).
    assert (exists h, num_faces d = 2 * h /\ 0 < h) as (h2 & Eh2 & Ph2) by (destruct d; [exists 2|exists 3]; split; [reflexivity|lia|reflexivity|lia]).
    rewrite check_true.
    - f_equal. change 1 with (Z.ones 1) at 1. rewrite Z.land_ones by lia. change (2 ^ 1) with 2.
      rewrite Q, Eh. replace (f + (far_face (p, n) f + 2 * h * j)) with (f + far_face (p, n) f + (h * j) * 2) by lia.
      rewrite Z.mod_add by lia. rewrite Zeven_mod. pose proof (Z.mod_pos_bound (f + far_face (p, n) f) 2 ltac:(lia)).
      destruct (Zeq_bool _ 0) eqn:Z0; [apply Zeq_bool_eq in Z0; lia|apply Zeq_bool_neq in Z0; lia].
    - apply Z.eqb_eq. rewrite parity. rewrite Z.rem_mod_nonneg by lia. change 1 with (Z.ones 1). rewrite !Z.land_ones by lia. change (2 ^ 1) with 2.
      rewrite (Z.mod_eq (qtf + num_orientations d) (num_faces d)) by lia. rewrite Eh, Eh2.
      set (z := (qtf + 2 * h) / (2 * h2)).
      replace (f + (qtf + 2 * h - 2 * h2 * z)) with (f + qtf + (h - h2 * z) * 2) by lia. apply Z.mod_add. lia.
  Qed.

  Lemma boundary_ok : forall b k, 0 <= b < nblocks w -> 0 <= k < count w p b ->
    exists l any, boundary_type d dom b k = Some (l, any) /\ Z.of_nat (length l) = num_faces d /\
      (forall f, 0 <= f < num_faces d -> (face_of w (p, before w p b + k) f = Edge -> zget l f = Some 1) /\ (face_of w (p, before w p b + k) f <> Edge -> zget l f = Some 0)) /\
      (any = true <-> exists f, 0 <= f < num_faces d /\ face_of w (p, before w p b + k) f = Edge).
  Proof.
    intros b k Hb Hk. set (n := before w p b + k). pose proof (total_bound b k Hb Hk) as Hn. fold n in Hn.
    destruct (local_patch b k Hb Hk) as [Hx Eb]. fold n in Hx, Eb.
    destruct (rep_block b Hb) as (blk & Gb & _ & _ & _ & Bd & _). fold n in Bd.
    unfold boundary_type. rewrite totalleaf_ok by assumption. unfold bind at 1. fold n. rewrite Gb. unfold bind at 1.
    pose proof (half_pos d) as HH. pose proof (orient_pos d) as HO. pose proof (faces_orient d) as HFO.
    assert (0 < num_faces d) as FP by (destruct d; reflexivity).
    rewrite (mapM_map _ _ _ (fun f => match face_of w (p, n) f with Edge => 1 | _ => 0 end)).
    - unfold bind. set (g := fun f : Z => _). exists (map g (zrange 0 (num_faces d))), (existsb (fun x => x =? 1) (map g (zrange 0 (num_faces d)))).
      split; [reflexivity|]. split; [rewrite map_length, length_range; lia|]. split.
      + intros f Hf. rewrite zget_map, zget_range by exact Hf. cbn [option_map]. unfold g.
        destruct (face_of w (p, n) f); split; congruence.
      + rewrite existsb_exists. split.
        * intros (x & Hin & E). apply in_map_iff in Hin. destruct Hin as (f & <- & Hf). apply in_range in Hf. exists f. split; [exact Hf|].
          unfold g in E. destruct (face_of w (p, n) f); [reflexivity|discriminate..].
        * intros (f & Hf & E). exists 1. split; [|reflexivity]. apply in_map_iff. exists f. unfold g. rewrite E. split; [reflexivity|]. apply in_range. exact Hf.
    - intros f Hf. apply in_range in Hf.
      assert (face_entry d w p n f m) as (qtq & qtf & E1 & E2 & M).
      { destruct REP as (_ & _ & _ & _ & _ & _ & _ & _ & _ & HF & _). apply HF; assumption. }
      destruct WOK as (_ & _ & _ & _ & _ & HA & _). specialize (HA (p, n) f Hx Hf). unfold across_ok in HA.
      rewrite E1, E2. unfold bind.
      destruct (face_of w (p, n) f) as [|y rf|ys rf|y sub rf] eqn:EF.
      + destruct M as [Mq Mf]. rewrite Mq, Mf, !Z.eqb_refl. cbn [andb]. rewrite (Bd f k Hf Hk EF). reflexivity.
      + destruct M as [M ->]. destruct HA as (Hy & Hrf & Hne). destruct ((qtq =? n) && (rf =? f)) eqn:Q; [|reflexivity]. exfalso.
        apply andb_true_iff in Q. destruct Q as [Q1 Q2]. apply Z.eqb_eq in Q1, Q2. subst rf.
        destruct M as [[Ey Es]|[Ey (i & Hi & Es)]].
        * apply Hne. split; [|reflexivity]. destruct y; cbn [fst snd] in *. congruence.
        * destruct (rep_layer _ _ Hi) as (_ & _ & Hr & _). lia.
      + destruct M as [-> _]. destruct HA as (_ & Hrf & _). replace (rf - num_orientations d =? f) with false; [rewrite andb_false_r; reflexivity|]. symmetry. apply Z.eqb_neq. lia.
      + destruct M as [_ ->]. destruct HA as (_ & Hrf & Hs). replace (num_orientations d * (sub + 1) + rf =? f) with false; [rewrite andb_false_r; reflexivity|]. symmetry. apply Z.eqb_neq. nia.
  Qed.

  (* ---------------------------------------------------------- corners *)

  Lemma size_ok : forall y x, -1 <= level_of w y - level_of w x <= 1 ->
    match level_of w y - level_of w x with -1 => Some DOUBLESIZE | 0 => Some SAMESIZE | 1 => Some HALFSIZE | _ => None end = Some (size w y x).
  Proof.
    intros y x H. unfold size.
    assert (level_of w y - level_of w x = -1 \/ level_of w y - level_of w x = 0 \/ level_of w y - level_of w x = 1) as [E|[E|E]] by lia; rewrite E.
    - destruct (Z.ltb_spec (level_of w y) (level_of w x)); [reflexivity|lia].
    - destruct (Z.ltb_spec (level_of w y) (level_of w x)); [lia|]. destruct (Z.ltb_spec (level_of w x) (level_of w y)); [lia|reflexivity].
    - destruct (Z.ltb_spec (level_of w y) (level_of w x)); [lia|]. destruct (Z.ltb_spec (level_of w x) (level_of w y)); [reflexivity|lia].
  Qed.

  Lemma opposite : forall c, 0 <= c < num_corners d -> Z.lxor c (num_corners d - 1) = num_corners d - 1 - c.
  Proof.
    intros c H. assert (In c (zrange 0 (num_corners d))) as Hin by (apply in_range; exact H).
    destruct d; vm_compute in Hin; repeat (destruct Hin as [<-|Hin]; [reflexivity|]); destruct Hin.
  Qed.

  Lemma number_range : forall x id, is_patch w x -> number w p x id -> 0 <= id < total w p + Z.of_nat (length (layer w p)).
  Proof.
    intros x id Hx [[E ->]|[E (i & Hi & ->)]].
    - pose proof (own_bound x Hx E). lia.
    - destruct (zget_in _ _ _ _ Hi) as [_ B]. pose proof total_nonneg. lia.
  Qed.

  Lemma corner_ok : forall b k c, 0 <= b < nblocks w -> 0 <= k < count w p b -> 0 <= c < num_corners d ->
    exists a, corner_neighbors d dom b k c = Some a /\ right_corner d w p (p, before w p b + k) c a.
  Proof.
    intros b k c Hb Hk Hc. set (n := before w p b + k). pose proof (total_bound b k Hb Hk) as Hn. fold n in Hn.
    destruct (local_patch b k Hb Hk) as [Hx Eb]. fold n in Hx, Eb.
    destruct (rep_block b Hb) as (blk & Gb & Nb & Be & Of & _ & Lv & _). fold n in Lv. destruct (Of ltac:(lia)) as [_ T].
    assert (corner_entry d w p n c m) as (qid & E1 & M).
    { destruct REP as (_ & _ & _ & _ & _ & _ & _ & _ & _ & _ & HC & _). apply HC; assumption. }
    destruct WOK as (_ & _ & _ & _ & _ & _ & HA & _). specialize (HA (p, n) c Hx Hc).
    unfold corner_neighbors. rewrite check_true.
    2:{ apply Z.eqb_eq. rewrite gnq. apply REP. }
    rewrite check_true by (b_true; lia). rewrite Gb. unfold bind at 1.
    rewrite check_true by (b_true; lia). rewrite check_true by (b_true; lia).
    rewrite Be. fold n. rewrite E1. unfold bind at 1. rewrite gnq, lnq.
    pose proof total_nonneg as TN.
    (* the common second half *)
    assert (forall y id rc, is_patch w y -> number w p y id -> -1 <= level_of w y - level_of w (p, n) <= 1 ->
      exists q i, finds w p y q i /\
      (if id <? 0 then Some (mkCA BOUNDARY None b None (-1))
       else
       bind (if id <? total w p then
              bind (zget (quad_to_tree m) id) (fun rblockno =>
              bind (zget (blocks dom) rblockno) (fun rtree =>
              check (b_offset rtree <=? id) (
              bind (zget (b_levels rtree) (id - b_offset rtree)) (fun level =>
              Some (mpirank dom, rblockno, id - b_offset rtree, level)))))
            else
              let qid := id - total w p in
              check (qid <? Z.of_nat (length (layer w p))) (
              bind (zget (ghost_to_proc m) qid) (fun rproc =>
              check (negb (rproc =? mpirank dom)) (
              bind (zget (ghosts m) qid) (fun q =>
              Some (rproc, g_tree q, qid, g_level q)))))) (fun '(rproc, rblockno, rpatchno, level) =>
      bind (zget (b_levels blk) k) (fun my_level =>
      bind (match level - my_level with -1 => Some DOUBLESIZE | 0 => Some SAMESIZE | 1 => Some HALFSIZE | _ => None end) (fun rel =>
      check (if rproc =? mpirank dom then
               match zget (blocks dom) rblockno with Some rb => (0 <=? rpatchno) && (rpatchno <? b_num rb) | None => false end
             else (0 <=? rpatchno) && (rpatchno <? Z.of_nat (length (layer w p)))) (
      Some (mkCA rel (Some rproc) rblockno (Some rpatchno) rc))))))
      = Some (mkCA (size w y (p, n)) (Some q) (block_of w y) (Some i) rc)) as SECOND.
    { intros y id rc Hy HN HL. pose proof (number_range y id Hy HN) as NR.
      destruct (Z.ltb_spec id 0); [lia|].
      destruct HN as [[E ->]|[E (i & Hi & ->)]].
      - pose proof (own_bound y Hy E) as B. pose proof Hy as (H1 & H2 & H3). rewrite E in H3.
        exists p, (snd y - before w p (block_of w y)). split; [split; [congruence|split; [auto|congruence]]|].
        destruct (Z.ltb_spec (snd y) (total w p)); [|lia].
        destruct REP as (_ & _ & _ & _ & _ & _ & _ & HT & _). rewrite HT by lia.
        replace (p, snd y) with y by (destruct y; cbn in *; congruence).
        destruct (rep_block (block_of w y) H2) as (blk2 & Eb2 & N2 & Be2 & Of2 & _ & Lv2 & _). unfold bind at 2. rewrite Eb2.
        destruct (Of2 ltac:(lia)) as [Of3 T2]. unfold bind at 2. rewrite check_true by (b_true; lia).
        rewrite Of3, Lv2 by lia. unfold bind. rewrite Lv by exact Hk.
        replace (p, before w p (block_of w y) + (snd y - before w p (block_of w y))) with y
          by (destruct y; cbn [fst snd] in *; f_equal; lia).
        rewrite size_ok by exact HL. rewrite rank, Z.eqb_refl, Eb2. rewrite check_true by (b_true; lia). reflexivity.
      - destruct (rep_layer i y Hi) as (_ & _ & Hr & A & B). rewrite gnq in Hr.
        exists (fst y), i. split; [split; [congruence|split; [congruence|auto]]|].
        destruct (Z.ltb_spec (total w p + i) (total w p)); [lia|].
        replace (total w p + i - total w p) with i by lia. cbv zeta. rewrite check_true by (b_true; lia). rewrite A. unfold bind at 2.
        rewrite check_true by (apply negb_true_iff, Z.eqb_neq; rewrite rank; exact E).
        rewrite B. unfold bind. rewrite Lv by exact Hk. cbn [g_tree g_level]. rewrite (size_ok y (p, before w p b + k)) by exact HL.
        rewrite rank. destruct (Z.eqb_spec (fst y) p); [congruence|]. rewrite check_true by (b_true; lia). reflexivity. }
    unfold right_corner, diagonal_ok in *. rewrite Eb.
    destruct (corner_of w (p, n) c) as [|ys|y|y rc] eqn:EC.
    - destruct (Z.leb_spec 0 qid); [lia|]. unfold bind. destruct (Z.ltb_spec qid 0); [|lia]. eexists. split; reflexivity.
    - destruct M as (id & o & -> & Hid & O1 & O2).
      destruct (Z.leb_spec 0 (total w p + Z.of_nat (length (layer w p)) + id)); [|lia].
      destruct (Z.leb_spec (total w p + Z.of_nat (length (layer w p))) (total w p + Z.of_nat (length (layer w p)) + id)); [|lia].
      replace (total w p + Z.of_nat (length (layer w p)) + id - (total w p + Z.of_nat (length (layer w p)))) with id by lia.
      rewrite check_true by (b_true; lia). unfold bind. rewrite O1, O2.
      destruct (Z.ltb_spec (o + 1) (o + Z.of_nat (length ys))); [|lia]. cbn [Z.ltb Z.compare]. eexists. split; reflexivity.
    - destruct HA as [Hy HL]. pose proof (number_range y qid Hy M) as NR.
      destruct (SECOND y qid (num_corners d - 1 - c) Hy M HL) as (q & i & Fd & E).
      destruct (Z.leb_spec 0 qid); [|lia]. destruct (Z.leb_spec (total w p + Z.of_nat (length (layer w p))) qid); [lia|].
      rewrite opposite by exact Hc. unfold bind at 1. rewrite E. eexists. split; [reflexivity|]. exists q, i. split; [exact Fd|reflexivity].
    - destruct HA as (Hy & Hrc & HL). destruct M as (id & o & qq & -> & Hid & O1 & O2 & O3 & M & O4).
      destruct (SECOND y qq rc Hy M HL) as (q & i & Fd & E).
      destruct (Z.leb_spec 0 (total w p + Z.of_nat (length (layer w p)) + id)); [|lia].
      destruct (Z.leb_spec (total w p + Z.of_nat (length (layer w p))) (total w p + Z.of_nat (length (layer w p)) + id)); [|lia].
      replace (total w p + Z.of_nat (length (layer w p)) + id - (total w p + Z.of_nat (length (layer w p)))) with id by lia.
      rewrite check_true by (b_true; lia). rewrite O1, O2. unfold bind at 2 3.
      destruct (Z.ltb_spec (o + 1) (o + 1)); [lia|]. rewrite check_true by (b_true; lia). rewrite O3, O4. unfold bind at 2 3.
      rewrite check_true by (b_true; lia). unfold bind at 1. rewrite E. eexists. split; [reflexivity|]. exists q, i. split; [exact Fd|reflexivity].
  Qed.
End World.
