(** Vectors over the data of the patches. *)
From Coq Require Import ZArith QArith List Lia Bool.
From Verif Require Import Base_Float Model_Face Model_Grid Spec_Grid Proof_Tag Model_Elliptic Spec_Elliptic.
Import ListNotations.
Open Scope Z_scope.

Lemma loop_from : forall (S : Type) lo hi (f : Z -> S -> option S) (P : Z -> S -> Prop) s, lo <= hi + 1 -> P lo s ->
  (forall k s, lo <= k <= hi -> P k s -> exists s', f k s = Some s' /\ P (k + 1) s') ->
  exists s', loop lo hi f s = Some s' /\ P (hi + 1) s'.
Proof. intros S lo hi f P s H1 H2 H3. now apply (Proof_Tag.loop_ok S lo hi f P). Qed.

Section V.
  Variable d : dims.
  Hypothesis Hx : 1 <= mx d.
  Hypothesis Hy : 1 <= my d.
  Hypothesis Hb : 0 <= mbc d.
  Hypothesis Hm : 0 <= meqn d.
  Let nx := mx d + 2 * mbc d.
  Let ny := my d + 2 * mbc d.

  (** one patch *)
  Section Store.
    Variable vec : Z -> Z -> Z -> Q.
    Variable M0 : Z -> Q.
    Definition decoded (a : Z) : Q := vec (a mod nx - mbc d) ((a / nx) mod ny - mbc d) (a / nx / ny).
    Definition upto (n : Z) (s : (Z -> Q) * Z) : Prop :=
      snd s = n /\ forall a, fst s a = if (0 <=? a) && (a <? n) then decoded a else M0 a.

    Lemma decoded_at : forall i j m, with_ghosts d i j m -> decoded (double_at d i j m) = vec i j m.
    Proof.
      intros i j m (Hi & Hj & Hm'). unfold decoded, double_at. fold nx ny.
      rewrite Z.div_add_l by (unfold nx; lia). rewrite (Z.div_small (i + mbc d) nx) by (unfold nx; lia). rewrite Z.add_0_r.
      rewrite (Z.add_comm _ (i + mbc d)), Z.mod_add by (unfold nx; lia). rewrite (Z.mod_small (i + mbc d) nx) by (unfold nx; lia).
      rewrite Z.div_add_l by (unfold ny; lia). rewrite (Z.div_small (j + mbc d) ny) by (unfold ny; lia). rewrite Z.add_0_r.
      rewrite (Z.add_comm _ (j + mbc d)), Z.mod_add by (unfold ny; lia). rewrite (Z.mod_small (j + mbc d) ny) by (unfold ny; lia).
      f_equal; lia.
    Qed.

    Lemma store_ok : exists M, store_patch d vec M0 = Some M /\
      forall a, M a = if (0 <=? a) && (a <? patch_doubles d) then decoded a else M0 a.
    Proof.
      unfold store_patch.
      destruct (loop_from ((Z -> Q) * Z) 0 (meqn d - 1)
        (fun eqn => loop (- mbc d) (my d + mbc d - 1) (fun j => loop (- mbc d) (mx d + mbc d - 1) (fun i '(M, data) =>
              Some ((fun a => if a =? data then vec i j eqn else M a), data + 1))))
        (fun m => upto (m * ny * nx)) (M0, 0)) as ([M n] & E & (_ & I)).
      - lia.
      - split; [reflexivity|]. intros a. cbn [fst]. destruct (Z.leb_spec 0 a), (Z.ltb_spec a (0 * ny * nx)); try reflexivity. lia.
      - intros m s Rm Is.
        destruct (loop_from ((Z -> Q) * Z) (- mbc d) (my d + mbc d - 1)
          (fun j => loop (- mbc d) (mx d + mbc d - 1) (fun i '(M, data) => Some ((fun a => if a =? data then vec i j m else M a), data + 1)))
          (fun j => upto ((m * ny + (j + mbc d)) * nx)) s) as (s' & E' & I').
        + lia.
        + replace ((m * ny + (- mbc d + mbc d)) * nx) with (m * ny * nx) by lia. exact Is.
        + clear s Is. intros j s Rj Is.
          destruct (loop_from ((Z -> Q) * Z) (- mbc d) (mx d + mbc d - 1)
            (fun i '(M, data) => Some ((fun a => if a =? data then vec i j m else M a), data + 1))
            (fun i => upto ((m * ny + (j + mbc d)) * nx + (i + mbc d))) s) as (s' & E' & I').
          * lia.
          * replace ((m * ny + (j + mbc d)) * nx + (- mbc d + mbc d)) with ((m * ny + (j + mbc d)) * nx) by lia. exact Is.
          * clear s Is. intros i [M data] Ri (S1 & S2). cbn [fst snd] in *. eexists. split; [reflexivity|]. split; cbn [fst snd]; [lia|].
            intros a. destruct (Z.eqb_spec a data) as [->|].
            -- assert (G : with_ghosts d i j m) by (unfold with_ghosts; lia).
               replace (0 <=? data) with true by (symmetry; apply Z.leb_le; unfold nx, ny in *; nia).
               replace (data <? (m * ny + (j + mbc d)) * nx + (i + 1 + mbc d)) with true by (symmetry; apply Z.ltb_lt; lia). cbn [andb].
               rewrite <- (decoded_at i j m G). rewrite S1. reflexivity.
            -- rewrite S2. destruct (0 <=? a); [|reflexivity]. cbn [andb].
               destruct (Z.ltb_spec a ((m * ny + (j + mbc d)) * nx + (i + mbc d))), (Z.ltb_spec a ((m * ny + (j + mbc d)) * nx + (i + 1 + mbc d))); try reflexivity; lia.
          * exists s'. split; [exact E'|]. replace ((m * ny + (j + 1 + mbc d)) * nx) with ((m * ny + (j + mbc d)) * nx + (mx d + mbc d - 1 + 1 + mbc d)); [exact I'|].
            unfold nx. ring.
        + exists s'. split; [exact E'|]. replace ((m + 1) * ny * nx) with ((m * ny + (my d + mbc d - 1 + 1 + mbc d)) * nx); [exact I'|].
          unfold nx, ny. ring.
      - rewrite E. cbn [bind]. exists M. split; [reflexivity|]. intros a. cbn [fst] in I. rewrite (I a). unfold patch_doubles. fold nx ny.
        replace ((meqn d - 1 + 1) * ny * nx) with (meqn d * (ny * nx)) by ring. reflexivity.
    Qed.
  End Store.

  Lemma double_range : forall i j m, with_ghosts d i j m -> 0 <= double_at d i j m < patch_doubles d.
  Proof.
    intros i j m (Hi & Hj & Hm'). unfold double_at, patch_doubles. fold nx ny.
    assert (0 <= m * ny + (j + mbc d) <= meqn d * ny - 1) by (unfold ny; nia).
    assert (0 < nx) by (unfold nx; lia). assert (0 <= i + mbc d < nx) by (unfold nx; lia). nia.
  Qed.

  Variable num_blocks : Z.
  Variable block : Z -> vblock.
  Hypothesis Hn : 0 <= num_blocks.
  Hypothesis HN : numbered num_blocks (fun b => before (block b)) (fun b => patches_in (block b)).

  Definition in_domain (b q : Z) : Prop := 0 <= b < num_blocks /\ 0 <= q < patches_in (block b).

  Lemma before_mono : forall b k, 0 <= b -> (b + Z.of_nat k <= num_blocks) -> before (block b) <= before (block (b + Z.of_nat k)).
  Proof.
    intros b k H0. induction k as [|k IH]; intros H; [rewrite Z.add_0_r; lia|].
    rewrite Nat2Z.inj_succ in *. destruct HN as (_ & N). destruct (N (b + Z.of_nat k) ltac:(lia)) as (C & E).
    replace (b + Z.succ (Z.of_nat k)) with (b + Z.of_nat k + 1) by lia. specialize (IH ltac:(lia)). cbn beta in E. lia.
  Qed.
  Lemma before_le : forall b b', 0 <= b <= b' -> b' <= num_blocks -> before (block b) <= before (block b').
  Proof. intros b b' H1 H2. pose proof (before_mono b (Z.to_nat (b' - b)) ltac:(lia)) as X. rewrite Z2Nat.id in X by lia. replace (b + (b' - b)) with b' in X by lia. apply X. lia. Qed.
  Lemma same_number : forall b q b' q', in_domain b q -> in_domain b' q' -> before (block b) + q = before (block b') + q' -> b = b' /\ q = q'.
  Proof.
    intros b q b' q' (B1 & Q1) (B2 & Q2) E. destruct HN as (_ & N).
    destruct (Z.lt_trichotomy b b') as [L|[->|L]].
    - destruct (N b ltac:(lia)) as (_ & E'). cbn beta in E'. pose proof (before_le (b + 1) b' ltac:(lia) ltac:(lia)). lia.
    - lia.
    - destruct (N b' ltac:(lia)) as (_ & E'). cbn beta in E'. pose proof (before_le (b' + 1) b ltac:(lia) ltac:(lia)). lia.
  Qed.
  Lemma number_range : forall b q, in_domain b q -> 0 <= before (block b) + q < before (block num_blocks).
  Proof.
    intros b q (B1 & Q1). destruct HN as (N0 & N). cbn beta in N0. destruct (N b ltac:(lia)) as (_ & E). cbn beta in E.
    pose proof (before_le 0 b ltac:(lia) ltac:(lia)). pose proof (before_le (b + 1) num_blocks ltac:(lia) ltac:(lia)). lia.
  Qed.

  Lemma starts_ok : exists v, get_vector d num_blocks block = Some v /\ strides v = (1, nx, nx * ny) /\ v_mbc v = mbc d /\
    (forall b q, in_domain b q -> starts v (before (block b) + q) = Some (b, q)) /\
    (forall k, k < 0 \/ before (block num_blocks) <= k -> starts v k = None).
  Proof.
    unfold get_vector.
    destruct (Z_le_gt_dec num_blocks 0) as [Z0|Z0].
    { replace (num_blocks - 1) with (-1) by lia. eexists.
      split; [reflexivity|]. cbn [strides v_mbc starts]. split; [fold nx ny; f_equal; f_equal; lia|]. split; [reflexivity|]. split; [|reflexivity].
      intros b q (B & _). lia. }
    destruct (loop_from (Z -> option (Z * Z)) 0 (num_blocks - 1)
      (fun b => loop 0 (patches_in (block b) - 1) (fun p st => Some (fun k => if k =? before (block b) + p then Some (b, p) else st k)))
      (fun n st => (forall b q, in_domain b q -> b < n -> st (before (block b) + q) = Some (b, q)) /\
         (forall k, k < 0 \/ before (block num_blocks) <= k -> st k = None)) (fun _ => None)) as (st & E & I1 & I2).
    - lia.
    - split; [|reflexivity]. intros b q (B & _) L. lia.
    - intros b st Rb (S1 & S2).
      destruct (loop_from (Z -> option (Z * Z)) 0 (patches_in (block b) - 1)
        (fun p st => Some (fun k => if k =? before (block b) + p then Some (b, p) else st k))
        (fun n st => (forall b' q, in_domain b' q -> b' < b \/ (b' = b /\ q < n) -> st (before (block b') + q) = Some (b', q)) /\
           (forall k, k < 0 \/ before (block num_blocks) <= k -> st k = None)) st) as (st' & E' & T1 & T2).
      + destruct HN as (_ & N). destruct (N b ltac:(lia)) as (C & _). cbn beta in C. lia.
      + split; [|exact S2]. intros b' q D [L|[_ L]]; [now apply S1|]. destruct D. lia.
      + intros q s Rq (U1 & U2). eexists. split; [reflexivity|].
        assert (Dq : in_domain b q) by (split; lia). split.
        * intros b' q' D L. destruct (Z.eqb_spec (before (block b') + q') (before (block b) + q)) as [e|n].
          -- destruct (same_number b' q' b q D Dq e) as (-> & ->). reflexivity.
          -- apply U1; [exact D|]. destruct L as [L|[-> L]]; [now left|]. right. split; [reflexivity|]. lia.
        * intros k Hk. destruct (Z.eqb_spec k (before (block b) + q)); [|now apply U2]. pose proof (number_range b q Dq). lia.
      + exists st'. split; [exact E'|]. split; [|exact T2]. intros b' q D L. apply T1; [exact D|].
        destruct (Z.eq_dec b' b) as [->|]; [right; split; [reflexivity|]; destruct D; lia|left; lia].
    - rewrite E. cbn [bind]. eexists. split; [reflexivity|]. cbn [strides v_mbc starts].
      split; [fold nx ny; f_equal; [f_equal|]; lia|]. split; [reflexivity|]. split; [|exact I2]. intros b q D. apply I1; [exact D|]. destruct D. lia.
  Qed.

  Lemma view_double : forall v i j m, strides v = (1, nx, nx * ny) -> v_mbc v = mbc d -> view_addr v i j m = double_at d i j m.
  Proof. intros v i j m S B. unfold view_addr, double_at. rewrite S, B. fold nx ny. ring. Qed.

  Theorem get_ok : exists v, get_vector d num_blocks block = Some v /\
    (forall M b q i j m, in_domain b q -> view M v (before (block b) + q) i j m = Some (M b q (double_at d i j m))) /\
    (forall M k i j m, k < 0 \/ before (block num_blocks) <= k -> view M v k i j m = None).
  Proof.
    destruct starts_ok as (v & E & S & B & D & N). exists v. split; [exact E|]. split.
    - intros M b q i j m Dm. unfold view. rewrite (D b q Dm). cbn [option_map]. rewrite view_double by assumption. reflexivity.
    - intros M k i j m Hk. unfold view. rewrite (N k Hk). reflexivity.
  Qed.

  Theorem store_vector_ok : forall vec M, exists M', store_vector d num_blocks block vec M = Some M' /\
    (forall b q i j m, in_domain b q -> with_ghosts d i j m -> M' b q (double_at d i j m) = vec (before (block b) + q) i j m) /\
    (forall b q a, ~ in_domain b q \/ ~ (0 <= a < patch_doubles d) -> M' b q a = M b q a).
  Proof.
    intros vec M. unfold store_vector.
    set (NEW := fun b q a => if (0 <=? a) && (a <? patch_doubles d) then decoded (vec (before (block b) + q)) a else M b q a).
    assert (K : exists M', loop 0 (num_blocks - 1) (fun b => loop 0 (patches_in (block b) - 1) (fun p M =>
      bind (store_patch d (vec (before (block b) + p)) (M b p)) (fun X =>
      Some (fun b' p' => if (b' =? b) && (p' =? p) then X else M b' p')))) M = Some M' /\
      forall b q a, (in_domain b q -> M' b q a = NEW b q a) /\ (~ in_domain b q -> M' b q a = M b q a)).
    { destruct (Z_le_gt_dec num_blocks 0) as [Z0|Z0].
      { replace (num_blocks - 1) with (-1) by lia. exists M. split; [reflexivity|]. intros b q a. split; [intros (B & _); lia|reflexivity]. }
      set (done := fun (n r : Z) b q => in_domain b q /\ (b < n \/ (b = n /\ q < r))).
      set (INV := fun n r (X : pmem) => forall b q a, (done n r b q -> X b q a = NEW b q a) /\ (~ done n r b q -> X b q a = M b q a)).
      destruct (loop_from pmem 0 (num_blocks - 1)
        (fun b => loop 0 (patches_in (block b) - 1) (fun p M => bind (store_patch d (vec (before (block b) + p)) (M b p)) (fun X =>
           Some (fun b' p' => if (b' =? b) && (p' =? p) then X else M b' p')))) (fun n => INV n 0) M) as (M' & E & I).
      - lia.
      - intros b q a. split; [|reflexivity]. intros (D & L). destruct D. lia.
      - intros b X Rb IX.
        destruct (loop_from pmem 0 (patches_in (block b) - 1)
          (fun p M => bind (store_patch d (vec (before (block b) + p)) (M b p)) (fun X =>
             Some (fun b' p' => if (b' =? b) && (p' =? p) then X else M b' p'))) (fun r => INV b r) X) as (X' & E' & I').
        + destruct HN as (_ & N). destruct (N b ltac:(lia)) as (C & _). cbn beta in C. lia.
        + exact IX.
        + clear X IX. intros q X Rq IX. destruct (store_ok (vec (before (block b) + q)) (X b q)) as (Y & EY & VY). rewrite EY. cbn [bind].
          eexists. split; [reflexivity|]. assert (Dq : in_domain b q) by (split; lia).
          intros b' q' a. destruct (Z.eqb_spec b' b) as [->|nb]; [destruct (Z.eqb_spec q' q) as [->|nq]|]; cbn [andb].
          * split; [|intros ND; exfalso; apply ND; split; [exact Dq|right; lia]]. intros _. rewrite VY. unfold NEW.
            destruct ((0 <=? a) && (a <? patch_doubles d)); [reflexivity|]. apply IX. intros (_ & [L|[_ L]]); lia.
          * destruct (IX b q' a) as (A1 & A2). split.
            -- intros (D & L). apply A1. split; [exact D|]. lia.
            -- intros ND. apply A2. intros (D & L). apply ND. split; [exact D|]. lia.
          * destruct (IX b' q' a) as (A1 & A2). split.
            -- intros (D & L). apply A1. split; [exact D|]. lia.
            -- intros ND. apply A2. intros (D & L). apply ND. split; [exact D|]. lia.
        + exists X'. split; [exact E'|]. intros b' q' a. destruct (I' b' q' a) as (A1 & A2). split.
          * intros (D & L). apply A1. split; [exact D|]. destruct D as (D1 & D2). destruct (Z.eq_dec b' b) as [->|]; lia.
          * intros ND. apply A2. intros (D & L). apply ND. split; [exact D|]. lia.
      - exists M'. split; [exact E|]. intros b q a. destruct (I b q a) as (A1 & A2). split.
        + intros D. apply A1. split; [exact D|]. destruct D. lia.
        + intros ND. apply A2. intros (D & _). contradiction. }
    destruct K as (M' & E & I). exists M'. split; [exact E|]. split.
    - intros b q i j m D G. rewrite (proj1 (I b q _) D). unfold NEW. pose proof (double_range i j m G) as Rg.
      replace (0 <=? double_at d i j m) with true by (symmetry; apply Z.leb_le; lia).
      replace (double_at d i j m <? patch_doubles d) with true by (symmetry; apply Z.ltb_lt; lia). cbn [andb]. now apply decoded_at.
    - intros b q a H. destruct (I b q a) as (A1 & A2).
      assert (DD : {in_domain b q} + {~ in_domain b q}).
      { unfold in_domain. destruct (Z_le_gt_dec 0 b), (Z_lt_ge_dec b num_blocks), (Z_le_gt_dec 0 q), (Z_lt_ge_dec q (patches_in (block b))); (left; lia) || (right; lia). }
      destruct DD as [D|D]; [|now apply A2]. rewrite A1 by exact D. unfold NEW.
      destruct (Z.leb_spec 0 a), (Z.ltb_spec a (patch_doubles d)); cbn [andb]; try reflexivity. exfalso. destruct H as [H|H]; [contradiction|lia].
  Qed.

  Lemma every_double : forall a, 0 <= a < patch_doubles d -> exists i j m, with_ghosts d i j m /\ double_at d i j m = a.
  Proof.
    intros a Ha. unfold patch_doubles in Ha. fold nx ny in Ha. assert (Px : 0 < nx) by (unfold nx; lia). assert (Py : 0 < ny) by (unfold ny; lia).
    exists (a mod nx - mbc d), ((a / nx) mod ny - mbc d), (a / nx / ny).
    pose proof (Z.mod_pos_bound a nx Px). pose proof (Z.mod_pos_bound (a / nx) ny Py). pose proof (Z.div_mod a nx ltac:(lia)) as E1. pose proof (Z.div_mod (a / nx) ny ltac:(lia)) as E2.
    assert (0 <= a / nx) by (apply Z.div_pos; lia). assert (0 <= a / nx / ny) by (apply Z.div_pos; lia).
    assert (a / nx < meqn d * ny) by (apply Z.div_lt_upper_bound; lia). assert (a / nx / ny < meqn d) by (apply Z.div_lt_upper_bound; lia).
    split; [unfold with_ghosts, nx, ny in *; lia|]. unfold double_at. fold nx ny.
    replace (a / nx / ny * ny + ((a / nx) mod ny - mbc d + mbc d)) with (a / nx) by lia. lia.
  Qed.
End V.
