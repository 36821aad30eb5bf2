(** Interpolation to the ghost cells beyond a face. *)
From Coq Require Import ZArith QArith Qminmax Qabs List Lia Lqa Bool Qfield Permutation.
From Verif Require Import Base_Float Model_Face Spec_Face Proof_Face Proof_Face1 Proof_Face2 Proof_Face3
  Proof_Face4 Proof_Face5 Model_Grid Spec_Grid Proof_Grid Proof_Grid2 Proof_Grid3 Proof_Grid4 Proof_Grid5
  Model_Corner Spec_Corner.
Import ListNotations.
Open Scope Z_scope.

(* ------------------------------------------------------------- the limiter *)

Lemma slopes_mc : forall a b, (compute_slopes a b == mc a b)%Q.
Proof.
  intros a b. unfold mc.
  destruct (slopes_cases a b) as [[H E]|[(P1 & P2 & P3 & P4 & P5 & P6 & P7)|(P1 & P2 & P3 & P4 & P5 & P6 & P7)]].
  - rewrite (proj2 (Qle_bool_iff _ _) H). exact E.
  - assert (N : Qle_bool (a * b) 0 = false).
    { destruct (Qle_bool (a * b) 0) eqn:E; [|reflexivity]. apply Qle_bool_iff in E. nra. }
    rewrite N. rewrite (proj2 (Qle_bool_iff 0 a)) by lra.
    destruct (qmin_cases (2 * a) (2 * b)) as [[M1 L1]|[M1 L1]];
    destruct (qmin_cases (Qmin (2 * a) (2 * b)) ((a + b) / 2)) as [[M2 L2]|[M2 L2]];
      rewrite M2; rewrite ?M1 in *; destruct P7 as [P7|[P7|P7]]; try lra.
  - assert (N : Qle_bool (a * b) 0 = false).
    { destruct (Qle_bool (a * b) 0) eqn:E; [|reflexivity]. apply Qle_bool_iff in E. nra. }
    assert (N2 : Qle_bool 0 a = false).
    { destruct (Qle_bool 0 a) eqn:E; [|reflexivity]. apply Qle_bool_iff in E. lra. }
    rewrite N, N2.
    assert (MX : forall x y, (Qmax x y == x /\ y <= x)%Q \/ (Qmax x y == y /\ x <= y)%Q).
    { intros x y. destruct (Qlt_le_dec x y) as [H|H].
      - right. split; [apply Q.max_r|]; now apply Qlt_le_weak.
      - left. split; [now apply Q.max_l|assumption]. }
    destruct (MX (2 * a) (2 * b))%Q as [[M1 L1]|[M1 L1]];
    destruct (MX (Qmax (2 * a) (2 * b)) ((a + b) / 2))%Q as [[M2 L2]|[M2 L2]];
      rewrite M2; rewrite ?M1 in *; destruct P7 as [P7|[P7|P7]]; try lra.
Qed.

Lemma mc_proper : forall a b a' b', (a == a')%Q -> (b == b')%Q -> (mc a b == mc a' b')%Q.
Proof. intros a b a' b' Ha Hb. rewrite <- !slopes_mc. now apply slopes_proper. Qed.

(* -------------------------------------------------- the inverse of [fimage] *)

Definition idepth (nf m : Z) (p : Z * Z) : Z :=
  match nf with 0 => fst p | 1 => m + 1 - fst p | 2 => snd p | _ => m + 1 - snd p end.
Lemma idepth_inner : forall nf m dd tt, 0 <= nf < 4 ->
  idepth nf m (inner_cell nf m dd tt) = dd /\ posn nf (inner_cell nf m dd tt) = tt.
Proof. intros nf m dd tt H. face4 nf H; cbn [idepth posn inner_cell fst snd]; lia. Qed.
Lemma inner_idepth : forall nf m p, 0 <= nf < 4 -> inner_cell nf m (idepth nf m p) (posn nf p) = p.
Proof. intros nf m [i j] H. face4 nf H; cbn [idepth posn inner_cell fst snd]; f_equal; lia. Qed.

Lemma flip_flip : forall o m t, flip o m (flip o m t) = t.
Proof. intros o m t. unfold flip. destruct o; lia. Qed.

Definition co_depth (nf m : Z) (c : Z * Z) : Z := (1 - idepth nf m c + 1) / 2.
Definition co_place (nf : Z) (o : bool) (pos m : Z) (c : Z * Z) : Z := (flip o m (posn nf c) + pos * m + 1) / 2.
Definition co_n (f nf m : Z) (c : Z * Z) : Z :=
  let e := 1 - idepth nf m c in
  let k := co_depth nf m c in if Z.odd f then 2 * k - e else e - 2 * k + 1.
Definition co_t (nf : Z) (o : bool) (pos m : Z) (c : Z * Z) : Z :=
  flip o m (posn nf c) + pos * m + 1 - 2 * co_place nf o pos m c.
Definition co_cell (f nf : Z) (o : bool) (pos m : Z) (c : Z * Z) : Z * Z :=
  inner_cell f m (co_depth nf m c) (co_place nf o pos m c).
Definition co_sx (f nf : Z) (o : bool) (pos m : Z) (c : Z * Z) : Z :=
  if f / 2 =? 0 then co_n f nf m c else co_t nf o pos m c.
Definition co_sy (f nf : Z) (o : bool) (pos m : Z) (c : Z * Z) : Z :=
  if f / 2 =? 0 then co_t nf o pos m c else co_n f nf m c.

Lemma depth_inner : forall f m k t, 0 <= f < 4 -> depth f m (inner_cell f m k t) = 1 - k /\ posn f (inner_cell f m k t) = t.
Proof. intros f m k t H. face4 f H; cbn [depth posn inner_cell fst snd]; lia. Qed.

Lemma co_inv : forall f nf o pos m p sx sy, 0 <= f < 4 -> 0 <= nf < 4 -> 0 <= sx <= 1 -> 0 <= sy <= 1 ->
  let c := fimage f nf o pos m p sx sy in
  co_cell f nf o pos m c = p /\ co_sx f nf o pos m c = sx /\ co_sy f nf o pos m c = sy.
Proof.
  intros f nf o pos m p sx sy Hf Hn Hx Hy c.
  set (s := nchild f sx sy). set (b := tchild f sx sy).
  assert (Hs : 0 <= s <= 1 /\ 0 <= b <= 1).
  { unfold s, b. clear - Hf Hx Hy. face4 f Hf; cbn [nchild tchild]; lia. }
  destruct (idepth_inner nf m (fdepth f (depth f m p) s) (flip o m (2 * posn f p - 1 + b - pos * m)) Hn) as [E1 E2].
  change (inner_cell nf m (fdepth f (depth f m p) s) (flip o m (2 * posn f p - 1 + b - pos * m))) with c in E1, E2.
  assert (D : co_depth nf m c = 1 - depth f m p).
  { unfold co_depth. rewrite E1. unfold fdepth. destruct (Z.odd f).
    - replace (1 - (2 * depth f m p - 1 + s) + 1) with (1 - s + (1 - depth f m p) * 2) by lia.
      rewrite Z.div_add, Z.div_small; lia.
    - replace (1 - (2 * depth f m p - s) + 1) with (s + (1 - depth f m p) * 2) by lia.
      rewrite Z.div_add, Z.div_small; lia. }
  assert (P : co_place nf o pos m c = posn f p).
  { unfold co_place. rewrite E2, flip_flip.
    replace (2 * posn f p - 1 + b - pos * m + pos * m + 1) with (b + posn f p * 2) by lia.
    rewrite Z.div_add, Z.div_small; lia. }
  assert (N : co_n f nf m c = s).
  { unfold co_n. rewrite D, E1. unfold fdepth. destruct (Z.odd f); lia. }
  assert (T : co_t nf o pos m c = b).
  { unfold co_t. rewrite P, E2, flip_flip. lia. }
  split; [|split].
  - unfold co_cell. rewrite D, P. replace (1 - depth f m p) with (idepth f m p).
    + now apply inner_idepth.
    + clear - Hf. face4 f Hf; cbn [idepth depth]; lia.
  - unfold co_sx. rewrite N, T. unfold s, b. clear - Hf. face4 f Hf; reflexivity.
  - unfold co_sy. rewrite N, T. unfold s, b. clear - Hf. face4 f Hf; reflexivity.
Qed.

(* ------------------------------------------------------------ interpolation *)

Section Interp.
  Variable rnd : Q -> Q.
  Hypothesis Hrnd : rounding rnd.
  Variable d : dims.
  Variable m : Z.
  Variable f nf : Z.
  Variable o : bool.
  Variable pos : Z.
  Variable qcoarse : arr.
  Variable F : data.
  Hypothesis Hsz : mx d = m /\ my d = m.
  Hypothesis Hf : 0 <= f < 4.
  Hypothesis Hn : 0 <= nf < 4.
  Hypothesis Hpos : -1 <= pos <= 2.
  Hypothesis Hm : 1 <= m < 2 ^ 28.
  Hypothesis Hb : 2 <= mbc d.
  Hypothesis HF : holds_layer d qcoarse F.

  (** what the routine computes for the quarter (sx, sy) of coarse cell p *)
  Definition qval (p : Z * Z) (mq sx sy : Z) : Q :=
    let '(i, j) := p in
    (F i j mq + compute_slopes (F i j mq - F (i - 1)%Z j mq) (F (i + 1)%Z j mq - F i j mq) * shiftx (2 * sy + sx)
     + compute_slopes (F i j mq - F i (j - 1)%Z mq) (F i (j + 1)%Z mq - F i j mq) * shifty (2 * sy + sx))%Q.
  Definition fim (p : Z * Z) (sx sy : Z) : Z * Z := fimage f nf o pos m p sx sy.
  Definition interp_target : arr := fun c => let '(i, j, mq) := c in
    Some (qval (co_cell f nf o pos m (i, j)) mq (co_sx f nf o pos m (i, j)) (co_sy f nf o pos m (i, j))).

  Lemma target_at : forall p mq sx sy, 0 <= sx <= 1 -> 0 <= sy <= 1 ->
    interp_target (fst (fim p sx sy), snd (fim p sx sy), mq) = Some (qval p mq sx sy).
  Proof.
    intros p mq sx sy Hx Hy. unfold interp_target. rewrite <- surjective_pairing. unfold fim.
    destruct (co_inv f nf o pos m p sx sy Hf Hn Hx Hy) as (E1 & E2 & E3). now rewrite E1, E2, E3.
  Qed.

  (** the affine part of the transformation *)
  Definition linear_part (A : Z * Z * Z * Z * Z * Z) : Prop :=
    forall p sx sy, 0 <= sx <= 1 -> 0 <= sy <= 1 ->
      fim p sx sy = (fst (fim p 0 0) + fst (df A 2 (2 * sy + sx)), snd (fim p 0 0) + snd (df A 2 (2 * sy + sx))).

  Definition e_n : Z := (if Z.odd nf then -1 else 1) * (if Z.odd f then 1 else -1).
  Definition e_t : Z := if o then -1 else 1.
  Definition e11 : Z := if nf / 2 =? 0 then (if f / 2 =? 0 then e_n else 0) else (if f / 2 =? 0 then 0 else e_t).
  Definition e12 : Z := if nf / 2 =? 0 then (if f / 2 =? 0 then 0 else e_n) else (if f / 2 =? 0 then e_t else 0).
  Definition e21 : Z := if nf / 2 =? 0 then (if f / 2 =? 0 then 0 else e_t) else (if f / 2 =? 0 then e_n else 0).
  Definition e22 : Z := if nf / 2 =? 0 then (if f / 2 =? 0 then e_t else 0) else (if f / 2 =? 0 then 0 else e_n).

  Lemma fim_affine : forall i j sx sy, 0 <= sx <= 1 -> 0 <= sy <= 1 ->
    fim (i, j) sx sy = (fst (fim (0, 0) 0 0) + e11 * (2 * i + sx) + e12 * (2 * j + sy),
                        snd (fim (0, 0) 0 0) + e21 * (2 * i + sx) + e22 * (2 * j + sy)).
  Proof.
    intros i j sx sy Hx Hy. unfold fim, fimage, e11, e12, e21, e22, e_n, e_t.
    generalize (pos * m). intros pm. clear - Hf Hn Hx Hy.
    destruct o; face4 f Hf; face4 nf Hn; cbn [depth posn nchild tchild fst snd flip inner_cell]; unfold fdepth; cbn [Z.odd];
      change (0 / 2 =? 0) with true; change (1 / 2 =? 0) with true; change (2 / 2 =? 0) with false;
      change (3 / 2 =? 0) with false; cbv iota; cbn [fst snd]; f_equal; lia.
  Qed.

  Lemma linear_of_images : forall f1 f2,
    let a := fim (0, 0) 0 0 in let b := fim (1, 0) 0 0 in let c := fim (0, 1) 0 0 in
    linear_part (fst b - fst a, fst c - fst a, snd b - snd a, snd c - snd a, f1, f2).
  Proof.
    intros f1 f2 a b c [i j] sx sy Hx Hy.
    unfold a, b, c. rewrite (fim_affine 1 0 0 0), (fim_affine 0 1 0 0), (fim_affine i j 0 0), (fim_affine i j sx sy) by lia.
    cbn [fst snd]. generalize (fst (fim (0, 0) 0 0)) (snd (fim (0, 0) 0 0)) e11 e12 e21 e22. clear - Hx Hy.
    intros x y a11 a12 a21 a22. unfold df.
    assert (R : Z.rem (2 * sy + sx) 2 = sx /\ Z.quot (2 * sy + sx) 2 = sy).
    { assert (Ex : sx = 0 \/ sx = 1) by lia. assert (Ey : sy = 0 \/ sy = 1) by lia.
      destruct Ex as [->| ->], Ey as [->| ->]; split; reflexivity. }
    destruct R as [-> ->]. cbn [fst snd].
    replace ((x + a11 * (2 * 1 + 0) + a12 * (2 * 0 + 0) - x) * sx + (x + a11 * (2 * 0 + 0) + a12 * (2 * 1 + 0) - x) * sy)
      with ((a11 * sx + a12 * sy) * 2) by ring.
    replace ((y + a21 * (2 * 1 + 0) + a22 * (2 * 0 + 0) - y) * sx + (y + a21 * (2 * 0 + 0) + a22 * (2 * 1 + 0) - y) * sy)
      with ((a21 * sx + a22 * sy) * 2) by ring.
    rewrite !Z.quot_mul by lia. f_equal; ring.
  Qed.

  (** the four fine cells of coarse cell p *)
  Definition quarters (p : Z * Z) (mq : Z) (c : cell) : Prop :=
    exists sx sy, 0 <= sx <= 1 /\ 0 <= sy <= 1 /\ c = (fst (fim p sx sy), snd (fim p sx sy), mq).

  Lemma loop03 : forall {X} (g : Z -> X -> option X) s,
    loop 0 3 g s = bind (g 0 s) (fun s => bind (g 1 s) (fun s => bind (g 2 s) (g 3))).
  Proof.
    intros X g s. unfold loop. change (Z.to_nat (3 - 0 + 1)) with 4%nat. cbn [loop_n].
    destruct (g 0 s) as [s1|]; [|reflexivity]. cbn [bind]. change (0 + 1) with 1.
    destruct (g 1 s1) as [s2|]; [|reflexivity]. cbn [bind]. change (1 + 1) with 2.
    destruct (g 2 s2) as [s3|]; [|reflexivity]. cbn [bind]. change (2 + 1) with 3.
    now destruct (g 3 s3).
  Qed.

  Lemma interp_four_ok : forall A i j mq s0, linear_part A -> 1 <= mq <= meqn d ->
    1 <= i <= m -> 1 <= j <= m ->
    (forall sx sy, 0 <= sx <= 1 -> 0 <= sy <= 1 ->
       in_q d (fst (fim (i, j) sx sy), snd (fim (i, j) sx sy), mq) = true) ->
    writes none s0 (interp_four d qcoarse A 2 (fim (i, j) 0 0) i j mq) (quarters (i, j) mq) interp_target.
  Proof.
    intros A i j mq s0 HA Hq Hi Hj Hin. destruct Hsz as [Hx Hy].
    unfold interp_four.
    assert (RD : forall i' j', (0 <= i' <= m + 1 /\ 1 <= j' <= m) \/ (1 <= i' <= m /\ 0 <= j' <= m + 1) ->
      rd d qcoarse (i', j', mq) = Some (F i' j' mq)).
    { intros i' j' H. apply rd_some; [apply in_q_iff; lia|]. apply HF; [exact Hq|]. rewrite Hx, Hy. exact H. }
    rewrite (RD i j), (RD (i - 1) j), (RD (i + 1) j), (RD i (j - 1)), (RD i (j + 1)) by lia. cbn [bind].
    set (g := fun k q => _).
    assert (G : forall sx sy, 0 <= sx <= 1 -> 0 <= sy <= 1 ->
      writes none s0 (g (2 * sy + sx)) (fun c => c = (fst (fim (i, j) sx sy), snd (fim (i, j) sx sy), mq)) interp_target).
    { intros sx sy Hsx Hsy. unfold g.
      assert (E := HA (i, j) sx sy Hsx Hsy).
      assert (E1 := f_equal fst E). assert (E2 := f_equal snd E). cbn [fst snd] in E1, E2. rewrite <- E1, <- E2.
      apply writes_cell; [now apply Hin|]. rewrite target_at by assumption. reflexivity. }
    assert (SEQ : writes none s0 (fun s => bind (g 0 s) (fun s => bind (g 1 s) (fun s => bind (g 2 s) (g 3))))
      (fun c => c = (fst (fim (i, j) 0 0), snd (fim (i, j) 0 0), mq) \/ (c = (fst (fim (i, j) 1 0), snd (fim (i, j) 1 0), mq) \/
        (c = (fst (fim (i, j) 0 1), snd (fim (i, j) 0 1), mq) \/ c = (fst (fim (i, j) 1 1), snd (fim (i, j) 1 1), mq)))) interp_target).
    { assert (NN : forall c, none c -> False) by (intros c []).
      assert (W2 : forall f1 f2 W1 W2, writes none s0 f1 W1 interp_target -> writes none s0 f2 W2 interp_target ->
        writes none s0 (fun s => bind (f1 s) f2) (fun c => W1 c \/ W2 c) interp_target).
      { intros f1 f2 W1 W2 H1 H2. eapply writes_weaken.
        - apply (writes_seq none none s0 f1 f2 W1 W2 interp_target H1 H2). intros c [].
        - intros c [[]|[]].
        - intros c. reflexivity. }
      apply W2; [exact (G 0 0 ltac:(lia) ltac:(lia))|].
      apply (W2 (g 1)); [exact (G 1 0 ltac:(lia) ltac:(lia))|].
      apply (W2 (g 2)); [exact (G 0 1 ltac:(lia) ltac:(lia))|exact (G 1 1 ltac:(lia) ltac:(lia))]. }
    eapply writes_ext; [intros s; apply (loop03 g s)|].
    eapply writes_weaken; [exact SEQ|intros c []|].
    intros c. unfold quarters. split.
    - intros [H|[H|[H|H]]]; [exists 0, 0|exists 1, 0|exists 0, 1|exists 1, 1]; (split; [lia|split; [lia|exact H]]).
    - intros (sx & sy & Hsx & Hsy & H).
      assert (Ex : sx = 0 \/ sx = 1) by lia. assert (Ey : sy = 0 \/ sy = 1) by lia.
      destruct Ex as [->| ->], Ey as [->| ->]; tauto.
  Qed.

  (* ----------------------------------------------------------------- faces *)

  (** the coarse cell at place t is used: its four fine cells are in the array *)
  Definition used (t : Z) : Prop := 1 - mbc d <= 2 * t - 1 - pos * m /\ 2 * t - pos * m <= m + mbc d.

  Lemma inner_interp : forall dd tt, 1 - mbc d <= dd <= 0 ->
    (is_valid_interp d (fst (inner_cell nf m dd tt)) (snd (inner_cell nf m dd tt)) = true <-> 1 - mbc d <= tt <= m + mbc d).
  Proof.
    intros dd tt Hd. destruct Hsz as [Hx Hy]. unfold is_valid_interp. rewrite Hx, Hy.
    rewrite !andb_true_iff, !Z.leb_le. clear - Hn Hd Hm Hb. face4 nf Hn; cbn [inner_cell fst snd]; lia.
  Qed.

  Definition kth (k t : Z) : Z * Z := inner_cell f m k t.

  Lemma fim_valid : forall k t sx sy, 1 <= k -> 2 * k <= mbc d -> 0 <= sx <= 1 -> 0 <= sy <= 1 ->
    (is_valid_interp d (fst (fim (kth k t) sx sy)) (snd (fim (kth k t) sx sy)) = true <->
     1 - mbc d <= flip o m (2 * t - 1 + tchild f sx sy - pos * m) <= m + mbc d).
  Proof.
    intros k t sx sy Hk Hk2 Hx Hy. unfold fim, fimage, kth.
    destruct (depth_inner f m k t Hf) as [E1 E2]. rewrite E1, E2. apply inner_interp.
    assert (B1 : 0 <= nchild f sx sy <= 1) by (clear - Hf Hx Hy; face4 f Hf; cbn [nchild]; lia).
    unfold fdepth. destruct (Z.odd f); lia.
  Qed.

  Lemma tchild_range : forall sx sy, 0 <= sx <= 1 -> 0 <= sy <= 1 -> 0 <= tchild f sx sy <= 1.
  Proof. intros sx sy Hx Hy. clear - Hf Hx Hy. face4 f Hf; cbn [tchild]; lia. Qed.

  Lemma interp_at_ok : forall A ip op ft k t mq s0, linear_part A -> level op = level ip + 1 ->
    beyond_face f nf o (along f ip + inject_Z pos * width op)%Q ip op ft -> square d m (level op) ->
    1 <= k -> 2 * k <= mbc d -> k <= m -> 1 <= t <= m -> - 2 * m - 1 <= 2 * t - 1 - pos * m <= 3 * m -> 1 <= mq <= meqn d ->
    writes none s0 (interp_at rnd d qcoarse A 2 (mkT ip op ft) (fst (kth k t)) (snd (kth k t)) mq)
      (fun c => used t /\ quarters (kth k t) mq c) interp_target.
  Proof.
    intros A ip op ft k t mq s0 HA HL HB HQ Hk Hk2 Hkm Ht Htt Hq.
    destruct (depth_inner f m k t Hf) as [E1 E2].
    unfold interp_at.
    destruct (t_half_gen rnd Hrnd d m ip op f nf o pos ft (fst (kth k t)) (snd (kth k t)) HL Hpos HB HQ) as (ij & E & HI).
    { rewrite <- surjective_pairing. unfold kth. rewrite E1. lia. }
    { rewrite <- surjective_pairing. unfold kth. rewrite E2. lia. }
    rewrite E. cbn [bind]. rewrite <- surjective_pairing in HI. fold (fim (kth k t)) in HI.
    assert (I0 : ij 0 = Some (fim (kth k t) 0 0)) by (apply (HI 0 0); lia).
    assert (I1 : ij 1 = Some (fim (kth k t) 1 0)) by (apply (HI 1 0); lia).
    assert (I2 : ij 2 = Some (fim (kth k t) 0 1)) by (apply (HI 0 1); lia).
    assert (I3 : ij 3 = Some (fim (kth k t) 1 1)) by (apply (HI 1 1); lia).
    rewrite I0, I1, I2, I3. cbn [bind]. clear I0 I1 I2 I3 HI E ij.
    set (V := fun c : Z * Z => is_valid_interp d (fst c) (snd c)).
    assert (VV : forall sx sy, 0 <= sx <= 1 -> 0 <= sy <= 1 ->
      (V (fim (kth k t) sx sy) = true <-> 1 - mbc d <= flip o m (2 * t - 1 + tchild f sx sy - pos * m) <= m + mbc d))
      by (intros sx sy Hx Hy; now apply fim_valid).
    apply writes_ext with (f := fun q =>
      if V (fim (kth k t) 0 0) && V (fim (kth k t) 1 0) && V (fim (kth k t) 0 1) && V (fim (kth k t) 1 1)
      then interp_four d qcoarse A 2 (fim (kth k t) 0 0) (fst (kth k t)) (snd (kth k t)) mq q else Some q);
      [intros s; reflexivity|].
    destruct (V (fim (kth k t) 0 0) && V (fim (kth k t) 1 0) && V (fim (kth k t) 0 1) && V (fim (kth k t) 1 1)) eqn:EV.
    - rewrite !andb_true_iff in EV. destruct EV as (((V0 & V1) & V2) & V3).
      assert (U : used t).
      { apply VV in V0; try lia. apply VV in V3; try lia. apply VV in V1; try lia. apply VV in V2; try lia.
        unfold used, flip in *. clear - Hf V0 V1 V2 V3.
        destruct o; face4 f Hf; cbn [tchild] in *; lia. }
      assert (Hij : 1 <= fst (kth k t) <= m /\ 1 <= snd (kth k t) <= m).
      { unfold kth. clear - Hf Hk Hkm Ht. face4 f Hf; cbn [inner_cell fst snd]; lia. }
      destruct Hij as [Hi Hj].
      assert (IF := interp_four_ok A (fst (kth k t)) (snd (kth k t)) mq s0 HA Hq Hi Hj).
      rewrite <- surjective_pairing in IF.
      eapply writes_weaken; [apply IF| |].
      + intros sx sy Hx Hy.
        assert (VX : V (fim (kth k t) sx sy) = true).
        { apply VV; try assumption. pose proof (tchild_range sx sy Hx Hy) as B. unfold flip, used in *. destruct o; lia. }
        unfold V, is_valid_interp in VX. unfold in_q. rewrite VX. cbn [andb].
        rewrite (proj2 (Z.leb_le 1 mq)), (proj2 (Z.leb_le mq (meqn d))) by lia. reflexivity.
      + intros c [].
      + intros c. tauto.
    - eapply writes_weaken; [apply (writes_skip none)|intros c []|].
      intros c. unfold none. split; [tauto|]. intros [U _].
      assert (AV : forall sx sy, 0 <= sx <= 1 -> 0 <= sy <= 1 -> V (fim (kth k t) sx sy) = true).
      { intros sx sy Hx Hy. apply VV; try assumption. pose proof (tchild_range sx sy Hx Hy) as B.
        unfold flip, used in *. destruct o; lia. }
      rewrite !AV in EV by lia. discriminate.
  Qed.
End Interp.
