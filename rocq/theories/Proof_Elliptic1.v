(** The operators on a patch: loops. *)
From Coq Require Import ZArith QArith List Lia Lqa Bool Qfield.
From Verif Require Import Base_Float Model_Face Model_Grid Spec_Grid Proof_Grid Model_Elliptic Spec_Elliptic.
Import ListNotations.
Open Scope Z_scope.

Lemma in_q_iff : forall d i j m, in_q d (i, j, m) = true <->
  1 - mbc d <= i <= mx d + mbc d /\ 1 - mbc d <= j <= my d + mbc d /\ 1 <= m <= meqn d.
Proof. intros. unfold in_q. rewrite !andb_true_iff, !Z.leb_le. lia. Qed.

Lemma loop_ext : forall {S} lo hi (f g : Z -> S -> option S) s,
  (forall k t, lo <= k <= hi -> f k t = g k t) -> loop lo hi f s = loop lo hi g s.
Proof.
  intros S lo hi f g s H. unfold loop.
  assert (K : forall n k s, lo <= k -> k + Z.of_nat n <= hi + 1 -> loop_n n k f s = loop_n n k g s).
  { induction n as [|n IH]; intros k t H1 H2; [reflexivity|]. cbn [loop_n]. rewrite H by lia.
    destruct (g k t) as [t'|]; [|reflexivity]. cbn [bind]. apply IH; lia. }
  destruct (Z_le_gt_dec (hi - lo + 1) 0).
  - replace (Z.to_nat (hi - lo + 1)) with 0%nat by lia. reflexivity.
  - apply K; lia.
Qed.

Section Fill.
  Variable d : dims.
  Hypothesis HU : usable d.

  (** the cell a ghost cell touches, and the side it is beyond *)
  Definition back (c : cell) : cell :=
    let '(i, j, m) := c in
    (if i <? 1 then 1 else if mx d <? i then mx d else i, if j <? 1 then 1 else if my d <? j then my d else j, m).
  Definition side_of (c : cell) : Z :=
    let '(i, j, m) := c in if i <? 1 then 0 else if mx d <? i then 1 else if j <? 1 then 2 else 3.

  Lemma back_ghost : forall f k m, 0 <= f < 4 -> 1 <= k <= side_len d f ->
    back (ghost_at d f k, m) = (inside_at d f k, m) /\ side_of (ghost_at d f k, m) = f.
  Proof.
    intros f k m Hf Hk. destruct HU as (U1 & U2 & _). unfold side_len in Hk. unfold ghost_at, inside_at, back, side_of.
    assert (f = 0 \/ f = 1 \/ f = 2 \/ f = 3) as [->|[->|[->| ->]]] by lia; cbn [Z.eqb Z.ltb Z.compare Pos.compare Pos.compare_cont Pos.eqb] in *;
      repeat match goal with |- context [?a <? ?b] => destruct (Z.ltb_spec a b); try lia end; split; reflexivity.
  Qed.

  Definition side_written (f : Z) (c : cell) : Prop :=
    exists k m, 1 <= k <= side_len d f /\ 1 <= m <= meqn d /\ c = (ghost_at d f k, m).

  Lemma ghost_in : forall f k m, 0 <= f < 4 -> 1 <= k <= side_len d f -> 1 <= m <= meqn d ->
    in_q d (ghost_at d f k, m) = true /\ in_q d (inside_at d f k, m) = true /\ interior d (inside_at d f k, m) /\
    ~ interior d (ghost_at d f k, m).
  Proof.
    intros f k m Hf Hk Hm. destruct HU as (U1 & U2 & U3 & U4). unfold side_len in Hk. unfold ghost_at, inside_at.
    assert (f = 0 \/ f = 1 \/ f = 2 \/ f = 3) as [->|[->|[->| ->]]] by lia; cbn [Z.eqb Z.ltb Z.compare Pos.compare Pos.compare_cont Pos.eqb] in *;
      rewrite !in_q_iff; unfold interior; lia.
  Qed.

  Lemma writes_from : forall s0 dst src (g : Q -> Q) (V : arr) x, in_q d dst = true -> in_q d src = true ->
    s0 src = Some x -> V dst = Some (g x) ->
    writes (fun c => c = src) s0 (fun u => bind (rd d u src) (fun x => wr d u dst (g x))) (fun c => c = dst) V.
  Proof.
    intros s0 dst src g V x H1 H2 Hx HV s Hs. unfold rd. rewrite H2, (Hs src eq_refl), Hx. cbn [bind].
    apply (writes_cell (fun _ => False) s0 d dst (g x) H1 V HV s). intros c [].
  Qed.

  (** one side *)
  Lemma fill_side_writes : forall f g (s0 V : arr), 0 <= f < 4 ->
    (forall k m, 1 <= k <= side_len d f -> 1 <= m <= meqn d ->
       exists x, s0 (inside_at d f k, m) = Some x /\ V (ghost_at d f k, m) = Some (g x)) ->
    writes (interior d) s0 (fill_side d f g) (side_written f) V.
  Proof.
    intros f g s0 V Hf H.
    assert (K : writes (interior d) s0
      (loop 0 (meqn d - 1) (fun m => loop 0 (side_len d f - 1) (fun k u =>
         bind (rd d u (inside_at d f (k + 1), m + 1)) (fun x => wr d u (ghost_at d f (k + 1), m + 1) (g x)))))
      (side_written f) V).
    { eapply writes_weaken.
      - apply (writes_loop (fun m c => exists k, 0 <= k <= side_len d f - 1 /\ c = (inside_at d f (k + 1), m + 1)) s0
                 (fun m c => exists k, 0 <= k <= side_len d f - 1 /\ c = (ghost_at d f (k + 1), m + 1)) V).
        + intros m Hm. apply (writes_loop (fun k c => c = (inside_at d f (k + 1), m + 1)) s0
                 (fun k c => c = (ghost_at d f (k + 1), m + 1)) V (fun k u =>
           bind (rd d u (inside_at d f (k + 1), m + 1)) (fun x => wr d u (ghost_at d f (k + 1), m + 1) (g x)))).
          * intros k Hk. destruct (H (k + 1) (m + 1) ltac:(lia) ltac:(lia)) as (x & E1 & E2).
            destruct (ghost_in f (k + 1) (m + 1) Hf ltac:(lia) ltac:(lia)) as (I1 & I2 & _).
            now apply (writes_from s0 _ _ g V x).
          * intros k k' c Hk Hl Hk' -> E.
            destruct (ghost_in f (k + 1) (m + 1) Hf ltac:(lia) ltac:(lia)) as (_ & _ & _ & I4).
            destruct (ghost_in f (k' + 1) (m + 1) Hf ltac:(lia) ltac:(lia)) as (_ & _ & I3 & _). rewrite E in I3. contradiction.
        + intros m m' c Hm Hl Hm' (k & Hk & ->) (k' & Hk' & E).
          destruct (ghost_in f (k' + 1) (m + 1) Hf ltac:(lia) ltac:(lia)) as (_ & _ & _ & I4).
          destruct (ghost_in f (k + 1) (m' + 1) Hf ltac:(lia) ltac:(lia)) as (_ & _ & I3 & _). rewrite E in I3. contradiction.
      - intros c (m & Hm & k & Hk & ->). apply (ghost_in f (k + 1) (m + 1)); lia.
      - intros c. unfold side_written. split.
        + intros (m & Hm & k & Hk & ->). exists (k + 1), (m + 1). repeat split; lia.
        + intros (k & m & Hk & Hm & ->). exists (m - 1). split; [lia|]. exists (k - 1). split; [lia|].
          replace (k - 1 + 1) with k by lia. replace (m - 1 + 1) with m by lia. reflexivity. }
    eapply writes_ext; [|exact K]. intros u. unfold fill_side. apply loop_ext. intros m t Hm.
    unfold side_len, inside_at, ghost_at, vw.
    assert (f = 0 \/ f = 1 \/ f = 2 \/ f = 3) as [->|[->|[->| ->]]] by lia; cbn [Z.eqb Z.ltb Z.compare Pos.compare Pos.compare_cont Pos.eqb];
      apply loop_ext; intros k t' Hk; [reflexivity| |reflexivity|].
    - replace (mx d - 1 + 1) with (mx d) by lia. reflexivity.
    - replace (my d - 1 + 1) with (my d) by lia. reflexivity.
  Qed.

  Lemma fill_sides_writes : forall (wh : Z -> bool) (g : Z -> Q -> Q) (s0 : arr) (U : data), holds d s0 U ->
    exists s', fill_sides d wh g s0 = Some s' /\
      (forall f k m, 0 <= f < 4 -> wh f = true -> 1 <= k <= side_len d f -> 1 <= m <= meqn d ->
         s' (ghost_at d f k, m) = Some (g f (on (field U m) (inside_at d f k)))) /\
      (forall c, ~ beyond_side d wh c -> s' c = s0 c).
  Proof.
    intros wh g s0 U HH.
    set (V := fun c => option_map (g (side_of c)) (s0 (back c))).
    assert (K : writes (fun c => exists f, 0 <= f <= 3 /\ interior d c) s0 (fill_sides d wh g)
      (fun c => exists f, 0 <= f <= 3 /\ (wh f = true /\ side_written f c)) V).
    { unfold fill_sides. apply (writes_loop (fun f => interior d) s0 (fun f c => wh f = true /\ side_written f c) V).
      - intros f Hf. destruct (wh f) eqn:W.
        + eapply writes_weaken; [apply (fill_side_writes f (g f) s0 V)|auto|].
          * lia.
          * intros k m Hk Hm. exists (on (field U m) (inside_at d f k)).
            destruct (ghost_in f k m ltac:(lia) Hk Hm) as (_ & _ & I3 & _).
            assert (E : s0 (inside_at d f k, m) = Some (on (field U m) (inside_at d f k))).
            { destruct (inside_at d f k) as [i j]. apply HH, I3. }
            split; [exact E|]. unfold V. destruct (back_ghost f k m ltac:(lia) Hk) as (-> & ->). rewrite E. reflexivity.
          * intros c. tauto.
        + eapply writes_weaken; [apply (writes_skip (interior d))|auto|].
          intros c. unfold none. split; [intros []|]. intros (X & _). discriminate X.
      - intros f f' c Hf Hl Hf' HI (_ & (k & m & Hk & Hm & ->)).
        destruct (ghost_in f k m ltac:(lia) Hk Hm) as (_ & _ & _ & I4). contradiction. }
    destruct (K s0 ltac:(reflexivity)) as (s' & E & A & B & _). exists s'. split; [exact E|]. split.
    - intros f k m Hf Hw Hk Hm. rewrite A.
      + unfold V. destruct (back_ghost f k m ltac:(lia) Hk) as (-> & ->).
        destruct (ghost_in f k m ltac:(lia) Hk Hm) as (_ & _ & I3 & _).
        assert (Es : s0 (inside_at d f k, m) = Some (on (field U m) (inside_at d f k))).
        { destruct (inside_at d f k) as [i j]. apply HH, I3. }
        rewrite Es. reflexivity.
      + exists f. split; [lia|]. split; [exact Hw|]. exists k, m. auto.
    - intros c Hc. apply B. intros (f & Hf & Hw & k & m & Hk & Hm & ->). apply Hc. exists f, k, m. repeat split; try lia; assumption.
  Qed.

  (** f(cell) = stencil *)
  Lemma each_cell_writes : forall st (F : Z -> Z -> Z -> Q) s0,
    (forall i j m, interior d (i, j, m) -> st (i - 1) (j - 1) (m - 1) = Some (F i j m)) ->
    exists s', each_cell d st s0 = Some s' /\ (forall i j m, interior d (i, j, m) -> s' (i, j, m) = Some (F i j m)) /\
      (forall c, ~ interior d c -> s' c = s0 c).
  Proof.
    intros st F s0 H. destruct HU as (U1 & U2 & U3 & U4).
    set (V := fun c : cell => let '(i, j, m) := c in Some (F i j m)).
    assert (K : writes none s0 (each_cell d st)
      (fun c => exists m, 0 <= m <= meqn d - 1 /\ exists j, 0 <= j <= my d - 1 /\ exists i, 0 <= i <= mx d - 1 /\ c = vw i j m) V).
    { unfold each_cell. apply (writes_loop0 s0 (fun m c => exists j, 0 <= j <= my d - 1 /\ exists i, 0 <= i <= mx d - 1 /\ c = vw i j m) V).
      intros m Hm. apply (writes_loop0 s0 (fun j c => exists i, 0 <= i <= mx d - 1 /\ c = vw i j m) V). intros j Hj.
      apply (writes_loop0 s0 (fun i c => c = vw i j m) V). intros i Hi.
      assert (I : interior d (i + 1, j + 1, m + 1)) by (unfold interior; lia).
      pose proof (H (i + 1) (j + 1) (m + 1) I) as E. replace (i + 1 - 1) with i in E by lia. replace (j + 1 - 1) with j in E by lia.
      replace (m + 1 - 1) with m in E by lia. rewrite E. cbn [bind]. apply writes_cell; [|reflexivity].
      unfold vw. apply in_q_iff. lia. }
    destruct (K s0 ltac:(intros c [])) as (s' & E & A & B & _). exists s'. split; [exact E|]. split.
    - intros i j m I. unfold interior in I. rewrite A; [reflexivity|].
      exists (m - 1). split; [lia|]. exists (j - 1). split; [lia|]. exists (i - 1). split; [lia|].
      unfold vw. repeat (f_equal; try lia).
    - intros c Hc. apply B. intros (m & Hm & j & Hj & i & Hi & ->). apply Hc. unfold vw, interior. lia.
  Qed.

  (** all the cells a stencil reads *)
  Definition layer_holds (u : arr) (U : data) : Prop :=
    forall i j m, 1 <= m <= meqn d -> (0 <= i <= mx d + 1 /\ 1 <= j <= my d) \/ (1 <= i <= mx d /\ 0 <= j <= my d + 1) ->
      at_cell u (i, j, m) (U i j m).

  Lemma layer_from : forall u (U : data), (forall i j m, interior d (i, j, m) -> at_cell u (i, j, m) (U i j m)) ->
    (forall f k m, 0 <= f < 4 -> 1 <= k <= side_len d f -> 1 <= m <= meqn d ->
       at_cell u (ghost_at d f k, m) (on (field U m) (ghost_at d f k))) -> layer_holds u U.
  Proof.
    intros u U H1 H2 i j m Hm [[Hi Hj]|[Hi Hj]].
    - destruct (Z.eq_dec i 0) as [->|]; [apply (H2 0 j m); [lia|exact Hj|exact Hm]|].
      destruct (Z.eq_dec i (mx d + 1)) as [->|]; [apply (H2 1 j m); [lia|exact Hj|exact Hm]|].
      apply H1. unfold interior. lia.
    - destruct (Z.eq_dec j 0) as [->|]; [apply (H2 2 i m); [lia|exact Hi|exact Hm]|].
      destruct (Z.eq_dec j (my d + 1)) as [->|]; [apply (H2 3 i m); [lia|exact Hi|exact Hm]|].
      apply H1. unfold interior. lia.
  Qed.

  Lemma layer_rd : forall u U i j m, layer_holds u U -> 1 <= m <= meqn d ->
    (0 <= i <= mx d + 1 /\ 1 <= j <= my d) \/ (1 <= i <= mx d /\ 0 <= j <= my d + 1) ->
    exists v, rd d u (i, j, m) = Some v /\ (v == U i j m)%Q.
  Proof.
    intros u U i j m H Hm Hij. destruct HU as (U1 & U2 & U3 & U4). unfold rd.
    assert (I : in_q d (i, j, m) = true) by (apply in_q_iff; lia). rewrite I. exact (H i j m Hm Hij).
  Qed.

  Lemma laplacian_ok : forall pi u U i j m, ~ (sx pi == 0)%Q -> ~ (sy pi == 0)%Q -> layer_holds u U -> interior d (i, j, m) ->
    exists v, laplacian d pi u (i - 1) (j - 1) (m - 1) = Some v /\ (v == lap (sx pi) (sy pi) (field U m) i j)%Q.
  Proof.
    intros pi u U i j m Hx Hy HL (Hi & Hj & Hm). unfold laplacian, vw.
    replace (i - 1 + 1 + 1) with (i + 1) by lia. replace (j - 1 + 1 + 1) with (j + 1) by lia.
    replace (i - 1 - 1 + 1) with (i - 1) by lia. replace (j - 1 - 1 + 1) with (j - 1) by lia.
    replace (i - 1 + 1) with i by lia. replace (j - 1 + 1) with j by lia. replace (m - 1 + 1) with m by lia.
    destruct (layer_rd u U i j m HL Hm ltac:(lia)) as (v0 & -> & E0).
    destruct (layer_rd u U (i + 1) j m HL Hm ltac:(lia)) as (v1 & -> & E1).
    destruct (layer_rd u U (i - 1) j m HL Hm ltac:(lia)) as (v2 & -> & E2).
    destruct (layer_rd u U i (j + 1) m HL Hm ltac:(lia)) as (v3 & -> & E3).
    destruct (layer_rd u U i (j - 1) m HL Hm ltac:(lia)) as (v4 & -> & E4).
    cbn [bind]. eexists. split; [reflexivity|]. unfold lap, field. rewrite E0, E1, E2, E3, E4. field. auto.
  Qed.

  Lemma divgrad_ok : forall pi beta u (B U : data) i j m, ~ (sx pi == 0)%Q -> ~ (sy pi == 0)%Q ->
    (forall i j, (0 <= i <= mx d + 1 /\ 1 <= j <= my d) \/ (1 <= i <= mx d /\ 0 <= j <= my d + 1) -> beta (i, j, 1) = Some (B i j 1)) ->
    layer_holds u U -> interior d (i, j, m) ->
    exists v, divgrad d pi beta u (i - 1) (j - 1) (m - 1) = Some v /\
      (v == divg (sx pi) (sy pi) (field B 1%Z) (field U m) i j)%Q.
  Proof.
    intros pi beta u B U i j m Hx Hy HB HL (Hi & Hj & Hm). unfold divgrad, b_at, vw.
    replace (i - 1 + 1 + 1) with (i + 1) by lia. replace (j - 1 + 1 + 1) with (j + 1) by lia.
    replace (i - 1 - 1 + 1) with (i - 1) by lia. replace (j - 1 - 1 + 1) with (j - 1) by lia.
    replace (i - 1 + 1) with i by lia. replace (j - 1 + 1) with j by lia. replace (m - 1 + 1) with m by lia.
    change (0 + 1) with 1.
    assert (RB : forall i j, (0 <= i <= mx d + 1 /\ 1 <= j <= my d) \/ (1 <= i <= mx d /\ 0 <= j <= my d + 1) ->
      rd (bd d) beta (i, j, 1) = Some (B i j 1)).
    { intros i' j' H. destruct HU as (U1 & U2 & U3 & U4). unfold rd.
      assert (I : in_q (bd d) (i', j', 1) = true) by (apply in_q_iff; cbn [bd mx my mbc meqn]; lia). rewrite I. now apply HB. }
    rewrite (RB i j), (RB (i + 1) j), (RB (i - 1) j), (RB i (j + 1)), (RB i (j - 1)) by lia. cbn [bind].
    destruct (layer_rd u U i j m HL Hm ltac:(lia)) as (v0 & -> & E0).
    destruct (layer_rd u U (i + 1) j m HL Hm ltac:(lia)) as (v1 & -> & E1).
    destruct (layer_rd u U (i - 1) j m HL Hm ltac:(lia)) as (v2 & -> & E2).
    destruct (layer_rd u U i (j + 1) m HL Hm ltac:(lia)) as (v3 & -> & E3).
    destruct (layer_rd u U i (j - 1) m HL Hm ltac:(lia)) as (v4 & -> & E4).
    cbn [bind]. eexists. split; [reflexivity|]. unfold divg, mean2, field. rewrite E0, E1, E2, E3, E4. field. auto.
  Qed.
End Fill.
