(** The corners, the update and the whole step. *)
From Coq Require Import ZArith QArith Qminmax Qabs List Lia Lqa Bool.
From Verif Require Import Base_Float Model_Face Model_Grid Proof_Grid Proof_Tag Proof_Diag Model_Step Spec_Step Proof_Step0 Proof_Step1 Proof_Step2.
Import ListNotations.
Open Scope Z_scope.

Ltac qinm := unfold a1; cbn [in_mem in1]; unfold in_q; cbn [mx my mbc meqn]; rewrite ?andb_true_iff, ?Z.leb_le; repeat split; lia.

(** *** dependence on a box of cells *)
Section Box.
  Variable A : arith.
  Variable S : solver.
  Variable meqn : Z.
  Variable lx hx ly hy : Z.
  Variable u u' ux ux' uy uy' aux aux' : field.
  Variable dtdx dtdy : Q.
  Hypothesis HS : options_ok S.
  Definition agree (n : Z) (f g : field) : Prop := forall i j m, lx <= i <= hx -> ly <= j <= hy -> 1 <= m <= n -> f i j m = g i j m.
  Hypothesis Ex : agree meqn ux ux'.
  Hypothesis Ey : agree meqn uy uy'.
  Hypothesis Ea : agree (maux S) aux aux'.

  Lemma ratio_ext : forall dtd i j, lx <= i <= hx -> ly <= j <= hy -> ratio A S aux dtd i j = ratio A S aux' dtd i j.
  Proof.
    intros dtd i j Hi Hj. unfold ratio. destruct (Z.eqb_spec (mcapa S) 0) as [E|E]; [reflexivity|]. rewrite Ea; [reflexivity|exact Hi|exact Hj|].
    destruct HS as (_ & _ & X & _). lia.
  Qed.
  Lemma row_ext : forall i j m, ly <= j <= hy -> lx + 1 < i -> i + 1 <= hx ->
    row_left A S meqn ux aux dtdx j i m = row_left A S meqn ux' aux' dtdx j i m /\ row_right A S meqn ux aux dtdx j i m = row_right A S meqn ux' aux' dtdx j i m.
  Proof.
    intros i j m Hj H1 H2. unfold row_left, row_right, in_row. split.
    - apply flux_left_ext with (lo := lx) (hi := hx); [| | |exact H1|exact H2].
      + intros i' q Hi' Hq. now apply Ex. + intros i' q Hi' Hq. now apply Ea. + intros i' Hi'. now apply ratio_ext.
    - apply flux_right_ext with (lo := lx) (hi := hx); [| | |exact H1|exact H2].
      + intros i' q Hi' Hq. now apply Ex. + intros i' q Hi' Hq. now apply Ea. + intros i' Hi'. now apply ratio_ext.
  Qed.
  Lemma col_ext : forall i j m, lx <= i <= hx -> ly + 1 < j -> j + 1 <= hy ->
    col_left A S meqn uy aux dtdy i j m = col_left A S meqn uy' aux' dtdy i j m /\ col_right A S meqn uy aux dtdy i j m = col_right A S meqn uy' aux' dtdy i j m.
  Proof.
    intros i j m Hj H1 H2. unfold col_left, col_right, in_col. split.
    - apply flux_left_ext with (lo := ly) (hi := hy); [| | |exact H1|exact H2].
      + intros i' q Hi' Hq. now apply Ey. + intros i' q Hi' Hq. now apply Ea. + intros i' Hi'. now apply ratio_ext.
    - apply flux_right_ext with (lo := ly) (hi := hy); [| | |exact H1|exact H2].
      + intros i' q Hi' Hq. now apply Ey. + intros i' q Hi' Hq. now apply Ea. + intros i' Hi'. now apply ratio_ext.
  Qed.
  Lemma row_aside_ext : forall i j k m, ly < j < hy -> lx + 1 < i -> i + 2 <= hx ->
    row_aside A S meqn ux aux dtdx j i k m = row_aside A S meqn ux' aux' dtdx j i k m.
  Proof.
    intros i j k m Hj H1 H2. unfold row_aside, in_row. apply aside_ext with (lo := lx) (hi := hx); [| | | | |exact H1|exact H2].
    + intros i' q Hi' Hq. apply Ex; lia. + intros i' q Hi' Hq. apply Ea; lia. + intros i' q Hi' Hq. apply Ea; lia. + intros i' q Hi' Hq. apply Ea; lia.
    + intros i' Hi'. apply ratio_ext; lia.
  Qed.
  Lemma col_aside_ext : forall i j k m, lx < i < hx -> ly + 1 < j -> j + 2 <= hy ->
    col_aside A S meqn uy aux dtdy i j k m = col_aside A S meqn uy' aux' dtdy i j k m.
  Proof.
    intros i j k m Hj H1 H2. unfold col_aside, in_col. apply aside_ext with (lo := ly) (hi := hy); [| | | | |exact H1|exact H2].
    + intros i' q Hi' Hq. apply Ey; lia. + intros i' q Hi' Hq. apply Ea; lia. + intros i' q Hi' Hq. apply Ea; lia. + intros i' q Hi' Hq. apply Ea; lia.
    + intros i' Hi'. apply ratio_ext; lia.
  Qed.
  Lemma west_ext : forall i j m, lx + 2 <= i -> i + 1 <= hx -> ly + 2 <= j -> j + 2 <= hy ->
    west_left A S meqn ux uy aux dtdx dtdy i j m = west_left A S meqn ux' uy' aux' dtdx dtdy i j m /\
    west_right A S meqn ux uy aux dtdx dtdy i j m = west_right A S meqn ux' uy' aux' dtdx dtdy i j m.
  Proof.
    intros i j m H1 H2 H3 H4. destruct (row_ext i j m) as [R1 R2]; [lia|lia|lia|]. unfold west_left, west_right. rewrite R1, R2.
    rewrite (col_aside_ext (i - 1)), (col_aside_ext i) by lia. split; reflexivity.
  Qed.
  Lemma south_ext : forall i j m, lx + 2 <= i -> i + 2 <= hx -> ly + 2 <= j -> j + 1 <= hy ->
    south_left A S meqn ux uy aux dtdx dtdy i j m = south_left A S meqn ux' uy' aux' dtdx dtdy i j m /\
    south_right A S meqn ux uy aux dtdx dtdy i j m = south_right A S meqn ux' uy' aux' dtdx dtdy i j m.
  Proof.
    intros i j m H1 H2 H3 H4. destruct (col_ext i j m) as [R1 R2]; [lia|lia|lia|]. unfold south_left, south_right. rewrite R1, R2.
    rewrite (row_aside_ext i (j - 1)), (row_aside_ext i j) by lia. split; reflexivity.
  Qed.
End Box.
Lemma advanced_ext : forall A S meqn lx hx ly hy u u' ux ux' uy uy' aux aux' dx dy dt i j m, options_ok S ->
  agree lx hx ly hy meqn ux ux' -> agree lx hx ly hy meqn uy uy' -> agree lx hx ly hy (maux S) aux aux' -> u i j m = u' i j m ->
  lx + 2 <= i <= hx - 2 -> ly + 2 <= j <= hy - 2 ->
  advanced A S meqn u ux uy aux dx dy dt i j m = advanced A S meqn u' ux' uy' aux' dx dy dt i j m.
Proof.
  intros A S meqn lx hx ly hy u u' ux ux' uy uy' aux aux' dx dy dt i j m HS Ex Ey Ea Eu Hi Hj. unfold advanced. cbv zeta. rewrite Eu.
  destruct (west_ext A S meqn lx hx ly hy ux ux' uy uy' aux aux' (quo A dt dx) (quo A dt dy) HS Ex Ey Ea (i + 1) j m) as [W1 _]; [lia|lia|lia|lia|].
  destruct (west_ext A S meqn lx hx ly hy ux ux' uy uy' aux aux' (quo A dt dx) (quo A dt dy) HS Ex Ey Ea i j m) as [_ W2]; [lia|lia|lia|lia|].
  destruct (south_ext A S meqn lx hx ly hy ux ux' uy uy' aux aux' (quo A dt dx) (quo A dt dy) HS Ex Ey Ea i (j + 1) m) as [S1 _]; [lia|lia|lia|lia|].
  destruct (south_ext A S meqn lx hx ly hy ux ux' uy uy' aux aux' (quo A dt dx) (quo A dt dy) HS Ex Ey Ea i j m) as [_ S2]; [lia|lia|lia|lia|].
  rewrite W1, W2, S1, S2. destruct (Z.eqb_spec (mcapa S) 0) as [E|E]; [reflexivity|]. rewrite Ea; [reflexivity|lia|lia|]. destruct HS as (_ & _ & X & _). lia.
Qed.

Section Whole.
  Variable A : arith.
  Variable d : dims.
  Variable S : solver.
  Hypothesis Hb : 2 <= mbc d.
  Hypothesis Hx : 1 <= mx d.
  Hypothesis Hy : 1 <= my d.
  Hypothesis Hm : 0 <= meqn d.
  Hypothesis HS : options_ok S.
  Variable bcc : Z -> Z.

  (** *** corners *)
  Local Notation tu := (turned (mx d) (my d) bcc).
  Definition ci (k ibc : Z) : Z := if (k =? 0) || (k =? 2) then 1 - ibc else mx d + ibc.
  Definition cj (k jbc : Z) : Z := if (k =? 0) || (k =? 1) then 1 - jbc else my d + jbc.
  Definition si (k dir i1 j1 : Z) : Z :=
    let use_b := ((dir =? 0) && ((k =? 0) || (k =? 3))) || ((dir =? 1) && ((k =? 1) || (k =? 2))) in
    if use_b then j1 + (if k =? 0 then 0 else if k =? 1 then mx d else if k =? 2 then - my d else mx d - my d)
    else - j1 + (if k =? 0 then 1 else if k =? 1 then mx d + 1 else if k =? 2 then my d + 1 else mx d + my d + 1).
  Definition sj (k dir i1 j1 : Z) : Z :=
    let use_b := ((dir =? 0) && ((k =? 0) || (k =? 3))) || ((dir =? 1) && ((k =? 1) || (k =? 2))) in
    if use_b then - i1 + (if k =? 0 then 1 else if k =? 1 then mx d + 1 else if k =? 2 then my d + 1 else mx d + my d + 1)
    else i1 - (if k =? 0 then 0 else if k =? 1 then mx d else if k =? 2 then - my d else mx d - my d).
  Definition cornered (i j : Z) : Prop := outside (mx d) i = true /\ outside (my d) j = true.

  Lemma case_k : forall k, 0 <= k <= 3 -> k = 0 \/ k = 1 \/ k = 2 \/ k = 3.
  Proof. lia. Qed.
  Local Ltac ltbs := repeat match goal with
    | |- context [?a <? ?b] => destruct (Z.ltb_spec a b)
    | H : context [?a <? ?b] |- _ => destruct (Z.ltb_spec a b) end.
  Lemma corner_facts : forall k dir ibc jbc, 0 <= k <= 3 -> dir = 0 \/ dir = 1 -> 1 <= ibc <= mbc d -> 1 <= jbc <= mbc d ->
    mbc d <= mx d -> mbc d <= my d ->
    cornered (ci k ibc) (cj k jbc) /\ corner_number (ci k ibc) (cj k jbc) = k /\ inside d (ci k ibc) (cj k jbc) /\
    inside d (si k dir (ci k ibc) (cj k jbc)) (sj k dir (ci k ibc) (cj k jbc)) /\
    ~ cornered (si k dir (ci k ibc) (cj k jbc)) (sj k dir (ci k ibc) (cj k jbc)) /\
    (bcc k = 3 -> forall u m, tu dir u (ci k ibc) (cj k jbc) m = u (si k dir (ci k ibc) (cj k jbc)) (sj k dir (ci k ibc) (cj k jbc)) m).
  Proof.
    intros k dir ibc jbc Hk Hd Hi Hj Bx By.
    assert (C1 : cornered (ci k ibc) (cj k jbc)).
    { unfold cornered, outside, ci, cj. destruct (case_k k Hk) as [->|[->|[->| ->]]]; cbn [Z.eqb Pos.eqb orb]; split; apply orb_true_iff; rewrite !Z.ltb_lt; lia. }
    assert (C2 : corner_number (ci k ibc) (cj k jbc) = k).
    { unfold corner_number, ci, cj. destruct (case_k k Hk) as [->|[->|[->| ->]]]; cbn [Z.eqb Pos.eqb orb]; ltbs; lia. }
    split; [exact C1|]. split; [exact C2|].
    split; [|split; [|split]].
    - unfold inside, ci, cj. destruct (case_k k Hk) as [->|[->|[->| ->]]]; cbn [Z.eqb Pos.eqb orb]; lia.
    - unfold inside, si, sj, ci, cj. destruct (case_k k Hk) as [->|[->|[->| ->]]]; destruct Hd as [-> | ->]; cbn [Z.eqb Pos.eqb orb andb]; lia.
    - unfold cornered, outside, si, sj, ci, cj. intros [D1 D2]. apply orb_true_iff in D1, D2. rewrite !Z.ltb_lt in D1, D2. revert D1 D2.
      destruct (case_k k Hk) as [->|[->|[->| ->]]]; destruct Hd as [-> | ->]; cbn [Z.eqb Pos.eqb orb andb]; lia.
    - intros H3 u m. unfold turned. destruct C1 as [C3 C4]. rewrite C3, C4, C2, H3. cbn [andb Z.eqb Pos.eqb].
      unfold place, beyond, si, sj, ci, cj. destruct (case_k k Hk) as [->|[->|[->| ->]]]; destruct Hd as [-> | ->]; cbn [Z.eqb Pos.eqb orb andb]; f_equal; f_equal; ltbs; lia.
  Qed.
  Definition q_filled (s : mem) : Prop := forall i j m, inside d i j -> 1 <= m <= meqn d -> set s (QOLD, (i, j, m)).
  Lemma corners_ok : forall dir s, dir = 0 \/ dir = 1 -> mbc d <= mx d -> mbc d <= my d -> q_filled s ->
    exists s', fix_corners d S bcc dir s = Some s' /\ (forall a c, a <> QOLD -> s' (a, c) = s (a, c)) /\
      (forall i j m, inside d i j -> 1 <= m <= meqn d -> s' (QOLD, (i, j, m)) = Some (tu dir (of_mem s QOLD) i j m)).
  Proof.
    intros dir s Hd Bx By FQ.
    set (V := fun a : addr => let '(_, (i, j, m)) := a in Some (tu dir (of_mem s QOLD) i j m)).
    set (Rd := fun k c => exists ibc, 1 <= ibc <= mbc d /\ (exists jbc, 1 <= jbc <= mbc d /\ (exists m, 1 <= m <= meqn d /\
      (c = (QOLD, (si k dir (ci k ibc) (cj k jbc), sj k dir (ci k ibc) (cj k jbc), m)) \/ nowhere c)))).
    set (Wr := fun k c => exists ibc, 1 <= ibc <= mbc d /\ (exists jbc, 1 <= jbc <= mbc d /\ (exists m, 1 <= m <= meqn d /\
      c = (QOLD, (ci k ibc, cj k jbc, m))))).
    assert (SEP : forall k k' c, 0 <= k <= 3 -> 0 <= k' <= 3 -> Rd k' c -> ~ Wr k c).
    { intros k k' c Hk Hk' (ib & H1 & jb & H2 & m & H3 & [->|[]]) (ib' & H4 & jb' & H5 & m' & H6 & X).
      destruct (corner_facts k' dir ib jb Hk' Hd H1 H2 Bx By) as (_ & _ & _ & _ & NC & _).
      destruct (corner_facts k dir ib' jb' Hk Hd H4 H5 Bx By) as (Yes & _). injection X as X1 X2 _. rewrite X1, X2 in NC. contradiction. }
    assert (ONE : forall k, 0 <= k <= 3 -> bcc k = 3 -> mwrites (Rd k) s
      (loop 1 (mbc d) (fun ibc => loop 1 (mbc d) (fun jbc => loop 1 (meqn d) (fun m =>
         movm d S (QOLD, (ci k ibc, cj k jbc, m)) (QOLD, (si k dir (ci k ibc) (cj k jbc), sj k dir (ci k ibc) (cj k jbc), m)))))) (Wr k) V).
    { intros k Hk H3. unfold Rd, Wr. apply mw_loop.
      - intros ib H1. apply mw_loop.
        + intros jb H2. apply mw_loop.
          * intros m Hq. destruct (corner_facts k dir ib jb Hk Hd H1 H2 Bx By) as (_ & _ & I1 & I2 & _ & T). unfold inside in I1, I2.
            apply mw_mov; [qinm|qinm|apply FQ; [exact I2|exact Hq]|]. unfold V. now rewrite T.
          * intros m m' c L1 L2 L3 X Y. apply (SEP k k c Hk Hk).
            -- exists ib. split; [exact H1|]. exists jb. split; [exact H2|]. exists m'. split; [lia|exact X].
            -- exists ib. split; [exact H1|]. exists jb. split; [exact H2|]. exists m. split; [lia|exact Y].
        + intros jb jb' c L1 L2 L3 X Y. apply (SEP k k c Hk Hk).
          * exists ib. split; [exact H1|]. exists jb'. split; [lia|exact X].
          * exists ib. split; [exact H1|]. exists jb. split; [lia|exact Y].
      - intros ib ib' c L1 L2 L3 X Y. apply (SEP k k c Hk Hk).
        + exists ib'. split; [lia|exact X].
        + exists ib. split; [lia|exact Y]. }
    assert (H : mwrites (fun c => exists k, 0 <= k <= 3 /\ Rd k c) s (fix_corners d S bcc dir) (fun c => exists k, 0 <= k <= 3 /\ (bcc k = 3 /\ Wr k c)) V).
    { unfold fix_corners. apply mw_loop.
      - intros k Hk. destruct (Z.eqb_spec (bcc k) 3) as [E|E]; cbn [negb].
        + eapply mw_weaken; [exact (ONE k Hk E)|auto|]. intros c. split; [intros X; now split|intros [_ X]; exact X].
        + intros t _. exists t. split; [reflexivity|]. split; [intros c [X _]; contradiction|]. split; [reflexivity|now right].
      - intros k k' c L1 L2 L3 X [_ Y]. apply (SEP k k' c); try assumption; lia. }
    destruct (H s) as (s' & E & W & N & _); [reflexivity|]. exists s'. split; [exact E|]. split.
    - intros a c Ha. apply N. intros (k & _ & _ & ib & _ & jb & _ & m & _ & X). inversion X. congruence.
    - intros i j m Hi Hq. destruct (outside (mx d) i && outside (my d) j && (bcc (corner_number i j) =? 3)) eqn:EC.
      + apply andb_true_iff in EC as [EC E3]. apply andb_true_iff in EC as [E1 E2]. apply Z.eqb_eq in E3.
        apply (W (QOLD, (i, j, m))). unfold outside in E1, E2. apply orb_true_iff in E1, E2. rewrite !Z.ltb_lt in E1, E2. unfold inside in Hi.
        exists (corner_number i j). split; [unfold corner_number; ltbs; lia|]. split; [exact E3|].
        exists (beyond (mx d) i). split; [unfold beyond; ltbs; lia|]. exists (beyond (my d) j). split; [unfold beyond; ltbs; lia|].
        exists m. split; [exact Hq|]. unfold ci, cj, corner_number, beyond. ltbs; cbn [Z.add Z.eqb Pos.eqb Pos.add orb]; f_equal; f_equal; f_equal; lia.
      + rewrite N.
        * unfold turned. rewrite EC. now apply FQ.
        * intros (k & Hk & H3 & ib & H1 & jb & H2 & m' & _ & X). destruct (corner_facts k dir ib jb Hk Hd H1 H2 Bx By) as ([C1 C2] & C3 & _).
          injection X as X1 X2 _. rewrite <- X1 in C1, C3. rewrite <- X2 in C2, C3. rewrite C1, C2, C3, H3 in EC. discriminate EC.
  Qed.

  (** *** the rest of step2 *)
  Lemma zero_ok : forall s, exists s', s_zero d S s = Some s' /\ (forall a c, is_flux a = false -> s' (a, c) = s (a, c)) /\
    (forall a i j m, is_flux a = true -> inside d i j -> 1 <= m <= meqn d -> s' (a, (i, j, m)) = Some 0%Q).
  Proof.
    intros s.
    assert (H : mwrites (fun c => exists m, 1 <= m <= meqn d /\ (exists i, 1 - mbc d <= i <= mx d + mbc d /\ (exists j, 1 - mbc d <= j <= my d + mbc d /\
          (nowhere c \/ nowhere c \/ nowhere c \/ nowhere c)))) s (s_zero d S)
      (fun c => exists m, 1 <= m <= meqn d /\ (exists i, 1 - mbc d <= i <= mx d + mbc d /\ (exists j, 1 - mbc d <= j <= my d + mbc d /\
          (c = (FM, (i, j, m)) \/ c = (FP, (i, j, m)) \/ c = (GM, (i, j, m)) \/ c = (GP, (i, j, m)))))) (fun _ => Some 0%Q)).
    { unfold s_zero. apply mw_loop; [|sep]. intros m Hq. apply mw_loop; [|sep]. intros i Hi. apply mw_loop; [|sep]. intros j Hj.
      apply mw_seq; [apply mw_wr; [qinm|reflexivity]| |sep]. apply mw_seq; [apply mw_wr; [qinm|reflexivity]| |sep].
      apply mw_seq; [apply mw_wr; [qinm|reflexivity]| |sep]. apply mw_wr; [qinm|reflexivity]. }
    destruct (H s) as (s' & E & W & N & _); [reflexivity|]. exists s'. split; [exact E|]. split.
    - intros a c Ha. apply N. intros (m & _ & i & _ & j & _ & [X|[X|[X|X]]]); inversion X; subst; discriminate Ha.
    - intros a i j m Ha [Hi Hj] Hq. apply W. exists m. split; [exact Hq|]. exists i. split; [exact Hi|]. exists j. split; [exact Hj|].
      destruct a; try discriminate Ha; tauto.
  Qed.
  Lemma ratio_ok : forall dtdx dtdy s, exists s', s_ratio d S dtdx dtdy s = Some s' /\
    (forall a c, a <> DTDX1 -> a <> DTDY1 -> s' (a, c) = s (a, c)) /\
    (mcapa S = 0 -> forall i, 1 - mbc d <= i <= maxm d + mbc d -> s' (DTDX1, (i, 1, 1)) = Some dtdx /\ s' (DTDY1, (i, 1, 1)) = Some dtdy).
  Proof.
    intros dtdx dtdy s. unfold s_ratio. destruct (Z.eqb_spec (mcapa S) 0) as [E0|E0]; cbn [cond].
    2: { exists s. split; [reflexivity|]. split; [reflexivity|]. intros E; contradiction. }
    assert (H : mwrites (fun c => exists i, 1 - mbc d <= i <= maxm d + mbc d /\ (nowhere c \/ nowhere c)) s
      (loop (1 - mbc d) (maxm d + mbc d) (fun i => sq (wrm d S (a1 DTDX1 i 1) dtdx) (wrm d S (a1 DTDY1 i 1) dtdy)))
      (fun c => exists i, 1 - mbc d <= i <= maxm d + mbc d /\ (c = a1 DTDX1 i 1 \/ c = a1 DTDY1 i 1))
      (fun a => Some (match fst a with DTDX1 => dtdx | _ => dtdy end))).
    { apply mw_loop; [|sep]. intros i Hi. apply mw_seq; [apply mw_wr; [qinm|reflexivity]|apply mw_wr; [qinm|reflexivity]|sep]. }
    destruct (H s) as (s' & E & W & N & _); [reflexivity|]. exists s'. split; [exact E|]. split.
    - intros a c N1 N2. apply N. intros (i & _ & [X|X]); inversion X; congruence.
    - intros _ i Hi. split; [apply (W (DTDX1, (i, 1, 1)))|apply (W (DTDY1, (i, 1, 1)))]; exists i; (split; [exact Hi|]); [now left|now right].
  Qed.

  (** *** the update *)
  Lemma q_update_ok : forall dtdx dtdy s, filled d S s -> fluxes_set d s ->
    exists s', w_update A d S dtdx dtdy s = Some s' /\ q_filled s' /\
      (forall i j m, 1 <= i <= mx d -> 1 <= j <= my d -> 1 <= m <= meqn d -> s' (QOLD, (i, j, m)) = Some (
         let q := val s (QOLD, (i, j, m)) in
         let ew := sub A (val s (FM, (i + 1, j, m))) (val s (FP, (i, j, m))) in
         let ns := sub A (val s (GM, (i, j + 1, m))) (val s (GP, (i, j, m))) in
         if mcapa S =? 0 then sub A (sub A q (mul A dtdx ew)) (mul A dtdy ns)
         else sub A q (quo A (add A (mul A dtdx ew) (mul A dtdy ns)) (val s (AUX, (i, j, mcapa S)))))).
  Proof.
    intros dtdx dtdy s [FQ FA] FS.
    set (V := fun a : addr => let '(_, (i, j, m)) := a in Some (
         let q := val s (QOLD, (i, j, m)) in
         let ew := sub A (val s (FM, (i + 1, j, m))) (val s (FP, (i, j, m))) in
         let ns := sub A (val s (GM, (i, j + 1, m))) (val s (GP, (i, j, m))) in
         if mcapa S =? 0 then sub A (sub A q (mul A dtdx ew)) (mul A dtdy ns)
         else sub A q (quo A (add A (mul A dtdx ew) (mul A dtdy ns)) (val s (AUX, (i, j, mcapa S)))))).
    assert (H : mwrites (fun c => exists m, 1 <= m <= meqn d /\ (exists i, 1 - mbc d <= i <= mx d + mbc d - 1 /\ (exists j, 1 - mbc d <= j <= my d + mbc d - 1 /\
          (c = (QOLD, (i, j, m)) \/ (c = (FM, (i + 1, j, m)) \/ (c = (FP, (i, j, m)) \/ (c = (GM, (i, j + 1, m)) \/ (c = (GP, (i, j, m)) \/
           (c = (AUX, (i, j, mcapa S)) \/ nowhere c))))))))) s (w_update A d S dtdx dtdy)
      (fun c => exists m, 1 <= m <= meqn d /\ (exists i, 1 - mbc d <= i <= mx d + mbc d - 1 /\ (exists j, 1 - mbc d <= j <= my d + mbc d - 1 /\ c = (QOLD, (i, j, m))))) V).
    { unfold w_update. apply mw_loop; [|sep]. intros m Hq. apply mw_loop; [|sep]. intros i Hi. apply mw_loop; [|sep]. intros j Hj.
      apply mw_read; [qinm|apply FQ; [unfold inside; lia|exact Hq]|].
      apply mw_read; [qinm|apply FS; [reflexivity|unfold inside; lia|exact Hq]|]. apply mw_read; [qinm|apply FS; [reflexivity|unfold inside; lia|exact Hq]|].
      apply mw_read; [qinm|apply FS; [reflexivity|unfold inside; lia|exact Hq]|]. apply mw_read; [qinm|apply FS; [reflexivity|unfold inside; lia|exact Hq]|].
      cbv beta. destruct (Z.eqb_spec (mcapa S) 0) as [E0|E0].
      - eapply mw_weaken; [apply mw_wr with (V := V); [qinm|]|intros c []|reflexivity].
        reflexivity.
      - assert (Hcap : 1 <= mcapa S <= maux S) by (destruct HS as (_ & _ & X & _); lia).
        apply mw_read; [qinm|apply FA; [unfold inside; lia|lia]|]. apply mw_wr; [qinm|].
        reflexivity. }
    destruct (H s) as (s' & E & W & _ & D); [reflexivity|]. exists s'. split; [exact E|]. split.
    - intros i j m Hi Hq. destruct (D (QOLD, (i, j, m))) as [X|X]; [exact (set_some _ _ _ X)|]. apply (set_eq s); [now apply FQ|exact X].
    - intros i j m Hi Hj Hq. apply (W (QOLD, (i, j, m))). exists m. split; [exact Hq|]. exists i. split; [lia|]. exists j. split; [lia|reflexivity].
  Qed.

  Lemma work_ok : work_check d S = true.
  Proof.
    unfold work_check. assert (W : 0 <= maxm d + 2 * mbc d) by (unfold maxm; lia). destruct HS as (H1 & H2 & _).
    cbv zeta. unfold i0, mwork. cbv zeta. apply andb_true_iff. rewrite !negb_true_iff, !Z.ltb_ge. split; nia.
  Qed.

  (** *** the fields after turning *)
  Hypothesis Bx : mbc d <= mx d.
  Hypothesis By : mbc d <= my d.
  Local Ltac ltbs' := repeat match goal with |- context [?a <? ?b] => destruct (Z.ltb_spec a b) end.
  Lemma turned_source : forall dir u i j m, inside d i j -> exists i' j', inside d i' j' /\ tu dir u i j m = u i' j' m /\
    (forall u', tu dir u' i j m = u' i' j' m) /\ ((i', j') = (i, j) /\ ~ (cornered i j /\ bcc (corner_number i j) = 3) \/ ~ cornered i' j').
  Proof.
    intros dir u i j m [Hi Hj]. unfold turned. destruct (outside (mx d) i && outside (my d) j && (bcc (corner_number i j) =? 3)) eqn:EC.
    - apply andb_true_iff in EC as [EC E3]. apply andb_true_iff in EC as [E1 E2]. unfold outside in E1, E2. apply orb_true_iff in E1, E2. rewrite !Z.ltb_lt in E1, E2.
      destruct (dir =? 0).
      + exists (place (mx d) i (beyond (my d) j)), (place (my d) j (1 - beyond (mx d) i)). split; [|split; [reflexivity|split; [reflexivity|]]].
        * unfold inside, place, beyond. ltbs'; lia.
        * right. unfold cornered, outside. rewrite !orb_true_iff, !Z.ltb_lt. unfold place, beyond. ltbs'; lia.
      + exists (place (mx d) i (1 - beyond (my d) j)), (place (my d) j (beyond (mx d) i)). split; [|split; [reflexivity|split; [reflexivity|]]].
        * unfold inside, place, beyond. ltbs'; lia.
        * right. unfold cornered, outside. rewrite !orb_true_iff, !Z.ltb_lt. unfold place, beyond. ltbs'; lia.
    - exists i, j. split; [now split|]. split; [reflexivity|]. split; [reflexivity|]. left. split; [reflexivity|]. intros [[C1 C2] C3].
      rewrite C1, C2, C3 in EC. discriminate EC.
  Qed.
  Lemma turned_ext : forall dir u u' i j m, (forall i j m, inside d i j -> 1 <= m <= meqn d -> u i j m = u' i j m) -> inside d i j -> 1 <= m <= meqn d ->
    tu dir u i j m = tu dir u' i j m.
  Proof.
    intros dir u u' i j m H Hi Hq. destruct (turned_source dir u i j m Hi) as (i' & j' & I & E & E' & _). rewrite E, (E' u'). now apply H.
  Qed.
  Lemma not_turned : forall dir u i j m, ~ (cornered i j /\ bcc (corner_number i j) = 3) -> tu dir u i j m = u i j m.
  Proof.
    intros dir u i j m H. unfold turned. destruct (outside (mx d) i && outside (my d) j && (bcc (corner_number i j) =? 3)) eqn:EC; [|reflexivity].
    apply andb_true_iff in EC as [EC E3]. apply andb_true_iff in EC as [E1 E2]. exfalso. apply H. split; [now split|now apply Z.eqb_eq].
  Qed.
  Lemma turned_twice : forall u i j m, inside d i j -> tu 1 (tu 0 u) i j m = tu 1 u i j m.
  Proof.
    intros u i j m Hi. destruct (turned_source 1 (tu 0 u) i j m Hi) as (i' & j' & I & E & E' & [[X Y]|N]).
    - injection X as X1 X2. subst i' j'. rewrite E, (E' u). now apply not_turned.
    - rewrite E, (E' u). apply not_turned. tauto.
  Qed.
  Lemma turned_inner : forall dir u i j m, 1 <= i <= mx d -> tu dir u i j m = u i j m.
  Proof. intros dir u i j m Hi. apply not_turned. unfold cornered, outside. rewrite orb_true_iff, !Z.ltb_lt. lia. Qed.

  (** *** the whole step *)
  Definition courant_numbers (ux uy X : field) (dtdx dtdy x : Q) : Prop :=
    (exists j, 2 - mbc d <= j <= my d + mbc d - 1 /\ courants A d S true ux X dtdx j x) \/
    (exists i, 2 - mbc d <= i <= mx d + mbc d - 1 /\ courants A d S false uy X dtdy i x).
  Lemma courants_ext : forall b U U' X X' dtd p x, 2 - mbc d <= p <= np_of d b + mbc d - 1 ->
    (forall i j m, inside d i j -> 1 <= m <= meqn d -> U i j m = U' i j m) ->
    (forall i j m, inside d i j -> 1 <= m <= maux S -> X i j m = X' i j m) -> courants A d S b U X dtd p x -> courants A d S b U' X' dtd p x.
  Proof.
    intros b U U' X X' dtd p x Hp EU EX (mw & Hw & i & Hi & Y). exists mw. split; [exact Hw|]. exists i. split; [exact Hi|].
    assert (ER : forall i', 0 <= i' <= n_of d b + 1 -> ratio_of A S b X dtd p i' = ratio_of A S b X' dtd p i').
    { intros i' Hi'. unfold ratio_of. destruct (Z.eqb_spec (mcapa S) 0) as [E|E]; [reflexivity|]. f_equal. destruct HS as (_ & _ & HC & _).
      unfold along. destruct b; apply EX; try lia; unfold inside; cbn [n_of np_of] in *; lia. }
    rewrite <- !ER by lia. rewrite <- (speed_ext S (meqn d) (ixy_of b) 0 (n_of d b + 1) (along b U p) (along b U' p) (along b X p) (along b X' p)); [exact Y| | |lia].
    - intros i' q Hi' Hq. unfold along. destruct b; apply EU; try lia; unfold inside; cbn [n_of np_of] in *; lia.
    - intros i' q Hi' Hq. unfold along. destruct b; apply EX; try lia; unfold inside; cbn [n_of np_of] in *; lia.
  Qed.
  Lemma step_ok : forall dx dy dt garbage (q aux : arr) (u X : field),
    (forall i j m, inside d i j -> 1 <= m <= meqn d -> q (i, j, m) = Some (u i j m)) ->
    (forall i j m, inside d i j -> 1 <= m <= maux S -> aux (i, j, m) = Some (X i j m)) ->
    exists q' c, clawpack46_step2 A d S bcc dx dy dt garbage q aux = Some (q', c) /\
      (forall i j m, 1 <= i <= mx d -> 1 <= j <= my d -> 1 <= m <= meqn d ->
         q' (i, j, m) = Some (advanced A S (meqn d) u (tu 0 u) (tu 1 u) X dx dy dt i j m)) /\
      (forall i j m, inside d i j -> 1 <= m <= meqn d -> q' (i, j, m) <> None) /\
      lub (courant_numbers (tu 0 u) (tu 1 u) X (quo A dt dx) (quo A dt dy)) 0 c.
  Proof.
    intros dx dy dt garbage q aux u X Hq HX. unfold clawpack46_step2, step2_wrap. rewrite work_ok. unfold step2, sq.
    set (dtdx := quo A dt dx). set (dtdy := quo A dt dy).
    match goal with |- context [s_zero d S ?s] => set (s0 := s) end.
    destruct (zero_ok s0) as (s1 & E1 & Y1 & Z1). rewrite E1. cbn [bind].
    destruct (ratio_ok dtdx dtdy s1) as (s2 & E2 & Y2 & Z2). rewrite E2. cbn [bind].
    assert (Q2 : forall i j m, inside d i j -> 1 <= m <= meqn d -> s2 (QOLD, (i, j, m)) = Some (u i j m)).
    { intros i j m Hi Hk. rewrite Y2, Y1 by (try discriminate; reflexivity). exact (Hq i j m Hi Hk). }
    assert (X2 : forall i j m, inside d i j -> 1 <= m <= maux S -> s2 (AUX, (i, j, m)) = Some (X i j m)).
    { intros i j m Hi Hk. rewrite Y2, Y1 by (try discriminate; reflexivity). exact (HX i j m Hi Hk). }
    destruct (corners_ok 0 s2 (or_introl eq_refl) Bx By) as (s3 & E3 & Y3 & Z3).
    { intros i j m Hi Hk. exact (set_some _ _ _ (Q2 i j m Hi Hk)). }
    rewrite E3. cbn [bind].
    assert (Q3 : forall i j m, inside d i j -> 1 <= m <= meqn d -> s3 (QOLD, (i, j, m)) = Some (tu 0 u i j m)).
    { intros i j m Hi Hk. rewrite (Z3 i j m Hi Hk). f_equal. apply turned_ext; [|exact Hi|exact Hk]. intros i' j' m' Hi' Hk'. exact (val_some _ _ _ (Q2 i' j' m' Hi' Hk')). }
    assert (X3 : forall i j m, inside d i j -> 1 <= m <= maux S -> s3 (AUX, (i, j, m)) = Some (X i j m)) by (intros; rewrite Y3 by discriminate; now apply X2).
    assert (F3 : forall a i j m, is_flux a = true -> inside d i j -> 1 <= m <= meqn d -> s3 (a, (i, j, m)) = Some 0%Q).
    { intros a i j m Ha Hi Hk. rewrite Y3 by (intros ->; discriminate Ha). rewrite Y2 by (intros ->; discriminate Ha). now apply Z1. }
    pose proof (n_max d true) as MX. pose proof (n_max d false) as MY. cbn [n_of] in MX, MY.
    destruct (sweep_ok A d S Hb Hx Hy Hm HS true dtdx s3 0%Q (fun _ _ _ => 0%Q) (fun _ _ _ => 0%Q) (fun _ _ _ => 0%Q) (fun _ _ _ => 0%Q) (fun _ => False))
      as (s4 & c4 & E4 & Y4 & FS4 & B4 & L4).
    { split; [intros i j m Hi Hk; exact (set_some _ _ _ (Q3 i j m Hi Hk))|intros i j m Hi Hk; exact (set_some _ _ _ (X3 i j m Hi Hk))]. }
    { intros HC i Hi. cbn [n_of dt_of] in *. rewrite Y3 by discriminate. apply Z2; [exact HC|lia]. }
    { intros a i j m Ha Hi Hk. exact (set_some _ _ _ (F3 a i j m Ha Hi Hk)). }
    { split; intros p i m Hp Hi Hk; cbn [n_of np_of] in *; split; apply F3; try reflexivity; try exact Hk; unfold inside; lia. }
    { split; [apply Qle_refl|]. split; [intros x []|now left]. }
    match type of E4 with ?a = _ => match goal with |- context [sweep ?A0 ?d0 ?S0 1 (mx d) (my d) DTDX1 dtdx FM FP GM GP at_x (s3, 0%Q)] =>
      change (sweep A0 d0 S0 1 (mx d) (my d) DTDX1 dtdx FM FP GM GP at_x (s3, 0%Q)) with a end end.
    rewrite E4. cbn [bind].
    set (U3 := of_mem s3 QOLD) in *. set (A3 := of_mem s3 AUX) in *.
    assert (Q4 : forall i j m, inside d i j -> 1 <= m <= meqn d -> s4 (QOLD, (i, j, m)) = Some (tu 0 u i j m)) by (intros; rewrite Y4 by (now left); now apply Q3).
    destruct (corners_ok 1 s4 (or_intror eq_refl) Bx By) as (s5 & E5 & Y5 & Z5).
    { intros i j m Hi Hk. exact (set_some _ _ _ (Q4 i j m Hi Hk)). }
    rewrite E5. cbn [bind].
    assert (Q5 : forall i j m, inside d i j -> 1 <= m <= meqn d -> s5 (QOLD, (i, j, m)) = Some (tu 1 u i j m)).
    { intros i j m Hi Hk. rewrite (Z5 i j m Hi Hk). f_equal. rewrite <- (turned_twice u i j m Hi). apply turned_ext; [|exact Hi|exact Hk].
      intros i' j' m' Hi' Hk'. exact (val_some _ _ _ (Q4 i' j' m' Hi' Hk')). }
    assert (X5 : forall i j m, inside d i j -> 1 <= m <= maux S -> s5 (AUX, (i, j, m)) = Some (X i j m)).
    { intros i j m Hi Hk. rewrite Y5 by discriminate. rewrite Y4 by (right; now left). now apply X3. }
    destruct B4 as [B4a B4b].
    destruct (sweep_ok A d S Hb Hx Hy Hm HS false dtdy s5 c4
      (fun p i m => add A (add A 0 (f_aside A d S true U3 A3 dtdx (i - 1) p 2 m)) (f_aside A d S true U3 A3 dtdx i p 1 m))
      (fun p i m => add A (add A 0 (f_aside A d S true U3 A3 dtdx (i - 1) p 2 m)) (f_aside A d S true U3 A3 dtdx i p 1 m))
      (fun p i m => add A 0 (f_left A d S true U3 A3 dtdx i p m)) (fun p i m => add A 0 (f_right A d S true U3 A3 dtdx i p m))
      (fun x => False \/ exists p, 2 - mbc d <= p <= np_of d true + mbc d - 1 /\ courants A d S true U3 A3 dtdx p x))
      as (s6 & c6 & E6 & Y6 & FS6 & B6 & L6).
    { split; [intros i j m Hi Hk; exact (set_some _ _ _ (Q5 i j m Hi Hk))|intros i j m Hi Hk; exact (set_some _ _ _ (X5 i j m Hi Hk))]. }
    { intros HC i Hi. cbn [n_of dt_of] in *. rewrite Y5 by discriminate. rewrite Y4 by (right; right; split; [exact HC|now right]).
      rewrite Y3 by discriminate. apply Z2; [exact HC|lia]. }
    { intros a i j m Ha Hi Hk. apply (set_eq s4); [now apply FS4|]. apply Y5. intros ->. discriminate Ha. }
    { split; intros p i m Hp Hi Hk; cbn [n_of np_of] in *; rewrite !Y5 by discriminate.
      - exact (B4b i p m Hi Hp Hk).
      - exact (B4a i p m Hi Hp Hk). }
    { exact L4. }
    match type of E6 with ?a = _ => match goal with |- context [sweep ?A0 ?d0 ?S0 2 (my d) (mx d) DTDY1 dtdy GM GP FM FP at_y (s5, c4)] =>
      change (sweep A0 d0 S0 2 (my d) (mx d) DTDY1 dtdy GM GP FM FP at_y (s5, c4)) with a end end.
    rewrite E6. cbn [bind].
    set (U5 := of_mem s5 QOLD) in *. set (A5 := of_mem s5 AUX) in *.
    assert (Q6 : forall i j m, inside d i j -> 1 <= m <= meqn d -> s6 (QOLD, (i, j, m)) = Some (tu 1 u i j m)) by (intros; rewrite Y6 by (now left); now apply Q5).
    assert (X6 : forall i j m, inside d i j -> 1 <= m <= maux S -> s6 (AUX, (i, j, m)) = Some (X i j m)) by (intros; rewrite Y6 by (right; now left); now apply X5).
    destruct (q_update_ok dtdx dtdy s6) as (s7 & E7 & F7 & W7).
    { split; [intros i j m Hi Hk; exact (set_some _ _ _ (Q6 i j m Hi Hk))|intros i j m Hi Hk; exact (set_some _ _ _ (X6 i j m Hi Hk))]. }
    { exact FS6. }
    rewrite E7. cbn [bind]. exists (fun c => s7 (QOLD, c)), c6. split; [reflexivity|].
    assert (G3 : forall i j m, inside d i j -> 1 <= m <= meqn d -> U3 i j m = tu 0 u i j m) by (intros; apply val_some; now apply Q3).
    assert (G5 : forall i j m, inside d i j -> 1 <= m <= meqn d -> U5 i j m = tu 1 u i j m) by (intros; apply val_some; now apply Q5).
    assert (GA3 : forall i j m, inside d i j -> 1 <= m <= maux S -> A3 i j m = X i j m) by (intros; apply val_some; now apply X3).
    assert (GA5 : forall i j m, inside d i j -> 1 <= m <= maux S -> A5 i j m = X i j m) by (intros; apply val_some; now apply X5).
    assert (GA35 : forall i j m, A5 i j m = A3 i j m).
    { intros i j m. apply val_eq. rewrite Y5 by discriminate. apply Y4. right. now left. }
    split; [|split].
    - intros i j m Hi Hj Hk. etransitivity; [exact (W7 i j m Hi Hj Hk)|]. f_equal. cbv zeta.
      assert (Ea : agree (1 - mbc d) (mx d + mbc d) (1 - mbc d) (my d + mbc d) (maux S) A3 X) by (intros i' j' m' H1 H2 H3; apply GA3; [split; assumption|exact H3]).
      assert (Ea5 : agree (1 - mbc d) (mx d + mbc d) (1 - mbc d) (my d + mbc d) (maux S) A5 X) by (intros i' j' m' H1 H2 H3; apply GA5; [split; assumption|exact H3]).
      assert (Eu3 : agree (1 - mbc d) (mx d + mbc d) (1 - mbc d) (my d + mbc d) (meqn d) U3 (tu 0 u)) by (intros i' j' m' H1 H2 H3; apply G3; [split; assumption|exact H3]).
      assert (Eu5 : agree (1 - mbc d) (mx d + mbc d) (1 - mbc d) (my d + mbc d) (meqn d) U5 (tu 1 u)) by (intros i' j' m' H1 H2 H3; apply G5; [split; assumption|exact H3]).
      assert (RL : forall i j, 1 <= j <= my d -> 1 <= i <= mx d + 1 -> f_left A d S true U3 A3 dtdx j i m = row_left A S (meqn d) (tu 0 u) X dtdx j i m /\
                    f_right A d S true U3 A3 dtdx j i m = row_right A S (meqn d) (tu 0 u) X dtdx j i m).
      { intros i' j' Hj' Hi'. apply (row_ext A S (meqn d) (1 - mbc d) (mx d + mbc d) (1 - mbc d) (my d + mbc d) U3 (tu 0 u) A3 X dtdx HS Eu3 Ea); lia. }
      assert (RA : forall i j k, 0 <= j <= my d + 1 -> 1 <= i <= mx d -> f_aside A d S true U3 A3 dtdx j i k m = row_aside A S (meqn d) (tu 0 u) X dtdx j i k m).
      { intros i' j' k Hj' Hi'. apply (row_aside_ext A S (meqn d) (1 - mbc d) (mx d + mbc d) (1 - mbc d) (my d + mbc d) U3 (tu 0 u) A3 X dtdx HS Eu3 Ea); lia. }
      assert (CL : forall i j, 1 <= i <= mx d -> 1 <= j <= my d + 1 -> f_left A d S false U5 A5 dtdy i j m = col_left A S (meqn d) (tu 1 u) X dtdy i j m /\
                    f_right A d S false U5 A5 dtdy i j m = col_right A S (meqn d) (tu 1 u) X dtdy i j m).
      { intros i' j' Hi' Hj'. apply (col_ext A S (meqn d) (1 - mbc d) (mx d + mbc d) (1 - mbc d) (my d + mbc d) U5 (tu 1 u) A5 X dtdy HS Eu5 Ea5); lia. }
      assert (CA : forall i j k, 0 <= i <= mx d + 1 -> 1 <= j <= my d -> f_aside A d S false U5 A5 dtdy i j k m = col_aside A S (meqn d) (tu 1 u) X dtdy i j k m).
      { intros i' j' k Hi' Hj'. apply (col_aside_ext A S (meqn d) (1 - mbc d) (mx d + mbc d) (1 - mbc d) (my d + mbc d) U5 (tu 1 u) A5 X dtdy HS Eu5 Ea5); lia. }
      destruct B6 as [B6a B6b]. cbn [n_of np_of ma_of pa_of mb_of pb_of at_of] in B6a, B6b. unfold at_y in B6a, B6b.
      assert (V1 : val s6 (FM, (i + 1, j, m)) = _) by exact (val_some _ _ _ (proj1 (B6b (i + 1) j m ltac:(lia) ltac:(lia) Hk))).
      assert (V2 : val s6 (FP, (i, j, m)) = _) by exact (val_some _ _ _ (proj2 (B6b i j m ltac:(lia) ltac:(lia) Hk))).
      assert (V3 : val s6 (GM, (i, j + 1, m)) = _) by exact (val_some _ _ _ (proj1 (B6a i (j + 1) m ltac:(lia) ltac:(lia) Hk))).
      assert (V4 : val s6 (GP, (i, j, m)) = _) by exact (val_some _ _ _ (proj2 (B6a i j m ltac:(lia) ltac:(lia) Hk))).
      rewrite V1, V2, V3, V4. clear V1 V2 V3 V4.
      rewrite (val_some _ _ _ (Q6 i j m ltac:(unfold inside; lia) Hk)), turned_inner by lia.
      rewrite !CA by lia. rewrite !RA by lia. rewrite (proj1 (RL (i + 1) j ltac:(lia) ltac:(lia))), (proj2 (RL i j ltac:(lia) ltac:(lia))).
      rewrite (proj1 (CL i (j + 1) ltac:(lia) ltac:(lia))), (proj2 (CL i j ltac:(lia) ltac:(lia))).
      unfold advanced. cbv zeta. destruct (Z.eqb_spec (mcapa S) 0) as [E0|E0]; [reflexivity|].
      rewrite (val_some _ _ _ (X6 i j (mcapa S) ltac:(unfold inside; lia) ltac:(destruct HS as (_ & _ & HC & _); lia))). reflexivity.
    - intros i j m Hi Hk. pose proof (F7 i j m Hi Hk) as Y. unfold set in Y. intros N. assert (N' : s7 (QOLD, (i, j, m)) = None) by exact N. rewrite N' in Y. discriminate Y.
    - eapply lub_ext; [|exact L6]. intros x. unfold courant_numbers. cbn [np_of]. split.
      + intros [[[]|(p & Hp & Hc)]|(p & Hp & Hc)].
        * left. exists p. split; [exact Hp|]. exact (courants_ext true U3 (tu 0 u) A3 X dtdx p x Hp G3 GA3 Hc).
        * right. exists p. split; [exact Hp|]. exact (courants_ext false U5 (tu 1 u) A5 X dtdy p x Hp G5 GA5 Hc).
      + intros [(p & Hp & Hc)|(p & Hp & Hc)].
        * left. right. exists p. split; [exact Hp|]. apply (courants_ext true (tu 0 u) U3 X A3 dtdx p x Hp); [| |exact Hc]; intros; symmetry; [now apply G3|now apply GA3].
        * right. exists p. split; [exact Hp|]. apply (courants_ext false (tu 1 u) U5 X A5 dtdy p x Hp); [| |exact Hc]; intros; symmetry; [now apply G5|now apply GA5].
  Qed.
End Whole.
