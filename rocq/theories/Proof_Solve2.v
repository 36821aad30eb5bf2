(** Patches of a brick: the transformations between neighbors. *)
From Coq Require Import ZArith QArith List Bool Lia Qfield.
From Verif Require Import Base_Float Model_Face Spec_Face Model_Mesh Spec_Mesh Model_Fill Model_FillExec Spec_Fill Model_Solve Spec_Solve Proof_Solve1.
From Verif Require Model_Grid Spec_Grid Spec_Bc Model_Corner Spec_Corner.
Import ListNotations.
Open Scope Z_scope.

Lemma frac_last : forall n, ~ (inject_Z n == 0)%Q -> (inject_Z (n - 1) / inject_Z n == 1 - 1 / inject_Z n)%Q.
Proof. intros n N. unfold Z.sub. rewrite inject_Z_plus. change (inject_Z (- (1))) with (-1)%Q. field. exact N. Qed.
Lemma frac_up : forall a h, ~ (h == 0)%Q -> (inject_Z (a + 1) / h == inject_Z a / h + 1 / h)%Q.
Proof. intros a h N. rewrite inject_Z_plus. change (inject_Z 1) with 1%Q. field. exact N. Qed.
Lemma frac_down : forall a h, ~ (h == 0)%Q -> (inject_Z (a - 1) / h == inject_Z a / h - 1 / h)%Q.
Proof. intros a h N. unfold Z.sub. rewrite inject_Z_plus. change (inject_Z (- (1))) with (-1)%Q. field. exact N. Qed.
Lemma frac_zero : forall h, (inject_Z 0 / h == 0)%Q.
Proof. intros h. unfold Qdiv. apply Qmult_0_l. Qed.
Lemma frac_one : forall a h, ~ (h == 0)%Q -> ((inject_Z a + 1) / h == inject_Z a / h + 1 / h)%Q.
Proof. intros a h N. field. exact N. Qed.

Section Neighbors.
  Variable w : world.
  Variable geo : geometry.
  Variable L : layout.
  Hypothesis LAID : laid_out w geo L.
  Notation ib x := (in_block_x L x).
  Notation jb x := (in_block_y L x).
  Notation n := (2 ^ lvl L).
  Notation h := (inject_Z (2 ^ lvl L)).

  Ltac four f := assert (f = 0 \/ f = 1 \/ f = 2 \/ f = 3) as [-> | [-> | [-> | ->]]] by lia.

  Definition trans_of (f : Z) (b : bool) : ftrans := if b then expand_face_transform_2d f (Spec_Grid.other_side f) else face_transformation_intra.

  Lemma face_ok : forall x y f qx qy, 0 <= f < 4 -> pos L y = wrapped L (beside L (pos L x) (step_of f)) -> right_quadrant L x qx -> right_quadrant L y qy ->
    Spec_Grid.same_size f (Spec_Grid.other_side f) false qx qy (trans_of f (at_block_face L x f)).
  Proof.
    intros x y f qx qy Hf E QX QY. pose proof (block_x w geo L LAID x y _ _ E) as IX. pose proof (block_y w geo L LAID x y _ _ E) as IY.
    pose proof (block_bound w geo L LAID x) as [BX BY]. pose proof (h_nonzero w geo L LAID) as N.
    pose proof QX as (L0 & X0 & Y0 & _). pose proof QY as (L1 & X1 & Y1 & _). cbv zeta in X0, Y0, X1, Y1.
    split; [congruence|]. split; [exact Hf|]. split; [four f; cbn; lia|]. split; [exact (quadrant_ok w geo L LAID x qx QX)|]. split; [exact (quadrant_ok w geo L LAID y qy QY)|].
    unfold touches_face, along, Spec_Face.across, width. rewrite L0, L1.
    four f; cbn [step_of fst snd] in IX, IY; rewrite ?(turn_0 L _ BX), ?(turn_up L _ BX), ?(turn_down L _ BX) in IX; rewrite ?(turn_0 L _ BY), ?(turn_up L _ BY), ?(turn_down L _ BY) in IY;
    cbn [at_block_face trans_of Spec_Grid.other_side].
    - destruct (Z.eqb_spec (ib x) 0) as [EB|EB]; cbv iota; [left|right].
      + split; [rewrite X0, EB; apply frac_zero|]. split; [rewrite X1, IX; apply frac_last, N|]. split; [reflexivity|]. rewrite Y0, Y1, IY. reflexivity.
      + repeat (split; [reflexivity|]). split; [rewrite Y0, Y1, IY; reflexivity|]. cbn [Z.odd]. rewrite X0, X1, IX. apply frac_down, N.
    - destruct (Z.eqb_spec (ib x) (n - 1)) as [EB|EB]; cbn [trans_of]; [left|right].
      + split; [rewrite X0, EB; apply frac_last, N|]. split; [rewrite X1, IX; apply frac_zero|]. split; [reflexivity|]. rewrite Y0, Y1, IY. reflexivity.
      + repeat (split; [reflexivity|]). split; [rewrite Y0, Y1, IY; reflexivity|]. cbn [Z.odd]. rewrite X0, X1, IX. apply frac_up, N.
    - destruct (Z.eqb_spec (jb x) 0) as [EB|EB]; cbn [trans_of]; [left|right].
      + split; [rewrite Y0, EB; apply frac_zero|]. split; [rewrite Y1, IY; apply frac_last, N|]. split; [reflexivity|]. rewrite X0, X1, IX. reflexivity.
      + repeat (split; [reflexivity|]). split; [rewrite X0, X1, IX; reflexivity|]. cbn [Z.odd]. rewrite Y0, Y1, IY. apply frac_down, N.
    - destruct (Z.eqb_spec (jb x) (n - 1)) as [EB|EB]; cbn [trans_of]; [left|right].
      + split; [rewrite Y0, EB; apply frac_last, N|]. split; [rewrite Y1, IY; apply frac_zero|]. split; [reflexivity|]. rewrite X0, X1, IX. reflexivity.
      + repeat (split; [reflexivity|]). split; [rewrite X0, X1, IX; reflexivity|]. cbn [Z.odd]. rewrite Y0, Y1, IY. apply frac_up, N.
  Qed.

  (** corners *)
  Definition iface (x : patch) (c : Z) : Z :=
    let a := at_block_face L x (cfx c) in let b := at_block_face L x (cfy c) in
    if a && b then -1 else if a then cfx c else if b then cfy c else -1.
  Definition via (x : patch) (c : Z) : Z := if iface x c <? 0 then cfx c else iface x c.
  Definition up (f c : Z) : bool := if f <? 2 then c / 2 =? 1 else Z.odd c.

  Lemma via_ok : forall x c, 0 <= c < 4 -> 0 <= via x c < 4 /\ (via x c = cfx c \/ via x c = cfy c) /\ Spec_Corner.corner_on (via x c) (up (via x c) c) = c.
  Proof.
    intros x c Hc. unfold via, iface. cbv zeta.
    four c; destruct (at_block_face L x _), (at_block_face L x _); cbn; repeat split; try lia; auto.
  Qed.

  Lemma corner_ok : forall x y c qx qy, 0 <= c < 4 -> pos L y = wrapped L (beside L (pos L x) (corner_step c)) -> right_quadrant L x qx -> right_quadrant L y qy ->
    Spec_Corner.touches_corner (via x c) (Spec_Grid.other_side (via x c)) false (up (via x c) c) qx qy
      (Model_Corner.mkC (Model_Grid.mkT qx qy (trans_of (iface x c) (0 <=? iface x c))) (iface x c) c (at_block_face L x (cfx c) && at_block_face L x (cfy c))).
  Proof.
    intros x y c qx qy Hc E QX QY. pose proof (block_x w geo L LAID x y _ _ E) as IX. pose proof (block_y w geo L LAID x y _ _ E) as IY.
    pose proof (block_bound w geo L LAID x) as [BX BY]. pose proof (h_nonzero w geo L LAID) as N. pose proof (via_ok x c Hc) as (V1 & _ & V3).
    pose proof QX as (L0 & X0 & Y0 & U0 & W0). pose proof QY as (L1 & X1 & Y1 & U1 & W1). cbv zeta in *.
    unfold Spec_Corner.touches_corner. split; [exact V1|]. split; [clear - V1; unfold Spec_Grid.other_side; four (via x c); lia|].
    split; [exact (quadrant_ok w geo L LAID x qx QX)|]. split; [exact (quadrant_ok w geo L LAID y qy QY)|]. split; [reflexivity|]. split; [reflexivity|].
    clear V1 V3. cbv zeta. unfold touches_face, along, Spec_Face.across, width. rewrite L0, L1. unfold via, iface. cbv zeta. cbn [Model_Corner.block_iface Model_Corner.icorner Model_Corner.is_block_corner Model_Corner.face_data Model_Grid.transform].
    four c; cbn [corner_step fst snd Z.odd] in IX, IY;
    [change (0 / 2 =? 1) with false in IY; change (cfx 0) with 0; change (cfy 0) with 2|change (1 / 2 =? 1) with false in IY; change (cfx 1) with 1; change (cfy 1) with 2
    |change (2 / 2 =? 1) with true in IY; change (cfx 2) with 0; change (cfy 2) with 3|change (3 / 2 =? 1) with true in IY; change (cfx 3) with 1; change (cfy 3) with 3];
    cbv iota in IX, IY; rewrite ?(turn_up L _ BX), ?(turn_down L _ BX) in IX; rewrite ?(turn_up L _ BY), ?(turn_down L _ BY) in IY; cbn [at_block_face].
    all: match type of IX with _ = (if ?b then _ else _) => destruct b eqn:EX end; match type of IY with _ = (if ?b then _ else _) => destruct b eqn:EY end;
      try rewrite Z.eqb_eq in EX; try rewrite Z.eqb_eq in EY; cbn [andb]; cbv iota;
      repeat match goal with |- context [?a <? ?b] => let e := eval compute in (a <? b) in change (a <? b) with e | |- context [?a <=? ?b] => let e := eval compute in (a <=? b) in change (a <=? b) with e end; cbv iota;
      unfold up; repeat match goal with |- context [?a <? ?b] => let e := eval compute in (a <? b) in change (a <? b) with e end; cbv iota;
      repeat match goal with |- context [?a / 2 =? 1] => let e := eval compute in (a / 2 =? 1) in change (a / 2 =? 1) with e end; cbn [Z.odd negb Spec_Grid.other_side trans_of];
      rewrite ?X0, ?X1, ?Y0, ?Y1, ?U1, ?W1, ?IX, ?IY, ?EX, ?EY, ?frac_last, ?frac_zero, ?frac_up, ?frac_down by exact N.
    all: try (left; repeat (split; [reflexivity|]); reflexivity).
    all: right; split; [lia|]; repeat (split; [reflexivity|]); try (left; repeat split; reflexivity); right; repeat (split; [reflexivity|]).
    all: rewrite ?frac_one, ?frac_last, ?frac_zero by exact N; split; reflexivity.
  Qed.

  (** cells across faces and corners *)
  Lemma face_cells : forall f m dep t, 0 <= f < 4 ->
    fst (Spec_Face.ghost_cell f m dep t) = fst (Spec_Face.inner_cell (Spec_Grid.other_side f) m dep t) + fst (step_of f) * m /\
    snd (Spec_Face.ghost_cell f m dep t) = snd (Spec_Face.inner_cell (Spec_Grid.other_side f) m dep t) + snd (step_of f) * m.
  Proof. intros f m dep t Hf. four f; cbn [ghost_cell inner_cell Spec_Grid.other_side step_of fst snd]; split; lia. Qed.
  Lemma corner_cells : forall x c m a b, 0 <= c < 4 -> let f := via x c in let u := up f c in
    let g := Spec_Face.ghost_cell f m a (Spec_Corner.past u m b) in
    let p := Spec_Face.inner_cell (Spec_Grid.other_side f) m a (Spec_Corner.from_end (negb u) m b) in
    fst g = fst p + fst (corner_step c) * m /\ snd g = snd p + snd (corner_step c) * m.
  Proof.
    intros x c m a b Hc. cbv zeta. pose proof (via_ok x c Hc) as (V1 & V2 & _). set (f := via x c) in *. clearbody f.
    four c; (destruct V2 as [-> | ->]);
    match goal with |- context [up ?f ?c] => let e := eval compute in (up f c) in change (up f c) with e end;
    match goal with |- context [corner_step ?c] => let e := eval compute in (corner_step c) in change (corner_step c) with e end;
    match goal with |- context [ghost_cell ?f _ _ _] => let e := eval compute in f in change f with e end;
    cbn [ghost_cell inner_cell Spec_Grid.other_side Spec_Corner.past Spec_Corner.from_end negb fst snd]; split; lia.
  Qed.
End Neighbors.
