(** Values continued beyond a rectangle and places of patches: going around, images, quadrants. *)
From Coq Require Import ZArith QArith List Bool Lia.
From Verif Require Import Base_Float Model_Face Spec_Face Model_Mesh Spec_Mesh Model_Fill Model_FillExec Spec_Fill Model_Solve Spec_Solve.
From Verif Require Model_Grid Spec_Grid Spec_Bc Model_Corner Spec_Corner.
Import ListNotations.
Open Scope Z_scope.

(** ** One direction *)
Lemma stands_around : forall lo hi n i i' k, 0 < n -> i = i' + k * n -> stands true lo hi n i = stands true lo hi n i'.
Proof. intros lo hi n i i' k Hn ->. unfold stands. replace (i' + k * n - 1) with (i' - 1 + k * n) by lia. rewrite Z.mod_add by lia. reflexivity. Qed.

Definition around (per : bool) (A p : Z) : Z := if per then p mod A else p.
Lemma axis_around : forall per lo hi A m p a i, 0 < A -> 0 < m ->
  stands per lo hi (A * m) (around per A (p + a) * m + i) = stands per lo hi (A * m) (p * m + (i + a * m)) /\
  seen_in_mirror per lo hi (A * m) (around per A (p + a) * m + i) = seen_in_mirror per lo hi (A * m) (p * m + (i + a * m)).
Proof.
  intros per lo hi A m p a i HA Hm. destruct per; cbn [around].
  - split; [|reflexivity]. symmetry. apply (stands_around _ _ _ _ _ ((p + a) / A)); [nia|]. pose proof (Z.div_mod (p + a) A ltac:(lia)). nia.
  - replace ((p + a) * m + i) with (p * m + (i + a * m)) by lia. split; reflexivity.
Qed.

Definition real (s : Spec_Bc.side) : Prop := s <> Spec_Bc.Continues.
(** the boundary conditions of a patch agree with those of the rectangle *)
Lemma axis_image : forall (per : bool) lo hi A m p i, real lo -> real hi -> 0 <= p < A -> 1 <= m -> 1 - m <= i <= 2 * m ->
  let lo' := if negb per && (p =? 0) then lo else Spec_Bc.Continues in
  let hi' := if negb per && (p =? A - 1) then hi else Spec_Bc.Continues in
  let i' := Spec_Bc.image lo' hi' m i in
  stands per lo hi (A * m) (p * m + i) = stands per lo hi (A * m) (p * m + i') /\
  seen_in_mirror per lo hi (A * m) (p * m + i) = Spec_Bc.mirrored lo' hi' m i /\
  seen_in_mirror per lo hi (A * m) (p * m + i') = false.
Proof.
  intros per lo hi A m p i RL RH Hp Hm Hi. destruct per; cbn [negb andb].
  - cbv zeta. unfold Spec_Bc.image, seen_in_mirror, Spec_Bc.mirrored. cbn [negb andb].
    destruct (Z.ltb_spec i 1), (Z.ltb_spec m i); repeat split; reflexivity.
  - unfold stands, seen_in_mirror. cbn [negb andb].
    destruct (Z.eqb_spec p 0) as [P0|P0], (Z.eqb_spec p (A - 1)) as [P1|P1]; cbv zeta;
    assert (0 <= p * m) by nia; assert (p * m + m <= A * m) by nia;
    (assert (p <> 0 -> m <= p * m) as Q0 by (intros; nia)); (assert (p <> A - 1 -> p * m + 2 * m <= A * m) as Q1 by (intros; nia));
    (assert (p = 0 -> p * m = 0) as Q2 by (intros ->; lia)); (assert (p = A - 1 -> A * m = p * m + m) as Q3 by (intros ->; lia));
    try specialize (Q0 P0); try specialize (Q1 P1); try specialize (Q2 P0); try specialize (Q3 P1);
    set (pm := p * m) in *; set (Am := A * m) in *; clearbody pm Am;
    unfold Spec_Bc.image, Spec_Bc.mirrored;
    destruct lo; try (elim RL; reflexivity); destruct hi; try (elim RH; reflexivity);
    destruct (Z.ltb_spec i 1); destruct (Z.ltb_spec m i); try lia;
    repeat match goal with |- context [?a <? ?b] => destruct (Z.ltb_spec a b); try lia end; cbn [andb orb]; repeat split; try reflexivity; try lia.
Qed.

Section Places.
  Variable w : world.
  Variable geo : geometry.
  Variable L : layout.
  Hypothesis LAID : laid_out w geo L.
  Variable m : Z.
  Hypothesis Hm : 1 <= m.
  Variable mthbc : Z -> Z.
  Variable u : field.
  Notation A := (across_x L).
  Notation B := (across_y L).
  Notation R := (rect L m mthbc).

  (** the value at cell (i, j) of a patch, ghost cells included *)
  Definition value_at (x : patch) (i j k : Z) : Q := continued R u (col L m x i) (row L m x j) k.

  Lemma pow_pos : 0 < 2 ^ lvl L. Proof. destruct LAID as (H & _). apply Z.pow_pos_nonneg; lia. Qed.
  Lemma A_pos : 0 < A. Proof. clear Hm. pose proof pow_pos. destruct LAID as (_ & HB & _). unfold across_x. nia. Qed.
  Lemma B_pos : 0 < B. Proof. clear Hm. pose proof pow_pos. destruct LAID as (_ & _ & HB & _). unfold across_y. nia. Qed.

  Lemma value_around : forall x y a b i j k, pos L y = wrapped L (moved (pos L x) a b) -> value_at y i j k = value_at x (i + a * m) (j + b * m) k.
  Proof.
    intros x y a b i j k E. unfold value_at, continued. cbn zeta.
    destruct (axis_around (per_x L) (sides R 0) (sides R 1) A m (fst (pos L x)) a i A_pos ltac:(lia)) as [X1 X2].
    destruct (axis_around (per_y L) (sides R 2) (sides R 3) B m (snd (pos L x)) b j B_pos ltac:(lia)) as [Y1 Y2].
    unfold around in *. unfold col, row. rewrite E. unfold wrapped, moved. cbn [fst snd]. change (nx R) with (A * m). change (ny R) with (B * m).
    change (perx R) with (per_x L). change (pery R) with (per_y L). rewrite X1, X2, Y1, Y2. reflexivity.
  Qed.

  Lemma inside_true : forall n c, 0 <= c < n -> inside n c = true.
  Proof. intros n c H. unfold inside. destruct (Z.leb_spec 0 c), (Z.ltb_spec c n); try reflexivity; lia. Qed.
  Lemma edges : forall x, is_patch w x ->
    edge w x 0 = negb (per_x L) && (fst (pos L x) =? 0) /\ edge w x 1 = negb (per_x L) && (fst (pos L x) =? A - 1) /\
    edge w x 2 = negb (per_y L) && (snd (pos L x) =? 0) /\ edge w x 3 = negb (per_y L) && (snd (pos L x) =? B - 1).
  Proof.
    intros x Hx. destruct LAID as (_ & _ & _ & H). destruct (H x Hx) as (_ & HX & HY & HF & _).
    assert (G : forall f, 0 <= f < 4 -> edge w x f = negb (exists_at L (beside L (pos L x) (step_of f)))).
    { intros f Hf. destruct (HF f Hf) as (_ & K). cbn zeta in K. unfold edge. destruct (exists_at L _).
      - destruct K as (y & _ & -> & _). reflexivity.
      - rewrite K. reflexivity. }
    rewrite !G by lia. unfold exists_at, beside, moved, step_of. cbn [fst snd].
    replace (snd (pos L x) + 0) with (snd (pos L x)) by lia. replace (fst (pos L x) + 0) with (fst (pos L x)) by lia.
    rewrite (inside_true _ _ HX), (inside_true _ _ HY). rewrite !orb_true_r, !andb_true_r, !andb_true_l. rewrite !negb_orb.
    unfold inside. repeat split; (destruct (per_x L); [reflexivity|]) || (destruct (per_y L); [reflexivity|]); cbn [negb andb];
    repeat match goal with |- context [?a <=? ?b] => destruct (Z.leb_spec a b) | |- context [?a <? ?b] => destruct (Z.ltb_spec a b) | |- context [?a =? ?b] => destruct (Z.eqb_spec a b) end;
    cbn [negb andb]; try reflexivity; lia.
  Qed.

  Lemma value_image : forall x i j k, is_patch w x -> 1 - m <= i <= 2 * m -> 1 - m <= j <= 2 * m ->
    let s := Spec_Bc.side_of mthbc (edge w x) in
    let v := value_at x (Spec_Bc.image (s 0) (s 1) m i) (Spec_Bc.image (s 2) (s 3) m j) k in
    value_at x i j k = if Spec_Bc.mirrored (s 0) (s 1) m i && (k =? 2) || Spec_Bc.mirrored (s 2) (s 3) m j && (k =? 3) then (- v)%Q else v.
  Proof.
    intros x i j k Hx Hi Hj. cbn zeta. destruct (edges x Hx) as (E0 & E1 & E2 & E3). unfold Spec_Bc.side_of. rewrite E0, E1, E2, E3.
    assert (RS : forall f, real (sides R f)) by (intros f; cbn; unfold real; destruct (mthbc f =? 3); discriminate).
    destruct LAID as (_ & _ & _ & H). destruct (H x Hx) as (_ & HX & HY & _).
    pose proof (axis_image (per_x L) (sides R 0) (sides R 1) A m (fst (pos L x)) i (RS 0) (RS 1) HX Hm Hi) as (X1 & X2 & X3).
    pose proof (axis_image (per_y L) (sides R 2) (sides R 3) B m (snd (pos L x)) j (RS 2) (RS 3) HY Hm Hj) as (Y1 & Y2 & Y3).
    change (sides R 0) with (if mthbc 0 =? 3 then Spec_Bc.Wall else Spec_Bc.Open) in *. change (sides R 1) with (if mthbc 1 =? 3 then Spec_Bc.Wall else Spec_Bc.Open) in *.
    change (sides R 2) with (if mthbc 2 =? 3 then Spec_Bc.Wall else Spec_Bc.Open) in *. change (sides R 3) with (if mthbc 3 =? 3 then Spec_Bc.Wall else Spec_Bc.Open) in *.
    unfold value_at, continued, col, row. cbn zeta. change (nx R) with (A * m). change (ny R) with (B * m).
    change (perx R) with (per_x L). change (pery R) with (per_y L).
    change (sides R 0) with (if mthbc 0 =? 3 then Spec_Bc.Wall else Spec_Bc.Open) in *. change (sides R 1) with (if mthbc 1 =? 3 then Spec_Bc.Wall else Spec_Bc.Open) in *.
    change (sides R 2) with (if mthbc 2 =? 3 then Spec_Bc.Wall else Spec_Bc.Open) in *. change (sides R 3) with (if mthbc 3 =? 3 then Spec_Bc.Wall else Spec_Bc.Open) in *.
    rewrite X3, Y3. cbn [andb orb]. rewrite <- X1, <- Y1, X2, Y2. reflexivity.
  Qed.

  (** ** Quadrants *)
  Definition turn (a s : Z) : Z := (a + s) mod 2 ^ lvl L.
  Lemma block_x : forall x y a b, pos L y = wrapped L (moved (pos L x) a b) -> in_block_x L y = turn (in_block_x L x) a.
  Proof.
    clear Hm. intros x y a b E. unfold in_block_x, turn. rewrite E. unfold wrapped, moved. cbn [fst snd]. pose proof pow_pos. pose proof A_pos.
    rewrite Z.add_mod_idemp_l by lia. destruct (per_x L); [|reflexivity]. unfold across_x. rewrite Z.mul_comm. destruct LAID as (_ & HB & _).
    rewrite Z.rem_mul_r by lia. rewrite Z.mul_comm, Z.mod_add by lia. rewrite Z.mod_mod by lia. reflexivity.
  Qed.
  Lemma block_y : forall x y a b, pos L y = wrapped L (moved (pos L x) a b) -> in_block_y L y = turn (in_block_y L x) b.
  Proof.
    clear Hm. intros x y a b E. unfold in_block_y, turn. rewrite E. unfold wrapped, moved. cbn [fst snd]. pose proof pow_pos. pose proof B_pos.
    rewrite Z.add_mod_idemp_l by lia. destruct (per_y L); [|reflexivity]. unfold across_y. rewrite Z.mul_comm. destruct LAID as (_ & _ & HB & _).
    rewrite Z.rem_mul_r by lia. rewrite Z.mul_comm, Z.mod_add by lia. rewrite Z.mod_mod by lia. reflexivity.
  Qed.
  Lemma block_bound : forall x, 0 <= in_block_x L x < 2 ^ lvl L /\ 0 <= in_block_y L x < 2 ^ lvl L.
  Proof. intros x. pose proof pow_pos. split; apply Z.mod_pos_bound; assumption. Qed.
  Lemma turn_0 : forall a, 0 <= a < 2 ^ lvl L -> turn a 0 = a.
  Proof. intros a H. unfold turn. rewrite Z.add_0_r. apply Z.mod_small. exact H. Qed.
  Lemma turn_up : forall a, 0 <= a < 2 ^ lvl L -> turn a 1 = if a =? 2 ^ lvl L - 1 then 0 else a + 1.
  Proof. intros a H. unfold turn. destruct (Z.eqb_spec a (2 ^ lvl L - 1)) as [->|N]. - replace (2 ^ lvl L - 1 + 1) with (2 ^ lvl L) by lia. apply Z.mod_same. lia. - apply Z.mod_small. lia. Qed.
  Lemma turn_down : forall a, 0 <= a < 2 ^ lvl L -> turn a (-1) = if a =? 0 then 2 ^ lvl L - 1 else a - 1.
  Proof.
    intros a H. unfold turn. destruct (Z.eqb_spec a 0) as [->|N]; [|apply Z.mod_small; lia].
    replace (0 + -1) with (2 ^ lvl L - 1 + (-1) * 2 ^ lvl L) by lia. rewrite Z.mod_add by lia. apply Z.mod_small. lia.
  Qed.
  Lemma h_nonzero : ~ (inject_Z (2 ^ lvl L) == 0)%Q.
  Proof. pose proof pow_pos. intros E. unfold Qeq in E. cbn in E. lia. Qed.
  Lemma quadrant_ok : forall x q, right_quadrant L x q -> quadrant D2 q.
  Proof.
    intros x q (E0 & E1 & E2 & _). destruct (block_bound x) as [Bx By]. destruct LAID as (Hl & _). split; [rewrite E0; exact Hl|]. rewrite E0.
    split; [exists (in_block_x L x); split; assumption|]. split; [exists (in_block_y L x); split; assumption|discriminate].
  Qed.
End Places.
