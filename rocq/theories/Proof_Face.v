(** Proofs about the index transformations of Model_Face.v. *)
From Coq Require Import ZArith QArith Qpower Lia Lqa List Bool Setoid Morphisms Qfield.
From Verif Require Import Base_Float Model_Face Spec_Face.
Import ListNotations.
Open Scope Z_scope.

Ltac qz := unfold Qeq, Qminus, Qplus, Qopp, Qmult, inject_Z; cbn [Qnum Qden]; lia.

(** ** Exactness *)

Lemma is_b64_half : forall n, Z.abs n < 2 ^ 53 -> is_b64 (n # 2).
Proof.
  intros n Hn. exists n, (-1). split; [exact Hn|]. split; [lia|].
  unfold Qeq; simpl. lia.
Qed.

Section Exact.
  Variable rnd : Q -> Q.
  Hypothesis Hrnd : rounding rnd.

  Lemma rnd_half : forall x n, (x == n # 2)%Q -> Z.abs n < 2 ^ 53 -> (rnd x == n # 2)%Q.
  Proof.
    intros x n Hx Hn. transitivity x; [|exact Hx]. apply Hrnd.
    destruct (is_b64_half n Hn) as (m & e & H1 & H2 & H3).
    exists m, e. repeat split; try tauto. rewrite Hx. exact H3.
  Qed.

  Lemma rnd_int : forall x n, (x == inject_Z n)%Q -> Z.abs n < 2 ^ 52 -> (rnd x == inject_Z n)%Q.
  Proof.
    intros x n Hx Hn.
    assert (E : (inject_Z n == (2 * n) # 2)%Q) by qz.
    rewrite E in *. apply rnd_half; [exact Hx| lia].
  Qed.

  Lemma dbl_int : forall z, Z.abs z < 2 ^ 52 -> (dbl rnd z == inject_Z z)%Q.
  Proof. intros. apply rnd_int; [reflexivity| lia]. Qed.
End Exact.

Lemma in_intb_true : forall z, in_int z -> in_intb z = true.
Proof. unfold in_int, in_intb. intros. lia. Qed.

Lemma in_intb_spec : forall z, in_intb z = true <-> in_int z.
Proof. unfold in_int, in_intb. intros. lia. Qed.

Lemma c_int_exact : forall x z, (x == inject_Z z)%Q -> in_int z -> c_int x = Some z.
Proof.
  intros [n d] z Hx Hz. unfold c_int, Qeq in *. simpl in *.
  assert (E : Z.quot n (Zpos d) = z).
  { rewrite Z.mul_1_r in Hx. subst n. apply Z.quot_mul. lia. }
  rewrite E, in_intb_true by assumption. reflexivity.
Qed.

Lemma inject_Z_nz : forall z, z <> 0 -> ~ (inject_Z z == 0)%Q.
Proof. intros z Hz H. apply Hz. unfold Qeq in H. simpl in H. lia. Qed.

Lemma half_split : forall n, (n # 2 == inject_Z n / 2)%Q.
Proof. intros. unfold Qeq, Qdiv, Qmult, Qinv, inject_Z. simpl. lia. Qed.

Lemma pow2_pos : forall l, 0 <= l -> 0 < 2 ^ l.
Proof. intros. apply Z.pow_pos_nonneg; lia. Qed.

Lemma inject_Z_sub : forall a b, (inject_Z (a - b) == inject_Z a - inject_Z b)%Q.
Proof. intros. qz. Qed.

Ltac injs := repeat (rewrite inject_Z_sub || rewrite inject_Z_plus ||
                     rewrite inject_Z_mult || rewrite inject_Z_opp).

(** ** Scalar steps, in units of half a cell *)
Section Scalar.
  Variable rnd : Q -> Q.
  Hypothesis Hrnd : rounding rnd.
  Notation fadd := (fadd rnd). Notation fsub := (fsub rnd).
  Notation fmul := (fmul rnd). Notation dbl := (dbl rnd).

  Lemma R_ok : forall lev m, 0 <= lev <= 30 -> 0 < m -> 2 ^ lev * m <= 2 ^ 49 ->
    (fmul (dbl (Z.shiftl 1 lev)) (dbl m) == inject_Z (2 ^ lev * m))%Q.
  Proof.
    intros lev m Hl Hm HR. pose proof (pow2_pos lev ltac:(lia)).
    assert (m <= 2 ^ 49) by nia. assert (2 ^ lev <= 2 ^ 49) by nia.
    rewrite Z.shiftl_mul_pow2, Z.mul_1_l by lia.
    unfold Model_Face.fmul. apply (rnd_int rnd Hrnd); [|rewrite Z.abs_eq; nia].
    rewrite !(dbl_int rnd Hrnd) by lia. rewrite inject_Z_mult. reflexivity.
  Qed.

  Lemma lower_R : forall lev m low a R, 0 <= lev <= 30 -> 0 < m -> 2 ^ lev * m <= 2 ^ 49 ->
    0 <= a < 2 ^ lev -> (low == inject_Z a / inject_Z (2 ^ lev))%Q ->
    (R == inject_Z (2 ^ lev * m))%Q ->
    (fmul low R == inject_Z (a * m))%Q.
  Proof.
    intros lev m low a R Hl Hm HR Ha Hlow ER. pose proof (pow2_pos lev ltac:(lia)).
    unfold Model_Face.fmul. apply (rnd_int rnd Hrnd).
    - rewrite Hlow, ER. rewrite !inject_Z_mult. field. apply inject_Z_nz. lia.
    - rewrite Z.abs_eq; nia.
  Qed.

  Lemma my_coord_ok : forall lev m low a R i based, 0 <= lev <= 30 -> 0 < m ->
    2 ^ lev * m <= 2 ^ 49 -> 0 <= a < 2 ^ lev ->
    (low == inject_Z a / inject_Z (2 ^ lev))%Q ->
    (R == inject_Z (2 ^ lev * m))%Q -> in_int i -> 0 <= based <= 1 ->
    (my_coord rnd low R i based == (2 * (a * m + i) - based) # 2)%Q.
  Proof.
    intros lev m low a R i based Hl Hm HR Ha Hlow ER Hi Hb.
    unfold in_int, int_min, int_max in Hi.
    assert (0 <= a * m <= 2 ^ 49) by nia.
    unfold my_coord. 
    assert (E1 : (fmul low R == inject_Z (a * m))%Q) by (eapply lower_R; eauto).
    assert (E2 : (dbl i == inject_Z i)%Q) by (apply (dbl_int rnd Hrnd); lia).
    assert (E3 : (fmul (1 # 2) (dbl based) == based # 2)%Q).
    { apply (rnd_half rnd Hrnd); [|lia].
      rewrite (dbl_int rnd Hrnd) by lia. qz. }
    assert (E4 : (fadd (fmul low R) (dbl i) == inject_Z (a * m + i))%Q).
    { apply (rnd_int rnd Hrnd); [|lia]. rewrite E1, E2, inject_Z_plus. reflexivity. }
    apply (rnd_half rnd Hrnd); [|lia].
    rewrite E4, E3. qz.
  Qed.

  Lemma back_coord_ok : forall lev m low a R t n i' based, 0 <= lev <= 30 -> 0 < m ->
    2 ^ lev * m <= 2 ^ 49 -> 0 <= a < 2 ^ lev ->
    (low == inject_Z a / inject_Z (2 ^ lev))%Q ->
    (R == inject_Z (2 ^ lev * m))%Q -> 0 <= based <= 1 ->
    (t == n # 2)%Q -> Z.abs n <= 2 ^ 52 ->
    n = 2 * (a * m + i') - based -> in_int i' ->
    back_coord rnd t low R based = Some i'.
  Proof.
    intros lev m low a R t n i' based Hl Hm HR Ha Hlow ER Hb Ht Hn En Hi.
    assert (0 <= a * m <= 2 ^ 49) by nia.
    unfold back_coord. apply c_int_exact; [|exact Hi].
    unfold in_int, int_min, int_max in Hi.
    assert (E1 : (fmul low R == inject_Z (a * m))%Q) by (eapply lower_R; eauto).
    assert (E3 : (fmul (1 # 2) (dbl based) == based # 2)%Q).
    { apply (rnd_half rnd Hrnd); [|lia].
      rewrite (dbl_int rnd Hrnd) by lia. qz. }
    assert (E4 : (fsub t (fmul low R) == (2 * i' - based) # 2)%Q).
    { apply (rnd_half rnd Hrnd); [|lia]. rewrite E1, Ht. subst n.
      qz. }
    apply (rnd_int rnd Hrnd); [|lia].
    rewrite E4, E3. qz.
  Qed.

  Lemma trans_coord_ok : forall rev x R n r, (x == n # 2)%Q -> (R == inject_Z r)%Q ->
    Z.abs n <= 2 ^ 51 -> 0 <= r <= 2 ^ 49 ->
    (trans_coord rnd rev x R == (if rev =? 0 then n else 2 * r - n) # 2)%Q.
  Proof.
    intros rev x R n r Hx HR Hn Hr. unfold trans_coord.
    destruct (rev =? 0); [exact Hx|].
    apply (rnd_half rnd Hrnd); [|lia]. rewrite Hx, HR.
    qz.
  Qed.

  Definition normal_int (code n r : Z) : Z :=
    if code =? 0 then - n else if code =? 1 then n + 2 * r
    else if code =? 2 then n - 2 * r else 4 * r - n.

  Lemma normal_coord_ok : forall code x R n r, (x == n # 2)%Q -> (R == inject_Z r)%Q ->
    Z.abs n <= 2 ^ 51 -> 0 <= r <= 2 ^ 49 -> 0 <= code <= 3 ->
    exists t, normal_coord rnd code x R = Some t /\ (t == normal_int code n r # 2)%Q.
  Proof.
    intros code x R n r Hx HR Hn Hr Hc. unfold normal_coord, normal_int.
    assert (E : (fmul 2 R == inject_Z (2 * r))%Q).
    { apply (rnd_int rnd Hrnd); [|lia]. rewrite HR, inject_Z_mult. reflexivity. }
    destruct (code =? 0) eqn:C0; [|destruct (code =? 1) eqn:C1; [|destruct (code =? 2) eqn:C2;
      [|destruct (code =? 3) eqn:C3; [|lia]]]];
    eexists; (split; [reflexivity|]);
    apply (rnd_half rnd Hrnd); try lia;
    rewrite ?E, ?Hx, ?HR; qz.
  Qed.

  Lemma same_coord_ok : forall lev m lowi ai lowo ao i i', 0 <= lev <= 30 -> 0 < m ->
    2 ^ lev * m <= 2 ^ 49 -> 0 <= ai < 2 ^ lev -> 0 <= ao < 2 ^ lev ->
    (lowi == inject_Z ai / inject_Z (2 ^ lev))%Q ->
    (lowo == inject_Z ao / inject_Z (2 ^ lev))%Q ->
    i' = i + (ai - ao) * m -> in_int (i' - i) ->
    same_coord rnd lowi lowo (dbl (Z.shiftl 1 lev)) m i = Some i'.
  Proof.
    intros lev m lowi ai lowo ao i i' Hl Hm HR Hai Hao Hlowi Hlowo Ei Hin.
    pose proof (pow2_pos lev ltac:(lia)).
    assert (m <= 2 ^ 49) by nia. assert (2 ^ lev <= 2 ^ 30) by (apply Z.pow_le_mono_r; lia).
    unfold same_coord. rewrite (c_int_exact _ (i' - i)); [simpl; f_equal; lia| |assumption].
    assert (ED : (fsub lowi lowo == inject_Z (ai - ao) / inject_Z (2 ^ lev))%Q).
    { unfold Model_Face.fsub.
      assert (EX : (lowi - lowo == inject_Z (ai - ao) / inject_Z (2 ^ lev))%Q).
      { rewrite Hlowi, Hlowo. injs. field. apply inject_Z_nz; lia. }
      transitivity (lowi - lowo)%Q; [|exact EX]. apply Hrnd.
      exists (ai - ao), (- lev). split; [lia|]. split; [lia|]. rewrite EX.
      unfold Qdiv. apply Qmult_comp; [reflexivity|].
      rewrite Qpower_opp. apply Qinv_comp. apply (Zpower_Qpower 2 lev). lia. }
    assert (ED2 : (fmul (fsub lowi lowo) (dbl (Z.shiftl 1 lev)) == inject_Z (ai - ao))%Q).
    { apply (rnd_int rnd Hrnd); [|lia]. rewrite ED, Z.shiftl_mul_pow2, Z.mul_1_l by lia.
      rewrite (dbl_int rnd Hrnd) by lia. field. apply inject_Z_nz; lia. }
    unfold in_int, int_min, int_max in Hin.
    apply (rnd_int rnd Hrnd); [|lia].
    rewrite ED2, (dbl_int rnd Hrnd) by lia. rewrite <- inject_Z_mult.
    replace (i' - i) with ((ai - ao) * m) by lia. reflexivity.
  Qed.
End Scalar.

(** ** Axis-wise reading of patches *)
Definition low (p : patch) (a : Z) : Q := sel a (xlower p) (ylower p) (zlower p).
Definition ndim (d : dim) : Z := match d with D2 => 2 | D3 => 3 end.

Lemma quadrant_grid : forall d p a, quadrant d p -> 0 <= a < ndim d -> on_grid (level p) (low p a).
Proof.
  intros d p a (Hl & Hx & Hy & Hz) Ha. unfold low, sel.
  destruct (a =? 0) eqn:E0; [exact Hx|]. destruct (a =? 1) eqn:E1; [exact Hy|].
  destruct d; simpl in Ha; [lia|]. apply Hz; reflexivity.
Qed.

Lemma pt_sel : forall x y z a, 0 <= a <= 2 -> pt x y z a = sel a x y z.
Proof.
  intros. assert (a = 0 \/ a = 1 \/ a = 2) as [->|[->| ->]] by lia; reflexivity.
Qed.

Lemma cells_sel : forall x y z a, 0 <= a <= 2 -> cells_along x y z a = sel a x y z.
Proof.
  intros. assert (a = 0 \/ a = 1 \/ a = 2) as [->|[->| ->]] by lia; reflexivity.
Qed.

Lemma index_point_sel : forall p mx my mz b i j k a, 0 <= a <= 2 ->
  index_point p mx my mz b i j k a =
  index_coord (low p a) (level p) (sel a mx my mz) b (sel a i j k).
Proof.
  intros. assert (a = 0 \/ a = 1 \/ a = 2) as [->|[->| ->]] by lia; reflexivity.
Qed.

Lemma index_coord_scaled : forall lw lev m b i a, 0 <= lev -> 1 <= m ->
  (lw == inject_Z a / inject_Z (2 ^ lev))%Q ->
  (index_coord lw lev m b i ==
   inject_Z (2 * (a * m + i) - b) / inject_Z (2 * (2 ^ lev * m)))%Q.
Proof.
  intros lw lev m b i a Hl Hm Hlow. pose proof (pow2_pos lev Hl).
  unfold index_coord. rewrite Hlow. injs. change (inject_Z 2) with 2%Q.
  field. split; apply inject_Z_nz; lia.
Qed.

Lemma frac_eq : forall a b c, 0 < c ->
  (inject_Z a / inject_Z c == inject_Z b / inject_Z c)%Q <-> a = b.
Proof.
  intros a b c Hc. pose proof (inject_Z_nz c ltac:(lia)) as N. split; intros H.
  - assert (E : (inject_Z a == inject_Z b)%Q).
    { transitivity (inject_Z a / inject_Z c * inject_Z c)%Q; [field; exact N|].
      rewrite H. field; exact N. }
    unfold Qeq in E; simpl in E. lia.
  - subst; reflexivity.
Qed.

Lemma one_minus_frac : forall a r, 0 < r ->
  (1 - inject_Z a / inject_Z (2 * r) == inject_Z (2 * r - a) / inject_Z (2 * r))%Q.
Proof.
  intros a r Hr. injs. change (inject_Z 2) with 2%Q. field.
  apply inject_Z_nz; lia.
Qed.

(** same point <-> integer relation, per direction *)
Lemma tangential_int : forall (rev : bool) p p' n n' r, 0 < r ->
  (p == inject_Z n / inject_Z (2 * r))%Q -> (p' == inject_Z n' / inject_Z (2 * r))%Q ->
  (p' == if rev then 1 - p else p)%Q <->
  n' = if b2z rev =? 0 then n else 2 * r - n.
Proof.
  intros rev p p' n n' r Hr Hp Hp'. rewrite Hp'.
  destruct rev; cbn [b2z Z.eqb]; rewrite Hp.
  - rewrite one_minus_frac by lia. apply frac_eq; lia.
  - apply frac_eq; lia.
Qed.

Lemma normal_int_rel : forall g p p' n n' r, 0 < r ->
  (p (normal_axis (here g)) == inject_Z n / inject_Z (2 * r))%Q ->
  (p' (normal_axis (there g)) == inject_Z n' / inject_Z (2 * r))%Q ->
  (beyond (here g) p == - beyond (there g) p')%Q <-> n' = normal_int (face_code g) n r.
Proof.
  intros g p p' n n' r Hr Hp Hp'. unfold beyond, face_code.
  pose proof (inject_Z_nz (2 * r) ltac:(lia)) as N.
  assert (E : forall a b c e, (a == inject_Z b / inject_Z (2*r))%Q ->
              (c == inject_Z e / inject_Z (2*r))%Q -> (a == c)%Q <-> b = e).
  { intros a b c e H1 H2. rewrite H1, H2. apply frac_eq; lia. }
  destruct (upper (here g)), (upper (there g));
    rewrite Hp, Hp';
    [change (normal_int _ n r) with (4 * r - n)|change (normal_int _ n r) with (n - 2 * r)
    |change (normal_int _ n r) with (n + 2 * r)|change (normal_int _ n r) with (- n)].
  - rewrite (E _ (n - 2 * r) _ (2 * r - n')); [lia| |]; injs; change (inject_Z 2) with 2%Q; field; apply inject_Z_nz; lia.
  - rewrite (E _ (n - 2 * r) _ (n')); [lia| |]; injs; change (inject_Z 2) with 2%Q; field; apply inject_Z_nz; lia.
  - rewrite (E _ (- n) _ (2 * r - n')); [lia| |]; injs; change (inject_Z 2) with 2%Q; field; apply inject_Z_nz; lia.
  - rewrite (E _ (- n) _ n'); [lia| |]; injs; change (inject_Z 2) with 2%Q; field; apply inject_Z_nz; lia.
Qed.
