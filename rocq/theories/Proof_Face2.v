(** Existence, uniqueness, inverse; same-block case; corners. *)
From Coq Require Import ZArith QArith Qpower Lia Lqa List Bool Setoid Morphisms Qfield.
From Verif Require Import Base_Float Model_Face Spec_Face Proof_Face Proof_Face1.
Import ListNotations.
Open Scope Z_scope.

Lemma sel_fun : forall (f : Z -> Z) a, 0 <= a <= 2 -> sel a (f 0) (f 1) (f 2) = f a.
Proof. intros f a H. assert (a = 0 \/ a = 1 \/ a = 2) as [->|[->| ->]] by lia; reflexivity. Qed.

Lemma ndim_le : forall d, 2 <= ndim d <= 3.
Proof. destruct d; cbn; lia. Qed.

(** setting up the integer relation for two patches of equal level *)
Lemma face_int_setup : forall d ip op g ft mx my mz b,
  quadrant d ip -> quadrant d op -> level ip = level op -> describes d g ft ->
  sizes_match g mx my mz -> sizes_ok d (level ip) mx my mz ->
  exists A B : Z -> Z, forall i j k i' j' k',
    same_point g (index_point ip mx my mz b i j k) (index_point op mx my mz b i' j' k') <->
    int_rel d ft (fun a => 2 * (A a * sel a mx my mz + sel a i j k) - b)
                 (fun a => 2 * (B a * sel a mx my mz + sel a i' j' k') - b)
                 (fun a => 2 ^ level ip * sel a mx my mz).
Proof.
  intros d ip op g ft mx my mz b Hi Ho Hl Hd Hm Hs.
  destruct (grid_fun _ _ Hi) as (A & HA). destruct (grid_fun _ _ Ho) as (B & HB).
  exists A, B. intros.
  destruct (sizes_match_axes _ _ _ _ _ _ Hd Hm) as (M2 & M0 & M1).
  assert (Hlev : 0 <= level ip) by (destruct Hi as (? & _); lia).
  assert (HS : forall a, 0 <= a < ndim d -> size_ok (level ip) (sel a mx my mz)).
  { intros a Ha. apply (sizes_axis d); assumption. }
  apply same_point_int; try assumption.
  - intros a Ha. destruct (HS a Ha). pose proof (pow2_pos (level ip) Hlev). nia.
  - rewrite M2; reflexivity.
  - rewrite M0; reflexivity.
  - intros D; rewrite (M1 D); reflexivity.
  - intros a Ha. pose proof (ndim_le d).
    rewrite index_point_sel by lia. destruct (HA a Ha). destruct (HS a Ha).
    apply index_coord_scaled; try lia; assumption.
  - intros a Ha. pose proof (ndim_le d).
    rewrite index_point_sel by lia. destruct (HB a Ha). destruct (HS a Ha).
    rewrite <- Hl in *. apply index_coord_scaled; try lia; assumption.
Qed.

Lemma same_point_exists : forall d ip op g ft mx my mz b i j k,
  quadrant d ip -> quadrant d op -> level ip = level op -> describes d g ft ->
  sizes_match g mx my mz -> sizes_ok d (level ip) mx my mz ->
  exists i' j' k', (d = D2 -> k' = k) /\
    same_point g (index_point ip mx my mz b i j k) (index_point op mx my mz b i' j' k').
Proof.
  intros d ip op g ft mx my mz b i j k Hi Ho Hl Hd Hm Hs.
  destruct (face_int_setup d ip op g ft mx my mz b Hi Ho Hl Hd Hm Hs) as (A & B & EQ).
  pose proof (axis_facts _ _ _ Hd) as
      (AX & F0 & F2 & F1 & T0 & T2 & T1 & En & En' & E2 & (r0 & Er0 & I0) & E1 & Iinv & (TD0 & TD1) & MD).
  pose proof (ndim_le d) as ND.
  set (m := fun a => sel a mx my mz). set (R := fun a => 2 ^ level ip * m a).
  set (h := fun a => A a * m a + sel a i j k).
  (* half-index of the target along each axis *)
  set (H0 := if er0 ft =? 0 then h (my0 ft) else R (my0 ft) - h (my0 ft) + b).
  set (H1 := if er1 ft =? 0 then h (my1 ft) else R (my1 ft) - h (my1 ft) + b).
  set (H2 := if er2 ft =? 0 then - h (my2 ft) + b else if er2 ft =? 1 then h (my2 ft) + R (my2 ft)
             else if er2 ft =? 2 then h (my2 ft) - R (my2 ft) else 2 * R (my2 ft) - h (my2 ft) + b).
  set (t := fun a => (if a =? ta2 ft then H2 else
                      match d with D2 => H0 | D3 => if a =? ta1 ft then H1 else H0 end)
                     - B a * m a).
  exists (t 0), (t 1), (match d with D2 => k | D3 => t 2 end).
  split; [intros ->; reflexivity|].
  apply EQ.
  assert (ES : forall a, 0 <= a < ndim d -> sel a (t 0) (t 1) (match d with D2 => k | D3 => t 2 end) = t a).
  { intros a Ha. destruct d; cbn [ndim] in Ha; [|apply sel_fun; lia].
    assert (a = 0 \/ a = 1) as [->| ->] by lia; reflexivity. }
  unfold int_rel. rewrite !ES by assumption.
  split; [|split].
  - unfold t. rewrite Z.eqb_refl. fold (m (ta2 ft)). unfold normal_int, H2.
    fold (m (my2 ft)). fold (R (my2 ft)). fold (h (my2 ft)).
    destruct (er2 ft =? 0), (er2 ft =? 1), (er2 ft =? 2); lia.
  - assert (TT : t (ta0 ft) = H0 - B (ta0 ft) * m (ta0 ft)).
    { unfold t. rewrite (proj2 (Z.eqb_neq _ _) TD0). destruct d; [reflexivity|].
      destruct (TD1 eq_refl) as (_ & NE). rewrite (proj2 (Z.eqb_neq (ta0 ft) (ta1 ft))) by congruence.
      reflexivity. }
    rewrite TT. unfold H0. fold (m (ta0 ft)). fold (m (my0 ft)). fold (R (my0 ft)). fold (h (my0 ft)).
    destruct (er0 ft =? 0); lia.
  - intros D. specialize (T1 D). rewrite !ES by assumption.
    assert (TT : t (ta1 ft) = H1 - B (ta1 ft) * m (ta1 ft)).
    { unfold t. destruct (TD1 D) as (NE & _). rewrite (proj2 (Z.eqb_neq _ _) NE), D, Z.eqb_refl. reflexivity. }
    rewrite TT. unfold H1. fold (m (ta1 ft)). fold (m (my1 ft)). fold (R (my1 ft)). fold (h (my1 ft)).
    destruct (er1 ft =? 0); lia.
Qed.

Lemma same_point_unique : forall d ip op g ft mx my mz b i j k i1 j1 k1 i2 j2 k2,
  quadrant d ip -> quadrant d op -> level ip = level op -> describes d g ft ->
  sizes_match g mx my mz -> sizes_ok d (level ip) mx my mz ->
  same_point g (index_point ip mx my mz b i j k) (index_point op mx my mz b i1 j1 k1) ->
  same_point g (index_point ip mx my mz b i j k) (index_point op mx my mz b i2 j2 k2) ->
  i1 = i2 /\ j1 = j2 /\ (d = D3 -> k1 = k2).
Proof.
  intros d ip op g ft mx my mz b i j k i1 j1 k1 i2 j2 k2 Hi Ho Hl Hd Hm Hs S1 S2.
  destruct (face_int_setup d ip op g ft mx my mz b Hi Ho Hl Hd Hm Hs) as (A & B & EQ).
  apply EQ in S1. apply EQ in S2.
  pose proof (axis_facts _ _ _ Hd) as (AX & _).
  pose proof (ndim_le d) as ND.
  destruct S1 as (P2 & P0 & P1). destruct S2 as (Q2 & Q0 & Q1).
  assert (X : forall a, 0 <= a < ndim d -> sel a i1 j1 k1 = sel a i2 j2 k2).
  { intros a Ha. destruct (AX a Ha) as [E|[(E & D & _)|(E & _)]]; subst a; [|specialize (P1 D); specialize (Q1 D)|]; lia. }
  split; [apply (X 0); lia|]. split; [apply (X 1); lia|].
  intros ->. apply (X 2). cbn. lia.
Qed.

Lemma same_point_inv : forall g p p', same_point g p p' -> same_point (glue_inv g) p' p.
Proof.
  intros g p p' (Hn & Ht). split; cbn [here there glue_inv].
  - rewrite Hn. ring.
  - intros ma tb rev Hin. cbn [tangential glue_inv] in Hin. apply in_map_iff in Hin.
    destruct Hin as (((a & b) & r) & E & Hin). injection E as <- <- <-.
    specialize (Ht _ _ _ Hin). destruct r; rewrite Ht; [ring|reflexivity].
Qed.

Lemma sizes_match_inv : forall g mx my mz, sizes_match g mx my mz -> sizes_match (glue_inv g) mx my mz.
Proof.
  intros g mx my mz (Hn & Ht). split; cbn [here there glue_inv tangential].
  - symmetry; exact Hn.
  - intros ma tb rev Hin. apply in_map_iff in Hin.
    destruct Hin as (((a & b) & r) & E & Hin). injection E as <- <- <-. symmetry. eapply Ht; exact Hin.
Qed.

Section Inverse.
  Variable rnd : Q -> Q.
  Hypothesis Hrnd : rounding rnd.

  Lemma transform_face_ok : forall d ip op g ft mx my mz based i j k,
    quadrant d ip -> quadrant d op -> level ip = level op -> describes d g ft ->
    sizes_match g mx my mz -> sizes_ok d (level ip) mx my mz -> 0 <= based <= 1 ->
    in_int i -> in_int j -> (d = D3 -> in_int k) ->
    exists i' j' k',
      same_point g (index_point ip mx my mz based i j k) (index_point op mx my mz based i' j' k') /\
      (in_int i' -> in_int j' -> (d = D3 -> in_int k') ->
       transform_face rnd d ip op ft mx my mz based i j k = Some (i', j', k')).
  Proof.
    intros d ip op g ft mx my mz b i j k Hi Ho Hl Hd Hm Hs Hb Ii Ij Ik.
    destruct (same_point_exists d ip op g ft mx my mz b i j k) as (i' & j' & k' & Hk & SP); try assumption.
    exists i', j', k'. split; [exact SP|]. intros.
    apply (transform_face_rel rnd Hrnd d ip op g); assumption.
  Qed.

  Lemma transform_face_sound : forall d ip op g ft mx my mz based i j k i' j' k',
    quadrant d ip -> quadrant d op -> level ip = level op -> describes d g ft ->
    sizes_match g mx my mz -> sizes_ok d (level ip) mx my mz -> 0 <= based <= 1 ->
    in_int i -> in_int j -> (d = D3 -> in_int k) ->
    in_int i' -> in_int j' -> (d = D3 -> in_int k') -> (d = D2 -> k' = k) ->
    (transform_face rnd d ip op ft mx my mz based i j k = Some (i', j', k') <->
     same_point g (index_point ip mx my mz based i j k) (index_point op mx my mz based i' j' k')) \/
    (exists i2 j2 k2, same_point g (index_point ip mx my mz based i j k) (index_point op mx my mz based i2 j2 k2)
        /\ ~ (in_int i2 /\ in_int j2 /\ (d = D3 -> in_int k2))).
  Proof.
    intros d ip op g ft mx my mz b i j k i' j' k' Hi Ho Hl Hd Hm Hs Hb Ii Ij Ik Ii' Ij' Ik' Hk.
    destruct (same_point_exists d ip op g ft mx my mz b i j k) as (i2 & j2 & k2 & Hk2 & SP); try assumption.
    assert (DEC : (in_int i2 /\ in_int j2 /\ (d = D3 -> in_int k2)) \/
                  ~ (in_int i2 /\ in_int j2 /\ (d = D3 -> in_int k2))).
    { unfold in_int, int_min, int_max. destruct d.
      - assert (Z : D2 = D3 -> - 2 ^ 31 <= k2 <= 2 ^ 31 - 1) by discriminate.
        destruct (Z_le_dec (-2^31) i2), (Z_le_dec i2 (2^31-1)), (Z_le_dec (-2^31) j2), (Z_le_dec j2 (2^31-1));
        [left; tauto| right; tauto ..].
      - destruct (Z_le_dec (-2^31) i2), (Z_le_dec i2 (2^31-1)), (Z_le_dec (-2^31) j2), (Z_le_dec j2 (2^31-1)),
          (Z_le_dec (-2^31) k2), (Z_le_dec k2 (2^31-1)); [left; tauto| right; intros (X & Y & Z); specialize (Z eq_refl); tauto ..]. }
    destruct DEC as [(Y1 & Y2 & Y3)|NO]; [left|right; exists i2, j2, k2; auto].
    assert (T : transform_face rnd d ip op ft mx my mz b i j k = Some (i2, j2, k2))
      by (apply (transform_face_rel rnd Hrnd d ip op g); assumption).
    split.
    - rewrite T. intros E. injection E as <- <- <-. exact SP.
    - intros SP'. apply (transform_face_rel rnd Hrnd d ip op g); assumption.
  Qed.

  Lemma transform_face_inverse : forall d ip op g ft ft' mx my mz based i j k i' j' k',
    quadrant d ip -> quadrant d op -> level ip = level op ->
    describes d g ft -> describes d (glue_inv g) ft' ->
    sizes_match g mx my mz -> sizes_ok d (level ip) mx my mz -> 0 <= based <= 1 ->
    in_int i -> in_int j -> (d = D3 -> in_int k) ->
    in_int i' -> in_int j' -> (d = D3 -> in_int k') -> (d = D2 -> k' = k) ->
    same_point g (index_point ip mx my mz based i j k) (index_point op mx my mz based i' j' k') ->
    transform_face rnd d ip op ft mx my mz based i j k = Some (i', j', k') /\
    transform_face rnd d op ip ft' mx my mz based i' j' k' = Some (i, j, k).
  Proof.
    intros d ip op g ft ft' mx my mz b i j k i' j' k' Hi Ho Hl Hd Hd' Hm Hs Hb Ii Ij Ik Ii' Ij' Ik' Hk SP.
    split.
    - apply (transform_face_rel rnd Hrnd d ip op g); assumption.
    - apply (transform_face_rel rnd Hrnd d op ip (glue_inv g)); try assumption.
      + symmetry; assumption.
      + apply sizes_match_inv; assumption.
      + rewrite <- Hl; assumption.
      + intros D; rewrite (Hk D); reflexivity.
      + apply same_point_inv; assumption.
  Qed.
End Inverse.

(** ** Directions that are not permuted: same block and corners. *)
Section Straight.
  Variable rnd : Q -> Q.
  Hypothesis Hrnd : rounding rnd.

  Lemma lowdiff_b64 : forall l1 a1 l2 a2 s x, 0 <= l1 <= 30 -> l1 <= l2 <= 30 ->
    0 <= a1 < 2 ^ l1 -> 0 <= a2 < 2 ^ l2 -> -1 <= s <= 1 ->
    (x == inject_Z a1 / inject_Z (2 ^ l1) - inject_Z a2 / inject_Z (2 ^ l2) + inject_Z s)%Q ->
    is_b64 x.
  Proof.
    intros l1 a1 l2 a2 s x Hl1 Hl2 Ha1 Ha2 Hs Hx.
    pose proof (pow2_pos l1 ltac:(lia)) as P1. pose proof (pow2_pos (l2 - l1) ltac:(lia)) as P2.
    assert (E2 : 2 ^ l2 = 2 ^ l1 * 2 ^ (l2 - l1)) by (rewrite <- Z.pow_add_r by lia; f_equal; lia).
    assert (P3 : 2 ^ l2 <= 2 ^ 30) by (apply Z.pow_le_mono_r; lia).
    exists (a1 * 2 ^ (l2 - l1) - a2 + s * 2 ^ l2), (- l2).
    split; [|split; [lia|]].
    - assert (0 <= a1 * 2 ^ (l2 - l1) < 2 ^ l2) by nia. nia.
    - rewrite Hx.
      assert (EP : (Qpower 2 (- l2) == / inject_Z (2 ^ l2))%Q).
      { rewrite Qpower_opp. apply Qinv_comp. symmetry. apply (Zpower_Qpower 2 l2). lia. }
      rewrite EP, E2. injs. field. split; apply inject_Z_nz; lia.
  Qed.

  (** il - ol + shift, exactly *)
  Lemma diff_shift_ok : forall l1 a1 l2 a2 s il ol sh, 0 <= l1 <= 30 -> l1 <= l2 <= 30 ->
    0 <= a1 < 2 ^ l1 -> 0 <= a2 < 2 ^ l2 -> -1 <= s <= 1 ->
    (il == inject_Z a1 / inject_Z (2 ^ l1))%Q -> (ol == inject_Z a2 / inject_Z (2 ^ l2))%Q ->
    (sh == inject_Z s)%Q ->
    (fadd rnd (fsub rnd il ol) sh ==
     inject_Z (a1 * 2 ^ (l2 - l1) - a2 + s * 2 ^ l2) / inject_Z (2 ^ l2))%Q.
  Proof.
    intros l1 a1 l2 a2 s il ol sh Hl1 Hl2 Ha1 Ha2 Hs Hil Hol Hsh.
    pose proof (pow2_pos l1 ltac:(lia)) as P1. pose proof (pow2_pos (l2 - l1) ltac:(lia)) as P2.
    assert (E2 : 2 ^ l2 = 2 ^ l1 * 2 ^ (l2 - l1)) by (rewrite <- Z.pow_add_r by lia; f_equal; lia).
    assert (D : (fsub rnd il ol == il - ol)%Q).
    { apply Hrnd. apply (lowdiff_b64 l1 a1 l2 a2 0); try assumption; try lia.
      rewrite Hil, Hol. change (inject_Z 0) with 0%Q. ring. }
    transitivity (fsub rnd il ol + sh)%Q.
    - apply Hrnd. apply (lowdiff_b64 l1 a1 l2 a2 s); try assumption.
      rewrite D, Hil, Hol, Hsh. reflexivity.
    - rewrite D, Hil, Hol, Hsh, E2. injs. field. split; apply inject_Z_nz; lia.
  Qed.

  Lemma diff_ok : forall l1 a1 l2 a2 il ol, 0 <= l1 <= 30 -> l1 <= l2 <= 30 ->
    0 <= a1 < 2 ^ l1 -> 0 <= a2 < 2 ^ l2 ->
    (il == inject_Z a1 / inject_Z (2 ^ l1))%Q -> (ol == inject_Z a2 / inject_Z (2 ^ l2))%Q ->
    (fsub rnd il ol == inject_Z (a1 * 2 ^ (l2 - l1) - a2) / inject_Z (2 ^ l2))%Q.
  Proof.
    intros l1 a1 l2 a2 il ol Hl1 Hl2 Ha1 Ha2 Hil Hol.
    pose proof (pow2_pos l1 ltac:(lia)) as P1. pose proof (pow2_pos (l2 - l1) ltac:(lia)) as P2.
    assert (E2 : 2 ^ l2 = 2 ^ l1 * 2 ^ (l2 - l1)) by (rewrite <- Z.pow_add_r by lia; f_equal; lia).
    transitivity (il - ol)%Q.
    - apply Hrnd. apply (lowdiff_b64 l1 a1 l2 a2 0); try assumption; try lia.
      rewrite Hil, Hol. change (inject_Z 0) with 0%Q. ring.
    - rewrite Hil, Hol, E2. injs. field. split; apply inject_Z_nz; lia.
  Qed.

  Lemma corner_coord_ok : forall lev m ai ao s il ol sh R i i', 0 <= lev <= 30 -> 0 < m ->
    2 ^ lev * m <= 2 ^ 49 -> 0 <= ai < 2 ^ lev -> 0 <= ao < 2 ^ lev -> -1 <= s <= 1 ->
    (il == inject_Z ai / inject_Z (2 ^ lev))%Q -> (ol == inject_Z ao / inject_Z (2 ^ lev))%Q ->
    (sh == inject_Z s)%Q -> (R == inject_Z (2 ^ lev * m))%Q ->
    i' = i + (ai - ao + s * 2 ^ lev) * m -> in_int (i' - i) ->
    corner_coord rnd il ol sh R i = Some i'.
  Proof.
    intros lev m ai ao s il ol sh R i i' Hl Hm HR Hai Hao Hs Hil Hol Hsh HRR Ei Hin.
    pose proof (pow2_pos lev ltac:(lia)) as P1.
    pose proof (diff_shift_ok lev ai lev ao s il ol sh Hl ltac:(lia) Hai Hao Hs Hil Hol Hsh) as E.
    rewrite Z.sub_diag, Z.pow_0_r, Z.mul_1_r in E.
    unfold corner_coord. rewrite (c_int_exact _ (i' - i)); [cbn [bind]; f_equal; lia| |assumption].
    unfold in_int, int_min, int_max in Hin.
    apply (rnd_int rnd Hrnd); [|lia]. rewrite E, HRR.
    replace (i' - i) with ((ai - ao + s * 2 ^ lev) * m) by lia.
    injs. field. apply inject_Z_nz; lia.
  Qed.

  Lemma corner_coord2_ok : forall lev m ai ao s il ol sh R i b i', 0 <= lev -> lev + 1 <= 30 -> 0 < m ->
    2 ^ (lev + 1) * m <= 2 ^ 49 -> 0 <= ai < 2 ^ lev -> 0 <= ao < 2 ^ (lev + 1) -> -1 <= s <= 1 ->
    (il == inject_Z ai / inject_Z (2 ^ lev))%Q -> (ol == inject_Z ao / inject_Z (2 ^ (lev + 1)))%Q ->
    (sh == inject_Z s)%Q -> (R == inject_Z (2 ^ (lev + 1) * m))%Q ->
    Z.abs (i - b) <= 2 ^ 32 ->
    i' = b + (2 * ai - ao + s * 2 ^ (lev + 1)) * m + 2 * (i - b) -> in_int (i' - b) ->
    corner_coord2 rnd il ol sh R i b = Some i'.
  Proof.
    intros lev m ai ao s il ol sh R i b i' Hl0 Hl Hm HR Hai Hao Hs Hil Hol Hsh HRR Hi Ei Hin.
    pose proof (pow2_pos (lev + 1) ltac:(lia)) as P1.
    pose proof (diff_shift_ok lev ai (lev + 1) ao s il ol sh ltac:(lia) ltac:(lia) Hai Hao Hs Hil Hol Hsh) as E.
    replace (lev + 1 - lev) with 1 in E by lia. change (2 ^ 1) with 2 in E.
    unfold corner_coord2. rewrite (c_int_exact _ (i' - b)); [cbn [bind]; f_equal; lia| |assumption].
    unfold in_int, int_min, int_max in Hin.
    assert (E2 : (fmul rnd (fadd rnd (fsub rnd il ol) sh) R ==
                  inject_Z ((2 * ai - ao + s * 2 ^ (lev + 1)) * m))%Q).
    { apply (rnd_int rnd Hrnd); [|lia].
      rewrite E, HRR, (Z.mul_comm ai 2). injs. field. apply inject_Z_nz; lia. }
    assert (E3 : (fmul rnd 2 (dbl rnd (i - b)) == inject_Z (2 * (i - b)))%Q).
    { apply (rnd_int rnd Hrnd); [|lia]. rewrite (dbl_int rnd Hrnd) by lia.
      rewrite (inject_Z_mult 2). reflexivity. }
    apply (rnd_int rnd Hrnd); [|lia]. rewrite E2, E3, <- inject_Z_plus.
    replace (i' - b) with ((2 * ai - ao + s * 2 ^ (lev + 1)) * m + 2 * (i - b)) by lia. reflexivity.
  Qed.

  Lemma same_coord2_ok : forall lev m ai ao il ol i b i', 0 <= lev -> lev + 1 <= 30 -> 0 < m ->
    2 ^ (lev + 1) * m <= 2 ^ 49 -> 0 <= ai < 2 ^ lev -> 0 <= ao < 2 ^ (lev + 1) ->
    (il == inject_Z ai / inject_Z (2 ^ lev))%Q -> (ol == inject_Z ao / inject_Z (2 ^ (lev + 1)))%Q ->
    Z.abs (i - b) <= 2 ^ 32 ->
    i' = b + (2 * ai - ao) * m + 2 * (i - b) -> in_int (i' - b) ->
    same_coord2 rnd il ol (dbl rnd (Z.shiftl 1 (lev + 1))) m i b = Some i'.
  Proof.
    intros lev m ai ao il ol i b i' Hl0 Hl Hm HR Hai Hao Hil Hol Hi Ei Hin.
    pose proof (pow2_pos (lev + 1) ltac:(lia)) as P1.
    assert (P3 : 2 ^ (lev + 1) <= 2 ^ 30) by (apply Z.pow_le_mono_r; lia).
    assert (P4 : 2 ^ lev <= 2 ^ 30) by (apply Z.pow_le_mono_r; lia).
    assert (m <= 2 ^ 49) by nia.
    pose proof (diff_ok lev ai (lev + 1) ao il ol ltac:(lia) ltac:(lia) Hai Hao Hil Hol) as E.
    replace (lev + 1 - lev) with 1 in E by lia. change (2 ^ 1) with 2 in E.
    unfold same_coord2. rewrite (c_int_exact _ (i' - b)); [cbn [bind]; f_equal; lia| |assumption].
    unfold in_int, int_min, int_max in Hin.
    assert (E1 : (fmul rnd (fsub rnd il ol) (dbl rnd (Z.shiftl 1 (lev + 1))) == inject_Z (2 * ai - ao))%Q).
    { apply (rnd_int rnd Hrnd); [|lia].
      rewrite E, Z.shiftl_mul_pow2, Z.mul_1_l by lia. rewrite (dbl_int rnd Hrnd) by lia.
      rewrite (Z.mul_comm ai 2). field. apply inject_Z_nz; lia. }
    assert (E2 : (fmul rnd (fmul rnd (fsub rnd il ol) (dbl rnd (Z.shiftl 1 (lev + 1)))) (dbl rnd m) ==
                  inject_Z ((2 * ai - ao) * m))%Q).
    { apply (rnd_int rnd Hrnd); [|lia]. rewrite E1, (dbl_int rnd Hrnd) by lia.
      rewrite <- inject_Z_mult. reflexivity. }
    assert (E3 : (fmul rnd 2 (dbl rnd (i - b)) == inject_Z (2 * (i - b)))%Q).
    { apply (rnd_int rnd Hrnd); [|lia]. rewrite (dbl_int rnd Hrnd) by lia.
      rewrite (inject_Z_mult 2). reflexivity. }
    apply (rnd_int rnd Hrnd); [|lia]. rewrite E2, E3, <- inject_Z_plus.
    replace (i' - b) with ((2 * ai - ao) * m + 2 * (i - b)) by lia. reflexivity.
  Qed.
End Straight.
