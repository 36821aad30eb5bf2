(** Half-size transformation across a block face. *)
From Coq Require Import ZArith QArith Qpower Lia Lqa List Bool Setoid Morphisms Qfield Permutation.
From Verif Require Import Base_Float Model_Face Spec_Face Proof_Face Proof_Face1 Proof_Face2 Proof_Face3.
Import ListNotations.
Open Scope Z_scope.

Section Scalar2.
  Variable rnd : Q -> Q.
  Hypothesis Hrnd : rounding rnd.

  Lemma lower_R2 : forall lev m lw a R, 0 <= lev -> lev + 1 <= 30 -> 0 < m -> 2 ^ (lev + 1) * m <= 2 ^ 49 ->
    0 <= a < 2 ^ lev -> (lw == inject_Z a / inject_Z (2 ^ lev))%Q ->
    (R == inject_Z (2 ^ (lev + 1) * m))%Q ->
    (fmul rnd lw R == inject_Z (2 * (a * m)))%Q.
  Proof.
    intros lev m lw a R Hl0 Hl Hm HR Ha Hlow ER. pose proof (pow2_pos lev ltac:(lia)).
    assert (E2 : 2 ^ (lev + 1) = 2 * 2 ^ lev) by (rewrite Z.pow_add_r by lia; lia).
    unfold fmul. apply (rnd_int rnd Hrnd).
    - rewrite Hlow, ER, E2. injs. change (inject_Z 2) with 2%Q. field. apply inject_Z_nz. lia.
    - rewrite E2 in HR. nia.
  Qed.

  Lemma my_coord2_ok : forall lev m lw a R i b, 0 <= lev -> lev + 1 <= 30 -> 0 < m ->
    2 ^ (lev + 1) * m <= 2 ^ 49 ->
    0 <= a < 2 ^ lev -> (lw == inject_Z a / inject_Z (2 ^ lev))%Q ->
    (R == inject_Z (2 ^ (lev + 1) * m))%Q -> in_int i -> 0 <= b <= 1 ->
    (my_coord2 rnd lw R i b == inject_Z (2 * (a * m + i - b) + 1))%Q.
  Proof.
    intros lev m lw a R i b Hl0 Hl Hm HR Ha Hlow ER Hi Hb.
    unfold in_int, int_min, int_max in Hi.
    assert (E2 : 2 ^ (lev + 1) = 2 * 2 ^ lev) by (rewrite Z.pow_add_r by lia; lia).
    assert (0 <= a * m <= 2 ^ 48) by (rewrite E2 in HR; nia).
    assert (E1 : (fmul rnd lw R == inject_Z (2 * (a * m)))%Q) by (eapply lower_R2; eauto).
    assert (EA : (fadd rnd (dbl rnd i) (1 # 2) == (2 * i + 1) # 2)%Q).
    { apply (rnd_half rnd Hrnd); [|lia]. rewrite (dbl_int rnd Hrnd) by lia. qz. }
    assert (EB : (fsub rnd (fadd rnd (dbl rnd i) (1 # 2)) (dbl rnd b) == (2 * i + 1 - 2 * b) # 2)%Q).
    { apply (rnd_half rnd Hrnd); [|lia]. rewrite EA, (dbl_int rnd Hrnd) by lia. qz. }
    assert (EC : (fmul rnd 2 (fsub rnd (fadd rnd (dbl rnd i) (1 # 2)) (dbl rnd b)) ==
                 inject_Z (2 * i + 1 - 2 * b))%Q).
    { apply (rnd_int rnd Hrnd); [|lia]. rewrite EB. qz. }
    apply (rnd_int rnd Hrnd); [|lia]. rewrite E1, EC. qz.
  Qed.

  Lemma back_coord2_ok : forall lev m lw a R t T b, 0 <= lev <= 30 -> 0 < m ->
    2 ^ lev * m <= 2 ^ 49 -> 0 <= a < 2 ^ lev ->
    (lw == inject_Z a / inject_Z (2 ^ lev))%Q ->
    (R == inject_Z (2 ^ lev * m))%Q ->
    (t == inject_Z T)%Q -> Z.abs T <= 2 ^ 51 -> in_int (T - a * m) ->
    back_coord2 rnd t lw R b = Some (T - a * m + b - 1).
  Proof.
    intros lev m lw a R t T b Hl Hm HR Ha Hlow ER Ht HT Hin.
    unfold back_coord2. rewrite (c_int_exact _ (T - a * m)); [reflexivity| |assumption].
    unfold in_int, int_min, int_max in Hin.
    assert (E1 : (fmul rnd lw R == inject_Z (a * m))%Q) by (eapply (lower_R rnd Hrnd); eauto).
    apply (rnd_int rnd Hrnd); [|lia]. rewrite Ht, E1, inject_Z_sub. reflexivity.
  Qed.

  Definition normal_int2 (code n r : Z) : Z :=
    if code =? 0 then - n else if code =? 1 then n + r
    else if code =? 2 then n - r else 2 * r - n.

  Lemma half_of_int : forall n, (inject_Z n == (2 * n) # 2)%Q.
  Proof. intros. qz. Qed.

  Lemma trans_coord_int : forall rev x R n r, (x == inject_Z n)%Q -> (R == inject_Z r)%Q ->
    Z.abs n <= 2 ^ 50 -> 0 <= r <= 2 ^ 49 ->
    (trans_coord rnd rev x R == inject_Z (if rev =? 0 then n else r - n))%Q.
  Proof.
    intros rev x R n r Hx HR Hn Hr. rewrite half_of_int in Hx.
    rewrite (trans_coord_ok rnd Hrnd rev x R (2 * n) r Hx HR) by lia.
    destruct (rev =? 0); qz.
  Qed.

  Lemma normal_coord_int : forall code x R n r, (x == inject_Z n)%Q -> (R == inject_Z r)%Q ->
    Z.abs n <= 2 ^ 50 -> 0 <= r <= 2 ^ 49 -> 0 <= code <= 3 ->
    exists t, normal_coord rnd code x R = Some t /\ (t == inject_Z (normal_int2 code n r))%Q.
  Proof.
    intros code x R n r Hx HR Hn Hr Hc. rewrite half_of_int in Hx.
    destruct (normal_coord_ok rnd Hrnd code x R (2 * n) r Hx HR ltac:(lia) Hr Hc) as (t & Et & Ht).
    exists t. split; [exact Et|]. rewrite Ht. unfold normal_int, normal_int2.
    destruct (code =? 0), (code =? 1), (code =? 2); qz.
  Qed.
End Scalar2.

Lemma half_cell_scaled : forall lw lev m b i c a, 0 <= lev -> 1 <= m ->
  (lw == inject_Z a / inject_Z (2 ^ lev))%Q ->
  (half_cell_coord lw lev m b i c ==
   inject_Z (4 * (a * m + i - b) + 1 + 2 * c) / inject_Z (2 * (2 ^ (lev + 1) * m)))%Q.
Proof.
  intros lw lev m b i c a Hl Hm Hlow. pose proof (pow2_pos lev Hl).
  assert (E2 : 2 ^ (lev + 1) = 2 * 2 ^ lev) by (rewrite Z.pow_add_r by lia; lia).
  unfold half_cell_coord. rewrite Hlow, E2. injs. change (inject_Z 2) with 2%Q.
  change (inject_Z 4) with 4%Q. change (inject_Z 1) with 1%Q.
  field. split; apply inject_Z_nz; lia.
Qed.

Lemma cell_scaled : forall lw lev m b i a, 0 <= lev -> 1 <= m ->
  (lw == inject_Z a / inject_Z (2 ^ lev))%Q ->
  (cell_coord lw lev m b i ==
   inject_Z (2 * (a * m + i - b) + 1) / inject_Z (2 * (2 ^ lev * m)))%Q.
Proof.
  intros lw lev m b i a Hl Hm Hlow. pose proof (pow2_pos lev Hl).
  unfold cell_coord. rewrite Hlow. injs. change (inject_Z 2) with 2%Q.
  change (inject_Z 1) with 1%Q.
  field. split; apply inject_Z_nz; lia.
Qed.

Lemma child_center_sel : forall p mx my mz b i j k sx sy sz a, 0 <= a <= 2 ->
  child_center p mx my mz b i j k sx sy sz a =
  half_cell_coord (low p a) (level p) (sel a mx my mz) b (sel a i j k) (sel a sx sy sz).
Proof.
  intros. assert (a = 0 \/ a = 1 \/ a = 2) as [->|[->| ->]] by lia; reflexivity.
Qed.

Lemma cell_center_sel : forall p mx my mz b i j k a, 0 <= a <= 2 ->
  cell_center p mx my mz b i j k a =
  cell_coord (low p a) (level p) (sel a mx my mz) b (sel a i j k).
Proof.
  intros. assert (a = 0 \/ a = 1 \/ a = 2) as [->|[->| ->]] by lia; reflexivity.
Qed.

(** child of the small patch that corresponds to child c of the coarse cell *)
Definition cflip (b : bool) (x : Z) : Z := if b then 1 - x else x.
Definition small_child (d : dim) (ft : ftrans) (c : Z -> Z) (a : Z) : Z :=
  if a =? ta2 ft then cflip (negb ((er2 ft =? 1) || (er2 ft =? 2))) (c (my2 ft))
  else match d with
       | D2 => cflip (negb (er0 ft =? 0)) (c (my0 ft))
       | D3 => if a =? ta1 ft then cflip (negb (er1 ft =? 0)) (c (my1 ft))
               else cflip (negb (er0 ft =? 0)) (c (my0 ft))
       end.

Lemma cnot_flip : forall x, 0 <= x <= 1 -> cnot (1 - x) = x.
Proof. intros x H. assert (x = 0 \/ x = 1) as [->| ->] by lia; reflexivity. Qed.

Lemma my_axis_cover : forall d g ft, describes d g ft -> forall a, 0 <= a < ndim d ->
   a = my2 ft \/ (a = my1 ft /\ d = D3 /\ a <> my2 ft)
       \/ (a = my0 ft /\ a <> my2 ft /\ (d = D3 -> a <> my1 ft)).
Proof.
  intros d g ft Hd a Ha.
  pose proof (axis_facts _ _ _ Hd) as
    (AX & F0 & F2 & F1 & T0 & T2 & T1 & En & En' & E2 & (r0 & Er0 & I0) & E1 & Iinv & TD & (MD0 & MD1)).
  destruct (Z.eq_dec a (my2 ft)); [left; assumption|right].
  destruct d; cbn [ndim] in *.
  - right. split; [lia|]. split; [assumption|discriminate].
  - specialize (F1 eq_refl). destruct (MD1 eq_refl).
    destruct (Z.eq_dec a (my1 ft)); [left; auto|right]. split; [lia|]. auto.
Qed.

Lemma child_slot_ok : forall d g ft c, describes d g ft ->
  (forall a, 0 <= a < ndim d -> 0 <= c a <= 1) ->
  child_slot d ft (small_child d ft c 0) (small_child d ft c 1)
     (match d with D2 => 0 | D3 => small_child d ft c 2 end) =
  child_number (c 0) (c 1) (match d with D2 => 0 | D3 => c 2 end).
Proof.
  intros d g ft c Hd Hc.
  pose proof (axis_facts _ _ _ Hd) as
    (AX & F0 & F2 & F1 & T0 & T2 & T1 & En & En' & E2 & (r0 & Er0 & I0) & E1 & Iinv & (TD0 & TD1) & (MD0 & MD1)).
  assert (K : forall a, 0 <= a < ndim d ->
     sel a (small_child d ft c 0) (small_child d ft c 1) (match d with D2 => 0 | D3 => small_child d ft c 2 end)
     = small_child d ft c a).
  { intros a Ha. destruct d; cbn [ndim] in Ha.
    - assert (a = 0 \/ a = 1) as [->| ->] by lia; reflexivity.
    - apply (sel_fun (small_child D3 ft c)). lia. }
  unfold child_slot. rewrite !K by assumption.
  set (ib0 := if er0 ft =? 0 then small_child d ft c (ta0 ft) else cnot (small_child d ft c (ta0 ft))).
  set (ib2 := if (er2 ft =? 1) || (er2 ft =? 2) then small_child d ft c (ta2 ft) else cnot (small_child d ft c (ta2 ft))).
  assert (B0 : ib0 = c (my0 ft)).
  { unfold ib0, small_child. rewrite (proj2 (Z.eqb_neq _ _) TD0).
    assert (X : (if d then cflip (negb (er0 ft =? 0)) (c (my0 ft))
               else if ta0 ft =? ta1 ft then cflip (negb (er1 ft =? 0)) (c (my1 ft)) else cflip (negb (er0 ft =? 0)) (c (my0 ft)))
              = cflip (negb (er0 ft =? 0)) (c (my0 ft))).
    { destruct d; [reflexivity|]. destruct (TD1 eq_refl) as (_ & NE).
      rewrite (proj2 (Z.eqb_neq (ta0 ft) (ta1 ft))) by congruence. reflexivity. }
    rewrite X. unfold cflip. destruct (er0 ft =? 0); cbn [negb]; [reflexivity|].
    apply cnot_flip. apply Hc; assumption. }
  assert (B2 : ib2 = c (my2 ft)).
  { unfold ib2, small_child. rewrite Z.eqb_refl. unfold cflip.
    destruct ((er2 ft =? 1) || (er2 ft =? 2)); cbn [negb]; [reflexivity|].
    apply cnot_flip. apply Hc; assumption. }
  rewrite B2, B0. unfold child_number.
  pose proof (my_axis_cover _ _ _ Hd) as MC.
  destruct d.
  - assert (IN : forall a, 0 <= a < 2 -> (if a =? my2 ft then c (my2 ft) else if a =? my0 ft then c (my0 ft) else 0) = c a).
    { intros a Ha. destruct (MC a Ha) as [->|[(_ & D & _)|(E & NE & _)]]; [rewrite Z.eqb_refl; reflexivity|discriminate|].
      rewrite (proj2 (Z.eqb_neq _ _) NE). subst a. rewrite Z.eqb_refl. reflexivity. }
    rewrite !IN by lia. reflexivity.
  - specialize (T1 eq_refl). specialize (F1 eq_refl). rewrite K by assumption.
    set (ib1 := if er1 ft =? 0 then small_child D3 ft c (ta1 ft) else cnot (small_child D3 ft c (ta1 ft))).
    assert (B1 : ib1 = c (my1 ft)).
    { unfold ib1, small_child. destruct (TD1 eq_refl) as (NE & _). rewrite (proj2 (Z.eqb_neq _ _) NE), Z.eqb_refl.
      unfold cflip. destruct (er1 ft =? 0); cbn [negb]; [reflexivity|].
      apply cnot_flip. apply Hc; assumption. }
    rewrite B1.
    assert (IN : forall a, 0 <= a < 3 -> (if a =? my2 ft then c (my2 ft) else if a =? my1 ft then c (my1 ft)
         else if a =? my0 ft then c (my0 ft) else 0) = c a).
    { intros a Ha. destruct (MC a Ha) as [->|[(E & D & NE)|(E & NE & NE1)]]; [rewrite Z.eqb_refl; reflexivity| |].
      - rewrite (proj2 (Z.eqb_neq _ _) NE). subst a. rewrite Z.eqb_refl. reflexivity.
      - rewrite (proj2 (Z.eqb_neq _ _) NE), (proj2 (Z.eqb_neq _ _) (NE1 eq_refl)). subst a. rewrite Z.eqb_refl. reflexivity. }
    rewrite !IN by lia. reflexivity.
Qed.

(** every slot is written exactly once *)
Lemma child_slots_perm : forall d g ft, describes d g ft ->
  Permutation (map (fun '(s0, s1, s2) => child_slot d ft s0 s1 s2) (children d))
    (match d with D2 => [0; 1; 2; 3] | D3 => [0; 1; 2; 3; 4; 5; 6; 7] end).
Proof.
  intros d g ft Hd. apply Permutation_sym.
  set (full := match d with D2 => [0; 1; 2; 3] | D3 => [0; 1; 2; 3; 4; 5; 6; 7] end).
  apply NoDup_Permutation_bis.
  - destruct d; unfold full; repeat constructor; cbn; lia.
  - destruct d; cbn; lia.
  - intros x Hx.
    set (c := fun a => if Z.testbit x a then 1 else 0).
    assert (Hc : forall a, 0 <= c a <= 1) by (intros a; unfold c; destruct (Z.testbit x a); lia).
    assert (E : x = child_number (c 0) (c 1) (match d with D2 => 0 | D3 => c 2 end)).
    { destruct d; unfold full in Hx; cbn [In] in Hx;
      repeat (destruct Hx as [<-|Hx]; [reflexivity|]); contradiction. }
    rewrite E, <- (child_slot_ok d g ft c Hd ltac:(intros; apply Hc)).
    apply in_map_iff.
    exists (small_child d ft c 0, small_child d ft c 1, (match d with D2 => 0 | D3 => small_child d ft c 2 end)).
    split; [reflexivity|].
    assert (SC : forall a, small_child d ft c a = 0 \/ small_child d ft c a = 1).
    { intros a. assert (FL : forall bb y, 0 <= y <= 1 -> cflip bb y = 0 \/ cflip bb y = 1).
      { intros bb y Hy. unfold cflip. destruct bb; lia. }
      unfold small_child. destruct (a =? ta2 ft); [auto|]. destruct d; [auto|]. destruct (a =? ta1 ft); auto. }
    destruct d.
    + destruct (SC 0) as [->| ->], (SC 1) as [->| ->]; cbn; tauto.
    + destruct (SC 0) as [->| ->], (SC 1) as [->| ->], (SC 2) as [->| ->]; cbn; tauto.
Qed.

Section Main2.
  Variable rnd : Q -> Q.
  Hypothesis Hrnd : rounding rnd.

  Lemma transform_face2_across_ok : forall d ip op g ft mx my mz based i j k,
    quadrant d ip -> quadrant d op -> level op = level ip + 1 -> describes d g ft ->
    sizes_match g mx my mz -> sizes_ok d (level op) mx my mz -> 0 <= based <= 1 ->
    in_int i -> in_int j -> (d = D3 -> in_int k) ->
    exists outs,
      delivers d outs (fun sx sy sz '(i', j', k') =>
          same_point g (child_center ip mx my mz based i j k sx sy sz)
                       (cell_center op mx my mz based i' j' k')) /\
      ((forall s i' j' k', In (s, (i', j', k')) outs ->
          Z.abs i' <= 2 ^ 30 /\ Z.abs j' <= 2 ^ 30 /\ (d = D3 -> Z.abs k' <= 2 ^ 30)) ->
       transform_face2 rnd d ip op ft mx my mz based i j k = Some outs).
  Proof.
    intros d ip op g ft mx my mz b i j k Hi Ho Hl Hd Hm Hs Hb Ii Ij Ik.
    pose proof (axis_facts _ _ _ Hd) as
      (AX & F0 & F2 & F1 & T0 & T2 & T1 & En & En' & E2 & (r0 & Er0 & I0) & E1 & Iinv & (TD0 & TD1) & (MD0 & MD1)).
    pose proof (face_code_range g) as FC.
    destruct (sizes_match_axes _ _ _ _ _ _ Hd Hm) as (M2 & M0 & M1).
    destruct (grid_fun _ _ Hi) as (A & HA). destruct (grid_fun _ _ Ho) as (B & HB).
    assert (Hlev : 0 <= level ip /\ level ip + 1 <= 30).
    { destruct Hi as (Hlev & _). destruct Ho as (Hlev' & _). destruct d; lia. }
    assert (HS : forall a, 0 <= a < ndim d -> size_ok (level op) (sel a mx my mz)).
    { intros a Ha. apply (sizes_axis d); assumption. }
    pose proof (ndim_le d) as ND.
    set (m := fun a => sel a mx my mz) in *.
    set (I := fun a => sel a i j k).
    set (R := fun a => 2 ^ level op * m a).
    set (N := fun a => 2 * (A a * m a + I a - b) + 1).
    set (V0 := if er0 ft =? 0 then N (my0 ft) else R (my0 ft) - N (my0 ft)).
    set (V1 := if er1 ft =? 0 then N (my1 ft) else R (my1 ft) - N (my1 ft)).
    set (V2 := normal_int2 (er2 ft) (N (my2 ft)) (R (my2 ft))).
    set (T := fun a => if a =? ta2 ft then V2 else
               match d with D2 => V0 | D3 => if a =? ta1 ft then V1 else V0 end).
    set (f := fun a => T a - B a * m a + b - 1).
    assert (ET2 : T (ta2 ft) = V2) by (unfold T; rewrite Z.eqb_refl; reflexivity).
    assert (ET0 : T (ta0 ft) = V0).
    { unfold T. rewrite (proj2 (Z.eqb_neq _ _) TD0). destruct d; [reflexivity|].
      destruct (TD1 eq_refl) as (_ & NE). rewrite (proj2 (Z.eqb_neq (ta0 ft) (ta1 ft))) by congruence. reflexivity. }
    assert (ET1 : d = D3 -> T (ta1 ft) = V1).
    { intros D. unfold T. destruct (TD1 D) as (NE & _). rewrite (proj2 (Z.eqb_neq _ _) NE), D, Z.eqb_refl. reflexivity. }
    set (dk := match d with D2 => k | D3 => f 2 end).
    exists (map (fun '(s0, s1, s2) => (child_slot d ft s0 s1 s2, (f 0 + s0, f 1 + s1, dk + s2))) (children d)).
    assert (Rpos : forall a, 0 <= a < ndim d -> 0 < R a <= 2 ^ 49).
    { intros a Ha. destruct (HS a Ha). unfold R. pose proof (pow2_pos (level op) ltac:(lia)). unfold m. nia. }
    split.
    - (* geometry *)
      split.
      + rewrite map_map.
        rewrite (map_ext _ (fun '(s0, s1, s2) => child_slot d ft s0 s1 s2))
          by (intros ((?, ?), ?); reflexivity).
        eapply child_slots_perm; eassumption.
      + intros sx sy sz (Hx & Hy & Hz).
        set (c := fun a => sel a sx sy sz).
        assert (Hc : forall a, 0 <= a < ndim d -> 0 <= c a <= 1).
        { intros a Ha. unfold c, sel. destruct (a =? 0); [lia|]. destruct (a =? 1); [lia|]. destruct d; lia. }
        set (s := small_child d ft c).
        exists (f 0 + s 0, f 1 + s 1, dk + (match d with D2 => 0 | D3 => s 2 end)).
        assert (SC : forall a, 0 <= a < ndim d -> s a = 0 \/ s a = 1).
        { intros a Ha. assert (FL : forall bb y, 0 <= y <= 1 -> cflip bb y = 0 \/ cflip bb y = 1).
          { intros bb y Hyy. unfold cflip. destruct bb; lia. }
          unfold s, small_child. destruct (a =? ta2 ft); [auto|]. destruct d; [auto|]. destruct (a =? ta1 ft); auto. }
        split.
        * apply in_map_iff.
          exists (s 0, s 1, (match d with D2 => 0 | D3 => s 2 end)). split.
          -- unfold s. rewrite (child_slot_ok d g ft c Hd Hc). f_equal.
             unfold c. destruct d; [|reflexivity]. assert (sz = 0) by lia. subst sz. reflexivity.
          -- destruct d.
             ++ destruct (SC 0 ltac:(lia)) as [->| ->], (SC 1 ltac:(lia)) as [->| ->]; cbn; tauto.
             ++ destruct (SC 0 ltac:(lia)) as [->| ->], (SC 1 ltac:(lia)) as [->| ->], (SC 2 ltac:(cbn; lia)) as [->| ->]; cbn; tauto.
        * apply (same_point_int d g ft _ _
             (fun a => 4 * (A a * m a + I a - b) + 1 + 2 * c a)
             (fun a => 2 * (B a * m a + (f a + s a) - b) + 1) R Hd).
          -- intros a Ha. destruct (Rpos a Ha); lia.
          -- unfold R, m. rewrite M2; reflexivity.
          -- unfold R, m. rewrite M0; reflexivity.
          -- intros D; unfold R, m. rewrite (M1 D); reflexivity.
          -- intros a Ha. rewrite child_center_sel by lia. destruct (HA a Ha). destruct (HS a Ha).
             unfold R, I, c, m. rewrite Hl. apply half_cell_scaled; try lia; try assumption.
          -- intros a Ha. rewrite cell_center_sel by lia. destruct (HB a Ha). destruct (HS a Ha).
             assert (SE : sel a (f 0 + s 0) (f 1 + s 1) (dk + (match d with D2 => 0 | D3 => s 2 end)) = f a + s a).
             { unfold dk. destruct d; cbn [ndim] in Ha.
               - assert (a = 0 \/ a = 1) as [->| ->] by lia; reflexivity.
               - apply (sel_fun (fun a => f a + s a)). lia. }
             rewrite SE. unfold R, m. apply cell_scaled; try lia; try assumption.
          -- assert (Hb2 : 0 <= er2 ft <= 3) by (rewrite E2; exact FC).
             split; [|split].
             ++ unfold f. rewrite ET2. unfold V2, normal_int, normal_int2, N, s, small_child. rewrite Z.eqb_refl.
                unfold cflip.
                assert (er2 ft = 0 \/ er2 ft = 1 \/ er2 ft = 2 \/ er2 ft = 3) as [Ec|[Ec|[Ec|Ec]]] by lia;
                rewrite Ec; cbn [Z.eqb Pos.eqb orb negb]; lia.
             ++ unfold f. rewrite ET0. unfold V0, N.
                assert (SE : s (ta0 ft) = cflip (negb (er0 ft =? 0)) (c (my0 ft))).
                { unfold s, small_child. rewrite (proj2 (Z.eqb_neq _ _) TD0). destruct d; [reflexivity|].
                  destruct (TD1 eq_refl) as (_ & NE). rewrite (proj2 (Z.eqb_neq (ta0 ft) (ta1 ft))) by congruence. reflexivity. }
                rewrite SE. unfold cflip. destruct (er0 ft =? 0); cbn [negb]; lia.
             ++ intros D. unfold f. rewrite (ET1 D). unfold V1, N.
                assert (SE : s (ta1 ft) = cflip (negb (er1 ft =? 0)) (c (my1 ft))).
                { unfold s, small_child. destruct (TD1 D) as (NE & _).
                  rewrite (proj2 (Z.eqb_neq _ _) NE), D, Z.eqb_refl. reflexivity. }
                rewrite SE. unfold cflip. destruct (er1 ft =? 0); cbn [negb]; lia.
    - (* the model computes it *)
      intros Small.
      assert (SM : forall a, 0 <= a < ndim d -> in_int (T a - B a * m a)).
      { assert (X : exists sl, In (sl, (f 0 + 0, f 1 + 0, dk + 0))
           (map (fun '(s0, s1, s2) => (child_slot d ft s0 s1 s2, (f 0 + s0, f 1 + s1, dk + s2))) (children d))).
        { exists (child_slot d ft 0 0 0). destruct d; left; reflexivity. }
        destruct X as (sl & X). destruct (Small _ _ _ _ X) as (Y0 & Y1 & Y2).
        intros a Ha. unfold in_int, int_min, int_max.
        assert (a = 0 \/ a = 1 \/ (a = 2 /\ d = D3)) as [->|[->|(-> & D)]].
        { destruct d; cbn [ndim] in Ha; [lia|]. assert (a = 0 \/ a = 1 \/ a = 2) as [|[|]] by lia; auto. }
        + unfold f in Y0. lia. + unfold f in Y1. lia.
        + unfold dk, f in Y2. subst d. specialize (Y2 eq_refl). lia. }
      unfold transform_face2.
      assert (AS : (level ip + 1 =? level op) && (0 <=? level ip) && (level op <? maxlevel_of d) && patch_ok d ip && patch_ok d op &&
         (1 <=? mx) && (1 <=? my) && match d with D2 => true | D3 => 1 <=? mz end &&
         ((b =? 0) || (b =? 1)) && face_transformation_valid d ft = true).
      { rewrite (quadrant_ok _ _ Hi), (quadrant_ok _ _ Ho), (describes_valid _ _ _ Hd).
        destruct Hs as (S0 & S1 & S2). destruct Ho as (Hlev' & _). unfold size_ok in *.
        destruct d; [|specialize (S2 eq_refl)]; cbn [maxlevel_of]; lia. }
      rewrite AS. cbn [negb].
      assert (L4 : Z.land (er2 ft) 4 = 0).
      { rewrite E2. assert (face_code g = 0 \/ face_code g = 1 \/ face_code g = 2 \/ face_code g = 3)
          as [->|[->|[->| ->]]] by lia; reflexivity. }
      rewrite L4. cbn [Z.eqb negb].
      assert (MM : (m (ta0 ft) =? m (my0 ft)) &&
               (match d with D2 => true | D3 => m (ta1 ft) =? m (my1 ft) end) = true).
      { unfold m. rewrite M0, !Z.eqb_refl. destruct d; [reflexivity|].
        rewrite (M1 eq_refl), Z.eqb_refl. reflexivity. }
      unfold m in MM. rewrite MM. cbn [negb].
      set (w := dbl rnd (Z.shiftl 1 (level op))).
      assert (HI : forall a, 0 <= a < ndim d -> in_int (I a)).
      { intros a Ha. unfold I, sel. destruct (a =? 0) eqn:?; [auto|]. destruct (a =? 1) eqn:?; [auto|].
        destruct d; cbn [ndim] in Ha; [lia|]. auto. }
      assert (HR : forall a, 0 <= a < ndim d -> (fmul rnd w (dbl rnd (m a)) == inject_Z (R a))%Q).
      { intros a Ha. destruct (HS a Ha). unfold w, m. apply R_ok; auto; lia. }
      assert (NB : forall a, 0 <= a < ndim d -> Z.abs (N a) <= 2 ^ 50).
      { intros a Ha. destruct (HS a Ha) as (Sa & Sb). destruct (HA a Ha) as (Aa & _).
        pose proof (HI a Ha) as X. fold (m a) in Sa, Sb.
        unfold in_int, int_min, int_max in X. unfold N.
        rewrite Hl, Z.pow_add_r in Sb by lia. change (2 ^ 1) with 2 in Sb.
        assert (0 <= A a * m a <= 2 ^ 48) by nia. lia. }
      assert (HX : forall a, 0 <= a < ndim d ->
         (sel a (my_coord2 rnd (xlower ip) (fmul rnd w (dbl rnd mx)) i b)
                (my_coord2 rnd (ylower ip) (fmul rnd w (dbl rnd my)) j b)
                (my_coord2 rnd (zlower ip) (fmul rnd w (dbl rnd mz)) k b) == inject_Z (N a))%Q).
      { intros a Ha.
        assert (E : sel a (my_coord2 rnd (xlower ip) (fmul rnd w (dbl rnd mx)) i b)
                (my_coord2 rnd (ylower ip) (fmul rnd w (dbl rnd my)) j b)
                (my_coord2 rnd (zlower ip) (fmul rnd w (dbl rnd mz)) k b) =
                my_coord2 rnd (low ip a) (fmul rnd w (dbl rnd (m a))) (I a) b).
        { unfold m, I, low, sel. destruct (a =? 0), (a =? 1); reflexivity. }
        rewrite E. pose proof (HR a Ha) as HRa. destruct (HA a Ha). destruct (HS a Ha). pose proof (HI a Ha).
        unfold N. unfold R in HRa. rewrite Hl in *.
        apply (my_coord2_ok rnd Hrnd (level ip)); try assumption; try lia; try (unfold m; lia). }
      rewrite !sel_R. fold w.
      assert (Hcode : 0 <= er2 ft <= 3) by (rewrite E2; assumption).
      match goal with |- context [normal_coord rnd (er2 ft) ?X ?Y] =>
        destruct (normal_coord_int rnd Hrnd (er2 ft) X Y (N (my2 ft)) (R (my2 ft))) as (t2 & Et2 & Ht2) end.
      { apply HX; assumption. } { apply HR; assumption. } { apply NB; assumption. }
      { destruct (Rpos _ F2); lia. } { rewrite E2; assumption. }
      rewrite Et2. cbn [bind].
      match goal with |- context [trans_coord rnd (er0 ft) ?X ?Y] =>
        pose proof (trans_coord_int rnd Hrnd (er0 ft) X Y (N (my0 ft)) (R (my0 ft))
           (HX _ F0) (HR _ F0) (NB _ F0) ltac:(destruct (Rpos _ F0); lia)) as Ht0;
        set (t0 := trans_coord rnd (er0 ft) X Y) in * end.
      match goal with |- context [trans_coord rnd (er1 ft) ?X ?Y] =>
        assert (Ht1 : d = D3 -> (trans_coord rnd (er1 ft) X Y == inject_Z V1)%Q);
        [intros D; specialize (F1 D);
         apply (trans_coord_int rnd Hrnd (er1 ft) X Y (N (my1 ft)) (R (my1 ft))
           (HX _ F1) (HR _ F1) (NB _ F1) ltac:(destruct (Rpos _ F1); lia))|];
        set (t1 := trans_coord rnd (er1 ft) X Y) in * end.
      assert (ENT : forall a, 0 <= a < ndim d -> exists u,
          target_entry d ft t0 t1 t2 a = Some u /\ (u == inject_Z (T a))%Q).
      { intros a Ha. unfold target_entry.
        destruct (AX a Ha) as [E|[(E & D & NE)|(E & NE & NE1)]].
        - exists t2. subst a. rewrite Z.eqb_refl. split; [reflexivity|]. rewrite ET2. exact Ht2.
        - exists t1. rewrite (proj2 (Z.eqb_neq _ _) NE), D. subst a. rewrite Z.eqb_refl.
          split; [reflexivity|]. rewrite (ET1 D). apply Ht1; exact D.
        - exists t0. rewrite (proj2 (Z.eqb_neq _ _) NE). destruct d.
          + subst a. rewrite Z.eqb_refl. split; [reflexivity|]. rewrite ET0. exact Ht0.
          + rewrite (proj2 (Z.eqb_neq _ _) (NE1 eq_refl)). subst a. rewrite Z.eqb_refl.
            split; [reflexivity|]. rewrite ET0. exact Ht0. }
      assert (TB : forall a, 0 <= a < ndim d -> Z.abs (T a) <= 2 ^ 51).
      { intros a Ha. pose proof (SM a Ha) as X. destruct (HS a Ha) as (Sa & Sb). destruct (HB a Ha) as (Ba & _).
        fold (m a) in Sa, Sb. unfold in_int, int_min, int_max in X.
        assert (0 <= B a * m a <= 2 ^ 49) by nia. lia. }
      assert (BACK : forall a u, 0 <= a < ndim d -> (u == inject_Z (T a))%Q ->
          back_coord2 rnd u (low op a) (fmul rnd w (dbl rnd (m a))) b = Some (f a)).
      { intros a u Ha Hu. destruct (HB a Ha). destruct (HS a Ha). unfold f.
        apply (back_coord2_ok rnd Hrnd (level op)); try assumption; try lia; auto; unfold m; try lia.
        apply (HR a Ha). }
      destruct (ENT 0 ltac:(lia)) as (u0 & -> & Hu0).
      destruct (ENT 1 ltac:(lia)) as (u1 & -> & Hu1). cbn [bind].
      pose proof (BACK 0 u0 ltac:(lia) Hu0) as K0.
      pose proof (BACK 1 u1 ltac:(lia) Hu1) as K1.
      change (low op 0) with (xlower op) in K0. change (low op 1) with (ylower op) in K1.
      change (m 0) with mx in K0. change (m 1) with my in K1.
      rewrite K0, K1. cbn [bind].
      unfold dk. destruct d.
      + reflexivity.
      + destruct (ENT 2 ltac:(cbn; lia)) as (u2 & -> & Hu2). cbn [bind].
        pose proof (BACK 2 u2 ltac:(cbn; lia) Hu2) as K2.
        change (low op 2) with (zlower op) in K2. change (m 2) with mz in K2.
        rewrite K2. reflexivity.
  Qed.
End Main2.
