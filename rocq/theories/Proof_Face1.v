(** transform_face: main proofs. *)
From Coq Require Import ZArith QArith Qpower Lia Lqa List Bool Setoid Morphisms Qfield.
From Verif Require Import Base_Float Model_Face Spec_Face Proof_Face.
Import ListNotations.
Open Scope Z_scope.

Lemma axis_facts : forall d g ft, describes d g ft ->
  (forall a, 0 <= a < ndim d -> a = ta2 ft \/ (a = ta1 ft /\ d = D3 /\ a <> ta2 ft)
       \/ (a = ta0 ft /\ a <> ta2 ft /\ (d = D3 -> a <> ta1 ft))) /\
  0 <= my0 ft < ndim d /\ 0 <= my2 ft < ndim d /\ (d = D3 -> 0 <= my1 ft < ndim d) /\
  0 <= ta0 ft < ndim d /\ 0 <= ta2 ft < ndim d /\ (d = D3 -> 0 <= ta1 ft < ndim d) /\
  my2 ft = normal_axis (here g) /\ ta2 ft = normal_axis (there g) /\
  er2 ft = face_code g /\
  (exists r, er0 ft = b2z r /\ In (my0 ft, ta0 ft, r) (tangential g)) /\
  (d = D3 -> exists r, er1 ft = b2z r /\ In (my1 ft, ta1 ft, r) (tangential g)) /\
  (forall ma tb r, In (ma, tb, r) (tangential g) ->
     (ma = my0 ft /\ tb = ta0 ft /\ er0 ft = b2z r) \/
     (d = D3 /\ ma = my1 ft /\ tb = ta1 ft /\ er1 ft = b2z r)) /\
  (ta0 ft <> ta2 ft /\ (d = D3 -> ta1 ft <> ta2 ft /\ ta1 ft <> ta0 ft)) /\
  (my0 ft <> my2 ft /\ (d = D3 -> my1 ft <> my2 ft /\ my1 ft <> my0 ft)).
Proof.
  intros d g ft H. destruct d; unfold describes in H; cbn [ndim].
  - destruct (tangential g) as [|[[t t'] r] [|? ?]] eqn:T; try contradiction.
    destruct H as (G & ->). destruct G as (n & t0 & r0 & n' & t0' & T' & Hn & Hn' & A & B).
    rewrite T in T'. injection T' as <- <- <-. cbn [my0 my1 my2 ta0 ta1 ta2 er0 er1 er2].
    subst n n'.
    repeat match goal with |- _ /\ _ => split end; try lia; try reflexivity; try discriminate.
    + intros a Ha. destruct (Z.eq_dec a (normal_axis (there g))); [left; assumption|right; right].
      split; [lia|]. split; [assumption|discriminate].
    + exists r. split; [reflexivity|left; reflexivity].
    + intros ma tb r1 [E|[]]. injection E as <- <- <-. left; auto.
  - destruct (tangential g) as [|[[t t'] r] [|[[s s'] q] [|? ?]]] eqn:T; try contradiction.
    destruct H as (G & ->). destruct G as (t0 & t1 & t0' & t1' & r0 & r1 & T' & A & B).
    rewrite T in T'. injection T' as <- <- <- <- <- <-. cbn [my0 my1 my2 ta0 ta1 ta2 er0 er1 er2].
    unfold axes3 in *.
    repeat match goal with |- _ /\ _ => split end; try lia; try reflexivity; try discriminate.
    + intros a Ha. destruct (Z.eq_dec a (normal_axis (there g))); [left; assumption|right].
      destruct (Z.eq_dec a s'); [left; auto|right]. split; [lia|]. split; auto.
    + exists r. split; [reflexivity|left; reflexivity].
    + intros _. exists q. split; [reflexivity|right; left; reflexivity].
    + intros ma tb r2 [E|[E|[]]]; injection E as <- <- <-; auto.
Qed.

Lemma face_code_range : forall g, 0 <= face_code g <= 3.
Proof. intros. unfold face_code. destruct (upper (here g)), (upper (there g)); cbn; lia. Qed.

Lemma describes_valid : forall d g ft, describes d g ft -> face_transformation_valid d ft = true.
Proof.
  intros d g ft H. pose proof (axis_facts _ _ _ H) as F.
  destruct F as (_ & F0 & F2 & F1 & T0 & T2 & T1 & _ & _ & E2 & (r & Er & _) & E1 & _).
  pose proof (face_code_range g). pose proof H as H'.
  destruct d; cbn [ndim] in *; unfold face_transformation_valid.
  - assert (my1 ft = 0 /\ ta1 ft = 0 /\ er1 ft = 0) as (Q1 & Q2 & Q3).
    { unfold describes in H'. destruct (tangential g) as [|[[t t'] q] [|? ?]]; try contradiction.
      destruct H' as (_ & ->). cbn. auto. }
    rewrite E2, Er, Q1, Q2, Q3. destruct r; cbn [b2z]; lia.
  - specialize (F1 eq_refl). specialize (T1 eq_refl). destruct (E1 eq_refl) as (r1 & Er1 & _).
    rewrite E2, Er, Er1. destruct r, r1; cbn [b2z]; lia.
Qed.

Lemma in_unit_grid : forall lev x, on_grid lev x -> 0 <= lev -> in_unit x = true.
Proof.
  intros lev x (a & Ha & Hx) Hl. pose proof (pow2_pos lev Hl) as P. unfold in_unit.
  assert (PQ : (0 < inject_Z (2 ^ lev))%Q) by (change 0%Q with (inject_Z 0); rewrite <- Zlt_Qlt; lia).
  assert (B : (0 <= x < 1)%Q).
  { rewrite Hx. split.
    - apply Qle_shift_div_l; [exact PQ|]. rewrite Qmult_0_l. change 0%Q with (inject_Z 0); rewrite <- Zle_Qle; lia.
    - apply Qlt_shift_div_r; [exact PQ|]. rewrite Qmult_1_l. rewrite <- Zlt_Qlt; lia. }
  destruct B as (B1 & B2). apply andb_true_iff; split.
  - apply Qle_bool_iff; exact B1.
  - apply negb_true_iff. apply not_true_iff_false. intros C. apply Qle_bool_iff in C. lra.
Qed.

Lemma quadrant_ok : forall d p, quadrant d p -> patch_ok d p = true.
Proof.
  intros d p (Hl & Hx & Hy & Hz). unfold patch_ok.
  rewrite (in_unit_grid _ _ Hx), (in_unit_grid _ _ Hy) by lia. destruct d; [reflexivity|].
  rewrite (in_unit_grid _ _ (Hz eq_refl)) by lia. reflexivity.
Qed.

Lemma sizes_axis : forall d lev mx my mz a, sizes_ok d lev mx my mz -> 0 <= a < ndim d ->
  size_ok lev (sel a mx my mz).
Proof.
  intros d lev mx my mz a (H0 & H1 & H2) Ha. unfold sel.
  destruct (a =? 0) eqn:?; [assumption|]. destruct (a =? 1) eqn:?; [assumption|].
  destruct d; cbn [ndim] in Ha; [lia|]. apply H2; reflexivity.
Qed.

Lemma asserts_face : forall d ip op g ft mx my mz based,
  quadrant d ip -> quadrant d op -> level ip = level op -> describes d g ft ->
  sizes_ok d (level ip) mx my mz -> 0 <= based <= 1 ->
  (level ip =? level op) && (0 <=? level ip) &&
   (level ip <? maxlevel_of d) && patch_ok d ip && patch_ok d op &&
   (1 <=? mx) && (1 <=? my) && (match d with D2 => true | D3 => 1 <=? mz end) &&
   ((based =? 0) || (based =? 1)) && face_transformation_valid d ft = true.
Proof.
  intros d ip op g ft mx my mz based Hi Ho Hl Hd (S0 & S1 & S2) Hb.
  rewrite (quadrant_ok _ _ Hi), (quadrant_ok _ _ Ho), (describes_valid _ _ _ Hd).
  destruct Hi as (Hlev & _). unfold maxlevel_of. unfold size_ok in *.
  destruct d; [|specialize (S2 eq_refl)]; lia.
Qed.

(** choose integer positions along every axis *)
Lemma grid_fun : forall d p, quadrant d p -> exists A : Z -> Z,
  forall a, 0 <= a < ndim d ->
    0 <= A a < 2 ^ level p /\ (low p a == inject_Z (A a) / inject_Z (2 ^ level p))%Q.
Proof.
  intros d p H. pose proof H as (Hl & (x & Hx) & (y & Hy) & Hz). destruct d.
  - exists (fun a => sel a x y 0). intros a Ha. cbn [ndim] in Ha.
    assert (a = 0 \/ a = 1) as [->| ->] by lia; assumption.
  - destruct (Hz eq_refl) as (z & Hz'). exists (fun a => sel a x y z). intros a Ha.
    cbn [ndim] in Ha.
    assert (a = 0 \/ a = 1 \/ a = 2) as [->|[->| ->]] by lia; assumption.
Qed.

Lemma sel_R : forall rnd (w : Q) mx my mz a,
  sel a (fmul rnd w (dbl rnd mx)) (fmul rnd w (dbl rnd my)) (fmul rnd w (dbl rnd mz)) =
  fmul rnd w (dbl rnd (sel a mx my mz)).
Proof. intros. unfold sel. destruct (a =? 0), (a =? 1); reflexivity. Qed.

(** the integer relation equivalent to [same_point] *)
Definition int_rel (d : dim) (ft : ftrans) (N N' R : Z -> Z) : Prop :=
  N' (ta2 ft) = normal_int (er2 ft) (N (my2 ft)) (R (my2 ft)) /\
  N' (ta0 ft) = (if er0 ft =? 0 then N (my0 ft) else 2 * R (my0 ft) - N (my0 ft)) /\
  (d = D3 -> N' (ta1 ft) = (if er1 ft =? 0 then N (my1 ft) else 2 * R (my1 ft) - N (my1 ft))).

Lemma same_point_int : forall d g ft p p' N N' R,
  describes d g ft -> (forall a, 0 <= a < ndim d -> 0 < R a) ->
  R (my2 ft) = R (ta2 ft) -> R (my0 ft) = R (ta0 ft) -> (d = D3 -> R (my1 ft) = R (ta1 ft)) ->
  (forall a, 0 <= a < ndim d -> (p a == inject_Z (N a) / inject_Z (2 * R a))%Q) ->
  (forall a, 0 <= a < ndim d -> (p' a == inject_Z (N' a) / inject_Z (2 * R a))%Q) ->
  same_point g p p' <-> int_rel d ft N N' R.
Proof.
  intros d g ft p p' N N' R Hd HR R2 R0 R1 Hp Hp'.
  pose proof (axis_facts _ _ _ Hd) as
    (_ & F0 & F2 & F1 & T0 & T2 & T1 & En & En' & E2 & (r0 & Er0 & I0) & E1 & Iinv & _).
  unfold same_point, int_rel.
  rewrite (normal_int_rel g p p' (N (my2 ft)) (N' (ta2 ft)) (R (my2 ft))).
  2: auto. 2: rewrite <- En; auto. 2: rewrite <- En', R2; auto.
  rewrite <- E2.
  assert (Q0 : (p' (ta0 ft) == if r0 then 1 - p (my0 ft) else p (my0 ft))%Q <->
               N' (ta0 ft) = if er0 ft =? 0 then N (my0 ft) else 2 * R (my0 ft) - N (my0 ft)).
  { rewrite Er0. apply tangential_int; [auto|auto|rewrite R0; auto]. }
  assert (Q1 : d = D3 -> exists r1, er1 ft = b2z r1 /\ In (my1 ft, ta1 ft, r1) (tangential g) /\
               ((p' (ta1 ft) == if r1 then 1 - p (my1 ft) else p (my1 ft))%Q <->
               N' (ta1 ft) = if er1 ft =? 0 then N (my1 ft) else 2 * R (my1 ft) - N (my1 ft))).
  { intros D. destruct (E1 D) as (r1 & Er1 & I1). exists r1. split; [assumption|]. split; [assumption|].
    rewrite Er1. apply tangential_int; [auto|auto|rewrite (R1 D); auto]. }
  assert (BI : forall a b, b2z a = b2z b -> a = b) by (intros [] []; cbn; intros; congruence || lia).
  split.
  - intros (H2 & Ht). split; [exact H2|]. split.
    + apply Q0. apply Ht; exact I0.
    + intros D. destruct (Q1 D) as (r1 & _ & I1 & Q). apply Q. apply Ht; exact I1.
  - intros (H2 & H0 & H1). split; [exact H2|]. intros ma tb rev Hin.
    destruct (Iinv _ _ _ Hin) as [(-> & -> & Er)|(D & -> & -> & Er)].
    + rewrite Er0 in Er. apply BI in Er. subst rev. apply Q0; exact H0.
    + destruct (Q1 D) as (r1 & Er1 & _ & Q). rewrite Er1 in Er. apply BI in Er. subst rev.
      apply Q. apply H1; exact D.
Qed.

(** no index-space geometry is lost: sizes along identified axes *)
Lemma sizes_match_axes : forall d g ft mx my mz, describes d g ft -> sizes_match g mx my mz ->
  sel (my2 ft) mx my mz = sel (ta2 ft) mx my mz /\
  sel (my0 ft) mx my mz = sel (ta0 ft) mx my mz /\
  (d = D3 -> sel (my1 ft) mx my mz = sel (ta1 ft) mx my mz).
Proof.
  intros d g ft mx my mz Hd (Hn & Ht).
  pose proof (axis_facts _ _ _ Hd) as
    (_ & F0 & F2 & F1 & T0 & T2 & T1 & En & En' & E2 & (r0 & Er0 & I0) & E1 & Iinv & _).
  assert (ndim d <= 3) by (destruct d; cbn; lia).
  split; [|split].
  - rewrite En, En', <- !cells_sel by lia. exact Hn.
  - rewrite <- !cells_sel by lia. eapply Ht; exact I0.
  - intros D. destruct (E1 D) as (r1 & _ & I1). specialize (F1 D). specialize (T1 D).
    rewrite <- !cells_sel by lia. eapply Ht; exact I1.
Qed.

Section Main.
  Variable rnd : Q -> Q.
  Hypothesis Hrnd : rounding rnd.

  Lemma transform_face_rel : forall d ip op g ft mx my mz based i j k i' j' k',
    quadrant d ip -> quadrant d op -> level ip = level op -> describes d g ft ->
    sizes_match g mx my mz -> sizes_ok d (level ip) mx my mz -> 0 <= based <= 1 ->
    in_int i -> in_int j -> (d = D3 -> in_int k) ->
    in_int i' -> in_int j' -> (d = D3 -> in_int k') -> (d = D2 -> k' = k) ->
    same_point g (index_point ip mx my mz based i j k) (index_point op mx my mz based i' j' k') ->
    transform_face rnd d ip op ft mx my mz based i j k = Some (i', j', k').
  Proof.
    intros d ip op g ft mx my mz b i j k i' j' k' Hi Ho Hl Hd Hm Hs Hb Ii Ij Ik Ii' Ij' Ik' Hk SP.
    unfold transform_face.
    rewrite (asserts_face d ip op g ft mx my mz b) by assumption. cbn [negb].
    pose proof (axis_facts _ _ _ Hd) as
      (AX & F0 & F2 & F1 & T0 & T2 & T1 & En & En' & E2 & (r0 & Er0 & I0) & E1 & Iinv & TD & MD).
    pose proof (face_code_range g) as FC.
    assert (L4 : Z.land (er2 ft) 4 = 0).
    { rewrite E2. assert (face_code g = 0 \/ face_code g = 1 \/ face_code g = 2 \/ face_code g = 3)
        as [->|[->|[->| ->]]] by lia; reflexivity. }
    rewrite L4. cbn [Z.eqb negb].
    destruct (sizes_match_axes _ _ _ _ _ _ Hd Hm) as (M2 & M0 & M1).
    set (m := fun a => sel a mx my mz).
    assert (MM : (m (my0 ft) =? m (ta0 ft)) &&
               (match d with D2 => true | D3 => m (my1 ft) =? m (ta1 ft) end) &&
               (m (my2 ft) =? m (ta2 ft)) = true).
    { unfold m. rewrite M2, M0, !Z.eqb_refl. destruct d; [reflexivity|].
      rewrite (M1 eq_refl), Z.eqb_refl. reflexivity. }
    unfold m in MM. rewrite MM. cbn [negb].
    destruct (grid_fun _ _ Hi) as (A & HA). destruct (grid_fun _ _ Ho) as (B & HB).
    rewrite <- Hl in HB.
    assert (Hlev : 0 <= level ip <= 30).
    { destruct Hi as (Hlev & _). destruct d; lia. }
    set (lev := level ip) in *.
    set (w := dbl rnd (Z.shiftl 1 lev)).
    set (I := fun a => sel a i j k). set (I' := fun a => sel a i' j' k').
    set (N := fun a => 2 * (A a * m a + I a) - b).
    set (N' := fun a => 2 * (B a * m a + I' a) - b).
    set (R := fun a => 2 ^ lev * m a).
    assert (HS : forall a, 0 <= a < ndim d -> size_ok lev (m a)).
    { intros a Ha. apply (sizes_axis d); assumption. }
    assert (HI : forall a, 0 <= a < ndim d -> in_int (I a) /\ in_int (I' a)).
    { intros a Ha. unfold I, I', sel. destruct (a =? 0) eqn:?; [auto|]. destruct (a =? 1) eqn:?; [auto|].
      destruct d; cbn [ndim] in Ha; [lia|]. auto. }
    assert (HR : forall a, 0 <= a < ndim d -> (fmul rnd w (dbl rnd (m a)) == inject_Z (R a))%Q).
    { intros a Ha. destruct (HS a Ha). unfold w. apply R_ok; auto; lia. }
    assert (Rpos : forall a, 0 <= a < ndim d -> 0 < R a <= 2 ^ 49).
    { intros a Ha. destruct (HS a Ha). unfold R. pose proof (pow2_pos lev ltac:(lia)). nia. }
    assert (AB : forall a, 0 <= a < ndim d -> 0 <= A a * m a <= 2 ^ 49 /\ 0 <= B a * m a <= 2 ^ 49).
    { intros a Ha. destruct (HS a Ha). destruct (HA a Ha) as (? & _). destruct (HB a Ha) as (? & _). nia. }
    assert (NB : forall a, 0 <= a < ndim d -> Z.abs (N a) <= 2 ^ 51 /\ Z.abs (N' a) <= 2 ^ 51).
    { intros a Ha. specialize (AB a Ha). destruct (HI a Ha) as (X & Y).
      unfold in_int, int_min, int_max in X, Y. unfold N, N'. lia. }
    assert (IR : int_rel d ft N N' R).
    { apply (same_point_int d g ft (index_point ip mx my mz b i j k) (index_point op mx my mz b i' j' k'));
        try assumption.
      - intros a Ha. destruct (Rpos a Ha). lia.
      - unfold R, m. rewrite M2. reflexivity.
      - unfold R, m. rewrite M0. reflexivity.
      - intros D. unfold R, m. rewrite (M1 D). reflexivity.
      - intros a Ha. assert (0 <= a <= 2) by (destruct d; cbn in Ha; lia).
        rewrite index_point_sel by assumption. destruct (HA a Ha). destruct (HS a Ha).
        fold lev. apply index_coord_scaled; try lia; assumption.
      - intros a Ha. assert (0 <= a <= 2) by (destruct d; cbn in Ha; lia).
        rewrite index_point_sel by assumption. destruct (HB a Ha). destruct (HS a Ha).
        rewrite <- Hl. fold lev. apply index_coord_scaled; try lia; assumption. }
    destruct IR as (IR2 & IR0 & IR1).
    (* coordinates of the input index *)
    assert (HX : forall a, 0 <= a < ndim d ->
       (sel a (my_coord rnd (xlower ip) (fmul rnd w (dbl rnd mx)) i b)
              (my_coord rnd (ylower ip) (fmul rnd w (dbl rnd my)) j b)
              (my_coord rnd (zlower ip) (fmul rnd w (dbl rnd mz)) k b) == N a # 2)%Q).
    { intros a Ha.
      assert (E : sel a (my_coord rnd (xlower ip) (fmul rnd w (dbl rnd mx)) i b)
              (my_coord rnd (ylower ip) (fmul rnd w (dbl rnd my)) j b)
              (my_coord rnd (zlower ip) (fmul rnd w (dbl rnd mz)) k b) =
              my_coord rnd (low ip a) (fmul rnd w (dbl rnd (m a))) (I a) b).
      { unfold m, I, low, sel. destruct (a =? 0), (a =? 1); reflexivity. }
      rewrite E. destruct (HA a Ha). destruct (HS a Ha). destruct (HI a Ha).
      unfold N. apply (my_coord_ok rnd Hrnd lev); try assumption; try lia. apply HR; assumption. }
    rewrite !sel_R. fold w.
    (* transformed coordinates *)
    match goal with |- context [normal_coord rnd (er2 ft) ?X ?Y] =>
      destruct (normal_coord_ok rnd Hrnd (er2 ft) X Y (N (my2 ft)) (R (my2 ft))) as (t2 & Et2 & Ht2) end.
    { apply HX; assumption. } { apply HR; assumption. } { apply NB; assumption. }
    { destruct (Rpos _ F2); lia. } { rewrite E2; assumption. }
    rewrite Et2. cbn [bind].
    match goal with |- context [trans_coord rnd (er0 ft) ?X ?Y] =>
      pose proof (trans_coord_ok rnd Hrnd (er0 ft) X Y (N (my0 ft)) (R (my0 ft))
         (HX _ F0) (HR _ F0) (proj1 (NB _ F0)) ltac:(destruct (Rpos _ F0); lia)) as Ht0;
      set (t0 := trans_coord rnd (er0 ft) X Y) in * end.
    match goal with |- context [trans_coord rnd (er1 ft) ?X ?Y] =>
      assert (Ht1 : d = D3 -> (trans_coord rnd (er1 ft) X Y ==
           (if er1 ft =? 0 then N (my1 ft) else 2 * R (my1 ft) - N (my1 ft)) # 2)%Q);
      [intros D; specialize (F1 D);
       apply (trans_coord_ok rnd Hrnd (er1 ft) X Y (N (my1 ft)) (R (my1 ft))
         (HX _ F1) (HR _ F1) (proj1 (NB _ F1)) ltac:(destruct (Rpos _ F1); lia))|];
      set (t1 := trans_coord rnd (er1 ft) X Y) in * end.
    assert (ENT : forall a, 0 <= a < ndim d -> exists u,
        target_entry d ft t0 t1 t2 a = Some u /\ (u == N' a # 2)%Q).
    { intros a Ha. unfold target_entry.
      destruct (AX a Ha) as [E|[(E & D & NE)|(E & NE & NE1)]].
      - exists t2. subst a. rewrite Z.eqb_refl. split; [reflexivity|]. rewrite IR2. exact Ht2.
      - exists t1. rewrite (proj2 (Z.eqb_neq _ _) NE), D. subst a. rewrite Z.eqb_refl.
        split; [reflexivity|]. rewrite (IR1 D). apply Ht1; exact D.
      - exists t0. rewrite (proj2 (Z.eqb_neq _ _) NE). destruct d.
        + subst a. rewrite Z.eqb_refl. split; [reflexivity|]. rewrite IR0. exact Ht0.
        + rewrite (proj2 (Z.eqb_neq _ _) (NE1 eq_refl)). subst a. rewrite Z.eqb_refl.
          split; [reflexivity|]. rewrite IR0. exact Ht0. }
    assert (BACK : forall a u, 0 <= a < ndim d -> (u == N' a # 2)%Q ->
        back_coord rnd u (low op a) (fmul rnd w (dbl rnd (m a))) b = Some (I' a)).
    { intros a u Ha Hu. destruct (HB a Ha). destruct (HS a Ha). destruct (HI a Ha).
      eapply (back_coord_ok rnd Hrnd lev (m a) (low op a) (B a)) with (n := N' a); try assumption; try lia; try (apply HR; assumption); try (destruct (NB a Ha); lia); reflexivity. }
    destruct (ENT 0 ltac:(destruct d; cbn; lia)) as (u0 & -> & Hu0).
    destruct (ENT 1 ltac:(destruct d; cbn; lia)) as (u1 & -> & Hu1). cbn [bind].
    pose proof (BACK 0 u0 ltac:(destruct d; cbn; lia) Hu0) as K0.
    pose proof (BACK 1 u1 ltac:(destruct d; cbn; lia) Hu1) as K1.
    change (low op 0) with (xlower op) in K0. change (low op 1) with (ylower op) in K1.
    change (m 0) with mx in K0. change (m 1) with my in K1.
    rewrite K0, K1. cbn [bind].
    destruct d.
    - rewrite (Hk eq_refl). reflexivity.
    - destruct (ENT 2 ltac:(cbn; lia)) as (u2 & -> & Hu2). cbn [bind].
      pose proof (BACK 2 u2 ltac:(cbn; lia) Hu2) as K2.
      change (low op 2) with (zlower op) in K2. change (m 2) with mz in K2.
      rewrite K2. reflexivity.
  Qed.
End Main.
