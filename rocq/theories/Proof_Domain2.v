(** Proofs about domain_new: the recorded patch data and the iterators. *)
From Coq Require Import ZArith QArith Qpower Qfield Lia List Bool.
From Verif Require Import Base_Float Model_Face Model_Domain Spec_Domain Proof_Domain.
Import ListNotations.
Open Scope Z_scope.

(** ** Flags *)
Lemma testbit_set_flag : forall fl n c k, 0 <= n ->
  Z.testbit (set_flag fl (2 ^ n) c) k = Z.testbit fl k || (c && (k =? n)).
Proof.
  intros fl n c k Hn. unfold set_flag. destruct c; [|rewrite orb_false_r; reflexivity].
  rewrite Z.lor_spec, Z.pow2_bits_eqb by exact Hn. rewrite Z.eqb_sym. reflexivity.
Qed.

Lemma block_face_pow : forall f, 0 <= f -> FLAG_ON_BLOCK_FACE f = 2 ^ (6 + f).
Proof.
  intros f Hf. unfold FLAG_ON_BLOCK_FACE. rewrite Z.shiftl_mul_pow2 by exact Hf.
  rewrite Z.pow_add_r by lia. reflexivity.
Qed.

Lemma child_id_range : forall d q, 0 <= child_id d q < nchild d.
Proof.
  intros d q. unfold child_id, nchild. destruct (q_level q =? 0); [destruct d; lia|].
  unfold bit. destruct d; repeat (destruct (Z.testbit _ _)); lia.
Qed.

Lemma small_testbit : forall v k, 0 <= v < 8 -> 3 <= k -> Z.testbit v k = false.
Proof.
  intros v k Hv Hk. destruct (Z.eq_dec v 0) as [->|]; [apply Z.bits_0|].
  apply Z.bits_above_log2; [lia|]. assert (Z.log2 v < 3); [|lia].
  apply Z.log2_lt_pow2; lia.
Qed.

Lemma child_id_testbit : forall d q k, 3 <= k -> Z.testbit (child_id d q) k = false.
Proof.
  intros. apply small_testbit; auto. assert (H' := child_id_range d q).
  unfold nchild in H'. destruct d; lia.
Qed.

(** the flags of a patch with base flags fl *)
Lemma boundary_flags : forall rnd d fl l t q k, 0 <= k ->
  Z.testbit (p_flags (set_boundary_xylower rnd d fl l t q)) k =
  Z.testbit fl k ||
  ((q_x q =? 0) && (k =? 6)) || ((q_x q + quadrant_len d (q_level q) =? root_len d) && (k =? 7)) ||
  ((q_y q =? 0) && (k =? 8)) || ((q_y q + quadrant_len d (q_level q) =? root_len d) && (k =? 9)) ||
  match d with D2 => false | D3 =>
    ((q_z q =? 0) && (k =? 10)) || ((q_z q + quadrant_len d (q_level q) =? root_len d) && (k =? 11)) end.
Proof.
  intros. unfold set_boundary_xylower. cbn [p_flags].
  rewrite !block_face_pow by lia. destruct d; rewrite !testbit_set_flag by lia.
  - rewrite orb_false_r. reflexivity.
  - rewrite !orb_assoc. reflexivity.
Qed.

Definition flags_of (d : dim) (q : quad) (fs pb : bool) : Z :=
  set_flag (set_flag (child_id d q) FLAG_FIRST_SIBLING fs) FLAG_ON_PARALLEL_BOUNDARY pb.

Lemma flags_of_testbit : forall d q fs pb k, 0 <= k ->
  Z.testbit (flags_of d q fs pb) k =
  Z.testbit (child_id d q) k || (fs && (k =? 3)) || (pb && (k =? 4)).
Proof.
  intros. unfold flags_of. change FLAG_FIRST_SIBLING with (2 ^ 3).
  change FLAG_ON_PARALLEL_BOUNDARY with (2 ^ 4).
  rewrite !testbit_set_flag by lia. reflexivity.
Qed.

Lemma quadrant_len_side : forall d lv, quadrant_len d lv = side d lv.
Proof. destruct d; reflexivity. Qed.
Lemma root_len_side : forall d, root_len d = side d 0.
Proof. destruct d; reflexivity. Qed.

Section Flags.
  Variables (rnd : Q -> Q) (d : dim) (q : quad) (fl : Z) (l t : Z).
  Hypothesis Hfl : forall k, 0 <= k < 3 -> Z.testbit fl k = Z.testbit (child_id d q) k.
  Hypothesis Hhi : forall k, 6 <= k -> Z.testbit fl k = false.
  Let p := set_boundary_xylower rnd d fl l t q.

  Lemma flags_child : Z.land (p_flags p) 7 = child_id d q.
  Proof.
    clear Hhi. change 7 with (Z.ones 3). apply Z.bits_inj'. intros k Hk.
    rewrite Z.land_spec. rewrite Z.testbit_ones by lia.
    destruct (Z.lt_ge_cases k 3) as [H|H].
    - replace ((0 <=? k) && (k <? 3)) with true by lia. rewrite andb_true_r.
      unfold p. rewrite boundary_flags by lia. rewrite Hfl by lia.
      replace (k =? 6) with false by lia. replace (k =? 7) with false by lia.
      replace (k =? 8) with false by lia. replace (k =? 9) with false by lia.
      replace (k =? 10) with false by lia. replace (k =? 11) with false by lia.
      rewrite !andb_false_r, !orb_false_r. destruct d; rewrite ?orb_false_r; reflexivity.
    - replace ((0 <=? k) && (k <? 3)) with false by lia. rewrite andb_false_r.
      rewrite child_id_testbit by lia. reflexivity.
  Qed.

  Lemma flags_faces : forall f, 0 <= f < 6 ->
    (Z.testbit (p_flags p) (6 + f) = true <-> on_block_face d q f).
  Proof.
    clear Hfl. intros f Hf. unfold p. rewrite boundary_flags by lia. rewrite Hhi by lia.
    rewrite quadrant_len_side, root_len_side.
    unfold on_block_face.
    assert (C : f = 0 \/ f = 1 \/ f = 2 \/ f = 3 \/ f = 4 \/ f = 5) by lia.
    destruct C as [ -> | [ -> | [ -> | [ -> | [ -> | -> ] ] ] ] ]; cbn [Z.add Z.eqb Pos.eqb Pos.add];
      rewrite ?andb_false_r, ?andb_true_r, ?orb_false_l, ?orb_false_r;
      destruct d; rewrite ?Z.eqb_eq; intuition (try discriminate; try lia).
  Qed.

  Lemma flags_low : forall k, 0 <= k < 6 -> Z.testbit (p_flags p) k = Z.testbit fl k.
  Proof.
    clear Hfl Hhi. intros k Hk. unfold p. rewrite boundary_flags by lia.
    replace (k =? 6) with false by lia. replace (k =? 7) with false by lia.
    replace (k =? 8) with false by lia. replace (k =? 9) with false by lia.
    replace (k =? 10) with false by lia. replace (k =? 11) with false by lia.
    rewrite !andb_false_r, !orb_false_r. destruct d; rewrite ?orb_false_r; reflexivity.
  Qed.
End Flags.

(** ** Coordinates *)
Lemma is_b64_dyadic : forall m n, Z.abs m < 2 ^ 53 -> 0 <= n <= 100 ->
  is_b64 (inject_Z m / inject_Z (2 ^ n)).
Proof.
  intros m n Hm Hn. exists m, (- n). split; [exact Hm|]. split; [lia|].
  rewrite Qpower_opp. rewrite (Zpower_Qpower 2 n) by lia. reflexivity.
Qed.

Lemma is_b64_eq : forall x y, (x == y)%Q -> is_b64 x -> is_b64 y.
Proof. intros x y E (m & e & H1 & H2 & H3). exists m, e. rewrite <- E. auto. Qed.

Lemma dbl_ok : forall rnd z, rounding rnd -> Z.abs z < 2 ^ 53 -> (dbl rnd z == inject_Z z)%Q.
Proof.
  intros rnd z Hr Hz. unfold dbl. apply Hr.
  apply (is_b64_eq (inject_Z z / inject_Z (2 ^ 0))).
  - change (2 ^ 0) with 1. field.
  - apply is_b64_dyadic; lia.
Qed.

Lemma pow2_Q_nz : forall n, 0 <= n -> ~ (inject_Z (2 ^ n) == 0)%Q.
Proof.
  intros n Hn E. assert (0 < 2 ^ n) by (apply Z.pow_pos_nonneg; lia).
  unfold Qeq in E. cbn in E. lia.
Qed.

Lemma coord_ok : forall rnd d x, rounding rnd -> 0 <= x <= side d 0 ->
  (coord rnd d x == unit_coord d x)%Q.
Proof.
  intros rnd d x Hr Hx.
  assert (Hs : exists M, 0 <= M <= 30 /\ side d 0 = 2 ^ M /\ root_len d = 2 ^ M).
  { destruct d; [exists 30|exists 19]; repeat split; try reflexivity; lia. }
  destruct Hs as (M & HM & Es & Er).
  assert (Hle : 2 ^ M <= 2 ^ 30) by (apply Z.pow_le_mono_r; lia).
  assert (Hpos : 0 < 2 ^ M) by (apply Z.pow_pos_nonneg; lia).
  assert (Hh : (smallest_h rnd d == 1 / inject_Z (2 ^ M))%Q).
  { unfold smallest_h. rewrite Er.
    assert (E : (dbl rnd (2 ^ M) == inject_Z (2 ^ M))%Q) by (apply dbl_ok; [exact Hr|lia]).
    transitivity (1 / dbl rnd (2 ^ M))%Q.
    - apply Hr. apply (is_b64_eq (inject_Z 1 / inject_Z (2 ^ M))); [|apply is_b64_dyadic; lia].
      rewrite E. reflexivity.
    - rewrite E. reflexivity. }
  unfold coord, fmul.
  assert (Ex : (dbl rnd x == inject_Z x)%Q) by (apply dbl_ok; [exact Hr|rewrite Es in Hx; lia]).
  unfold unit_coord. rewrite Es.
  assert (E : (dbl rnd x * smallest_h rnd d == inject_Z x / inject_Z (2 ^ M))%Q).
  { rewrite Ex, Hh. field. apply pow2_Q_nz. lia. }
  transitivity (dbl rnd x * smallest_h rnd d)%Q; [|exact E].
  apply Hr. apply (is_b64_eq (inject_Z x / inject_Z (2 ^ M))); [symmetry; exact E|].
  apply is_b64_dyadic; rewrite Es in Hx; lia.
Qed.

(** ** Parents and children *)
Lemma side_pos : forall d l, l <= maxl d -> 0 < side d l.
Proof. intros d l Hl. destruct d; cbn [side maxl] in *; apply Z.pow_pos_nonneg; lia. Qed.

Lemma side_pred : forall d l, l <= maxl d -> side d (l - 1) = 2 * side d l.
Proof.
  intros d l Hl. destruct d; cbn [side maxl] in *.
  - replace (30 - (l - 1)) with (Z.succ (30 - l)) by lia. rewrite Z.pow_succ_r by lia. reflexivity.
  - replace (19 - (l - 1)) with (Z.succ (19 - l)) by lia. rewrite Z.pow_succ_r by lia. reflexivity.
Qed.

Definition mbit (d : dim) (l x : Z) : Z := bit (Z.testbit x (maxlevel_of d - l)).

Lemma mbit_div : forall d l x, l <= maxl d -> mbit d l x = (x / side d l) mod 2.
Proof.
  intros d l x Hl. unfold mbit, bit.
  assert (E : side d l = 2 ^ (maxlevel_of d - l)) by (destruct d; reflexivity).
  rewrite E.
  assert (H0 : 0 <= maxlevel_of d - l) by (destruct d; cbn [maxlevel_of maxl] in *; lia).
  rewrite <- (Z.testbit_spec' x (maxlevel_of d - l) H0).
  destruct (Z.testbit x (maxlevel_of d - l)); reflexivity.
Qed.

Lemma aligned_parent : forall d l x, 0 < l <= maxl d -> aligned d l x ->
  aligned d (l - 1) (x - mbit d l x * side d l).
Proof.
  intros d l x Hl (k & Ek & H0 & H1).
  assert (Hs := side_pos d l ltac:(lia)). assert (Hp := side_pred d l ltac:(lia)).
  rewrite mbit_div by lia. rewrite Ek. rewrite Z.div_mul by lia.
  assert (Hk : k = 2 * (k / 2) + k mod 2) by (apply Z.div_mod; lia).
  assert (Hm : 0 <= k mod 2 < 2) by (apply Z.mod_pos_bound; lia).
  (* side d 0 is an even multiple of side d l *)
  assert (He : exists w, side d 0 = w * side d (l - 1)).
  { destruct d; cbn [side maxl] in *.
    - exists (2 ^ (l - 1)). rewrite <- Z.pow_add_r by lia. f_equal. lia.
    - exists (2 ^ (l - 1)). rewrite <- Z.pow_add_r by lia. f_equal. lia. }
  destruct He as (w & He).
  exists (k / 2). rewrite Hp in *. split; [nia|].
  set (s := side d l) in *. set (h := k / 2) in *. set (b := k mod 2) in *.
  assert (k + 1 <= 2 * w) by (rewrite He, Ek in H1; nia).
  assert (h + 1 <= w) by lia.
  assert (k * s - b * s = 2 * h * s) by nia.
  assert (0 <= k) by (rewrite Ek in H0; apply (Z.mul_nonneg_cancel_r k s Hs); exact H0).
  rewrite H3. assert (0 <= h) by lia. split; [apply Z.mul_nonneg_nonneg; lia|]. rewrite He.
  replace (2 * h * s + 2 * s) with ((h + 1) * (2 * s)) by lia. apply Z.mul_le_mono_nonneg_r; lia.
Qed.

Lemma child_number_ok : forall d q, wf_quad d q -> child_number d q (child_id d q).
Proof.
  intros d q (Hl & Hx & Hy & Hz). split; [apply child_id_range|].
  destruct (Z.eq_dec (q_level q) 0) as [E|E].
  - left. split; [exact E|]. unfold child_id. rewrite E. reflexivity.
  - right. set (l := q_level q) in *.
    exists (mkQuad (l - 1) (q_x q - mbit d l (q_x q) * side d l)
                   (q_y q - mbit d l (q_y q) * side d l)
                   (match d with D2 => 0 | D3 => q_z q - mbit d l (q_z q) * side d l end)).
    assert (B : bitof (child_id d q) 0 = mbit d l (q_x q) /\
                bitof (child_id d q) 1 = mbit d l (q_y q) /\
                (d = D3 -> bitof (child_id d q) 2 = mbit d l (q_z q))).
    { unfold child_id. fold l. replace (l =? 0) with false by lia. unfold mbit, bitof.
      destruct d; repeat (destruct (Z.testbit _ _)); cbn; auto; repeat split; auto; discriminate. }
    destruct B as (B0 & B1 & B2). split.
    + unfold wf_quad. cbn [q_level q_x q_y q_z]. split; [lia|].
      split; [apply aligned_parent; auto; lia|]. split; [apply aligned_parent; auto; lia|].
      destruct d; [reflexivity|]. apply aligned_parent; auto; lia.
    + unfold is_child. cbn [q_level q_x q_y q_z]. fold l. rewrite B0, B1.
      split; [lia|]. split; [lia|]. split; [lia|].
      destruct d; [exact I|]. rewrite B2 by reflexivity. lia.
Qed.

(** is_familyv recognises exactly the complete families *)
Definition family_list (d : dim) (qs : list quad) : Prop :=
  exists parent, wf_quad d parent /\
    forall k, 0 <= k < nchild d ->
    exists q, nth_error qs (Z.to_nat k) = Some q /\ is_child d parent q k.

Lemma even_mbit : forall d l x, 0 < l <= maxl d -> aligned d (l - 1) x -> mbit d l x = 0.
Proof.
  intros d l x Hl (k & Ek & _). rewrite mbit_div by lia. rewrite Ek, side_pred by lia.
  assert (Hs := side_pos d l ltac:(lia)).
  replace (k * (2 * side d l)) with (k * 2 * side d l) by lia. rewrite Z.div_mul by lia.
  apply Z.mod_mul. lia.
Qed.

Ltac bits := repeat match goal with
  | |- context [bitof ?k ?n] => let v := eval compute in (bitof k n) in change (bitof k n) with v
  | H : context [bitof ?k ?n] |- _ =>
      let v := eval compute in (bitof k n) in change (bitof k n) with v in H
  end.

Lemma is_familyv_ok : forall d qs, Forall (wf_quad d) qs ->
  ((num_children d <=? length qs)%nat && is_familyv d qs = true <-> family_list d qs).
Proof.
  intros d qs Hwf. split.
  - intro H. apply andb_true_iff in H. destruct H as [Hn H]. apply Nat.leb_le in Hn.
    destruct qs as [|q0 qs]; [discriminate|]. unfold is_familyv in H.
    rewrite !andb_true_iff in H. destruct H as ((H1 & H2) & H3).
    inversion Hwf as [|? ? Hw0 _]; subst.
    apply Z.ltb_lt in H1. apply Z.eqb_eq in H2.
    destruct (child_number_ok d q0 Hw0) as (_ & [ (E & _) | (pa & Hpa & Hc)]); [lia|].
    rewrite H2 in Hc. unfold is_child in Hc. bits.
    exists pa. split; [exact Hpa|].
    assert (Hx : q_x q0 = q_x pa) by lia. assert (Hy : q_y q0 = q_y pa) by lia.
    destruct d.
    + destruct qs as [|q1 [|q2 [|q3 qs]]]; try (cbn in Hn; lia).
      cbn [children match_children] in H3. rewrite !andb_true_iff, !Z.eqb_eq in H3.
      rewrite !quadrant_len_side in H3.
      intros k Hk. cbn in Hk.
      assert (C : k = 0 \/ k = 1 \/ k = 2 \/ k = 3) by lia.
      destruct C as [ -> | [ -> | [ -> | -> ] ] ]; eexists; (split; [reflexivity|]);
        unfold is_child; bits; decompose [and] H3;
        repeat match goal with E : q_level ?a = q_level q0 |- _ => rewrite E; clear E end; lia.
    + assert (Hz : q_z q0 = q_z pa) by lia.
      destruct qs as [|q1 [|q2 [|q3 [|q4 [|q5 [|q6 [|q7 qs]]]]]]]; try (cbn in Hn; lia).
      cbn [children match_children] in H3. rewrite !andb_true_iff, !Z.eqb_eq in H3.
      rewrite !quadrant_len_side in H3.
      intros k Hk. cbn in Hk.
      assert (C : k = 0 \/ k = 1 \/ k = 2 \/ k = 3 \/ k = 4 \/ k = 5 \/ k = 6 \/ k = 7) by lia.
      destruct C as [ -> | [ -> | [ -> | [ -> | [ -> | [ -> | [ -> | -> ] ] ] ] ] ] ];
        eexists; (split; [reflexivity|]);
        unfold is_child; bits; decompose [and] H3;
        repeat match goal with E : q_level ?a = q_level q0 |- _ => rewrite E; clear E end; lia.
  - intros (pa & (Hl & Hax & Hay & Haz) & H).
    assert (K : forall k, 0 <= k < nchild d -> (Z.to_nat k < length qs)%nat).
    { intros k Hk. destruct (H k Hk) as (q & E & _). apply nth_error_Some. congruence. }
    apply andb_true_iff. split.
    + apply Nat.leb_le. specialize (K (nchild d - 1) ltac:(destruct d; cbn; lia)).
      destruct d; cbn in *; lia.
    + destruct qs as [|q0 qs]; [specialize (K 0 ltac:(destruct d; cbn; lia)); cbn in K; lia|].
      inversion Hwf as [|? ? Hw0 Hwr]; subst.
      destruct (H 0 ltac:(destruct d; cbn; lia)) as (q & E & Hc). cbn in E.
      injection E as <-. unfold is_child in Hc. bits.
      assert (Hlev : q_level q0 = q_level pa + 1) by lia.
      assert (Hml : 0 < q_level q0 <= maxl d) by (destruct Hw0 as (? & _); lia).
      unfold is_familyv. rewrite !andb_true_iff. split; [split|].
      * lia.
      * apply Z.eqb_eq. unfold child_id. replace (q_level q0 =? 0) with false by lia.
        assert (M : forall x, aligned d (q_level pa) x ->
                    bit (Z.testbit x (maxlevel_of d - q_level q0)) = 0).
        { intros x Hx. apply (even_mbit d (q_level q0) x Hml). rewrite Hlev.
          replace (q_level pa + 1 - 1) with (q_level pa) by lia. exact Hx. }
        replace (q_x q0) with (q_x pa) by lia. replace (q_y q0) with (q_y pa) by lia.
        rewrite (M _ Hax), (M _ Hay). destruct d; [reflexivity|].
        replace (q_z q0) with (q_z pa) by lia. rewrite (M _ Haz). reflexivity.
      * destruct d; cbn [nchild] in H.
        -- destruct (H 1 ltac:(lia)) as (q1 & E1 & C1). destruct (H 2 ltac:(lia)) as (q2 & E2 & C2).
           destruct (H 3 ltac:(lia)) as (q3 & E3 & C3). cbn in E1, E2, E3.
           destruct qs as [|r1 [|r2 [|r3 qs]]]; try discriminate.
           injection E1 as ->. injection E2 as ->. injection E3 as ->.
           unfold is_child in C1, C2, C3. bits.
           cbn [children match_children]. rewrite !andb_true_iff, !Z.eqb_eq, !quadrant_len_side.
           rewrite Hlev. decompose [and] C1; decompose [and] C2; decompose [and] C3.
           repeat match goal with E : q_level ?a = q_level pa + 1 |- _ => rewrite E in *; clear E end.
           repeat split; lia.
        -- destruct (H 1 ltac:(lia)) as (q1 & E1 & C1). destruct (H 2 ltac:(lia)) as (q2 & E2 & C2).
           destruct (H 3 ltac:(lia)) as (q3 & E3 & C3). destruct (H 4 ltac:(lia)) as (q4 & E4 & C4).
           destruct (H 5 ltac:(lia)) as (q5 & E5 & C5). destruct (H 6 ltac:(lia)) as (q6 & E6 & C6).
           destruct (H 7 ltac:(lia)) as (q7 & E7 & C7). cbn in E1, E2, E3, E4, E5, E6, E7.
           destruct qs as [|r1 [|r2 [|r3 [|r4 [|r5 [|r6 [|r7 qs]]]]]]]; try discriminate.
           injection E1 as ->. injection E2 as ->. injection E3 as ->. injection E4 as ->.
           injection E5 as ->. injection E6 as ->. injection E7 as ->.
           unfold is_child in C1, C2, C3, C4, C5, C6, C7. bits.
           cbn [children match_children]. rewrite !andb_true_iff, !Z.eqb_eq, !quadrant_len_side.
           rewrite Hlev. decompose [and] C1; decompose [and] C2; decompose [and] C3; decompose [and] C4;
           decompose [and] C5; decompose [and] C6; decompose [and] C7.
           repeat match goal with E : q_level ?a = q_level pa + 1 |- _ => rewrite E in *; clear E end.
           repeat split; lia.
Qed.
