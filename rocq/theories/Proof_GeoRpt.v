(** Proofs about GeoClaw's transverse Riemann solver. *)
From Coq Require Import ZArith QArith Qminmax Bool Lia Lqa Qfield.
From Verif Require Import Model_GeoStep Model_GeoRpt Spec_GeoStep Spec_GeoRpt.
Open Scope Q_scope.

Lemma lt_iff x y : lt x y = true <-> x < y.
Proof.
  unfold lt. rewrite negb_true_iff. split.
  - intros H. apply Qnot_le_lt. intros L. apply Qle_bool_iff in L. congruence.
  - intros H. destruct (Qle_bool y x) eqn:E; [|reflexivity]. apply Qle_bool_iff in E. exfalso. apply (Qlt_not_le _ _ H E).
Qed.
Lemma lt_false x y : lt x y = false <-> y <= x.
Proof. unfold lt. rewrite negb_false_iff. apply Qle_bool_iff. Qed.
Lemma mu_eq ixy : mu ixy = along ixy.
Proof. unfold mu, along. destruct (Z.eqb_spec ixy 1), (Z.eq_dec ixy 1); congruence. Qed.
Lemma mv_eq ixy : mv ixy = across ixy.
Proof. unfold mv, across. destruct (Z.eqb_spec ixy 1), (Z.eq_dec ixy 1); congruence. Qed.

Section R.
  Variable root : Q -> Q.
  Variables grav tol : Q.

  Lemma state_h h hu hv : 0 <= tol -> let H := fst (fst (state tol h hu hv)) in 0 <= H /\ (tol < h <-> tol < H).
  Proof.
    intros Ht. cbv zeta. unfold state. destruct (lt h tol) eqn:E; cbn [fst].
    - apply lt_iff in E. split; [lra|]. split; intros; lra.
    - apply lt_false in E. split; [lra|tauto].
  Qed.
  Lemma speeds_lt l r : positive root -> 0 < grav -> 0 <= fst (fst l) -> 0 <= fst (fst r) -> 0 < fst (fst l) \/ 0 < fst (fst r) ->
    let '(s1, s2, s3) := speeds root grav l r in s1 < s2 /\ s2 < s3.
  Proof.
    destruct l as [[hl ul] vl], r as [[hr ur] vr]. cbn [fst]. intros P G L R W. unfold speeds.
    set (vh := _ / _ + _ / _). set (hh := (hr + hl) / 2).
    assert (H : 0 < hh) by (unfold hh; apply Qlt_shift_div_l; [reflexivity|destruct W; lra]).
    assert (C : 0 < root (grav * hh)) by (apply P; nra).
    set (s1 := Qmin _ _). set (s3 := Qmax _ _).
    assert (A : s1 <= vh - root (grav * hh)) by apply Q.le_min_l. assert (B : vh + root (grav * hh) <= s3) by apply Q.le_max_l.
    clearbody s1 s3. split; lra.
  Qed.
  Lemma part_sum v b : (if lt v 0 then v * b else 0) + (if lt v 0 then 0 else if lt 0 v then v * b else 0) == v * b.
  Proof.
    destruct (lt v 0) eqn:E; [ring|]. apply lt_false in E. destruct (lt 0 v) eqn:F; [ring|]. apply lt_false in F.
    assert (X : v == 0) by lra. rewrite X. ring.
  Qed.
  Lemma going_sum s d1 d2 d3 k : going true s d1 d2 d3 k + going false s d1 d2 d3 k ==
    fst (family s d1 d2 d3 1 k) * snd (family s d1 d2 d3 1 k) + fst (family s d1 d2 d3 2 k) * snd (family s d1 d2 d3 2 k) +
    fst (family s d1 d2 d3 3 k) * snd (family s d1 d2 d3 3 k).
  Proof.
    unfold going. destruct (family s d1 d2 d3 1 k) as [v1 b1], (family s d1 d2 d3 2 k) as [v2 b2], (family s d1 d2 d3 3 k) as [v3 b3]. cbn [fst snd].
    pose proof (part_sum v1 b1). pose proof (part_sum v2 b2). pose proof (part_sum v3 b3).
    set (a1 := if lt v1 0 then v1 * b1 else 0) in *. set (a2 := if lt v2 0 then v2 * b2 else 0) in *. set (a3 := if lt v3 0 then v3 * b3 else 0) in *.
    lra.
  Qed.
  Lemma family_lin s mw k : exists x y z, forall d1 d2 d3, snd (family s d1 d2 d3 mw k) == x * d1 + y * d2 + z * d3.
  Proof.
    destruct s as [[s1 s2] s3]. unfold family. destruct (mw =? 1)%Z; [|destruct (mw =? 2)%Z]; cbn [snd].
    - set (e := if (k =? 1)%Z then 1 else _). exists (s3 / (s3 - s1) * e), 0, (- (/ (s3 - s1)) * e). intros. unfold Qdiv. ring.
    - set (e := if (k =? 2)%Z then 1 else 0). exists (- s2 * e), e, 0. intros. ring.
    - set (e := if (k =? 1)%Z then 1 else _). exists (- (s1 / (s3 - s1)) * e), 0, (/ (s3 - s1) * e). intros. unfold Qdiv. ring.
  Qed.
  Lemma family_speed s d1 d2 d3 d1' d2' d3' mw k : fst (family s d1 d2 d3 mw k) = fst (family s d1' d2' d3' mw k).
  Proof. destruct s as [[s1 s2] s3]. unfold family. destruct (mw =? 1)%Z; [|destruct (mw =? 2)%Z]; reflexivity. Qed.
  Lemma part_lin neg s mw k : exists x y z, forall d1 d2 d3,
    (let '(v, b) := family s d1 d2 d3 mw k in if neg : bool then (if lt v 0 then v * b else 0) else (if lt v 0 then 0 else if lt 0 v then v * b else 0)) == x * d1 + y * d2 + z * d3.
  Proof.
    destruct (family_lin s mw k) as (x & y & z & H). set (v := fst (family s 0 0 0 mw k)).
    set (e := if neg then (if lt v 0 then v else 0) else (if lt v 0 then 0 else if lt 0 v then v else 0)).
    exists (e * x), (e * y), (e * z). intros d1 d2 d3. specialize (H d1 d2 d3). pose proof (family_speed s d1 d2 d3 0 0 0 mw k) as V. fold v in V.
    destruct (family s d1 d2 d3 mw k) as [v' b]. cbn [fst snd] in V, H. subst v'. unfold e.
    destruct neg, (lt v 0), (lt 0 v); rewrite ?H; ring.
  Qed.
  Lemma going_lin neg s k : exists x y z, forall d1 d2 d3, going neg s d1 d2 d3 k == x * d1 + y * d2 + z * d3.
  Proof.
    destruct (part_lin neg s 1 k) as (x1 & y1 & z1 & H1). destruct (part_lin neg s 2 k) as (x2 & y2 & z2 & H2). destruct (part_lin neg s 3 k) as (x3 & y3 & z3 & H3).
    exists (x1 + x2 + x3), (y1 + y2 + y3), (z1 + z2 + z3). intros d1 d2 d3. unfold going. rewrite (H1 d1 d2 d3), (H2 d1 d2 d3), (H3 d1 d2 d3). ring.
  Qed.
  Lemma rpt2_lin neg ixy imp q a1 a2 a3 k i : exists x y z, forall asdq,
    rpt2_at root grav tol neg ixy imp q a1 a2 a3 asdq k i == x * asdq 1%Z i + y * asdq (mu ixy) i + z * asdq (mv ixy) i.
  Proof.
    unfold rpt2_at. destruct (_ && _); [exists 0, 0, 0; intros; ring|]. destruct (lt _ _); [exists 0, 0, 0; intros; ring|].
    match goal with |- context [going neg ?s] => destruct (going_lin neg s k) as (x & y & z & H) end. exists x, y, z. intros. apply H.
  Qed.
  Lemma rpt2_open neg ixy imp q a1 a2 a3 asdq k i : 0 <= tol -> wet tol q i -> open_to imp i q a1 a2 a3 ->
    let l := state tol (q 1%Z (i - 1)%Z) (q (mu ixy) (i - 1)%Z) (q (mv ixy) (i - 1)%Z) in
    let r := state tol (q 1%Z i) (q (mu ixy) i) (q (mv ixy) i) in
    rpt2_at root grav tol neg ixy imp q a1 a2 a3 asdq k i = going neg (speeds root grav l r) (asdq 1%Z i) (asdq (mu ixy) i) (asdq (mv ixy) i) k /\
    0 <= fst (fst l) /\ 0 <= fst (fst r) /\ (0 < fst (fst l) \/ 0 < fst (fst r)).
  Proof.
    intros Ht W O. cbv zeta. unfold rpt2_at.
    destruct (state_h (q 1%Z (i - 1)%Z) (q (mu ixy) (i - 1)%Z) (q (mv ixy) (i - 1)%Z) Ht) as [L0 L1].
    destruct (state_h (q 1%Z i) (q (mu ixy) i) (q (mv ixy) i) Ht) as [R0 R1].
    set (l := state tol (q 1%Z (i - 1)%Z) _ _) in *. set (r := state tol (q 1%Z i) _ _) in *.
    assert (W' : tol < fst (fst l) \/ tol < fst (fst r)) by (unfold wet in W; tauto).
    split; [|repeat split; try assumption; destruct W'; [left|right]; lra].
    replace (Qle_bool (fst (fst l)) tol && Qle_bool (fst (fst r)) tol) with false.
    2:{ symmetry. apply not_true_is_false. rewrite andb_true_iff, !Qle_bool_iff. intros [A B]. destruct W'; lra. }
    unfold open_to, receiver in O. cbv zeta in O.
    replace (if (imp =? 1)%Z then (i - 1)%Z else i) with (if Z.eq_dec imp 1 then (i - 1)%Z else i) by (destruct (Z.eqb_spec imp 1), (Z.eq_dec imp 1); congruence).
    set (c := if Z.eq_dec imp 1 then _ else _) in *.
    replace (lt (q 1%Z c + a2 1%Z c) (Qmax (a1 1%Z c) (a3 1%Z c))) with false; [reflexivity|].
    symmetry. apply lt_false. apply Q.max_lub; tauto.
  Qed.
  Lemma rpt2_closed neg ixy imp q a1 a2 a3 asdq k i : 0 <= tol -> ~ (wet tol q i /\ open_to imp i q a1 a2 a3) ->
    rpt2_at root grav tol neg ixy imp q a1 a2 a3 asdq k i = 0.
  Proof.
    intros Ht N. unfold rpt2_at.
    destruct (state_h (q 1%Z (i - 1)%Z) (q (mu ixy) (i - 1)%Z) (q (mv ixy) (i - 1)%Z) Ht) as [L0 L1].
    destruct (state_h (q 1%Z i) (q (mu ixy) i) (q (mv ixy) i) Ht) as [R0 R1].
    set (l := state tol (q 1%Z (i - 1)%Z) _ _) in *. set (r := state tol (q 1%Z i) _ _) in *.
    destruct (Qle_bool (fst (fst l)) tol && Qle_bool (fst (fst r)) tol) eqn:E; [reflexivity|].
    assert (W : wet tol q i).
    { unfold wet. destruct (Qlt_le_dec tol (q 1%Z (i - 1)%Z)) as [A|A]; [now left|]. destruct (Qlt_le_dec tol (q 1%Z i)) as [B|B]; [now right|]. exfalso.
      assert (fst (fst l) <= tol) by (apply Qnot_lt_le; intros C; apply L1 in C; lra). assert (fst (fst r) <= tol) by (apply Qnot_lt_le; intros C; apply R1 in C; lra).
      assert (X : Qle_bool (fst (fst l)) tol && Qle_bool (fst (fst r)) tol = true) by (rewrite andb_true_iff, !Qle_bool_iff; tauto). congruence. }
    unfold open_to, receiver in N. cbv zeta in N.
    replace (if (imp =? 1)%Z then (i - 1)%Z else i) with (if Z.eq_dec imp 1 then (i - 1)%Z else i) by (destruct (Z.eqb_spec imp 1), (Z.eq_dec imp 1); congruence).
    set (c := if Z.eq_dec imp 1 then _ else _) in *.
    destruct (lt (q 1%Z c + a2 1%Z c) (Qmax (a1 1%Z c) (a3 1%Z c))) eqn:F; [reflexivity|]. exfalso. apply lt_false in F.
    apply N. split; [exact W|]. split; (eapply Qle_trans; [|exact F]); [apply Q.le_max_l|apply Q.le_max_r].
  Qed.
End R.
