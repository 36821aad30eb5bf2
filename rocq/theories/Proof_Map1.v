(** The cubed sphere. *)
From Coq Require Import ZArith Reals List Bool Lra Lia.
From Verif Require Import Model_Map Spec_Map.
Import ListNotations.
Open Scope R_scope.

Definition T (x : R) : R := tan (1 / 2 * PI * (x - 1 / 2)).
Lemma T0 : T 0 = -1.
Proof. unfold T. replace (1 / 2 * PI * (0 - 1 / 2)) with (- (PI / 4)) by field. rewrite tan_neg, tan_PI4. reflexivity. Qed.
Lemma T1 : T 1 = 1.
Proof. unfold T. replace (1 / 2 * PI * (1 - 1 / 2)) with (PI / 4) by field. apply tan_PI4. Qed.
Lemma T_opp : forall s, T (1 - s) = - T s.
Proof. intros s. unfold T. rewrite <- tan_neg. f_equal. field. Qed.
Lemma T_range : forall x, 0 <= x <= 1 -> - (PI / 4) <= 1 / 2 * PI * (x - 1 / 2) <= PI / 4.
Proof. intros x H. pose proof PI_RGT_0. split; nra. Qed.
Lemma T_lt : forall x y, 0 <= x <= 1 -> 0 <= y <= 1 -> x < y -> T x < T y.
Proof. intros x y Hx Hy H. unfold T. pose proof PI_RGT_0. apply tan_increasing_1; try (apply T_range; assumption). nra. Qed.
Lemma T_inj : forall x y, 0 <= x <= 1 -> 0 <= y <= 1 -> T x = T y -> x = y.
Proof. intros x y Hx Hy E. destruct (Rtotal_order x y) as [H|[H|H]]; [pose proof (T_lt x y Hx Hy H); lra|exact H|pose proof (T_lt y x Hy Hx H); lra]. Qed.
Lemma T_bound : forall x, 0 <= x <= 1 -> -1 <= T x <= 1.
Proof.
  intros x H. pose proof T0 as A. pose proof T1 as B. split.
  - destruct (Req_dec x 0) as [->|N]; [lra|]. pose proof (T_lt 0 x). lra.
  - destruct (Req_dec x 1) as [->|N]; [lra|]. pose proof (T_lt x 1). lra.
Qed.
Lemma T_inside : forall x, 0 < x < 1 -> -1 < T x < 1.
Proof. intros x H. pose proof T0 as A. pose proof T1 as B. pose proof (T_lt 0 x). pose proof (T_lt x 1). lra. Qed.
Lemma T_onto : forall t, -1 <= t <= 1 -> exists x, 0 <= x <= 1 /\ T x = t.
Proof.
  intros t H. assert (B : - (PI / 4) <= atan t <= PI / 4).
  { pose proof atan_1 as A1. assert (A2 : atan (-1) = - (PI / 4)) by (replace (-1) with (- (1)) by ring; rewrite atan_opp, atan_1; reflexivity). split.
    - destruct (Req_dec t (-1)) as [->|N]; [lra|]. pose proof (atan_increasing (-1) t). lra.
    - destruct (Req_dec t 1) as [->|N]; [lra|]. pose proof (atan_increasing t 1). lra. }
  pose proof PI_RGT_0 as P. exists (2 * atan t / PI + 1 / 2). split.
  - assert (X : 2 * atan t / PI = 2 * (atan t / PI)) by (field; lra). rewrite X.
    assert (Y : atan t = PI * (atan t / PI)) by (field; lra). rewrite Y in B. set (q := atan t / PI) in *. split; nra.
  - unfold T. replace (1 / 2 * PI * (2 * atan t / PI + 1 / 2 - 1 / 2)) with (atan t) by (field; lra). apply tan_atan.
Qed.

Definition norm (t e : R) : R := 1 / sqrt (t ^ 2 + e ^ 2 + 1).
Lemma basic : forall x y, csphere_basic x y = (norm (T x) (T y) * T x, norm (T x) (T y) * T y, norm (T x) (T y)).
Proof. reflexivity. Qed.
Lemma norm_sq : forall t e, 0 < norm t e /\ norm t e ^ 2 * (t ^ 2 + e ^ 2 + 1) = 1.
Proof.
  intros t e. unfold norm. assert (P : 0 < t ^ 2 + e ^ 2 + 1) by nra. pose proof (sqrt_lt_R0 _ P) as Q. split; [apply Rdiv_lt_0_compat; lra|].
  pose proof (sqrt_sqrt (t ^ 2 + e ^ 2 + 1) ltac:(lra)) as E. set (q := sqrt (t ^ 2 + e ^ 2 + 1)) in *. rewrite <- E. field. lra.
Qed.
(** where the basic piece is *)
Lemma basic_in : forall x y u v w, square x y -> csphere_basic x y = (u, v, w) -> 0 < w /\ - w <= u <= w /\ - w <= v <= w /\ u ^ 2 + v ^ 2 + w ^ 2 = 1.
Proof.
  intros x y u v w [Hx Hy] E. rewrite basic in E. injection E as <- <- <-. destruct (norm_sq (T x) (T y)) as [P Q]. pose proof (T_bound x Hx). pose proof (T_bound y Hy).
  set (n := norm (T x) (T y)) in *. repeat split; try nra.
Qed.
Lemma basic_inside : forall x y u v w, inside x y -> csphere_basic x y = (u, v, w) -> - w < u < w /\ - w < v < w.
Proof.
  intros x y u v w [Hx Hy] E. rewrite basic in E. injection E as <- <- <-. destruct (norm_sq (T x) (T y)) as [P Q]. pose proof (T_inside x Hx). pose proof (T_inside y Hy).
  set (n := norm (T x) (T y)) in *. repeat split; nra.
Qed.
Lemma basic_inj : forall x y x' y', square x y -> square x' y' -> csphere_basic x y = csphere_basic x' y' -> x = x' /\ y = y'.
Proof.
  intros x y x' y' [Hx Hy] [Hx' Hy'] E. rewrite !basic in E. injection E as E1 E2 E3. destruct (norm_sq (T x) (T y)) as [P _]. rewrite <- E3 in E1, E2.
  split; apply T_inj; try assumption; [apply Rmult_eq_reg_l in E1|apply Rmult_eq_reg_l in E2]; try assumption; lra.
Qed.
Lemma basic_onto : forall u v w, 0 < w -> - w <= u <= w -> - w <= v <= w -> u ^ 2 + v ^ 2 + w ^ 2 = 1 -> exists x y, square x y /\ csphere_basic x y = (u, v, w).
Proof.
  intros u v w W U V E. assert (B : forall a, - w <= a <= w -> -1 <= a / w <= 1).
  { intros a A. split; [apply Rmult_le_reg_r with w|apply Rmult_le_reg_r with w]; try assumption; unfold Rdiv; rewrite Rmult_assoc, Rinv_l by lra; lra. }
  destruct (T_onto (u / w) (B u U)) as (x & Hx & Ex). destruct (T_onto (v / w) (B v V)) as (y & Hy & Ey). exists x, y. split; [split; assumption|]. rewrite basic, Ex, Ey.
  assert (N : norm (u / w) (v / w) = w).
  { unfold norm. replace ((u / w) ^ 2 + (v / w) ^ 2 + 1) with ((1 / w) ^ 2).
    - rewrite <- Rsqr_pow2, sqrt_Rsqr; [field; lra|]. left. apply Rdiv_lt_0_compat; lra.
    - replace ((u / w) ^ 2 + (v / w) ^ 2 + 1) with ((u ^ 2 + v ^ 2 + w ^ 2) / w ^ 2) by (field; lra). rewrite E. field. lra. }
  rewrite N. f_equal; f_equal; field; lra.
Qed.

Lemma cs_some : forall b x y p, mapc2m_cubedsphere b x y = Some p -> (0 <= b <= 5)%Z.
Proof.
  intros b x y p. unfold mapc2m_cubedsphere. destruct (csphere_basic x y) as [[u v] w]. intros E.
  destruct b as [|b|b]; [lia| |discriminate]. do 3 (destruct b; try discriminate; try lia).
Qed.
Lemma blocks6 : forall b, (0 <= b <= 5)%Z -> b = 0%Z \/ b = 1%Z \/ b = 2%Z \/ b = 3%Z \/ b = 4%Z \/ b = 5%Z.
Proof. lia. Qed.
Ltac block6 H := let X := fresh in pose proof (blocks6 _ H) as X; destruct X as [->|[->|[->|[->|[->| ->]]]]].

Lemma cs_into : maps_into mapc2m_cubedsphere sphere.
Proof.
  intros b x y p S E. pose proof (cs_some _ _ _ _ E) as B. unfold mapc2m_cubedsphere in E. destruct (csphere_basic x y) as [[u v] w] eqn:EB.
  destruct (basic_in _ _ _ _ _ S EB) as (_ & _ & _ & Q). block6 B; injection E as <-; unfold sphere; nra.
Qed.
Lemma cs_onto : maps_onto mapc2m_cubedsphere sphere.
Proof.
  intros [[x y] z] S. unfold sphere in S.
  assert (G : forall b u v w, 0 < w -> - w <= u <= w -> - w <= v <= w -> u ^ 2 + v ^ 2 + w ^ 2 = 1 ->
    (forall a c, csphere_basic a c = (u, v, w) -> mapc2m_cubedsphere b a c = Some (x, y, z)) -> exists b x0 y0, square x0 y0 /\ mapc2m_cubedsphere b x0 y0 = Some (x, y, z)).
  { intros b u v w W U V Q H. destruct (basic_onto u v w W U V Q) as (a & c & SQ & E). exists b, a, c. split; [exact SQ|]. now apply H. }
  unfold mapc2m_cubedsphere in G.
  assert (C : (0 < z /\ - z <= x <= z /\ - z <= y <= z) \/ (0 < - z /\ z <= x <= - z /\ z <= y <= - z) \/
              (0 < x /\ - x <= y <= x /\ - x <= z <= x) \/ (0 < - x /\ x <= y <= - x /\ x <= z <= - x) \/
              (0 < y /\ - y <= x <= y /\ - y <= z <= y) \/ (0 < - y /\ y <= x <= - y /\ y <= z <= - y)).
  { destruct (Rle_dec (Rabs x) (Rabs z)), (Rle_dec (Rabs y) (Rabs z)), (Rle_dec (Rabs x) (Rabs y)); unfold Rabs in *;
      destruct (Rcase_abs x), (Rcase_abs y), (Rcase_abs z);
      solve [lra | exfalso; lra
            | destruct (Req_dec z 0); [exfalso; nra|]; lra | destruct (Req_dec y 0); [exfalso; nra|]; lra | destruct (Req_dec x 0); [exfalso; nra|]; lra ]. }
  destruct C as [C|[C|[C|[C|[C|C]]]]].
  - apply (G 3%Z x y z); try lra. intros a c E. now rewrite E.
  - apply (G 0%Z y x (- z)); try lra. intros a c E. rewrite E. do 2 f_equal. lra.
  - apply (G 5%Z y z x); try lra. intros a c E. now rewrite E.
  - apply (G 2%Z z y (- x)); try lra. intros a c E. rewrite E. do 3 f_equal. lra.
  - apply (G 1%Z z x y); try lra. intros a c E. now rewrite E.
  - apply (G 4%Z x z (- y)); try lra. intros a c E. rewrite E. do 3 f_equal. lra.
Qed.
Lemma cs_one : one_to_one mapc2m_cubedsphere.
Proof.
  intros b x y b' x' y' p I S E E'. pose proof (cs_some _ _ _ _ E) as B. pose proof (cs_some _ _ _ _ E') as B'.
  assert (SQ : square x y) by (destruct I; split; lra). unfold mapc2m_cubedsphere in E, E'. destruct (csphere_basic x y) as [[u v] w] eqn:EB. destruct (csphere_basic x' y') as [[u' v'] w'] eqn:EB'.
  destruct (basic_in _ _ _ _ _ SQ EB) as (W & _). destruct (basic_inside _ _ _ _ _ I EB) as (U & V). destruct (basic_in _ _ _ _ _ S EB') as (W' & U' & V' & _).
  assert (X : b = b' /\ u = u' /\ v = v' /\ w = w').
  { block6 B; injection E as <-; block6 B'; injection E' as X1 X2 X3; first [exfalso; lra | split; [reflexivity|]; lra]. }
  destruct X as (-> & -> & -> & ->). split; [reflexivity|]. apply basic_inj; [assumption..|]. now rewrite EB, EB'.
Qed.

(** faces *)
Lemma ends_some : forall c b f vw, face_ends c b f = Some vw -> (0 <= b < Z.of_nat (length c))%Z /\ (0 <= f <= 3)%Z.
Proof.
  intros c b f vw E. unfold face_ends in E. destruct (Z.ltb_spec b 0); [discriminate|]. destruct (nth_error c (Z.to_nat b)) as [vs|] eqn:EN; [|discriminate].
  assert (L : (Z.to_nat b < length c)%nat) by (apply nth_error_Some; congruence). split; [lia|].
  destruct f as [|f|f]; [lia| |discriminate]. unfold face_corners in E. do 2 (destruct f; try discriminate; try lia).
Qed.
Lemma faces4 : forall f, (0 <= f <= 3)%Z -> f = 0%Z \/ f = 1%Z \/ f = 2%Z \/ f = 3%Z.
Proof. lia. Qed.
Lemma norm_sym : forall t e, norm t e = norm e t.
Proof. intros t e. unfold norm. do 2 f_equal. ring. Qed.
Lemma norm_opp : forall t e, norm (- t) e = norm t e.
Proof. intros t e. unfold norm. do 2 f_equal. ring. Qed.
Lemma norm_one : forall t, norm t (-1) = norm t 1.
Proof. intros t. unfold norm. do 2 f_equal. ring. Qed.
Lemma pt_eq : forall a b c a' b' c' : R, a = a' -> b = b' -> c = c' -> Some (a, b, c) = Some (a', b', c').
Proof. now intros ? ? ? ? ? ? -> -> ->. Qed.
Lemma cs_cont : continuous_across cubed mapc2m_cubedsphere.
Proof.
  intros b f b' f' v w s E S. destruct (ends_some _ _ _ _ E) as (B & Fb). change (Z.of_nat (length cubed)) with 6%Z in B. assert (B5 : (0 <= b <= 5)%Z) by lia. clear B.
  split; intros E'; destruct (ends_some _ _ _ _ E') as (B & Fb'); change (Z.of_nat (length cubed)) with 6%Z in B; (assert (B5' : (0 <= b' <= 5)%Z) by lia); clear B;
  destruct (faces4 f Fb) as [->|[->|[->| ->]]]; block6 B5; injection E as <- <-; destruct (faces4 f' Fb') as [->|[->|[->| ->]]]; block6 B5'; try discriminate E';
  unfold at_, mapc2m_cubedsphere, on_face; rewrite ?basic; cbn [fst snd]; rewrite ?T0, ?T1, ?T_opp; (split; [|discriminate]);
  rewrite ?norm_opp, ?norm_one; rewrite ?(norm_sym (-1)), ?(norm_sym 1), ?norm_one, ?(norm_opp (T s)); apply pt_eq; ring.
Qed.
