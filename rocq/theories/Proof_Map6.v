(** Annulus, latitude-longitude, torus, four quadrilaterals; rotations. *)
From Coq Require Import ZArith Reals List Bool Lra Lia.
From Verif Require Import Model_Map Spec_Map Proof_Map1 Proof_Map2 Proof_Map3 Proof_Map4.
Import ListNotations.
Open Scope R_scope.

(** angles *)
Lemma sc2 : forall t, cos t ^ 2 + sin t ^ 2 = 1.
Proof. intros t. pose proof (sin2_cos2 t) as H. unfold Rsqr in H. lra. Qed.
Lemma turn_inj : forall x y, -1 < x - y < 1 -> cos (2 * PI * x) = cos (2 * PI * y) -> sin (2 * PI * x) = sin (2 * PI * y) -> x = y.
Proof.
  intros x y H C S. assert (E : cos (2 * (PI * (x - y))) = 1).
  { replace (2 * (PI * (x - y))) with (2 * PI * x - 2 * PI * y) by ring. rewrite cos_minus, C, S. pose proof (sc2 (2 * PI * y)). lra. }
  rewrite cos_2a_sin in E. assert (Z : sin (PI * (x - y)) = 0) by (apply Rmult_integral_contrapositive_currified with (r1 := sin (PI * (x - y))) (r2 := sin (PI * (x - y))) || nra).
  destruct (sin_eq_0_0 _ Z) as (k & K). pose proof PI_RGT_0 as P. assert (D : x - y = IZR k) by (apply Rmult_eq_reg_l with PI; lra).
  assert (K0 : k = 0%Z). { rewrite D in H. destruct H as [H1 H2]. apply lt_IZR in H2. change (-1) with (IZR (-1)) in H1. apply lt_IZR in H1. lia. }
  subst k. lra.
Qed.
Lemma angle : forall c s, c ^ 2 + s ^ 2 = 1 -> exists t, 0 <= t <= 1 /\ cos (2 * PI * t) = c /\ sin (2 * PI * t) = s.
Proof.
  intros c s H. pose proof PI_RGT_0 as P. pose proof (pow2_ge_0 s) as S0. assert (C : -1 <= c <= 1) by nra. pose proof (acos_bound c) as B. pose proof (cos_acos c C) as EC.
  pose proof (sin_ge_0 (acos c) (proj1 B) (proj2 B)) as SG. pose proof (sc2 (acos c)) as SC. rewrite EC in SC.
  assert (Q : forall a, 0 <= a <= PI -> 0 <= a / (2 * PI) <= 1 / 2).
  { intros a A. split; apply Rmult_le_reg_r with (2 * PI); try lra; unfold Rdiv; rewrite Rmult_assoc, Rinv_l by lra; lra. }
  specialize (Q _ B). destruct (Rle_dec 0 s) as [O|O].
  - exists (acos c / (2 * PI)). split; [lra|]. replace (2 * PI * (acos c / (2 * PI))) with (acos c) by (field; lra). split; [exact EC|]. nra.
  - exists (1 - acos c / (2 * PI)). split; [lra|]. replace (2 * PI * (1 - acos c / (2 * PI))) with (- acos c + 2 * 1 * PI) by (field; lra). rewrite (cos_period _ 1), (sin_period _ 1).
    rewrite cos_neg, sin_neg. split; [exact EC|]. nra.
Qed.
Lemma per : forall x, cos (2 * PI * (x + 1)) = cos (2 * PI * x) /\ sin (2 * PI * (x + 1)) = sin (2 * PI * x).
Proof. intros x. replace (2 * PI * (x + 1)) with (2 * PI * x + 2 * 1 * PI) by ring. split; [apply (cos_period _ 1)|apply (sin_period _ 1)]. Qed.
Lemma polar : forall x y, 0 < x ^ 2 + y ^ 2 -> exists t, 0 <= t <= 1 /\ x = sqrt (x ^ 2 + y ^ 2) * cos (2 * PI * t) /\ y = sqrt (x ^ 2 + y ^ 2) * sin (2 * PI * t).
Proof.
  intros x y H. pose proof (sqrt_lt_R0 _ H) as P. pose proof (sqrt_sqrt (x ^ 2 + y ^ 2) ltac:(lra)) as S. set (r := sqrt (x ^ 2 + y ^ 2)) in *.
  destruct (angle (x / r) (y / r)) as (t & T & C & D).
  - replace ((x / r) ^ 2 + (y / r) ^ 2) with ((x ^ 2 + y ^ 2) / (r * r)) by (field; lra). rewrite S. field. lra.
  - exists t. rewrite C, D. split; [exact T|]. split; field; lra.
Qed.

(** ** Annulus *)
Section Annulus.
Variables (beta t1 t2 : R).
Hypothesis Hb : 0 < beta < 1.
Lemma an_into : maps_into (one_block (mapc2m_annulus beta t1 t2)) (ring beta).
Proof.
  intros b x y p [X Y] E. unfold one_block in E. destruct (b =? 0)%Z; [|discriminate]. injection E as <-. unfold mapc2m_annulus, ring. set (t := 2 * PI * (t1 + (t2 - t1) * x)). set (r := beta + (1 - beta) * y).
  replace ((r * cos t) ^ 2 + (r * sin t) ^ 2) with (r ^ 2 * (cos t ^ 2 + sin t ^ 2)) by ring. rewrite sc2. assert (beta <= r <= 1) by (unfold r; nra). split; [split; nra|reflexivity].
Qed.
Lemma an_one : 0 < t2 - t1 <= 1 -> one_to_one (one_block (mapc2m_annulus beta t1 t2)).
Proof.
  intros T b x y b' x' y' p [X Y] [X' Y'] E E'. unfold one_block in E, E'. destruct (Z.eqb_spec b 0) as [->|]; [|discriminate]. destruct (Z.eqb_spec b' 0) as [->|]; [|discriminate].
  injection E as <-. injection E' as E1 E2. set (t := t1 + (t2 - t1) * x) in *. set (t' := t1 + (t2 - t1) * x') in *. set (r := beta + (1 - beta) * y) in *. set (r' := beta + (1 - beta) * y') in *.
  assert (R0 : 0 < r) by (unfold r; nra). assert (R0' : 0 < r') by (unfold r'; nra). pose proof (sc2 (2 * PI * t)) as S. pose proof (sc2 (2 * PI * t')) as S'.
  assert (RR : r = r').
  { assert (r ^ 2 = r' ^ 2). { replace (r ^ 2) with ((r * cos (2 * PI * t)) ^ 2 + (r * sin (2 * PI * t)) ^ 2) by (replace (r ^ 2) with (r ^ 2 * 1) by ring; rewrite <- S; ring). rewrite <- E1, <- E2. replace ((r' * cos (2 * PI * t')) ^ 2 + (r' * sin (2 * PI * t')) ^ 2) with (r' ^ 2 * (cos (2 * PI * t') ^ 2 + sin (2 * PI * t') ^ 2)) by ring. rewrite S'. ring. }
    nra. }
  rewrite <- RR in E1, E2. apply Rmult_eq_reg_l in E1, E2; try lra.
  assert (TT : t = t') by (apply turn_inj; [unfold t, t'; split; nra|symmetry; assumption..]).
  split; [reflexivity|]. split; [unfold t, t' in TT; apply Rmult_eq_reg_l with (t2 - t1); lra|]. unfold r, r' in RR. apply Rmult_eq_reg_l with (1 - beta); lra.
Qed.
Lemma an_per : forall x y, t2 = t1 + 1 -> mapc2m_annulus beta t1 t2 (x + 1) y = mapc2m_annulus beta t1 t2 x y.
Proof.
  intros x y ->. unfold mapc2m_annulus. replace (t1 + (t1 + 1 - t1) * (x + 1)) with (t1 + (t1 + 1 - t1) * x + 1) by ring. destruct (per (t1 + (t1 + 1 - t1) * x)) as [-> ->]. reflexivity.
Qed.
End Annulus.
Lemma an_onto : forall beta, 0 < beta < 1 -> maps_onto (one_block (mapc2m_annulus beta 0 1)) (ring beta).
Proof.
  intros beta Hb [[x y] z] [R ->]. assert (P : 0 < x ^ 2 + y ^ 2) by nra. pose proof (sqrt_lt_R0 _ P) as P2. pose proof (sqrt_sqrt (x ^ 2 + y ^ 2) ltac:(lra)) as S. destruct (polar x y P) as (t & T & C & D).
  set (r := sqrt (x ^ 2 + y ^ 2)) in *. assert (RB : beta <= r <= 1) by nra. exists 0%Z, t, ((r - beta) / (1 - beta)).
  assert (Y : 0 <= (r - beta) / (1 - beta) <= 1) by (split; apply Rmult_le_reg_r with (1 - beta); try lra; unfold Rdiv; rewrite Rmult_assoc, Rinv_l by lra; lra).
  split; [split; assumption|]. unfold one_block, mapc2m_annulus. cbn [Z.eqb]. replace (0 + (1 - 0) * t) with t by ring. replace (beta + (1 - beta) * ((r - beta) / (1 - beta))) with r by (field; lra). rewrite <- C, <- D. reflexivity.
Qed.

(** ** Latitude and longitude *)
Lemma ll_sphere : forall lon lat, sphere (mapc2m_latlong lon lat).
Proof. intros lon lat. unfold sphere, mapc2m_latlong. pose proof (sc2 (PI / 180 * lon)). pose proof (sc2 (PI / 180 * lat)). set (a := PI / 180 * lon) in *. set (b := PI / 180 * lat) in *. replace ((cos b * cos a) ^ 2 + (cos b * sin a) ^ 2 + sin b ^ 2) with (cos b ^ 2 * (cos a ^ 2 + sin a ^ 2) + sin b ^ 2) by ring. rewrite H. lra. Qed.
Lemma deg : forall lon, PI / 180 * lon = 2 * PI * (lon / 360).
Proof. intros. field. Qed.
Lemma ll_inj : forall lon lat lon' lat', -90 < lat < 90 -> -90 <= lat' <= 90 -> -360 < lon - lon' < 360 -> mapc2m_latlong lon lat = mapc2m_latlong lon' lat' -> lon = lon' /\ lat = lat'.
Proof.
  intros lon lat lon' lat' A A' L E. injection E as E1 E2 E3. pose proof PI_RGT_0 as P.
  assert (LA : lat = lat').
  { destruct (Rtotal_order lat lat') as [O|[O|O]]; [|exact O|]; exfalso.
    - assert (sin (PI / 180 * lat) < sin (PI / 180 * lat')) by (apply sin_increasing_1; nra). lra.
    - assert (sin (PI / 180 * lat') < sin (PI / 180 * lat)) by (apply sin_increasing_1; nra). lra. }
  subst lat'. split; [|reflexivity]. assert (C : 0 < cos (PI / 180 * lat)) by (apply cos_gt_0; nra). apply Rmult_eq_reg_l in E1, E2; try lra. rewrite !deg in E1, E2.
  assert (lon / 360 = lon' / 360) by (apply turn_inj; [lra|assumption..]). lra.
Qed.
Lemma ll_onto : forall p, sphere p -> exists lon lat, 0 <= lon <= 360 /\ -90 <= lat <= 90 /\ mapc2m_latlong lon lat = p.
Proof.
  intros [[x y] z] S. unfold sphere in S. pose proof PI_RGT_0 as P. pose proof (pow2_ge_0 x) as X0. pose proof (pow2_ge_0 y) as Y0. assert (Z : -1 <= z <= 1) by nra. pose proof (asin_bound z) as B. pose proof (sin_asin z Z) as E.
  set (lat := 180 / PI * asin z). assert (EL : PI / 180 * lat = asin z) by (unfold lat; field; lra).
  assert (LB : -90 <= lat <= 90) by (split; apply Rmult_le_reg_l with (PI / 180); try lra; rewrite EL; lra).
  pose proof (cos_ge_0 (asin z) ltac:(lra) ltac:(lra)) as CG. pose proof (sc2 (asin z)) as SC. rewrite E in SC.
  destruct (Req_dec (x ^ 2 + y ^ 2) 0) as [N|N].
  - exists 0, lat. split; [lra|]. split; [exact LB|]. unfold mapc2m_latlong. rewrite EL, E. assert (cos (asin z) = 0) by nra. assert (x = 0) by nra. assert (y = 0) by nra. rewrite H, H0, H1. f_equal. f_equal; ring.
  - destruct (polar x y) as (t & T & C & D); [lra|]. exists (360 * t), lat. split; [lra|]. split; [exact LB|]. unfold mapc2m_latlong. rewrite EL, E. rewrite deg. replace (360 * t / 360) with t by field.
    assert (Q : cos (asin z) = sqrt (x ^ 2 + y ^ 2)). { replace (x ^ 2 + y ^ 2) with (cos (asin z) ^ 2) by lra. rewrite <- Rsqr_pow2, sqrt_Rsqr; [reflexivity|exact CG]. }
    rewrite Q, <- C, <- D. reflexivity.
Qed.

(** ** Torus *)
Section Torus.
Variables (alpha beta : R).
Hypothesis Ha : 0 < alpha.
Hypothesis Hb : -1 < beta < 1.
Hypothesis Hab : alpha * (1 + Rabs beta) < 1.
Definition tr1 (s : R) : R := alpha * (1 + beta * s).
Lemma tr1_bounds : forall s, -1 <= s <= 1 -> 0 < tr1 s < 1.
Proof.
  intros s S. unfold tr1. assert (B : - Rabs beta <= beta * s <= Rabs beta) by (destruct (sign_cases beta) as [(? & _ & ->)|(? & _ & ->)]; split; nra).
  assert (Rabs beta < 1) by (destruct (sign_cases beta) as [(? & _ & ->)|(? & _ & ->)]; lra). split; nra.
Qed.
Lemma tor_is : forall x y, mapc2m_torus alpha beta x y =
  ((1 + tr1 (sin (2 * PI * x)) * cos (2 * PI * y)) * cos (2 * PI * x), (1 + tr1 (sin (2 * PI * x)) * cos (2 * PI * y)) * sin (2 * PI * x), tr1 (sin (2 * PI * x)) * sin (2 * PI * y)).
Proof. reflexivity. Qed.
Lemma tor_rho : forall x y, let c := tr1 (sin (2 * PI * x)) in let r := 1 + c * cos (2 * PI * y) in 0 < r /\ sqrt ((r * cos (2 * PI * x)) ^ 2 + (r * sin (2 * PI * x)) ^ 2) = r.
Proof.
  intros x y. cbv zeta. pose proof (tr1_bounds (sin (2 * PI * x)) (SIN_bound _)) as B. pose proof (COS_bound (2 * PI * y)) as C. set (c := tr1 _) in *. set (k := cos (2 * PI * y)) in *. assert (R : 0 < 1 + c * k) by nra.
  split; [exact R|]. replace (((1 + c * k) * cos (2 * PI * x)) ^ 2 + ((1 + c * k) * sin (2 * PI * x)) ^ 2) with ((1 + c * k) ^ 2 * (cos (2 * PI * x) ^ 2 + sin (2 * PI * x) ^ 2)) by ring.
  rewrite sc2, Rmult_1_r, <- Rsqr_pow2, sqrt_Rsqr by lra. reflexivity.
Qed.
Lemma tor_tube : forall x y, tube alpha beta (mapc2m_torus alpha beta x y).
Proof.
  intros x y. rewrite tor_is. unfold tube. destruct (tor_rho x y) as [R ->]. fold (tr1 ((1 + tr1 (sin (2 * PI * x)) * cos (2 * PI * y)) * sin (2 * PI * x) / (1 + tr1 (sin (2 * PI * x)) * cos (2 * PI * y)))).
  set (c := tr1 (sin (2 * PI * x))) in *. set (r := 1 + c * cos (2 * PI * y)) in *. replace (r * sin (2 * PI * x) / r) with (sin (2 * PI * x)) by (field; lra). fold c.
  unfold r. pose proof (sc2 (2 * PI * y)) as S. replace ((1 + c * cos (2 * PI * y) - 1) ^ 2 + (c * sin (2 * PI * y)) ^ 2) with (c ^ 2 * (cos (2 * PI * y) ^ 2 + sin (2 * PI * y) ^ 2)) by ring. rewrite S. ring.
Qed.
Lemma tor_inj : forall x y x' y', -1 < x - x' < 1 -> -1 < y - y' < 1 -> mapc2m_torus alpha beta x y = mapc2m_torus alpha beta x' y' -> x = x' /\ y = y'.
Proof.
  intros x y x' y' X Y E. rewrite !tor_is in E. destruct (tor_rho x y) as [R1 R2]. destruct (tor_rho x' y') as [R1' R2']. injection E as E1 E2 E3.
  rewrite E1, E2 in R2. rewrite R2' in R2. rewrite R2 in *. 
  apply Rmult_eq_reg_l in E1, E2; try lra. assert (XX : x = x') by (apply turn_inj; assumption). subst x'. split; [reflexivity|].
  pose proof (tr1_bounds (sin (2 * PI * x)) (SIN_bound _)) as B. set (c := tr1 (sin (2 * PI * x))) in *. apply Rmult_eq_reg_l in E3; [|lra]. assert (c * cos (2 * PI * y) = c * cos (2 * PI * y')) by lra. apply Rmult_eq_reg_l in H; [|lra].
  apply turn_inj; assumption.
Qed.
Lemma tor_onto : forall p, tube alpha beta p -> exists x y, square x y /\ mapc2m_torus alpha beta x y = p.
Proof.
  intros [[x y] z] S. unfold tube in S. fold (tr1 (y / sqrt (x ^ 2 + y ^ 2))) in S. pose proof (pow2_ge_0 x) as X0. pose proof (pow2_ge_0 y) as Y0. pose proof (pow2_ge_0 z) as Z0.
  destruct (Req_dec (x ^ 2 + y ^ 2) 0) as [N|N].
  - exfalso. assert (y = 0) by nra. rewrite N, sqrt_0 in S. rewrite H in S. replace (0 / 0) with 0 in S by (unfold Rdiv; ring). pose proof (tr1_bounds 0). nra.
  - destruct (polar x y) as (t & T & C & D); [lra|]. pose proof (sqrt_lt_R0 (x ^ 2 + y ^ 2) ltac:(lra)) as P. set (r := sqrt (x ^ 2 + y ^ 2)) in *.
    assert (YR : y / r = sin (2 * PI * t)) by (rewrite D; field; lra). rewrite YR in S. pose proof (tr1_bounds (sin (2 * PI * t)) (SIN_bound _)) as B. set (c := tr1 (sin (2 * PI * t))) in *.
    destruct (angle ((r - 1) / c) (z / c)) as (s & SB & C2 & D2).
    { replace (((r - 1) / c) ^ 2 + (z / c) ^ 2) with (((r - 1) ^ 2 + z ^ 2) / c ^ 2) by (field; lra). rewrite S. field. lra. }
    exists t, s. split; [split; assumption|]. rewrite tor_is. fold c. rewrite C2, D2. replace (1 + c * ((r - 1) / c)) with r by (field; lra). rewrite <- C, <- D. f_equal. field. lra.
Qed.
End Torus.
Lemma tor_per : forall alpha beta x y, mapc2m_torus alpha beta (x + 1) y = mapc2m_torus alpha beta x y /\ mapc2m_torus alpha beta x (y + 1) = mapc2m_torus alpha beta x y.
Proof. intros. unfold mapc2m_torus, pi2. destruct (per x) as [-> ->]. destruct (per y) as [-> ->]. split; reflexivity. Qed.
Lemma twist : forall alpha x y, mapc2m_twisted_torus alpha x y = mapc2m_torus alpha 0 x (y + x).
Proof. intros. unfold mapc2m_twisted_torus, mapc2m_torus. replace (alpha * (1 + 0 * sin (pi2 * x))) with alpha by ring. reflexivity. Qed.

(** ** Four quadrilaterals *)
Lemma blocks4 : forall b, (0 <= b <= 3)%Z -> b = 0%Z \/ b = 1%Z \/ b = 2%Z \/ b = 3%Z.
Proof. lia. Qed.
Ltac block4 H := let X := fresh in pose proof (blocks4 _ H) as X; destruct X as [->|[->|[->| ->]]].
Lemma bil_0 : forall c x y, mapc2m_bilinear c 0 x y = Some (-1 + x + fst c * x * y, -1 + y + snd c * x * y, 0).
Proof. intros [a b] x y. unfold mapc2m_bilinear. cbn -[Rplus Rmult Rminus Ropp IZR]. apply pt_eq; ring. Qed.
Lemma bil_1 : forall c x y, mapc2m_bilinear c 1 x y = Some (x + fst c * (1 - x) * y, -1 + y + snd c * (1 - x) * y, 0).
Proof. intros [a b] x y. unfold mapc2m_bilinear. cbn -[Rplus Rmult Rminus Ropp IZR]. apply pt_eq; ring. Qed.
Lemma bil_2 : forall c x y, mapc2m_bilinear c 2 x y = Some (-1 + x + fst c * x * (1 - y), y + snd c * x * (1 - y), 0).
Proof. intros [a b] x y. unfold mapc2m_bilinear. cbn -[Rplus Rmult Rminus Ropp IZR]. apply pt_eq; ring. Qed.
Lemma bil_3 : forall c x y, mapc2m_bilinear c 3 x y = Some (x + fst c * (1 - x) * (1 - y), y + snd c * (1 - x) * (1 - y), 0).
Proof. intros [a b] x y. unfold mapc2m_bilinear. cbn -[Rplus Rmult Rminus Ropp IZR]. apply pt_eq; ring. Qed.
Lemma bil_cont : forall c, continuous_across brick22 (mapc2m_bilinear c).
Proof.
  intros c b f b' f' v w s E S. destruct (ends_some _ _ _ _ E) as (B & Fb). change (Z.of_nat (length brick22)) with 4%Z in B. assert (B3 : (0 <= b <= 3)%Z) by lia. clear B.
  split; intros E'; destruct (ends_some _ _ _ _ E') as (B & Fb'); change (Z.of_nat (length brick22)) with 4%Z in B; (assert (B3' : (0 <= b' <= 3)%Z) by lia); clear B;
  destruct (faces4 f Fb) as [->|[->|[->| ->]]]; block4 B3; injection E as <- <-; destruct (faces4 f' Fb') as [->|[->|[->| ->]]]; block4 B3'; try discriminate E';
  unfold at_, on_face; cbn [fst snd]; rewrite ?bil_0, ?bil_1, ?bil_2, ?bil_3; (split; [|discriminate]); apply pt_eq; ring.
Qed.
(** one quadrilateral, from the corner that is moved *)
Lemma quad_inj : forall a b x y x' y', Rabs a + Rabs b < 1 -> 0 <= x <= 1 -> 0 <= y <= 1 -> 0 <= x' <= 1 -> 0 <= y' <= 1 ->
  x + a * ((1 - x) * (1 - y)) = x' + a * ((1 - x') * (1 - y')) -> y + b * ((1 - x) * (1 - y)) = y' + b * ((1 - x') * (1 - y')) -> x = x' /\ y = y'.
Proof.
  intros a b x y x' y' A X Y X' Y' E1 E2. set (q := (1 - x) * (1 - y)) in *. set (q' := (1 - x') * (1 - y')) in *. destruct (Req_dec q' q) as [E|N]; [rewrite E in *; lra|exfalso].
  assert (F1 : x - x' = a * (q' - q)) by lra. assert (F2 : y - y' = b * (q' - q)) by lra.
  assert (K : (q' - q) * 1 = (q' - q) * (a * (1 - y') + b * (1 - x))).
  { replace ((q' - q) * (a * (1 - y') + b * (1 - x))) with (a * (q' - q) * (1 - y') + b * (q' - q) * (1 - x)) by ring. rewrite <- F1, <- F2. unfold q, q'. ring. }
  apply Rmult_eq_reg_l in K; [|lra]. assert (B1 : a * (1 - y') <= Rabs a) by (destruct (sign_cases a) as [(? & _ & ->)|(? & _ & ->)]; nra). assert (B2 : b * (1 - x) <= Rabs b) by (destruct (sign_cases b) as [(? & _ & ->)|(? & _ & ->)]; nra). lra.
Qed.
Lemma bil_inj : forall c b x y x' y', Rabs (fst c) + Rabs (snd c) < 1 -> (0 <= b <= 3)%Z -> square x y -> square x' y' -> mapc2m_bilinear c b x y = mapc2m_bilinear c b x' y' -> x = x' /\ y = y'.
Proof.
  intros [a d] b x y x' y' A B [X Y] [X' Y'] E. cbn [fst snd] in A.
  block4 B; rewrite ?bil_0, ?bil_1, ?bil_2, ?bil_3 in E; cbn [fst snd] in E; injection E as E1 E2.
  - destruct (quad_inj (- a) (- d) (1 - x) (1 - y) (1 - x') (1 - y')); try lra; [rewrite !Rabs_Ropp; lra].
  - destruct (quad_inj a (- d) x (1 - y) x' (1 - y')); try lra; [rewrite Rabs_Ropp; lra].
  - destruct (quad_inj (- a) d (1 - x) y (1 - x') y'); try lra; [rewrite Rabs_Ropp; lra].
  - destruct (quad_inj a d x y x' y'); try lra.
Qed.

(** different quadrilaterals *)
Lemma quad_side1 : forall a b u v u' v', Rabs a + Rabs b < 1 -> 0 <= u <= 1 -> 0 <= v <= 1 -> 0 <= u' <= 1 -> 0 <= v' <= 1 ->
  (1 - u) * (1 - v) < (1 - u') * (1 - v') -> u + a * ((1 - u) * (1 - v)) = - u' + a * ((1 - u') * (1 - v')) -> v + b * ((1 - u) * (1 - v)) = v' + b * ((1 - u') * (1 - v')) -> False.
Proof.
  intros a b u v u' v' A U V U' V' L E1 E2. set (q := (1 - u) * (1 - v)) in *. set (q' := (1 - u') * (1 - v')) in *. set (d := q' - q). assert (D : 0 < d) by (unfold d; lra).
  assert (F1 : u + u' = a * d) by (unfold d; lra). assert (F2 : v - v' = b * d) by (unfold d; lra).
  assert (K : (1 + u') * (1 - v') - q = d * (a * (1 - v') + b * (1 - u))).
  { replace (d * (a * (1 - v') + b * (1 - u))) with (a * d * (1 - v') + b * d * (1 - u)) by ring. rewrite <- F1, <- F2. unfold q. ring. }
  assert (G : q' <= (1 + u') * (1 - v')) by (unfold q'; nra).
  assert (B1 : a * (1 - v') <= Rabs a) by (destruct (sign_cases a) as [(? & _ & ->)|(? & _ & ->)]; nra). assert (B2 : b * (1 - u) <= Rabs b) by (destruct (sign_cases b) as [(? & _ & ->)|(? & _ & ->)]; nra).
  assert (W : a * (1 - v') + b * (1 - u) < 1) by lra. set (w := a * (1 - v') + b * (1 - u)) in *. assert (d <= d * w) by (unfold d at 1; lra). nra.
Qed.
Lemma quad_side : forall a b u v u' v', Rabs a + Rabs b < 1 -> 0 <= u <= 1 -> 0 <= v <= 1 -> 0 <= u' <= 1 -> 0 <= v' <= 1 ->
  u + a * ((1 - u) * (1 - v)) = - u' + a * ((1 - u') * (1 - v')) -> v + b * ((1 - u) * (1 - v)) = v' + b * ((1 - u') * (1 - v')) -> u + u' = 0.
Proof.
  intros a b u v u' v' A U V U' V' E1 E2. destruct (Rtotal_order ((1 - u) * (1 - v)) ((1 - u') * (1 - v'))) as [L|[L|L]].
  - exfalso. exact (quad_side1 a b u v u' v' A U V U' V' L E1 E2).
  - rewrite L in E1. lra.
  - exfalso. apply (quad_side1 (- a) b u' v' u v); try assumption; [rewrite Rabs_Ropp; exact A|lra|lra].
Qed.
Lemma quad_opp1 : forall a b u v u' v', Rabs a + Rabs b < 1 -> 0 <= u <= 1 -> 0 <= v <= 1 -> 0 <= u' <= 1 -> 0 <= v' <= 1 ->
  (1 - u) * (1 - v) < (1 - u') * (1 - v') -> u + a * ((1 - u) * (1 - v)) = - u' + a * ((1 - u') * (1 - v')) -> v + b * ((1 - u) * (1 - v)) = - v' + b * ((1 - u') * (1 - v')) -> False.
Proof.
  intros a b u v u' v' A U V U' V' L E1 E2. set (q := (1 - u) * (1 - v)) in *. set (q' := (1 - u') * (1 - v')) in *. set (d := q' - q). assert (D : 0 < d) by (unfold d; lra).
  assert (F1 : u + u' = a * d) by (unfold d; lra). assert (F2 : v + v' = b * d) by (unfold d; lra). assert (Q1 : 1 - u - v <= q) by (unfold q; nra). assert (Q2 : q' <= 1) by (unfold q'; nra).
  assert (W : a + b < 1) by (pose proof (Rle_abs a); pose proof (Rle_abs b); lra). assert (d <= (a + b) * d) by (unfold d at 1; lra). nra.
Qed.
Lemma quad_opp : forall a b u v u' v', Rabs a + Rabs b < 1 -> 0 <= u <= 1 -> 0 <= v <= 1 -> 0 <= u' <= 1 -> 0 <= v' <= 1 ->
  u + a * ((1 - u) * (1 - v)) = - u' + a * ((1 - u') * (1 - v')) -> v + b * ((1 - u) * (1 - v)) = - v' + b * ((1 - u') * (1 - v')) -> u + u' = 0.
Proof.
  intros a b u v u' v' A U V U' V' E1 E2. destruct (Rtotal_order ((1 - u) * (1 - v)) ((1 - u') * (1 - v'))) as [L|[L|L]].
  - exfalso. exact (quad_opp1 a b u v u' v' A U V U' V' L E1 E2).
  - rewrite L in E1. lra.
  - exfalso. apply (quad_opp1 (- a) (- b) u' v' u v); try assumption; [rewrite !Rabs_Ropp; exact A|lra|lra].
Qed.
Lemma bil_range : forall c b x y p, mapc2m_bilinear c b x y = Some p -> (0 <= b <= 3)%Z.
Proof. intros c b x y p E. unfold mapc2m_bilinear in E. destruct (0 <=? b)%Z eqn:A, (b <=? 3)%Z eqn:B; try discriminate. lia. Qed.
Lemma bil_one : forall c, Rabs (fst c) + Rabs (snd c) < 1 -> one_to_one (mapc2m_bilinear c).
Proof.
  intros [a d] A b x y b' x' y' p I S E E'. pose proof (bil_range _ _ _ _ _ E) as B. pose proof (bil_range _ _ _ _ _ E') as B'.
  assert (BB : b = b').
  { cbn [fst snd] in A. destruct I as [X Y], S as [X' Y'].
    assert (NA : Rabs (- a) + Rabs d < 1 /\ Rabs a + Rabs (- d) < 1 /\ Rabs (- a) + Rabs (- d) < 1 /\ Rabs d + Rabs a < 1 /\ Rabs (- d) + Rabs a < 1 /\ Rabs d + Rabs (- a) < 1 /\ Rabs (- d) + Rabs (- a) < 1) by (rewrite !Rabs_Ropp; lra).
    destruct NA as (N1 & N2 & N3 & N4 & N5 & N6 & N7).
    block4 B; block4 B'; try reflexivity; exfalso; rewrite ?bil_0, ?bil_1, ?bil_2, ?bil_3 in E, E'; cbn [fst snd] in E, E'; injection E as <-; injection E' as E1 E2.
    - pose proof (quad_side (- a) (- d) (1 - x) (1 - y) x' (1 - y')); lra.
    - pose proof (quad_side (- d) (- a) (1 - y) (1 - x) y' (1 - x')); lra.
    - pose proof (quad_opp (- a) (- d) (1 - x) (1 - y) x' y'); lra.
    - pose proof (quad_side a (- d) x (1 - y) (1 - x') (1 - y')); lra.
    - pose proof (quad_opp a (- d) x (1 - y) (1 - x') y'); lra.
    - pose proof (quad_side (- d) a (1 - y) x y' x'); lra.
    - pose proof (quad_side d (- a) y (1 - x) (1 - y') (1 - x')); lra.
    - pose proof (quad_opp (- a) d (1 - x) y x' (1 - y')); lra.
    - pose proof (quad_side (- a) d (1 - x) y x' y'); lra.
    - pose proof (quad_opp a d x y (1 - x') (1 - y')); lra.
    - pose proof (quad_side d a y x (1 - y') x'); lra.
    - pose proof (quad_side a d x y (1 - x') y'); lra. }
  split; [exact BB|]. subst b'. apply (bil_inj (a, d) b x y x' y'); [exact A|exact B|destruct I; split; lra|exact S|congruence].
Qed.
Lemma bil_into : forall c, Rabs (fst c) + Rabs (snd c) < 1 -> maps_into (mapc2m_bilinear c) big_square.
Proof.
  intros [a d] A b x y p [X Y] E. cbn [fst snd] in A. pose proof (bil_range _ _ _ _ _ E) as B.
  assert (G : forall c u v, Rabs c < 1 -> 0 <= u <= 1 -> 0 <= v <= 1 -> -1 <= u + c * ((1 - u) * (1 - v)) <= 1).
  { clear. intros c u v C U V. assert (Q : 0 <= (1 - u) * (1 - v) <= 1 - u) by (split; nra). set (q := (1 - u) * (1 - v)) in *. apply Rabs_def2 in C. split; nra. }
  assert (A1 : Rabs a < 1 /\ Rabs (- a) < 1 /\ Rabs d < 1 /\ Rabs (- d) < 1) by (rewrite !Rabs_Ropp; pose proof (Rabs_pos a); pose proof (Rabs_pos d); lra). destruct A1 as (A1 & A2 & A3 & A4). unfold big_square.
  block4 B; rewrite ?bil_0, ?bil_1, ?bil_2, ?bil_3 in E; cbn [fst snd] in E; injection E as <-.
  - pose proof (G (- a) (1 - x) (1 - y) A2). pose proof (G (- d) (1 - y) (1 - x) A4). lra.
  - pose proof (G a x (1 - y) A1). pose proof (G (- d) (1 - y) x A4). lra.
  - pose proof (G (- a) (1 - x) y A2). pose proof (G d y (1 - x) A3). lra.
  - pose proof (G a x y A1). pose proof (G d y x A3). lra.
Qed.

(** ** Rotation *)
Lemma rotate_is : forall c th phi p, rotate_map (set_rotate c th phi) p = turn_y phi (turn_z th p).
Proof.
  intros c th phi [[x y] z]. unfold rotate_map, set_rotate, turn_y, turn_z. cbn [rotate]. unfold in_memory, set_rotation_matrix, set_entry, unit_matrix. cbn -[Rplus Rmult Rminus Ropp IZR sin cos].
  f_equal; [f_equal|]; ring.
Qed.
Lemma turn_dot : forall th phi p q, dot (turn_y phi (turn_z th p)) (turn_y phi (turn_z th q)) = dot p q.
Proof.
  intros th phi [[a b] c] [[x y] z]. unfold dot, turn_y, turn_z. pose proof (sc2 th) as S. pose proof (sc2 phi) as P. set (C := cos th) in *. set (D := sin th) in *. set (E := cos phi) in *. set (F := sin phi) in *.
  replace (((a * C - b * D) * E - c * F) * ((x * C - y * D) * E - z * F) + (a * D + b * C) * (x * D + y * C) + ((a * C - b * D) * F + c * E) * ((x * C - y * D) * F + z * E))
    with ((a * C - b * D) * (x * C - y * D) * (E ^ 2 + F ^ 2) + c * z * (E ^ 2 + F ^ 2) + (a * D + b * C) * (x * D + y * C)) by ring. rewrite P.
  replace ((a * C - b * D) * (x * C - y * D) * 1 + c * z * 1 + (a * D + b * C) * (x * D + y * C)) with (a * x * (C ^ 2 + D ^ 2) + b * y * (C ^ 2 + D ^ 2) + c * z) by ring. rewrite S. ring.
Qed.
Lemma turn_z_cross : forall t p q, turn_z t (cross p q) = cross (turn_z t p) (turn_z t q).
Proof.
  intros t [[a b] c] [[x y] z]. unfold cross, turn_z. pose proof (sc2 t) as S. set (C := cos t) in *. set (D := sin t) in *. f_equal; [f_equal; ring|].
  replace ((a * C - b * D) * (x * D + y * C) - (a * D + b * C) * (x * C - y * D)) with ((a * y - b * x) * (C ^ 2 + D ^ 2)) by ring. rewrite S. ring.
Qed.
Lemma turn_y_cross : forall t p q, turn_y t (cross p q) = cross (turn_y t p) (turn_y t q).
Proof.
  intros t [[a b] c] [[x y] z]. unfold cross, turn_y. pose proof (sc2 t) as S. set (C := cos t) in *. set (D := sin t) in *. f_equal; [f_equal; [ring|]|ring].
  replace ((a * D + c * C) * (x * C - z * D) - (a * C - c * D) * (x * D + z * C)) with ((c * x - a * z) * (C ^ 2 + D ^ 2)) by ring. rewrite S. ring.
Qed.
