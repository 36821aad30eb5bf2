(** The five blocks of a square, and of a disk. *)
From Coq Require Import ZArith Reals List Bool Lra Lia.
From Verif Require Import Model_Map Spec_Map Proof_Map1 Proof_Map2.
Import ListNotations.
Open Scope R_scope.

(** ** The square *)
Lemma help_is : forall a xi eta, bilinear_help a xi eta = ((2 * xi - 1) * (a + (1 - a) * eta), a + (1 - a) * eta).
Proof. intros. unfold bilinear_help. f_equal; ring. Qed.
Lemma fivepatch_is : forall a b x y, mapc2m_fivepatch a b x y = five (fun x y => ((2 * x - 1) * a, (2 * y - 1) * a)) (bilinear_help a) b x y.
Proof. intros. reflexivity. Qed.
Section Square.
Variable a : R.
Hypothesis Ha : 0 < a < 1.
Lemma sector_in : forall x y u v, square x y -> bilinear_help a x y = (u, v) -> a <= v /\ - v <= u <= v.
Proof. intros x y u v [A B] E. rewrite help_is in E. injection E as <- <-. assert (0 <= (1 - a) * y) by nra. set (q := (1 - a) * y) in *. split; [lra|]. split; nra. Qed.
Lemma sector_le : forall x y u v, square x y -> bilinear_help a x y = (u, v) -> v <= 1.
Proof. intros x y u v [A B] E. rewrite help_is in E. injection E as <- <-. nra. Qed.
Lemma sector_inside : forall x y u v, inside x y -> bilinear_help a x y = (u, v) -> a < v /\ - v < u < v.
Proof. intros x y u v [A B] E. rewrite help_is in E. injection E as <- <-. assert (0 < (1 - a) * y) by nra. set (q := (1 - a) * y) in *. split; [lra|]. split; nra. Qed.
Lemma sector_inj : forall x y x' y', inside x y -> square x' y' -> bilinear_help a x y = bilinear_help a x' y' -> x = x' /\ y = y'.
Proof.
  intros x y x' y' I S E. rewrite !help_is in E. injection E as E1 E2. assert (Y : y = y') by (apply Rmult_eq_reg_l with (1 - a); lra). subst y'. split; [|reflexivity].
  apply Rmult_eq_reg_r in E1; [lra|]. destruct S as [_ S]. assert (0 <= (1 - a) * y) by nra. lra.
Qed.
Lemma fp_one : one_to_one (mapc2m_fivepatch a).
Proof. apply (five_one (fun x y => ((2 * x - 1) * a, (2 * y - 1) * a)) (bilinear_help a) a (proj1 Ha)); [reflexivity|exact sector_in|exact sector_inside|exact sector_inj]. Qed.
Lemma fp_into : maps_into (mapc2m_fivepatch a) big_square.
Proof.
  intros b x y p S E. rewrite fivepatch_is in E. pose proof (five_some _ _ _ _ _ _ E) as B. destruct (sq_sym _ _ S) as (S1 & S2 & S3). unfold five in E. unfold big_square.
  block5 B; try match goal with H : (let '(_, _) := bilinear_help a ?s ?t in _) = Some p, S : square ?s ?t |- _ =>
    destruct (bilinear_help a s t) as [u v] eqn:E1; injection H as <-; pose proof (sector_in _ _ _ _ S E1); pose proof (sector_le _ _ _ _ S E1); lra end.
  injection E as <-. destruct S as [X Y]. repeat split; nra.
Qed.
Lemma sector_onto : forall u v, a <= v <= 1 -> - v <= u <= v -> exists x y, square x y /\ bilinear_help a x y = (u, v).
Proof.
  intros u v V U. exists ((u / v + 1) / 2), ((v - a) / (1 - a)).
  assert (Q : -1 <= u / v <= 1) by (split; apply Rmult_le_reg_r with v; try lra; unfold Rdiv; rewrite Rmult_assoc, Rinv_l; lra).
  assert (W : 0 <= (v - a) / (1 - a) <= 1) by (split; apply Rmult_le_reg_r with (1 - a); try lra; unfold Rdiv; rewrite Rmult_assoc, Rinv_l; lra).
  split; [split; lra|]. rewrite help_is. f_equal; field; lra.
Qed.
Lemma fp_onto : maps_onto (mapc2m_fivepatch a) big_square.
Proof.
  intros [[x y] z] (X & Y & ->).
  assert (C : (- a <= x <= a /\ - a <= y <= a) \/ (a <= y /\ - y <= x <= y) \/ (a <= - y /\ y <= x <= - y) \/ (a <= x /\ - x <= y <= x) \/ (a <= - x /\ x <= y <= - x)).
  { destruct (Rle_dec x y), (Rle_dec (- x) y), (Rle_dec x a), (Rle_dec (- a) x), (Rle_dec y a), (Rle_dec (- a) y); lra. }
  assert (H2 : forall u, - a <= u <= a -> 0 <= (u / a + 1) / 2 <= 1 /\ (2 * ((u / a + 1) / 2) - 1) * a = u).
  { intros u U. assert (Q : -1 <= u / a <= 1) by (split; apply Rmult_le_reg_r with a; try lra; unfold Rdiv; rewrite Rmult_assoc, Rinv_l; lra). split; [lra|field; lra]. }
  destruct C as [(A & B)|[C|[C|[C|C]]]].
  - destruct (H2 x A) as [P1 P2]. destruct (H2 y B) as [P3 P4]. exists 2%Z, ((x / a + 1) / 2), ((y / a + 1) / 2). split; [split; assumption|]. cbn [mapc2m_fivepatch]. rewrite P2, P4. reflexivity.
  - destruct (sector_onto x y) as (u & v & S & E); try lra. exists 4%Z, u, v. split; [exact S|]. cbn [mapc2m_fivepatch]. now rewrite E.
  - destruct (sector_onto x (- y)) as (u & v & S & E); try lra. exists 0%Z, u, (1 - v). split; [destruct S; split; lra|]. cbn [mapc2m_fivepatch]. replace (1 - (1 - v)) with v by ring. rewrite E. apply pt_eq; ring.
  - destruct (sector_onto y x) as (u & v & S & E); try lra. exists 3%Z, v, u. split; [destruct S; split; lra|]. cbn [mapc2m_fivepatch]. now rewrite E.
  - destruct (sector_onto y (- x)) as (u & v & S & E); try lra. exists 1%Z, (1 - v), u. split; [destruct S; split; lra|]. cbn [mapc2m_fivepatch]. replace (1 - (1 - v)) with v by ring. rewrite E. apply pt_eq; ring.
Qed.
Lemma fp_cont : continuous_across disk (mapc2m_fivepatch a).
Proof.
  intros b f b' f' v w s E S. destruct (ends_some _ _ _ _ E) as (B & Fb). change (Z.of_nat (length disk)) with 5%Z in B. assert (B5 : (0 <= b <= 4)%Z) by lia. clear B.
  split; intros E'; destruct (ends_some _ _ _ _ E') as (B & Fb'); change (Z.of_nat (length disk)) with 5%Z in B; (assert (B5' : (0 <= b' <= 4)%Z) by lia); clear B;
  destruct (faces4 f Fb) as [->|[->|[->| ->]]]; block5 B5; injection E as <- <-; destruct (faces4 f' Fb') as [->|[->|[->| ->]]]; block5 B5'; try discriminate E';
  unfold at_, mapc2m_fivepatch, on_face; rewrite ?help_is; cbn [fst snd]; (split; [|discriminate]); apply pt_eq; ring.
Qed.
End Square.

(** ** The disk *)
Lemma derivable_pt_lim_tan' : forall c, - PI / 2 < c < PI / 2 -> derivable_pt_lim tan c (1 + tan c ^ 2).
Proof. intros c H. apply (proj1 (derive_pt_eq tan c _ (derivable_pt_tan c H))). apply derive_pt_tan. Qed.
(** tan is below its chord *)
Lemma tan_chord : forall t, 0 <= t <= PI / 4 -> tan t <= 4 * t / PI.
Proof.
  intros t H. pose proof PI_RGT_0 as P. destruct (Rle_dec (tan t) (4 * t / PI)) as [L|L]; [exact L|exfalso].
  assert (L2 : 4 * t / PI < tan t) by lra. clear L.
  assert (t <> 0) by (intros ->; rewrite tan_0 in L2; unfold Rdiv in L2; lra).
  assert (t <> PI / 4) by (intros ->; rewrite tan_PI4 in L2; replace (4 * (PI / 4) / PI) with 1 in L2 by (field; lra); lra).
  assert (D : forall c, 0 <= c <= PI / 4 -> derivable_pt_lim tan c (1 + tan c ^ 2)) by (intros c C; apply derivable_pt_lim_tan'; lra).
  destruct (MVT_cor2 tan (fun c => 1 + tan c ^ 2) 0 t) as (c1 & E1 & C1); [lra|intros c C; apply D; lra|].
  destruct (MVT_cor2 tan (fun c => 1 + tan c ^ 2) t (PI / 4)) as (c2 & E2 & C2); [lra|intros c C; apply D; lra|].
  rewrite tan_0 in E1. rewrite tan_PI4 in E2.
  assert (T12 : tan c1 < tan c2) by (apply tan_increasing_1; lra).
  assert (T1 : 0 < tan c1) by (rewrite <- tan_0; apply tan_increasing_1; lra).
  assert (K : 4 / PI * t < (1 + tan c1 ^ 2) * t) by (replace (4 / PI * t) with (4 * t / PI) by (field; lra); lra).
  apply Rmult_lt_reg_r in K; [|lra].
  assert (K2 : (1 + tan c2 ^ 2) * (PI / 4 - t) < 4 / PI * (PI / 4 - t)) by (replace (4 / PI * (PI / 4 - t)) with (1 - 4 * t / PI) by (field; lra); lra).
  apply Rmult_lt_reg_r in K2; [|lra]. nra.
Qed.
Lemma T_chord : forall x, 1 / 2 <= x <= 1 -> 0 <= T x <= 2 * x - 1.
Proof.
  intros x H. pose proof PI_RGT_0 as P. split.
  - assert (E : T (1 / 2) = 0) by (unfold T; replace (1 / 2 * PI * (1 / 2 - 1 / 2)) with 0 by ring; apply tan_0).
    destruct (Req_dec x (1 / 2)) as [->|N]; [lra|]. pose proof (T_lt (1 / 2) x). lra.
  - unfold T. replace (2 * x - 1) with (4 * (1 / 2 * PI * (x - 1 / 2)) / PI) by (field; lra). apply tan_chord. split; nra.
Qed.

Definition xip (xi eta : R) : R := 2 * (1 - eta) * (xi - 1 / 2) + eta * T xi.
Definition den (xi eta : R) : R := 2 + eta * (T xi ^ 2 - 1).
Lemma sq_help_is : forall a xi eta, squareddisk_help a xi eta = (Rpower a (1 - eta) / sqrt (den xi eta) * xip xi eta, Rpower a (1 - eta) / sqrt (den xi eta)).
Proof. reflexivity. Qed.
Lemma den_pos : forall xi eta, square xi eta -> 1 <= den xi eta <= 2.
Proof. intros xi eta [A B]. unfold den. pose proof (T_bound xi A). assert (T xi ^ 2 <= 1) by nra. assert (0 <= T xi ^ 2) by nra. set (q := T xi ^ 2) in *. split; nra. Qed.
Lemma xip_bound : forall xi eta, square xi eta -> -1 <= xip xi eta <= 1 /\ xip xi eta ^ 2 + 1 <= den xi eta.
Proof.
  intros xi eta [A B]. unfold xip, den. pose proof (T_bound xi A) as TB. set (t := T xi) in *. replace (2 * (1 - eta) * (xi - 1 / 2)) with ((1 - eta) * (2 * xi - 1)) by field.
  assert (Y : -1 <= 2 * xi - 1 <= 1) by lra. set (c := 2 * xi - 1) in *. split; [split; nra|].
  assert (K : ((1 - eta) * c + eta * t) ^ 2 <= (1 - eta) * c ^ 2 + eta * t ^ 2).
  { assert (0 <= eta * (1 - eta) * (c - t) ^ 2) by (apply Rmult_le_pos; [nra|apply pow2_ge_0]). nra. }
  assert (c ^ 2 <= 1) by nra. nra.
Qed.
Lemma xip_inside : forall xi eta, inside xi eta -> -1 < xip xi eta < 1.
Proof.
  intros xi eta [A B]. unfold xip. pose proof (T_inside xi A) as TB. set (t := T xi) in *. split; nra.
Qed.
Lemma xip_opp : forall xi eta, xip (1 - xi) eta = - xip xi eta /\ den (1 - xi) eta = den xi eta.
Proof. intros xi eta. unfold xip, den. rewrite T_opp. split; [field|ring]. Qed.

Section Disk.
Variable a : R.
Hypothesis Ha : 0 < a < 1.
Lemma power_lt : forall e e', e < e' -> Rpower a e' < Rpower a e.
Proof.
  intros e e' H. unfold Rpower. apply exp_increasing. assert (L : ln a < 0) by (rewrite <- ln_1; apply ln_increasing; lra). nra.
Qed.
Lemma power_1 : Rpower a 1 = a.
Proof. apply Rpower_1. lra. Qed.
Lemma power_0 : Rpower a 0 = 1.
Proof. apply Rpower_O. lra. Qed.
Lemma power_bound : forall e, 0 <= e <= 1 -> a <= Rpower a e <= 1.
Proof.
  intros e H. pose proof power_1. pose proof power_0. split.
  - destruct (Req_dec e 1) as [->|N]; [lra|]. pose proof (power_lt e 1). lra.
  - destruct (Req_dec e 0) as [->|N]; [lra|]. pose proof (power_lt 0 e). lra.
Qed.
Lemma sqrt2 : 1 <= sqrt 2 /\ sqrt 2 * sqrt 2 = 2.
Proof. split; [rewrite <- sqrt_1; apply sqrt_le_1; lra|apply sqrt_sqrt; lra]. Qed.
Lemma sqrt_den : forall xi eta, square xi eta -> 1 <= sqrt (den xi eta) <= sqrt 2 /\ sqrt (den xi eta) * sqrt (den xi eta) = den xi eta.
Proof.
  intros xi eta S. pose proof (den_pos _ _ S). split; [|apply sqrt_sqrt; lra]. split; [rewrite <- sqrt_1|]; apply sqrt_le_1; lra.
Qed.
Lemma div_le : forall r q q', 0 <= r -> 0 < q -> q <= q' -> r / q' <= r / q.
Proof. intros r q q' R Q L. unfold Rdiv. apply Rmult_le_compat_l; [exact R|]. apply Rinv_le_contravar; assumption. Qed.
Lemma div_le2 : forall r r' q, 0 < q -> r <= r' -> r / q <= r' / q.
Proof. intros r r' q Q L. unfold Rdiv. apply Rmult_le_compat_r; [left; apply Rinv_0_lt_compat; exact Q|exact L]. Qed.
Lemma div_lt2 : forall r r' q, 0 < q -> r < r' -> r / q < r' / q.
Proof. intros r r' q Q L. unfold Rdiv. apply Rmult_lt_compat_r; [apply Rinv_0_lt_compat; exact Q|exact L]. Qed.

Lemma dsector_in : forall x y u v, square x y -> squareddisk_help a x y = (u, v) -> a / sqrt 2 <= v /\ - v <= u <= v.
Proof.
  intros x y u v S E. rewrite sq_help_is in E. injection E as <- <-. destruct (sqrt_den _ _ S) as [Q _]. destruct (xip_bound _ _ S) as [X _]. destruct S as [SX SY].
  pose proof (power_bound (1 - y)) as P. set (r := Rpower a (1 - y)) in *. set (q := sqrt (den x y)) in *. assert (V : a / sqrt 2 <= r / q).
  { apply Rle_trans with (r / sqrt 2); [apply div_le2; lra|apply div_le; lra]. }
  split; [exact V|]. assert (0 < a / sqrt 2) by (apply Rdiv_lt_0_compat; lra). set (c := r / q) in *. split; nra.
Qed.
Lemma dsector_inside : forall x y u v, inside x y -> squareddisk_help a x y = (u, v) -> a / sqrt 2 < v /\ - v < u < v.
Proof.
  intros x y u v I E. pose proof (in_sq _ _ I) as S. rewrite sq_help_is in E. injection E as <- <-. destruct (sqrt_den _ _ S) as [Q _]. pose proof (xip_inside _ _ I) as X. destruct I as [SX SY].
  assert (P : a < Rpower a (1 - y)) by (pose proof power_1; pose proof (power_lt (1 - y) 1); lra). set (r := Rpower a (1 - y)) in *. set (q := sqrt (den x y)) in *. assert (V : a / sqrt 2 < r / q).
  { apply Rlt_le_trans with (r / sqrt 2); [apply div_lt2; lra|apply div_le; lra]. }
  split; [exact V|]. assert (0 < a / sqrt 2) by (apply Rdiv_lt_0_compat; lra). set (c := r / q) in *. split; nra.
Qed.
Lemma dsector_disk : forall x y u v, square x y -> squareddisk_help a x y = (u, v) -> u ^ 2 + v ^ 2 <= 1 /\ (y = 1 -> u ^ 2 + v ^ 2 = 1).
Proof.
  intros x y u v S E. rewrite sq_help_is in E. injection E as <- <-. destruct (sqrt_den _ _ S) as [Q Q2]. destruct (xip_bound _ _ S) as [X X2]. pose proof (power_bound (1 - y)) as P.
  set (q := sqrt (den x y)) in *.
  assert (K : (Rpower a (1 - y) / q * xip x y) ^ 2 + (Rpower a (1 - y) / q) ^ 2 = Rpower a (1 - y) ^ 2 * ((xip x y ^ 2 + 1) / (q * q))) by (field; lra). rewrite K, Q2.
  assert (D : 1 <= den x y) by nra. assert (L : 0 <= (xip x y ^ 2 + 1) / den x y <= 1).
  { split; [apply Rmult_le_pos; [nra|left; apply Rinv_0_lt_compat; lra]|]. apply Rmult_le_reg_r with (den x y); [lra|]. unfold Rdiv. rewrite Rmult_assoc, Rinv_l by lra. lra. }
  split.
  - destruct S as [SX SY]. set (z := (xip x y ^ 2 + 1) / den x y) in *. set (r := Rpower a (1 - y)) in *. assert (r ^ 2 <= 1) by nra. assert (0 <= r ^ 2) by nra. nra.
  - intros ->. replace (1 - 1) with 0 by ring. rewrite power_0. assert (E1 : xip x 1 = T x) by (unfold xip; ring). assert (E2 : den x 1 = T x ^ 2 + 1) by (unfold den; ring). rewrite E1, E2. field. nra.
Qed.

(** the first coordinate of a sector over the second does not determine the point; with the second, it does *)
Lemma den_mono : forall x y x' y', square x y -> square x' y' -> 0 <= xip x y -> 1 / 2 <= x -> 1 / 2 <= x' -> y < y' -> xip x y = xip x' y' -> den x' y' <= den x y.
Proof.
  intros x y x' y' [X Y] [X' Y'] P H H' L E.
  destruct (T_chord x) as [C0 C]; [lra|]. destruct (T_chord x') as [C0' C']; [lra|].
  unfold xip, den in *.
  assert (O : x <= x').
  { destruct (Rle_dec x x') as [O|O]; [exact O|exfalso]. assert (TT : T x' < T x) by (apply T_lt; lra). set (t := T x) in *. set (t' := T x') in *. nra. }
  set (t := T x) in *. set (t' := T x') in *. set (c := 2 * x - 1) in *.
  assert (A1 : y' * t' <= y * t + (y' - y) * c) by (unfold c; nra).
  assert (A2 : (y' * t') ^ 2 <= (y * t + (y' - y) * c) ^ 2) by (assert (0 <= y' * t') by nra; nra).
  assert (A3 : (y * t + (y' - y) * c) ^ 2 <= y' * (y * t ^ 2 + (y' - y) * c ^ 2)).
  { assert (0 <= y * (y' - y) * (t - c) ^ 2) by (apply Rmult_le_pos; [nra|apply pow2_ge_0]). nra. }
  assert (A4 : y' * t' ^ 2 <= y * t ^ 2 + (y' - y) * c ^ 2) by (apply Rmult_le_reg_l with y'; [lra|]; nra).
  assert (0 <= c <= 1) by (unfold c; lra). assert (c ^ 2 <= 1) by nra. nra.
Qed.
Lemma xip_lt : forall x x' y, 0 <= x <= 1 -> 0 <= x' <= 1 -> 0 <= y <= 1 -> x < x' -> xip x y < xip x' y.
Proof. intros x x' y X X' Y L. unfold xip. pose proof (T_lt x x' X X' L). destruct (Req_dec y 0) as [->|N]; [nra|]. assert (y * T x < y * T x') by nra. nra. Qed.
Lemma xip_half : forall y, xip (1 / 2) y = 0.
Proof. intros y. unfold xip, T. replace (1 / 2 * PI * (1 / 2 - 1 / 2)) with 0 by ring. rewrite tan_0. ring. Qed.
Lemma xip_sign : forall x y, square x y -> (0 <= xip x y <-> 1 / 2 <= x).
Proof.
  intros x y [X Y]. pose proof (xip_half y) as Z. split; intros H.
  - destruct (Rle_dec (1 / 2) x) as [L|L]; [exact L|exfalso]. pose proof (xip_lt x (1 / 2) y). lra.
  - destruct (Req_dec x (1 / 2)) as [->|N]; [lra|]. pose proof (xip_lt (1 / 2) x y). lra.
Qed.
Lemma den_mono' : forall x y x' y', square x y -> square x' y' -> y < y' -> xip x y = xip x' y' -> den x' y' <= den x y.
Proof.
  intros x y x' y' S S' L E. destruct (Rle_dec 0 (xip x y)) as [P|P].
  - apply den_mono; try assumption; [apply (proj1 (xip_sign x y S)); exact P|apply (proj1 (xip_sign x' y' S')); lra].
  - destruct (xip_opp x y) as [E1 D1]. destruct (xip_opp x' y') as [E2 D2]. rewrite <- D1, <- D2.
    assert (S1 : square (1 - x) y) by (destruct S; split; lra). assert (S2 : square (1 - x') y') by (destruct S'; split; lra).
    apply den_mono; try assumption; [lra|apply (proj1 (xip_sign (1 - x) y S1)); lra|apply (proj1 (xip_sign (1 - x') y' S2)); lra|lra].
Qed.
Lemma v_lt : forall x y x' y', square x y -> square x' y' -> y < y' -> xip x y = xip x' y' -> Rpower a (1 - y) / sqrt (den x y) < Rpower a (1 - y') / sqrt (den x' y').
Proof.
  intros x y x' y' S S' L E. pose proof (den_mono' _ _ _ _ S S' L E) as M. pose proof (den_pos _ _ S). pose proof (den_pos _ _ S'). destruct (sqrt_den _ _ S). destruct (sqrt_den _ _ S').
  assert (Q : sqrt (den x' y') <= sqrt (den x y)) by (apply sqrt_le_1; lra). pose proof (power_lt (1 - y') (1 - y)). pose proof (power_bound (1 - y')). destruct S', S.
  apply Rlt_le_trans with (Rpower a (1 - y') / sqrt (den x y)); [apply div_lt2; lra|apply div_le; lra].
Qed.
Lemma dsector_inj : forall x y x' y', square x y -> square x' y' -> squareddisk_help a x y = squareddisk_help a x' y' -> x = x' /\ y = y'.
Proof.
  intros x y x' y' S S' E. rewrite !sq_help_is in E. injection E as E1 E2.
  assert (P : 0 < Rpower a (1 - y) / sqrt (den x y)) by (apply Rdiv_lt_0_compat; [apply exp_pos|destruct (sqrt_den _ _ S); lra]).
  rewrite <- E2 in E1. apply Rmult_eq_reg_l in E1; [|lra].
  assert (Y : y = y').
  { destruct (Rtotal_order y y') as [L|[L|L]]; [|exact L|]; [pose proof (v_lt _ _ _ _ S S' L E1)|pose proof (v_lt _ _ _ _ S' S L (eq_sym E1))]; lra. }
  subst y'. split; [|reflexivity]. destruct S as [X Y], S' as [X' _].
  destruct (Rtotal_order x x') as [L|[L|L]]; [pose proof (xip_lt x x' y)|exact L|pose proof (xip_lt x' x y)]; lra.
Qed.
Lemma squareddisk_is : forall b x y, mapc2m_squareddisk a b x y = five (fun x y => ((2 * x - 1) * a / sqrt 2, (2 * y - 1) * a / sqrt 2)) (squareddisk_help a) b x y.
Proof. reflexivity. Qed.
Lemma sd_one : one_to_one (mapc2m_squareddisk a).
Proof.
  destruct sqrt2 as [Q _]. apply (five_one (fun x y => ((2 * x - 1) * a / sqrt 2, (2 * y - 1) * a / sqrt 2)) (squareddisk_help a) (a / sqrt 2)); [apply Rdiv_lt_0_compat; lra| |exact dsector_in|exact dsector_inside|].
  - intros x y. f_equal; field; lra.
  - intros x y x' y' I S E. apply dsector_inj; [now apply in_sq|assumption..].
Qed.
Lemma core_disk : forall x y, square x y -> ((2 * x - 1) * a / sqrt 2) ^ 2 + ((2 * y - 1) * a / sqrt 2) ^ 2 <= 1.
Proof.
  intros x y [X Y]. destruct sqrt2 as [Q Q2]. replace (((2 * x - 1) * a / sqrt 2) ^ 2 + ((2 * y - 1) * a / sqrt 2) ^ 2) with (((2 * x - 1) ^ 2 + (2 * y - 1) ^ 2) * a ^ 2 / (sqrt 2 * sqrt 2)) by (field; lra).
  rewrite Q2. assert (G : forall z, 0 <= z <= 1 -> 0 <= (2 * z - 1) ^ 2 <= 1) by (clear; intros z Z; split; [apply pow2_ge_0|nra]). pose proof (G x X) as P1. pose proof (G y Y) as P2. assert (P3 : 0 <= a ^ 2 <= 1) by (clear - Ha; split; nra).
  set (p := (2 * x - 1) ^ 2) in *. set (q := (2 * y - 1) ^ 2) in *. set (r := a ^ 2) in *. assert ((p + q) * r <= 2) by (clear - P1 P2 P3; nra). lra.
Qed.
Lemma sd_into : maps_into (mapc2m_squareddisk a) unit_disk.
Proof.
  intros b x y p S E. rewrite squareddisk_is in E. pose proof (five_some _ _ _ _ _ _ E) as B. destruct (sq_sym _ _ S) as (S1 & S2 & S3). unfold five in E. unfold unit_disk.
  block5 B; try match goal with H : (let '(_, _) := squareddisk_help a ?s ?t in _) = Some p, S : square ?s ?t |- _ =>
    destruct (squareddisk_help a s t) as [u v] eqn:E1; injection H as <-; pose proof (dsector_disk _ _ _ _ S E1); split; [nra|reflexivity] end.
  injection E as <-. split; [now apply core_disk|reflexivity].
Qed.
(** the outer faces *)
Lemma sd_circle : forall s p, 0 <= s <= 1 ->
  mapc2m_squareddisk a 0 s 0 = Some p \/ mapc2m_squareddisk a 1 0 s = Some p \/ mapc2m_squareddisk a 3 1 s = Some p \/ mapc2m_squareddisk a 4 s 1 = Some p -> circle p.
Proof.
  intros s p S H. assert (G : forall t, t = 1 -> forall u v, squareddisk_help a s t = (u, v) -> u ^ 2 + v ^ 2 = 1).
  { intros t -> u v E. apply (dsector_disk s 1 u v); [split; lra|exact E|reflexivity]. }
  unfold mapc2m_squareddisk in H. destruct H as [H|[H|[H|H]]];
  match type of H with (let '(_, _) := squareddisk_help a s ?t in _) = _ => specialize (G t ltac:(ring)); destruct (squareddisk_help a s t) as [u v] end; specialize (G u v eq_refl); injection H as <-; unfold circle; split; nra.
Qed.
Lemma half_sq : sqrt (1 + 1) = sqrt 2.
Proof. f_equal. Qed.
Lemma den_0 : forall x, den x 0 = 2 /\ xip x 0 = 2 * x - 1.
Proof. intros x. unfold den, xip. split; [ring|field]. Qed.
Lemma den_e : forall y, den 1 y = 2 /\ xip 1 y = 1 /\ den 0 y = 2 /\ xip 0 y = -1.
Proof. intros y. unfold den, xip. rewrite T0, T1. repeat split; field. Qed.
Lemma help_bottom : forall x, squareddisk_help a x 0 = (a / sqrt 2 * (2 * x - 1), a / sqrt 2).
Proof. intros x. rewrite sq_help_is. destruct (den_0 x) as [-> ->]. replace (1 - 0) with 1 by ring. now rewrite power_1. Qed.
Lemma help_right : forall y, squareddisk_help a 1 y = (Rpower a (1 - y) / sqrt 2, Rpower a (1 - y) / sqrt 2).
Proof. intros y. rewrite sq_help_is. destruct (den_e y) as (-> & -> & _). f_equal. ring. Qed.
Lemma help_left : forall y, squareddisk_help a 0 y = (- (Rpower a (1 - y) / sqrt 2), Rpower a (1 - y) / sqrt 2).
Proof. intros y. rewrite sq_help_is. destruct (den_e y) as (_ & _ & -> & ->). f_equal. ring. Qed.
Lemma help_top : forall x, squareddisk_help a x 1 = (1 / sqrt (den x 1) * T x, 1 / sqrt (den x 1)).
Proof. intros x. rewrite sq_help_is. replace (1 - 1) with 0 by ring. rewrite power_0. f_equal. unfold xip. f_equal. ring. Qed.
Lemma top_opp : forall x, squareddisk_help a (1 - x) 1 = (- (1 / sqrt (den x 1) * T x), 1 / sqrt (den x 1)).
Proof. intros x. rewrite help_top, T_opp. destruct (xip_opp x 1) as [_ ->]. f_equal. ring. Qed.
Lemma sd_cont : continuous_across disk (mapc2m_squareddisk a).
Proof.
  destruct sqrt2 as [Q _].
  intros b f b' f' v w s E S. destruct (ends_some _ _ _ _ E) as (B & Fb). change (Z.of_nat (length disk)) with 5%Z in B. assert (B5 : (0 <= b <= 4)%Z) by lia. clear B.
  split; intros E'; destruct (ends_some _ _ _ _ E') as (B & Fb'); change (Z.of_nat (length disk)) with 5%Z in B; (assert (B5' : (0 <= b' <= 4)%Z) by lia); clear B;
  destruct (faces4 f Fb) as [->|[->|[->| ->]]]; block5 B5; injection E as <- <-; destruct (faces4 f' Fb') as [->|[->|[->| ->]]]; block5 B5'; try discriminate E';
  unfold at_, mapc2m_squareddisk, on_face; cbn [fst snd]; rewrite ?Rminus_0_r, ?(Rminus_diag_eq 1 1 eq_refl);
  rewrite ?help_bottom, ?help_right, ?help_left, ?top_opp, ?help_top;
  (split; [|discriminate]); try reflexivity; apply pt_eq; rewrite ?(Rminus_diag_eq 1 1 eq_refl), ?Rminus_0_r; replace (1 - (1 - s)) with s by ring; try reflexivity; try ring; field; lra.
Qed.
End Disk.
