(** The pillow: squares bent onto a disk. *)
From Coq Require Import ZArith Reals List Bool Lra Lia.
From Verif Require Import Model_Map Spec_Map Proof_Map1 Proof_Map2 Proof_Map3.
Import ListNotations.
Open Scope R_scope.

Definition lo : R := / 10 ^ 10.
Lemma lo_pos : 0 < lo < 1 / 1000.
Proof. unfold lo. split; [apply Rinv_0_lt_compat; lra|]. lra. Qed.
Definition g (t : R) : R := t - sqrt (2 - t ^ 2).
Lemma g_lt : forall s t, 0 <= s -> s < t -> t <= 1 -> g s < g t.
Proof. intros s t S L U. unfold g. assert (sqrt (2 - t ^ 2) <= sqrt (2 - s ^ 2)) by (apply sqrt_le_1; nra). lra. Qed.
Lemma g_le : forall s t, 0 <= s -> s <= t -> t <= 1 -> g s <= g t.
Proof. intros s t S L U. destruct (Req_dec s t) as [->|N]; [lra|]. left. apply g_lt; lra. Qed.
Lemma g_inj : forall s t, 0 <= s <= 1 -> 0 <= t <= 1 -> g s = g t -> s = t.
Proof. intros s t S U E. destruct (Rtotal_order s t) as [L|[L|L]]; [pose proof (g_lt s t)|exact L|pose proof (g_lt t s)]; lra. Qed.
Lemma g_1 : g 1 = 0.
Proof. unfold g. replace (2 - 1 ^ 2) with 1 by ring. rewrite sqrt_1. ring. Qed.
Lemma g_0 : g 0 = - sqrt 2.
Proof. unfold g. replace (2 - 0 ^ 2) with 2 by ring. ring. Qed.
Lemma sqr2 : forall x, 0 <= x <= 1 -> 1 <= sqrt (2 - x ^ 2) <= sqrt 2 /\ sqrt (2 - x ^ 2) * sqrt (2 - x ^ 2) = 2 - x ^ 2.
Proof. intros x H. split; [|apply sqrt_sqrt; nra]. split; [rewrite <- sqrt_1|]; apply sqrt_le_1; nra. Qed.

(** the northern sector *)
Definition ny (x d : R) : R := sqrt (2 - x ^ 2) - sqrt (2 - d ^ 2) + d.
Lemma north_is : forall x d, map_north_sector x d = (x, ny x d).
Proof. reflexivity. Qed.
Lemma ny_g : forall x d, ny x d = sqrt (2 - x ^ 2) + g d /\ ny x d - x = g d - g x.
Proof. intros x d. unfold ny, g. split; ring. Qed.
Lemma ny_bounds : forall x d, 0 <= x <= d -> d <= 1 -> x <= ny x d /\ x ^ 2 + ny x d ^ 2 <= 2 /\ (d = 1 -> x ^ 2 + ny x d ^ 2 = 2) /\ (0 < d -> 0 < ny x d) /\ (x < d -> x < ny x d).
Proof.
  intros x d X D. destruct (ny_g x d) as [E1 E2]. pose proof (g_le x d). pose proof (g_le d 1). pose proof g_1 as G1. destruct (sqr2 x) as [S1 S2]; [lra|].
  assert (A : x <= ny x d) by lra. split; [exact A|]. assert (B : ny x d <= sqrt (2 - x ^ 2)) by lra. split; [nra|]. split; [intros ->; rewrite G1 in E1; rewrite E1; nra|]. split.
  - intros D0. destruct (Req_dec x 0) as [->|N]; [|lra]. pose proof (g_lt 0 d). lra.
  - intros L. pose proof (g_lt x d). lra.
Qed.
(** its inverse *)
Definition solve (c : R) : R := (c + sqrt (4 - c ^ 2)) / 2.
Lemma solve_ok : forall c, - sqrt 2 <= c <= 0 -> 0 <= solve c <= 1 /\ g (solve c) = c.
Proof.
  intros c H. destruct sqrt2 as [Q1 Q2]. assert (C2 : c ^ 2 <= 2) by nra. assert (P : 0 <= 4 - c ^ 2) by lra. pose proof (sqrt_sqrt _ P) as S. pose proof (sqrt_pos (4 - c ^ 2)) as N. unfold solve.
  set (q := sqrt (4 - c ^ 2)) in *. assert (q <= 2 - c) by nra. assert (- c <= q) by nra. split; [lra|].
  unfold g. replace (2 - ((c + q) / 2) ^ 2) with (((q - c) / 2) ^ 2) by nra. rewrite <- Rsqr_pow2, sqrt_Rsqr by lra. field.
Qed.

(** sectors *)
Lemma sign_cases : forall x, (0 <= x /\ sign1 x = 1 /\ Rabs x = x) \/ (x < 0 /\ sign1 x = -1 /\ Rabs x = - x).
Proof. intros x. unfold sign1. destruct (Rle_dec 0 x) as [H|H]; [left|right]; [rewrite Rabs_right by lra|rewrite Rabs_left by lra]; lra. Qed.
Lemma to_sector_is : forall xc yc x y, 0 <= x <= y ->
  to_sector xc yc (x, y) = if Rle_dec (Rabs xc) (Rabs yc) then (sign1 xc * x, sign1 yc * y) else (sign1 xc * y, sign1 yc * x).
Proof. intros xc yc x y H. unfold to_sector. rewrite (Rabs_right x), (Rabs_right y) by lra. now rewrite Rmin_left, Rmax_right by lra. Qed.

Section Pillow.
(** [h] is the distance to the centre along an axis *)
Variable h : R -> R.
Hypothesis h_pos : forall t, 0 < t <= 1 -> 0 < h t <= 1.
Hypothesis h_lt : forall s t, 0 < s -> s < t -> t <= 1 -> h s < h t.
Hypothesis h_1 : h 1 = 1.
Definition bend (xc yc : R) : R * R :=
  let xi := Rmin (Rabs xc) (Rabs yc) in
  let eta := Rmax (Rmax (Rabs xc) (Rabs yc)) lo in
  to_sector xc yc (map_north_sector (xi / eta * h eta) (h eta)).
Lemma ratio : forall xi eta, 0 <= xi <= eta -> 0 < eta <= 1 -> 0 <= xi / eta * h eta <= h eta.
Proof.
  intros xi eta X E. pose proof (h_pos eta E). assert (R : 0 <= xi / eta <= 1) by (split; apply Rmult_le_reg_r with eta; try lra; unfold Rdiv; rewrite Rmult_assoc, Rinv_l; lra).
  set (q := xi / eta) in *. split; nra.
Qed.
Lemma bounds : forall xc yc, -1 <= xc <= 1 -> -1 <= yc <= 1 ->
  0 <= Rmin (Rabs xc) (Rabs yc) <= Rmax (Rmax (Rabs xc) (Rabs yc)) lo /\ 0 < Rmax (Rmax (Rabs xc) (Rabs yc)) lo <= 1.
Proof.
  intros xc yc X Y. pose proof lo_pos as L. unfold Rmin, Rmax. destruct (sign_cases xc) as [(? & _ & ->)|(? & _ & ->)]; destruct (sign_cases yc) as [(? & _ & ->)|(? & _ & ->)];
    repeat match goal with |- context [Rle_dec ?a ?b] => destruct (Rle_dec a b) end; lra.
Qed.
Lemma bend_disk : forall xc yc p q, -1 <= xc <= 1 -> -1 <= yc <= 1 -> bend xc yc = (p, q) ->
  p ^ 2 + q ^ 2 <= 2 /\ (Rmax (Rabs xc) (Rabs yc) = 1 -> p ^ 2 + q ^ 2 = 2).
Proof.
  intros xc yc p q X Y E. unfold bend in E. destruct (bounds xc yc X Y) as [B1 B2]. set (xi := Rmin _ _) in *. set (m := Rmax (Rabs xc) (Rabs yc)) in *. set (eta := Rmax m lo) in *.
  pose proof (ratio xi eta B1 B2) as R. pose proof (h_pos eta B2) as H. rewrite north_is in E. set (x := xi / eta * h eta) in *. destruct (ny_bounds x (h eta) R (proj2 H)) as (N1 & N2 & N3 & _).
  rewrite to_sector_is in E by lra.
  assert (V : p ^ 2 + q ^ 2 = x ^ 2 + ny x (h eta) ^ 2).
  { destruct (sign_cases xc) as [(_ & Sx & _)|(_ & Sx & _)], (sign_cases yc) as [(_ & Sy & _)|(_ & Sy & _)]; rewrite Sx, Sy in E; destruct (Rle_dec (Rabs xc) (Rabs yc)); injection E as <- <-; ring. }
  rewrite V. split; [exact N2|]. intros M. apply N3. assert (eta = 1) by (unfold eta; rewrite M; apply Rmax_left; pose proof lo_pos; lra). congruence.
Qed.
Lemma bend_inj : forall xc yc xc' yc', -1 <= xc <= 1 -> -1 <= yc <= 1 -> -1 <= xc' <= 1 -> -1 <= yc' <= 1 ->
  lo <= Rmax (Rabs xc) (Rabs yc) -> lo <= Rmax (Rabs xc') (Rabs yc') -> bend xc yc = bend xc' yc' -> xc = xc' /\ yc = yc'.
Proof.
  intros xc yc xc' yc' X Y X' Y' M M' E. pose proof lo_pos as L.
  assert (K : forall xc yc p q, -1 <= xc <= 1 -> -1 <= yc <= 1 -> lo <= Rmax (Rabs xc) (Rabs yc) -> bend xc yc = (p, q) ->
    let xi := Rmin (Rabs xc) (Rabs yc) in let eta := Rmax (Rabs xc) (Rabs yc) in
    0 < eta <= 1 /\ 0 <= xi <= eta /\ Rmin (Rabs p) (Rabs q) = xi / eta * h eta /\ Rmax (Rabs p) (Rabs q) = ny (xi / eta * h eta) (h eta) /\
    (Rabs xc < Rabs yc -> Rabs p < Rabs q) /\ (Rabs yc < Rabs xc -> Rabs q < Rabs p) /\ (Rabs xc = Rabs yc -> Rabs p = Rabs q) /\
    (0 < xc <-> 0 < p) /\ (xc < 0 <-> p < 0) /\ (0 < yc <-> 0 < q) /\ (yc < 0 <-> q < 0)).
  { clear - L h_pos h_lt h_1. intros xc yc p q X Y M E xi eta. unfold bend in E. destruct (bounds xc yc X Y) as [B1 B2]. rewrite (Rmax_left _ lo) in E, B1, B2 by exact M. fold xi eta in E, B1, B2.
    pose proof (ratio xi eta B1 B2) as R. pose proof (h_pos eta B2) as H. rewrite north_is in E. set (x := xi / eta * h eta) in *. destruct (ny_bounds x (h eta) R (proj2 H)) as (N1 & _ & _ & N4 & N5).
    assert (N0 : 0 < ny x (h eta)) by lra. set (y := ny x (h eta)) in *. rewrite to_sector_is in E by lra.
    assert (XZ : xi = 0 -> x = 0) by (intros Z; unfold x; rewrite Z; unfold Rdiv; ring).
    assert (XP : 0 < xi -> 0 < x) by (intros Z; unfold x; apply Rmult_lt_0_compat; [apply Rdiv_lt_0_compat; lra|lra]).
    assert (XL : xi < eta -> x < y) by (intros Z; apply N5; unfold x; assert (xi / eta < 1) by (apply Rmult_lt_reg_r with eta; [lra|]; unfold Rdiv; rewrite Rmult_assoc, Rinv_l; lra); nra).
    assert (XE : xi = eta -> x = y).
    { intros Z. assert (x = h eta) by (unfold x; rewrite Z; field; lra). unfold y. destruct (ny_g x (h eta)) as [_ G]. rewrite H0 in *. lra. }
    split; [exact B2|]. split; [exact B1|]. clear N4 N5. unfold xi, eta in *. unfold Rmin, Rmax in *. clearbody x y.
    destruct (sign_cases xc) as [(Hx & Sx & Ax)|(Hx & Sx & Ax)], (sign_cases yc) as [(Hy & Sy & Ay)|(Hy & Sy & Ay)]; rewrite Sx, Sy in E; rewrite Ax, Ay in *;
    match type of E with context [Rle_dec ?a ?b] => destruct (Rle_dec a b) end; injection E as <- <-;
    repeat match goal with
    | |- context [Rabs (1 * ?t)] => replace (Rabs (1 * t)) with t by (rewrite Rabs_right; lra)
    | |- context [Rabs (-1 * ?t)] => replace (Rabs (-1 * t)) with t by (rewrite Rabs_left1; lra)
    end; repeat match goal with |- context [Rle_dec ?a ?b] => destruct (Rle_dec a b) end; repeat split; intros; try lra;
    try (match goal with |- context [x] => destruct (Req_dec xc 0), (Req_dec yc 0); lra end). }
  destruct (bend xc yc) as [p q] eqn:E1. symmetry in E. destruct (K _ _ _ _ X Y M E1) as (H1 & H2 & H3 & H4 & H5 & H6 & H7 & H8 & H9 & H10 & H11).
  destruct (K _ _ _ _ X' Y' M' E) as (J1 & J2 & J3 & J4 & J5 & J6 & J7 & J8 & J9 & J10 & J11). clear K. cbv zeta in *.
  set (xi := Rmin (Rabs xc) (Rabs yc)) in *. set (eta := Rmax (Rabs xc) (Rabs yc)) in *. set (xi' := Rmin (Rabs xc') (Rabs yc')) in *. set (eta' := Rmax (Rabs xc') (Rabs yc')) in *.
  rewrite H3 in J3. rewrite H4 in J4. rewrite <- J3 in J4.
  assert (HE : h eta = h eta').
  { apply g_inj; [pose proof (h_pos eta H1); lra|pose proof (h_pos eta' J1); lra|]. destruct (ny_g (xi / eta * h eta) (h eta)) as [G1 _]. destruct (ny_g (xi / eta * h eta) (h eta')) as [G2 _]. lra. }
  assert (EE : eta = eta').
  { destruct (Rtotal_order eta eta') as [O|[O|O]]; [pose proof (h_lt eta eta')|exact O|pose proof (h_lt eta' eta)]; lra. }
  assert (XX : xi = xi').
  { rewrite <- EE in J3. pose proof (h_pos eta H1). apply Rmult_eq_reg_r in J3; [|lra]. unfold Rdiv in J3. apply Rmult_eq_reg_r in J3; [exact J3|]. apply Rinv_neq_0_compat. lra. }
  clear - X Y X' Y' XX EE H5 H6 H7 H8 H9 H10 H11 J5 J6 J7 J8 J9 J10 J11. unfold xi, eta, xi', eta', Rmin, Rmax in XX, EE. clear xi eta xi' eta'.
  destruct (sign_cases xc) as [(Hx & _ & Ax)|(Hx & _ & Ax)], (sign_cases yc) as [(Hy & _ & Ay)|(Hy & _ & Ay)], (sign_cases xc') as [(Hx' & _ & Ax')|(Hx' & _ & Ax')], (sign_cases yc') as [(Hy' & _ & Ay')|(Hy' & _ & Ay')];
    rewrite ?Ax, ?Ay, ?Ax', ?Ay' in *; repeat match goal with H : context [Rle_dec ?a ?b] |- _ => destruct (Rle_dec a b) end; lra.
Qed.
Hypothesis h_onto : forall d, h lo <= d <= 1 -> exists t, lo <= t <= 1 /\ h t = d.
Lemma bend_onto : forall p q, p ^ 2 + q ^ 2 <= 2 -> 2 * h lo <= Rmax (Rabs p) (Rabs q) -> exists xc yc, -1 <= xc <= 1 /\ -1 <= yc <= 1 /\ bend xc yc = (p, q).
Proof.
  intros p q D F. pose proof lo_pos as L. pose proof (h_pos lo ltac:(lra)) as HL. set (x := Rmin (Rabs p) (Rabs q)). set (y := Rmax (Rabs p) (Rabs q)) in *.
  assert (XY : 0 <= x <= y /\ x ^ 2 + y ^ 2 <= 2).
  { unfold x, y, Rmin, Rmax. destruct (sign_cases p) as [(? & _ & ->)|(? & _ & ->)], (sign_cases q) as [(? & _ & ->)|(? & _ & ->)]; match goal with |- context [Rle_dec ?a ?b] => destruct (Rle_dec a b) end; split; nra. }
  destruct XY as [XY D2]. assert (X1 : x <= 1) by nra. destruct (sqr2 x) as [S1 S2]; [lra|].
  set (c := y - sqrt (2 - x ^ 2)). assert (C : - sqrt 2 <= c <= 0).
  { unfold c. split; [lra|]. assert (y <= sqrt (2 - x ^ 2)) by nra. lra. }
  destruct (solve_ok c C) as [V G]. set (d := solve c) in *.
  assert (XD : x <= d).
  { destruct (Rle_dec x d) as [O|O]; [exact O|exfalso]. pose proof (g_lt d x). unfold g in H at 2. unfold c in G. lra. }
  assert (YD : y = ny x d) by (destruct (ny_g x d) as [-> _]; rewrite G; unfold c; ring).
  assert (HD : h lo <= d).
  { destruct (Rle_dec (h lo) d) as [O|O]; [exact O|exfalso]. destruct (sqr2 d) as [T1 T2]; [lra|]. assert (Y2 : y <= 2 * d).
    { rewrite YD. unfold ny. destruct sqrt2 as [Q1 Q2]. assert (sqrt 2 - sqrt (2 - d ^ 2) <= d) by nra. lra. }
    lra. }
  destruct (h_onto d ltac:(lra)) as (eta & HE & ED). set (xi := x / d * eta).
  assert (XE : 0 <= xi <= eta).
  { assert (0 <= x / d <= 1) by (split; apply Rmult_le_reg_r with d; try lra; unfold Rdiv; rewrite Rmult_assoc, Rinv_l; lra). unfold xi. split; nra. }
  assert (R : xi / eta * h eta = x) by (unfold xi; rewrite ED; field; lra).
  assert (GO : forall xc yc, Rmin (Rabs xc) (Rabs yc) = xi -> Rmax (Rabs xc) (Rabs yc) = eta -> bend xc yc = if Rle_dec (Rabs xc) (Rabs yc) then (sign1 xc * x, sign1 yc * y) else (sign1 xc * y, sign1 yc * x)).
  { intros xc yc E1 E2. unfold bend. rewrite E1, E2. rewrite (Rmax_left eta lo) by lra. rewrite north_is, R, ED, <- YD. now apply to_sector_is. }
  assert (PX : x = y -> xi = eta).
  { intros E. unfold xi. destruct (ny_g x d) as [_ G2]. rewrite <- YD in G2. assert (x = d) by (apply g_inj; lra). rewrite H. field. lra. }
  assert (SG : forall z, sign1 z * Rabs z = z) by (intros z; destruct (sign_cases z) as [(? & -> & ->)|(? & -> & ->)]; ring).
  assert (SS : forall z t, 0 <= t -> (t = 0 -> 0 <= z) -> sign1 (sign1 z * t) = sign1 z /\ Rabs (sign1 z * t) = t).
  { intros z t T0 TZ. destruct (sign_cases z) as [(? & -> & _)|(? & -> & _)].
    - replace (1 * t) with t by ring. destruct (sign_cases t) as [(? & -> & ->)|(? & _ & _)]; lra.
    - destruct (sign_cases (-1 * t)) as [(? & -> & ->)|(? & -> & ->)]; lra. }
  destruct (Rle_dec (Rabs p) (Rabs q)) as [O|O].
  - assert (EX : x = Rabs p) by (apply Rmin_left; exact O). assert (EY : y = Rabs q) by (apply Rmax_right; exact O).
    assert (A1 : xi = 0 -> 0 <= p). { intros Z. unfold xi in Z. assert (x = 0). { apply Rmult_integral in Z. destruct Z as [Z|Z]; [|lra]. apply Rmult_integral in Z. destruct Z as [Z|Z]; [exact Z|]. pose proof (Rinv_0_lt_compat d). lra. } destruct (sign_cases p); lra. }
    destruct (SS p xi (proj1 XE) A1) as [B1 B2]. destruct (SS q eta ltac:(lra) ltac:(lra)) as [B3 B4].
    exists (sign1 p * xi), (sign1 q * eta).
    split; [destruct (sign_cases p) as [(_ & -> & _)|(_ & -> & _)]; lra|]. split; [destruct (sign_cases q) as [(_ & -> & _)|(_ & -> & _)]; lra|].
    rewrite GO; [|rewrite B2, B4; apply Rmin_left; lra|rewrite B2, B4; apply Rmax_right; lra]. rewrite B2, B4. destruct (Rle_dec xi eta) as [_|N]; [|lra]. rewrite B1, B3, EX, EY, !SG. reflexivity.
  - assert (EX : x = Rabs q) by (apply Rmin_right; lra). assert (EY : y = Rabs p) by (apply Rmax_left; lra).
    assert (XLT : x <> y) by lra.
    assert (NE : xi < eta).
    { destruct (Rle_lt_or_eq_dec _ _ (proj2 XE)) as [Z|Z]; [exact Z|exfalso]. apply XLT. assert (x = d). { rewrite <- R, Z, ED. field. lra. } rewrite YD, <- H. unfold ny. ring. }
    assert (A1 : xi = 0 -> 0 <= q). { intros Z. unfold xi in Z. assert (x = 0). { apply Rmult_integral in Z. destruct Z as [Z|Z]; [|lra]. apply Rmult_integral in Z. destruct Z as [Z|Z]; [exact Z|]. pose proof (Rinv_0_lt_compat d). lra. } destruct (sign_cases q); lra. }
    destruct (SS q xi (proj1 XE) A1) as [B1 B2]. destruct (SS p eta ltac:(lra) ltac:(lra)) as [B3 B4].
    exists (sign1 p * eta), (sign1 q * xi).
    split; [destruct (sign_cases p) as [(_ & -> & _)|(_ & -> & _)]; lra|]. split; [destruct (sign_cases q) as [(_ & -> & _)|(_ & -> & _)]; lra|].
    rewrite GO; [|rewrite B2, B4; apply Rmin_right; lra|rewrite B2, B4; apply Rmax_left; lra]. rewrite B2, B4. destruct (Rle_dec eta xi) as [N|_]; [lra|]. rewrite B1, B3, EX, EY, !SG. reflexivity.
Qed.
End Pillow.
