(** C60: the mappings. *)
From Coq Require Import ZArith Reals List Bool Lra Lia.
From Verif Require Import Model_Map Spec_Map Proof_Map1 Proof_Map2 Proof_Map3 Proof_Map4 Proof_Map5 Proof_Map6.
Import ListNotations.
Open Scope R_scope.

(** the six blocks of the cubed sphere cover the unit sphere, meet along their common faces, and do not overlap *)
Theorem C60_cubedsphere :
  maps_into mapc2m_cubedsphere sphere /\ maps_onto mapc2m_cubedsphere sphere /\ one_to_one mapc2m_cubedsphere /\ continuous_across cubed mapc2m_cubedsphere.
Proof. split; [exact cs_into|]. split; [exact cs_onto|]. split; [exact cs_one|exact cs_cont]. Qed.
Print Assumptions C60_cubedsphere.

(** so do the five blocks of the square [-1, 1] x [-1, 1] *)
Theorem C60_fivepatch : forall alpha, 0 < alpha < 1 ->
  maps_into (mapc2m_fivepatch alpha) big_square /\ maps_onto (mapc2m_fivepatch alpha) big_square /\ one_to_one (mapc2m_fivepatch alpha) /\ continuous_across disk (mapc2m_fivepatch alpha).
Proof. intros a H. split; [now apply fp_into|]. split; [now apply fp_onto|]. split; [now apply fp_one|apply fp_cont]. Qed.
Print Assumptions C60_fivepatch.

(** the five blocks of the disk stay inside of it, do not overlap, meet along their common faces; their outer faces are on the circle *)
Theorem C60_squareddisk : forall alpha, 0 < alpha < 1 ->
  maps_into (mapc2m_squareddisk alpha) unit_disk /\ one_to_one (mapc2m_squareddisk alpha) /\ continuous_across disk (mapc2m_squareddisk alpha) /\
  (forall s p, 0 <= s <= 1 -> mapc2m_squareddisk alpha 0 s 0 = Some p \/ mapc2m_squareddisk alpha 1 0 s = Some p \/ mapc2m_squareddisk alpha 3 1 s = Some p \/ mapc2m_squareddisk alpha 4 s 1 = Some p -> circle p).
Proof. intros a H. split; [now apply sd_into|]. split; [now apply sd_one|]. split; [now apply sd_cont|now apply sd_circle]. Qed.
Print Assumptions C60_squareddisk.

(** one block bent onto a disk: its boundary is on the circle, and, away from the centre, every point is reached, once *)
Theorem C60_pillowdisk :
  maps_into (one_block mapc2m_pillowdisk) unit_disk /\
  (forall x y, square x y -> x = 0 \/ x = 1 \/ y = 0 \/ y = 1 -> circle (mapc2m_pillowdisk x y)) /\
  (forall p, unit_disk p -> 2 / 10 ^ 10 <= Rmax (Rabs (fst (fst p))) (Rabs (snd (fst p))) -> exists x y, square x y /\ mapc2m_pillowdisk x y = p) /\
  (forall x y x' y', square x y -> square x' y' ->
     / 10 ^ 10 <= Rmax (Rabs (2 * x - 1)) (Rabs (2 * y - 1)) -> / 10 ^ 10 <= Rmax (Rabs (2 * x' - 1)) (Rabs (2 * y' - 1)) ->
     mapc2m_pillowdisk x y = mapc2m_pillowdisk x' y' -> x = x' /\ y = y').
Proof.
  split; [intros b x y p S E; unfold one_block in E; destruct (b =? 0)%Z; [|discriminate]; injection E as <-; now apply pd_disk|].
  split; [intros x y S F; now apply pd_disk|]. split; [intros [[x y] z] D F; now apply pd_onto|exact pd_inj].
Qed.
Print Assumptions C60_pillowdisk.
Theorem C60_pillowdisk5 : forall alpha, / 10 ^ 10 <= alpha < 1 ->
  maps_into (mapc2m_pillowdisk5 alpha) unit_disk /\ continuous_across disk (mapc2m_pillowdisk5 alpha) /\
  (forall s p, 0 <= s <= 1 -> mapc2m_pillowdisk5 alpha 0 s 0 = Some p \/ mapc2m_pillowdisk5 alpha 1 0 s = Some p \/ mapc2m_pillowdisk5 alpha 3 1 s = Some p \/ mapc2m_pillowdisk5 alpha 4 s 1 = Some p -> circle p) /\
  (forall b x y b' x' y' p, inside x y -> square x' y' -> mapc2m_pillowdisk5 alpha b x y = Some p -> mapc2m_pillowdisk5 alpha b' x' y' = Some p ->
     (b <> 2%Z \/ / 10 ^ 10 <= alpha * Rmax (Rabs (2 * x - 1)) (Rabs (2 * y - 1))) -> (b' <> 2%Z \/ / 10 ^ 10 <= alpha * Rmax (Rabs (2 * x' - 1)) (Rabs (2 * y' - 1))) ->
     b = b' /\ x = x' /\ y = y').
Proof.
  intros a A. pose proof lo_pos as L. unfold lo in L. assert (H : 0 < a < 1) by lra. split; [now apply p5_into|]. split; [apply p5_cont|]. split; [now apply p5_circle|].
  intros. apply (p5_one a H b x y b' x' y' p); try assumption. lra.
Qed.
Print Assumptions C60_pillowdisk5.

(** the two blocks of the pillow sphere: block 0 is the upper half, block 1 the lower half of the unit sphere; they meet at the equator.
    Points are on the sphere exactly but next to the equator, where the height is 0 *)
Theorem C60_pillowsphere :
  (forall b x y, (b = 0 \/ b = 1)%Z -> square x y -> let '(p, q, r) := mapc2m_pillowsphere true b x y in
     1 - / 10 ^ 10 <= p ^ 2 + q ^ 2 + r ^ 2 <= 1 /\ (r <> 0 -> sphere (p, q, r)) /\ (b = 0%Z -> 0 <= r) /\ (b = 1%Z -> r <= 0)) /\
  continuous_across pillow (two_blocks (mapc2m_pillowsphere true)) /\
  (forall x y z, sphere (x, y, z) -> 4 / 10 ^ 10 <= Rmax (Rabs x) (Rabs y) -> z = 0 \/ / 10 ^ 10 <= z ^ 2 ->
     exists b a c, (b = 0 \/ b = 1)%Z /\ square a c /\ mapc2m_pillowsphere true b a c = (x, y, z)) /\
  (forall b x y b' x' y' p q r, (b = 0 \/ b = 1)%Z -> (b' = 0 \/ b' = 1)%Z -> square x y -> square x' y' ->
     / 10 ^ 10 <= Rmax (Rabs (2 * x - 1)) (Rabs (2 * y - 1)) -> / 10 ^ 10 <= Rmax (Rabs (2 * x' - 1)) (Rabs (2 * y' - 1)) ->
     mapc2m_pillowsphere true b x y = (p, q, r) -> mapc2m_pillowsphere true b' x' y' = (p, q, r) -> x = x' /\ y = y' /\ (r <> 0 -> b = b')).
Proof.
  split; [|split; [exact ps_cont|split; [exact ps_onto|]]].
  - intros b x y B S. pose proof (ps_into b x y S) as H. destruct (mapc2m_pillowsphere true b x y) as [[p q] r]. destruct H as (H1 & H2 & H3 & H4). split; [exact H1|]. split; [exact H2|]. split; [intros ->; apply H3; lia|exact H4].
  - intros b x y b' x' y' p q r B B' S S' O O' E E'. destruct (ps_inj b x y b' x' y' p q r S S' O O' E E') as (H1 & H2 & H3). split; [exact H1|]. split; [exact H2|]. intros R. specialize (H3 R).
    destruct B as [-> | ->], B' as [-> | ->]; try reflexivity; discriminate H3.
Qed.
Print Assumptions C60_pillowsphere.
(** the coordinates of a point beyond a face are those of the point of the other block at the same distance from the face; beyond a
    corner, those of the point of the same block *)
Theorem C60_pillowsphere_ghost : forall b x y s t, (b = 0 \/ b = 1)%Z -> square x y -> 0 < s <= 1 -> 0 < t <= 1 ->
  let M := mapc2m_pillowsphere true in
  M b (1 + s) y = M (1 - b)%Z (1 - s) y /\ M b (- s) y = M (1 - b)%Z s y /\ M b x (1 + s) = M (1 - b)%Z x (1 - s) /\ M b x (- s) = M (1 - b)%Z x s /\
  M b (1 + s) (1 + t) = M b (1 - s) (1 - t) /\ M b (- s) (1 + t) = M b s (1 - t) /\ M b (1 + s) (- t) = M b (1 - s) t /\ M b (- s) (- t) = M b s t.
Proof.
  intros b x y s t B S H1 H2 M. destruct (ps_ghost b x y s B S H1) as (A1 & A2 & A3 & A4). destruct (ps_ghost_corner b s t B H1 H2) as (A5 & A6 & A7 & A8). unfold M. repeat split; assumption.
Qed.
Print Assumptions C60_pillowsphere_ghost.

(** annulus *)
Theorem C60_annulus : forall beta t1 t2, 0 < beta < 1 ->
  maps_into (one_block (mapc2m_annulus beta t1 t2)) (ring beta) /\
  (0 < t2 - t1 <= 1 -> one_to_one (one_block (mapc2m_annulus beta t1 t2))) /\
  (t2 = t1 + 1 -> forall x y, mapc2m_annulus beta t1 t2 (x + 1) y = mapc2m_annulus beta t1 t2 x y) /\
  maps_onto (one_block (mapc2m_annulus beta 0 1)) (ring beta).
Proof. intros beta t1 t2 H. split; [now apply an_into|]. split; [now apply an_one|]. split; [intros E x y; now apply an_per|now apply an_onto]. Qed.
Print Assumptions C60_annulus.
(** longitude and latitude, in degrees *)
Theorem C60_latlong :
  (forall lon lat, sphere (mapc2m_latlong lon lat)) /\
  (forall p, sphere p -> exists lon lat, 0 <= lon <= 360 /\ -90 <= lat <= 90 /\ mapc2m_latlong lon lat = p) /\
  (forall lon lat lon' lat', -90 < lat < 90 -> -90 <= lat' <= 90 -> -360 < lon - lon' < 360 -> mapc2m_latlong lon lat = mapc2m_latlong lon' lat' -> lon = lon' /\ lat = lat').
Proof. split; [exact ll_sphere|]. split; [exact ll_onto|exact ll_inj]. Qed.
Print Assumptions C60_latlong.
(** the torus is periodic in both directions, and one period covers the tube, once *)
Theorem C60_torus : forall alpha beta, 0 < alpha -> -1 < beta < 1 -> alpha * (1 + Rabs beta) < 1 ->
  maps_into (one_block (mapc2m_torus alpha beta)) (tube alpha beta) /\ maps_onto (one_block (mapc2m_torus alpha beta)) (tube alpha beta) /\ one_to_one (one_block (mapc2m_torus alpha beta)) /\
  (forall x y, mapc2m_torus alpha beta (x + 1) y = mapc2m_torus alpha beta x y /\ mapc2m_torus alpha beta x (y + 1) = mapc2m_torus alpha beta x y).
Proof.
  intros a b A B AB. split; [|split; [|split; [|intros; apply tor_per]]].
  - intros k x y p S E. unfold one_block in E. destruct (k =? 0)%Z; [|discriminate]. injection E as <-. now apply tor_tube.
  - intros p S. destruct (tor_onto a b A B AB p S) as (x & y & SQ & E). exists 0%Z, x, y. split; [exact SQ|]. unfold one_block. cbn [Z.eqb]. now rewrite E.
  - intros k x y k' x' y' p [X Y] [X' Y'] E E'. unfold one_block in E, E'. destruct (Z.eqb_spec k 0) as [->|]; [|discriminate]. destruct (Z.eqb_spec k' 0) as [->|]; [|discriminate]. split; [reflexivity|].
    apply (tor_inj a b A B AB); [lra|lra|congruence].
Qed.
Print Assumptions C60_torus.
Theorem C60_twisted_torus : forall alpha, 0 < alpha < 1 ->
  maps_into (one_block (mapc2m_twisted_torus alpha)) (tube alpha 0) /\ maps_onto (one_block (mapc2m_twisted_torus alpha)) (tube alpha 0) /\ one_to_one (one_block (mapc2m_twisted_torus alpha)) /\
  (forall x y, mapc2m_twisted_torus alpha (x + 1) y = mapc2m_twisted_torus alpha x y /\ mapc2m_twisted_torus alpha x (y + 1) = mapc2m_twisted_torus alpha x y).
Proof.
  intros a A. assert (B : -1 < 0 < 1) by lra. assert (AB : a * (1 + Rabs 0) < 1) by (rewrite Rabs_R0; lra). destruct A as [A A1].
  assert (PER : forall x y, mapc2m_twisted_torus a (x + 1) y = mapc2m_twisted_torus a x y /\ mapc2m_twisted_torus a x (y + 1) = mapc2m_twisted_torus a x y).
  { intros x y. rewrite !twist. replace (y + (x + 1)) with (y + x + 1) by ring. replace (y + 1 + x) with (y + x + 1) by ring. destruct (tor_per a 0 x (y + x)) as [E1 E2]. rewrite E2. split; [|reflexivity]. destruct (tor_per a 0 x (y + x + 1)) as [-> _]. exact E2. }
  split; [|split; [|split; [|exact PER]]].
  - intros k x y p S E. unfold one_block in E. destruct (k =? 0)%Z; [|discriminate]. injection E as <-. rewrite twist. now apply tor_tube.
  - intros p S. destruct (tor_onto a 0 A B AB p S) as (x & y & [X Y] & E). destruct (Rle_dec x y) as [O|O].
    + exists 0%Z, x, (y - x). split; [split; lra|]. unfold one_block. cbn [Z.eqb]. rewrite twist. replace (y - x + x) with y by ring. now rewrite E.
    + exists 0%Z, x, (y - x + 1). split; [split; lra|]. unfold one_block. cbn [Z.eqb]. rewrite twist. replace (y - x + 1 + x) with (y + 1) by ring. destruct (tor_per a 0 x y) as [_ ->]. now rewrite E.
  - intros k x y k' x' y' p [X Y] [X' Y'] E E'. unfold one_block in E, E'. destruct (Z.eqb_spec k 0) as [->|]; [|discriminate]. destruct (Z.eqb_spec k' 0) as [->|]; [|discriminate]. split; [reflexivity|].
    rewrite twist in E, E'. assert (EQ : mapc2m_torus a 0 x (y + x) = mapc2m_torus a 0 x' (y' + x')) by congruence.
    rewrite !tor_is in EQ. destruct (tor_rho a 0 A B AB x (y + x)) as [R1 R2]. destruct (tor_rho a 0 A B AB x' (y' + x')) as [R1' R2']. injection EQ as E1 E2 E3. cbv zeta in *.
    rewrite E1, E2 in R2. rewrite R2' in R2. rewrite R2 in *. apply Rmult_eq_reg_l in E1, E2; try lra. assert (XX : x = x') by (apply turn_inj; [lra|assumption..]). subst x'. split; [reflexivity|].
    assert (Q : x = x /\ y + x = y' + x) by (apply (tor_inj a 0 A B AB); [lra|lra|congruence]). lra.
Qed.
Print Assumptions C60_twisted_torus.
(** four quadrilaterals around a centre *)
Theorem C60_bilinear : forall center,
  continuous_across brick22 (mapc2m_bilinear center) /\
  mapc2m_bilinear center 0 1 1 = Some (fst center, snd center, 0) /\
  mapc2m_bilinear center 0 0 0 = Some (-1, -1, 0) /\ mapc2m_bilinear center 1 1 0 = Some (1, -1, 0) /\ mapc2m_bilinear center 2 0 1 = Some (-1, 1, 0) /\ mapc2m_bilinear center 3 1 1 = Some (1, 1, 0) /\
  mapc2m_bilinear center 0 1 0 = Some (0, -1, 0) /\ mapc2m_bilinear center 0 0 1 = Some (-1, 0, 0) /\ mapc2m_bilinear center 3 1 0 = Some (1, 0, 0) /\ mapc2m_bilinear center 3 0 1 = Some (0, 1, 0) /\
  (Rabs (fst center) + Rabs (snd center) < 1 -> one_to_one (mapc2m_bilinear center) /\ maps_into (mapc2m_bilinear center) big_square).
Proof.
  intros c. split; [apply bil_cont|]. rewrite !bil_0, !bil_1, !bil_2, !bil_3. repeat (split; [apply pt_eq; ring|]). intros H. split; [now apply bil_one|now apply bil_into].
Qed.
Print Assumptions C60_bilinear.

(** scaling, shifting and rotating: the rotation is a rigid motion, first about the z axis, then about the y axis *)
Theorem C60_rotation : forall c th phi p q, let Rot := rotate_map (set_rotate c th phi) in
  Rot p = turn_y phi (turn_z th p) /\ dot (Rot p) (Rot q) = dot p q /\ Rot (cross p q) = cross (Rot p) (Rot q) /\ (th = 0 -> phi = 0 -> Rot p = p).
Proof.
  intros c th phi p q. cbv zeta. rewrite !rotate_is. split; [reflexivity|]. split; [apply turn_dot|]. split; [now rewrite turn_z_cross, turn_y_cross|].
  intros -> ->. destruct p as [[x y] z]. unfold turn_y, turn_z. rewrite cos_0, sin_0. f_equal; [f_equal|]; ring.
Qed.
Print Assumptions C60_rotation.
Theorem C60_scale_shift : forall c s d x y z,
  scale_map (set_scale c s) (x, y, z) = (x * fst (fst s), y * snd (fst s), z * snd s) /\ shift_map (set_shift c d) (x, y, z) = (x + fst (fst d), y + snd (fst d), z + snd d).
Proof. intros c [[a b] e] [[f g] h] x y z. split; reflexivity. Qed.
(** Refuted: the second angle, the option phi, "rotation angle about x axis".  A point of the x axis moves *)
Theorem C60_rotation_about_x_refuted : ~ (forall c phi p, rotate_map (set_rotate c 0 phi) p = turn_x phi p) /\ ~ (forall c phi p, rotate_map (set_rotate c 0 phi) p = turn_x (- phi) p).
Proof.
  assert (G : rotate_map (set_rotate (mkContext (1, 1, 1) (0, 0, 0) (fun _ => 0)) 0 PI) (1, 0, 0) = (-1, 0, 0)).
  { rewrite rotate_is. unfold turn_y, turn_z. rewrite cos_0, sin_0, cos_PI, sin_PI. f_equal; [f_equal|]; ring. }
  split; intros H; rewrite H in G; unfold turn_x in G; injection G as E _ _; lra.
Qed.
(** Refuted: the centre of the disk is reached *)
Theorem C60_pillowdisk_centre_refuted : ~ (forall p, unit_disk p -> exists x y, square x y /\ mapc2m_pillowdisk x y = p).
Proof.
  intros H. destruct (H (0, 0, 0)) as (x & y & [X Y] & E); [unfold unit_disk; lra|]. destruct (pd_is x y _ eq_refl) as (u & v & B & E1). rewrite E in E1. injection E1 as U V. destruct sqrt2 as [Q _].
  assert (u = 0) by (apply div2_inj; rewrite <- U; field; lra). assert (v = 0) by (apply div2_inj; rewrite <- V; field; lra). subst u v.
  unfold bend in B. destruct (bounds (2 * x - 1) (2 * y - 1)) as [B1 B2]; [lra|lra|]. set (xi := Rmin _ _) in *. set (eta := Rmax (Rmax _ _) lo) in *. pose proof (ratio (fun t => t) idh_pos xi eta B1 B2) as R. cbv beta in R.
  rewrite north_is in B. destruct (ny_bounds (xi / eta * eta) eta R (proj2 B2)) as (N1 & _ & _ & N4 & _). specialize (N4 (proj1 B2)). rewrite to_sector_is in B by lra. set (w := ny (xi / eta * eta) eta) in *.
  destruct (sign_cases (2 * x - 1)) as [(_ & S & _)|(_ & S & _)], (sign_cases (2 * y - 1)) as [(_ & S' & _)|(_ & S' & _)]; rewrite S, S' in B; match type of B with context [Rle_dec ?a ?b] => destruct (Rle_dec a b) end; injection B as B3 B4; lra.
Qed.
Print Assumptions C60_pillowdisk_centre_refuted.

(** Instances: the hypotheses are met *)
Module Inst.
Lemma pt3 : forall a b c a' b' c' : R, a = a' -> b = b' -> c = c' -> (a, b, c) = (a', b', c').
Proof. now intros ? ? ? ? ? ? -> -> ->. Qed.
Example C60_faces_instance : face_ends cubed 0 1 = Some (2, 3)%Z /\ face_ends cubed 1 0 = Some (2, 3)%Z /\ face_ends cubed 0 0 = Some (0, 1)%Z /\ face_ends cubed 4 2 = Some (0, 1)%Z /\ face_ends disk 0 1 = Some (5, 1)%Z /\ face_ends disk 3 2 = Some (1, 5)%Z.
Proof. repeat split. Qed.
Example C60_instance : mapc2m_cubedsphere 3 (1 / 2) (1 / 2) = Some (0, 0, 1) /\ mapc2m_cubedsphere 0 (1 / 2) (1 / 2) = Some (0, 0, -1) /\
  mapc2m_fivepatch (1 / 2) 4 (1 / 2) (1 / 2) = Some (0, 3 / 4, 0) /\ mapc2m_bilinear (1 / 5, 3 / 10) 3 (1 / 2) (1 / 2) = Some (11 / 20, 23 / 40, 0) /\
  mapc2m_torus (2 / 5) 0 0 0 = (7 / 5, 0, 0) /\ mapc2m_latlong 90 0 = (0, 1, 0) /\ mapc2m_annulus (2 / 5) 0 1 (1 / 2) (1 / 2) = (- (7 / 10), 0, 0).
Proof.
  assert (T2 : T (1 / 2) = 0) by (unfold T; replace (1 / 2 * PI * (1 / 2 - 1 / 2)) with 0 by ring; apply tan_0). assert (NO : norm 0 0 = 1) by (unfold norm; replace (0 ^ 2 + 0 ^ 2 + 1) with 1 by ring; rewrite sqrt_1; field).
  split; [unfold mapc2m_cubedsphere; rewrite basic, T2, NO; apply pt_eq; ring|]. split; [unfold mapc2m_cubedsphere; rewrite basic, T2, NO; apply pt_eq; ring|].
  split; [unfold mapc2m_fivepatch; rewrite help_is; apply pt_eq; field|]. split; [rewrite bil_3; cbn [fst snd]; apply pt_eq; field|].
  split; [unfold mapc2m_torus, pi2; rewrite Rmult_0_r, cos_0, sin_0; apply pt3; field|].
  split; [unfold mapc2m_latlong; replace (PI / 180 * 90) with (PI / 2) by field; replace (PI / 180 * 0) with 0 by ring; rewrite cos_PI2, sin_PI2, cos_0, sin_0; apply pt3; ring|].
  unfold mapc2m_annulus. replace (2 * PI * (0 + (1 - 0) * (1 / 2))) with PI by field. rewrite cos_PI, sin_PI. apply pt3; field.
Qed.
Example C60_pillow_instance : mapc2m_pillowsphere true 0 1 (1 / 2) = (1, 0, 0) /\ square 1 (1 / 2) /\ / 10 ^ 10 <= Rmax (Rabs (2 * 1 - 1)) (Rabs (2 * (1 / 2) - 1)).
Proof.
  assert (S : square 1 (1 / 2)) by (split; lra). assert (M : Rmax (Rabs (2 * 1 - 1)) (Rabs (2 * (1 / 2) - 1)) = 1) by (replace (2 * 1 - 1) with 1 by ring; replace (2 * (1 / 2) - 1) with 0 by field; rewrite Rabs_R1, Rabs_R0; apply Rmax_left; lra).
  split; [|split; [exact S|rewrite M; pose proof lo_pos; unfold lo in *; lra]].
  destruct (ps_square 0 1 (1 / 2) S) as (u & v & B & -> & D & H). specialize (H M). destruct sqrt2 as [Q1 Q2].
  unfold bend in B. rewrite M in B. rewrite (Rmax_left 1 lo) in B by (pose proof lo_pos; lra). replace (2 * 1 - 1) with 1 in B by ring. replace (2 * (1 / 2) - 1) with 0 in B by field. rewrite Rabs_R1, Rabs_R0 in B. rewrite Rmin_right in B by lra.
  rewrite sh_1 in B. replace (0 / 1 * 1) with 0 in B by field. rewrite north_is in B. unfold ny in B. replace (2 - 0 ^ 2) with 2 in B by ring. replace (2 - 1 ^ 2) with 1 in B by ring. rewrite sqrt_1 in B. replace (sqrt 2 - 1 + 1) with (sqrt 2) in B by ring.
  rewrite to_sector_is in B by lra. rewrite Rabs_R1, Rabs_R0 in B. destruct (Rle_dec 1 0) as [N|_]; [lra|]. unfold sign1 in B. destruct (Rle_dec 0 1) as [_|N]; [|lra]. destruct (Rle_dec 0 0) as [_|N]; [|lra]. injection B as <- <-.
  destruct (height_ok (1 * sqrt 2) (1 * 0) D) as (_ & _ & _ & Z & _). rewrite (Z H). cbn [Z.eqb]. apply pt3; field; lra.
Qed.
End Inst.
