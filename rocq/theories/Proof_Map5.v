(** The pillow disk and the pillow sphere. *)
From Coq Require Import ZArith Reals List Bool Lra Lia.
From Verif Require Import Model_Map Spec_Map Proof_Map1 Proof_Map2 Proof_Map3 Proof_Map4.
Import ListNotations.
Open Scope R_scope.

Lemma eta_pos : forall a, 0 < Rmax a lo.
Proof. intros a. pose proof lo_pos. pose proof (Rmax_r a lo). lra. Qed.
Lemma disk_bend : forall xc yc, mapc2p_disk_circle xc yc = bend (fun t => t) xc yc.
Proof.
  intros xc yc. unfold mapc2p_disk_circle, bend. cbv zeta. fold lo. do 2 f_equal. field. pose proof (eta_pos (Rmax (Rabs xc) (Rabs yc))). lra.
Qed.
Lemma idh_pos : forall t, 0 < t <= 1 -> 0 < (fun t : R => t) t <= 1.
Proof. intros t H. exact H. Qed.
Lemma idh_lt : forall s t, 0 < s -> s < t -> t <= 1 -> (fun t : R => t) s < (fun t : R => t) t.
Proof. intros s t _ H _. exact H. Qed.
Lemma idh_onto : forall d, (fun t : R => t) lo <= d <= 1 -> exists t, lo <= t <= 1 /\ (fun t : R => t) t = d.
Proof. intros d H. exists d. split; [exact H|reflexivity]. Qed.

Lemma cart01 : forall x, 0 <= x <= 1 -> -1 <= 2 * x - 1 <= 1.
Proof. intros; lra. Qed.
Lemma scaled : forall p q, (p / sqrt 2) ^ 2 + (q / sqrt 2) ^ 2 = (p ^ 2 + q ^ 2) / 2.
Proof. intros p q. destruct sqrt2 as [Q1 Q2]. replace ((p / sqrt 2) ^ 2 + (q / sqrt 2) ^ 2) with ((p ^ 2 + q ^ 2) / (sqrt 2 * sqrt 2)) by (field; lra). now rewrite Q2. Qed.
Lemma pd_is : forall x y p, mapc2m_pillowdisk x y = p -> exists u v, bend (fun t => t) (2 * x - 1) (2 * y - 1) = (u, v) /\ p = (u / sqrt 2, v / sqrt 2, 0).
Proof.
  intros x y p <-. unfold mapc2m_pillowdisk, mapc2m_cart. rewrite disk_bend. destruct (bend _ _ _) as [u v]. now exists u, v.
Qed.
Lemma pd_disk : forall x y, square x y -> unit_disk (mapc2m_pillowdisk x y) /\ (x = 0 \/ x = 1 \/ y = 0 \/ y = 1 -> circle (mapc2m_pillowdisk x y)).
Proof.
  intros x y [X Y]. destruct (pd_is x y _ eq_refl) as (u & v & B & ->). destruct (bend_disk (fun t => t) idh_pos eq_refl _ _ _ _ (cart01 _ X) (cart01 _ Y) B) as [H1 H2].
  unfold unit_disk, circle. rewrite scaled. split; [split; [lra|reflexivity]|]. intros F. split; [|reflexivity]. rewrite H2; [lra|].
  unfold Rmax. destruct (sign_cases (2 * x - 1)) as [(? & _ & ->)|(? & _ & ->)], (sign_cases (2 * y - 1)) as [(? & _ & ->)|(? & _ & ->)]; match goal with |- context [Rle_dec ?a ?b] => destruct (Rle_dec a b) end; lra.
Qed.
(** away from the centre of the block *)
Definition off_centre (x y : R) : Prop := / 10 ^ 10 <= Rmax (Rabs (2 * x - 1)) (Rabs (2 * y - 1)).
Lemma div2_inj : forall u v, u / sqrt 2 = v / sqrt 2 -> u = v.
Proof. intros u v H. destruct sqrt2 as [Q _]. apply Rmult_eq_reg_r with (/ sqrt 2); [exact H|]. apply Rinv_neq_0_compat. lra. Qed.
Lemma pd_inj : forall x y x' y', square x y -> square x' y' -> off_centre x y -> off_centre x' y' -> mapc2m_pillowdisk x y = mapc2m_pillowdisk x' y' -> x = x' /\ y = y'.
Proof.
  intros x y x' y' [X Y] [X' Y'] O O' E. destruct (pd_is x y _ eq_refl) as (u & v & B & E1). destruct (pd_is x' y' _ eq_refl) as (u' & v' & B' & E2). rewrite E1, E2 in E.
  injection E as F1 F2. apply div2_inj in F1, F2. subst u' v'. rewrite <- B' in B.
  destruct (bend_inj (fun t => t) idh_pos idh_lt _ _ _ _ (cart01 _ X) (cart01 _ Y) (cart01 _ X') (cart01 _ Y') O O' B). lra.
Qed.
Lemma max_scale : forall x y c, 0 <= x -> 0 <= y -> 1 <= c -> Rmax x y <= Rmax (x * c) (y * c).
Proof. intros x y c X Y C. unfold Rmax. destruct (Rle_dec x y), (Rle_dec (x * c) (y * c)); nra. Qed.
Lemma pd_onto : forall x y z, unit_disk (x, y, z) -> 2 / 10 ^ 10 <= Rmax (Rabs x) (Rabs y) -> exists a b, square a b /\ mapc2m_pillowdisk a b = (x, y, z).
Proof.
  intros x y z [D ->] F. destruct sqrt2 as [Q1 Q2].
  destruct (bend_onto (fun t => t) idh_pos idh_onto (x * sqrt 2) (y * sqrt 2)) as (a & b & A & B & E).
  - replace ((x * sqrt 2) ^ 2 + (y * sqrt 2) ^ 2) with ((x ^ 2 + y ^ 2) * (sqrt 2 * sqrt 2)) by ring. rewrite Q2. lra.
  - rewrite !Rabs_mult. rewrite (Rabs_right (sqrt 2)) by lra. change (2 * lo) with (2 / 10 ^ 10). apply Rle_trans with (1 := F).
    apply max_scale; [apply Rabs_pos|apply Rabs_pos|exact Q1].
  - exists ((a + 1) / 2), ((b + 1) / 2). split; [split; lra|]. unfold mapc2m_pillowdisk, mapc2m_cart. rewrite disk_bend. replace (2 * ((a + 1) / 2) - 1) with a by field. replace (2 * ((b + 1) / 2) - 1) with b by field. rewrite E.
    f_equal. f_equal; field; lra.
Qed.

(** five blocks *)
Section Five.
Variable a : R.
Hypothesis Ha : 0 < a < 1.
Lemma p5_is : forall b x y p, mapc2m_pillowdisk5 a b x y = Some p -> exists u v, mapc2m_fivepatch a b x y = Some (u, v, 0) /\ p = mapc2m_pillowdisk ((u + 1) / 2) ((v + 1) / 2) /\ (square x y -> square ((u + 1) / 2) ((v + 1) / 2)).
Proof.
  intros b x y p E. unfold mapc2m_pillowdisk5 in E. destruct (mapc2m_fivepatch a b x y) as [[[u v] w]|] eqn:EF; [|discriminate]. injection E as <-. exists u, v.
  assert (W : w = 0).
  { pose proof EF as EG. rewrite fivepatch_is in EG. pose proof (five_some _ _ _ _ _ _ EG) as B. unfold five in EG.
    block5 B; try match type of EG with (let '(_, _) := ?s in _) = _ => destruct s end; injection EG as _ _ <-; reflexivity. }
  subst w. split; [reflexivity|]. split; [reflexivity|]. intros S. destruct (fp_into a Ha b x y _ S EF) as (U & V & _). split; lra.
Qed.
Lemma p5_into : maps_into (mapc2m_pillowdisk5 a) unit_disk.
Proof. intros b x y p S E. destruct (p5_is _ _ _ _ E) as (u & v & _ & -> & SQ). apply pd_disk. now apply SQ. Qed.
Lemma p5_cont : continuous_across disk (mapc2m_pillowdisk5 a).
Proof.
  intros b f b' f' v w s E S. destruct (fp_cont a b f b' f' v w s E S) as [H1 H2].
  assert (G : forall c xy, at_ (mapc2m_fivepatch a) c xy <> None -> at_ (mapc2m_pillowdisk5 a) c xy <> None).
  { intros c xy N. unfold at_, mapc2m_pillowdisk5 in *. destruct (mapc2m_fivepatch a c (fst xy) (snd xy)) as [[[u z] t]|]; [discriminate|congruence]. }
  split; intros E'; [destruct (H1 E') as [F N]|destruct (H2 E') as [F N]]; (split; [|now apply G]); unfold at_, mapc2m_pillowdisk5 in *; now rewrite F.
Qed.
Lemma p5_circle : forall s p, 0 <= s <= 1 ->
  mapc2m_pillowdisk5 a 0 s 0 = Some p \/ mapc2m_pillowdisk5 a 1 0 s = Some p \/ mapc2m_pillowdisk5 a 3 1 s = Some p \/ mapc2m_pillowdisk5 a 4 s 1 = Some p -> circle p.
Proof.
  intros s p S H. destruct H as [H|[H|[H|H]]]; destruct (p5_is _ _ _ _ H) as (u & v & EF & -> & SQ); apply pd_disk; try (apply SQ; split; lra); unfold mapc2m_fivepatch in EF; rewrite help_is in EF; injection EF as <- <-; lra.
Qed.
Lemma p5_one : forall b x y b' x' y' p, inside x y -> square x' y' -> mapc2m_pillowdisk5 a b x y = Some p -> mapc2m_pillowdisk5 a b' x' y' = Some p ->
  (b <> 2%Z \/ / 10 ^ 10 <= a * Rmax (Rabs (2 * x - 1)) (Rabs (2 * y - 1))) -> (b' <> 2%Z \/ / 10 ^ 10 <= a * Rmax (Rabs (2 * x' - 1)) (Rabs (2 * y' - 1))) -> / 10 ^ 10 <= a ->
  b = b' /\ x = x' /\ y = y'.
Proof.
  intros b x y b' x' y' p I S E E' O O' A.
  destruct (p5_is _ _ _ _ E) as (u & v & EF & E1 & SQ). destruct (p5_is _ _ _ _ E') as (u' & v' & EF' & E1' & SQ'). specialize (SQ (in_sq _ _ I)). specialize (SQ' S).
  assert (G : forall b x y u v, square x y -> mapc2m_fivepatch a b x y = Some (u, v, 0) -> (b <> 2%Z \/ / 10 ^ 10 <= a * Rmax (Rabs (2 * x - 1)) (Rabs (2 * y - 1))) -> off_centre ((u + 1) / 2) ((v + 1) / 2)).
  { clear - Ha A. intros b x y u v S E O. unfold off_centre. replace (2 * ((u + 1) / 2) - 1) with u by field. replace (2 * ((v + 1) / 2) - 1) with v by field. rewrite fivepatch_is in E.
    pose proof (five_some _ _ _ _ _ _ E) as B. destruct (sq_sym _ _ S) as (S1 & S2 & S3). unfold five in E.
    destruct (Z.eq_dec b 2) as [->|N].
    - injection E as <- <-. destruct O as [O|O]; [congruence|]. rewrite !Rabs_mult, (Rabs_right a) by lra. apply Rle_trans with (1 := O). pose proof (Rabs_pos (2 * x - 1)). pose proof (Rabs_pos (2 * y - 1)).
      rewrite (Rmult_comm (Rabs (2 * x - 1)) a), (Rmult_comm (Rabs (2 * y - 1)) a). rewrite RmaxRmult by lra. lra.
    - apply Rle_trans with (1 := A).
      block5 B; try lia; match goal with H : (let '(_, _) := bilinear_help a ?s ?t in _) = Some _, S : square ?s ?t |- _ =>
        destruct (bilinear_help a s t) as [w z] eqn:E1; injection H as <- <-; pose proof (sector_in a Ha _ _ _ _ S E1) as K end;
      first [apply Rle_trans with (2 := Rmax_r _ _); solve [rewrite ?Rabs_Ropp, Rabs_right; lra] | apply Rle_trans with (2 := Rmax_l _ _); rewrite ?Rabs_Ropp, Rabs_right; lra]. }
  pose proof (G _ _ _ _ _ (in_sq _ _ I) EF O) as OC. pose proof (G _ _ _ _ _ S EF' O') as OC'. rewrite E1 in E1'.
  destruct (pd_inj _ _ _ _ SQ SQ' OC OC' E1') as [U V]. assert (u = u') by lra. assert (v = v') by lra. subst u' v'. exact (fp_one a Ha b x y b' x' y' _ I S EF EF').
Qed.
End Five.

(** ** The sphere *)
Definition sh (t : R) : R := sin (PI * t / 2).
Lemma sh_arg : forall t, 0 < t <= 1 -> 0 < PI * t / 2 <= PI / 2.
Proof. intros t H. pose proof PI_RGT_0. split; nra. Qed.
Lemma sh_pos : forall t, 0 < t <= 1 -> 0 < sh t <= 1.
Proof. intros t H. pose proof (sh_arg t H) as A. pose proof PI_RGT_0. split; [apply sin_gt_0; lra|apply SIN_bound]. Qed.
Lemma sh_lt : forall s t, 0 < s -> s < t -> t <= 1 -> sh s < sh t.
Proof. intros s t S L U. pose proof PI_RGT_0. pose proof (sh_arg s ltac:(lra)). pose proof (sh_arg t ltac:(lra)). apply sin_increasing_1; try lra. nra. Qed.
Lemma sh_1 : sh 1 = 1.
Proof. unfold sh. replace (PI * 1 / 2) with (PI / 2) by field. apply sin_PI2. Qed.
Lemma sh_onto : forall d, sh lo <= d <= 1 -> exists t, lo <= t <= 1 /\ sh t = d.
Proof.
  intros d H. pose proof lo_pos as L. pose proof (sh_pos lo ltac:(lra)) as P. pose proof PI_RGT_0 as PP. pose proof (asin_bound d) as B. assert (S : sin (asin d) = d) by (apply sin_asin; lra).
  assert (E : sh (2 * asin d / PI) = d) by (unfold sh; replace (PI * (2 * asin d / PI) / 2) with (asin d) by (field; lra); exact S).
  assert (U : 2 * asin d / PI <= 1) by (apply Rmult_le_reg_r with PI; [lra|]; unfold Rdiv; rewrite Rmult_assoc, Rinv_l by lra; lra).
  assert (A0 : 0 < asin d).
  { destruct (Rlt_dec 0 (asin d)) as [O|O]; [exact O|exfalso]. assert (sin (asin d) <= sin 0) by (apply sin_incr_1; lra). rewrite sin_0 in *. lra. }
  assert (A1 : 0 < 2 * asin d / PI) by (apply Rdiv_lt_0_compat; lra).
  exists (2 * asin d / PI). split; [|exact E]. split; [|exact U]. destruct (Rle_dec lo (2 * asin d / PI)) as [O|O]; [exact O|exfalso]. pose proof (sh_lt (2 * asin d / PI) lo). lra.
Qed.
Lemma sh_lo : sh lo <= 2 * lo.
Proof.
  pose proof lo_pos as L. unfold sh. pose proof PI_4 as P4. pose proof PI_RGT_0. apply Rle_trans with (PI * lo / 2); [left; apply sin_lt_x; nra|nra].
Qed.
Lemma sp_bend : forall xc yc, -1 <= xc -> mapc2p_circle_sp xc yc = bend sh xc yc.
Proof. intros xc yc H. unfold mapc2p_circle_sp, bend, sh. cbv zeta. fold lo. destruct (Rlt_dec xc (-1)) as [N|N]; [lra|reflexivity]. Qed.
Definition inward (c : R) : R := let d := Rmax (c - 1) 0 + Rmax (-1 - c) 0 in (1 - d) / (1 + d) * c.
Lemma inward_in : forall c, -1 <= c <= 1 -> inward c = c.
Proof. intros c H. unfold inward. rewrite !Rmax_right by lra. field. Qed.
Lemma inward_hi : forall d, 0 < d -> inward (1 + d) = 1 - d.
Proof. intros d H. unfold inward. rewrite Rmax_left, Rmax_right by lra. field. lra. Qed.
Lemma inward_low : forall d, 0 < d -> inward (-1 - d) = - (1 - d).
Proof. intros d H. unfold inward. rewrite (Rmax_right (-1 - d - 1)), Rmax_left by lra. field. lra. Qed.

Definition height (u v : R) : R := (if Rlt_dec (Rabs (u ^ 2 + v ^ 2 - 2)) lo then 0 else sqrt (2 - (u ^ 2 + v ^ 2))) / sqrt 2.
Definition beyond (c : R) : bool := if Rlt_dec 1 (Rabs c) then true else false.
Lemma ps_is : forall pillow b x y u v, -1 <= inward (2 * x - 1) -> bend sh (inward (2 * x - 1)) (inward (2 * y - 1)) = (u, v) ->
  mapc2m_pillowsphere pillow b x y = (u / sqrt 2, v / sqrt 2, if xorb (xorb (beyond (2 * x - 1)) (beyond (2 * y - 1))) (pillow && (b =? 1)%Z) then - height u v else height u v).
Proof.
  intros pl b x y u v I E. unfold mapc2m_pillowsphere, mapc2m_cart. fold (inward (2 * x - 1)). fold (inward (2 * y - 1)). rewrite sp_bend by exact I. rewrite E. cbv zeta. fold lo. unfold height, beyond.
  destruct sqrt2 as [Q _]. set (A := (if Rlt_dec 1 (Rabs (2 * x - 1)) then true else false)). set (B := if Rlt_dec 1 (Rabs (2 * y - 1)) then true else false). set (C := pl && (b =? 1)%Z). destruct A, B, C; cbn [xorb]; f_equal; field; lra.
Qed.
Lemma beyond_in : forall c, -1 <= c <= 1 -> beyond c = false.
Proof. intros c H. unfold beyond. destruct (Rlt_dec 1 (Rabs c)) as [N|N]; [|reflexivity]. destruct (sign_cases c) as [(_ & _ & A)|(_ & _ & A)]; rewrite A in N; lra. Qed.
Lemma beyond_out : forall c, 1 < c \/ c < -1 -> beyond c = true.
Proof. intros c H. unfold beyond. destruct (Rlt_dec 1 (Rabs c)) as [N|N]; [reflexivity|]. destruct (sign_cases c) as [(P & _ & A)|(P & _ & A)]; rewrite A in N; lra. Qed.
Lemma height_ok : forall u v, u ^ 2 + v ^ 2 <= 2 -> 0 <= height u v /\ (height u v <> 0 -> (u ^ 2 + v ^ 2) / 2 + height u v ^ 2 = 1) /\ 1 - lo <= (u ^ 2 + v ^ 2) / 2 + height u v ^ 2 <= 1 /\
  (u ^ 2 + v ^ 2 = 2 -> height u v = 0) /\ (lo <= 2 - (u ^ 2 + v ^ 2) -> (u ^ 2 + v ^ 2) / 2 + height u v ^ 2 = 1).
Proof.
  intros u v H. unfold height. destruct sqrt2 as [Q1 Q2]. set (r := u ^ 2 + v ^ 2) in *. pose proof lo_pos as L. pose proof (Rabs_left1 (r - 2) ltac:(lra)) as A. rewrite A.
  destruct (Rlt_dec (- (r - 2)) lo) as [N|N].
  - replace (0 / sqrt 2) with 0 by (field; lra). repeat split; try lra.
  - pose proof (sqrt_pos (2 - r)) as P. pose proof (sqrt_sqrt (2 - r) ltac:(lra)) as S. set (q := sqrt (2 - r)) in *.
    assert (E : r / 2 + (q / sqrt 2) ^ 2 = 1).
    { replace ((q / sqrt 2) ^ 2) with (q * q / (sqrt 2 * sqrt 2)) by (field; lra). rewrite S, Q2. field. }
    repeat split; try lra. unfold Rdiv. apply Rmult_le_pos; [exact P|]. left. apply Rinv_0_lt_compat. lra.
Qed.
Lemma ps_square : forall b x y, square x y -> exists u v, bend sh (2 * x - 1) (2 * y - 1) = (u, v) /\
  mapc2m_pillowsphere true b x y = (u / sqrt 2, v / sqrt 2, if (b =? 1)%Z then - height u v else height u v) /\ u ^ 2 + v ^ 2 <= 2 /\ (Rmax (Rabs (2 * x - 1)) (Rabs (2 * y - 1)) = 1 -> u ^ 2 + v ^ 2 = 2).
Proof.
  intros b x y [X Y]. destruct (bend sh (2 * x - 1) (2 * y - 1)) as [u v] eqn:E. exists u, v. split; [reflexivity|].
  pose proof (cart01 _ X) as X1. pose proof (cart01 _ Y) as Y1. split.
  - rewrite (ps_is true b x y u v); rewrite ?inward_in by assumption; [|lra|exact E]. rewrite !beyond_in by assumption. cbn [xorb andb]. now destruct (b =? 1)%Z.
  - exact (bend_disk sh sh_pos sh_1 _ _ _ _ X1 Y1 E).
Qed.
Lemma ps_into : forall b x y, square x y -> let '(p, q, r) := mapc2m_pillowsphere true b x y in
  1 - / 10 ^ 10 <= p ^ 2 + q ^ 2 + r ^ 2 <= 1 /\ (r <> 0 -> sphere (p, q, r)) /\ (b <> 1%Z -> 0 <= r) /\ (b = 1%Z -> r <= 0).
Proof.
  intros b x y S. destruct (ps_square b x y S) as (u & v & _ & -> & D & _). destruct (height_ok u v D) as (H0 & H1 & H2 & _). fold lo. unfold sphere. rewrite scaled.
  set (h := height u v) in *. destruct (Z.eqb_spec b 1) as [->|N].
  - replace ((- h) ^ 2) with (h ^ 2) by ring. split; [exact H2|]. split; [intros K; apply H1; lra|]. split; [congruence|lra].
  - split; [exact H2|]. split; [exact H1|]. split; [intros _; exact H0|congruence].
Qed.
Lemma ps_inj : forall b x y b' x' y' p q r, square x y -> square x' y' -> off_centre x y -> off_centre x' y' -> mapc2m_pillowsphere true b x y = (p, q, r) -> mapc2m_pillowsphere true b' x' y' = (p, q, r) ->
  x = x' /\ y = y' /\ (r <> 0 -> ((b =? 1) = (b' =? 1))%Z).
Proof.
  intros b x y b' x' y' p q r S S' O O' E E'. destruct (ps_square b x y S) as (u & v & B & F & D & _). destruct (ps_square b' x' y' S') as (u' & v' & B' & F' & D' & _). rewrite F in E. rewrite F' in E'.
  injection E as E1 E2 E3. injection E' as E1' E2' E3'. rewrite <- E1 in E1'. rewrite <- E2 in E2'. apply div2_inj in E1', E2'. subst u' v'. rewrite <- B' in B. destruct S as [X Y], S' as [X' Y'].
  destruct (bend_inj sh sh_pos sh_lt _ _ _ _ (cart01 _ X) (cart01 _ Y) (cart01 _ X') (cart01 _ Y') O O' B) as [K1 K2]. split; [lra|]. split; [lra|]. intros R.
  destruct (height_ok u v D) as (H0 & _). destruct (b =? 1)%Z, (b' =? 1)%Z; try reflexivity; lra.
Qed.
Lemma ps_onto : forall x y z, sphere (x, y, z) -> 4 / 10 ^ 10 <= Rmax (Rabs x) (Rabs y) -> z = 0 \/ / 10 ^ 10 <= z ^ 2 ->
  exists b a c, (b = 0 \/ b = 1)%Z /\ square a c /\ mapc2m_pillowsphere true b a c = (x, y, z).
Proof.
  intros x y z D F Z. unfold sphere in D. destruct sqrt2 as [Q1 Q2]. pose proof sh_lo as SL. pose proof (pow2_ge_0 z) as Z0.
  assert (E2 : (x * sqrt 2) ^ 2 + (y * sqrt 2) ^ 2 = 2 - 2 * z ^ 2) by (replace ((x * sqrt 2) ^ 2 + (y * sqrt 2) ^ 2) with ((x ^ 2 + y ^ 2) * (sqrt 2 * sqrt 2)) by ring; rewrite Q2; lra).
  destruct (bend_onto sh sh_pos sh_onto (x * sqrt 2) (y * sqrt 2)) as (a & c & A & C & E).
  - lra.
  - rewrite !Rabs_mult. rewrite (Rabs_right (sqrt 2)) by lra. apply Rle_trans with (4 / 10 ^ 10); [change (4 / 10 ^ 10) with (4 * lo); lra|]. apply Rle_trans with (1 := F).
    apply max_scale; [apply Rabs_pos|apply Rabs_pos|exact Q1].
  - assert (S : square ((a + 1) / 2) ((c + 1) / 2)) by (split; lra).
    assert (H : height (x * sqrt 2) (y * sqrt 2) = Rabs z).
    { destruct (height_ok (x * sqrt 2) (y * sqrt 2)) as (H0 & _ & _ & H3 & H4); [lra|]. destruct Z as [->|Z].
      - rewrite Rabs_R0. apply H3. lra.
      - rewrite E2 in H4. fold lo in Z. pose proof lo_pos. assert (K : height (x * sqrt 2) (y * sqrt 2) ^ 2 = z ^ 2) by lra.
        rewrite <- (Rabs_right (height _ _)) by lra. apply Rsqr_eq_abs_0. rewrite !Rsqr_pow2. exact K. }
    assert (U : forall w, w * sqrt 2 / sqrt 2 = w) by (intros w; field; lra).
    exists (if Rle_dec 0 z then 0%Z else 1%Z), ((a + 1) / 2), ((c + 1) / 2). split; [destruct (Rle_dec 0 z); tauto|]. split; [exact S|].
    destruct (ps_square (if Rle_dec 0 z then 0%Z else 1%Z) _ _ S) as (u & v & B & -> & _). replace (2 * ((a + 1) / 2) - 1) with a in B by field. replace (2 * ((c + 1) / 2) - 1) with c in B by field. rewrite E in B. injection B as <- <-. rewrite H, !U.
    destruct (Rle_dec 0 z); cbn [Z.eqb]; f_equal; [rewrite Rabs_right; lra|]. change (- Rabs z = z). rewrite Rabs_left; lra.
Qed.
Definition two_blocks (m : Z -> R -> R -> point) : mapping := fun b x y => if ((b =? 0) || (b =? 1))%Z then Some (m b x y) else None.
Lemma ps_edge : forall x y, square x y -> x = 0 \/ x = 1 \/ y = 0 \/ y = 1 -> mapc2m_pillowsphere true 0 x y = mapc2m_pillowsphere true 1 x y /\ snd (mapc2m_pillowsphere true 0 x y) = 0.
Proof.
  intros x y S F. destruct (ps_square 0 x y S) as (u & v & B & -> & D & H). destruct (ps_square 1 x y S) as (u' & v' & B' & -> & _). rewrite B in B'. injection B' as <- <-.
  destruct (height_ok u v D) as (_ & _ & _ & Z & _). change (0 =? 1)%Z with false. change (1 =? 1)%Z with true. cbv iota. rewrite Z; [split; [f_equal; ring|reflexivity]|]. apply H. destruct S as [X Y].
  unfold Rmax. destruct (sign_cases (2 * x - 1)) as [(? & _ & ->)|(? & _ & ->)], (sign_cases (2 * y - 1)) as [(? & _ & ->)|(? & _ & ->)]; match goal with |- context [Rle_dec ?a ?b] => destruct (Rle_dec a b) end; lra.
Qed.
Lemma ps_cont : continuous_across pillow (two_blocks (mapc2m_pillowsphere true)).
Proof.
  intros b f b' f' v w s E S. destruct (ends_some _ _ _ _ E) as (B & Fb). change (Z.of_nat (length pillow)) with 2%Z in B. assert (B2 : b = 0%Z \/ b = 1%Z) by lia. clear B.
  split; intros E'; destruct (ends_some _ _ _ _ E') as (B & Fb'); change (Z.of_nat (length pillow)) with 2%Z in B; (assert (B2' : b' = 0%Z \/ b' = 1%Z) by lia); clear B;
  destruct (faces4 f Fb) as [->|[->|[->| ->]]]; destruct B2 as [-> | ->]; injection E as <- <-; destruct (faces4 f' Fb') as [->|[->|[->| ->]]]; destruct B2' as [-> | ->]; try discriminate E';
  unfold at_, two_blocks, on_face; cbn [fst snd Z.eqb orb Pos.eqb]; (split; [|discriminate]); try reflexivity; f_equal;
  first [apply ps_edge; [split; lra|lra] | symmetry; apply ps_edge; [split; lra|lra]].
Qed.
(** beyond a face of a block, the coordinates are those of the other block *)
Lemma xnot : forall b c, (b = 0 \/ b = 1)%Z -> xorb c (true && (b =? 1)%Z) = xorb (negb c) (true && (1 - b =? 1)%Z).
Proof. intros b c [-> | ->]; destruct c; reflexivity. Qed.
Lemma ps_ghost : forall b x y s, (b = 0 \/ b = 1)%Z -> square x y -> 0 < s <= 1 ->
  mapc2m_pillowsphere true b (1 + s) y = mapc2m_pillowsphere true (1 - b) (1 - s) y /\ mapc2m_pillowsphere true b (- s) y = mapc2m_pillowsphere true (1 - b) s y /\
  mapc2m_pillowsphere true b x (1 + s) = mapc2m_pillowsphere true (1 - b) x (1 - s) /\ mapc2m_pillowsphere true b x (- s) = mapc2m_pillowsphere true (1 - b) x s.
Proof.
  intros b x y s Hb [X Y] S.
  assert (G : forall x y x' y', (inward (2 * x - 1) = 2 * x' - 1 /\ inward (2 * y - 1) = 2 * y' - 1) -> square x' y' -> xorb (beyond (2 * x - 1)) (beyond (2 * y - 1)) = true ->
    mapc2m_pillowsphere true b x y = mapc2m_pillowsphere true (1 - b) x' y').
  { clear - Hb. intros x y x' y' [IX IY] SQ BY. destruct SQ as [X Y]. destruct (bend sh (2 * x' - 1) (2 * y' - 1)) as [u v] eqn:E. rewrite (ps_is true b x y u v); [|lra|rewrite IX, IY; exact E].
    rewrite (ps_is true (1 - b) x' y' u v); rewrite ?inward_in by lra; [|lra|exact E]. rewrite BY, !beyond_in by lra. rewrite (xnot b true Hb). reflexivity. }
  repeat split; apply G; try (split; lra); try (rewrite beyond_out by lra; rewrite beyond_in by lra; reflexivity); try (rewrite beyond_in by lra; rewrite beyond_out by lra; reflexivity); split;
  try (rewrite inward_in by lra; reflexivity);
  first [replace (2 * (1 + s) - 1) with (1 + 2 * s) by ring; rewrite inward_hi by lra; ring | replace (2 * - s - 1) with (-1 - 2 * s) by ring; rewrite inward_low by lra; ring].
Qed.
Lemma ps_ghost_corner : forall b s t, (b = 0 \/ b = 1)%Z -> 0 < s <= 1 -> 0 < t <= 1 ->
  mapc2m_pillowsphere true b (1 + s) (1 + t) = mapc2m_pillowsphere true b (1 - s) (1 - t) /\ mapc2m_pillowsphere true b (- s) (1 + t) = mapc2m_pillowsphere true b s (1 - t) /\
  mapc2m_pillowsphere true b (1 + s) (- t) = mapc2m_pillowsphere true b (1 - s) t /\ mapc2m_pillowsphere true b (- s) (- t) = mapc2m_pillowsphere true b s t.
Proof.
  intros b s t Hb S T.
  assert (G : forall x y x' y', (inward (2 * x - 1) = 2 * x' - 1 /\ inward (2 * y - 1) = 2 * y' - 1) -> square x' y' -> beyond (2 * x - 1) = true -> beyond (2 * y - 1) = true ->
    mapc2m_pillowsphere true b x y = mapc2m_pillowsphere true b x' y').
  { clear - Hb. intros x y x' y' [IX IY] SQ BX BY. destruct SQ as [X Y]. destruct (bend sh (2 * x' - 1) (2 * y' - 1)) as [u v] eqn:E. rewrite (ps_is true b x y u v); [|lra|rewrite IX, IY; exact E].
    rewrite (ps_is true b x' y' u v); rewrite ?inward_in by lra; [|lra|exact E]. rewrite BX, BY, !beyond_in by lra. reflexivity. }
  repeat split; apply G; try (split; lra); try (apply beyond_out; lra); split;
  first [replace (2 * (1 + s) - 1) with (1 + 2 * s) by ring; rewrite inward_hi by lra; ring | replace (2 * - s - 1) with (-1 - 2 * s) by ring; rewrite inward_low by lra; ring
        |replace (2 * (1 + t) - 1) with (1 + 2 * t) by ring; rewrite inward_hi by lra; ring | replace (2 * - t - 1) with (-1 - 2 * t) by ring; rewrite inward_low by lra; ring].
Qed.
