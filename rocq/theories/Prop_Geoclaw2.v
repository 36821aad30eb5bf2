(** GeoClaw: from coarse to fine water (C64). *)
From Coq Require Import ZArith QArith Qminmax Qabs List Lia Lqa Bool Qfield Permutation.
From Verif Require Import Base_Float Model_Face Spec_Face Proof_Face Proof_Face1 Proof_Face5 Model_Grid Spec_Grid
  Proof_Grid Proof_Grid2 Proof_Grid4 Proof_Grid5 Model_Corner Spec_Corner Proof_Corner1 Proof_Corner2 Proof_Corner3 Proof_Corner4
  Model_Geoclaw Spec_Geoclaw Proof_Geoclaw Proof_Geoclaw2 Proof_Geoclaw3 Prop_Grid Prop_Corner Prop_Geoclaw.
From Verif Require Proof_Grid3.
Import ListNotations.
Open Scope Z_scope.

(** the value stored in a fine cell with bottom b when the reconstruction there is v: the water above the bottom *)
Definition stored_fine (clip : bool) (mq : Z) (v b : Q) : Q := if mq =? 1 then depth_over clip v b else v.

(** ** New fine patches *)

Lemma ival_recon : forall d g f i j mq a b, 0 <= a <= 1 -> 0 <= b <= 1 ->
  (Proof_Grid3.ival d g f i j mq (a + 1) (b + 1) == recon (fun x y => f x y mq) (i + off_x d g) (j + off_y d g) a b)%Q.
Proof.
  intros d g f i j mq a b Ha Hb. unfold Proof_Grid3.ival. cbv zeta.
  set (I := i + off_x d g). set (J := j + off_y d g).
  assert (Q := qval_recon 0 0 f ltac:(lia) I J mq a b Ha Hb).
  unfold qval, kth, q_a, q_b in Q. cbn [inner_cell Z.odd nchild tchild] in Q.
  unfold behind in Q. cbn [inner_cell fst snd] in Q.
  transitivity (recon (fun n t : Z => f n t mq) I J a b); [|reflexivity].
  rewrite <- Q.
  assert (S1 : (Proof_Grid3.shift (a + 1) == shiftx (2 * b + a))%Q).
  { assert (Ea : a = 0 \/ a = 1) by lia. assert (Eb : b = 0 \/ b = 1) by lia. destruct Ea as [->| ->], Eb as [->| ->]; reflexivity. }
  assert (S2 : (Proof_Grid3.shift (b + 1) == shifty (2 * b + a))%Q).
  { assert (Ea : a = 0 \/ a = 1) by lia. assert (Eb : b = 0 \/ b = 1) by lia. destruct Ea as [->| ->], Eb as [->| ->]; reflexivity. }
  rewrite S1, S2. ring.
Qed.

Theorem C64_interpolate2fine : forall d g, even_size d -> 2 <= mbc d -> 0 <= g < 4 ->
  forall maux tol sea, 1 <= maux ->
  forall qcoarse auxcoarse auxfine F C B qfine,
  holds_layer d qcoarse F -> holds_all (with_entries d maux) auxcoarse C -> holds_all (with_entries d maux) auxfine B ->
  exists q', geo_interpolate2fine d maux tol sea qcoarse auxcoarse auxfine g qfine = Some q' /\
    (forall i j mq a b, covers d g i j -> 1 <= mq <= meqn d -> 0 <= a <= 1 -> 0 <= b <= 1 ->
       let p := (sub (off_x d g) i a, sub (off_y d g) j b) in
       at_cell q' (at3 p mq)
         (stored_fine false mq (recon (fun x y => surface_of tol sea F C x y mq) i j a b) (bottom B p))) /\
    (forall c, ~ filled d g c -> q' c = qfine c).
Proof.
  intros d g Hd Hb Hg maux tol sea Hmaux qc ac af F C B qf HF HC HB.
  destruct (geo_refine_ok d Hd Hb g Hg maux tol sea Hmaux qc ac af F C B HF HC HB qf qf) as (q' & E & V & U & _); [intros c []|].
  exists q'. split; [exact E|]. split.
  - intros i j mq a b HV Hq Ha Hbb p. pose proof HV as (_ & Hi & Hj).
    destruct (grid_facts d g Hd Hg) as (_ & _ & _ & _ & E1 & E2 & _ & _ & Cx & Cy & Ox & Oy).
    set (i0 := i - off_x d g). set (j0 := j - off_y d g).
    assert (X : sub (off_x d g) i a = (i0 - 1) * 2 + (a + 1)) by (unfold sub, i0; lia).
    assert (Y : sub (off_y d g) j b = (j0 - 1) * 2 + (b + 1)) by (unfold sub, j0; lia).
    unfold at_cell, at3. rewrite V.
    + unfold refine_arr, p. cbn [fst snd]. eexists. split; [reflexivity|].
      destruct (Proof_Grid3.up_hf i0 (a + 1) ltac:(lia)) as [U1 U2]. destruct (Proof_Grid3.up_hf j0 (b + 1) ltac:(lia)) as [U3 U4].
      rewrite <- X in U1, U2. rewrite <- Y in U3, U4. rewrite U1, U2, U3, U4.
      pose proof (ival_recon d g (surface_of tol sea F C) i0 j0 mq a b Ha Hbb) as R.
      replace (i0 + off_x d g) with i in R by (unfold i0; lia). replace (j0 + off_y d g) with j in R by (unfold j0; lia).
      unfold over_fine, stored_fine, depth_over. destruct (mq =? 1); rewrite R; reflexivity.
    + unfold p. cbn [fst snd]. rewrite X, Y. unfold Proof_Grid3.reached, i0, j0. lia.
  - intros c Hc. apply U. intros Hr. apply Hc. now apply (reached_filled d g Hd Hg).
Qed.
Print Assumptions C64_interpolate2fine.

(** ** Ghost cells of fine patches *)

Theorem C64_interpolate_face : forall rnd, rounding rnd ->
  forall d m f nf o pos ip op ft maux tol sea,
  half_size f nf o pos ip op ft -> square d m (level op) -> 2 <= mbc d -> 1 <= maux ->
  forall qcoarse auxcoarse auxfine F C B qfine,
  holds_layer d qcoarse F -> holds_all (with_entries d maux) auxcoarse C -> holds_all (with_entries d maux) auxfine B ->
  exists q', geo_interpolate_face rnd d maux tol sea qcoarse qfine auxcoarse auxfine (f / 2) f (mkT ip op ft) = Some q' /\
    (forall t a b mq, next_to d m pos t -> 0 <= a <= 1 -> 0 <= b <= 1 -> 1 <= mq <= meqn d ->
       let p := fine_quarter nf o pos m 1 t a b in
       at_cell q' (at3 p mq) (stored_fine true mq (recon (behind f m (surface_of tol sea F C) mq) 1 t a b) (bottom B p))) /\
    (forall c, (forall t a b mq, next_to d m pos t -> 0 <= a <= 1 -> 0 <= b <= 1 -> 1 <= mq <= meqn d ->
       c <> at3 (fine_quarter nf o pos m 1 t a b) mq) -> q' c = qfine c).
Proof.
  intros rnd Hrnd d m f nf o pos ip op ft maux tol sea (HL & Hp & HBF) HQ Hb Hmaux qc ac af F C B qfine HF HC HB.
  pose proof HQ as (Hx & Hy & Hm & _). pose proof HBF as (Hf & Hn & _).
  destruct (geo_interpolate_face_ok rnd Hrnd d m f nf o (conj Hx Hy) Hf Hn Hm Hb maux tol sea Hmaux qc ac af F C B HF HC HB
    pos ltac:(lia) ip op ft qfine Hp HL HBF HQ qfine) as (q' & E & V & U & _); [intros c []|].
  exists q'. split; [exact E|]. split.
  - intros t a b mq (Ht & Us) Ha Hbb Hq p.
    destruct (q_of_s f Hf a b Ha Hbb) as (S1 & S2 & Q1 & Q2).
    pose proof (fim_ghost m f nf o pos Hf Hn 1 t _ _ S1 S2) as FG. rewrite Q1, Q2 in FG.
    change (ghost_cell nf m (2 * 1 - 1 + a) (flip o m (2 * t - 1 + b - pos * m))) with p in FG.
    unfold at_cell, at3. rewrite <- FG, V.
    + rewrite (gtarget_at m f nf o Hf Hn tol sea F C B pos _ mq _ _ S1 S2). eexists. split; [reflexivity|].
      pose proof (qval_recon m f (surface_of tol sea F C) Hf 1 t mq _ _ S1 S2) as R. rewrite Q1, Q2 in R.
      unfold clipped, stored_fine, depth_over. destruct (mq =? 1); [|exact R]. apply Q.max_compat; [|reflexivity]. rewrite R. reflexivity.
    + exists t, mq. split; [exact Ht|]. split; [exact Hq|]. split; [exact Us|].
      exists (s_x f a b), (s_y f a b). split; [exact S1|]. split; [exact S2|]. reflexivity.
  - intros c Hc. apply U. intros (t & mq & Ht & Hq & Us & sx & sy & S1 & S2 & Ec).
    destruct (s_of_q f Hf sx sy S1 S2) as (Q1 & Q2 & _).
    apply (Hc t (q_a f sx sy) (q_b f sx sy) mq (conj Ht Us) Q1 Q2 Hq).
    unfold at3, fine_quarter. rewrite <- (fim_ghost m f nf o pos Hf Hn 1 t sx sy S1 S2). exact Ec.
Qed.
Print Assumptions C64_interpolate_face.

Theorem C64_interpolate_corner : forall rnd, rounding rnd ->
  forall d m f nf o u ip op c maux tol sea,
  touches_corner f nf o u ip op c -> level op = level ip + 1 -> square d m (level op) -> 2 <= mbc d <= m ->
  (is_block_corner c = true -> 2 ^ level op * m <= 2 ^ 29) -> 1 <= maux ->
  forall qcoarse auxcoarse auxfine F C B qfine,
  holds_layer d qcoarse F -> holds_all (with_entries d maux) auxcoarse C -> holds_all (with_entries d maux) auxfine B ->
  exists q', geo_interpolate_corner rnd d maux tol sea qcoarse qfine auxcoarse auxfine (corner_on f u) c = Some q' /\
    (forall r s mq, 0 <= r <= 1 -> 0 <= s <= 1 -> 1 <= mq <= meqn d ->
       let p := ghost_cell nf m (1 + r) (flip o m (past (negb u) m (1 + s))) in
       at_cell q' (at3 p mq)
         (stored_fine true mq (recon (behind f m (surface_of tol sea F C) mq) 1 (from_end u m 1) r (if u then 1 - s else s)) (bottom B p))) /\
    (forall x, (forall r s mq, 0 <= r <= 1 -> 0 <= s <= 1 -> 1 <= mq <= meqn d ->
       x <> at3 (ghost_cell nf m (1 + r) (flip o m (past (negb u) m (1 + s)))) mq) -> q' x = qfine x).
Proof.
  intros rnd Hrnd d m f nf o u ip op c maux tol sea HT HL HQ Hb HBC Hmaux qc ac af F C B qfine HF HC HB.
  pose proof HQ as (Hx & Hy & Hm & HR). pose proof (proj1 HT) as Hf. pose proof (proj1 (proj2 HT)) as Hn.
  destruct (geo_interpolate_corner_ok rnd Hrnd d m f nf o (conj Hx Hy) Hf Hn Hm ltac:(lia) maux tol sea Hmaux qc ac af F C B HF HC HB
    u ip op c HT HL HR HBC ltac:(lia) qfine qfine) as (q' & E & V & U & _); [intros x []|].
  assert (EP : forall b, 2 * from_end u m 1 - 1 + b - ends2 u * m = past (negb u) m (1 + (if u then 1 - b else b))).
  { intros b. unfold from_end, ends2, past. destruct u; cbn [negb]; lia. }
  exists q'. split; [exact E|]. split.
  - intros r s mq Hr Hs Hq p. set (b := if u then 1 - s else s).
    assert (Hbb : 0 <= b <= 1) by (unfold b; destruct u; lia).
    assert (Es : s = if u then 1 - b else b) by (unfold b; destruct u; lia).
    destruct (q_of_s f Hf r b Hr Hbb) as (S1 & S2 & Q1 & Q2).
    pose proof (fim_ghost m f nf o (ends2 u) Hf Hn 1 (from_end u m 1) _ _ S1 S2) as FG. rewrite Q1, Q2, EP, <- Es in FG.
    change (ghost_cell nf m (2 * 1 - 1 + r) (flip o m (past (negb u) m (1 + s)))) with p in FG.
    unfold at_cell, at3. rewrite <- FG, V.
    + rewrite (gtarget_at m f nf o Hf Hn tol sea F C B (ends2 u) _ mq _ _ S1 S2). eexists. split; [reflexivity|].
      pose proof (qval_recon m f (surface_of tol sea F C) Hf 1 (from_end u m 1) mq _ _ S1 S2) as R. rewrite Q1, Q2 in R.
      unfold clipped, stored_fine, depth_over. destruct (mq =? 1); [|exact R]. apply Q.max_compat; [|reflexivity]. rewrite R. reflexivity.
    + exists mq. split; [exact Hq|].
      exists (s_x f r b), (s_y f r b). split; [exact S1|]. split; [exact S2|]. reflexivity.
  - intros x Hx'. apply U. intros (mq & Hq & sx & sy & S1 & S2 & Ec).
    destruct (s_of_q f Hf sx sy S1 S2) as (Q1 & Q2 & _).
    apply (Hx' (q_a f sx sy) (if u then 1 - q_b f sx sy else q_b f sx sy) mq Q1); [destruct u; lia|exact Hq|].
    unfold at3. rewrite <- EP. change (1 + q_a f sx sy) with (2 * 1 - 1 + q_a f sx sy).
    rewrite <- (fim_ghost m f nf o (ends2 u) Hf Hn 1 (from_end u m 1) sx sy S1 S2). exact Ec.
Qed.
Print Assumptions C64_interpolate_corner.

(** ** What the fine values are worth *)

(** The surface as the interpolation sees it, at place (n, t): wet with surface [eta], or dry. *)
Definition level_or_dry (tol eta : Q) (depth bed : Q) : Prop := (tol <= depth -> depth + bed == eta)%Q.
Definition seen (tol sea : Q) (h b : Z -> Z -> Q) (n t : Z) : Q := if Qle_bool tol (h n t) then (h n t + b n t)%Q else sea.

Lemma mc_zero : forall l r, (l * r <= 0)%Q -> (mc l r == 0)%Q.
Proof. intros l r H. unfold mc. rewrite (proj2 (Qle_bool_iff _ _) H). reflexivity. Qed.

(** A wet coarse cell at level [eta] whose four neighbors are at the same level or dry gives four quarters at exactly
    that level, whatever the sea level: no waves appear when water at rest is refined. *)
Theorem C64_rest_refined : forall tol sea eta h b n t a r, 0 <= a <= 1 -> 0 <= r <= 1 ->
  (tol <= h n t)%Q -> (h n t + b n t == eta)%Q ->
  (forall n' t', In (n', t') [(n + 1, t); (n - 1, t); (n, t + 1); (n, t - 1)] -> level_or_dry tol eta (h n' t') (b n' t')) ->
  (recon (seen tol sea h b) n t a r == eta)%Q.
Proof.
  intros tol sea eta h b n t a r Ha Hr Hw He Hn.
  assert (S0 : (seen tol sea h b n t == eta)%Q) by (unfold seen; rewrite (proj2 (Qle_bool_iff _ _) Hw); exact He).
  assert (SN : forall n' t', In (n', t') [(n + 1, t); (n - 1, t); (n, t + 1); (n, t - 1)] ->
    (seen tol sea h b n' t' == eta \/ seen tol sea h b n' t' == sea)%Q).
  { intros n' t' Hin. unfold seen. destruct (Qle_bool tol (h n' t')) eqn:E; [left|right; reflexivity].
    apply Hn; [exact Hin|]. now apply Qle_bool_iff. }
  unfold recon.
  assert (M : forall x y, (x == eta \/ x == sea)%Q -> (y == eta \/ y == sea)%Q ->
    (mc (seen tol sea h b n t - x) (y - seen tol sea h b n t) == 0)%Q).
  { intros x y Hx Hy. apply mc_zero. destruct Hx as [Hx|Hx], Hy as [Hy|Hy]; rewrite S0, Hx, Hy.
    - setoid_replace ((eta - eta) * (eta - eta))%Q with 0%Q by ring. lra.
    - setoid_replace ((eta - eta) * (sea - eta))%Q with 0%Q by ring. lra.
    - setoid_replace ((eta - sea) * (eta - eta))%Q with 0%Q by ring. lra.
    - destruct (Qlt_le_dec sea eta); nra. }
  rewrite !M; try (apply SN; cbn [In]; tauto). rewrite S0. ring.
Qed.
Print Assumptions C64_rest_refined.

(** Dry land next to an ocean at sea level: the ghost cells hold the ocean at sea level, and no negative depth. *)
Theorem C64_ocean_refined : forall tol sea h b n t a r, 0 <= a <= 1 -> 0 <= r <= 1 ->
  (forall n' t', In (n', t') [(n, t); (n + 1, t); (n - 1, t); (n, t + 1); (n, t - 1)] -> level_or_dry tol sea (h n' t') (b n' t')) ->
  (recon (seen tol sea h b) n t a r == sea)%Q /\
  forall bed, (depth_over true (recon (seen tol sea h b) n t a r) bed == Qmax (sea - bed) 0)%Q.
Proof.
  intros tol sea h b n t a r Ha Hr Hn.
  assert (SN : forall n' t', In (n', t') [(n, t); (n + 1, t); (n - 1, t); (n, t + 1); (n, t - 1)] ->
    (seen tol sea h b n' t' == sea)%Q).
  { intros n' t' Hin. unfold seen. destruct (Qle_bool tol (h n' t')) eqn:E; [|reflexivity].
    apply Hn; [exact Hin|]. now apply Qle_bool_iff. }
  assert (R : (recon (seen tol sea h b) n t a r == sea)%Q).
  { unfold recon. assert (M : forall x y, (x == sea)%Q -> (y == sea)%Q -> (mc (seen tol sea h b n t - x) (y - seen tol sea h b n t) == 0)%Q).
    { intros x y Hx Hy. apply mc_zero. rewrite Hx, Hy, (SN n t) by (cbn; tauto). setoid_replace ((sea - sea) * (sea - sea))%Q with 0%Q by ring. lra. }
    rewrite !M; try (apply SN; cbn [In]; tauto). rewrite (SN n t) by (cbn; tauto). ring. }
  split; [exact R|]. intros bed. unfold depth_over. apply Q.max_compat; [|reflexivity]. rewrite R. reflexivity.
Qed.
Print Assumptions C64_ocean_refined.

Lemma surface_seen : forall tol sea F C n t,
  surface_of tol sea F C n t 1 = seen tol sea (fun x y => water F (x, y)) (fun x y => bottom C (x, y)) n t.
Proof. reflexivity. Qed.

(** Ghost depths are never negative. *)
Theorem C64_ghost_depth : forall v bed, (0 <= stored_fine true 1 v bed)%Q.
Proof. intros v bed. unfold stored_fine, depth_over. cbn [Z.eqb Pos.eqb]. apply Q.le_max_r. Qed.
Print Assumptions C64_ghost_depth.

(** Four new fine cells under a wet coarse cell hold its water, if its bottom is the mean of theirs. *)
Theorem C64_refined_mass : forall tol sea h b n t (bed : Z -> Z -> Q), (tol <= h n t)%Q ->
  (bed 0%Z 0%Z + bed 1%Z 0%Z + bed 0%Z 1%Z + bed 1%Z 1%Z == 4 * b n t)%Q ->
  (let new a r := stored_fine false 1 (recon (seen tol sea h b) n t a r) (bed a r) in
   new 0%Z 0%Z + new 1%Z 0%Z + new 0%Z 1%Z + new 1%Z 1%Z == 4 * h n t)%Q.
Proof.
  intros tol sea h b n t bed Hw HB. cbv zeta. unfold stored_fine, depth_over. cbn [Z.eqb Pos.eqb].
  pose proof (C53_mean (seen tol sea h b) n t) as M. cbv zeta in M.
  assert (S0 : (seen tol sea h b n t == h n t + b n t)%Q) by (unfold seen; rewrite (proj2 (Qle_bool_iff _ _) Hw); reflexivity).
  rewrite S0 in M. set (X := (_ + _ + _ + _)%Q) in M.
  assert (EX : (X == 4 * (X / 4))%Q) by field. rewrite M in EX. unfold X in EX. lra.
Qed.
Print Assumptions C64_refined_mass.
