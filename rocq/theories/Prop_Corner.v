(** Properties C53 and C54: ghost cells filled by interpolation from a coarser neighbor, and corner regions. *)
From Coq Require Import ZArith QArith Qminmax Qabs List Lia Lqa Bool Qfield.
From Verif Require Import Base_Float Model_Face Spec_Face Proof_Face Proof_Face1 Model_Grid Spec_Grid Proof_Grid Proof_Grid2
  Proof_Grid3 Proof_Face5 Proof_Grid4 Proof_Grid5 Prop_Grid Model_Corner Spec_Corner Proof_Corner1 Proof_Corner2
  Proof_Corner3 Proof_Corner4.
Import ListNotations.
Open Scope Z_scope.

(** ** C53 *)

(** Quarter (a, b) of the coarse cell at distance k behind the face and place t along it, as a cell of the fine
    neighbor number [pos]. *)
Definition fine_quarter (nf : Z) (o : bool) (pos m k t a b : Z) : Z * Z :=
  ghost_cell nf m (2 * k - 1 + a) (flip o m (2 * t - 1 + b - pos * m)).

(** Coarse cells used for neighbor number [pos]: those whose fine cells fit in its array. *)
Definition next_to (d : dims) (m pos t : Z) : Prop :=
  1 <= t <= m /\ 1 - mbc d <= 2 * t - 1 - pos * m /\ 2 * t - pos * m <= m + mbc d.

Theorem C53_interpolate_face : forall rnd, rounding rnd ->
  forall d m f nf o pos ip op ft qcoarse F qfine,
  half_size f nf o pos ip op ft -> square d m (level op) -> 2 <= mbc d <= m -> holds_layer d qcoarse F ->
  exists q', interpolate_face rnd d qcoarse qfine (f / 2) f 2 (mkT ip op ft) = Some q' /\
    (forall k t a b mq, 1 <= k <= mbc d / 2 -> next_to d m pos t -> 0 <= a <= 1 -> 0 <= b <= 1 -> 1 <= mq <= meqn d ->
       at_cell q' (at3 (fine_quarter nf o pos m k t a b) mq) (recon (behind f m F mq) k t a b)) /\
    (forall c, (forall k t a b mq, 1 <= k <= mbc d / 2 -> next_to d m pos t -> 0 <= a <= 1 -> 0 <= b <= 1 ->
       1 <= mq <= meqn d -> c <> at3 (fine_quarter nf o pos m k t a b) mq) -> q' c = qfine c).
Proof.
  intros rnd Hrnd d m f nf o pos ip op ft qcoarse F qfine (HL & Hp & HB) HQ Hb HF.
  pose proof HQ as (Hx & Hy & Hm & _). pose proof HB as (Hf & Hn & _).
  destruct (interpolate_face_ok rnd Hrnd d m f nf o pos qcoarse F (conj Hx Hy) Hf Hn ltac:(lia) Hm ltac:(lia) ltac:(lia) HF
    ip op ft qfine Hp HL HB HQ qfine) as (q' & E & A & B & _); [intros c []|].
  exists q'. split; [exact E|]. split.
  - intros k t a b mq Hk (Ht & U) Ha Hbb Hq.
    destruct (q_of_s f Hf a b Ha Hbb) as (S1 & S2 & Q1 & Q2).
    pose proof (fim_ghost m f nf o pos Hf Hn k t _ _ S1 S2) as FG. rewrite Q1, Q2 in FG.
    unfold at_cell, at3, fine_quarter. rewrite <- FG, A.
    + rewrite (target_at m f nf o pos F Hf Hn _ mq _ _ S1 S2). eexists. split; [reflexivity|].
      rewrite (qval_recon m f F Hf k t mq _ _ S1 S2), Q1, Q2. reflexivity.
    + exists k, t, mq. split; [exact Hk|]. split; [exact Ht|]. split; [exact Hq|]. split; [exact U|].
      exists (s_x f a b), (s_y f a b). split; [exact S1|]. split; [exact S2|]. reflexivity.
  - intros c Hc. apply B. intros (k & t & mq & Hk & Ht & Hq & U & sx & sy & S1 & S2 & Ec).
    destruct (s_of_q f Hf sx sy S1 S2) as (Q1 & Q2 & _).
    apply (Hc k t (q_a f sx sy) (q_b f sx sy) mq Hk (conj Ht U) Q1 Q2 Hq).
    unfold at3, fine_quarter. rewrite <- (fim_ghost m f nf o pos Hf Hn k t sx sy S1 S2). exact Ec.
Qed.
Print Assumptions C53_interpolate_face.

(** Every ghost cell of the fine patch next to the face is filled, up to the layer 2 (mbc / 2). *)
Theorem C53_filled : forall rnd, rounding rnd ->
  forall d m f nf o pos ip op ft qcoarse F qfine,
  half_size f nf o pos ip op ft -> square d m (level op) -> 2 <= mbc d <= m -> holds_layer d qcoarse F ->
  exists q', interpolate_face rnd d qcoarse qfine (f / 2) f 2 (mkT ip op ft) = Some q' /\
    forall e s mq, 1 <= e <= 2 * (mbc d / 2) -> 1 <= s <= m -> 1 <= mq <= meqn d ->
      at_cell q' (at3 (ghost_cell nf m e (flip o m s)) mq)
        (recon (behind f m F mq) ((e + 1) / 2) ((s + pos * m + 1) / 2) ((e + 1) mod 2) ((s + pos * m + 1) mod 2)).
Proof.
  intros rnd Hrnd d m f nf o pos ip op ft qcoarse F qfine HS HQ Hb HF.
  destruct (C53_interpolate_face rnd Hrnd d m f nf o pos ip op ft qcoarse F qfine HS HQ Hb HF) as (q' & E & A & _).
  exists q'. split; [exact E|]. intros e s mq He Hs Hq.
  destruct HS as (_ & Hp & _).
  pose proof (Z.div_mod (e + 1) 2 ltac:(lia)) as D1. pose proof (Z.mod_pos_bound (e + 1) 2 ltac:(lia)) as M1.
  pose proof (Z.div_mod (s + pos * m + 1) 2 ltac:(lia)) as D2. pose proof (Z.mod_pos_bound (s + pos * m + 1) 2 ltac:(lia)) as M2.
  assert (G := A ((e + 1) / 2) ((s + pos * m + 1) / 2) ((e + 1) mod 2) ((s + pos * m + 1) mod 2) mq).
  unfold fine_quarter in G.
  replace (2 * ((e + 1) / 2) - 1 + (e + 1) mod 2) with e in G by lia.
  replace (2 * ((s + pos * m + 1) / 2) - 1 + (s + pos * m + 1) mod 2 - pos * m) with s in G by lia.
  apply G; try lia. unfold next_to. assert (Ep : pos = 0 \/ pos = 1) by lia. destruct Ep as [->| ->]; lia.
Qed.
Print Assumptions C53_filled.

(** The reconstruction: no new extremes, the coarse value is the mean of its quarters, affine data are reproduced. *)
Theorem C53_range : forall v n t a b, within [v n t; v (n + 1) t; v (n - 1) t; v n (t - 1); v n (t + 1)] (recon v n t a b).
Proof.
  intros v n t a b. unfold recon.
  assert (H := within_stencil (v (n + 1) t) (v n t) (v (n - 1) t) (v n (t - 1)) (v n (t + 1))
    (if (a =? 0)%Z then 1 # 4 else - (1 # 4)) (if (b =? 0)%Z then - (1 # 4) else 1 # 4)).
  assert (E : (v n t + (if (a =? 0)%Z then 1 # 4 else - (1 # 4)) * compute_slopes (v n t - v (n + 1)%Z t) (v (n - 1)%Z t - v n t)
    + (if (b =? 0)%Z then - (1 # 4) else 1 # 4) * compute_slopes (v n t - v n (t - 1)%Z) (v n (t + 1)%Z - v n t) ==
    v n t + (if (a =? 0)%Z then 1 # 4 else - (1 # 4)) * mc (v n t - v (n + 1)%Z t) (v (n - 1)%Z t - v n t)
    + (if (b =? 0)%Z then - (1 # 4) else 1 # 4) * mc (v n t - v n (t - 1)%Z) (v n (t + 1)%Z - v n t))%Q).
  { now rewrite !slopes_mc. }
  destruct H as [(x & X1 & X2) (y & Y1 & Y2)].
  - destruct (a =? 0); [left|right]; reflexivity.
  - destruct (b =? 0); [right|left]; reflexivity.
  - split; [exists x|exists y]; (split; [assumption|]); rewrite E in *; assumption.
Qed.
Print Assumptions C53_range.

Theorem C53_mean : forall v n t,
  ((recon v n t 0 0 + recon v n t 1 0 + recon v n t 0 1 + recon v n t 1 1) / 4 == v n t)%Q.
Proof.
  intros v n t. unfold recon. change (0 =? 0) with true. change (1 =? 0) with false. cbv iota.
  generalize (mc (v n t - v (n + 1)%Z t) (v (n - 1)%Z t - v n t)) (mc (v n t - v n (t - 1)%Z) (v n (t + 1)%Z - v n t)).
  intros x y. field.
Qed.
Print Assumptions C53_mean.

Theorem C53_affine : forall v n t a b (z p q : Q), 0 <= a <= 1 -> 0 <= b <= 1 ->
  (forall n t, v n t == z + p * inject_Z n + q * inject_Z t)%Q ->
  (recon v n t a b ==
   z + p * (inject_Z n + (inject_Z a - (1 # 2)) / 2) + q * (inject_Z t + (inject_Z b - (1 # 2)) / 2))%Q.
Proof.
  intros v n t a b z p q Ha Hb H. unfold recon.
  assert (E1 : (mc (v n t - v (n + 1)%Z t) (v (n - 1)%Z t - v n t) == - p)%Q).
  { transitivity (mc (- p) (- p)).
    - apply mc_proper; rewrite !H; unfold Z.sub; injs; change (inject_Z 1) with 1%Q; ring.
    - rewrite <- slopes_mc. apply C21_linear. }
  assert (E2 : (mc (v n t - v n (t - 1)%Z) (v n (t + 1)%Z - v n t) == q)%Q).
  { transitivity (mc q q).
    - apply mc_proper; rewrite !H; unfold Z.sub; injs; change (inject_Z 1) with 1%Q; ring.
    - rewrite <- slopes_mc. apply C21_linear. }
  rewrite E1, E2, H.
  assert (Ea : a = 0 \/ a = 1) by lia. assert (Eb : b = 0 \/ b = 1) by lia.
  destruct Ea as [->| ->], Eb as [->| ->]; change (0 =? 0) with true; change (1 =? 0) with false; cbv iota;
    change (inject_Z 0) with 0%Q; change (inject_Z 1) with 1%Q; field.
Qed.
Print Assumptions C53_affine.

(** Instance: the fine neighbor in a turned block; the data increase by 10 per column and by 1 per row. *)
Example C53_instance : exists q',
  interpolate_face (fun x => x) d4 (layer d4 (fdata 0)) nothing (1 / 2) 1 2 (mkT ip22 (op23 1) (expand_face_transform_2d 1 6)) = Some q' /\
  at_cell q' (4, 0, 1) (40 + 3 + (10 # 4) - (1 # 4))%Q /\ at_cell q' (4, -1, 1) (40 + 3 - (10 # 4) - (1 # 4))%Q.
Proof.
  destruct (C53_filled (fun x => x) rounding_id d4 4 1 2 true 1 ip22 (op23 1) _ (layer d4 (fdata 0)) (fdata 0) nothing
    (op23_half 1 ltac:(lia)) ltac:(repeat split; cbn; lia) ltac:(cbn; lia) (layer_holds d4 (fdata 0))) as (q' & E & A).
  exists q'. split; [exact E|]. split.
  - destruct (A 1 1 1 ltac:(cbn; lia) ltac:(lia) ltac:(cbn; lia)) as (v & Ev & Hv).
    exists v. split; [exact Ev|]. rewrite Hv. reflexivity.
  - destruct (A 2 1 1 ltac:(cbn; lia) ltac:(lia) ltac:(cbn; lia)) as (v & Ev & Hv).
    exists v. split; [exact Ev|]. rewrite Hv. reflexivity.
Qed.

(** The restriction to square patches is needed: the loop along a face normal to x runs to mx instead of my, so with
    4 by 8 cells the second fine neighbor of the right face gets no values next to its own cells.  (The option check
    accepts this case.) *)
Theorem C53_not_square_refuted : exists d ip op F, mx d = 4 /\ my d = 8 /\ mbc d = 2 /\ meqn d = 1 /\
  half_size 1 0 false 1 ip op face_transformation_intra /\ holds_layer d (layer d F) F /\
  bind (interpolate_face (fun x => x) d (layer d F) nothing (1 / 2) 1 2 (mkT ip op face_transformation_intra))
    (fun q => Some (map (fun j => q (0, j, 1)) [1; 2; 3; 4; 5; 6; 7; 8])) = Some (repeat None 8).
Proof.
  exists (mkDims 4 8 2 1), (mkPatch 1 0 0 0 (1#2) (1#2) 1), (mkPatch 2 (1#2) (1#4) 0 (3#4) (1#2) 1), (fdata 0).
  split; [reflexivity|]. split; [reflexivity|]. split; [reflexivity|]. split; [reflexivity|]. split; [|split].
  - split; [reflexivity|]. split; [lia|]. split; [lia|]. split; [lia|].
    split. { split; [cbn; lia|]. split; [exists 0; split; [cbn; lia|reflexivity]|].
      split; [exists 0; split; [cbn; lia|reflexivity]|discriminate]. }
    split. { split; [cbn; lia|]. split; [exists 2; split; [cbn; lia|reflexivity]|].
      split; [exists 1; split; [cbn; lia|reflexivity]|discriminate]. }
    right. repeat split; reflexivity.
  - apply layer_holds.
  - vm_compute. reflexivity.
Qed.
Print Assumptions C53_not_square_refuted.

(** ** C54 *)

(** A corner neighbor of the same size: the ghost cell a steps beyond face f and b steps past its end gets the value
    of the neighbor's cell a steps behind its face nf and b steps from the end that meets the corner. *)
Theorem C54_copy_corner : forall rnd, rounding rnd ->
  forall d m f nf o u ip op c qn fn q,
  touches_corner f nf o u ip op c -> level ip = level op -> square d m (level ip) -> 0 <= mbc d <= m -> holds d qn fn ->
  exists q', copy_corner rnd d q qn (corner_on f u) c = Some q' /\
    (forall a b mq, 1 <= a <= mbc d -> 1 <= b <= mbc d -> 1 <= mq <= meqn d ->
       let p := inner_cell nf m a (flip o m (from_end (negb u) m b)) in
       q' (at3 (ghost_cell f m a (past u m b)) mq) = Some (fn (fst p) (snd p) mq)) /\
    (forall x, (forall a b mq, 1 <= a <= mbc d -> 1 <= b <= mbc d -> 1 <= mq <= meqn d ->
       x <> at3 (ghost_cell f m a (past u m b)) mq) -> q' x = q x).
Proof.
  intros rnd Hrnd d m f nf o u ip op c qn fn q HT HL HQ Hb Hh. cbn zeta.
  pose proof HQ as (Hx & Hy & Hm & HR). pose proof (proj1 HT) as Hf. pose proof (proj1 (proj2 HT)) as Hn.
  destruct (copy_corner_ok rnd Hrnd d m (conj Hx Hy) Hm f nf o u ip op c HT Hf Hn qn fn Hh HL HR Hb q q)
    as (q' & E & A & B & _); [intros x []|].
  exists q'. split; [exact E|]. split.
  - intros a b mq Ha Hb' Hq. rewrite A by (exists a, b, mq; tauto).
    unfold ccopy, at3, gimage. rewrite <- surjective_pairing.
    destruct (depth_at m f u Hf a b) as [D1 D2]. rewrite D1, D2.
    replace (past u m b - ends u * m) with (from_end (negb u) m b); [reflexivity|].
    unfold past, ends, from_end. destruct u; cbn [negb]; lia.
  - intros x Hx'. apply B. intros (a & b & mq & Ha & Hb' & Hq & Ex). now apply (Hx' a b mq).
Qed.
Print Assumptions C54_copy_corner.

(** Sum over the four fine cells at steps 2a - 1, 2a behind face nf and 2b - 1, 2b from the end that meets the corner. *)
Definition four_at_corner (nf : Z) (o u : bool) (m a b : Z) (v : Z * Z -> Q) : Q :=
  let c s r := inner_cell nf m (2 * a - s) (flip o m (from_end (negb u) m (2 * b - r))) in
  (v (c 0%Z 0%Z) + v (c 0%Z 1%Z) + v (c 1%Z 0%Z) + v (c 1%Z 1%Z))%Q.

Lemma four_of_fimage : forall m f nf o u a b v, 0 <= f < 4 ->
  let g sx sy := fimage f nf o (ends2 u) m (ghost_cell f m a (past u m b)) sx sy in
  (v (g 0 0)%Z + v (g 1 0)%Z + v (g 0 1)%Z + v (g 1 1)%Z == four_at_corner nf o u m a b v)%Q.
Proof.
  intros m f nf o u a b v Hf g.
  assert (G : forall sx sy, g sx sy = inner_cell nf m (2 * a - (if Z.odd f then 1 - nchild f sx sy else nchild f sx sy))
    (flip o m (from_end (negb u) m (2 * b - (if u then 1 - tchild f sx sy else tchild f sx sy))))).
  { intros sx sy. unfold g, fimage. destruct (depth_at m f u Hf a b) as [D1 D2]. rewrite D1, D2. f_equal.
    - unfold fdepth. destruct (Z.odd f); lia.
    - f_equal. unfold past, ends2, from_end. destruct u; cbn [negb]; lia. }
  rewrite !G. clear G g. unfold four_at_corner.
  destruct u; face4 f Hf; cbn [nchild tchild Z.odd]; change (1 - 1) with 0; change (1 - 0) with 1; ring.
Qed.

(** A corner neighbor of half the size: each corner ghost cell gets the mean of the four fine cells (on mapped grids,
    weighted by area). *)
Theorem C54_average_corner : forall rnd, rounding rnd ->
  forall d m f nf o u ip op c manifold qfine ff areafine kf q,
  touches_corner f nf o u ip op c -> level op = level ip + 1 -> square d m (level op) ->
  0 <= mbc d -> 2 * mbc d <= m -> holds d qfine ff -> (manifold = true -> area_holds d areafine kf) ->
  exists q', average_corner rnd d q qfine areafine 2 manifold (corner_on f u) c = Some q' /\
    (forall a b mq, 1 <= a <= mbc d -> 1 <= b <= mbc d -> 1 <= mq <= meqn d ->
       at_cell q' (at3 (ghost_cell f m a (past u m b)) mq)
         (if manifold then four_at_corner nf o u m a b (fun p => kf (fst p) (snd p) * ff (fst p) (snd p) mq) /
                           four_at_corner nf o u m a b (fun p => kf (fst p) (snd p))
          else four_at_corner nf o u m a b (fun p => ff (fst p) (snd p) mq) / 4)%Q) /\
    (forall x, (forall a b mq, 1 <= a <= mbc d -> 1 <= b <= mbc d -> 1 <= mq <= meqn d ->
       x <> at3 (ghost_cell f m a (past u m b)) mq) -> q' x = q x).
Proof.
  intros rnd Hrnd d m f nf o u ip op c manifold qfine ff areafine kf q HT HL HQ Hb0 Hb Hh Hk.
  pose proof HQ as (Hx & Hy & Hm & HR). pose proof (proj1 HT) as Hf. pose proof (proj1 (proj2 HT)) as Hn.
  destruct (average_corner_ok rnd Hrnd d m (conj Hx Hy) Hm f nf o u ip op c HT Hf Hn HL HR qfine ff areafine kf manifold Hh Hk Hb0 Hb q q)
    as (q' & E & A & B & _); [intros x []|].
  exists q'. split; [exact E|]. split.
  - intros a b mq Ha Hb' Hq. unfold at_cell. rewrite A by (exists a, b, mq; tauto).
    unfold cavg_arr. eexists. split; [reflexivity|]. unfold at3. cbn [fst snd]. rewrite <- surjective_pairing.
    unfold cavg. destruct manifold.
    + rewrite <- !(four_of_fimage m f nf o u a b _ Hf). unfold cqv, ckv.
      apply Qmult_comp; [ring|]. apply Qinv_comp. ring.
    + rewrite <- !(four_of_fimage m f nf o u a b _ Hf). unfold cqv. apply Qmult_comp; [ring|reflexivity].
  - intros x Hx'. apply B. intros (a & b & mq & Ha & Hb' & Hq & Ex). now apply (Hx' a b mq).
Qed.
Print Assumptions C54_average_corner.

(** A corner neighbor of twice the size: the fine patch's corner ghost cells get the reconstruction in the coarse
    corner cells, k steps behind face f and l steps from its end; r and s select the quarter (0: nearer the corner). *)
Theorem C54_interpolate_corner : forall rnd, rounding rnd ->
  forall d m f nf o u ip op c qcoarse F qfine,
  touches_corner f nf o u ip op c -> level op = level ip + 1 -> square d m (level op) -> 2 <= mbc d <= m ->
  (is_block_corner c = true -> 2 ^ level op * m <= 2 ^ 29) -> holds_layer d qcoarse F ->
  exists q', interpolate_corner rnd d qcoarse qfine 2 (corner_on f u) c = Some q' /\
    (forall k l r s mq, 1 <= k <= mbc d / 2 -> 1 <= l <= mbc d / 2 -> 0 <= r <= 1 -> 0 <= s <= 1 -> 1 <= mq <= meqn d ->
       at_cell q' (at3 (ghost_cell nf m (2 * k - 1 + r) (flip o m (past (negb u) m (2 * l - 1 + s)))) mq)
         (recon (behind f m F mq) k (from_end u m l) r (if u then 1 - s else s))) /\
    (forall x, (forall k l r s mq, 1 <= k <= mbc d / 2 -> 1 <= l <= mbc d / 2 -> 0 <= r <= 1 -> 0 <= s <= 1 -> 1 <= mq <= meqn d ->
       x <> at3 (ghost_cell nf m (2 * k - 1 + r) (flip o m (past (negb u) m (2 * l - 1 + s)))) mq) -> q' x = qfine x).
Proof.
  intros rnd Hrnd d m f nf o u ip op c qcoarse F qfine HT HL HQ Hb HB HF.
  pose proof HQ as (Hx & Hy & Hm & HR). pose proof (proj1 HT) as Hf. pose proof (proj1 (proj2 HT)) as Hn.
  destruct (interpolate_corner_ok rnd Hrnd d m (conj Hx Hy) Hm f nf o u ip op c HT Hf Hn HL HR qcoarse F HF ltac:(lia) ltac:(lia) HB qfine qfine)
    as (q' & E & A & B & _); [intros x []|].
  assert (EP : forall l b, 2 * from_end u m l - 1 + b - ends2 u * m = past (negb u) m (2 * l - 1 + (if u then 1 - b else b))).
  { intros l b. unfold from_end, ends2, past. destruct u; cbn [negb]; lia. }
  exists q'. split; [exact E|]. split.
  - intros k l r s mq Hk Hl Hr Hs Hq. set (b := if u then 1 - s else s).
    assert (Hbb : 0 <= b <= 1) by (unfold b; destruct u; lia).
    assert (Es : s = if u then 1 - b else b) by (unfold b; destruct u; lia).
    destruct (q_of_s f Hf r b Hr Hbb) as (S1 & S2 & Q1 & Q2).
    pose proof (fim_ghost m f nf o (ends2 u) Hf Hn k (from_end u m l) _ _ S1 S2) as FG. rewrite Q1, Q2, EP, <- Es in FG.
    unfold at_cell, at3. rewrite <- FG, A.
    + rewrite (target_at m f nf o (ends2 u) F Hf Hn _ mq _ _ S1 S2). eexists. split; [reflexivity|].
      rewrite (qval_recon m f F Hf k (from_end u m l) mq _ _ S1 S2), Q1, Q2. reflexivity.
    + exists k, l, mq. split; [exact Hk|]. split; [exact Hl|]. split; [exact Hq|].
      exists (s_x f r b), (s_y f r b). split; [exact S1|]. split; [exact S2|]. reflexivity.
  - intros x Hx'. apply B. intros (k & l & mq & Hk & Hl & Hq & sx & sy & S1 & S2 & Ec).
    destruct (s_of_q f Hf sx sy S1 S2) as (Q1 & Q2 & _).
    apply (Hx' k l (q_a f sx sy) (if u then 1 - q_b f sx sy else q_b f sx sy) mq Hk Hl Q1); [destruct u; lia|exact Hq|].
    unfold at3. rewrite <- EP, <- (fim_ghost m f nf o (ends2 u) Hf Hn k (from_end u m l) sx sy S1 S2). exact Ec.
Qed.
Print Assumptions C54_interpolate_corner.

(** *** Instances *)
Definition quad (l a b : Z) : patch :=
  let h := inject_Z (2 ^ l) in
  mkPatch l (inject_Z a / h) (inject_Z b / h) 0 ((inject_Z a + 1) / h) ((inject_Z b + 1) / h) 1.
Lemma quad_ok : forall l a b, 0 <= l < 30 -> 0 <= a < 2 ^ l -> 0 <= b < 2 ^ l -> quadrant D2 (quad l a b).
Proof.
  intros l a b Hl Ha Hb. split; [exact Hl|]. split; [exists a; split; [exact Ha|reflexivity]|].
  split; [exists b; split; [exact Hb|reflexivity]|discriminate].
Qed.
(** on the boundary to a turned block, inside a block, and where four blocks meet *)
Definition on_boundary (op : patch) : cdata := mkC (mkT (quad 2 3 1) op (expand_face_transform_2d 1 6)) 1 0 false.
Definition inside (op : patch) : cdata := mkC (mkT (quad 1 1 0) op face_transformation_intra) (-1) 2 false.
Definition meeting (op : patch) : cdata := mkC (mkT (quad 1 0 0) op face_transformation_intra) (-1) 0 true.

Lemma boundary_touches : touches_corner 1 2 true true (quad 2 3 1) (quad 2 1 0) (on_boundary (quad 2 1 0)) /\
  touches_corner 1 2 true true (quad 2 3 1) (quad 3 3 0) (on_boundary (quad 3 3 0)).
Proof.
  split; (split; [lia|]; split; [lia|]; split; [apply quad_ok; cbn; lia|]; split; [apply quad_ok; cbn; lia|];
    split; [reflexivity|]; split; [reflexivity|]; left; repeat split; reflexivity).
Qed.
Lemma inside_touches : touches_corner 0 1 false true (quad 1 1 0) (quad 1 0 1) (inside (quad 1 0 1)) /\
  touches_corner 0 1 false true (quad 1 1 0) (quad 2 1 2) (inside (quad 2 1 2)).
Proof.
  split; (split; [lia|]; split; [lia|]; split; [apply quad_ok; cbn; lia|]; split; [apply quad_ok; cbn; lia|];
    split; [reflexivity|]; split; [reflexivity|]; right; repeat (split; [reflexivity|]); left; repeat split; reflexivity).
Qed.
Lemma meeting_touches : touches_corner 0 1 false false (quad 1 0 0) (quad 1 1 1) (meeting (quad 1 1 1)) /\
  touches_corner 0 1 false false (quad 1 0 0) (quad 2 3 3) (meeting (quad 2 3 3)).
Proof.
  split; (split; [lia|]; split; [lia|]; split; [apply quad_ok; cbn; lia|]; split; [apply quad_ok; cbn; lia|];
    split; [reflexivity|]; split; [reflexivity|]; right; repeat (split; [reflexivity|]); right; repeat split; reflexivity).
Qed.

Example C54_instance :
  (exists q', copy_corner (fun x => x) d4 nothing (full d4 (fdata 7)) 3 (on_boundary (quad 2 1 0)) = Some q' /\
     q' (5, 6, 1) = Some (fdata 7 3 1 1)) /\
  (exists q', copy_corner (fun x => x) d4 nothing (full d4 (fdata 7)) 2 (inside (quad 1 0 1)) = Some q' /\
     q' (0, 6, 1) = Some (fdata 7 4 2 1)) /\
  (exists q', copy_corner (fun x => x) d4 nothing (full d4 (fdata 7)) 0 (meeting (quad 1 1 1)) = Some q' /\
     q' (-1, 0, 1) = Some (fdata 7 3 4 1)) /\
  (exists q', average_corner (fun x => x) d4 nothing (full d4 (fdata 0)) (fun _ => None) 2 false 0 (meeting (quad 2 3 3)) = Some q' /\
     at_cell q' (-1, 0, 1) ((23 + 24 + 13 + 14) / 4)%Q) /\
  (exists q', interpolate_corner (fun x => x) d4 (layer d4 (fdata 0)) nothing 2 3 (on_boundary (quad 3 3 0)) = Some q' /\
     at_cell q' (5, 0, 1) (40 + 4 + (10 # 4) + (1 # 4))%Q) /\
  (exists q', interpolate_corner (fun x => x) d4 (layer d4 (fdata 0)) nothing 2 0 (meeting (quad 2 3 3)) = Some q' /\
     at_cell q' (6, 5, 1) (10 + 1 + (10 # 4) - (1 # 4))%Q).
Proof.
  assert (SQ : forall l, 0 <= l < 4 -> square d4 4 l).
  { intros l Hl. repeat split; try (cbn; lia). assert (2 ^ l <= 2 ^ 3) by (apply Z.pow_le_mono_r; lia). lia. }
  destruct boundary_touches as [B1 B2]. destruct inside_touches as [I1 I2]. destruct meeting_touches as [M1 M2].
  split; [|split; [|split; [|split; [|split]]]].
  - destruct (C54_copy_corner (fun x => x) rounding_id d4 4 1 2 true true _ _ _ (full d4 (fdata 7)) (fdata 7) nothing
      B1 eq_refl (SQ 2 ltac:(lia)) ltac:(cbn; lia) (full_holds d4 (fdata 7))) as (q' & E & A & _).
    exists q'. split; [exact E|]. exact (A 1 2 1 ltac:(cbn; lia) ltac:(cbn; lia) ltac:(cbn; lia)).
  - destruct (C54_copy_corner (fun x => x) rounding_id d4 4 0 1 false true _ _ _ (full d4 (fdata 7)) (fdata 7) nothing
      I1 eq_refl (SQ 1 ltac:(lia)) ltac:(cbn; lia) (full_holds d4 (fdata 7))) as (q' & E & A & _).
    exists q'. split; [exact E|]. exact (A 1 2 1 ltac:(cbn; lia) ltac:(cbn; lia) ltac:(cbn; lia)).
  - destruct (C54_copy_corner (fun x => x) rounding_id d4 4 0 1 false false _ _ _ (full d4 (fdata 7)) (fdata 7) nothing
      M1 eq_refl (SQ 1 ltac:(lia)) ltac:(cbn; lia) (full_holds d4 (fdata 7))) as (q' & E & A & _).
    exists q'. split; [exact E|]. exact (A 2 1 1 ltac:(cbn; lia) ltac:(cbn; lia) ltac:(cbn; lia)).
  - destruct (C54_average_corner (fun x => x) rounding_id d4 4 0 1 false false _ _ _ false (full d4 (fdata 0)) (fdata 0)
      (fun _ => None) (fun _ _ => 0%Q) nothing M2 eq_refl (SQ 2 ltac:(lia)) ltac:(cbn; lia) ltac:(cbn; lia) (full_holds d4 (fdata 0)) ltac:(discriminate))
      as (q' & E & A & _).
    exists q'. split; [exact E|].
    destruct (A 2 1 1 ltac:(cbn; lia) ltac:(cbn; lia) ltac:(cbn; lia)) as (v & Ev & Hv).
    exists v. split; [exact Ev|]. rewrite Hv. reflexivity.
  - destruct (C54_interpolate_corner (fun x => x) rounding_id d4 4 1 2 true true _ _ _ (layer d4 (fdata 0)) (fdata 0) nothing
      B2 eq_refl (SQ 3 ltac:(lia)) ltac:(cbn; lia) ltac:(discriminate) (layer_holds d4 (fdata 0))) as (q' & E & A & _).
    exists q'. split; [exact E|].
    destruct (A 1 1 0 0 1 ltac:(cbn; lia) ltac:(cbn; lia) ltac:(lia) ltac:(lia) ltac:(cbn; lia)) as (v & Ev & Hv).
    exists v. split; [exact Ev|]. rewrite Hv. reflexivity.
  - destruct (C54_interpolate_corner (fun x => x) rounding_id d4 4 0 1 false false _ _ _ (layer d4 (fdata 0)) (fdata 0) nothing
      M2 eq_refl (SQ 2 ltac:(lia)) ltac:(cbn; lia) ltac:(cbn; lia) (layer_holds d4 (fdata 0))) as (q' & E & A & _).
    exists q'. split; [exact E|].
    destruct (A 1 1 1 0 1 ltac:(cbn; lia) ltac:(cbn; lia) ltac:(lia) ltac:(lia) ltac:(cbn; lia)) as (v & Ev & Hv).
    exists v. split; [exact Ev|]. rewrite Hv. reflexivity.
Qed.

(** Where four blocks meet, interpolation also transforms indices as if the two patches lay in the same block, to find
    the direction of the axes.  At a deep level the intermediate index exceeds the range of int, although all indices
    that are used are small: level 29 with 8 by 8 cells. *)
Theorem C54_deep_block_corner_refuted : exists d ip op c qcoarse F,
  touches_corner 0 1 false false ip op c /\ level op = level ip + 1 /\ square d 8 (level op) /\ mbc d = 2 /\
  holds_layer d qcoarse F /\ interpolate_corner (fun x => x) d qcoarse nothing 2 0 c = None.
Proof.
  exists (mkDims 8 8 2 1), (quad 28 0 0), (quad 29 (2 ^ 29 - 1) (2 ^ 29 - 1)),
    (mkC (mkT (quad 28 0 0) (quad 29 (2 ^ 29 - 1) (2 ^ 29 - 1)) face_transformation_intra) (-1) 0 true),
    (layer (mkDims 8 8 2 1) (fdata 0)), (fdata 0).
  split.
  { split; [lia|]; split; [lia|]; split; [apply quad_ok; cbn; lia|]; split; [apply quad_ok; cbn; lia|];
    split; [reflexivity|]; split; [reflexivity|]; right; repeat (split; [reflexivity|]); right; repeat split; reflexivity. }
  split; [reflexivity|]. split; [repeat split; cbn; lia|]. split; [reflexivity|]. split; [apply layer_holds|].
  vm_compute. reflexivity.
Qed.
Print Assumptions C54_deep_block_corner_refuted.
