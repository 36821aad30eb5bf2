(** GeoClaw: water on a bottom between grids of different resolution (C64). *)
From Coq Require Import ZArith QArith Qminmax Qabs List Lia Lqa Bool Qfield Permutation.
From Verif Require Import Base_Float Model_Face Spec_Face Proof_Face Proof_Face1 Proof_Face5 Model_Grid Spec_Grid
  Proof_Grid Proof_Grid2 Proof_Grid4 Proof_Grid5 Model_Corner Spec_Corner Proof_Corner1 Proof_Corner2 Proof_Corner3 Proof_Corner4
  Model_Geoclaw Spec_Geoclaw Proof_Geoclaw Proof_Geoclaw2 Proof_Geoclaw3 Prop_Grid Prop_Corner.
From Verif Require Proof_Grid3.
Import ListNotations.
Open Scope Z_scope.

(** ** Coarsening *)

Theorem C64_average2coarse : forall d, even_size d -> 3 <= meqn d -> 0 <= mbc d ->
  forall maux mcapa tol, 1 <= maux -> 0 <= mcapa <= maux -> (0 <= tol)%Q ->
  forall qfine auxfine auxcoarse F A C q,
  (forall g, 0 <= g < 4 -> holds d (qfine g) (F g)) ->
  (forall g, 0 <= g < 4 -> holds_all (with_entries d maux) (auxfine g) (A g)) ->
  holds_all (with_entries d maux) auxcoarse C ->
  (forall g, 0 <= g < 4 -> sane d mcapa (F g) (A g)) ->
  (forall i j, 1 <= i <= mx d -> 1 <= j <= my d -> (0 < cap mcapa C (i, j))%Q) ->
  exists q', geo_average2coarse d maux tol mcapa qfine auxfine auxcoarse q = Some q' /\
    (forall g i j, covers d g i j -> exists h hu hv,
       q' (i, j, 1) = Some h /\ q' (i, j, 2) = Some hu /\ q' (i, j, 3) = Some hv /\
       coarsened (fun v => four d g i j (fun x y => v (x, y))) tol (cap mcapa (A g)) (F g) (A g)
         (bottom C (i, j)) (cap mcapa C (i, j)) h hu hv) /\
    (forall i j mq, ~ (1 <= i <= mx d /\ 1 <= j <= my d /\ 1 <= mq <= 3) -> q' (i, j, mq) = q (i, j, mq)).
Proof.
  intros d Hd Heq Hb maux mcapa tol Hmaux Hcap Htol qf af ac F A C q HF HA HC HS HP.
  destruct (regrid_ok d Hd maux mcapa tol Heq Hcap Hmaux Hb Htol qf af ac F A C HF HA HC HS HP q q)
    as (q' & E & V & U & _); [intros c []|].
  exists q'. split; [exact E|]. split.
  - intros g i j HV. pose proof HV as (Hg & Hi & Hj).
    destruct (grid_facts d g Hd Hg) as (_ & _ & _ & _ & E1 & E2 & _ & _ & _ & _ & Ox & Oy).
    assert (Hcov : cover_of d i j = g) by (symmetry; apply covers_iff; [exact Hd|lia|lia|exact HV]).
    assert (X := regrid_coarsened d Hd maux mcapa tol Hcap Htol F A C HS HP g i j HV).
    do 3 eexists. split; [|split; [|split; [|exact X]]]; (rewrite V by lia; unfold rarr; rewrite Hcov; reflexivity).
  - intros i j mq H. apply U. exact H.
Qed.
Print Assumptions C64_average2coarse.

(** Coarse ghost cells beyond a face with finer patches behind it. *)
Theorem C64_average_face : forall rnd, rounding rnd ->
  forall d m ip op f nf o pos ft maux mcapa tol,
  half_size f nf o pos ip op ft -> square d m (level op) -> Z.Even m -> 0 <= mbc d -> 2 * mbc d <= m -> 3 <= meqn d ->
  1 <= maux -> 0 <= mcapa <= maux -> (0 <= tol)%Q ->
  forall qfine auxfine auxcoarse F A C q,
  holds d qfine F -> holds_all (with_entries d maux) auxfine A -> holds_all (with_entries d maux) auxcoarse C ->
  sane d mcapa F A -> (forall i j, (0 < cap mcapa C (i, j))%Q) ->
  exists q', geo_average_face rnd d maux tol mcapa q qfine auxcoarse auxfine (f / 2) f (mkT ip op ft) = Some q' /\
    (forall dep t, 1 <= dep <= mbc d -> 1 <= t <= m -> in_half m pos t -> let p := ghost_cell f m dep t in
       exists h hu hv, q' (at3 p 1) = Some h /\ q' (at3 p 2) = Some hu /\ q' (at3 p 3) = Some hv /\
       coarsened (four_behind nf o pos m dep t) tol (cap mcapa A) F A (bottom C p) (cap mcapa C p) h hu hv) /\
    (forall c, (forall dep t mq, 1 <= dep <= mbc d -> 1 <= t <= m -> 1 <= mq <= 3 -> in_half m pos t ->
                  c <> at3 (ghost_cell f m dep t) mq) -> q' c = q c).
Proof.
  intros rnd Hrnd d m ip op f nf o pos ft maux mcapa tol HS HQ Hev Hb0 Hb Heq Hmaux Hcap Htol qf af ac F A C q HF HA HC Hsane HP.
  pose proof HS as (_ & Hp & Hf & Hn & _). pose proof HQ as (Hx & Hy & Hm & _).
  destruct (geo_average_face_ok rnd Hrnd d m f nf o pos (conj Hx Hy) Hev maux mcapa tol Heq Hcap Hmaux Hb0 Hb Htol qf af ac F A C
    HF HA HC Hsane HP ip op ft q HS HQ q) as (q' & E & V & U & _); [intros c []|].
  exists q'. split; [exact E|]. split.
  - intros dep t Hd Ht HH p. destruct (depth_ghost f m dep t Hf) as [D1 D2]. fold p in D1, D2.
    set (c := fun s r => inner_cell nf m (2 * dep - s) (flip o m (2 * t - r - pos * m))).
    assert (FI : forall sx sy, fimage f nf o pos m p sx sy =
      c (if Z.odd f then 1 - nchild f sx sy else nchild f sx sy) (1 - tchild f sx sy)).
    { intros sx sy. unfold fimage, c, fdepth. rewrite D1, D2. f_equal.
      - destruct (Z.odd f); lia.
      - f_equal. lia. }
    assert (IN : forall sx sy, 0 <= sx <= 1 -> 0 <= sy <= 1 -> Proof_Geoclaw.inside d (fimage f nf o pos m p sx sy)).
    { intros sx sy Hsx Hsy. rewrite FI. unfold c.
      assert (B1 : 0 <= nchild f sx sy <= 1) by (clear - Hf Hsx Hsy; face4 f Hf; cbn [nchild]; lia).
      assert (B2 : 0 <= tchild f sx sy <= 1) by (clear - Hf Hsx Hsy; face4 f Hf; cbn [tchild]; lia).
      assert (B3 : 1 <= 2 * dep - (if Z.odd f then 1 - nchild f sx sy else nchild f sx sy) <= m) by (destruct (Z.odd f); lia).
      assert (B4 : 1 <= flip o m (2 * t - (1 - tchild f sx sy) - pos * m) <= m).
      { unfold in_half in HH. destruct Hev as [k Ek]. assert (E2 : m / 2 = k) by (rewrite Ek, Z.mul_comm, Z.div_mul; lia).
        rewrite E2 in HH. unfold flip. assert (Ep : pos = 0 \/ pos = 1) by lia. destruct Ep as [->| ->]; destruct o; lia. }
      revert B3 B4. generalize (2 * dep - (if Z.odd f then 1 - nchild f sx sy else nchild f sx sy))
        (flip o m (2 * t - (1 - tchild f sx sy) - pos * m)). intros a b B3 B4.
      unfold Proof_Geoclaw.inside. rewrite Hx, Hy. clear - Hn B3 B4. face4 nf Hn; cbn [inner_cell fst snd]; lia. }
    assert (SUM : forall v : Z * Z -> Q,
      (four_behind nf o pos m dep t v == let k := fimage f nf o pos m p in v (k 0%Z 0%Z) + v (k 1%Z 0%Z) + v (k 0%Z 1%Z) + v (k 1%Z 1%Z))%Q).
    { intros v. cbv zeta. rewrite !FI. unfold four_behind. fold (c 0 0) (c 0 1) (c 1 0) (c 1 1).
      clear - Hf. face4 f Hf; cbn [Z.odd nchild tchild];
        change (1 - 0) with 1; change (1 - 1) with 0; ring. }
    assert (X := face_coarsened d m f nf o maux mcapa tol Hcap Htol F A C Hsane HP pos p (four_behind nf o pos m dep t) IN SUM).
    assert (VV : forall mq, 1 <= mq <= 3 -> q' (at3 p mq) = Some (stored (ftot m f nf o mcapa tol F A pos p) (bottom C p) (cap mcapa C p) mq)).
    { intros mq Hq. rewrite V.
      - unfold at3, farr. rewrite <- surjective_pairing. reflexivity.
      - unfold at3. cbn [fst snd]. rewrite <- surjective_pairing. unfold ghost2. rewrite D1, D2. split; [lia|]. split; [lia|exact HH]. }
    do 3 eexists. split; [|split; [|split; [|exact X]]]; apply VV; lia.
  - intros [[i j] mq] Hc. apply U. cbn [fst snd]. intros ((G1 & G2) & G3 & M).
    apply (Hc (depth f m (i, j)) (posn f (i, j)) mq G1 G2 G3 M). rewrite (ghost_depth f m (i, j) Hf). reflexivity.
Qed.
Print Assumptions C64_average_face.

(** Coarse corner ghost cells with a finer patch at the corner. *)
Theorem C64_average_corner : forall rnd, rounding rnd ->
  forall d m f nf o u ip op c maux mcapa tol,
  touches_corner f nf o u ip op c -> level op = level ip + 1 -> square d m (level op) ->
  0 <= mbc d -> 2 * mbc d <= m -> 3 <= meqn d -> 1 <= maux -> 0 <= mcapa <= maux -> (0 <= tol)%Q ->
  forall qfine auxfine auxcoarse F A C q,
  holds d qfine F -> holds_all (with_entries d maux) auxfine A -> holds_all (with_entries d maux) auxcoarse C ->
  sane d mcapa F A -> (forall i j, (0 < cap mcapa C (i, j))%Q) ->
  exists q', geo_average_corner rnd d maux tol mcapa q qfine auxcoarse auxfine (corner_on f u) c = Some q' /\
    (forall a b, 1 <= a <= mbc d -> 1 <= b <= mbc d -> let p := ghost_cell f m a (past u m b) in
       exists h hu hv, q' (at3 p 1) = Some h /\ q' (at3 p 2) = Some hu /\ q' (at3 p 3) = Some hv /\
       coarsened (four_at_corner nf o u m a b) tol (cap mcapa A) F A (bottom C p) (cap mcapa C p) h hu hv) /\
    (forall x, (forall a b mq, 1 <= a <= mbc d -> 1 <= b <= mbc d -> 1 <= mq <= 3 ->
                  x <> at3 (ghost_cell f m a (past u m b)) mq) -> q' x = q x).
Proof.
  intros rnd Hrnd d m f nf o u ip op c maux mcapa tol HT HL HQ Hb0 Hb Heq Hmaux Hcap Htol qf af ac F A C q HF HA HC Hsane HP.
  pose proof HQ as (Hx & Hy & Hm & HR). pose proof (proj1 HT) as Hf. pose proof (proj1 (proj2 HT)) as Hn.
  destruct (geo_average_corner_ok rnd Hrnd d m f nf o (conj Hx Hy) maux mcapa tol Heq Hcap Hmaux Hb0 Hb Htol qf af ac F A C
    HF HA HC Hsane HP Hm u ip op c HT Hf Hn HL HR q q) as (q' & E & V & U & _); [intros x []|].
  exists q'. split; [exact E|]. split.
  - intros a b Ha Hbb p.
    assert (IN := corner_in d m f nf o (conj Hx Hy) Hb u ip op c HT Hf Hn a b Ha Hbb). fold p in IN.
    assert (SUM : forall v : Z * Z -> Q, (four_at_corner nf o u m a b v ==
      let k := fimage f nf o (ends2 u) m p in v (k 0%Z 0%Z) + v (k 1%Z 0%Z) + v (k 0%Z 1%Z) + v (k 1%Z 1%Z))%Q).
    { intros v. cbv zeta. rewrite <- (four_of_fimage m f nf o u a b v Hf). reflexivity. }
    assert (X := face_coarsened d m f nf o maux mcapa tol Hcap Htol F A C Hsane HP (ends2 u) p (four_at_corner nf o u m a b) IN SUM).
    assert (VV : forall mq, 1 <= mq <= 3 -> q' (at3 p mq) = Some (stored (ftot m f nf o mcapa tol F A (ends2 u) p) (bottom C p) (cap mcapa C p) mq)).
    { intros mq Hq. rewrite V.
      - unfold at3, farr. rewrite <- surjective_pairing. reflexivity.
      - exists a, b, mq. split; [exact Ha|]. split; [exact Hbb|]. split; [exact Hq|reflexivity]. }
    do 3 eexists. split; [|split; [|split; [|exact X]]]; apply VV; lia.
  - intros x Hx'. apply U. intros (a & b & mq & Ha & Hbb & Hq & Ex). now apply (Hx' a b mq).
Qed.
Print Assumptions C64_average_corner.

(** *** What the coarse values are worth *)

(** four sums of the same four cells *)
Lemma sum_four : forall S ps, adds_four S ps -> exists a b c e, ps = [a; b; c; e] /\ forall v, (S v == v a + v b + v c + v e)%Q.
Proof.
  intros S ps (HL & HS). destruct ps as [|a [|b [|c [|e [|]]]]]; try discriminate.
  exists a, b, c, e. split; [reflexivity|]. intros v. rewrite HS. cbn [fold_right]. ring.
Qed.

Definition cells_ok (tol : Q) (w : Z * Z -> Q) (F : data) (ps : list (Z * Z)) : Prop :=
  (0 <= tol)%Q /\ forall p, In p ps -> (0 <= w p /\ 0 <= water F p)%Q.

Lemma wet_pos : forall tol w h, (0 <= tol)%Q -> is_wet tol w h = true -> (0 < w * h)%Q.
Proof.
  intros tol w h Ht H. unfold is_wet in H. apply negb_true_iff in H.
  assert (~ (w * h <= tol)%Q) by (intros K; apply Qle_bool_iff in K; congruence). lra.
Qed.

(** Any of the three sums of the regridding and ghost filling routines does add up four cells. *)
Lemma four_adds : forall d g i j, exists ps, adds_four (fun v => four d g i j (fun x y => v (x, y))) ps.
Proof.
  intros d g i j. exists [(sub (off_x d g) i 0, sub (off_y d g) j 0); (sub (off_x d g) i 1, sub (off_y d g) j 0);
    (sub (off_x d g) i 0, sub (off_y d g) j 1); (sub (off_x d g) i 1, sub (off_y d g) j 1)].
  split; [reflexivity|]. intros v. unfold four. cbn [fold_right]. ring.
Qed.

Section Meaning.
  Variable S : (Z * Z -> Q) -> Q.
  Variable ps : list (Z * Z).
  Hypothesis HS : adds_four S ps.
  Variable tol : Q.
  Variable w : Z * Z -> Q.
  Variable F A : data.
  Hypothesis Hok : cells_ok tol w F ps.
  Variable bc wc h hu hv : Q.
  Hypothesis Hwc : (0 < wc)%Q.
  Hypothesis HC : coarsened S tol w F A bc wc h hu hv.

  Notation wet p := (is_wet tol (w p) (water F p)).
  Notation n := (S (fun p => if wet p then 1 else 0)%Q).
  Notation all := (S (fun p => w p * water F p)%Q).

  Lemma mean_abstract : exists a b c e, ps = [a; b; c; e] /\ (forall v, S v == v a + v b + v c + v e)%Q /\
    (forall p, In p [a; b; c; e] -> 0 <= w p * water F p)%Q.
  Proof.
    destruct (sum_four S ps HS) as (a & b & c & e & E & HV). exists a, b, c, e. split; [exact E|]. split; [exact HV|].
    intros p Hp. rewrite <- E in Hp. destruct (proj2 Hok p Hp) as [X Y]. now apply Qmult_le_0_compat.
  Qed.

  Lemma all_nonneg : (0 <= all)%Q.
  Proof.
    destruct mean_abstract as (a & b & c & e & _ & HV & HP). rewrite HV.
    pose proof (HP a ltac:(cbn; tauto)). pose proof (HP b ltac:(cbn; tauto)).
    pose proof (HP c ltac:(cbn; tauto)). pose proof (HP e ltac:(cbn; tauto)). lra.
  Qed.

  Lemma all_pos : (0 < n)%Q -> (0 < all)%Q.
  Proof.
    destruct mean_abstract as (a & b & c & e & _ & HV & HP). rewrite !HV.
    pose proof (HP a ltac:(cbn; tauto)). pose proof (HP b ltac:(cbn; tauto)).
    pose proof (HP c ltac:(cbn; tauto)). pose proof (HP e ltac:(cbn; tauto)).
    pose proof (fun p => wet_pos tol (w p) (water F p) (proj1 Hok)) as W.
    pose proof (W a). pose proof (W b). pose proof (W c). pose proof (W e).
    destruct (wet a), (wet b), (wet c), (wet e); intros N;
      repeat match goal with K : true = true -> _ |- _ => specialize (K eq_refl) end; lra.
  Qed.

  Lemma div_nonneg : forall x y, (0 <= x -> 0 < y -> 0 <= x / y)%Q.
  Proof. intros x y Hx Hy. apply Qle_shift_div_l; [exact Hy|]. lra. Qed.

  Lemma depth_times : (0 < n)%Q -> (0 <= wc * h)%Q /\ (n * (wc * h) <= all)%Q.
  Proof.
    intros N. destruct HC as [(Z0 & _)|(_ & E & _)]; [lra|].
    assert (D : (0 <= all / n)%Q) by (apply div_nonneg; [apply all_nonneg|exact N]).
    assert (M1 := Q.le_max_r (S (fun p => if wet p then w p * (water F p + bottom A p) else 0)%Q / n - wc * bc) 0).
    set (M := Qmax _ 0) in *. split.
    - rewrite E. apply Q.min_glb; assumption.
    - assert (L := Q.le_min_l (all / n) M). rewrite <- E in L.
      assert (X : (n * (wc * h) <= n * (all / n))%Q) by (rewrite (Qmult_comm n (wc * h)), (Qmult_comm n (all / n)); apply Qmult_le_compat_r; lra).
      assert (Y : (n * (all / n) == all)%Q) by (field; lra). lra.
  Qed.

  Lemma wc_cancel : forall x, (0 <= wc * x)%Q -> (0 <= x)%Q.
  Proof. intros x H. destruct (Qlt_le_dec x 0) as [L|L]; [|exact L]. exfalso. nra. Qed.

  Lemma depth_nonneg : (0 <= h)%Q.
  Proof.
    destruct HC as [(_ & -> & _)|(N & _)]; [lra|]. apply wc_cancel. now apply depth_times.
  Qed.

  Lemma h_pos_all : (0 < n)%Q -> (n == 4)%Q -> (4 * (wc * h) == all)%Q -> (0 < h)%Q.
  Proof.
    intros N _ E. pose proof (all_pos N). destruct (Qlt_le_dec 0 h) as [L|L]; [exact L|]. exfalso. nra.
  Qed.

  Lemma all_wet_sums : (forall p, In p ps -> wet p = true) -> (n == 4)%Q /\
    (forall v, S (fun p => if wet p then v p else 0) == S v)%Q.
  Proof.
    intros W. destruct (sum_four S ps HS) as (a & b & c & e & E & HV). subst ps.
    pose proof (W a ltac:(cbn; tauto)) as Wa. pose proof (W b ltac:(cbn; tauto)) as Wb.
    pose proof (W c ltac:(cbn; tauto)) as Wc. pose proof (W e ltac:(cbn; tauto)) as We.
    split; [|intros v]; rewrite !HV, Wa, Wb, Wc, We; lra.
  Qed.

  Lemma kept : (forall p, In p ps -> wet p = true) -> (S (fun p => w p * bottom A p) == 4 * (wc * bc))%Q ->
    (4 * (wc * h) == all)%Q /\ (4 * (wc * hu) == S (fun p => w p * momentum F 1 p))%Q /\
    (4 * (wc * hv) == S (fun p => w p * momentum F 2 p))%Q.
  Proof.
    intros W HB. destruct (all_wet_sums W) as [N4 SV].
    destruct HC as [(Z0 & _)|(N & E & Eu & Ev)]; [lra|].
    rewrite (SV (fun p => w p * momentum F 1 p)%Q) in Eu. rewrite (SV (fun p => w p * momentum F 2 p)%Q) in Ev.
    rewrite (SV (fun p => w p * (water F p + bottom A p))%Q) in E.
    assert (SPLIT : (S (fun p => w p * (water F p + bottom A p)) == all + S (fun p => w p * bottom A p))%Q).
    { destruct (sum_four S ps HS) as (a & b & c & e & _ & HV). rewrite !HV. ring. }
    rewrite SPLIT, HB in E.
    pose proof all_nonneg as P0. pose proof (all_pos N) as P1.
    assert (K : (4 * (wc * h) == all)%Q).
    { rewrite E, N4. rewrite Q.min_l; [field|]. apply Qle_trans with (all / 4 + wc * bc - wc * bc)%Q; [lra|].
      apply Qle_trans with ((all + 4 * (wc * bc)) / 4 - wc * bc)%Q; [apply Qle_lteq; right; field|apply Q.le_max_l]. }
    split; [exact K|]. pose proof (h_pos_all N N4 K) as Hh.
    assert (CAN : forall x y, (x * all == h * y)%Q -> (4 * (wc * x) == y)%Q).
    { intros x y XY. rewrite <- K in XY. apply (Qmult_inj_l _ _ h); [lra|]. rewrite <- XY. ring. }
    split; apply CAN; assumption.
  Qed.
End Meaning.

(** The coarse depth is never negative, and there is not more water in the coarse cell than there was, counted over as
    many of the four quarters as were wet; if all four were dry, the coarse cell is dry and at rest. *)
Theorem C64_depth : forall S ps tol w F A bc wc h hu hv, adds_four S ps -> cells_ok tol w F ps -> (0 < wc)%Q ->
  coarsened S tol w F A bc wc h hu hv ->
  (0 <= h)%Q /\
  ((forall p, In p ps -> is_wet tol (w p) (water F p) = true) -> 4 * (wc * h) <= S (fun p => w p * water F p))%Q /\
  ((forall p, In p ps -> is_wet tol (w p) (water F p) = false) -> h == 0 /\ hu == 0 /\ hv == 0)%Q.
Proof.
  intros S ps tol w F A bc wc h hu hv HS Hok Hwc HC. split; [now apply (depth_nonneg S ps HS tol w F A Hok bc wc h hu hv)|]. split.
  - intros W. destruct (all_wet_sums S ps HS tol w F Hok W) as [N4 _].
    destruct (depth_times S ps HS tol w F A Hok bc wc h hu hv HC) as [_ D]; [lra|].
    rewrite N4 in D. exact D.
  - intros W. destruct HC as [(_ & D)|(N & _)]; [exact D|exfalso].
    destruct (sum_four S ps HS) as (a & b & c & e & E & HV). subst ps. rewrite HV in N.
    rewrite (W a), (W b), (W c), (W e) in N by (cbn; tauto). lra.
Qed.
Print Assumptions C64_depth.

(** All four quarters wet, and the coarse bottom is the mean of the fine one: no water and no momentum is lost. *)
Theorem C64_mass : forall S ps tol w F A bc wc h hu hv, adds_four S ps -> cells_ok tol w F ps -> (0 < wc)%Q ->
  coarsened S tol w F A bc wc h hu hv ->
  (forall p, In p ps -> is_wet tol (w p) (water F p) = true) -> (S (fun p => w p * bottom A p) == 4 * (wc * bc))%Q ->
  (4 * (wc * h) == S (fun p => w p * water F p) /\
   4 * (wc * hu) == S (fun p => w p * momentum F 1 p) /\ 4 * (wc * hv) == S (fun p => w p * momentum F 2 p))%Q.
Proof.
  intros S ps tol w F A bc wc h hu hv HS Hok Hwc HC W HB.
  now apply (kept S ps HS tol w F A Hok bc wc h hu hv Hwc HC W HB).
Qed.
Print Assumptions C64_mass.

(** ... and a level surface stays level: water at rest stays at rest. *)
Theorem C64_rest_coarsened : forall S ps tol w F A bc wc h hu hv eta, adds_four S ps -> cells_ok tol w F ps -> (0 < wc)%Q ->
  coarsened S tol w F A bc wc h hu hv ->
  (forall p, In p ps -> is_wet tol (w p) (water F p) = true) ->
  (S w == 4 * wc)%Q -> (S (fun p => w p * bottom A p) == 4 * (wc * bc))%Q ->
  (forall p, In p ps -> water F p + bottom A p == eta)%Q ->
  (h + bc == eta /\
   ((forall p, In p ps -> momentum F 1 p == 0 /\ momentum F 2 p == 0) -> hu == 0 /\ hv == 0))%Q.
Proof.
  intros S ps tol w F A bc wc h hu hv eta HS Hok Hwc HC W HW HB HE.
  destruct (kept S ps HS tol w F A Hok bc wc h hu hv Hwc HC W HB) as (K & Ku & Kv).
  destruct (sum_four S ps HS) as (a & b & c & e & E & HV). subst ps.
  assert (Ea := HE a ltac:(cbn; tauto)). assert (Eb := HE b ltac:(cbn; tauto)).
  assert (Ec := HE c ltac:(cbn; tauto)). assert (Ee := HE e ltac:(cbn; tauto)).
  assert (CAN : forall x y, (wc * x == wc * y)%Q -> (x == y)%Q) by (intros x y XY; apply (Qmult_inj_l _ _ wc); [lra|exact XY]).
  split.
  - apply CAN. rewrite HV in K, HW, HB.
    assert (X : forall p, (water F p + bottom A p == eta)%Q -> (w p * water F p == eta * w p - w p * bottom A p)%Q).
    { intros p Hp. assert (Y : (water F p == eta - bottom A p)%Q) by lra. rewrite Y. ring. }
    rewrite (X a Ea), (X b Eb), (X c Ec), (X e Ee) in K.
    assert (Y : (4 * (wc * h) + 4 * (wc * bc) == eta * (4 * wc))%Q) by (rewrite <- HW, <- HB, K; ring). lra.
  - intros HM.
    assert (Z0 : forall k, (k = 1 \/ k = 2)%Z -> (S (fun p => w p * momentum F k p) == 0)%Q).
    { intros k Hk. rewrite HV.
      assert (M : forall p, In p [a; b; c; e] -> (momentum F k p == 0)%Q).
      { intros p Hp. destruct (HM p Hp). destruct Hk as [->| ->]; assumption. }
      rewrite (M a), (M b), (M c), (M e) by (cbn; tauto). ring. }
    rewrite (Z0 1) in Ku by tauto. rewrite (Z0 2) in Kv by tauto.
    split; apply CAN; lra.
Qed.
Print Assumptions C64_rest_coarsened.

(** The coarse water moves no faster than the fine water did: velocities between [lo] and [hi] stay there (a fine cell
    that counts as dry contributes water but no momentum, hence [lo <= 0 <= hi]). *)
Theorem C64_velocity : forall S ps tol w F A bc wc h hu hv lo hi, adds_four S ps -> cells_ok tol w F ps -> (0 < wc)%Q ->
  coarsened S tol w F A bc wc h hu hv -> (lo <= 0 <= hi)%Q ->
  (forall p, In p ps -> is_wet tol (w p) (water F p) = true ->
     lo * water F p <= momentum F 1 p <= hi * water F p /\ lo * water F p <= momentum F 2 p <= hi * water F p)%Q ->
  (lo * h <= hu <= hi * h /\ lo * h <= hv <= hi * h)%Q.
Proof.
  intros S ps tol w F A bc wc h hu hv lo hi HS Hok Hwc HC HL HM.
  pose proof (depth_nonneg S ps HS tol w F A Hok bc wc h hu hv Hwc HC) as H0.
  destruct HC as [(_ & Eh & Eu & Ev)|(N & E & Eu & Ev)]; [rewrite Eh, Eu, Ev; lra|].
  pose proof (all_pos S ps HS tol w F Hok N) as P.
  destruct (sum_four S ps HS) as (a & b & c & e & EP & HV). subst ps.
  assert (BND : forall k p, (k = 1 \/ k = 2)%Z -> In p [a; b; c; e] ->
    (lo * (w p * water F p) <= (if is_wet tol (w p) (water F p) then w p * momentum F k p else 0) <= hi * (w p * water F p))%Q).
  { intros k p Hk Hp. destruct (proj2 Hok p Hp) as [W0 F0]. pose proof (Qmult_le_0_compat _ _ W0 F0).
    destruct (is_wet tol (w p) (water F p)) eqn:EW; [|split; nra].
    assert (M : (lo * water F p <= momentum F k p <= hi * water F p)%Q).
    { destruct (HM p Hp EW). destruct Hk as [->| ->]; assumption. }
    split; nra. }
  assert (GO : forall k x, (k = 1 \/ k = 2)%Z ->
    (x * S (fun p => w p * water F p) == h * S (fun p => if is_wet tol (w p) (water F p) then w p * momentum F k p else 0))%Q ->
    (lo * h <= x <= hi * h)%Q).
  { intros k x Hk EX. rewrite HV in P. rewrite !HV in EX.
    pose proof (BND k a Hk ltac:(cbn; tauto)) as Ba. pose proof (BND k b Hk ltac:(cbn; tauto)) as Bb.
    pose proof (BND k c Hk ltac:(cbn; tauto)) as Bc. pose proof (BND k e Hk ltac:(cbn; tauto)) as Be.
    cbv beta in *.
    set (T := (_ + _ + _ + _)%Q) in EX at 1. set (M := (_ + _ + _ + _)%Q) in EX.
    assert (BM : (lo * T <= M <= hi * T)%Q) by (unfold T, M; split; lra).
    assert (PT : (0 < T)%Q) by exact P. clearbody T M. clear - H0 EX BM PT.
    assert (L1 : (lo * h * T <= x * T)%Q) by (rewrite EX; destruct BM as [B1 _]; nra).
    assert (L2 : (x * T <= hi * h * T)%Q) by (rewrite EX; destruct BM as [_ B2]; nra).
    split; apply (Qmult_le_r _ _ T PT); assumption. }
  split; [apply (GO 1%Z)|apply (GO 2%Z)]; tauto.
Qed.
Print Assumptions C64_velocity.

(** *** Whole patches *)

(** All fine cells wet and the coarse bottom the mean of the fine one: the amount of water in a patch is that of its four
    children (each fine cell a quarter of a coarse one). *)
Theorem C64_patch_mass : forall d, even_size d -> 3 <= meqn d -> 0 <= mbc d ->
  forall maux mcapa tol, 1 <= maux -> 0 <= mcapa <= maux -> (0 <= tol)%Q ->
  forall qfine auxfine auxcoarse F A C q q' f,
  (forall g, 0 <= g < 4 -> holds d (qfine g) (F g)) ->
  (forall g, 0 <= g < 4 -> holds_all (with_entries d maux) (auxfine g) (A g)) ->
  holds_all (with_entries d maux) auxcoarse C ->
  (forall g, 0 <= g < 4 -> sane d mcapa (F g) (A g)) ->
  (forall i j, 1 <= i <= mx d -> 1 <= j <= my d -> (0 < cap mcapa C (i, j))%Q) ->
  (forall g i j, 0 <= g < 4 -> 1 <= i <= mx d -> 1 <= j <= my d -> is_wet tol (cap mcapa (A g) (i, j)) (water (F g) (i, j)) = true) ->
  (forall g i j, covers d g i j ->
     four d g i j (fun x y => cap mcapa (A g) (x, y) * bottom (A g) (x, y)) == 4 * (cap mcapa C (i, j) * bottom C (i, j)))%Q ->
  geo_average2coarse d maux tol mcapa qfine auxfine auxcoarse q = Some q' -> holds d q' f ->
  (4 * total d (fun i j => cap mcapa C (i, j) * water f (i, j)) ==
   total d (fun i j => cap mcapa (A 0%Z) (i, j) * water (F 0%Z) (i, j)) + total d (fun i j => cap mcapa (A 1%Z) (i, j) * water (F 1%Z) (i, j)) +
   total d (fun i j => cap mcapa (A 2%Z) (i, j) * water (F 2%Z) (i, j)) + total d (fun i j => cap mcapa (A 3%Z) (i, j) * water (F 3%Z) (i, j)))%Q.
Proof.
  intros d Hd Heq Hb maux mcapa tol Hmaux Hcap Htol qf af ac F A C q q' f HF HA HC HS HP HW HB E Hf.
  destruct (C64_average2coarse d Hd Heq Hb maux mcapa tol Hmaux Hcap Htol qf af ac F A C q HF HA HC HS HP) as (q1 & E1 & V & _).
  rewrite E in E1. injection E1 as <-.
  rewrite <- (total_children d (fun g i j => cap mcapa (A g) (i, j) * water (F g) (i, j))%Q Hd).
  rewrite <- total_scale. apply total_ext. intros i j Hi Hj.
  set (g := cover_of d i j). assert (HV : covers d g i j) by now apply covers_iff.
  destruct (V g i j HV) as (h & hu & hv & Q1 & Q2 & Q3 & CO).
  assert (Eh : water f (i, j) = h).
  { unfold water. cbn [fst snd]. rewrite (Hf i j 1) in Q1 by (unfold interior; lia). now injection Q1. }
  rewrite Eh.
  set (ps := [fsub d g i j 0 0; fsub d g i j 1 0; fsub d g i j 0 1; fsub d g i j 1 1]).
  assert (AD : adds_four (fun v => four d g i j (fun x y => v (x, y))) ps).
  { split; [reflexivity|]. intros v. unfold four, ps, fsub. cbn [fold_right]. ring. }
  pose proof (proj1 HV) as Hg.
  assert (INS : forall p, In p ps -> Proof_Geoclaw.inside d p).
  { intros p Hp. unfold ps in Hp. cbn [In] in Hp. destruct Hp as [<-|[<-|[<-|[<-|[]]]]]; apply (fsub_inside d Hd); (exact HV || lia). }
  assert (CK : cells_ok tol (cap mcapa (A g)) (F g) ps).
  { split; [exact Htol|]. intros p Hp. destruct (sane_at d mcapa (F g) (A g) p (HS g Hg) (INS p Hp)). split; assumption. }
  assert (WET : forall p, In p ps -> is_wet tol (cap mcapa (A g) p) (water (F g) p) = true).
  { intros p Hp. destruct (INS p Hp) as [I1 I2]. rewrite (surjective_pairing p). apply HW; assumption. }
  destruct (C64_mass _ ps tol (cap mcapa (A g)) (F g) (A g) (bottom C (i, j)) (cap mcapa C (i, j)) h hu hv AD CK (HP i j Hi Hj) CO WET) as (M & _).
  - apply HB. exact HV.
  - exact M.
Qed.
Print Assumptions C64_patch_mass.
