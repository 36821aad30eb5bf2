(** Property C63, continued: regridding of extruded patches. *)
From Coq Require Import ZArith QArith Qminmax Qabs List Lia Lqa Bool Qfield.
From Verif Require Import Base_Float Model_Face Spec_Face Model_Grid Spec_Grid Proof_Grid Proof_Grid2
  Proof_Grid3 Prop_Grid Model_Corner Model_Extruded Spec_Extruded Proof_Extruded Prop_Extruded.
Import ListNotations.
Open Scope Z_scope.

(** ** Coarsening *)

Lemma cover_same : forall d i j, mx (flat d) = my (flat d) -> cover_of d i j = Proof_Grid2.cover_of (flat d) i j.
Proof.
  intros d i j H. unfold cover_of, Proof_Grid2.cover_of. rewrite <- H. rewrite !Z.ltb_antisym.
  destruct (i <=? mx (flat d) / 2), (j <=? mx (flat d) / 2); reflexivity.
Qed.

Lemma fine_sum_value : forall d volf vf k g i j, even_size (flat d) -> mx (flat d) = my (flat d) -> 0 <= mbc (flat d) ->
  vol_holds d (volf g) (vf g) -> 1 <= k <= mz d -> covers (flat d) g i j ->
  exists v, fine_sum d volf k (i, j) = Some v /\ (v == four (flat d) g i j (fun x y => vf g x y k))%Q.
Proof.
  intros d volf vf k g i j Hd Hsq Hb Hv Hk HC. pose proof HC as (Hg & Hi & Hj).
  destruct (grid_facts (flat d) g Hd Hg) as (_ & _ & _ & _ & E1 & E2 & _ & _ & _ & _ & Ox & Oy).
  assert (Ec : cover_of d i j = g).
  { rewrite (cover_same d i j Hsq). symmetry. apply covers_iff; [exact Hd|lia|lia|exact HC]. }
  unfold fine_sum. cbv zeta. rewrite Ec.
  assert (O1 : Z.quot (Z.rem g 2 * mx (flat d)) 2 = off_x (flat d) g /\ Z.quot (Z.quot (g - Z.rem g 2) 2 * mx (flat d)) 2 = off_y (flat d) g).
  { destruct Hd as ((h & Eh) & _ & Hx & _). unfold off_x, off_y, child_x, child_y. rewrite <- Hsq, Eh.
    assert (Q2 : Z.quot (2 * h) 2 = h) by (rewrite (Z.mul_comm 2 h); apply Z.quot_mul; lia).
    assert (D2 : (2 * h) / 2 = h) by (rewrite (Z.mul_comm 2 h); apply Z.div_mul; lia). rewrite D2.
    assert (G : g = 0 \/ g = 1 \/ g = 2 \/ g = 3) by lia.
    destruct G as [->|[->|[->| ->]]];
      [change (Z.rem 0 2) with 0; change (Z.quot (0 - 0) 2) with 0; change (0 mod 2) with 0; change (0 / 2) with 0
      |change (Z.rem 1 2) with 1; change (Z.quot (1 - 1) 2) with 0; change (1 mod 2) with 1; change (1 / 2) with 0
      |change (Z.rem 2 2) with 0; change (Z.quot (2 - 0) 2) with 1; change (2 mod 2) with 0; change (2 / 2) with 1
      |change (Z.rem 3 2) with 1; change (Z.quot (3 - 1) 2) with 1; change (3 mod 2) with 1; change (3 / 2) with 1];
      rewrite ?Z.mul_0_l, ?Z.mul_1_l, ?Q2; split; reflexivity. }
  destruct O1 as [-> ->].
  assert (RA : forall a b, 0 <= a <= 1 -> 0 <= b <= 1 ->
    rd_area (flat d) (vlay k (volf g)) ((i - off_x (flat d) g - 1) * 2 + (a + 1)) ((j - off_y (flat d) g - 1) * 2 + (b + 1)) =
    Some (vf g (sub (off_x (flat d) g) i a) (sub (off_y (flat d) g) j b) k)).
  { intros a b Ha Hb'. unfold rd_area.
    replace (_ && _ && _ && _) with true by (symmetry; rewrite !andb_true_iff, !Z.leb_le; lia).
    unfold vlay. replace ((i - off_x (flat d) g - 1) * 2 + (a + 1)) with (sub (off_x (flat d) g) i a) by (unfold sub; lia).
    replace ((j - off_y (flat d) g - 1) * 2 + (b + 1)) with (sub (off_y (flat d) g) j b) by (unfold sub; lia).
    apply Hv; unfold sub; lia. }
  unfold sum4. change (Z.rem 0 2) with 0. change (Z.quot 0 2) with 0. change (Z.rem 1 2) with 1. change (Z.quot 1 2) with 0.
  change (Z.rem 2 2) with 0. change (Z.quot 2 2) with 1. change (Z.rem 3 2) with 1. change (Z.quot 3 2) with 1.
  rewrite !RA by lia. cbn [bind]. eexists. split; [reflexivity|]. unfold four. ring.
Qed.

(** Every interior coarse cell gets the mean of the four fine cells of the same layer that cover it (on mapped grids,
    weighted by the volumes of the fine cells); other cells, including all ghost cells, keep their values. *)
Theorem C63_average2coarse : forall d, even_size (flat d) -> mx (flat d) = my (flat d) -> 0 <= mbc (flat d) -> 1 <= mz d ->
  forall (manifold : bool) qfine ff volfine vf q,
  (forall g, 0 <= g < 4 -> holds3 d (qfine g) (ff g)) ->
  (manifold = true -> forall g, 0 <= g < 4 -> vol_holds d (volfine g) (vf g)) ->
  exists q', average2coarse3 d qfine volfine manifold q = Some q' /\
    (forall g i j k mq, covers (flat d) g i j -> 1 <= k <= mz d -> 1 <= mq <= meqn (flat d) ->
       at_cell3 q' (i, j, k, mq)
         (if manifold then four (flat d) g i j (fun x y => vf g x y k * ff g x y k mq) / four (flat d) g i j (fun x y => vf g x y k)
          else four (flat d) g i j (fun x y => ff g x y k mq) / 4)%Q) /\
    (forall i j k mq, ~ (interior (flat d) (i, j, mq) /\ 1 <= k <= mz d) -> q' (i, j, k, mq) = q (i, j, k, mq)).
Proof.
  intros d Hd Hsq Hb Hz manifold qf ff volf vf q Hf Hv.
  set (kc k i j := match fine_sum d volf k (i, j) with Some v => v | None => 0%Q end).
  destruct (steps_apply d (average2coarse3 d qf volf manifold)
    (fun k => average2coarse (flat d) (fun g => lay k (qf g)) (fun g => vlay k (volf g)) (fine_sum d volf k) manifold) q
    (fun k s' => (forall g i j mq, covers (flat d) g i j -> 1 <= mq <= meqn (flat d) ->
       at_cell s' (i, j, mq)
         (if manifold then four (flat d) g i j (fun x y => vol_layer k (vf g) x y * in_layer k (ff g) x y mq) / kc k i j
          else four (flat d) g i j (fun x y => in_layer k (ff g) x y mq) / 4)%Q) /\
    (forall c, ~ interior (flat d) c -> s' c = lay k q c))) as (q' & E & A & B).
  - apply average2coarse_steps; [exact Hb|apply Hd|exact Hsq|]. destruct Hd as (_ & _ & Hx & _). lia.
  - intros k Hk. apply (C19_average2coarse (flat d) Hd Hsq Hb manifold (fun g => lay k (qf g)) (fun g => in_layer k (ff g))
      (fun g => vlay k (volf g)) (fun g => vol_layer k (vf g)) (fine_sum d volf k) (kc k) (lay k q)).
    + intros g Hg. exact (holds_lay d (qf g) (ff g) k (Hf g Hg) Hk).
    + intros M g Hg. exact (vol_lay d (volf g) (vf g) k (Hv M g Hg) Hk).
    + intros M i j Hi Hj. destruct (fine_sum_value d volf vf k (Proof_Grid2.cover_of (flat d) i j) i j Hd Hsq Hb) as (v & Ev & _).
      * apply Hv; [exact M|]. apply (proj1 (proj2 (covers_iff (flat d) i j _ Hd Hi Hj) eq_refl)).
      * exact Hk.
      * now apply covers_iff.
      * unfold kc. now rewrite Ev.
  - exists q'. split; [exact E|]. split.
    + intros g i j k mq HC Hk Hq. destruct (A k Hk) as (s' & _ & (P1 & _) & R).
      destruct (P1 g i j mq HC Hq) as (v & Ev & Hval). exists v. split; [rewrite R; exact Ev|]. rewrite Hval.
      destruct manifold; [|reflexivity].
      destruct (fine_sum_value d volf vf k g i j Hd Hsq Hb (Hv eq_refl g (proj1 HC)) Hk HC) as (w & Ew & Hw).
      unfold kc. rewrite Ew. apply Qmult_comp; [reflexivity|]. apply Qinv_comp. exact Hw.
    + intros i j k mq N. destruct (Z_le_dec 1 k) as [K1|K1]; [|apply B; lia]. destruct (Z_le_dec k (mz d)) as [K2|K2]; [|apply B; lia].
      destruct (A k (conj K1 K2)) as (s' & _ & (_ & P2) & R). rewrite R. rewrite P2; [reflexivity|]. tauto.
Qed.
Print Assumptions C63_average2coarse.

(** A constant stays a constant, whatever the volumes are. *)
Theorem C63_average_constant : forall d, even_size (flat d) -> mx (flat d) = my (flat d) -> 0 <= mbc (flat d) -> 1 <= mz d ->
  forall (manifold : bool) qfine volfine vf q (v : Q),
  (forall g, 0 <= g < 4 -> holds3 d (qfine g) (fun _ _ _ _ => v)) ->
  (manifold = true -> forall g, 0 <= g < 4 -> vol_holds d (volfine g) (vf g)) ->
  (manifold = true -> forall g i j k, covers (flat d) g i j -> 1 <= k <= mz d -> ~ (four (flat d) g i j (fun x y => vf g x y k) == 0)%Q) ->
  exists q', average2coarse3 d qfine volfine manifold q = Some q' /\
    forall i j k mq, interior (flat d) (i, j, mq) -> 1 <= k <= mz d -> at_cell3 q' (i, j, k, mq) v.
Proof.
  intros d Hd Hsq Hb Hz manifold qf volf vf q v Hf Hv Hn.
  destruct (C63_average2coarse d Hd Hsq Hb Hz manifold qf (fun _ _ _ _ _ => v) volf vf q Hf Hv) as (q' & E & A & _).
  exists q'. split; [exact E|]. intros i j k mq (Hi & Hj & Hq) Hk.
  assert (HC : covers (flat d) (Proof_Grid2.cover_of (flat d) i j) i j) by now apply covers_iff.
  destruct (A _ i j k mq HC Hk Hq) as (w & Ew & Hw). exists w. split; [exact Ew|]. rewrite Hw.
  destruct manifold; [|unfold four; field].
  pose proof (Hn eq_refl _ i j k HC Hk) as N. revert N. generalize (Proof_Grid2.cover_of (flat d) i j). intros g. unfold four.
  generalize (vf g (sub (off_x (flat d) g) i 0) (sub (off_y (flat d) g) j 0) k) (vf g (sub (off_x (flat d) g) i 1) (sub (off_y (flat d) g) j 0) k)
    (vf g (sub (off_x (flat d) g) i 0) (sub (off_y (flat d) g) j 1) k) (vf g (sub (off_x (flat d) g) i 1) (sub (off_y (flat d) g) j 1) k).
  intros a b c e N. field. intros X. apply N. rewrite <- X. ring.
Qed.
Print Assumptions C63_average_constant.

(** Mass: if every coarse cell has the volume of the four fine cells in it, the total is kept. *)
Theorem C63_mass : forall d, even_size (flat d) -> mx (flat d) = my (flat d) -> 0 <= mbc (flat d) -> 1 <= mz d ->
  forall qfine ff volfine vf vc q q' fc mq,
  (forall g, 0 <= g < 4 -> holds3 d (qfine g) (ff g)) ->
  (forall g, 0 <= g < 4 -> vol_holds d (volfine g) (vf g)) ->
  (forall g i j k, covers (flat d) g i j -> 1 <= k <= mz d -> (vc i j k == four (flat d) g i j (fun x y => vf g x y k))%Q /\ ~ (vc i j k == 0)%Q) ->
  average2coarse3 d qfine volfine true q = Some q' -> holds3 d q' fc -> 1 <= mq <= meqn (flat d) ->
  (total3 d (fun i j k => vc i j k * fc i j k mq) ==
   total3 d (fun i j k => vf 0%Z i j k * ff 0%Z i j k mq) + total3 d (fun i j k => vf 1%Z i j k * ff 1%Z i j k mq) +
   total3 d (fun i j k => vf 2%Z i j k * ff 2%Z i j k mq) + total3 d (fun i j k => vf 3%Z i j k * ff 3%Z i j k mq))%Q.
Proof.
  intros d Hd Hsq Hb Hz qf ff volf vf vc q q' fc mq Hf Hv Hc E Hh Hq.
  destruct (C63_average2coarse d Hd Hsq Hb Hz true qf ff volf vf q Hf (fun _ => Hv)) as (q1 & E1 & A & _).
  assert (q1 = q') by congruence. subst q1.
  unfold total3. rewrite <- !qsum_add. apply qsum_ext. intros k Hk.
  rewrite <- (total_children (flat d) (fun g i j => (vf g i j k * ff g i j k mq)%Q) Hd).
  apply total_ext. intros i j Hi Hj.
  assert (HC : covers (flat d) (Proof_Grid2.cover_of (flat d) i j) i j) by now apply covers_iff.
  destruct (A _ i j k mq HC Hk Hq) as (w & Ew & Hw). rewrite (Hh i j k mq) in Ew by (unfold interior; tauto).
  assert (w = fc i j k mq) by congruence. subst w. rewrite Hw.
  destruct (Hc _ i j k HC Hk) as [V N]. rewrite <- V. field. exact N.
Qed.
Print Assumptions C63_mass.

(** ** Refinement *)

Definition filled3 (d : dims3) (g : Z) (c : cell3) : Prop :=
  let '(i, j, k, mq) := c in filled (flat d) g (i, j, mq) /\ 1 <= k <= mz d.
Definition stencil3 (f : data3) (i j k mq : Z) : list Q := stencil (in_layer k f) i j mq.

(** The fine values of the four children add up to the coarse value (on mapped grids, weighted by volume), in every
    layer, and without a map stay between the coarse values around.  Nothing is interpolated between layers. *)
Theorem C63_interpolate2fine : forall d g, even_size (flat d) -> 2 <= mbc (flat d) -> 1 <= mz d -> 0 <= g < 4 ->
  forall (manifold : bool) qcoarse f volcoarse vc volfine vf qfine,
  holds_sides d qcoarse f -> vol_holds d volcoarse vc -> vol_holds d volfine vf ->
  (forall i j k, 1 <= i <= mx (flat d) -> 1 <= j <= my (flat d) -> 1 <= k <= mz d -> ~ (vf i j k == 0)%Q) ->
  exists q' f', interpolate2fine3 d qcoarse volcoarse volfine g manifold qfine = Some q' /\
    holds3 d q' f' /\
    (forall c, ~ filled3 d g c -> q' c = qfine c) /\
    (forall i j k mq, covers (flat d) g i j -> 1 <= k <= mz d -> 1 <= mq <= meqn (flat d) ->
       if manifold then (four (flat d) g i j (fun x y => vf x y k * f' x y k mq) == vc i j k * f i j k mq)%Q
       else (four (flat d) g i j (fun x y => f' x y k mq) == 4 * f i j k mq)%Q /\
            forall a b, 0 <= a <= 1 -> 0 <= b <= 1 ->
              within (stencil3 f i j k mq) (f' (sub (off_x (flat d) g) i a) (sub (off_y (flat d) g) j b) k mq)).
Proof.
  intros d g Hd Hb Hz Hg manifold qc f volc vc volf vf q Hf Hvc Hvf Hnz.
  set (val (s : arr) i j mq := match s (i, j, mq) with Some v => v | None => 0%Q end).
  destruct (grid_facts (flat d) g Hd Hg) as (_ & _ & _ & _ & E1 & E2 & _ & _ & _ & _ & Ox & Oy).
  destruct (steps_apply d (interpolate2fine3 d qc volc volf g manifold)
    (fun k => interpolate2fine (flat d) (lay k qc) (times_one (vlay k volc)) (times_one (vlay k volf)) g manifold) q
    (fun k s' => holds (flat d) s' (val s') /\ (forall c, ~ filled (flat d) g c -> s' c = lay k q c) /\
      (forall i j mq, covers (flat d) g i j -> 1 <= mq <= meqn (flat d) ->
       if manifold then (four (flat d) g i j (fun x y => vf x y k * val s' x y mq) == vc i j k * f i j k mq)%Q
       else (four (flat d) g i j (fun x y => val s' x y mq) == 4 * f i j k mq)%Q /\
            forall a b, 0 <= a <= 1 -> 0 <= b <= 1 ->
              within (stencil3 f i j k mq) (val s' (sub (off_x (flat d) g) i a) (sub (off_y (flat d) g) j b) mq)))) as (q' & E & A & B).
  - apply interpolate2fine_steps; lia.
  - intros k Hk.
    assert (T : forall a v, vol_holds d a v -> area_holds (flat d) (times_one (vlay k a)) (fun i j => (v i j k * 1)%Q)).
    { intros a v H i j Hi Hj. unfold times_one, vlay. now rewrite H. }
    destruct (C20_interpolate2fine (flat d) g Hd Hb Hg manifold (lay k qc) (in_layer k f) (times_one (vlay k volc)) (fun i j => (vc i j k * 1)%Q)
      (times_one (vlay k volf)) (fun i j => (vf i j k * 1)%Q) (lay k q)) as (s' & f1 & Es & Hh & O & C).
    + exact (holds_layer_lay d qc f k Hf Hk).
    + apply T, Hvc.
    + apply T, Hvf.
    + intros i j Hi Hj X. apply (Hnz i j k Hi Hj Hk). rewrite <- X. ring.
    + exists s'. split; [exact Es|].
      assert (EV : forall i j mq, interior (flat d) (i, j, mq) -> val s' i j mq = f1 i j mq).
      { intros i j mq Hin. unfold val. now rewrite (Hh i j mq Hin). }
      split; [intros i j mq Hin; rewrite (EV i j mq Hin); now apply Hh|]. split; [exact O|].
      intros i j mq HC Hq. specialize (C i j mq HC Hq). destruct HC as (_ & Hi & Hj).
      assert (S4 : forall a b, 0 <= a <= 1 -> 0 <= b <= 1 ->
        val s' (sub (off_x (flat d) g) i a) (sub (off_y (flat d) g) j b) mq = f1 (sub (off_x (flat d) g) i a) (sub (off_y (flat d) g) j b) mq).
      { intros a b Ha Hb'. apply EV. unfold interior, sub. lia. }
      destruct manifold.
      * unfold four in *. rewrite !S4 by lia. unfold in_layer in C.
        transitivity (vc i j k * 1 * f i j k mq)%Q; [|ring]. rewrite <- C. ring.
      * destruct C as [C1 C2]. split.
        -- unfold four in *. rewrite !S4 by lia. exact C1.
        -- intros a b Ha Hb'. rewrite S4 by assumption. exact (C2 a b Ha Hb').
  - exists q', (fun i j k mq => match q' (i, j, k, mq) with Some v => v | None => 0%Q end).
    split; [exact E|].
    assert (VAL : forall k, 1 <= k <= mz d -> exists s', (holds (flat d) s' (val s') /\ (forall c, ~ filled (flat d) g c -> s' c = lay k q c) /\
      (forall i j mq, covers (flat d) g i j -> 1 <= mq <= meqn (flat d) ->
       if manifold then (four (flat d) g i j (fun x y => vf x y k * val s' x y mq) == vc i j k * f i j k mq)%Q
       else (four (flat d) g i j (fun x y => val s' x y mq) == 4 * f i j k mq)%Q /\
            forall a b, 0 <= a <= 1 -> 0 <= b <= 1 ->
              within (stencil3 f i j k mq) (val s' (sub (off_x (flat d) g) i a) (sub (off_y (flat d) g) j b) mq))) /\ same k q' s' /\
      (forall i j mq, match q' (i, j, k, mq) with Some v => v | None => 0%Q end = val s' i j mq)).
    { intros k Hk. destruct (A k Hk) as (s' & _ & P & R). exists s'. split; [exact P|]. split; [exact R|].
      intros i j mq. unfold val. now rewrite R. }
    split; [|split].
    + intros i j k mq Hi Hk. destruct (VAL k Hk) as (s' & (P1 & _) & R & V). rewrite V, R. now apply P1.
    + intros [[[i j] k] mq] N. destruct (Z_le_dec 1 k) as [K1|K1]; [|apply B; lia]. destruct (Z_le_dec k (mz d)) as [K2|K2]; [|apply B; lia].
      destruct (VAL k (conj K1 K2)) as (s' & (_ & P2 & _) & R & V). rewrite R. rewrite P2; [reflexivity|].
      intros X. apply N. split; [exact X|lia].
    + intros i j k mq HC Hk Hq. destruct (VAL k Hk) as (s' & (_ & _ & P3) & R & V). specialize (P3 i j mq HC Hq).
      unfold four in *. destruct manifold.
      * rewrite !V. exact P3.
      * destruct P3 as [P3 P4]. split; [rewrite !V; exact P3|]. intros a b Ha Hb'. rewrite V. now apply P4.
Qed.
Print Assumptions C63_interpolate2fine.

(** Refining and coarsening again gives the coarse data (on mapped grids, if the volumes add up). *)
Theorem C63_roundtrip : forall d, even_size (flat d) -> mx (flat d) = my (flat d) -> 2 <= mbc (flat d) -> 1 <= mz d ->
  forall (manifold : bool) qcoarse f volcoarse vc volfine vf qfine q,
  holds_sides d qcoarse f -> vol_holds d volcoarse vc ->
  (forall g, 0 <= g < 4 -> vol_holds d (volfine g) (vf g)) ->
  (forall g i j k, 0 <= g < 4 -> 1 <= i <= mx (flat d) -> 1 <= j <= my (flat d) -> 1 <= k <= mz d -> ~ (vf g i j k == 0)%Q) ->
  (manifold = true -> forall g i j k, covers (flat d) g i j -> 1 <= k <= mz d ->
     (vc i j k == four (flat d) g i j (fun x y => vf g x y k))%Q /\ ~ (vc i j k == 0)%Q) ->
  forall qf', (forall g, 0 <= g < 4 -> interpolate2fine3 d qcoarse volcoarse (volfine g) g manifold (qfine g) = Some (qf' g)) ->
  exists q', average2coarse3 d qf' volfine manifold q = Some q' /\
    forall i j k mq, interior (flat d) (i, j, mq) -> 1 <= k <= mz d -> at_cell3 q' (i, j, k, mq) (f i j k mq).
Proof.
  intros d Hd Hsq Hb Hz manifold qc f volc vc volf vf qfine q Hf Hvc Hvf Hnz Hadd qf' HI.
  set (ff g i j k mq := match qf' g (i, j, k, mq) with Some v => v | None => 0%Q end).
  assert (P : forall g, 0 <= g < 4 -> holds3 d (qf' g) (ff g) /\
    (forall i j k mq, covers (flat d) g i j -> 1 <= k <= mz d -> 1 <= mq <= meqn (flat d) ->
       if manifold then (four (flat d) g i j (fun x y => vf g x y k * ff g x y k mq) == vc i j k * f i j k mq)%Q
       else (four (flat d) g i j (fun x y => ff g x y k mq) == 4 * f i j k mq)%Q)).
  { intros g Hg. destruct (C63_interpolate2fine d g Hd Hb Hz Hg manifold qc f volc vc (volf g) (vf g) (qfine g) Hf Hvc (Hvf g Hg)
      (fun i j k => Hnz g i j k Hg)) as (q1 & f1 & E & Hh & _ & C).
    rewrite (HI g Hg) in E. assert (Eq : q1 = qf' g) by congruence. subst q1.
    assert (EV : forall i j k mq, interior (flat d) (i, j, mq) -> 1 <= k <= mz d -> ff g i j k mq = f1 i j k mq).
    { intros i j k mq Hin Hk. unfold ff. now rewrite (Hh i j k mq Hin Hk). }
    split.
    - intros i j k mq Hin Hk. rewrite (EV i j k mq Hin Hk). now apply Hh.
    - intros i j k mq HC Hk Hq. specialize (C i j k mq HC Hk Hq). destruct HC as (_ & Hi & Hj).
      destruct (grid_facts (flat d) g Hd Hg) as (_ & _ & _ & _ & E1 & E2 & _ & _ & _ & _ & Ox & Oy).
      unfold four in *. rewrite !EV by (unfold interior, sub; lia). destruct manifold; [exact C|exact (proj1 C)]. }
  destruct (C63_average2coarse d Hd Hsq ltac:(lia) Hz manifold qf' ff volf vf q (fun g Hg => proj1 (P g Hg)) (fun _ => Hvf)) as (q' & E & A & _).
  exists q'. split; [exact E|]. intros i j k mq (Hi & Hj & Hq) Hk.
  assert (HC : covers (flat d) (Proof_Grid2.cover_of (flat d) i j) i j) by now apply covers_iff.
  destruct (A _ i j k mq HC Hk Hq) as (v & Ev & Hv). exists v. split; [exact Ev|]. rewrite Hv.
  pose proof (proj2 (P _ (proj1 HC)) i j k mq HC Hk Hq) as PV.
  destruct manifold.
  - rewrite PV. destruct (Hadd eq_refl _ i j k HC Hk) as [V N]. rewrite <- V. field. exact N.
  - rewrite PV. field.
Qed.
Print Assumptions C63_roundtrip.
