(** Properties C19 - C23: averaging, interpolation, slopes, ghost copies. *)
From Coq Require Import ZArith QArith Qminmax Qabs List Lia Lqa Bool Qfield.
From Verif Require Import Base_Float Model_Face Spec_Face Model_Grid Spec_Grid Proof_Grid Proof_Grid2
  Proof_Grid3 Proof_Face5 Proof_Grid4 Proof_Grid5.
Import ListNotations.
Open Scope Z_scope.

(** ** C19 *)

(** Every coarse cell is covered by exactly one of the four children. *)
Theorem C19_covered_once : forall d i j, even_size d -> 1 <= i <= mx d -> 1 <= j <= my d ->
  exists g, covers d g i j /\ forall g', covers d g' i j -> g' = g.
Proof.
  intros d i j Hd Hi Hj. exists (cover_of d i j). split; [now apply covers_iff|].
  intros g' H. now apply (covers_iff d i j g').
Qed.
Print Assumptions C19_covered_once.

(** Each interior coarse cell becomes the mean of the four fine cells that cover it
    (on mapped grids, weighted by area), whatever it was before; no other cell of the
    coarse patch changes. *)
Theorem C19_average2coarse : forall d, even_size d -> mx d = my d -> 0 <= mbc d ->
  forall manifold qfine ff areafine kf areacoarse kc q,
  (forall g, 0 <= g < 4 -> holds d (qfine g) (ff g)) ->
  (manifold = true -> forall g, 0 <= g < 4 -> area_holds d (areafine g) (kf g)) ->
  (manifold = true -> area_holds d areacoarse kc) ->
  exists q', average2coarse d qfine areafine areacoarse manifold q = Some q' /\
    (forall g i j mq, covers d g i j -> 1 <= mq <= meqn d ->
       at_cell q' (i, j, mq)
         (if manifold then four d g i j (fun x y => kf g x y * ff g x y mq) / kc i j
          else four d g i j (fun x y => ff g x y mq) / 4)%Q) /\
    (forall c, ~ interior d c -> q' c = q c).
Proof.
  intros d Hd Hsq Hb manifold qfine ff areafine kf areacoarse kc q Hf Hkf Hkc.
  destruct (average2coarse_ok d Hd Hb manifold qfine ff Hf areafine kf areacoarse kc Hkf Hkc q Hsq q)
    as (q' & E & A & B & _); [intros c []|].
  exists q'. split; [exact E|]. split; [|exact B].
  intros g i j mq HC Hm. pose proof HC as (Hg & Hi & Hj).
  destruct (grid_facts d g Hd Hg) as (_ & _ & _ & _ & E1 & E2 & _ & _ & _ & _ & Ox & Oy).
  assert (Ec : cover_of d i j = g) by (symmetry; apply covers_iff; [exact Hd|lia|lia|exact HC]).
  unfold at_cell. rewrite (A (i, j, mq)) by (unfold interior; lia). eexists. split; [reflexivity|]. rewrite Ec. unfold avg, four.
  destruct manifold; apply Qmult_comp; try reflexivity; ring.
Qed.
Print Assumptions C19_average2coarse.

(** Total mass. *)
Theorem C19_mass : forall d, even_size d -> mx d = my d -> 0 <= mbc d ->
  forall (manifold : bool) qfine ff areafine kf areacoarse kc q q' fc mq,
  (forall g, 0 <= g < 4 -> holds d (qfine g) (ff g)) ->
  (manifold = true -> forall g, 0 <= g < 4 -> area_holds d (areafine g) (kf g)) ->
  (manifold = true -> area_holds d areacoarse kc) ->
  (manifold = true -> forall i j, 1 <= i <= mx d -> 1 <= j <= my d -> ~ (kc i j == 0)%Q) ->
  average2coarse d qfine areafine areacoarse manifold q = Some q' ->
  holds d q' fc -> 1 <= mq <= meqn d ->
  if manifold then
    (total d (fun i j => kc i j * fc i j mq) ==
     total d (fun i j => kf 0%Z i j * ff 0%Z i j mq) + total d (fun i j => kf 1%Z i j * ff 1%Z i j mq) +
     total d (fun i j => kf 2%Z i j * ff 2%Z i j mq) + total d (fun i j => kf 3%Z i j * ff 3%Z i j mq))%Q
  else forall a : Q,   (* area of a coarse cell *)
    (total d (fun i j => a * fc i j mq) ==
     total d (fun i j => a / 4 * ff 0%Z i j mq) + total d (fun i j => a / 4 * ff 1%Z i j mq) +
     total d (fun i j => a / 4 * ff 2%Z i j mq) + total d (fun i j => a / 4 * ff 3%Z i j mq))%Q.
Proof.
  intros d Hd Hsq Hb manifold qfine ff areafine kf areacoarse kc q q' fc mq Hf Hkf Hkc Hnz E Hh Hm.
  destruct (C19_average2coarse d Hd Hsq Hb manifold qfine ff areafine kf areacoarse kc q Hf Hkf Hkc)
    as (q1 & E1 & A & _). assert (q1 = q') by congruence. subst q1.
  assert (V : forall i j, 1 <= i <= mx d -> 1 <= j <= my d ->
    (fc i j mq == if manifold then four d (cover_of d i j) i j (fun x y => kf (cover_of d i j) x y * ff (cover_of d i j) x y mq) / kc i j
                  else four d (cover_of d i j) i j (fun x y => ff (cover_of d i j) x y mq) / 4)%Q).
  { intros i j Hi Hj. destruct (A (cover_of d i j) i j mq) as (v & Ev & Hv); [now apply covers_iff|exact Hm|].
    rewrite (Hh i j mq) in Ev by (unfold interior; lia).
    assert (v = fc i j mq) by congruence. subst v. exact Hv. }
  destruct manifold.
  - rewrite <- (total_children d (fun g i j => (kf g i j * ff g i j mq)%Q) Hd).
    apply total_ext. intros i j Hi Hj. rewrite (V i j Hi Hj). field. now apply Hnz.
  - intros a. rewrite <- (total_children d (fun g i j => (a / 4 * ff g i j mq)%Q) Hd).
    apply total_ext. intros i j Hi Hj. rewrite (V i j Hi Hj). unfold four. field.
Qed.
Print Assumptions C19_mass.

(** *** Instance *)

Definition d4 := mkDims 4 4 2 1.
Definition fdata (g : Z) : data := fun i j mq => inject_Z (1000 * g + 10 * i + j).
Definition full (d : dims) (f : data) : arr := fun c => let '(i, j, mq) := c in
  if (1 <=? i) && (i <=? mx d) && (1 <=? j) && (j <=? my d) then Some (f i j mq) else None.
Lemma full_holds : forall d f, holds d (full d f) f.
Proof.
  intros d f i j mq (Hi & Hj & _). unfold full.
  rewrite (proj2 (Z.leb_le 1 i)), (proj2 (Z.leb_le i (mx d))), (proj2 (Z.leb_le 1 j)), (proj2 (Z.leb_le j (my d))) by lia.
  reflexivity.
Qed.
Definition afull (d : dims) (k : areas) : area_t := fun c => let '(i, j) := c in Some (k i j).
Lemma d4_even : even_size d4.
Proof. split; [now exists 2|]. split; [now exists 2|]. cbn. lia. Qed.
Definition nothing : arr := fun _ => None.

Example C19_instance :
  (exists q', average2coarse d4 (fun g => full d4 (fdata g)) (fun _ => afull d4 (fun _ _ => 0%Q)) (afull d4 (fun _ _ => 0%Q))
      false nothing = Some q' /\ at_cell q' (3, 2, 1) (1000 + 10 * (3 # 2) + (7 # 2))%Q /\ q' (5, 2, 1) = None) /\
  (exists q', average2coarse d4 (fun g => full d4 (fdata g)) (fun _ => afull d4 (fun i _ => inject_Z i))
      (afull d4 (fun _ _ => 6%Q)) true nothing = Some q' /\ at_cell q' (1, 1, 1) ((11 + 12 + 2 * 21 + 2 * 22) / 6)%Q).
Proof.
  split.
  - destruct (C19_average2coarse d4 d4_even eq_refl ltac:(cbn; lia) false (fun g => full d4 (fdata g)) fdata
      (fun _ => afull d4 (fun _ _ => 0%Q)) (fun _ _ _ => 0%Q) (afull d4 (fun _ _ => 0%Q)) (fun _ _ => 0%Q) nothing)
      as (q' & E & A & B); try discriminate.
    { intros g _. apply full_holds. }
    exists q'. split; [exact E|]. split.
    + destruct (A 1 3 2 1) as (v & Ev & Hv); [unfold covers; vm_compute; intuition discriminate|cbn; lia|].
      exists v. split; [exact Ev|]. rewrite Hv. reflexivity.
    + rewrite B; [reflexivity|]. unfold interior. cbn. lia.
  - destruct (C19_average2coarse d4 d4_even eq_refl ltac:(cbn; lia) true (fun g => full d4 (fdata g)) fdata
      (fun _ => afull d4 (fun i _ => inject_Z i)) (fun _ i _ => inject_Z i) (afull d4 (fun _ _ => 6%Q)) (fun _ _ => 6%Q) nothing)
      as (q' & E & A & B).
    { intros g _. apply full_holds. }
    { intros _ g _ i j _ _. reflexivity. }
    { intros _ i j _ _. reflexivity. }
    exists q'. split; [exact E|].
    destruct (A 0 1 1 1) as (v & Ev & Hv); [unfold covers; vm_compute; intuition discriminate|cbn; lia|].
    exists v. split; [exact Ev|]. rewrite Hv. reflexivity.
Qed.

(** The restriction to even sizes is needed, and the option check does not enforce it:
    with 5 by 5 cells the last column is never written. *)
Theorem C19_odd_size_refuted : exists d qfine q, mx d = my d /\ 2 * mbc d <= mx d /\ 1 <= mbc d /\
  (forall g, holds d (qfine g) (fdata g)) /\
  bind (average2coarse d qfine (fun _ _ => None) (fun _ => None) false q)
       (fun q' => Some (q' (5, 1, 1), q' (1, 1, 1))) = Some (None, Some ((0 + 11 + 21 + 12 + 22) / 4)%Q).
Proof.
  exists (mkDims 5 5 2 1), (fun g => full (mkDims 5 5 2 1) (fdata g)), nothing.
  split; [reflexivity|]. split; [cbn; lia|]. split; [cbn; lia|].
  split; [intros g; apply full_holds|]. vm_compute. reflexivity.
Qed.
Print Assumptions C19_odd_size_refuted.

(** Likewise mx = my: the row offset is computed from mx, so with 2 by 4 cells the data
    of the upper children lands in row 2 and row 4 is never written.  (The option check
    accepts this case: its test of mx = my is disabled, fclaw2d_clawpatch_options.c:133-139.) *)
Theorem C19_not_square_refuted : exists d qfine q, even_size d /\
  (forall g, holds d (qfine g) (fdata g)) /\
  bind (average2coarse d qfine (fun _ _ => None) (fun _ => None) false q) (fun q' => Some (q' (1, 4, 1)))
    = Some None.
Proof.
  exists (mkDims 2 4 1 1), (fun g => full (mkDims 2 4 1 1) (fdata g)), nothing.
  split; [split; [now exists 1|]; split; [now exists 2|]; cbn; lia|].
  split; [intros g; apply full_holds|]. vm_compute. reflexivity.
Qed.
Print Assumptions C19_not_square_refuted.

(** ** C21 *)

Theorem C21_extremum : forall sl sr, (sl * sr <= 0)%Q -> (compute_slopes sl sr == 0)%Q.
Proof.
  intros sl sr H. destruct (slopes_cases sl sr) as [[_ E]|[(P1 & P2 & _)|(P1 & P2 & _)]]; [exact E| |]; exfalso; nra.
Qed.
Print Assumptions C21_extremum.

(** monotone data: same sign, at most twice each one-sided difference, at most the
    centered difference, and one of the three *)
Theorem C21_increasing : forall sl sr, (0 < sl)%Q -> (0 < sr)%Q ->
  (0 < compute_slopes sl sr /\ compute_slopes sl sr <= 2 * sl /\ compute_slopes sl sr <= 2 * sr /\
   compute_slopes sl sr <= (sl + sr) / 2 /\
   (compute_slopes sl sr == 2 * sl \/ compute_slopes sl sr == 2 * sr \/ compute_slopes sl sr == (sl + sr) / 2))%Q.
Proof.
  intros sl sr H1 H2. destruct (slopes_cases sl sr) as [[H _]|[(_ & _ & H)|(P1 & _)]]; [exfalso; nra|exact H|lra].
Qed.
Print Assumptions C21_increasing.
Theorem C21_decreasing : forall sl sr, (sl < 0)%Q -> (sr < 0)%Q ->
  (compute_slopes sl sr < 0 /\ 2 * sl <= compute_slopes sl sr /\ 2 * sr <= compute_slopes sl sr /\
   (sl + sr) / 2 <= compute_slopes sl sr /\
   (compute_slopes sl sr == 2 * sl \/ compute_slopes sl sr == 2 * sr \/ compute_slopes sl sr == (sl + sr) / 2))%Q.
Proof.
  intros sl sr H1 H2. destruct (slopes_cases sl sr) as [[H _]|[(P1 & _)|(_ & _ & H)]]; [exfalso; nra|lra|exact H].
Qed.
Print Assumptions C21_decreasing.
Theorem C21_bounded : forall sl sr,
  (Qabs (compute_slopes sl sr) <= 2 * Qabs sl /\ Qabs (compute_slopes sl sr) <= 2 * Qabs sr /\
   Qabs (compute_slopes sl sr) <= Qabs ((sl + sr) / 2))%Q.
Proof.
  intros sl sr.
  destruct (slopes_cases sl sr) as [[_ E]|[(P1 & P2 & P3 & P4 & P5 & P6 & _)|(P1 & P2 & P3 & P4 & P5 & P6 & _)]].
  - rewrite E. change (Qabs 0) with 0%Q. pose proof (Qabs_nonneg sl). pose proof (Qabs_nonneg sr).
    pose proof (Qabs_nonneg ((sl + sr) / 2)). split; [lra|]. split; [lra|assumption].
  - rewrite (half_mul (sl + sr)) in *. rewrite !Qabs_pos by lra. lra.
  - rewrite (half_mul (sl + sr)) in *. rewrite !Qabs_neg by lra. lra.
Qed.
Print Assumptions C21_bounded.
Theorem C21_symmetric : forall sl sr, (compute_slopes sl sr == compute_slopes sr sl)%Q /\
  (compute_slopes (- sl) (- sr) == - compute_slopes sl sr)%Q.
Proof. intros. split; [apply slopes_sym|apply slopes_odd]. Qed.
Print Assumptions C21_symmetric.
Theorem C21_linear : forall s, (compute_slopes s s == s)%Q.
Proof.
  intros s. destruct (slopes_cases s s) as [[H E]|[(P1 & P2 & P3 & P4 & P5 & P6 & P7)|(P1 & P2 & P3 & P4 & P5 & P6 & P7)]].
  - rewrite E. nra.
  - rewrite half_mul in *. destruct P7 as [P7|[P7|P7]]; lra.
  - rewrite half_mul in *. destruct P7 as [P7|[P7|P7]]; lra.
Qed.
Print Assumptions C21_linear.
Example C21_instance : (compute_slopes 1 5 == 2)%Q /\ (compute_slopes 3 5 == 4)%Q /\ (compute_slopes (-4) 1 == 0)%Q /\
  (compute_slopes (-4) (-1) == -2)%Q.
Proof. repeat split; reflexivity. Qed.

(** ** C20 *)

(** fine cells that get a value: the interior, and two more layers on the sides where the
    fine patch borders its siblings *)
Definition filled (d : dims) (g : Z) (c : cell) : Prop := let '(i, j, mq) := c in
  (if child_x g =? 0 then 1 <= i <= mx d + 2 else -1 <= i <= mx d) /\
  (if child_y g =? 0 then 1 <= j <= my d + 2 else -1 <= j <= my d) /\ 1 <= mq <= meqn d.

Lemma reached_filled : forall d g, even_size d -> 0 <= g < 4 -> forall c, reached d g c <-> filled d g c.
Proof.
  intros d g Hd Hg [[i j] mq].
  destruct (grid_facts d g Hd Hg) as (_ & _ & _ & _ & _ & _ & _ & _ & Cx & Cy & _).
  unfold reached, filled. destruct Cx as [->| ->], Cy as [->| ->]; cbn [Z.eqb]; lia.
Qed.

(** stencil: a coarse cell and its four neighbors *)
Definition stencil (f : data) (i j mq : Z) : list Q :=
  [f i j mq; f (i - 1) j mq; f (i + 1) j mq; f i (j - 1) mq; f i (j + 1) mq].

Theorem C20_interpolate2fine : forall d g, even_size d -> 2 <= mbc d -> 0 <= g < 4 ->
  forall manifold qcoarse f areacoarse kc areafine kf qfine,
  holds_layer d qcoarse f -> area_holds d areacoarse kc -> area_holds d areafine kf ->
  (forall i j, 1 <= i <= mx d -> 1 <= j <= my d -> ~ (kf i j == 0)%Q) ->
  exists q' f', interpolate2fine d qcoarse areacoarse areafine g manifold qfine = Some q' /\
    holds d q' f' /\
    (forall c, ~ filled d g c -> q' c = qfine c) /\
    (forall i j mq, covers d g i j -> 1 <= mq <= meqn d ->
       if manifold then (four d g i j (fun x y => kf x y * f' x y mq) == kc i j * f i j mq)%Q
       else (four d g i j (fun x y => f' x y mq) == 4 * f i j mq)%Q /\
            forall a b, 0 <= a <= 1 -> 0 <= b <= 1 ->
              within (stencil f i j mq) (f' (sub (off_x d g) i a) (sub (off_y d g) j b) mq)).
Proof.
  intros d g Hd Hb Hg manifold qcoarse f areacoarse kc areafine kf qfine Hf Hkc Hkf Hnz.
  destruct (interpolate2fine_ok d Hd Hb g Hg qcoarse f Hf areacoarse areafine kc kf Hkc Hkf manifold qfine)
    as (q' & E & A & _ & C).
  exists q', (fun i j mq => match q' (i, j, mq) with Some v => v | None => 0%Q end).
  split; [exact E|]. split.
  { intros i j mq Hi. rewrite (A _ Hi). now destruct manifold. }
  split. { intros c Hc. apply C. intros Hr. apply Hc. now apply reached_filled. }
  intros i j mq HC Hm. pose proof HC as (_ & Hi & Hj).
  destruct (grid_facts d g Hd Hg) as (_ & _ & _ & _ & E1 & E2 & _ & _ & _ & _ & Ox & Oy).
  set (f' := fun i j mq => match q' (i, j, mq) with Some v => v | None => 0%Q end).
  set (i0 := i - off_x d g). set (j0 := j - off_y d g).
  assert (Ei : i = i0 + off_x d g) by (unfold i0; lia). assert (Ej : j = j0 + off_y d g) by (unfold j0; lia).
  assert (X : forall a, 0 <= a <= 1 -> sub (off_x d g) i a = (i0 - 1) * 2 + (a + 1)) by (intros; unfold sub; lia).
  assert (Y : forall b, 0 <= b <= 1 -> sub (off_y d g) j b = (j0 - 1) * 2 + (b + 1)) by (intros; unfold sub; lia).
  assert (V : forall a b, 0 <= a <= 1 -> 0 <= b <= 1 ->
    f' (sub (off_x d g) i a) (sub (off_y d g) j b) mq =
    if manifold then (ival d g f i0 j0 mq (a + 1) (b + 1) + cdiff d g f kc kf i0 j0 mq /
                        kf ((i0 - 1) * 2 + (a + 1))%Z ((j0 - 1) * 2 + (b + 1))%Z)%Q
    else ival d g f i0 j0 mq (a + 1) (b + 1)).
  { intros a b Ha Hb'. unfold f'. rewrite (X a Ha), (Y b Hb').
    rewrite A by (unfold interior; lia). unfold fixed_arr, interp_arr.
    destruct (up_hf i0 (a + 1) ltac:(lia)) as [-> ->]. destruct (up_hf j0 (b + 1) ltac:(lia)) as [-> ->].
    now destruct manifold. }
  change (if manifold then (four d g i j (fun x y => kf x y * f' x y mq) == kc i j * f i j mq)%Q
       else (four d g i j (fun x y => f' x y mq) == 4 * f i j mq)%Q /\
            forall a b, 0 <= a <= 1 -> 0 <= b <= 1 ->
              within (stencil f i j mq) (f' (sub (off_x d g) i a) (sub (off_y d g) j b) mq)).
  unfold four. rewrite (V 0 0), (V 1 0), (V 0 1), (V 1 1) by lia.
  change (0 + 1) with 1. change (1 + 1) with 2.
  destruct manifold.
  - rewrite (X 0), (X 1), (Y 0), (Y 1) by lia. change (0 + 1) with 1. change (1 + 1) with 2.
    unfold cdiff. rewrite <- Ei, <- Ej. unfold ksum.
    assert (K : forall ii jj, 1 <= ii <= 2 -> 1 <= jj <= 2 ->
      ~ (kf ((i0 - 1) * 2 + ii)%Z ((j0 - 1) * 2 + jj)%Z == 0)%Q) by (intros; apply Hnz; lia).
    pose proof (K 1 1 ltac:(lia) ltac:(lia)) as K11. pose proof (K 2 1 ltac:(lia) ltac:(lia)) as K21.
    pose proof (K 1 2 ltac:(lia) ltac:(lia)) as K12. pose proof (K 2 2 ltac:(lia) ltac:(lia)) as K22.
    generalize dependent (kf ((i0 - 1) * 2 + 1)%Z ((j0 - 1) * 2 + 1)%Z). intros k11 K11.
    generalize dependent (kf ((i0 - 1) * 2 + 2)%Z ((j0 - 1) * 2 + 1)%Z). intros k21 K21.
    generalize dependent (kf ((i0 - 1) * 2 + 1)%Z ((j0 - 1) * 2 + 2)%Z). intros k12 K12.
    generalize dependent (kf ((i0 - 1) * 2 + 2)%Z ((j0 - 1) * 2 + 2)%Z). intros k22 K22.
    generalize (ival d g f i0 j0 mq 1 1) (ival d g f i0 j0 mq 2 1) (ival d g f i0 j0 mq 1 2) (ival d g f i0 j0 mq 2 2).
    intros. field. tauto.
  - split.
    + rewrite Ei, Ej. apply ival_sum.
    + intros a b Ha Hb'. rewrite (V a b Ha Hb').
      pose proof (ival_within d g f i0 j0 mq (a + 1) (b + 1) ltac:(lia) ltac:(lia)) as W. cbv zeta in W.
      rewrite <- Ei, <- Ej in W. exact W.
Qed.
Print Assumptions C20_interpolate2fine.

(** Interpolating to the four children and averaging back gives the coarse data. *)
Theorem C20_roundtrip : forall d, even_size d -> mx d = my d -> 2 <= mbc d ->
  forall manifold qcoarse f areacoarse kc areafine kf qfine q,
  holds_layer d qcoarse f -> area_holds d areacoarse kc ->
  (forall g, 0 <= g < 4 -> area_holds d (areafine g) (kf g)) ->
  (forall g i j, 0 <= g < 4 -> 1 <= i <= mx d -> 1 <= j <= my d -> ~ (kf g i j == 0)%Q) ->
  (forall i j, 1 <= i <= mx d -> 1 <= j <= my d -> ~ (kc i j == 0)%Q) ->
  forall qf', (forall g, 0 <= g < 4 ->
     interpolate2fine d qcoarse areacoarse (areafine g) g manifold (qfine g) = Some (qf' g)) ->
  exists q', average2coarse d qf' areafine areacoarse manifold q = Some q' /\
    forall i j mq, interior d (i, j, mq) -> at_cell q' (i, j, mq) (f i j mq).
Proof.
  intros d Hd Hsq Hb manifold qcoarse f areacoarse kc areafine kf qfine q Hf Hkc Hkf Hnf Hnc qf' HI.
  assert (P : forall g, 0 <= g < 4 -> holds d (qf' g) (fun i j mq => match qf' g (i, j, mq) with Some v => v | None => 0%Q end) /\
    (forall i j mq, covers d g i j -> 1 <= mq <= meqn d ->
       if manifold then (four d g i j (fun x y => kf g x y * match qf' g (x, y, mq) with Some v => v | None => 0 end) == kc i j * f i j mq)%Q
       else (four d g i j (fun x y => match qf' g (x, y, mq) with Some v => v | None => 0 end) == 4 * f i j mq)%Q)).
  { intros g Hg.
    destruct (C20_interpolate2fine d g Hd Hb Hg manifold qcoarse f areacoarse kc (areafine g) (kf g) (qfine g)
      Hf Hkc (Hkf g Hg) (fun i j => Hnf g i j Hg)) as (q1 & f1 & E & Hh & _ & C).
    rewrite (HI g Hg) in E. assert (Eq : q1 = qf' g) by congruence. subst q1.
    assert (EV : forall i j mq, interior d (i, j, mq) -> match qf' g (i, j, mq) with Some v => v | None => 0%Q end = f1 i j mq).
    { intros i j mq Hin. now rewrite (Hh i j mq Hin). }
    split.
    - intros i j mq Hin. rewrite (EV i j mq Hin). now apply Hh.
    - intros i j mq HC Hm. specialize (C i j mq HC Hm). destruct HC as (_ & Hi & Hj).
      destruct (grid_facts d g Hd Hg) as (_ & _ & _ & _ & E1 & E2 & _ & _ & _ & _ & Ox & Oy).
      unfold four in *. rewrite !EV by (unfold interior, sub; lia).
      destruct manifold; [exact C|exact (proj1 C)]. }
  destruct (C19_average2coarse d Hd Hsq ltac:(lia) manifold qf'
     (fun g i j mq => match qf' g (i, j, mq) with Some v => v | None => 0%Q end) areafine kf areacoarse kc q)
     as (q' & E & A & _).
  { intros g Hg. apply P, Hg. } { intros _. exact Hkf. } { intros _. exact Hkc. }
  exists q'. split; [exact E|]. intros i j mq (Hi & Hj & Hm).
  assert (HC : covers d (cover_of d i j) i j) by now apply covers_iff.
  destruct (A (cover_of d i j) i j mq HC Hm) as (v & Ev & Hv). exists v. split; [exact Ev|]. rewrite Hv.
  pose proof (proj2 (P (cover_of d i j) (proj1 HC)) i j mq HC Hm) as PV.
  destruct manifold.
  - rewrite PV. field. now apply Hnc.
  - rewrite PV. field.
Qed.
Print Assumptions C20_roundtrip.

(** On a mapped grid a constant is preserved if the four fine areas add up to the coarse
    area. *)
Theorem C20_constant : forall d g, even_size d -> 2 <= mbc d -> 0 <= g < 4 ->
  forall manifold qcoarse (v : Q) areacoarse kc areafine kf qfine,
  holds_layer d qcoarse (fun _ _ _ => v) -> area_holds d areacoarse kc -> area_holds d areafine kf ->
  (forall i j, 1 <= i <= mx d -> 1 <= j <= my d -> ~ (kf i j == 0)%Q) ->
  (manifold = true -> forall i j, covers d g i j -> (four d g i j kf == kc i j)%Q) ->
  exists q', interpolate2fine d qcoarse areacoarse areafine g manifold qfine = Some q' /\
    forall c, interior d c -> at_cell q' c v.
Proof.
  intros d g Hd Hb Hg manifold qcoarse v areacoarse kc areafine kf qfine Hf Hkc Hkf Hnz Hsum.
  destruct (interpolate2fine_ok d Hd Hb g Hg qcoarse _ Hf areacoarse areafine kc kf Hkc Hkf manifold qfine)
    as (q' & E & A & _ & _).
  exists q'. split; [exact E|]. intros [[x y] mq] Hin. unfold at_cell. rewrite (A _ Hin).
  destruct (up_hf_inv x) as [Ex Bx]. destruct (up_hf_inv y) as [Ey By]. destruct Hin as (Hx & Hy & Hm).
  assert (IV : forall i j a b, (ival d g (fun _ _ _ => v) i j mq a b == v)%Q).
  { intros i j a b. unfold ival. rewrite (slopes_proper (v - v) (v - v) 0 0) by ring.
    change (compute_slopes 0 0) with (0 * 1 * 1)%Q. ring. }
  destruct (grid_facts d g Hd Hg) as (_ & _ & _ & _ & E1 & E2 & _ & _ & _ & _ & Ox & Oy).
  destruct manifold; unfold fixed_arr, interp_arr; eexists; (split; [reflexivity|]).
  - rewrite IV. unfold cdiff, ksum. rewrite !IV.
    assert (HC : covers d g (up x + off_x d g) (up y + off_y d g)) by (unfold covers; lia).
    rewrite <- (Hsum eq_refl _ _ HC). unfold four, sub.
    replace (2 * (up x + off_x d g - off_x d g) - 1 + 0) with ((up x - 1) * 2 + 1) by lia.
    replace (2 * (up x + off_x d g - off_x d g) - 1 + 1) with ((up x - 1) * 2 + 2) by lia.
    replace (2 * (up y + off_y d g - off_y d g) - 1 + 0) with ((up y - 1) * 2 + 1) by lia.
    replace (2 * (up y + off_y d g - off_y d g) - 1 + 1) with ((up y - 1) * 2 + 2) by lia.
    field. apply Hnz; lia.
  - apply IV.
Qed.
Print Assumptions C20_constant.

(** *** Instance *)
Definition layer (d : dims) (f : data) : arr := fun c => let '(i, j, mq) := c in
  if ((0 <=? i) && (i <=? mx d + 1) && (1 <=? j) && (j <=? my d)) ||
     ((1 <=? i) && (i <=? mx d) && (0 <=? j) && (j <=? my d + 1)) then Some (f i j mq) else None.
Lemma layer_holds : forall d f, holds_layer d (layer d f) f.
Proof.
  intros d f i j mq _ H. unfold layer.
  assert (E : ((0 <=? i) && (i <=? mx d + 1) && (1 <=? j) && (j <=? my d)) ||
     ((1 <=? i) && (i <=? mx d) && (0 <=? j) && (j <=? my d + 1)) = true).
  { rewrite orb_true_iff, !andb_true_iff, !Z.leb_le. destruct H; [left|right]; lia. }
  now rewrite E.
Qed.

Example C20_instance :
  (exists q' f', interpolate2fine d4 (layer d4 (fdata 0)) (afull d4 (fun _ _ => 4%Q)) (afull d4 (fun _ _ => 1%Q)) 3 false nothing
     = Some q' /\ holds d4 q' f' /\ covers d4 3 4 3) /\
  bind (interpolate2fine d4 (layer d4 (fdata 0)) (afull d4 (fun _ _ => 4%Q)) (afull d4 (fun _ _ => 1%Q)) 3 false nothing)
    (fun q => Some (option_map Qred (q (1, 1, 1)), option_map Qred (q (4, 4, 1)), q (5, 1, 1)))
    = Some (Some (121 # 4), Some (187 # 4), None)%Q.
Proof.
  split.
  - destruct (C20_interpolate2fine d4 3 d4_even ltac:(cbn; lia) ltac:(lia) false (layer d4 (fdata 0)) (fdata 0)
      (afull d4 (fun _ _ => 4%Q)) (fun _ _ => 4%Q) (afull d4 (fun _ _ => 1%Q)) (fun _ _ => 1%Q) nothing)
      as (q' & f' & E & H & _).
    + apply layer_holds. + intros i j _ _. reflexivity. + intros i j _ _. reflexivity. + intros i j _ _ X. discriminate X.
    + exists q', f'. split; [exact E|]. split; [exact H|]. unfold covers. vm_compute. intuition discriminate.
  - vm_compute. reflexivity.
Qed.

(** With one layer of ghost cells (accepted by the option check, which asks for
    interp_stencil_width / 2 <= mbc) the routine writes outside of the fine array. *)
Theorem C20_one_ghost_layer_refuted : exists d g qcoarse f, even_size d /\ mx d = my d /\ mbc d = 1 /\
  2 * mbc d <= mx d /\ 0 <= g < 4 /\ holds_layer d qcoarse f /\
  forall areacoarse areafine qfine, interpolate2fine d qcoarse areacoarse areafine g false qfine = None.
Proof.
  exists (mkDims 4 4 1 1), 0, (layer (mkDims 4 4 1 1) (fdata 0)), (fdata 0).
  split; [split; [now exists 2|]; split; [now exists 2|]; cbn; lia|].
  split; [reflexivity|]. split; [reflexivity|]. split; [cbn; lia|]. split; [lia|]. split; [apply layer_holds|].
  intros ac af qf. vm_compute. reflexivity.
Qed.
Print Assumptions C20_one_ghost_layer_refuted.

(** On mapped grids the range property does not survive the capacity fix: when the areas
    do not add up, constant data 1 is changed. *)
Theorem C20_mapped_range_refuted : exists d qcoarse f areacoarse kc areafine kf,
  even_size d /\ 2 <= mbc d /\ holds_layer d qcoarse f /\ area_holds d areacoarse kc /\ area_holds d areafine kf /\
  (forall i j, (0 < kf i j)%Q /\ (0 < kc i j)%Q) /\ (forall i j mq, (f i j mq == 1)%Q) /\
  bind (interpolate2fine d qcoarse areacoarse areafine 0 true nothing) (fun q => Some (option_map Qred (q (1, 1, 1))))
    = Some (Some (5 # 4)%Q).
Proof.
  exists d4, (layer d4 (fun _ _ _ => 1%Q)), (fun _ _ _ => 1%Q), (afull d4 (fun _ _ => 5%Q)), (fun _ _ => 5%Q),
    (afull d4 (fun _ _ => 1%Q)), (fun _ _ => 1%Q).
  split; [exact d4_even|]. split; [cbn; lia|]. split; [apply layer_holds|].
  split; [intros i j _ _; reflexivity|]. split; [intros i j _ _; reflexivity|].
  split; [intros; split; lra|]. split; [reflexivity|]. vm_compute. reflexivity.
Qed.
Print Assumptions C20_mapped_range_refuted.

(** ** C22 *)

(** Every ghost cell beyond face [f] (all layers) gets the value of the interior cell of
    the neighbor at the same depth behind its face [nf] and the same place along the
    face; nothing else changes.  The neighbor's ghost cells need not be assigned. *)
Theorem C22_copy_face : forall rnd, rounding rnd -> forall d m ip op f nf o ft qneighbor fn qthis,
  same_size f nf o ip op ft -> square d m (level ip) -> 0 <= mbc d <= m -> holds d qneighbor fn ->
  exists q', copy_face rnd d qthis qneighbor f (mkT ip op ft) = Some q' /\
    (forall dep t mq, 1 <= dep <= mbc d -> 1 <= t <= m -> 1 <= mq <= meqn d ->
       let p := inner_cell nf m dep (flip o m t) in
       q' (at3 (ghost_cell f m dep t) mq) = Some (fn (fst p) (snd p) mq)) /\
    (forall c, (forall dep t mq, 1 <= dep <= mbc d -> 1 <= t <= m -> 1 <= mq <= meqn d ->
                  c <> at3 (ghost_cell f m dep t) mq) -> q' c = qthis c).
Proof.
  intros rnd Hrnd d m ip op f nf o ft qn fn q HS HQ Hb Hh. pose proof HS as (_ & Hf & Hn & _).
  destruct (copy_face_ok rnd Hrnd d m ip op f nf o ft qn fn q HS HQ Hb Hh q) as (q' & E & A & B & _); [intros c []|].
  exists q'. split; [exact E|]. split.
  - intros dep t mq Hd Ht Hm p. destruct (depth_ghost f m dep t Hf) as [D1 D2].
    destruct (ghost_cell f m dep t) as [i j] eqn:EG. unfold at3. cbn [fst snd].
    rewrite A by (unfold ghosts; rewrite D1, D2; lia). unfold copy_arr, image. rewrite D1, D2. reflexivity.
  - intros [[i j] mq] Hc. apply B. intros (G1 & G2 & G3).
    apply (Hc (depth f m (i, j)) (posn f (i, j)) mq G1 G2 G3). rewrite (ghost_depth f m (i, j) Hf). reflexivity.
Qed.
Print Assumptions C22_copy_face.

(** *** Instance: the upper right neighbor block, turned around *)
Definition ip22 : patch := mkPatch 2 (3#4) (1#4) 0 1 (1#2) 1.
Definition op22 : patch := mkPatch 2 (1#2) 0 0 (3#4) (1#4) 1.
Lemma ip22_quadrant : quadrant D2 ip22.
Proof. split; [cbn; lia|]. split; [exists 3; split; [cbn; lia|reflexivity]|].
  split; [exists 1; split; [cbn; lia|reflexivity]|discriminate]. Qed.
Lemma op22_quadrant : quadrant D2 op22.
Proof. split; [cbn; lia|]. split; [exists 2; split; [cbn; lia|reflexivity]|].
  split; [exists 0; split; [cbn; lia|reflexivity]|discriminate]. Qed.
Lemma same22 : same_size 1 2 true ip22 op22 (expand_face_transform_2d 1 6).
Proof.
  split; [reflexivity|]. split; [lia|]. split; [lia|]. split; [exact ip22_quadrant|]. split; [exact op22_quadrant|].
  left. split; [reflexivity|]. split; [reflexivity|]. split; reflexivity.
Qed.
Definition ipb : patch := mkPatch 2 (1#4) (1#4) 0 (1#2) (1#2) 1.
Definition opb : patch := mkPatch 2 0 (1#4) 0 (1#4) (1#2) 1.
Lemma same22b : same_size 0 1 false ipb opb face_transformation_intra.
Proof.
  split; [reflexivity|]. split; [lia|]. split; [lia|].
  split. { split; [cbn; lia|]. split; [exists 1; split; [cbn; lia|reflexivity]|].
    split; [exists 1; split; [cbn; lia|reflexivity]|discriminate]. }
  split. { split; [cbn; lia|]. split; [exists 0; split; [cbn; lia|reflexivity]|].
    split; [exists 1; split; [cbn; lia|reflexivity]|discriminate]. }
  right. repeat split; reflexivity.
Qed.
Lemma d4_square : square d4 4 2.
Proof. repeat split; cbn; lia. Qed.

Example C22_instance :
  (exists q', copy_face (fun x => x) d4 nothing (full d4 (fdata 7)) 1 (mkT ip22 op22 (expand_face_transform_2d 1 6)) = Some q' /\
     q' (6, 1, 1) = Some (fdata 7 4 2 1) /\ q' (4, 1, 1) = None) /\
  (exists q', copy_face (fun x => x) d4 nothing (full d4 (fdata 7)) 0 (mkT ipb opb face_transformation_intra) = Some q' /\
     q' (-1, 3, 1) = Some (fdata 7 3 3 1)).
Proof.
  split.
  - destruct (C22_copy_face (fun x => x) rounding_id d4 4 ip22 op22 1 2 true _ (full d4 (fdata 7)) (fdata 7) nothing
      same22 d4_square ltac:(cbn; lia) (full_holds d4 (fdata 7))) as (q' & E & A & B).
    exists q'. split; [exact E|]. split; [exact (A 2 1 1 ltac:(cbn; lia) ltac:(lia) ltac:(cbn; lia))|].
    rewrite B; [reflexivity|]. intros dep t mq Hd Ht Hm. unfold at3, ghost_cell. cbn [fst snd]. intros X.
    assert (X1 := f_equal (fun c : cell => fst (fst c)) X). cbn [fst] in X1. lia.
  - destruct (C22_copy_face (fun x => x) rounding_id d4 4 ipb opb 0 1 false _ (full d4 (fdata 7)) (fdata 7) nothing
      same22b d4_square ltac:(cbn; lia) (full_holds d4 (fdata 7))) as (q' & E & A & _).
    exists q'. split; [exact E|]. exact (A 2 3 1 ltac:(cbn; lia) ltac:(lia) ltac:(cbn; lia)).
Qed.

(** ** C23 *)

(** mean of the four fine cells behind the face at depths 2 dep - 1, 2 dep and places
    2 t - 1, 2 t (counted from the start of the face of the coarse patch) *)
Definition four_behind (nf : Z) (o : bool) (pos m dep t : Z) (v : Z * Z -> Q) : Q :=
  let c s r := inner_cell nf m (2 * dep - s) (flip o m (2 * t - r - pos * m)) in
  (v (c 0%Z 0%Z) + v (c 0%Z 1%Z) + v (c 1%Z 0%Z) + v (c 1%Z 1%Z))%Q.

(** the half of the face next to fine neighbor number [pos] *)
Definition in_half (m pos t : Z) : Prop := pos * (m / 2) + 1 <= t <= (pos + 1) * (m / 2).

Theorem C23_average_face : forall rnd, rounding rnd ->
  forall d m ip op f nf o pos ft manifold qfine ff areafine kf qcoarse,
  half_size f nf o pos ip op ft -> square d m (level op) -> Z.Even m -> 0 <= mbc d -> 2 * mbc d <= m ->
  holds d qfine ff -> (manifold = true -> area_holds d areafine kf) ->
  exists q', average_face rnd d qcoarse qfine areafine (f / 2) f 2 manifold (mkT ip op ft) = Some q' /\
    (forall dep t mq, 1 <= dep <= mbc d -> 1 <= t <= m -> 1 <= mq <= meqn d -> in_half m pos t ->
       at_cell q' (at3 (ghost_cell f m dep t) mq)
         (if manifold then
            four_behind nf o pos m dep t (fun p => kf (fst p) (snd p) * ff (fst p) (snd p) mq) /
            four_behind nf o pos m dep t (fun p => kf (fst p) (snd p))
          else four_behind nf o pos m dep t (fun p => ff (fst p) (snd p) mq) / 4)%Q) /\
    (forall c, (forall dep t mq, 1 <= dep <= mbc d -> 1 <= t <= m -> 1 <= mq <= meqn d -> in_half m pos t ->
                  c <> at3 (ghost_cell f m dep t) mq) -> q' c = qcoarse c).
Proof.
  intros rnd Hrnd d m ip op f nf o pos ft manifold qfine ff areafine kf q HS HQ Hev Hb0 Hb Hh Hk.
  pose proof HS as (_ & Hp & Hf & Hn & _). pose proof HQ as (Hx & Hy & Hm & _).
  destruct (average_face_ok rnd Hrnd d m f nf o pos manifold qfine ff areafine kf (conj Hx Hy) Hev Hh Hk ip op ft q HS HQ Hb0 Hb q)
    as (q' & E & A & B & _); [intros c []|].
  exists q'. split; [exact E|]. split.
  - intros dep t mq Hd Ht Hmq HH. destruct (depth_ghost f m dep t Hf) as [D1 D2].
    destruct (ghost_cell f m dep t) as [i j] eqn:EG. unfold at3. cbn [fst snd].
    unfold at_cell. rewrite A.
    2: { unfold ghosts. cbn [fst]. rewrite D1, D2. split; [lia|exact HH]. }
    unfold favg_arr. eexists. split; [reflexivity|].
    set (c := fun s r => inner_cell nf m (2 * dep - s) (flip o m (2 * t - r - pos * m))).
    assert (F : forall sx sy, 0 <= sx <= 1 -> 0 <= sy <= 1 ->
      fimage f nf o pos m (i, j) sx sy =
      c (if Z.odd f then 1 - nchild f sx sy else nchild f sx sy) (1 - tchild f sx sy)).
    { intros sx sy _ _. unfold fimage, c, fdepth. rewrite D1, D2. f_equal.
      - destruct (Z.odd f); lia.
      - f_equal. lia. }
    assert (SUM : forall v : Z * Z -> Q,
      (v (fimage f nf o pos m (i, j) 0 0) + v (fimage f nf o pos m (i, j) 1 0)
       + v (fimage f nf o pos m (i, j) 0 1) + v (fimage f nf o pos m (i, j) 1 1) == four_behind nf o pos m dep t v)%Q).
    { intros v. rewrite !F by lia. unfold four_behind. fold (c 0 0) (c 0 1) (c 1 0) (c 1 1).
      clear - Hf. face4 f Hf; cbn [Z.odd nchild tchild];
        change (1 - 0) with 1; change (1 - 1) with 0; ring. }
    unfold favg. destruct manifold.
    + apply Qmult_comp; [|apply Qinv_comp].
      * rewrite <- SUM. unfold qv, kv. ring.
      * rewrite <- SUM. unfold qv, kv. ring.
    + apply Qmult_comp; [|reflexivity]. rewrite <- SUM. unfold qv. ring.
  - intros [[i j] mq] Hc. apply B. intros ((G1 & G2 & G3) & M). cbn [fst] in M.
    apply (Hc (depth f m (i, j)) (posn f (i, j)) mq G1 G2 G3 M). rewrite (ghost_depth f m (i, j) Hf). reflexivity.
Qed.
Print Assumptions C23_average_face.

(** Every place along the face belongs to exactly one of the two fine neighbors, so that
    the two calls fill all ghost cells, each from one neighbor. *)
Theorem C23_every_ghost_cell_once : forall m t, Z.Even m -> 1 <= t <= m ->
  exists pos, 0 <= pos <= 1 /\ in_half m pos t /\ forall pos', 0 <= pos' <= 1 -> in_half m pos' t -> pos' = pos.
Proof.
  intros m t [h ->] Ht. unfold in_half. rewrite Z.mul_comm, Z.div_mul by lia.
  destruct (Z_le_gt_dec t h); [exists 0|exists 1]; (split; [lia|]); (split; [lia|]); intros pos' Hp H;
    (assert (E : pos' = 0 \/ pos' = 1) by lia; destruct E as [->| ->]; lia).
Qed.
Print Assumptions C23_every_ghost_cell_once.

(** Both neighbors, one after the other. *)
Theorem C23_both_neighbors : forall rnd, rounding rnd ->
  forall d m ip f nf o (op : Z -> patch) ft qfine ff qcoarse,
  (forall pos, 0 <= pos <= 1 -> half_size f nf o pos ip (op pos) ft) ->
  square d m (level ip + 1) -> Z.Even m -> 0 <= mbc d -> 2 * mbc d <= m ->
  (forall pos, 0 <= pos <= 1 -> holds d (qfine pos) (ff pos)) ->
  exists q', bind (average_face rnd d qcoarse (qfine 0) (fun _ => None) (f / 2) f 2 false (mkT ip (op 0) ft))
                  (fun q => average_face rnd d q (qfine 1) (fun _ => None) (f / 2) f 2 false (mkT ip (op 1) ft)) = Some q' /\
    forall dep t mq, 1 <= dep <= mbc d -> 1 <= t <= m -> 1 <= mq <= meqn d ->
    forall pos, 0 <= pos <= 1 -> in_half m pos t ->
      at_cell q' (at3 (ghost_cell f m dep t) mq)
        (four_behind nf o pos m dep t (fun p => ff pos (fst p) (snd p) mq) / 4)%Q.
Proof.
  intros rnd Hrnd d m ip f nf o op ft qfine ff q HS HQ Hev Hb0 Hb Hh.
  assert (L : forall pos, 0 <= pos <= 1 -> level (op pos) = level ip + 1) by (intros pos Hp; exact (proj1 (HS pos Hp))).
  assert (C : forall pos q, 0 <= pos <= 1 -> _) by (intros pos q0 Hp;
    exact (C23_average_face rnd Hrnd d m ip (op pos) f nf o pos ft false (qfine pos) (ff pos) (fun _ => None) (fun _ _ => 0%Q) q0
      (HS pos Hp) (eq_ind_r (square d m) HQ (L pos Hp)) Hev Hb0 Hb (Hh pos Hp) (fun E => False_ind _ (Bool.diff_false_true E)))).
  destruct (C 0 q ltac:(lia)) as (q1 & E1 & A1 & B1). destruct (C 1 q1 ltac:(lia)) as (q2 & E2 & A2 & B2).
  exists q2. rewrite E1. cbn [bind]. split; [exact E2|].
  intros dep t mq Hd Ht Hm pos Hp Hin.
  assert (E : pos = 0 \/ pos = 1) by lia. destruct E as [->| ->].
  - destruct (A1 dep t mq Hd Ht Hm Hin) as (v & Ev & Hv). exists v. split; [|exact Hv].
    rewrite B2; [exact Ev|]. intros dep' t' mq' Hd' Ht' Hm' Hin' X.
    assert (Hf : 0 <= f < 4) by (destruct (HS 0 ltac:(lia)) as (_ & _ & ? & _); assumption).
    assert (X2 : ghost_cell f m dep t = ghost_cell f m dep' t').
    { unfold at3 in X. destruct (ghost_cell f m dep t), (ghost_cell f m dep' t'). cbn [fst snd] in X. congruence. }
    destruct (depth_ghost f m dep t Hf) as [_ P]. destruct (depth_ghost f m dep' t' Hf) as [_ P'].
    rewrite X2 in P. assert (t = t') by congruence. subst t'. unfold in_half in *. lia.
  - now apply A2.
Qed.
Print Assumptions C23_both_neighbors.

(** *** Instance *)
Definition op23 (pos : Z) : patch := if pos =? 0 then mkPatch 3 (5#8) 0 0 (3#4) (1#8) 1 else mkPatch 3 (1#2) 0 0 (5#8) (1#8) 1.
Lemma op23_half : forall pos, 0 <= pos <= 1 -> half_size 1 2 true pos ip22 (op23 pos) (expand_face_transform_2d 1 6).
Proof.
  intros pos Hp. assert (E : pos = 0 \/ pos = 1) by lia. destruct E as [->| ->].
  - split; [reflexivity|]. split; [lia|]. split; [lia|]. split; [lia|]. split; [exact ip22_quadrant|].
    split. { split; [cbn; lia|]. split; [exists 5; split; [cbn; lia|reflexivity]|].
      split; [exists 0; split; [cbn; lia|reflexivity]|discriminate]. }
    left. split; [reflexivity|]. split; [reflexivity|]. split; reflexivity.
  - split; [reflexivity|]. split; [lia|]. split; [lia|]. split; [lia|]. split; [exact ip22_quadrant|].
    split. { split; [cbn; lia|]. split; [exists 4; split; [cbn; lia|reflexivity]|].
      split; [exists 0; split; [cbn; lia|reflexivity]|discriminate]. }
    left. split; [reflexivity|]. split; [reflexivity|]. split; reflexivity.
Qed.

Example C23_instance : exists q',
  bind (average_face (fun x => x) d4 nothing (full d4 (fdata 0)) (fun _ => None) (1 / 2) 1 2 false (mkT ip22 (op23 0) (expand_face_transform_2d 1 6)))
    (fun q => average_face (fun x => x) d4 q (full d4 (fdata 1)) (fun _ => None) (1 / 2) 1 2 false (mkT ip22 (op23 1) (expand_face_transform_2d 1 6)))
   = Some q' /\ at_cell q' (5, 1, 1) ((41 + 42 + 31 + 32) / 4)%Q /\ at_cell q' (6, 4, 1) ((1000 + 23 + 1000 + 24 + 1000 + 13 + 1000 + 14) / 4)%Q.
Proof.
  destruct (C23_both_neighbors (fun x => x) rounding_id d4 4 ip22 1 2 true op23 _ (fun g => full d4 (fdata g)) fdata nothing
    op23_half ltac:(repeat split; cbn; lia) ltac:(now exists 2) ltac:(cbn; lia) ltac:(cbn; lia)
    (fun g _ => full_holds d4 (fdata g))) as (q' & E & A).
  exists q'. split; [exact E|]. split.
  - destruct (A 1 1 1 ltac:(cbn; lia) ltac:(lia) ltac:(cbn; lia) 0 ltac:(lia) ltac:(unfold in_half; cbn; lia)) as (v & Ev & Hv).
    exists v. split; [exact Ev|]. rewrite Hv. reflexivity.
  - destruct (A 2 4 1 ltac:(cbn; lia) ltac:(lia) ltac:(cbn; lia) 1 ltac:(lia) ltac:(unfold in_half; cbn; lia)) as (v & Ev & Hv).
    exists v. split; [exact Ev|]. rewrite Hv. reflexivity.
Qed.

(** For an odd number of cells, which the option check accepts, the ghost cells in the
    middle of the face are filled by neither neighbor. *)
Theorem C23_odd_size_refuted : exists d qfine, mx d = 5 /\ my d = 5 /\ mbc d = 2 /\ meqn d = 1 /\
  (forall g, holds d (qfine g) (fdata g)) /\
  bind (bind (average_face (fun x => x) d nothing (qfine 0) (fun _ => None) (1 / 2) 1 2 false (mkT ip22 (op23 0) (expand_face_transform_2d 1 6)))
    (fun q => average_face (fun x => x) d q (qfine 1) (fun _ => None) (1 / 2) 1 2 false (mkT ip22 (op23 1) (expand_face_transform_2d 1 6))))
    (fun q => Some (q (6, 3, 1))) = Some None.
Proof.
  exists (mkDims 5 5 2 1), (fun g => full (mkDims 5 5 2 1) (fdata g)).
  split; [reflexivity|]. split; [reflexivity|]. split; [reflexivity|]. split; [reflexivity|].
  split; [intros g; apply full_holds|]. vm_compute. reflexivity.
Qed.
Print Assumptions C23_odd_size_refuted.
