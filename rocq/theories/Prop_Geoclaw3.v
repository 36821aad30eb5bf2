(** GeoClaw: concrete cases, and what does not hold (C64). *)
From Coq Require Import ZArith QArith Qminmax Qabs List Lia Lqa Bool Qfield Permutation.
From Verif Require Import Base_Float Model_Face Spec_Face Model_Grid Spec_Grid Proof_Grid Proof_Grid2 Model_Corner Spec_Corner
  Model_Geoclaw Spec_Geoclaw Prop_Grid Prop_Corner Prop_Geoclaw Prop_Geoclaw2.
Import ListNotations.
Open Scope Z_scope.

Definition d43 : dims := mkDims 4 4 2 3.
Definition everywhere (f : data) : arr := fun c => let '(i, j, mq) := c in Some (f i j mq).
Lemma everywhere_all : forall d f, holds_all d (everywhere f) f.
Proof. intros d f i j mq _ _ _. reflexivity. Qed.
Lemma everywhere_holds : forall d f, holds d (everywhere f) f.
Proof. intros d f i j mq _. reflexivity. Qed.
Lemma everywhere_layer : forall d f, holds_layer d (everywhere f) f.
Proof. intros d f i j mq _ _. reflexivity. Qed.
Lemma d43_even : even_size d43.
Proof. split; [now exists 2|]. split; [now exists 2|]. cbn; lia. Qed.

(** A value read off a result. *)
Definition gives (q : option arr) (c : cell) (v : Q) : bool :=
  match q with Some q' => match q' c with Some x => Qeq_bool x v | None => false end | None => false end.

(** Water at level 0 above a sloping bottom; the bottom of the coarse cells is the mean of the fine one. *)
Definition slope_g (g : Z) : data := fun i j _ => (- inject_Z (i + 4 * child_x g + j + 4 * child_y g))%Q.
Definition lake_g (g : Z) : data := fun i j mq => if mq =? 1 then inject_Z (i + 4 * child_x g + j + 4 * child_y g) else 0%Q.
Definition slope_c : data := fun i j _ => (1 - inject_Z (2 * i + 2 * j))%Q.

Lemma lake_depth : forall g i j, 0 <= g < 4 -> 1 <= i <= 4 -> 1 <= j <= 4 -> (2 <= water (lake_g g) (i, j))%Q.
Proof.
  intros g i j Hg Hi Hj. unfold water, lake_g. cbn [fst snd Z.eqb Pos.eqb]. change 2%Q with (inject_Z 2). rewrite <- Zle_Qle.
  assert (0 <= child_x g <= 1 /\ 0 <= child_y g <= 1).
  { unfold child_x, child_y. pose proof (Z.mod_pos_bound g 2 ltac:(lia)). pose proof (Z.div_mod g 2 ltac:(lia)). lia. }
  lia.
Qed.

Example C64_instance : exists q',
  geo_average2coarse d43 1 (1 # 1000) 0 (fun g => everywhere (lake_g g)) (fun g => everywhere (slope_g g)) (everywhere slope_c) nothing = Some q' /\
  at_cell q' (3, 2, 1) 9 /\ at_cell q' (3, 2, 2) 0 /\ q' (0, 1, 1) = None /\
  forall f, holds d43 q' f -> (4 * total d43 (fun i j => water f (i, j)) ==
    total d43 (fun i j => water (lake_g 0) (i, j)) + total d43 (fun i j => water (lake_g 1) (i, j)) +
    total d43 (fun i j => water (lake_g 2) (i, j)) + total d43 (fun i j => water (lake_g 3) (i, j)))%Q.
Proof.
  assert (SA : forall g, 0 <= g < 4 -> sane d43 0 (lake_g g) (slope_g g)).
  { intros g Hg i j Hi Hj. cbn [mx my d43] in *. pose proof (lake_depth g i j Hg Hi Hj). unfold cap. cbn [Z.eqb]. split; lra. }
  destruct (C64_average2coarse d43 d43_even ltac:(cbn; lia) ltac:(cbn; lia) 1 0 (1 # 1000) ltac:(lia) ltac:(lia) ltac:(lra)
    (fun g => everywhere (lake_g g)) (fun g => everywhere (slope_g g)) (everywhere slope_c) lake_g slope_g slope_c nothing
    (fun g _ => everywhere_holds d43 (lake_g g)) (fun g _ => everywhere_all _ (slope_g g)) (everywhere_all _ slope_c) SA
    (fun i j _ _ => eq_refl)) as (q' & E & V & U).
  exists q'. split; [exact E|].
  assert (G : forall c v, gives (geo_average2coarse d43 1 (1 # 1000) 0 (fun g => everywhere (lake_g g)) (fun g => everywhere (slope_g g))
    (everywhere slope_c) nothing) c v = true -> at_cell q' c v).
  { intros c v H. unfold gives in H. rewrite E in H. unfold at_cell. destruct (q' c) as [x|]; [|discriminate].
    exists x. split; [reflexivity|]. now apply Qeq_bool_iff. }
  split; [apply G; vm_compute; reflexivity|]. split; [apply G; vm_compute; reflexivity|].
  split; [rewrite U; [reflexivity|cbn; lia]|].
  intros f Hf.
  pose proof (C64_patch_mass d43 d43_even ltac:(cbn; lia) ltac:(cbn; lia) 1 0 (1 # 1000) ltac:(lia) ltac:(lia) ltac:(lra)
    (fun g => everywhere (lake_g g)) (fun g => everywhere (slope_g g)) (everywhere slope_c) lake_g slope_g slope_c nothing q' f
    (fun g _ => everywhere_holds d43 (lake_g g)) (fun g _ => everywhere_all _ (slope_g g)) (everywhere_all _ slope_c) SA
    (fun i j _ _ => eq_refl)) as P.
  unfold cap in P. cbn [Z.eqb] in P.
  assert (ONE : forall h : Z -> Z -> Q, (total d43 (fun i j => 1 * h i j) == total d43 h)%Q).
  { intros h. apply total_ext. intros i j _ _. ring. }
  rewrite !ONE in P. apply P; [| |exact E|exact Hf].
  - intros g i j Hg Hi Hj. unfold is_wet. apply negb_true_iff. pose proof (lake_depth g i j Hg Hi Hj) as D.
    destruct (Qle_bool (1 * water (lake_g g) (i, j)) (1 # 1000)) eqn:K; [|reflexivity]. apply Qle_bool_iff in K. lra.
  - intros g i j (Hg & Hi & Hj). unfold four, bottom, slope_g, slope_c. cbn [fst snd].
    unfold off_x, off_y, sub in *. change (mx d43 / 2) with 2 in *. change (my d43 / 2) with 2 in *.
    set (X := child_x g) in *. set (Y := child_y g) in *. rewrite !inject_Z_plus, !inject_Z_mult, !inject_Z_opp || idtac.
    repeat (rewrite inject_Z_plus || rewrite inject_Z_mult || rewrite inject_Z_opp || unfold Z.sub).
    field.
Qed.
Print Assumptions C64_instance.

(** With a capacity function, beyond a face of a turned neighbor and at a corner: the cells are found, the hypotheses hold. *)
Definition capdata : data := fun i j mq => if mq =? 1 then (- (3 # 1))%Q else (1 + inject_Z (i * i + j * j) / 100)%Q.
Definition waves : data := fun i j mq => if mq =? 1 then inject_Z (i * i + j) else if mq =? 2 then inject_Z (i - j) else inject_Z j.

Lemma square_nonneg : forall i j, (0 <= inject_Z (i * i + j * j) / 100)%Q.
Proof.
  intros i j. apply Qle_shift_div_l; [lra|]. setoid_replace (0 * 100)%Q with (inject_Z 0) by reflexivity. rewrite <- Zle_Qle. nia.
Qed.
Lemma cap_pos : forall i j, (0 < cap 2 capdata (i, j))%Q.
Proof. intros i j. unfold cap, capdata. cbn [Z.eqb Pos.eqb fst snd]. pose proof (square_nonneg i j). lra. Qed.
Lemma waves_sane : sane d43 2 waves capdata.
Proof.
  intros i j Hi Hj. split; [|pose proof (cap_pos i j); lra].
  unfold water, waves. cbn [fst snd Z.eqb Pos.eqb]. change 0%Q with (inject_Z 0). rewrite <- Zle_Qle. cbn [mx my d43] in *. nia.
Qed.

Example C64_instance_ghosts :
  (exists q', geo_average_face (fun x => x) d43 2 (1 # 1000) 2 nothing (everywhere waves) (everywhere capdata) (everywhere capdata)
      (1 / 2) 1 (mkT ip22 (op23 0) (expand_face_transform_2d 1 6)) = Some q' /\ q' (5, 1, 1) <> None /\ q' (5, 3, 1) = None) /\
  (exists q', geo_average_corner (fun x => x) d43 2 (1 # 1000) 2 nothing (everywhere waves) (everywhere capdata) (everywhere capdata)
      0 (meeting (quad 2 3 3)) = Some q' /\ q' (-1, 0, 1) <> None /\ q' (1, 1, 1) = None).
Proof.
  split.
  - destruct (C64_average_face (fun x => x) rounding_id d43 4 ip22 (op23 0) 1 2 true 0 (expand_face_transform_2d 1 6) 2 2 (1 # 1000)
      (op23_half 0 ltac:(lia)) ltac:(repeat split; cbn; lia) ltac:(now exists 2) ltac:(cbn; lia) ltac:(cbn; lia) ltac:(cbn; lia)
      ltac:(lia) ltac:(lia) ltac:(lra) (everywhere waves) (everywhere capdata) (everywhere capdata) waves capdata capdata nothing
      (everywhere_holds _ _) (everywhere_all _ _) (everywhere_all _ _) waves_sane cap_pos) as (q' & E & V & U).
    exists q'. split; [exact E|]. split.
    + destruct (V 1 1 ltac:(cbn; lia) ltac:(lia) ltac:(unfold in_half; cbn; lia)) as (h & hu & hv & Q1 & _).
      change (at3 (ghost_cell 1 4 1 1) 1) with (5, 1, 1) in Q1. rewrite Q1. discriminate.
    + rewrite U; [reflexivity|]. intros dep t mq Hd Ht Hq HH K. injection K as K1 K2 K3. unfold in_half in HH.
      cbn in HH, K2. lia.
  - destruct meeting_touches as [_ M2].
    destruct (C64_average_corner (fun x => x) rounding_id d43 4 0 1 false false (quad 1 0 0) (quad 2 3 3) (meeting (quad 2 3 3)) 2 2 (1 # 1000)
      M2 eq_refl ltac:(repeat split; cbn; lia) ltac:(cbn; lia) ltac:(cbn; lia) ltac:(cbn; lia)
      ltac:(lia) ltac:(lia) ltac:(lra) (everywhere waves) (everywhere capdata) (everywhere capdata) waves capdata capdata nothing
      (everywhere_holds _ _) (everywhere_all _ _) (everywhere_all _ _) waves_sane cap_pos) as (q' & E & V & U).
    exists q'. split; [exact E|]. split.
    + destruct (V 2 1 ltac:(cbn; lia) ltac:(cbn; lia)) as (h & hu & hv & Q1 & _).
      change (at3 (ghost_cell 0 4 2 (past false 4 1)) 1) with (-1, 0, 1) in Q1. rewrite Q1. discriminate.
    + rewrite U; [reflexivity|]. intros a b mq Ha Hb Hq K. apply (f_equal (fun c : cell => fst (fst c))) in K.
      change (1 = 1 - a) in K. lia.
Qed.
Print Assumptions C64_instance_ghosts.

(** An island in an ocean at sea level 0: the bottom is at -4, except land at +2 in coarse cells with i = 1. *)
Definition island : data := fun i _ _ => if i <=? 1 then 2%Q else (- (4 # 1))%Q.
Definition ocean : data := fun i _ mq => if mq =? 1 then (if i <=? 1 then 0%Q else 4%Q) else 0%Q.
Definition fine_bed : data := fun i j _ => (- inject_Z (i + j))%Q.

Example C64_instance_refine :
  (exists q', geo_interpolate2fine d43 1 (1 # 1000) 0 (everywhere ocean) (everywhere island) (everywhere fine_bed) 0 nothing = Some q' /\
     at_cell q' (3, 2, 1) 5 /\ at_cell q' (1, 2, 1) 3 /\ q' (-1, 2, 1) = None) /\
  (exists q', geo_interpolate_face (fun x => x) d43 1 (1 # 1000) 0 (everywhere ocean) nothing (everywhere island) (everywhere fine_bed)
     (1 / 2) 1 (mkT ip22 (op23 1) (expand_face_transform_2d 1 6)) = Some q' /\ at_cell q' (4, 0, 1) 4 /\ at_cell q' (4, 0, 2) 0) /\
  (exists q', geo_interpolate_corner (fun x => x) d43 1 (1 # 1000) 0 (everywhere ocean) nothing (everywhere island) (everywhere fine_bed)
     0 (meeting (quad 2 3 3)) = Some q' /\ at_cell q' (6, 5, 1) 11).
Proof.
  split; [|split].
  - destruct (C64_interpolate2fine d43 0 d43_even ltac:(cbn; lia) ltac:(lia) 1 (1 # 1000) 0 ltac:(lia) (everywhere ocean) (everywhere island)
      (everywhere fine_bed) ocean island fine_bed nothing (everywhere_layer _ _) (everywhere_all _ _) (everywhere_all _ _)) as (q' & E & V & U).
    exists q'. split; [exact E|]. split; [|split].
    + destruct (V 2 1 1 0 1 ltac:(split; [lia|cbn; lia]) ltac:(cbn; lia) ltac:(lia) ltac:(lia)) as (x & Ex & Hx).
      exists x. split; [exact Ex|]. rewrite Hx. vm_compute. reflexivity.
    + destruct (V 1 1 1 0 1 ltac:(split; [lia|cbn; lia]) ltac:(cbn; lia) ltac:(lia) ltac:(lia)) as (x & Ex & Hx).
      exists x. split; [exact Ex|]. rewrite Hx. vm_compute. reflexivity.
    + rewrite U; [reflexivity|]. unfold filled. cbn. lia.
  - destruct (C64_interpolate_face (fun x => x) rounding_id d43 4 1 2 true 1 ip22 (op23 1) (expand_face_transform_2d 1 6) 1 (1 # 1000) 0
      (op23_half 1 ltac:(lia)) ltac:(repeat split; cbn; lia) ltac:(cbn; lia) ltac:(lia) (everywhere ocean) (everywhere island)
      (everywhere fine_bed) ocean island fine_bed nothing (everywhere_layer _ _) (everywhere_all _ _) (everywhere_all _ _)) as (q' & E & V & _).
    exists q'. split; [exact E|]. split.
    + destruct (V 3 0 0 1 ltac:(unfold next_to; cbn; lia) ltac:(lia) ltac:(lia) ltac:(cbn; lia)) as (x & Ex & Hx).
      exists x. split; [exact Ex|]. rewrite Hx. vm_compute. reflexivity.
    + destruct (V 3 0 0 2 ltac:(unfold next_to; cbn; lia) ltac:(lia) ltac:(lia) ltac:(cbn; lia)) as (x & Ex & Hx).
      exists x. split; [exact Ex|]. rewrite Hx. vm_compute. reflexivity.
  - destruct meeting_touches as [_ M2].
    destruct (C64_interpolate_corner (fun x => x) rounding_id d43 4 0 1 false false (quad 1 0 0) (quad 2 3 3) (meeting (quad 2 3 3)) 1 (1 # 1000) 0
      M2 eq_refl ltac:(repeat split; cbn; lia) ltac:(cbn; lia) ltac:(intros _; cbn; lia) ltac:(lia) (everywhere ocean) (everywhere island)
      (everywhere fine_bed) ocean island fine_bed nothing (everywhere_layer _ _) (everywhere_all _ _) (everywhere_all _ _)) as (q' & E & V & _).
    exists q'. split; [exact E|].
    destruct (V 1 0 1 ltac:(lia) ltac:(lia) ltac:(cbn; lia)) as (x & Ex & Hx).
    exists x. split; [exact Ex|]. rewrite Hx. vm_compute. reflexivity.
Qed.
Print Assumptions C64_instance_refine.

(** ** Refining and coarsening again *)

(** Without a capacity function, a wet coarse cell that is refined and at once coarsened has the depth it had before, if all
    four new cells are wet and its bottom is the mean of theirs. *)
Theorem C64_roundtrip : forall S ps tol sea (h b : Z -> Z -> Q) (n t : Z) (F A : data) bc h' hu' hv' (p : Z -> Z -> Z * Z),
  ps = [p 0 0; p 1 0; p 0 1; p 1 1] -> adds_four S ps -> (0 <= tol)%Q -> (tol <= h n t)%Q ->
  (forall a r : Z, 0 <= a <= 1 -> 0 <= r <= 1 ->
     (water F (p a r) == stored_fine false 1 (recon (seen tol sea h b) n t a r) (bottom A (p a r)))%Q) ->
  (forall x, In x ps -> is_wet tol 1 (water F x) = true) ->
  (bc == b n t)%Q -> (S (bottom A) == 4 * bc)%Q ->
  coarsened S tol (fun _ => 1%Q) F A bc 1 h' hu' hv' -> (h' == h n t)%Q.
Proof.
  intros S ps tol sea h b n t F A bc h' hu' hv' p Eps AD Htol Hw HF HW Eb HB CO.
  assert (SUM : forall v, (S v == v (p 0%Z 0%Z) + v (p 1%Z 0%Z) + v (p 0%Z 1%Z) + v (p 1%Z 1%Z))%Q).
  { intros v. rewrite (proj2 AD v), Eps. cbn [fold_right]. ring. }
  assert (CK : cells_ok tol (fun _ => 1%Q) F ps).
  { split; [exact Htol|]. intros x Hx. split; [lra|]. pose proof (wet_pos tol 1 (water F x) Htol (HW x Hx)). lra. }
  destruct (C64_mass S ps tol (fun _ => 1%Q) F A bc 1 h' hu' hv' AD CK ltac:(lra) CO HW) as (M & _).
  - rewrite SUM in HB |- *. lra.
  - rewrite SUM in M, HB.
    pose proof (C64_refined_mass tol sea h b n t (fun a r => bottom A (p a r)) Hw) as R. cbv zeta beta in R.
    rewrite <- !HF in R by lia. rewrite Eb in HB. specialize (R HB). lra.
Qed.
Print Assumptions C64_roundtrip.

(** a flat lake of depth 3 over a bottom at 0 above fine bottoms +1, -1, +1, -1 *)
Definition steps : data := fun i _ _ => if i =? 1 then 1%Q else (- (1))%Q.
Definition over_steps : data := fun i j mq => if mq =? 1 then (3 - steps i j 1%Z)%Q else 0%Q.
Definition four_cells (v : Z * Z -> Q) : Q := (v (1, 1)%Z + v (2, 1)%Z + v (1, 2)%Z + v (2, 2)%Z)%Q.
Example C64_instance_roundtrip :
  coarsened four_cells (1 # 1000) (fun _ => 1%Q) over_steps steps 0 1 3 0 0 /\ forall h' hu' hv', coarsened four_cells (1 # 1000) (fun _ => 1%Q) over_steps steps 0 1 h' hu' hv' -> (h' == 3)%Q.
Proof.
  split; [right; repeat split|]. intros h' hu' hv' CO.
  apply (C64_roundtrip four_cells [(1, 1); (2, 1); (1, 2); (2, 2)] (1 # 1000) 0 (fun _ _ => 3%Q) (fun _ _ => 0%Q) 1 1
    over_steps steps 0 h' hu' hv' (fun a r => (1 + a, 1 + r))); try reflexivity; try lra.
  - split; [reflexivity|]. intros v. unfold four_cells. cbn [fold_right]. ring.
  - intros a r Ha Hr. assert (Ea : a = 0 \/ a = 1) by lia. assert (Er : r = 0 \/ r = 1) by lia.
    destruct Ea as [->| ->], Er as [->| ->]; vm_compute; reflexivity.
  - intros x Hx. cbn [In] in Hx. destruct Hx as [<-|[<-|[<-|[<-|[]]]]]; vm_compute; reflexivity.
  - exact CO.
Qed.

(** ** What does not hold *)

(** New fine cells can have a negative depth: above land that is higher than sea level the routine that fills a new fine
    patch stores the difference.  (The ghost cells are cut off at zero; the depths of the patch itself are reset only when
    the next step begins, geoclaw_b4step2.) *)
Theorem C64_refined_depth_refuted : exists F C B, (forall i j mq, 0 <= F i j mq)%Q /\
  gives (geo_interpolate2fine d43 1 (1 # 1000) 0 (everywhere F) (everywhere C) (everywhere B) 0 nothing) (1, 1, 1) (- (2 # 1)) = true.
Proof.
  exists ocean, island, island. split.
  - intros i j mq. unfold ocean. destruct (mq =? 1); [destruct (i <=? 1)|]; lra.
  - vm_compute. reflexivity.
Qed.
Print Assumptions C64_refined_depth_refuted.

(** Coarsening creates water where a cell is only partly wet: one wet cell of depth 4 among three dry ones on a flat bottom
    becomes a coarse cell of depth 4, four times the water. *)
Definition puddle : data := fun i j mq => if mq =? 1 then (if Z.odd i && Z.odd j then 4%Q else 0%Q) else 0%Q.
Theorem C64_partly_wet_refuted : exists F A C, (forall i j, A i j 1 = C i j 1) /\
  (forall g i j, covers d43 g i j -> four d43 g i j (fun x y => F g x y 1%Z) == 4)%Q /\
  gives (geo_average2coarse d43 1 (1 # 1000) 0 (fun g => everywhere (F g)) (fun _ => everywhere A) (everywhere C) nothing) (1, 1, 1) 4 = true.
Proof.
  exists (fun _ => puddle), (fun _ _ _ => 0%Q), (fun _ _ _ => 0%Q). split; [reflexivity|]. split; [|vm_compute; reflexivity].
  intros g i j _. unfold four, puddle, sub. cbn [Z.eqb Pos.eqb].
  assert (O : forall k, Z.odd (2 * (i - k) - 1 + 0) = true /\ Z.odd (2 * (i - k) - 1 + 1) = false /\
    Z.odd (2 * (j - k) - 1 + 0) = true /\ Z.odd (2 * (j - k) - 1 + 1) = false).
  { intros k. rewrite !Z.odd_add, !Z.odd_sub, !Z.odd_mul. cbn. tauto. }
  destruct (O (off_x d43 g)) as (O1 & O2 & _). destruct (O (off_y d43 g)) as (_ & _ & O3 & O4).
  rewrite O1, O2, O3, O4. cbn [andb]. reflexivity.
Qed.
Print Assumptions C64_partly_wet_refuted.

(** Coarsening loses water where the coarse bottom is above the mean of the fine bottom, here all of it. *)
Theorem C64_high_bottom_refuted : exists F A C, (forall i j, F i j 1%Z == 1)%Q /\
  gives (geo_average2coarse d43 1 (1 # 1000) 0 (fun _ => everywhere F) (fun _ => everywhere A) (everywhere C) nothing) (1, 1, 1) 0 = true.
Proof.
  exists (fun _ _ mq => if mq =? 1 then 1%Q else 0%Q), (fun _ _ _ => 0%Q), (fun _ _ _ => 1%Q).
  split; [reflexivity|vm_compute; reflexivity].
Qed.
Print Assumptions C64_high_bottom_refuted.

(** Refining can create larger velocities: momenta are interpolated on their own, so a shallow fine cell gets the momentum of
    its deep coarse cell.  (The check for new extremes is commented out, fc2d_geoclaw_interpolate_fort.f:521-577.)  Depth and
    momentum 1 everywhere (velocity 1), and a fine cell of depth 1/10: velocity 10. *)
Theorem C64_new_velocity_refuted : exists F C B, (forall i j, F i j 1%Z == 1 /\ F i j 2%Z == 1 /\ C i j 1%Z == 0)%Q /\
  (forall i j, four d43 0 i j (fun x y => B x y 1%Z) == 0)%Q /\
  gives (geo_interpolate2fine d43 1 (1 # 1000) 0 (everywhere F) (everywhere C) (everywhere B) 0 nothing) (1, 1, 1) (1 # 10) = true /\
  gives (geo_interpolate2fine d43 1 (1 # 1000) 0 (everywhere F) (everywhere C) (everywhere B) 0 nothing) (1, 1, 2) 1 = true.
Proof.
  exists (fun _ _ mq => if mq =? 3 then 0%Q else 1%Q), (fun _ _ _ => 0%Q), (fun i _ _ => if Z.odd i then (9 # 10)%Q else (- (9 # 10))%Q).
  split; [intros i j; repeat split; reflexivity|]. split; [|split; vm_compute; reflexivity].
  intros i j. unfold four, sub.
  assert (O : forall k, Z.odd (2 * (i - k) - 1 + 0) = true /\ Z.odd (2 * (i - k) - 1 + 1) = false).
  { intros k. rewrite !Z.odd_add, !Z.odd_sub, !Z.odd_mul. cbn. tauto. }
  destruct (O (off_x d43 0)) as (O1 & O2). rewrite O1, O2. reflexivity.
Qed.
Print Assumptions C64_new_velocity_refuted.
