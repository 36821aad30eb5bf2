(** Property C67: the routines of a patch for the clawpack 5.x ordering. *)
From Coq Require Import ZArith QArith Qminmax Qabs List Lia Lqa Bool Qfield.
From Verif Require Import Base_Float Model_Face Spec_Face Proof_Face Proof_Face1 Model_Grid Spec_Grid Proof_Grid Proof_Grid2
  Proof_Grid3 Proof_Face5 Proof_Grid4 Proof_Grid5 Prop_Grid Model_Corner Spec_Corner Proof_Corner1 Proof_Corner2
  Proof_Corner3 Proof_Corner4 Prop_Corner Model_Ghost Spec_Ghost Proof_Ghost Proof_Ghost2 Prop_Ghost Model_Tag Spec_Tag Proof_Tag Prop_Tag
  Model_Patch5 Spec_Patch5 Proof_Patch5.
Import ListNotations.
Open Scope Z_scope.

(** ** Ghost cells of a fine neighbor *)

(** With two or three layers of ghost cells the 5.x routines do what the 4.6 routines do, on all arguments. *)
Theorem C67_interpolate_face : forall rnd d qcoarse qfine idir iface refratio t, 2 <= mbc d <= 3 ->
  interpolate_face5 rnd d qcoarse qfine idir iface refratio t = interpolate_face rnd d qcoarse qfine idir iface refratio t.
Proof. intros. now apply face5_same. Qed.
Print Assumptions C67_interpolate_face.

Theorem C67_interpolate_corner : forall rnd d qcoarse qfine refratio icorner c, 2 <= mbc d <= 3 ->
  interpolate_corner5 rnd d qcoarse qfine refratio icorner c = interpolate_corner rnd d qcoarse qfine refratio icorner c.
Proof. intros. now apply corner5_same. Qed.
Print Assumptions C67_interpolate_corner.

(** In terms of the data: two layers of ghost cells of the fine patch hold the reconstruction. *)
Theorem C67_filled : forall rnd, rounding rnd ->
  forall d m f nf o pos ip op ft qcoarse F qfine,
  half_size f nf o pos ip op ft -> square d m (level op) -> 2 <= mbc d <= 3 -> mbc d <= m -> holds_layer d qcoarse F ->
  exists q', interpolate_face5 rnd d qcoarse qfine (f / 2) f 2 (mkT ip op ft) = Some q' /\
    forall e s mq, 1 <= e <= 2 -> 1 <= s <= m -> 1 <= mq <= meqn d ->
      at_cell q' (at3 (ghost_cell nf m e (flip o m s)) mq)
        (recon (behind f m F mq) 1 ((s + pos * m + 1) / 2) (e - 1) ((s + pos * m + 1) mod 2)).
Proof.
  intros rnd Hrnd d m f nf o pos ip op ft qcoarse F qfine HS HQ Hb Hm HF.
  destruct (C53_filled rnd Hrnd d m f nf o pos ip op ft qcoarse F qfine HS HQ ltac:(lia) HF) as (q' & E & A).
  exists q'. rewrite C67_interpolate_face by exact Hb. split; [exact E|]. intros e s mq He Hs Hq.
  assert (M : mbc d / 2 = 1) by (assert (X : mbc d = 2 \/ mbc d = 3) by lia; destruct X as [->| ->]; reflexivity).
  specialize (A e s mq ltac:(rewrite M; lia) Hs Hq).
  assert (Ee : e = 1 \/ e = 2) by lia. destruct Ee as [->| ->]; exact A.
Qed.
Print Assumptions C67_filled.

(** With four layers, as a patch may have, the outer two stay as they were. *)
Theorem C67_four_layers_refuted : exists d ip op F, mx d = 8 /\ my d = 8 /\ mbc d = 4 /\ meqn d = 1 /\
  half_size 1 0 false 0 ip op face_transformation_intra /\ holds_layer d (layer d F) F /\
  bind (interpolate_face (fun x => x) d (layer d F) nothing (1 / 2) 1 2 (mkT ip op face_transformation_intra))
    (fun q => Some (map (fun i => match q (i, 3, 1) with Some _ => true | None => false end) [0; -1; -2; -3])) = Some [true; true; true; true] /\
  bind (interpolate_face5 (fun x => x) d (layer d F) nothing (1 / 2) 1 2 (mkT ip op face_transformation_intra))
    (fun q => Some (map (fun i => match q (i, 3, 1) with Some _ => true | None => false end) [0; -1; -2; -3])) = Some [true; true; false; false].
Proof.
  exists (mkDims 8 8 4 1), (mkPatch 1 0 0 0 (1#2) (1#2) 1), (mkPatch 2 (1#2) 0 0 (3#4) (1#4) 1), (fdata 0).
  repeat (split; [reflexivity|]). split; [|split; [apply layer_holds|]].
  - split; [reflexivity|]. split; [lia|]. split; [lia|]. split; [lia|].
    split. { split; [cbn; lia|]. split; [exists 0; split; [cbn; lia|reflexivity]|].
      split; [exists 0; split; [cbn; lia|reflexivity]|discriminate]. }
    split. { split; [cbn; lia|]. split; [exists 2; split; [cbn; lia|reflexivity]|].
      split; [exists 0; split; [cbn; lia|reflexivity]|discriminate]. }
    right. repeat split; reflexivity.
  - split; vm_compute; reflexivity.
Qed.
Print Assumptions C67_four_layers_refuted.

(** ** New fine patches *)

(** The cells are visited in another order, with the same result. *)
Theorem C67_interpolate2fine : forall d g, even_size d -> 2 <= mbc d -> 0 <= g < 4 ->
  forall manifold qcoarse f areacoarse kc areafine kf qfine,
  holds_layer d qcoarse f -> area_holds d areacoarse kc -> area_holds d areafine kf ->
  exists q q5, interpolate2fine d qcoarse areacoarse areafine g manifold qfine = Some q /\
    interpolate2fine5 d qcoarse areacoarse areafine g manifold qfine = Some q5 /\ forall c, q5 c = q c.
Proof.
  intros d g Hd Hb Hg manifold qcoarse f areacoarse kc areafine kf qfine Hf Hkc Hkf.
  exact (fine5_same d Hd Hb g Hg qcoarse f Hf areacoarse areafine kc kf Hkc Hkf manifold qfine).
Qed.
Print Assumptions C67_interpolate2fine.

(** In terms of the data: the four fine cells of a coarse cell keep its mean (on a mapped grid, its mass). *)
Theorem C67_mean : forall d g, even_size d -> 2 <= mbc d -> 0 <= g < 4 ->
  forall manifold qcoarse f areacoarse kc areafine kf qfine,
  holds_layer d qcoarse f -> area_holds d areacoarse kc -> area_holds d areafine kf ->
  (forall i j, 1 <= i <= mx d -> 1 <= j <= my d -> ~ (kf i j == 0)%Q) ->
  exists q' f', interpolate2fine5 d qcoarse areacoarse areafine g manifold qfine = Some q' /\
    holds d q' f' /\
    (forall c, ~ filled d g c -> q' c = qfine c) /\
    (forall i j mq, covers d g i j -> 1 <= mq <= meqn d ->
       if manifold then (four d g i j (fun x y => kf x y * f' x y mq) == kc i j * f i j mq)%Q
       else (four d g i j (fun x y => f' x y mq) == 4 * f i j mq)%Q).
Proof.
  intros d g Hd Hb Hg manifold qcoarse f areacoarse kc areafine kf qfine Hf Hkc Hkf Hnz.
  destruct (C67_interpolate2fine d g Hd Hb Hg manifold qcoarse f areacoarse kc areafine kf qfine Hf Hkc Hkf) as (q & q5 & E & E5 & S).
  destruct (C20_interpolate2fine d g Hd Hb Hg manifold qcoarse f areacoarse kc areafine kf qfine Hf Hkc Hkf Hnz) as (q' & f' & E' & H1 & H2 & H3).
  rewrite E in E'. injection E' as <-. exists q5, f'. split; [exact E5|]. split; [|split].
  - intros i j mq Hi. rewrite S. now apply H1.
  - intros c Hc. rewrite S. now apply H2.
  - intros i j mq HC Hm. specialize (H3 i j mq HC Hm). destruct manifold; [exact H3|]. now destruct H3.
Qed.
Print Assumptions C67_mean.

(** ** Interpolation in time *)

(** Two layers of cells inside the boundary get the values interpolated in time; nothing else changes. *)
Theorem C67_timeinterp : forall d width qcurr qlast fc fl alpha q,
  0 <= mbc d -> 4 <= mx d -> 4 <= my d -> 1 <= meqn d ->
  0 <= width -> 2 * (width / 2 + 1) <= mx d -> 2 * (width / 2 + 1) <= my d ->
  holds d qcurr fc -> holds d qlast fl ->
  exists q', setup_timeinterp5 d width qcurr qlast alpha q = Some q' /\
  (forall i j m, rim d 2 (i, j, m) -> q' (i, j, m) = Some (fl i j m + alpha * (fc i j m - fl i j m))%Q) /\
  (forall c, ~ rim d 2 c -> q' c = q c).
Proof. exact timeinterp5_rim. Qed.
Print Assumptions C67_timeinterp.

(** With three layers of ghost cells a neighbor copies the third layer as well, which does not have the values of
    that time. *)
Theorem C67_third_layer_refuted : exists d qcurr qlast fc fl q', mbc d = 3 /\ holds d qcurr fc /\ holds d qlast fl /\
  setup_timeinterp5 d 3 qcurr qlast (1#2) qlast = Some q' /\ rim d (mbc d) (3, 4, 1) /\
  q' (3, 4, 1) = Some 0%Q /\ (fl 3%Z 4%Z 1%Z + (1#2) * (fc 3%Z 4%Z 1%Z - fl 3%Z 4%Z 1%Z) == 1)%Q.
Proof.
  pose (d := mkDims 8 8 3 1).
  destruct (C67_timeinterp d 3 (full d (fun _ _ _ => 2%Q)) (full d (fun _ _ _ => 0%Q)) (fun _ _ _ => 2%Q) (fun _ _ _ => 0%Q) (1#2)
    (full d (fun _ _ _ => 0%Q))) as (q' & E & A & B); try (cbn; lia); try apply full_holds.
  exists d, (full d (fun _ _ _ => 2%Q)), (full d (fun _ _ _ => 0%Q)), (fun _ _ _ => 2%Q), (fun _ _ _ => 0%Q), q'.
  split; [reflexivity|]. split; [apply full_holds|]. split; [apply full_holds|]. split; [exact E|].
  split; [unfold rim, interior; cbn; lia|]. split; [|reflexivity].
  rewrite B by (unfold rim, interior; cbn; lia). reflexivity.
Qed.
Print Assumptions C67_third_layer_refuted.

(** ** Messages *)

(** With two layers of ghost cells a patch arrives at the receiver as with the 4.6 ordering. *)
Theorem C67_roundtrip : forall o m1 m2 b, large_enough o -> extra_ok o -> mbc (g_d o) = 2 ->
  exists b' m2', local_ghost_pack5 o m1 b = Some b' /\ remote_ghost_unpack5 o m2 b' = Some m2' /\
  (forall l, sent o l -> m2' l = m1 l) /\ (forall l, ~ sent o l -> m2' l = m2 l).
Proof.
  intros o m1 m2 b HL HX Hb. destruct (C17_roundtrip o m1 m2 b HL HX) as (b' & m2' & E1 & E2 & A & B).
  assert (P : local_ghost_pack5 o m1 b = local_ghost_pack o m1 b).
  { unfold local_ghost_pack5, local_ghost_pack. destruct (ghost_pack_elems o); [|reflexivity]. cbn [bind]. now rewrite comm5_same. }
  assert (U : remote_ghost_unpack5 o m2 b' = remote_ghost_unpack o m2 b').
  { unfold remote_ghost_unpack5, remote_ghost_unpack. destruct (ghost_pack_elems o); [|reflexivity]. cbn [bind]. now rewrite comm5_same. }
  exists b', m2'. rewrite P, U. repeat (split; [assumption|]). exact B.
Qed.
Print Assumptions C67_roundtrip.

(** With another number of layers the message is never complete: the size is computed with the number of layers, the
    routine packs two.  With one layer it reads outside of the arrays. *)
Theorem C67_layers_refuted : exists o3 o1, large_enough o3 /\ extra_ok o3 /\ mbc (g_d o3) = 3 /\
  large_enough o1 /\ extra_ok o1 /\ mbc (g_d o1) = 1 /\
  forall m b, local_ghost_pack5 o3 m b = None /\ local_ghost_pack5 o1 m b = None.
Proof.
  exists (mkG (mkDims 12 12 3 1) 2 0 false false None), (mkG (mkDims 12 12 1 1) 2 0 false false None).
  split; [repeat split; cbn; lia|]. split; [left; reflexivity|]. split; [reflexivity|].
  split; [repeat split; cbn; lia|]. split; [left; reflexivity|]. split; [reflexivity|].
  intros m b. split; vm_compute; reflexivity.
Qed.
Print Assumptions C67_layers_refuted.

(** ** Tagging *)

(** With a test that looks at the first component the tags are those of the 4.6 routine. *)
Theorem C67_refine : forall d crit blockno dx dy th init q f xl yl, usual d -> looks_at_first d crit -> all_set d q f ->
  fort_tag4refinement5 d crit blockno dx dy th init q xl yl = fort_tag4refinement d crit blockno dx dy th init q xl yl.
Proof. intros. now apply (refine5_same d H q f H1 crit H0). Qed.
Print Assumptions C67_refine.

(** The built-in criteria, applied to the first component; the criterion on the value, applied to any component. *)
Theorem C67_refine_builtin : forall d o blockno init q f xl yl dx dy, usual d -> good_opts d o dx dy -> all_set d q f ->
  (0 <= refine_threshold o)%Q -> criteria o = 0 \/ threshold_variable o = 1 ->
  exists tag, tag4refinement5 d o blockno init q xl yl dx dy = Some tag /\ (tag = 0 \/ tag = 1) /\
  (tag = 1 <-> patch_criterion d o (refine_threshold o) dx dy f).
Proof.
  intros d o blockno init q f xl yl dx dy Hd Ho Hq Hth Hv.
  destruct (C26_refine_builtin d o blockno init q f xl yl dx dy Hd Ho Hq Hth) as (tag & E & H). exists tag. split; [|exact H].
  rewrite <- E. unfold tag4refinement5, tag4refinement. destruct (Qgtb 0 (refine_threshold o)); [reflexivity|].
  apply (C67_refine d _ blockno dx dy _ init q f xl yl Hd); [|exact Hq]. apply builtin_first. destruct Ho as (Hc & _).
  destruct Hv as [Hv|Hv]; [now left|]. destruct (Z.eq_dec (criteria o) 0) as [E0|N]; [now left|]. right. split; [lia|exact Hv].
Qed.
Print Assumptions C67_refine_builtin.

(** A negative threshold means that every patch is refined. *)
Theorem C67_always_refine : forall d o blockno init q xl yl dx dy, (refine_threshold o < 0)%Q ->
  tag4refinement5 d o blockno init q xl yl dx dy = Some 1.
Proof.
  intros d o blockno init q xl yl dx dy H. unfold tag4refinement5. apply Qgtb_iff in H. now rewrite H.
Qed.
Print Assumptions C67_always_refine.

(** Another threshold variable is accepted, also by the 4.6 routine, but the 5.x routine passes scalars for the
    arrays that are read with it. *)
Theorem C67_threshold_variable_refuted : exists d o, usual d /\ 1 <= threshold_variable o <= meqn d /\
  forall k, 1 <= k <= 3 -> let ok := mkTopts k (threshold_variable o) None (refine_threshold o) (coarsen_threshold o) None in
  good_opts d ok (1#2) (1#2) /\
  tag4refinement d ok 0 0 (set26 bump) 0 0 (1#2) (1#2) = Some 1 /\ tag4refinement5 d ok 0 0 (set26 bump) 0 0 (1#2) (1#2) = None.
Proof.
  exists d26, (o26 1). split; [repeat split; cbn; lia|]. split; [cbn; lia|]. intros k Hk.
  cbv zeta. split; [repeat split; cbn; try lia; intros; discriminate|].
  assert (k = 1 \/ k = 2 \/ k = 3) as [->|[->| ->]] by lia; split; vm_compute; reflexivity.
Qed.
Print Assumptions C67_threshold_variable_refuted.

(** ** Instances *)
Example C67_instance_face : exists q',
  interpolate_face5 (fun x => x) d4 (layer d4 (fdata 0)) nothing (1 / 2) 1 2 (mkT ip22 (op23 1) (expand_face_transform_2d 1 6)) = Some q' /\
  at_cell q' (4, 0, 1) (40 + 3 + (10 # 4) - (1 # 4))%Q /\ at_cell q' (4, -1, 1) (40 + 3 - (10 # 4) - (1 # 4))%Q.
Proof.
  destruct (C67_filled (fun x => x) rounding_id d4 4 1 2 true 1 ip22 (op23 1) _ (layer d4 (fdata 0)) (fdata 0) nothing
    (op23_half 1 ltac:(lia)) ltac:(repeat split; cbn; lia) ltac:(cbn; lia) ltac:(cbn; lia) (layer_holds d4 (fdata 0))) as (q' & E & A).
  exists q'. split; [exact E|]. split.
  - destruct (A 1 1 1 ltac:(cbn; lia) ltac:(lia) ltac:(cbn; lia)) as (v & Ev & Hv).
    exists v. split; [exact Ev|]. rewrite Hv. reflexivity.
  - destruct (A 2 1 1 ltac:(cbn; lia) ltac:(lia) ltac:(cbn; lia)) as (v & Ev & Hv).
    exists v. split; [exact Ev|]. rewrite Hv. reflexivity.
Qed.
Example C67_instance_corner : bind (interpolate_corner5 (fun x => x) d4 (layer d4 (fdata 0)) nothing 2 3 (on_boundary (Prop_Corner.quad 3 3 0)))
  (fun q => Some (match q (5, 0, 1) with Some v => Qeq_bool v (40 + 4 + (10 # 4) + (1 # 4)) | None => false end)) = Some true.
Proof. vm_compute. reflexivity. Qed.
Example C67_instance_fine : exists q' f',
  interpolate2fine5 d4 (layer d4 (fdata 0)) (afull d4 (fun _ _ => 4%Q)) (afull d4 (fun _ _ => 1%Q)) 3 true nothing = Some q' /\
  holds d4 q' f' /\ covers d4 3 4 3 /\ (four d4 3%Z 4%Z 3%Z (fun x y => 1 * f' x y 1%Z) == 4 * fdata 0%Z 4%Z 3%Z 1%Z)%Q.
Proof.
  destruct (C67_mean d4 3 d4_even ltac:(cbn; lia) ltac:(lia) true (layer d4 (fdata 0)) (fdata 0)
      (afull d4 (fun _ _ => 4%Q)) (fun _ _ => 4%Q) (afull d4 (fun _ _ => 1%Q)) (fun _ _ => 1%Q) nothing) as (q' & f' & E & H1 & _ & H3);
    [apply layer_holds|intros i j _ _; reflexivity|intros i j _ _; reflexivity|intros i j _ _ X; vm_compute in X; discriminate X|].
  assert (C : covers d4 3 4 3) by (unfold covers; cbn; lia).
  exists q', f'. repeat (split; [assumption|]). exact (H3 4 3 1 C ltac:(cbn; lia)).
Qed.
Example C67_instance_message : exists b' m2',
  local_ghost_pack5 o17 (fun l => match l with LQ (i, j, mq) => Some (inject_Z (100 * i + 10 * j + mq)) | _ => Some 7%Q end) (fun _ => None) = Some b' /\
  remote_ghost_unpack5 o17 (fun _ => None) b' = Some m2' /\ m2' (LQ (-1, 12, 3)) = Some 23%Q /\ m2' (LQ (20, 20, 1)) = None.
Proof.
  destruct (C67_roundtrip o17 (fun l => match l with LQ (i, j, mq) => Some (inject_Z (100 * i + 10 * j + mq)) | _ => Some 7%Q end)
    (fun _ => None) (fun _ => None) (proj1 o17_ok) (proj2 o17_ok) eq_refl) as (b' & m2' & E1 & E2 & A & B).
  exists b', m2'. split; [exact E1|]. split; [exact E2|].
  split. { rewrite A; [reflexivity|]. split; [|cbn; lia]. repeat split; cbn; lia. }
  rewrite B; [reflexivity|]. intros [(H & _) _]. cbn in H. lia.
Qed.
(** the first component has a bump, and a second component is not looked at *)
Definition bump1 (i j mq : Z) : Q := if (i =? 2) && (j =? 1) && (mq =? 1) then 1%Q else 0%Q.
Example C67_instance_refine : forall k, 0 <= k <= 3 -> let o := mkTopts k 1 None (1#2) (1#10) None in
  good_opts d26 o (1#2) (1#2) /\ looks_at_first d26 (tag_criteria (meqn d26) o) /\
  tag4refinement5 d26 o 0 0 (set26 bump1) 0 0 (1#2) (1#2) = Some 1 /\ tag4refinement5 d26 o 0 0 (set26 bump) 0 0 (1#2) (1#2) = Some 0.
Proof.
  intros k Hk. cbv zeta. split; [repeat split; cbn; try lia; intros; discriminate|].
  split. { apply builtin_first. cbn [criteria threshold_variable]. lia. }
  assert (k = 0 \/ k = 1 \/ k = 2 \/ k = 3) as [->|[->|[->| ->]]] by lia; split; vm_compute; reflexivity.
Qed.
(** a test of the value of the second component *)
Example C67_instance_value : tag4refinement5 d26 (o26 0) 0 0 (set26 bump) 0 0 (1#2) (1#2) = Some 1.
Proof. vm_compute. reflexivity. Qed.
