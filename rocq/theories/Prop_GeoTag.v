(** C69: refinement and coarsening in GeoClaw follow the regions first and the water second. *)
From Coq Require Import ZArith QArith Qabs List Bool Lia Lqa.
From Verif Require Import Model_GeoTag Spec_GeoTag Proof_GeoTag.
Import ListNotations.
Open Scope Z_scope.

(** A patch is tagged for refinement exactly when all the regions it meets ask for a finer level, or the
    regions leave it open and some cell exceeds the tolerances. *)
Theorem C69_refine : forall g maxlevel t p init, data_ok g -> patch_ok p ->
  exists tag, tag4refinement g maxlevel t p init = Some tag /\ (tag = 0 \/ tag = 1) /\
    (tag = 1 <-> must_refine g t p \/
       (~ must_refine g t p /\ ~ must_not_refine g t p /\
        some_cell p (fun i j => allowed g t (g_level p) p i j /\ exceeds g 1 (g_level p) maxlevel p i j))).
Proof.
  intros g maxlevel t p init (Hd & Hp & Hs) Ok. unfold tag4refinement. fold (xupper_of p). fold (yupper_of p).
  destruct (test_regions_spec (regions_of g) (g_level p) (g_xlower p) (g_ylower p) (xupper_of p) (yupper_of p) t Hs) as (T1 & T0 & _ & _ & Tr).
  specialize (Tr true). rewrite agree_iff in T1, T0 by assumption. rewrite agree_iff in T0 by assumption.
  set (tag := test_regions _ _ _ _ _ _ _ true) in *.
  destruct (Z.ltb_spec tag 0) as [N | N].
  - unfold fort_tag4refinement. destruct (patch_flags g p t (g_level p) maxlevel init false Hd) as (b & B1 & B2). rewrite B1. cbn [bind].
    exists (if b then 1 else 0). split; [reflexivity|]. split; [destruct b; tauto|].
    assert (M1 : ~ must_refine g t p) by (unfold must_refine; rewrite <- T1; lia).
    assert (M0 : ~ must_not_refine g t p).
    { intro C. assert (tag = 0) by (apply T0; split; [exact M1 | exact C]). lia. }
    assert (X : (if b then 1 else 0) = 1 <-> b = true) by (destruct b; split; intro; try reflexivity; discriminate).
    rewrite X, B2. cbv beta iota. split.
    + intros [_ S]. right. tauto.
    + intros [C | (_ & _ & S)]; [contradiction|]. split; [intros [_ C]; discriminate | exact S].
  - exists tag. split; [reflexivity|]. split; [lia|]. unfold must_refine, must_not_refine. rewrite <- T1. split; [tauto|].
    intros [C | (C1 & C2 & _)]; [exact C|]. exfalso. apply C2. apply T0. lia.
Qed.
Print Assumptions C69_refine.

(** Four siblings are tagged for coarsening exactly when no region keeps them and either all the regions
    their parent meets ask for a coarser level, or none of their cells exceeds half the tolerances. *)
Theorem C69_coarsen : forall g maxlevel t p p0 p1 p2 p3 init, data_ok g -> patch_ok p -> family p p0 p1 p2 p3 ->
  exists tag, tag4coarsening g maxlevel t p0 p1 p2 p3 init = Some tag /\ (tag = 0 \/ tag = 1) /\
    (tag = 1 <-> ~ must_keep g t p /\
       (must_coarsen g t p \/
        init <> 0 \/
        forall c, In c [p0; p1; p2; p3] ->
          ~ some_cell c (fun i j => allowed g t (g_level p + 1) c i j /\ exceeds g (1 # 2) (g_level p + 1) maxlevel c i j))).
Proof.
  intros g maxlevel t p p0 p1 p2 p3 init (Hd & Hp & Hs) Ok F. unfold tag4coarsening.
  destruct (family_box p p0 p1 p2 p3 F) as (X0 & Y0 & X1 & Y1).
  replace (g_level p0) with (g_level p + 1) by (destruct F as ((E & _) & _); now rewrite E).
  rewrite (test_regions_eq _ _ _ _ _ _ _ _ _ _ t false X0 Y0 X1 Y1).
  destruct (test_regions_spec (regions_of g) (g_level p + 1) (g_xlower p) (g_ylower p) (xupper_of p) (yupper_of p) t Hs) as (_ & _ & T0 & T1 & Tr).
  specialize (Tr false). rewrite agree_iff in T1, T0 by assumption. rewrite agree_iff in T1 by assumption.
  set (tag := test_regions _ _ _ _ _ _ _ false) in *.
  destruct (Z.ltb_spec tag 0) as [N | N].
  - destruct (coarsen_flags g p0 p1 p2 p3 t (g_level p + 1) maxlevel init Hd) as (tg & E & O & K). exists tg.
    split; [exact E|]. split; [exact O|]. rewrite K.
    assert (M0 : ~ must_keep g t p) by (unfold must_keep; rewrite <- T0; lia).
    assert (M1 : ~ must_coarsen g t p).
    { intro C. assert (tag = 1) by (apply T1; split; [exact M0 | exact C]). lia. }
    unfold kept_by. split.
    + intro C. split; [exact M0|]. right. destruct (Z.eq_dec init 0) as [I | I]; [right | left; exact I].
      intros c Hin S. apply C. exists c. split; [exact Hin|]. split; [intros [D _]; contradiction | exact S].
    + intros [_ [C | [I | S]]] (c & Hin & D1 & D2); [contradiction | apply D1; tauto | exact (S c Hin D2)].
  - exists tag. split; [reflexivity|]. split; [lia|]. unfold must_keep, must_coarsen. split.
    + intro E. apply T1 in E. tauto.
    + intros [C _]. rewrite <- T0 in C. lia.
Qed.
Print Assumptions C69_coarsen.

(** A patch that the regions refine gives children that are not coarsened at the same time, whatever
    their data; and a family that the regions coarsen gives a parent that is not refined. *)
Theorem C69_no_thrashing : forall g minlevel maxlevel t p p0 p1 p2 p3 init, data_ok g -> patch_ok p -> family p p0 p1 p2 p3 ->
  (must_refine g t p -> marked_coarsen g minlevel maxlevel t p0 p1 p2 p3 init = Some false) /\
  (must_coarsen g t p -> ~ must_refine g t p -> marked_refine g maxlevel t p init = Some false).
Proof.
  intros g minlevel maxlevel t p p0 p1 p2 p3 init D Ok F. split.
  - intros M. unfold marked_coarsen. destruct (_ <? _); [|reflexivity].
    destruct (C69_coarsen g maxlevel t p p0 p1 p2 p3 init D Ok F) as (tag & E & O & K). rewrite E. cbn [bind].
    destruct (Z.eqb_spec tag 1) as [C | C]; [|reflexivity]. apply K in C. destruct C as [C _]. exfalso. apply C.
    destruct M as [W A]. split; [exact W|]. intros r Hr Hm. specialize (A r Hr Hm). lia.
  - intros M NR. unfold marked_refine. destruct (_ <? _); [|reflexivity].
    destruct (C69_refine g maxlevel t p init D Ok) as (tag & E & O & K). rewrite E. cbn [bind].
    destruct (Z.eqb_spec tag 1) as [C | C]; [|reflexivity]. apply K in C. destruct C as [C | (_ & C & _)]; [contradiction|].
    exfalso. apply C. destruct M as [W A]. split; [exact W|]. intros r Hr Hm. specialize (A r Hr Hm). cbv beta in *. lia.
Qed.
Print Assumptions C69_no_thrashing.

(** No patch gets finer than all the regions it meets allow. *)
Theorem C69_maximum : forall g maxlevel t p init, data_ok g -> patch_ok p ->
  (forall r, In r (regions_of g) -> patch_meets t p r -> min_level r <= max_level r) ->
  (exists r, In r (regions_of g) /\ patch_meets t p r) ->
  (forall r, In r (regions_of g) -> patch_meets t p r -> max_level r <= g_level p) ->
  marked_refine g maxlevel t p init = Some false.
Proof.
  intros g maxlevel t p init D Ok Hmm W A. unfold marked_refine. destruct (_ <? _); [|reflexivity].
  destruct (C69_refine g maxlevel t p init D Ok) as (tag & E & O & K). rewrite E. cbn [bind].
  destruct (Z.eqb_spec tag 1) as [C | C]; [|reflexivity]. apply K in C. destruct C as [[_ C] | (_ & C & _)].
  - destruct W as (r & Hr & Hm). specialize (C r Hr Hm). specialize (A r Hr Hm). specialize (Hmm r Hr Hm). cbv beta in *. lia.
  - exfalso. apply C. split; assumption.
Qed.
Print Assumptions C69_maximum.

(** Where every region asks for level [L] at least, a point of a region gets a patch of that level: one
    level with each regridding, and from then on for as long as the region is active, whatever the water
    does and whatever else the regridding refines. *)
Lemma same_patch_ok : forall p p', same_patch p p' -> patch_ok p -> patch_ok p'.
Proof. intros p p' (_ & A & B & C & D & _) (E & G & H & I). unfold patch_ok. rewrite A, B, C, D. tauto. Qed.
Lemma same_patch_covers : forall p p' x y, same_patch p p' -> covers p x y -> covers p' x y.
Proof.
  intros p p' x y (_ & A & B & C & D & E & G) [[H1 H2] [H3 H4]]. unfold covers, xupper_of, yupper_of in *.
  rewrite A, B, C, D, E, G. tauto.
Qed.
Lemma child_ok : forall p c, some_child p c -> patch_ok p -> patch_ok c.
Proof.
  intros p c (kx & ky & _ & _ & _ & A & B & C & D & _) (E & G & H & I). unfold patch_ok. rewrite A, B, C, D.
  repeat split; try assumption; (apply Qlt_shift_div_l; [reflexivity | lra]).
Qed.
Lemma parent_ok : forall p c kx ky, child_of p c kx ky -> patch_ok c -> patch_ok p.
Proof.
  intros p c kx ky (_ & A & B & C & D & _) (E & G & H & I). unfold patch_ok. rewrite <- A, <- B. rewrite C in H. rewrite D in I.
  assert (X : (g_dx p == 2 * (g_dx p / 2))%Q) by field. assert (Y : (g_dy p == 2 * (g_dy p / 2))%Q) by field.
  rewrite X, Y. repeat split; try assumption; lra.
Qed.
Lemma parent_covers : forall p c kx ky x y, (kx = 0 \/ kx = 1) -> (ky = 0 \/ ky = 1) -> child_of p c kx ky -> patch_ok p ->
  covers c x y -> covers p x y.
Proof.
  intros p c kx ky x y Hx Hy (_ & A & B & C & D & E & G) (M & N & P1 & P2) [[H1 H2] [H3 H4]].
  unfold covers, xupper_of, yupper_of in *. rewrite A, C in H2. rewrite B, D in H4. rewrite E, C in H1, H2. rewrite G, D in H3, H4.
  assert (X : (0 < inject_Z (g_mx p))%Q) by (change 0%Q with (inject_Z 0); rewrite <- Zlt_Qlt; lia).
  assert (Y : (0 < inject_Z (g_my p))%Q) by (change 0%Q with (inject_Z 0); rewrite <- Zlt_Qlt; lia).
  assert (X2 : (0 < inject_Z (g_mx p) * g_dx p)%Q) by (apply Qmult_lt_0_compat; assumption).
  assert (Y2 : (0 < inject_Z (g_my p) * g_dy p)%Q) by (apply Qmult_lt_0_compat; assumption).
  assert (Xh : (inject_Z (g_mx p) * (g_dx p / 2) == (1 # 2) * (inject_Z (g_mx p) * g_dx p))%Q) by field.
  assert (Yh : (inject_Z (g_my p) * (g_dy p / 2) == (1 # 2) * (inject_Z (g_my p) * g_dy p))%Q) by field.
  set (wx := (inject_Z (g_mx p) * g_dx p)%Q) in *. set (wy := (inject_Z (g_my p) * g_dy p)%Q) in *.
  assert (Kx : (inject_Z kx * inject_Z (g_mx p) * (g_dx p / 2) == inject_Z kx * ((1 # 2) * wx))%Q) by (unfold wx; field).
  assert (Ky : (inject_Z ky * inject_Z (g_my p) * (g_dy p / 2) == inject_Z ky * ((1 # 2) * wy))%Q) by (unfold wy; field).
  rewrite Kx in H1, H2. rewrite Ky in H3, H4. rewrite Xh in H2. rewrite Yh in H4.
  destruct Hx as [-> | ->], Hy as [-> | ->]; change (inject_Z 0) with 0%Q in *; change (inject_Z 1) with 1%Q in *; repeat split; lra.
Qed.
Lemma covers_meets : forall t p r x y, (t_low r <= t <= t_hi r)%Q -> covers p x y ->
  (x_low r <= x <= x_hi r)%Q -> (y_low r <= y <= y_hi r)%Q -> patch_meets t p r.
Proof. intros t p r x y T [C1 C2] X Y. split; [exact T|]. exists x, y. tauto. Qed.

Theorem C69_reaches : forall g minlevel maxlevel L r x y p ts p', data_ok g ->
  (forall r', In r' (regions_of g) -> L <= min_level r') ->
  In r (regions_of g) -> (x_low r <= x <= x_hi r)%Q -> (y_low r <= y <= y_hi r)%Q ->
  Forall (fun t => t_low r <= t <= t_hi r)%Q ts ->
  patch_ok p -> covers p x y ->
  history g minlevel maxlevel x y p ts p' ->
  covers p' x y /\ Z.min (Z.min L maxlevel) (g_level p + Z.of_nat (length ts)) <= g_level p'.
Proof.
  intros g minlevel maxlevel L r x y p ts p' D HL Hr Hx Hy Ht Ok Cov H.
  assert (G : patch_ok p' /\ covers p' x y /\ Z.min (Z.min L maxlevel) (g_level p + Z.of_nat (length ts)) <= g_level p'); [|tauto].
  induction H as [|ts p1 p2 p3 t H IH S R].
  - cbn [length]. repeat split; try (apply Ok); try (apply Cov). lia.
  - apply Forall_app in Ht. destruct Ht as [Ht Ht1]. inversion Ht1 as [|? ? Tt _]; subst. clear Ht1.
    destruct (IH Ht) as (Ok1 & Cov1 & Lev). pose proof (same_patch_ok _ _ S Ok1) as Ok2. pose proof (same_patch_covers _ _ x y S Cov1) as Cov2.
    assert (E2 : g_level p2 = g_level p1) by (apply S). rewrite <- E2 in Lev. rewrite app_length. cbn [length]. rewrite Nat.add_1_r, Nat2Z.inj_succ.
    pose proof (covers_meets t p2 r x y Tt Cov2 Hx Hy) as Mt.
    assert (Unmarked : marked_refine g maxlevel t p2 0 = Some false -> Z.min L maxlevel <= g_level p2).
    { intro U. destruct (Z.le_gt_cases (Z.min L maxlevel) (g_level p2)) as [B | B]; [exact B|]. exfalso.
      unfold marked_refine in U. replace (g_level p2 <? maxlevel) with true in U by (symmetry; apply Z.ltb_lt; lia).
      destruct (C69_refine g maxlevel t p2 0 D Ok2) as (tag & E & O & K). rewrite E in U. cbn [bind] in U.
      assert (tag = 1); [|subst tag; discriminate]. apply K. left. split; [now exists r|]. intros r' Hr' _. specialize (HL r' Hr'). lia. }
    destruct R as [Ch Cc | U Sm | q0 q1 q2 q3 U F Hin Mc].
    + split; [exact (child_ok _ _ Ch Ok2)|]. split; [exact Cc|]. destruct Ch as (kx & ky & _ & _ & E & _). rewrite E. lia.
    + split; [exact (same_patch_ok _ _ Sm Ok2)|]. split; [exact (same_patch_covers _ _ x y Sm Cov2)|].
      destruct Sm as (E & _). rewrite E. specialize (Unmarked U). lia.
    + specialize (Unmarked U).
      assert (Ch : exists kx ky, (kx = 0 \/ kx = 1) /\ (ky = 0 \/ ky = 1) /\ child_of p3 p2 kx ky).
      { destruct F as (F0 & F1 & F2 & F3). cbn in Hin. destruct Hin as [<- | [<- | [<- | [<- | []]]]];
          [exists 0, 0 | exists 1, 0 | exists 0, 1 | exists 1, 1]; tauto. }
      destruct Ch as (kx & ky & Kx & Ky & Ch). pose proof (parent_ok _ _ _ _ Ch Ok2) as Ok3.
      pose proof (parent_covers _ _ _ _ x y Kx Ky Ch Ok3 Cov2) as Cov3. split; [exact Ok3|]. split; [exact Cov3|].
      assert (E : g_level p2 = g_level p3 + 1) by (apply Ch).
      pose proof (covers_meets t p3 r x y Tt Cov3 Hx Hy) as Mt3.
      unfold marked_coarsen in Mc. destruct (_ <? _) in Mc; [|discriminate].
      destruct (C69_coarsen g maxlevel t p3 q0 q1 q2 q3 0 D Ok3 F) as (tag & Et & O & K). rewrite Et in Mc. cbn [bind] in Mc.
      destruct (Z.eqb_spec tag 1) as [C | C]; [|discriminate]. apply K in C. destruct C as [NK _].
      destruct (Z.le_gt_cases L (g_level p3)) as [B | B]; [lia|]. exfalso. apply NK. split; [now exists r|].
      intros r' Hr' _. specialize (HL r' Hr'). lia.
Qed.
Print Assumptions C69_reaches.

(** Tolerances that are not negative: a family with a cell that would refine it is not coarsened, unless
    the regions ask for it. *)
Lemma exceeds_half : forall g level maxlevel p i j, (0 <= dry_tolerance g)%Q -> (0 <= wave_tolerance g)%Q -> Forall (fun s => 0 <= s)%Q (speed_tolerance g) ->
  exceeds g 1 level maxlevel p i j -> exceeds g (1 # 2) level maxlevel p i j.
Proof.
  intros g level maxlevel p i j Hd Hw Hs (W & [E | (m & tol & Hm & Hl & Hn & E)]); (split; [exact W|]).
  - left. lra.
  - right. exists m, tol. split; [exact Hm|]. split; [exact Hl|]. split; [exact Hn|].
    assert (T : (0 <= tol)%Q) by (rewrite Forall_forall in Hs; apply Hs; eapply nth_error_In; exact Hn).
    set (h := g_q p 1 i j) in *. assert (H0 : (0 < h)%Q) by lra.
    assert (P : (0 <= tol * h)%Q) by nra. destruct E as [E | E]; [exfalso; nra|]. right.
    eapply Qle_lt_trans; [|exact E]. nra.
Qed.
Theorem C69_hysteresis : forall g minlevel maxlevel t p p0 p1 p2 p3 c, data_ok g -> patch_ok p -> family p p0 p1 p2 p3 ->
  (0 <= wave_tolerance g)%Q -> Forall (fun s => 0 <= s)%Q (speed_tolerance g) ->
  In c [p0; p1; p2; p3] ->
  some_cell c (fun i j => allowed g t (g_level c) c i j /\ exceeds g 1 (g_level c) maxlevel c i j) ->
  ~ must_coarsen g t p ->
  marked_coarsen g minlevel maxlevel t p0 p1 p2 p3 0 = Some false.
Proof.
  intros g minlevel maxlevel t p p0 p1 p2 p3 c D Ok F Hw Hs Hin (i & j & Hi & Hj & Al & Ex) NM.
  unfold marked_coarsen. destruct (_ <? _); [|reflexivity].
  destruct (C69_coarsen g maxlevel t p p0 p1 p2 p3 0 D Ok F) as (tag & E & O & K). rewrite E. cbn [bind].
  destruct (Z.eqb_spec tag 1) as [C | C]; [|reflexivity]. apply K in C. destruct C as [_ [C | [C | C]]]; [contradiction | congruence |].
  exfalso. apply (C c Hin). exists i, j.
  assert (Lc : g_level c = g_level p + 1).
  { destruct F as ((F0 & _) & (F1 & _) & (F2 & _) & (F3 & _)). cbn in Hin. destruct Hin as [<- | [<- | [<- | [<- | []]]]]; assumption. }
  rewrite Lc in Al, Ex. split; [exact Hi|]. split; [exact Hj|]. split; [exact Al|].
  apply exceeds_half; try assumption. exact (proj1 D).
Qed.
Print Assumptions C69_hysteresis.

(** ** What does not hold *)
(** water everywhere 4 deep, moving at speed [u] in x; surface [s] above sea level *)
Definition ex_q (s u : Q) : arr := fun m _ _ => if m =? 1 then (4 + s)%Q else if m =? 2 then ((4 + s) * u)%Q else 0%Q.
Definition ex_aux : arr := fun _ _ _ => (-4 # 1)%Q.
Definition ex_patch (s u : Q) (level kx ky : Z) (dx : Q) : tpatch :=
  mkT 8 8 (inject_Z kx * 8 * dx)%Q (inject_Z ky * 8 * dx)%Q dx dx (ex_q s u) ex_aux level.
Definition ex_geo (rs : list region) (speeds : list Q) : geodata := mkGeo (1 # 1000) 0 (1 # 10) speeds rs (fun _ _ _ _ => true).
Definition ex_region (mn mx : Z) : region := mkR mn mx 1 1 2 2 0 100.

Lemma ex_patch_ok : forall s u l kx ky dx, (0 < dx)%Q -> patch_ok (ex_patch s u l kx ky dx).
Proof. intros. repeat split; cbn; try lia; exact H. Qed.
Lemma ex_family : forall s u s' u' l, family (ex_patch s u l 0 0 1) (ex_patch s' u' (l + 1) 0 0 (1 # 2)) (ex_patch s' u' (l + 1) 1 0 (1 # 2))
  (ex_patch s' u' (l + 1) 0 1 (1 # 2)) (ex_patch s' u' (l + 1) 1 1 (1 # 2)).
Proof. intros. repeat split. Qed.
Lemma ex_data : forall rs sp, Forall proper rs -> Forall sane rs -> data_ok (ex_geo rs sp).
Proof. intros. split; [vm_compute; discriminate|]. split; assumption. Qed.
Lemma ex_region_ok : forall mn mx, 0 <= mn <= 100 -> 0 <= mx -> proper (ex_region mn mx) /\ sane (ex_region mn mx).
Proof. intros. split; [split; vm_compute; discriminate | split; assumption]. Qed.

(** The comment in fc2d_geoclaw.cpp promises a refinement when the level is below the minimum required by
    any region the patch meets; the smallest of the minima is used, so a second region with a lower
    minimum takes the effect of the first away. *)
Theorem C69_minimum_refuted :
  ~ (forall g maxlevel t p r, data_ok g -> patch_ok p -> In r (regions_of g) -> patch_meets t p r ->
       g_level p < min_level r -> g_level p < maxlevel -> marked_refine g maxlevel t p 0 = Some true).
Proof.
  intro H. specialize (H (ex_geo [ex_region 3 4; ex_region 1 4] []) 5 0%Q (ex_patch 0 0 1 0 0 1) (ex_region 3 4)).
  assert (X : marked_refine (ex_geo [ex_region 3 4; ex_region 1 4] []) 5 0 (ex_patch 0 0 1 0 0 1) 0 = Some true).
  { apply H.
    - apply ex_data; repeat constructor; try (apply ex_region_ok; lia); cbn; try lia; vm_compute; discriminate.
    - now apply ex_patch_ok.
    - now left.
    - split; [split; vm_compute; discriminate|]. exists 1%Q, 1%Q. repeat split; vm_compute; discriminate.
    - cbn. lia.
    - cbn. lia. }
  vm_compute in X. discriminate X.
Qed.
Print Assumptions C69_minimum_refuted.

(** The criterion says "don't coarsen on initial refinement", but the value it returns then is the one that
    allows coarsening: in the initial regridding a family is coarsened even where the water exceeds the
    full tolerance. *)
Theorem C69_initial_refuted :
  ~ (forall g minlevel maxlevel t p p0 p1 p2 p3 init, data_ok g -> patch_ok p -> family p p0 p1 p2 p3 -> init <> 0 ->
       regions_of g = [] ->
       (forall c, In c [p0; p1; p2; p3] -> some_cell c (fun i j => exceeds g 1 (g_level c) maxlevel c i j)) ->
       marked_coarsen g minlevel maxlevel t p0 p1 p2 p3 init = Some false).
Proof.
  intro H. specialize (H (ex_geo [] []) 0 5 0%Q (ex_patch 1 0 1 0 0 1) (ex_patch 1 0 2 0 0 (1 # 2)) (ex_patch 1 0 2 1 0 (1 # 2))
    (ex_patch 1 0 2 0 1 (1 # 2)) (ex_patch 1 0 2 1 1 (1 # 2)) 1).
  assert (X : marked_coarsen (ex_geo [] []) 0 5 0 (ex_patch 1 0 2 0 0 (1 # 2)) (ex_patch 1 0 2 1 0 (1 # 2))
    (ex_patch 1 0 2 0 1 (1 # 2)) (ex_patch 1 0 2 1 1 (1 # 2)) 1 = Some false).
  { apply H.
    - apply ex_data; constructor.
    - now apply ex_patch_ok.
    - apply (ex_family 1 0 1 0 1).
    - discriminate.
    - reflexivity.
    - intros c Hin. exists 1, 1. cbn in Hin. destruct Hin as [<- | [<- | [<- | [<- | []]]]];
        (split; [cbn; lia|]); (split; [cbn; lia|]); (split; [reflexivity|]); left; reflexivity. }
  vm_compute in X. discriminate X.
Qed.
Print Assumptions C69_initial_refuted.

(** The speed criterion is tested with the level of the children when they may be coarsened and with the
    level of the parent when it may be refined: a patch refined because of the speed can give children
    that are coarsened at once, with the same water in every cell. *)
Theorem C69_speed_refuted :
  ~ (forall g minlevel maxlevel t p p0 p1 p2 p3 h hu hv b, data_ok g -> patch_ok p -> family p p0 p1 p2 p3 ->
       (0 <= wave_tolerance g)%Q -> Forall (fun s => 0 < s)%Q (speed_tolerance g) -> regions_of g = [] ->
       (forall c i j, In c [p; p0; p1; p2; p3] -> g_q c 1 i j = h /\ g_q c 2 i j = hu /\ g_q c 3 i j = hv /\ g_aux c 1 i j = b) ->
       marked_refine g maxlevel t p 0 = Some true ->
       marked_coarsen g minlevel maxlevel t p0 p1 p2 p3 0 = Some false).
Proof.
  intro H. specialize (H (ex_geo [] [1%Q]) 0 5 0%Q (ex_patch 0 2 1 0 0 1) (ex_patch 0 2 2 0 0 (1 # 2)) (ex_patch 0 2 2 1 0 (1 # 2))
    (ex_patch 0 2 2 0 1 (1 # 2)) (ex_patch 0 2 2 1 1 (1 # 2)) (4 + 0)%Q ((4 + 0) * 2)%Q 0%Q (-4 # 1)%Q).
  assert (X : marked_coarsen (ex_geo [] [1%Q]) 0 5 0 (ex_patch 0 2 2 0 0 (1 # 2)) (ex_patch 0 2 2 1 0 (1 # 2))
    (ex_patch 0 2 2 0 1 (1 # 2)) (ex_patch 0 2 2 1 1 (1 # 2)) 0 = Some false).
  { apply H.
    - apply ex_data; constructor.
    - now apply ex_patch_ok.
    - apply (ex_family 0 2 0 2 1).
    - vm_compute. discriminate.
    - repeat constructor.
    - reflexivity.
    - intros c i j Hin. cbn in Hin. destruct Hin as [<- | [<- | [<- | [<- | [<- | []]]]]]; repeat split.
    - vm_compute. reflexivity. }
  vm_compute in X. discriminate X.
Qed.
Print Assumptions C69_speed_refuted.

(** ** Concrete cases *)
Example C69_instance_refine :   (* still water: refined for the region, up to its minimum *)
  let g := ex_geo [ex_region 3 4] [] in
  data_ok g /\ must_refine g 0 (ex_patch 0 0 2 0 0 1) /\
  marked_refine g 5 0 (ex_patch 0 0 2 0 0 1) 0 = Some true /\ marked_refine g 5 0 (ex_patch 0 0 3 0 0 1) 0 = Some false /\
  marked_refine g 5 101 (ex_patch 0 0 2 0 0 1) 0 = Some false /\ marked_refine g 5 0 (ex_patch 0 0 2 1 0 1) 0 = Some false.
Proof.
  cbv zeta. split; [apply ex_data; repeat constructor; cbn; try lia; vm_compute; discriminate|]. split.
  { split.
    - exists (ex_region 3 4). split; [now left|]. split; [split; vm_compute; discriminate|]. exists 1%Q, 1%Q. repeat split; vm_compute; discriminate.
    - intros r [<- | []] _. cbn. lia. }
  vm_compute. repeat split.
Qed.
Example C69_instance_water :   (* a wave refines between the minimum and the maximum, not above *)
  let g := ex_geo [ex_region 1 4] [] in
  marked_refine g 9 0 (ex_patch (1 # 2) 0 3 0 0 1) 0 = Some true /\ marked_refine g 9 0 (ex_patch (1 # 2) 0 4 0 0 1) 0 = Some false /\
  marked_refine g 9 0 (ex_patch (1 # 20) 0 3 0 0 1) 0 = Some false.
Proof. vm_compute. repeat split. Qed.
Example C69_instance_coarsen :
  let fam l f := f (ex_patch 0 0 l 0 0 (1 # 2)) (ex_patch 0 0 l 1 0 (1 # 2)) (ex_patch 0 0 l 0 1 (1 # 2)) (ex_patch 0 0 l 1 1 (1 # 2)) in
  let g := ex_geo [ex_region 3 4] [] in
  fam 3 (fun a b c d => marked_coarsen g 0 9 0 a b c d 0) = Some false /\   (* kept by the region *)
  fam 4 (fun a b c d => marked_coarsen g 0 9 0 a b c d 0) = Some true /\    (* still water *)
  fam 5 (fun a b c d => marked_coarsen g 0 9 0 a b c d 0) = Some true /\
  fam 4 (fun a b c d => marked_coarsen g 4 9 0 a b c d 0) = Some false.
Proof. vm_compute. repeat split. Qed.
Example C69_instance_hysteresis :   (* surface at 3/4 of the tolerance: neither refined nor coarsened *)
  let w := (3 # 40)%Q in let g := ex_geo [] [] in
  marked_refine g 9 0 (ex_patch w 0 3 0 0 1) 0 = Some false /\
  marked_coarsen g 0 9 0 (ex_patch w 0 3 0 0 (1 # 2)) (ex_patch w 0 3 1 0 (1 # 2)) (ex_patch w 0 3 0 1 (1 # 2)) (ex_patch w 0 3 1 1 (1 # 2)) 0 = Some false.
Proof. vm_compute. repeat split. Qed.
Example C69_instance_history :   (* two regriddings from level 1: level 3 at the point (1, 1) *)
  history (ex_geo [ex_region 3 4] []) 0 5 1 1 (ex_patch 0 0 1 0 0 1) [0%Q; 1%Q] (ex_patch 0 0 3 0 0 (1 # 4)).
Proof.
  change [0%Q; 1%Q] with ([0%Q] ++ [1%Q]).
  assert (C : forall l dx dx', (dx' == dx / 2)%Q -> (1 # 8 <= dx')%Q ->
    regrid (ex_geo [ex_region 3 4] []) 0 5 0 1 1 (ex_patch 0 0 l 0 0 dx) (ex_patch 0 0 (l + 1) 0 0 dx') /\
    regrid (ex_geo [ex_region 3 4] []) 0 5 1 1 1 (ex_patch 0 0 l 0 0 dx) (ex_patch 0 0 (l + 1) 0 0 dx')).
  { intros l dx dx' E P. assert (Z0 : (inject_Z 0 * 8 * dx' == 0)%Q) by (change (inject_Z 0) with 0%Q; ring).
    assert (R : some_child (ex_patch 0 0 l 0 0 dx) (ex_patch 0 0 (l + 1) 0 0 dx')).
    { exists 0, 0. split; [tauto|]. split; [tauto|]. repeat split; try exact E; cbn [g_xlower g_ylower g_dx g_dy ex_patch]; change (inject_Z 0) with 0%Q; ring. }
    assert (V : covers (ex_patch 0 0 (l + 1) 0 0 dx') 1 1).
    { unfold covers, xupper_of, yupper_of. cbn [g_xlower g_ylower g_dx g_dy g_mx g_my ex_patch]. change (inject_Z 8) with 8%Q. repeat split; lra. }
    split; now apply regrid_refine. }
  assert (S : forall p, same_patch p p) by (intro p; repeat split; reflexivity).
  eapply history_step; [eapply (history_step _ _ _ _ _ _ [] _ _ (ex_patch 0 0 2 0 0 (1 # 2))); [apply history_start | apply S |] | apply S |].
  - apply (C 1 1%Q (1 # 2)%Q); [reflexivity | vm_compute; discriminate].
  - apply (C 2 (1 # 2)%Q (1 # 4)%Q); [reflexivity | vm_compute; discriminate].
Qed.
