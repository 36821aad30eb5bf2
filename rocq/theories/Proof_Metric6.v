(** All metric terms of a patch, whatever its history. *)
From Coq Require Import ZArith Reals List Bool Lia Lra.
From Verif Require Import Model_Map Model_Grid Spec_Map Model_Metric Spec_Metric Proof_Metric1 Proof_Metric2 Proof_Metric3 Proof_Metric4 Proof_Metric5.
Import ListNotations.
Open Scope R_scope.

Section All.
  Variable c2m : Z -> R -> R -> point.
  Variable isaffine isflat : bool.
  Variable maxlevel : Z.
  Notation M p := (c2m (pblock p)).
  Definition x_edge (p : mpatch) i j := sub (node (M p) p i (j + 1)) (node (M p) p i j).
  Definition y_edge (p : mpatch) i j := sub (node (M p) p (i + 1) j) (node (M p) p i j).
  Definition x_across (p : mpatch) i j := sub (centre (M p) p i j) (centre (M p) p (i - 1) j).
  Definition y_across (p : mpatch) i j := sub (centre (M p) p i j) (centre (M p) p i (j - 1)).
  Record right (p : mpatch) (g : metric) : Prop := mkRight {
    r_xp : forall i j, cell_index p i j -> m_xp g (i, j) = Some (centre (M p) p i j);
    r_xd : forall i j, node_index p i j -> m_xd g (i, j) = Some (node (M p) p i j);
    r_area : forall i j, cell_index p i j -> m_area g (i, j) = Some (cell_area (M p) maxlevel p i j);
    r_xn : forall i j, x_face p i j -> m_xn g (i, j) = Some (get_normal (x_edge p i j) (x_across p i j));
    r_yn : forall i j, y_face p i j -> m_yn g (i, j) = Some (get_normal (y_edge p i j) (y_across p i j));
    r_xt : forall i j, node_index p i j -> (j <= pmy p + pmbc p + 1)%Z -> m_xt g (i, j) = Some (x_edge p i j) /\ m_xlen g (i, j) = Some (norm (x_edge p i j));
    r_yt : forall i j, node_index p i j -> (i <= pmx p + pmbc p + 1)%Z -> m_yt g (i, j) = Some (y_edge p i j) /\ m_ylen g (i, j) = Some (norm (y_edge p i j));
    r_surf : forall i j, data_cell p i j ->
      let s := surf isflat (fun i j => get_normal (x_edge p i j) (x_across p i j)) (fun i j => get_normal (y_edge p i j) (y_across p i j))
                 (fun i j => norm (x_edge p i j)) (fun i j => norm (y_edge p i j)) (cell_area (M p) maxlevel p) i j in
      m_surf g (i, j) = Some (fst s) /\ m_curv g (i, j) = Some (snd s) }.

  Lemma basis_ok : forall p mesh area,
    (forall i j, cell_index p i j -> fst mesh (i, j) = Some (centre (M p) p i j)) -> (forall i j, node_index p i j -> snd mesh (i, j) = Some (node (M p) p i j)) ->
    (forall i j, cell_index p i j -> area (i, j) = Some (cell_area (M p) maxlevel p i j)) -> exists g, compute_basis isflat p mesh area = Some g /\ right p g.
  Proof.
    intros p [xp xd] area HP HD HA. cbn [fst snd] in HP, HD. unfold compute_basis.
    destruct (xnormals_ok (M p) p xp xd HP HD unset) as (xn & -> & XN). cbn [bind]. destruct (ynormals_ok (M p) p xp xd HP HD unset) as (yn & -> & YN). cbn [bind].
    destruct (xtangents_ok (M p) p xd HD (unset, unset)) as ([xt l1] & -> & XT). cbn [bind]. destruct (ytangents_ok (M p) p xd HD (unset, unset)) as ([yt l2] & -> & YT). cbn [bind]. cbn [fst snd] in XT, YT.
    destruct (surf_ok isflat p xn yn l1 l2 area (fun i j => get_normal (x_edge p i j) (x_across p i j)) (fun i j => get_normal (y_edge p i j) (y_across p i j))
                 (fun i j => norm (x_edge p i j)) (fun i j => norm (y_edge p i j)) (cell_area (M p) maxlevel p) XN YN (fun i j a b => proj2 (XT i j a b)) (fun i j a b => proj2 (YT i j a b)) HA (unset, unset)) as ([sn kp] & -> & SN).
    cbn [bind]. eexists. split; [reflexivity|]. cbn [fst snd] in SN. constructor; cbn [m_xp m_xd m_area m_xn m_yn m_xt m_yt m_xlen m_ylen m_surf m_curv]; assumption.
  Qed.

  Lemma even_half : forall n, Z.even n = true -> exists h, n = (2 * h)%Z.
  Proof. intros n H. apply Z.even_spec in H. exact H. Qed.
  Lemma build_ok : forall p, usable maxlevel p -> (isaffine = true -> affine (M p)) -> exists g, patch_build c2m isaffine isflat maxlevel p = Some g /\ right p g.
  Proof.
    intros p (U1 & U2 & U3 & U4 & U5) A. unfold patch_build. destruct (mesh_ok c2m p (unset, unset)) as (mesh & -> & P & D). cbn [bind].
    destruct (area_default_ok c2m isaffine maxlevel p unset U5 A) as (area & -> & AR). cbn [bind]. apply basis_ok; assumption.
  Qed.
  Lemma usable_child : forall p k, usable maxlevel p -> (plevel p < maxlevel)%Z -> usable maxlevel (child p k).
  Proof. intros p k (U1 & U2 & U3 & U4 & U5) L. unfold usable, child. cbn. repeat split; try assumption. lia. Qed.
  Lemma built_level : forall p g, built c2m isaffine isflat maxlevel p g -> (plevel p <= maxlevel)%Z.
  Proof.
    intros p g H. induction H as [p g H|p fine g H IH E].
    - unfold patch_build in H. destruct (compute_mesh c2m p (unset, unset)); [|discriminate H]. cbn [bind] in H. unfold compute_area_default, pow_int in H.
      destruct (Z.ltb_spec (maxlevel - plevel p) 0); [discriminate H|lia].
    - specialize (IH 0%Z ltac:(lia)). unfold child in IH. cbn [plevel] in IH. lia.
  Qed.
  Lemma from_fine_right : forall p fine, usable maxlevel p -> (plevel p < maxlevel)%Z -> (isaffine = true -> affine (M p)) ->
    (forall k, (0 <= k < 4)%Z -> right (child p k) (fine k)) -> exists g, patch_build_from_fine c2m isaffine isflat maxlevel p (fun k => m_area (fine k)) = Some g /\ right p g.
  Proof.
    intros p fine U L A F. pose proof U as (U1 & U2 & U3 & U4 & U5). destruct (even_half _ U2) as [h Hh]. unfold patch_build_from_fine.
    destruct (mesh_ok c2m p (unset, unset)) as (mesh & -> & P & D). cbn [bind].
    destruct (from_fine_ok c2m isaffine maxlevel p h Hh ltac:(lia) ltac:(lia) U4 L A (fun k => m_area (fine k)) unset) as (area & -> & AR).
    - intros k i j Hk C. apply (r_area _ _ (F k Hk)). exact C.
    - cbn [bind]. apply basis_ok; assumption.
  Qed.
  Lemma built_right : forall p g, built c2m isaffine isflat maxlevel p g -> usable maxlevel p -> (isaffine = true -> affine (M p)) -> right p g.
  Proof.
    intros p g H. induction H as [p g H|p fine g H IH E]; intros U A.
    - destruct (build_ok p U A) as (g' & E & R). rewrite H in E. injection E as ->. exact R.
    - assert (L : (plevel p < maxlevel)%Z). { pose proof (built_level _ _ (H 0%Z ltac:(lia))) as B. unfold child in B. cbn [plevel] in B. lia. }
      destruct (from_fine_right p fine U L A) as (g' & E' & R).
      + intros k Hk. apply IH; [exact Hk|apply usable_child; assumption|exact A].
      + rewrite E in E'. injection E' as ->. exact R.
  Qed.

  Lemma patch_area_ext : forall p f g, (forall i j, (1 <= i <= pmx p)%Z -> (1 <= j <= pmy p)%Z -> f i j = g i j) -> patch_area p f = patch_area p g.
  Proof. intros p f g H. unfold patch_area. apply sum_ext. intros a Ha. apply sum_ext. intros b Hb. apply H; lia. Qed.
  Lemma mesh_area_total : forall p t s, mesh_area c2m isaffine isflat maxlevel p t s -> usable maxlevel p -> (isaffine = true -> affine (M p)) -> s = patch_area p (cell_area (M p) maxlevel p).
  Proof.
    intros p t s H. induction H as [p g area B E|p t0 t1 t2 t3 s0 s1 s2 s3 H0 IH0 H1 IH1 H2 IH2 H3 IH3]; intros U A.
    - apply patch_area_ext. intros i j Hi Hj. pose proof (built_right p g B U A) as R. assert (C : cell_index p i j) by (destruct U as (_ & _ & _ & U4 & _); unfold cell_index; lia).
      pose proof (r_area _ _ R i j C) as E'. rewrite (E i j Hi Hj) in E'. injection E' as ->. reflexivity.
    - assert (L : (plevel p < maxlevel)%Z).
      { assert (LL : forall q t s, mesh_area c2m isaffine isflat maxlevel q t s -> (plevel q <= maxlevel)%Z).
        { clear. intros q t s H. induction H as [p g area B E|p t0 t1 t2 t3 s0 s1 s2 s3 H0 IH0 H1 IH1 H2 IH2 H3 IH3]; [apply (built_level _ _ B)|]. unfold child in IH0. cbn [plevel] in IH0. lia. }
        pose proof (LL _ _ _ H0) as B. unfold child in B. cbn [plevel] in B. lia. }
      destruct U as (U1 & U2 & U3 & U4 & U5). destruct (even_half _ U2) as [h Hh]. assert (U : usable maxlevel p) by (unfold usable; tauto).
      rewrite IH0, IH1, IH2, IH3 by (try (apply usable_child; assumption); exact A). apply (family_area (M p) maxlevel p h h); lia.
  Qed.

  (** patches whose cells are aligned *)
  Section Aligned.
    Variable p q : mpatch.
    Variable a b : Z.
    Hypothesis AL : aligned p q a b.
    Lemma al_cx : forall i, corner_x q i = corner_x p (i + a). Proof. intros i. destruct AL as (_ & _ & E1 & _ & E2 & _). unfold corner_x. rewrite E1, E2, plus_IZR. ring. Qed.
    Lemma al_cy : forall i, corner_y q i = corner_y p (i + b). Proof. intros i. destruct AL as (_ & _ & _ & E1 & _ & E2). unfold corner_y. rewrite E1, E2, plus_IZR. ring. Qed.
    Lemma al_px : forall i, centre_x q i = centre_x p (i + a). Proof. intros i. destruct AL as (_ & _ & E1 & _ & E2 & _). unfold centre_x. rewrite E1, E2, plus_IZR. ring. Qed.
    Lemma al_py : forall i, centre_y q i = centre_y p (i + b). Proof. intros i. destruct AL as (_ & _ & _ & E1 & _ & E2). unfold centre_y. rewrite E1, E2, plus_IZR. ring. Qed.
    Lemma al_node : forall i j, node (M q) q i j = node (M p) p (i + a) (j + b). Proof. intros i j. unfold node. rewrite al_cx, al_cy. destruct AL as (-> & _). reflexivity. Qed.
    Lemma al_centre : forall i j, centre (M q) q i j = centre (M p) p (i + a) (j + b). Proof. intros i j. unfold centre. rewrite al_px, al_py. destruct AL as (-> & _). reflexivity. Qed.
    Lemma al_area : forall i j, cell_area (M q) maxlevel q i j = cell_area (M p) maxlevel p (i + a) (j + b).
    Proof. intros i j. unfold cell_area. rewrite al_cx, al_cy. destruct AL as (-> & -> & -> & -> & _). reflexivity. Qed.
    Lemma al_xe : forall i j, x_edge q i j = x_edge p (i + a) (j + b). Proof. intros i j. unfold x_edge. rewrite !al_node. replace (j + 1 + b)%Z with (j + b + 1)%Z by ring. reflexivity. Qed.
    Lemma al_ye : forall i j, y_edge q i j = y_edge p (i + a) (j + b). Proof. intros i j. unfold y_edge. rewrite !al_node. replace (i + 1 + a)%Z with (i + a + 1)%Z by ring. reflexivity. Qed.
    Lemma al_xa : forall i j, x_across q i j = x_across p (i + a) (j + b). Proof. intros i j. unfold x_across. rewrite !al_centre. replace (i - 1 + a)%Z with (i + a - 1)%Z by ring. reflexivity. Qed.
    Lemma al_ya : forall i j, y_across q i j = y_across p (i + a) (j + b). Proof. intros i j. unfold y_across. rewrite !al_centre. replace (j - 1 + b)%Z with (j + b - 1)%Z by ring. reflexivity. Qed.
  End Aligned.
End All.

(** ** Patches that are not square: a loop that writes outside of the array *)
Lemma loop_none : forall {S} (f : Z -> S -> option S) lo hi k s, (lo <= k <= hi)%Z -> (forall s, f k s = None) -> loop lo hi f s = None.
Proof.
  intros S f lo hi k s H. unfold loop. remember (Z.to_nat (hi - lo + 1)) as n eqn:E. revert lo s H E. induction n as [|n IH]; intros lo s H E F; [lia|]. cbn [loop_n].
  destruct (Z.eq_dec lo k) as [->|N]; [rewrite F; reflexivity|]. destruct (f lo s) as [t|]; [|reflexivity]. cbn [bind]. apply IH; [lia|lia|exact F].
Qed.
Lemma average_outside : forall p fine k a0 h h', pmx p = (2 * h)%Z -> pmy p = (2 * h')%Z -> (0 <= pmy p)%Z -> (0 <= pmbc p)%Z -> (pmy p + 2 * pmbc p < pmx p)%Z -> (2 <= k < 4)%Z -> average_area p fine k a0 = None.
Proof.
  intros p fine k a0 h h' HX HE HY HB H Hk. unfold average_area. cbv zeta.
  apply (loop_none _ _ _ (Z.quot (pmy p) 2 + 1)).
  - rewrite Z.quot_div_nonneg by lia. pose proof (Z.div_pos (pmy p) 2 HY ltac:(lia)). lia.
  - intros s. apply (loop_none _ _ _ 0).
    + rewrite HX. rewrite (Z.mul_comm 2), Z.quot_mul by lia. lia.
    + intros t. match goal with |- bind ?x _ = None => destruct x end; [|reflexivity]. cbn [bind]. unfold put. replace (in_p _ _) with false; [reflexivity|]. symmetry. apply not_true_is_false. rewrite in_p_ok. unfold cell_index.
      assert (Q : Z.quot (k - Z.rem k 2) 2 = 1%Z). { assert (k = 2 \/ k = 3)%Z as [-> | ->] by lia; reflexivity. } rewrite Q.
      rewrite HX. replace (1 * (2 * h))%Z with (h * 2)%Z by ring. rewrite Z.quot_mul by lia. rewrite (Z.quot_div_nonneg (pmy p) 2) by lia.
      pose proof (Z.div_mod (pmy p) 2 ltac:(lia)). pose proof (Z.mod_pos_bound (pmy p) 2 ltac:(lia)). lia.
Qed.
Lemma from_fine_outside : forall c2m isaffine isflat maxlevel p fine h h', pmx p = (2 * h)%Z -> pmy p = (2 * h')%Z -> (0 <= pmy p)%Z -> (0 <= pmbc p)%Z -> (pmy p + 2 * pmbc p < pmx p)%Z ->
  patch_build_from_fine c2m isaffine isflat maxlevel p fine = None.
Proof.
  intros c2m isaffine isflat maxlevel p fine h h' HX HE HY HB H. unfold patch_build_from_fine. destruct (compute_mesh c2m p (unset, unset)); [|reflexivity]. cbn [bind]. unfold average_area_from_fine.
  rewrite (loop_none _ 0 3 2); [reflexivity|lia|]. intros s. apply (average_outside p (fine 2%Z) 2 s h h'); try assumption. lia.
Qed.
