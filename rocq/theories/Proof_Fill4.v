(** The callbacks of one process: corners, physical boundary, neighbors of ghosts. *)
From Coq Require Import ZArith List Bool Lia.
From Verif Require Import Model_Face Model_Mesh Proof_Mesh Spec_Mesh Prop_Mesh Model_Fill Model_FillExec Spec_Fill Proof_Fill1 Proof_Fill2 Proof_Fill3.
Import ListNotations.
Open Scope Z_scope.

Section Callbacks.
  Variable w : world.
  Variable geo : geometry.
  Variable rq : request.
  Variable r : Z.
  Variable v : view.
  Hypothesis FOREST : forest_ok w geo.
  Hypothesis RANK : 0 <= r < procs w.
  Hypothesis VIEW : view_ok w geo r v.
  Notation buf := (buf w rq).
  Notation rule := (rule w geo rq).
  Notation follows := (follows w geo rq).
  Notation fills := (fills w geo rq r).
  Notation gid := (gid w r).

  Section Patch.
    Variables b n : Z.
    Hypothesis Hb : 0 <= b < nblocks w.
    Hypothesis Hn : 0 <= n < count w r b.
    Notation x := (here w r b n).
    Let Xp := Xp w geo r FOREST RANK b n Hb Hn.
    Let Xb := Xb w geo r FOREST RANK b n Hb Hn.
    Let Xg : gid (Loc b n) = Some x := eq_refl.

    Lemma gct : forall c, 0 <= c < 4 -> get_corner_type c (map (edge w x) (zrange 0 4)) (map (bface geo x) (zrange 0 4)) =
      Some (negb (physical_corner w x c), block_corner geo x c, corner_iface geo x c).
    Proof.
      intros c Hc. unfold get_corner_type. change (c mod 2) with (cfx c). change (2 + c / 2) with (cfy c). cbv zeta.
      rewrite !zget_four by (apply cfx_range || apply cfy_range; assumption). cbn [bind]. unfold corner_iface, physical_corner, block_corner.
      destruct (edge w x (cfx c)), (edge w x (cfy c)); reflexivity.
    Qed.

    Lemma iface_range : forall y c, 0 <= c < 4 -> 0 <= corner_iface geo y c -> corner_iface geo y c = cfx c \/ corner_iface geo y c = cfy c.
    Proof. intros y c Hc. unfold corner_iface. destruct (block_corner geo y c), (bface geo y (cfx c)), (bface geo y (cfy c)); intros; auto; lia. Qed.
    Lemma iface_neg : forall y c, 0 <= c < 4 -> corner_iface geo y c < 0 -> corner_iface geo y c = -1.
    Proof.
      intros y c Hc. pose proof (cfx_range c). pose proof (cfy_range c Hc).
      unfold corner_iface. destruct (block_corner geo y c), (bface geo y (cfx c)), (bface geo y (cfy c)); intros; auto; lia.
    Qed.

    Lemma gcn_none : forall c, 0 <= c < 4 -> diag w x c = None -> forall bi isb, get_corner_neighbor v b n c bi isb = Some NoNb.
    Proof.
      intros c Hc E bi isb. destruct (C05_corner_neighbors D2 w r (v_dom v) b n c (WORLD _ _ FOREST) RANK (proj1 VIEW) Hb Hn Hc) as (a & Ea & R).
      unfold get_corner_neighbor. rewrite Ea. cbn [bind]. unfold right_corner in R. unfold diag in E. change (r, before w r b + n) with x in R.
      destruct (corner_of w x c); try discriminate; subst a; cbn [ca_rel]; (destruct isb; [|reflexivity]); cbn [negb];
        rewrite (proj1 (proj2 VIEW)); reflexivity.
    Qed.

    Lemma gcn_some : forall c y c', 0 <= c < 4 -> physical_corner w x c = false -> diag w x c = Some (y, c') -> exists p,
      get_corner_neighbor v b n c (corner_iface geo x c) (block_corner geo x c) =
        Some (Nb (block_of w y) p c' (lev_of (size w y x)) (corner_trans w geo x c) (corner_trans w geo y c') (corner_iface geo y c')) /\
      gid p = Some y /\ is_ghost p = negb (fst y =? r).
    Proof.
      intros c y c' Hc P E. destruct (C05_corner_neighbors D2 w r (v_dom v) b n c (WORLD _ _ FOREST) RANK (proj1 VIEW) Hb Hn Hc) as (a & Ea & R).
      destruct (csym _ _ FOREST _ _ Xp Hc P _ _ E) as (Hc' & P' & E' & SB & SI & SF).
      assert (exists q i, finds w r y q i /\ a = mkCA (size w y x) (Some q) (block_of w y) (Some i) c') as (q & i & Fd & ->).
      { unfold right_corner in R. unfold diag in E. change (r, before w r b + n) with x in R. destruct (corner_of w x c); try discriminate; inversion E; subst; exact R. }
      destruct (pointer_ok w geo r v VIEW _ _ _ Fd) as [G1 G2]. exists (pointer v q (block_of w y) i). split; [|split; [exact G1|exact G2]].
      unfold get_corner_neighbor. rewrite Ea. cbn [bind ca_rel ca_proc ca_patch ca_block ca_corner].
      assert (match size w y x with BOUNDARY => False | _ => True end) as SZ.
      { unfold size. destruct (level_of w y <? level_of w x); [exact Logic.I|]. destruct (level_of w x <? level_of w y); exact Logic.I. }
      assert (forall A B : option corner_nb, match size w y x with BOUNDARY => A | HALFSIZE => B | SAMESIZE => B | DOUBLESIZE => B end = B) as HM
        by (intros; destruct (size w y x); [contradiction|reflexivity..]).
      rewrite HM. clear HM.
      destruct (block_corner geo x c) eqn:BC.
      - unfold corner_trans, corner_iface. rewrite BC, SB. reflexivity.
      - destruct (Z.leb_spec 0 (corner_iface geo x c)) as [HI|HI].
        + destruct (SF _ eq_refl HI) as (S1 & S2 & z & S3 & S4).
          assert (0 <= corner_iface geo x c < 4) as Hf by (destruct (iface_range x c Hc HI) as [-> | ->]; [apply cfx_range|apply cfy_range; assumption]).
          destruct (C05_face_neighbors D2 w r (v_dom v) b n (corner_iface geo x c) (WORLD _ _ FOREST) RANK (proj1 VIEW) Hb Hn Hf) as (fa & Efa & RF). rewrite Efa. cbn [bind].
          assert (fa_block fa = block_of w y /\ fa_face fa = rface w x (corner_iface geo x c) /\ 0 <= fa_face fa < 8) as (B1 & B2 & B3).
          { pose proof (acrossok _ _ FOREST _ _ Xp Hf) as A. unfold across_ok in A. change (num_orientations D2) with 8 in A.
            unfold right_face in RF. change (r, before w r b + n) with x in RF. unfold rface. set (f := corner_iface geo x c) in *.
            destruct (face_of w x f) as [|z' rf|zs rf|z' sub rf] eqn:EF; [contradiction|..].
            - subst z'. destruct RF as (q' & i' & _ & ->). cbn [fa_block fa_face]. tauto.
            - destruct RF as (l & _ & _ & _ & _ & RF4 & RF5). rewrite (RF5 _ S4), RF4. tauto.
            - subst z'. destruct RF as (q' & i' & _ & ->). cbn [fa_block fa_face]. tauto. }
          rewrite B1, Z.eqb_refl. cbn [check]. rewrite swap_eq by assumption. rewrite B2 in *.
          unfold corner_trans. rewrite S1. destruct (Z.ltb_spec (corner_iface geo x c) 0); [lia|].
          pose proof (Z.mod_pos_bound (rface w x (corner_iface geo x c)) 4 ltac:(lia)).
          destruct (Z.ltb_spec (rface w x (corner_iface geo x c) mod 4) 0); [lia|]. rewrite S2. reflexivity.
        + destruct (SI eq_refl HI) as [S1 S2]. rewrite S2, Xb, Z.eqb_refl. unfold corner_trans.
          destruct (Z.ltb_spec (corner_iface geo x c) 0); [|lia]. destruct (Z.ltb_spec (corner_iface geo y c') 0); [|lia].
          rewrite (iface_neg y c') by assumption. cbn [bind]. reflexivity.
    Qed.

    Lemma cb_corners : forall e (K : Z -> patch -> region -> Prop),
      (forall c, 0 <= c < 4 -> physical_corner w x c = false ->
         fills (corner_fill_at v e b n (map (edge w x) (zrange 0 4)) (map (bface geo x) (zrange 0 4)) c) (K c)) ->
      fills (cb_corner_fill v e b n) (fun z g => exists c, (0 <= c < 4 /\ physical_corner w x c = false) /\ K c z g).
    Proof.
      intros e K H. unfold cb_corner_fill. rewrite (bc_ok w geo r v FOREST RANK VIEW b n Hb Hn). cbn [bind]. rewrite (blk_ok w geo r v VIEW b n).
      eapply fills_weaken; [apply (fills_mapM w geo rq r _ (fun c z g => physical_corner w x c = false /\ K c z g))|].
      - intros c Hc. apply Proof_Mesh.in_range in Hc. destruct (physical_corner w x c) eqn:E.
        + unfold corner_fill_at. rewrite gct by assumption. cbn [bind]. rewrite E. apply fills_nil. intros z g [? _]. discriminate.
        + eapply fills_weaken; [apply (H c Hc E)|]. intros z g [_ Kg]. exact Kg.
      - intros z g (c & [Hc E] & Kg). exists c. split; [apply Proof_Mesh.in_range; lia|]. auto.
    Qed.

    Lemma corner_args : forall tr p q bi c isb, args_ok (mkT tr p q bi c isb) p q && (t_icorner (mkT tr p q bi c isb) =? c) && eqb (t_block_corner (mkT tr p q bi c isb)) isb = true.
    Proof. intros. unfold args_ok. cbn [t_this t_nbr t_icorner t_block_corner]. rewrite !pref_eqb_refl, Z.eqb_refl, eqb_reflx. reflexivity. Qed.

    Lemma ccopy_op : forall px pq p c y c' b1 b2, is_patch w p -> 0 <= c < 4 -> physical_corner w p c = false -> diag w p c = Some (y, c') -> level_of w y = level_of w p ->
      gid px = Some p -> gid pq = Some y ->
      fills (Some [CopyCorner px pq b1 b2 (block_corner geo p c) c (buf p) (mkT (corner_trans w geo p c) px pq (corner_iface geo p c) c (block_corner geo p c))])
        (fun z g => z = p /\ g = RCorner c).
    Proof.
      intros px pq p c y c' b1 b2 Hp Hc P E L G1 G2. eapply fills_one.
      - exists p, y, c'. auto 15.
      - cbn [assigns]. rewrite corner_args. cbn [check]. unfold with_patches. rewrite G1, G2. cbn [bind]. reflexivity.
      - cbn [t_block_iface t_trans]. apply Forall_cons; [|apply Forall_nil]. eapply ccopy_follows; eassumption.
      - intros z g (-> & ->). cbn [map target In]. auto.
    Qed.
    Lemma cavg_op : forall px pq p c y c' b1 b2, is_patch w p -> 0 <= c < 4 -> physical_corner w p c = false -> diag w p c = Some (y, c') -> level_of w p < level_of w y ->
      lowest rq <= level_of w p -> gid px = Some p -> gid pq = Some y ->
      fills (Some [AvgCorner px pq b1 b2 (block_corner geo p c) c (buf p) (mkT (corner_trans w geo p c) px pq (corner_iface geo p c) c (block_corner geo p c))])
        (fun z g => z = p /\ g = RCorner c).
    Proof.
      intros px pq p c y c' b1 b2 Hp Hc P E L L' G1 G2. eapply fills_one.
      - exists p, y, c'. auto 15.
      - cbn [assigns]. rewrite corner_args. cbn [check]. unfold with_patches. rewrite G1, G2. cbn [bind]. reflexivity.
      - cbn [t_block_iface t_trans]. apply Forall_cons; [|apply Forall_nil]. eapply cavg_follows; eassumption.
      - intros z g (-> & ->). cbn [map target In]. auto.
    Qed.
    Lemma cint_op : forall px pq p c y c' b1 b2, is_patch w p -> 0 <= c < 4 -> physical_corner w p c = false -> diag w p c = Some (y, c') -> level_of w p < level_of w y ->
      lowest rq <= level_of w p -> gid px = Some p -> gid pq = Some y ->
      fills (Some [IntCorner px pq b1 b2 (block_corner geo p c) c (buf p) (mkT (corner_trans w geo p c) px pq (corner_iface geo p c) c (block_corner geo p c))])
        (fun z g => z = y /\ g = RCorner c').
    Proof.
      intros px pq p c y c' b1 b2 Hp Hc P E L L' G1 G2. eapply fills_one.
      - exists p, y, c'. auto 15.
      - cbn [assigns]. rewrite corner_args. cbn [check]. unfold with_patches. rewrite G1, G2. cbn [bind]. rewrite E. cbn [bind]. rewrite patch_eqb_refl. cbn [check]. reflexivity.
      - cbn [t_block_iface t_trans]. apply Forall_cons; [|apply Forall_nil]. eapply cint_follows; eassumption.
      - assert (buf y = false) as BF by (apply buf_fine; pose proof (lowest_le rq); lia).
        intros z g (-> & ->). rewrite BF. cbn [map target In]. auto.
    Qed.

    Lemma size_cases : forall y, (level_of w y < level_of w x /\ lev_of (size w y x) = COARSER) \/ (level_of w y = level_of w x /\ lev_of (size w y x) = SAME) \/
      (level_of w x < level_of w y /\ lev_of (size w y x) = FINER).
    Proof.
      intros y. unfold size. destruct (Z.ltb_spec (level_of w y) (level_of w x)); [left; auto|]. destruct (Z.ltb_spec (level_of w x) (level_of w y)); [right; right; auto|].
      right; left. split; [lia|reflexivity].
    Qed.

    Lemma corner_copy : forall par, fills (cb_corner_fill v (mkE COPY IS_COARSE par (buf x)) b n) (fun z g => exists c y c', 0 <= c < 4 /\ physical_corner w x c = false /\
      diag w x c = Some (y, c') /\ level_of w y = level_of w x /\ (fst y = r \/ par = true) /\ z = x /\ g = RCorner c).
    Proof.
      intros par. eapply fills_weaken; [apply (cb_corners _ (fun c z g => exists y c', diag w x c = Some (y, c') /\ level_of w y = level_of w x /\ (fst y = r \/ par = true) /\ z = x /\ g = RCorner c))|].
      2: { intros z g (c & y & c' & Hc & P & E & K). exists c. split; [auto|]. exists y, c'. auto. }
      intros c Hc P. unfold corner_fill_at. rewrite gct by assumption. cbn [bind]. rewrite P. cbn [negb].
      destruct (diag w x c) as [[y c']|] eqn:E.
      - destruct (gcn_some c y c' Hc P E) as (p & -> & G1 & G2). cbn [bind e_grid e_parallel e_type e_ti ex_eqb andb]. rewrite G2.
        assert (forall z g, (exists y0 c'0, Some (y, c') = Some (y0, c'0) /\ level_of w y0 = level_of w x /\ (fst y0 = r \/ par = true) /\ z = x /\ g = RCorner c) ->
          level_of w y = level_of w x /\ (fst y = r \/ par = true) /\ z = x /\ g = RCorner c) as KK.
        { intros z g (y0 & c0 & E0 & K). inversion E0; subst. exact K. }
        destruct ((par && negb (fst y =? r)) || negb (negb (fst y =? r))) eqn:G.
        + destruct (size_cases y) as [[L ->]|[[L ->]|[L ->]]].
          * apply fills_nil. intros z g K. apply KK in K. lia.
          * eapply fills_weaken; [eapply ccopy_op; try eassumption; first [exact Xp|exact Xg]|]. intros z g K. apply KK in K. tauto.
          * apply fills_nil. intros z g K. apply KK in K. lia.
        + apply fills_nil. intros z g K. apply KK in K. destruct K as (_ & [K|K] & _).
          * rewrite K, Z.eqb_refl, orb_true_r in G. discriminate.
          * subst par. destruct (fst y =? r); discriminate.
      - rewrite gcn_none by assumption. cbn [bind]. apply fills_nil. intros z g (? & ? & ? & _). discriminate.
    Qed.
    Lemma corner_avg : forall par, lowest rq <= level_of w x ->
      fills (cb_corner_fill v (mkE AVERAGE IS_COARSE par (buf x)) b n) (fun z g => exists c y c', 0 <= c < 4 /\ physical_corner w x c = false /\
      diag w x c = Some (y, c') /\ level_of w x < level_of w y /\ (fst y = r \/ par = true) /\ z = x /\ g = RCorner c).
    Proof.
      intros par LX. eapply fills_weaken; [apply (cb_corners _ (fun c z g => exists y c', diag w x c = Some (y, c') /\ level_of w x < level_of w y /\ (fst y = r \/ par = true) /\ z = x /\ g = RCorner c))|].
      2: { intros z g (c & y & c' & Hc & P & E & K). exists c. split; [auto|]. exists y, c'. auto. }
      intros c Hc P. unfold corner_fill_at. rewrite gct by assumption. cbn [bind]. rewrite P. cbn [negb].
      destruct (diag w x c) as [[y c']|] eqn:E.
      - destruct (gcn_some c y c' Hc P E) as (p & -> & G1 & G2). cbn [bind e_grid e_parallel e_type e_ti ex_eqb andb]. rewrite G2.
        assert (forall z g, (exists y0 c'0, Some (y, c') = Some (y0, c'0) /\ level_of w x < level_of w y0 /\ (fst y0 = r \/ par = true) /\ z = x /\ g = RCorner c) ->
          level_of w x < level_of w y /\ (fst y = r \/ par = true) /\ z = x /\ g = RCorner c) as KK.
        { intros z g (y0 & c0 & E0 & K). inversion E0; subst. exact K. }
        destruct ((par && negb (fst y =? r)) || negb (negb (fst y =? r))) eqn:G.
        + destruct (size_cases y) as [[L ->]|[[L ->]|[L ->]]].
          * apply fills_nil. intros z g K. apply KK in K. lia.
          * apply fills_nil. intros z g K. apply KK in K. lia.
          * eapply fills_weaken; [eapply cavg_op; try eassumption; first [exact Xp|exact Xg]|]. intros z g K. apply KK in K. tauto.
        + apply fills_nil. intros z g K. apply KK in K. destruct K as (_ & [K|K] & _).
          * rewrite K, Z.eqb_refl, orb_true_r in G. discriminate.
          * subst par. destruct (fst y =? r); discriminate.
      - rewrite gcn_none by assumption. cbn [bind]. apply fills_nil. intros z g (? & ? & ? & _). discriminate.
    Qed.
    Lemma corner_int : forall par, lowest rq <= level_of w x ->
      fills (cb_corner_fill v (mkE INTERPOLATE IS_COARSE par (buf x)) b n) (fun z g => exists c y c', 0 <= c < 4 /\ physical_corner w x c = false /\
      diag w x c = Some (y, c') /\ level_of w x < level_of w y /\ fst y = r /\ z = y /\ g = RCorner c').
    Proof.
      intros par LX. eapply fills_weaken; [apply (cb_corners _ (fun c z g => exists y c', diag w x c = Some (y, c') /\ level_of w x < level_of w y /\ fst y = r /\ z = y /\ g = RCorner c'))|].
      2: { intros z g (c & y & c' & Hc & P & E & K). exists c. split; [auto|]. exists y, c'. auto. }
      intros c Hc P. unfold corner_fill_at. rewrite gct by assumption. cbn [bind]. rewrite P. cbn [negb].
      destruct (diag w x c) as [[y c']|] eqn:E.
      - destruct (gcn_some c y c' Hc P E) as (p & -> & G1 & G2). cbn [bind e_grid e_parallel e_type e_ti ex_eqb andb]. rewrite G2.
        assert (forall z g, (exists y0 c'0, Some (y, c') = Some (y0, c'0) /\ level_of w x < level_of w y0 /\ fst y0 = r /\ z = y0 /\ g = RCorner c'0) ->
          level_of w x < level_of w y /\ fst y = r /\ z = y /\ g = RCorner c') as KK.
        { intros z g (y0 & c0 & E0 & K). inversion E0; subst. exact K. }
        destruct ((par && negb (fst y =? r)) || negb (negb (fst y =? r))) eqn:G.
        + destruct (size_cases y) as [[L ->]|[[L ->]|[L ->]]].
          * apply fills_nil. intros z g K. apply KK in K. lia.
          * apply fills_nil. intros z g K. apply KK in K. lia.
          * destruct (Z.eqb_spec (fst y) r) as [EL|NL]; cbn [negb].
            -- eapply fills_weaken; [eapply cint_op; try eassumption; first [exact Xp|exact Xg]|]. intros z g K. apply KK in K. tauto.
            -- apply fills_nil. intros z g K. apply KK in K. tauto.
        + apply fills_nil. intros z g K. apply KK in K. destruct K as (_ & K & _). rewrite K, Z.eqb_refl, orb_true_r in G. discriminate.
      - rewrite gcn_none by assumption. cbn [bind]. apply fills_nil. intros z g (? & ? & ? & _). discriminate.
    Qed.
    Lemma corner_int_fine : forall par ti, (forall c y c', 0 <= c < 4 -> diag w x c = Some (y, c') -> level_of w y < level_of w x -> lowest rq <= level_of w y /\ ti = buf y) ->
      fills (cb_corner_fill v (mkE INTERPOLATE IS_FINE par ti) b n) (fun z g => exists c y c', 0 <= c < 4 /\ physical_corner w x c = false /\
      diag w x c = Some (y, c') /\ level_of w y < level_of w x /\ fst y <> r /\ par = true /\ z = x /\ g = RCorner c).
    Proof.
      intros par ti H. eapply fills_weaken; [apply (cb_corners _ (fun c z g => exists y c', diag w x c = Some (y, c') /\ level_of w y < level_of w x /\ fst y <> r /\ par = true /\ z = x /\ g = RCorner c))|].
      2: { intros z g (c & y & c' & Hc & P & E & K). exists c. split; [auto|]. exists y, c'. auto. }
      intros c Hc P. unfold corner_fill_at. rewrite gct by assumption. cbn [bind]. rewrite P. cbn [negb].
      destruct (diag w x c) as [[y c']|] eqn:E.
      - destruct (gcn_some c y c' Hc P E) as (p & -> & G1 & G2). cbn [bind e_grid e_parallel e_type e_ti ex_eqb andb]. rewrite G2.
        assert (forall z g, (exists y0 c'0, Some (y, c') = Some (y0, c'0) /\ level_of w y0 < level_of w x /\ fst y0 <> r /\ par = true /\ z = x /\ g = RCorner c) ->
          level_of w y < level_of w x /\ fst y <> r /\ par = true /\ z = x /\ g = RCorner c) as KK.
        { intros z g (y0 & c0 & E0 & K). inversion E0; subst. exact K. }
        destruct (size_cases y) as [[L ->]|[[L ->]|[L ->]]].
        + destruct (negb (fst y =? r) && par) eqn:G.
          * destruct (H c y c' Hc E L) as [LY ->]. destruct (csym _ _ FOREST _ _ Xp Hc P _ _ E) as (Hc' & P' & E' & SB & _). rewrite <- SB.
            eapply fills_weaken; [eapply cint_op; try eassumption; try exact Xg|].
            -- apply (diag_level _ _ FOREST _ _ _ _ Xp Hc E).
            -- intros z g K. apply KK in K. tauto.
          * apply fills_nil. intros z g K. apply KK in K. destruct K as (_ & K1 & K2 & _). subst par. destruct (Z.eqb_spec (fst y) r); [contradiction|discriminate].
        + apply fills_nil. intros z g K. apply KK in K. lia.
        + apply fills_nil. intros z g K. apply KK in K. lia.
      - rewrite gcn_none by assumption. cbn [bind]. apply fills_nil. intros z g (? & ? & ? & _). discriminate.
    Qed.

    (** ** The physical boundary *)
    Lemma physical_ops : forall ti, exists l, compile w (place geo) r [Physical (Loc b n) b n (map (edge w x) (zrange 0 4)) ti] = Some l /\
      l = concat (map (phys_face x ti) (filter (edge w x) (zrange 0 4))).
    Proof.
      intros ti. eexists. split; [|reflexivity]. apply compile_one. cbn [assigns]. rewrite Xg. cbn [bind]. reflexivity.
    Qed.
    Lemma physical_fill : forall ti, (interp rq = false -> ti = false) -> fills (cb_physical v ti b n) (fun z g => ti = buf x /\ z = x /\ exists f h, 0 <= f < 4 /\ edge w x f = true /\ g = RFace f h).
    Proof.
      intros ti HT. unfold cb_physical. rewrite (bc_ok w geo r v FOREST RANK VIEW b n Hb Hn). cbn [bind]. destruct (physical_ops ti) as (l & E & El).
      exists [Physical (Loc b n) b n (map (edge w x) (zrange 0 4)) ti], l. split; [reflexivity|]. split; [exact E|]. subst l. split; [|split].
      - apply Forall_concat. rewrite Forall_map. apply Forall_forall. intros f Hf. apply filter_In in Hf. destruct Hf as [Hf Ef]. apply Proof_Mesh.in_range in Hf.
        apply phys_follows; assumption.
      - intros z g (-> & -> & f & h & Hf & Ef & ->). apply in_map_iff.
        exists (mkA (x, buf x, RFace f h) (KPhysFace f h) [(x, buf x, RInt)]). split; [reflexivity|]. apply in_concat. exists (phys_face x (buf x) f). split.
        + apply in_map_iff. exists f. split; [reflexivity|]. apply filter_In. split; [apply Proof_Mesh.in_range; lia|exact Ef].
        + unfold phys_face. destruct h; cbn [In]; auto.
      - apply Forall_cons; [|apply Forall_nil]. exists x. auto.
    Qed.
  End Patch.

  (** ** Neighbors of ghosts *)
  Lemma ghost_at : forall i x f, zget (layer w r) i = Some x -> 0 <= f < 4 -> lowest rq <= level_of w x ->
    fills (neighbor_ghost_at v (minlevel rq) (interp rq) i (level_of w x) f)
      (fun z g => exists h y, z = x /\ g = RFace f h /\ source w geo rq x f h y /\ edge w x f = false /\ fst y <> fst x /\ In y (layer w r)).
  Proof.
    intros i x f Hi Hf L. assert (In x (layer w r)) as Hin by (eapply zget_in; exact Hi).
    destruct (WORLD _ _ FOREST) as (_ & _ & _ & _ & _ & _ & _ & LW & _). destruct (LW _ _ RANK Hin) as [Hx Nx].
    destruct VIEW as (_ & _ & _ & VB & VI & _). destruct (VI i x f Hi Hf) as (a & Ea & R). unfold neighbor_ghost_at. rewrite Ea. cbn [bind].
    assert (gid (Gho i) = Some x) as Gx by exact Hi. rewrite (VB (Gho i) x f Gx). change (interp rq && (level_of w x =? minlevel rq - 1)) with (buf x).
    unfold right_indirect_face in R. destruct (face_of w x f) as [|y rf|ys rf|q sub rf] eqn:E.
    - subst a. cbn [fa_rel]. apply fills_nil. intros z g (h & y & _ & _ & _ & NE & _). unfold edge in NE. rewrite E in NE. discriminate.
    - destruct R as (q & j & S & ->). destruct S as [(S1 & -> & S2)|(S & -> & ->)].
      + assert (fst y =? -1 = false) as ->.
        { assert (In y (layer w r)) as Hy by (eapply zget_in; exact S2). destruct (LW _ _ RANK Hy) as [((Hp & _) & _) _]. apply Z.eqb_neq. lia. }
        cbn [fa_rel fa_patch fa_face]. change (zget (j :: none (num_half D2 - 1)) 0) with (Some j). cbn [bind].
        change (if bface geo x f then Inter f rf else Intra) with (face_trans geo x f rf).
        eapply fills_weaken; [eapply (copy_op w geo rq r FOREST (Gho i) (Gho j)); [exact Hx|exact Hf|exact E|exact Gx|exact S2]|].
        intros z g (h & y' & -> & -> & _). split; [reflexivity|]. exists h. reflexivity.
      + cbn [Z.eqb fa_rel]. apply fills_nil. intros z g (h & y' & _ & _ & (k & Sr) & _ & N & I'). cbn [Spec_Fill.rule] in Sr. rewrite range_dec, E in Sr by assumption. inversion Sr; subst.
        destruct S; contradiction.
    - destruct R as (l & Fl & R1 & R2 & R3 & R4 & _).
      pose proof (sym _ _ FOREST _ _ Hx Hf) as S. unfold face_symmetric in S. rewrite E in S. destruct S as (PN & y0 & y1 & -> & _).
      inversion Fl as [|? e0 ? l1 F0 Fd1]; subst. inversion Fd1 as [|? e1 ? l2 F1 Fd2]; subst. inversion Fd2; subst. clear Fl Fd1 Fd2.
      rewrite R1. assert (forall y e, sees w r (fst x) y (fst e) (snd e) -> In y (layer w r) -> fst y <> fst x -> fst e <> -1) as FN.
      { intros y e [(_ & -> & _)|([C|C] & _)] Hy N; [|contradiction..]. destruct (LW _ _ RANK Hy) as [((Hp & _) & _) _]. lia. }
      destruct (forallb (fun e => fst e =? -1) [e0; e1]) eqn:FB.
      + apply fills_nil. cbn [forallb] in FB. rewrite andb_true_r in FB. apply andb_prop in FB. destruct FB as [FB0 FB1]. apply Z.eqb_eq in FB0, FB1.
        intros z g (h & y' & _ & _ & (k & Sr) & _ & N & Hy). cbn [Spec_Fill.rule] in Sr. rewrite range_dec, E in Sr by assumption. cbv zeta in Sr.
        destruct (eqb (place geo x f 0) h); cbn in Sr; inversion Sr; subst; [apply (FN _ _ F0 Hy N FB0)|apply (FN _ _ F1 Hy N FB1)].
      + rewrite R3. cbn [map].
        eapply fills_weaken; [apply (fills_mapM w geo rq r _ (fun k z g => exists y, zget [y0; y1] k = Some y /\ z = x /\ g = RFace f (place geo x f k) /\ fst y <> fst x /\ In y (layer w r)))|].
        * intros k Hk. apply Proof_Mesh.in_range in Hk.
          assert (exists yk ek, zget [y0; y1] k = Some yk /\ zget [snd e0; snd e1] k = Some (snd ek) /\ sees w r (fst x) yk (fst ek) (snd ek)) as (yk & ek & Z1 & Z2 & Z3).
          { assert (k = 0 \/ k = 1) as [-> | ->] by lia; [exists y0, e0|exists y1, e1]; auto. }
          rewrite Z2. cbn [bind]. destruct Z3 as [(S1 & S2 & S3)|(S1 & S2 & S3)].
          -- assert (snd ek =? -1 = false) as -> by (apply Z.eqb_neq; apply zget_in in S3; lia). cbn [negb].
             change (if bface geo x f then Inter f (fa_face a) else Intra) with (face_trans geo x f (fa_face a)).
             eapply fills_weaken; [eapply (avg_op w geo rq r FOREST (Gho i) (Gho (snd ek))); [exact Hx|exact Hf|exact E|exact Z1|exact L|exact Gx|exact S3]|].
             intros z g (y & _ & K1 & K2 & _). auto.
          -- rewrite S3. cbn [Z.eqb Pos.eqb negb]. apply fills_nil. intros z g (y & Ey & _ & _ & N & Hy). rewrite Z1 in Ey. injection Ey as <-. destruct S1; contradiction.
        * intros z g (h & y & -> & -> & (k & Sr) & _ & N & Hy). cbn [Spec_Fill.rule] in Sr. rewrite range_dec, E in Sr by assumption. cbv zeta in Sr.
          destruct (eqb (place geo x f 0) h) eqn:EH.
          -- cbn in Sr. inversion Sr; subst. exists 0. split; [apply Proof_Mesh.in_range; lia|]. exists y. apply eqb_prop in EH. rewrite EH. auto 10.
          -- cbn in Sr. inversion Sr; subst. exists 1. split; [apply Proof_Mesh.in_range; lia|]. exists y. split; [reflexivity|]. split; [reflexivity|]. split; [|auto].
             f_equal. apply eqb_false_iff in EH. destruct h, (place geo x f 0), (place geo x f 1); congruence.
    - assert (fa_rel a = BOUNDARY \/ fa_rel a = DOUBLESIZE) as C.
      { destruct R as (q' & j & _ & ->). destruct (q' =? -1); auto. }
      assert (forall K : patch -> region -> Prop, (forall z g, K z g -> exists h y, source w geo rq x f h y) -> fills (Some []) K) as N.
      { intros K HK. apply fills_nil. intros z g Kg. destruct (HK z g Kg) as (h & y & k & Sr). cbn [Spec_Fill.rule] in Sr. rewrite range_dec, E in Sr by assumption.
        unfold face_interp in Sr. rewrite E in Sr. destruct (level_of w q <? lowest rq); discriminate. }
      destruct C as [-> | ->]; apply N; intros z g (h & y & _ & _ & Sr & _); eauto.
  Qed.
End Callbacks.
