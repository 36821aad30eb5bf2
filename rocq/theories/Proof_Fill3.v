(** The callbacks of one process. *)
From Coq Require Import ZArith List Bool Lia.
From Verif Require Import Model_Face Model_Mesh Proof_Mesh Spec_Mesh Prop_Mesh Model_Fill Model_FillExec Spec_Fill Proof_Fill1 Proof_Fill2.
Import ListNotations.
Open Scope Z_scope.

Section Callbacks.
  Variable w : world.
  Variable geo : geometry.
  Variable rq : request.
  Variable r : Z.
  Variable v : view.
  Hypothesis FOREST : forest_ok w geo.
  Hypothesis RANK : 0 <= r < procs w.
  Hypothesis VIEW : view_ok w geo r v.
  Notation buf := (buf w rq).
  Notation rule := (rule w geo rq).
  Notation follows := (follows w geo rq).
  Notation fills := (fills w geo rq r).
  Notation gid := (gid w r).
  Definition here (b n : Z) : patch := (r, before w r b + n).

  Lemma REP : represents D2 w r (v_dom v). Proof. apply VIEW. Qed.
  Lemma bface_ok : forall x p f, gid x = Some p -> v_block_face v x f = bface geo p f. Proof. apply VIEW. Qed.

  Lemma pointer_ok : forall y q i, finds w r y q i ->
    gid (pointer v q (block_of w y) i) = Some y /\ is_ghost (pointer v q (block_of w y) i) = negb (fst y =? r).
  Proof.
    intros y q i (-> & O & G). unfold pointer. rewrite (proj1 REP). destruct (Z.eqb_spec (fst y) r) as [E|N]; cbn [Model_FillExec.gid is_ghost negb]; split; try reflexivity.
    - rewrite (O E). destruct y as [y1 y2]. cbn [fst snd] in *. subst. do 2 f_equal. lia.
    - apply G, N.
  Qed.
  Lemma length_four : forall A (l : list A), Z.of_nat (length l) = 4 -> exists a b c d, l = [a; b; c; d].
  Proof.
    intros A l H. destruct l as [|a [|b [|c [|d [|e l]]]]]; cbn [length] in H; try lia. exists a, b, c, d. reflexivity.
  Qed.
  Lemma four : forall f, 0 <= f < 4 -> f = 0 \/ f = 1 \/ f = 2 \/ f = 3. Proof. intros. lia. Qed.

  Section Patch.
    Variables b n : Z.
    Hypothesis Hb : 0 <= b < nblocks w.
    Hypothesis Hn : 0 <= n < count w r b.
    Notation x := (here b n).

    Lemma Xp : is_patch w x. Proof. apply (local_patch D2 w (WORLD _ _ FOREST) r RANK); assumption. Qed.
    Lemma Xb : block_of w x = b. Proof. destruct (WORLD _ _ FOREST) as (_ & _ & _ & _ & B & _). apply B; assumption. Qed.
    Lemma Xg : gid (Loc b n) = Some x. Proof. reflexivity. Qed.

    Lemma bc_ok : get_bc v b n = Some (map (edge w x) (zrange 0 4)).
    Proof.
      destruct (C05_boundary_type D2 w r (v_dom v) b n (WORLD _ _ FOREST) RANK REP Hb Hn) as (l & any & E & L & F & _). unfold get_bc. rewrite E. cbn [bind]. f_equal.
      cbn [num_faces] in L, F. destruct (length_four _ _ L) as (a0 & a1 & a2 & a3 & ->). change (zrange 0 4) with [0; 1; 2; 3]. cbn [map].
      assert (forall f a, 0 <= f < 4 -> zget [a0; a1; a2; a3] f = Some a -> (a =? 1) = edge w x f) as H.
      { intros f a Hf Ha. specialize (F f Hf). unfold edge, here. destruct (face_of w _ f) eqn:EF; destruct F as [F1 F2];
          [rewrite F1 in Ha by reflexivity; injection Ha as <-; reflexivity|..];
          rewrite F2 in Ha by discriminate; injection Ha as <-; reflexivity. }
      rewrite (H 0 a0), (H 1 a1), (H 2 a2), (H 3 a3); try lia; reflexivity.
    Qed.
    Lemma zget_four : forall A (F : Z -> A) f, 0 <= f < 4 -> zget (map F (zrange 0 4)) f = Some (F f).
    Proof. intros A F f Hf. rewrite zget_map, zget_range by assumption. reflexivity. Qed.
    Lemma blk_ok : get_block_boundary v (Loc b n) = map (bface geo x) (zrange 0 4).
    Proof. unfold get_block_boundary. apply map_ext. intros f. apply (bface_ok (Loc b n) x f eq_refl). Qed.

    (** what get_face_neighbors finds *)
    Lemma gfn_same : forall f y rf, 0 <= f < 4 -> face_of w x f = Same y rf -> exists p bl,
      get_face_neighbors v b n f (bface geo x f) = Some (mkFN bl [p] SAME (-1) (rf mod 4) (face_trans geo x f rf) (face_trans geo y (rf mod 4) (back f rf))) /\
      gid p = Some y /\ is_ghost p = negb (fst y =? r).
    Proof.
      intros f y rf Hf E. destruct (C05_face_neighbors D2 w r (v_dom v) b n f (WORLD _ _ FOREST) RANK REP Hb Hn Hf) as (a & Ea & R).
      unfold right_face in R. change (r, before w r b + n) with x in R. rewrite E in R. destruct R as (q & i & Fd & ->).
      destruct (pointer_ok _ _ _ Fd) as [G1 G2].
      pose proof (acrossok _ _ FOREST _ _ Xp Hf) as A. unfold across_ok in A. rewrite E in A. destruct A as (_ & Hr & _). change (num_orientations D2) with 8 in Hr.
      pose proof (sym _ _ FOREST _ _ Xp Hf) as S. unfold face_symmetric in S. rewrite E in S. destruct S as (_ & _ & S).
      unfold get_face_neighbors. rewrite Ea. cbn [bind fa_rel fa_proc fa_block fa_patch fa_face].
      rewrite swap_eq by assumption. cbn [num_half none Z.sub] in *. change (zget (q :: none 1) 0) with (Some q). change (zget (i :: none 1) 0) with (Some i). cbn [bind].
      do 2 eexists. split; [|split; [exact G1|exact G2]]. unfold face_trans. rewrite S. reflexivity.
    Qed.
    Lemma gfn_coarser : forall f y sub rf, 0 <= f < 4 -> face_of w x f = Coarser y sub rf -> exists p bl,
      get_face_neighbors v b n f (bface geo x f) = Some (mkFN bl [p] COARSER sub (rf mod 4) (face_trans geo x f rf) (face_trans geo y (rf mod 4) (back f rf))) /\
      gid p = Some y /\ is_ghost p = negb (fst y =? r).
    Proof.
      intros f y sub rf Hf E. destruct (C05_face_neighbors D2 w r (v_dom v) b n f (WORLD _ _ FOREST) RANK REP Hb Hn Hf) as (a & Ea & R).
      unfold right_face in R. change (r, before w r b + n) with x in R. rewrite E in R. destruct R as (q & i & Fd & ->).
      destruct (pointer_ok _ _ _ Fd) as [G1 G2].
      pose proof (acrossok _ _ FOREST _ _ Xp Hf) as A. unfold across_ok in A. rewrite E in A. destruct A as (Hy & Hr & _). change (num_orientations D2) with 8 in Hr.
      pose proof (sym _ _ FOREST _ _ Xp Hf) as S. unfold face_symmetric in S. rewrite E in S. destruct S as (ys & Ey & Hs).
      assert (0 <= rf mod 4 < 4) as Hf' by (apply Z.mod_pos_bound; lia).
      destruct (finer_facts w geo FOREST _ _ _ _ _ _ Hy Hf' Ey Hs) as (_ & _ & _ & _ & _ & S & _). rewrite back_mod in S by assumption.
      unfold get_face_neighbors. rewrite Ea. cbn [bind fa_rel fa_proc fa_block fa_patch fa_face].
      rewrite swap_eq by assumption. change (zget (q :: sub :: none (num_half D2 - 2)) 0) with (Some q). change (zget (i :: none (num_half D2 - 1)) 0) with (Some i).
      change (zget (q :: sub :: none (num_half D2 - 2)) 1) with (Some sub). cbn [bind].
      do 2 eexists. split; [|split; [exact G1|exact G2]]. unfold face_trans. rewrite S. reflexivity.
    Qed.
    Lemma gfn_finer : forall f ys rf, 0 <= f < 4 -> face_of w x f = Finer ys rf -> exists y0 y1 p0 p1 bl ft, ys = [y0; y1] /\
      get_face_neighbors v b n f (bface geo x f) = Some (mkFN bl [p0; p1] FINER (-1) (rf mod 4) (face_trans geo x f rf) ft) /\
      gid p0 = Some y0 /\ is_ghost p0 = negb (fst y0 =? r) /\ gid p1 = Some y1 /\ is_ghost p1 = negb (fst y1 =? r).
    Proof.
      intros f ys rf Hf E. destruct (C05_face_neighbors D2 w r (v_dom v) b n f (WORLD _ _ FOREST) RANK REP Hb Hn Hf) as (a & Ea & R).
      unfold right_face in R. change (r, before w r b + n) with x in R. rewrite E in R. destruct R as (l & Fd & R1 & R2 & R3 & R4 & R5).
      pose proof (acrossok _ _ FOREST _ _ Xp Hf) as A. unfold across_ok in A. rewrite E in A. destruct A as (_ & Hr & _). change (num_orientations D2) with 8 in Hr.
      pose proof (sym _ _ FOREST _ _ Xp Hf) as S. unfold face_symmetric in S. rewrite E in S. destruct S as (_ & y0 & y1 & -> & _).
      inversion Fd as [|? e0 ? l1 F0 Fd1]; subst. inversion Fd1 as [|? e1 ? l2 F1 Fd2]; subst. inversion Fd2; subst. clear Fd Fd1 Fd2.
      destruct (pointer_ok _ _ _ F0) as [G1 G2]. destruct (pointer_ok _ _ _ F1) as [G3 G4].
      unfold get_face_neighbors. rewrite Ea. cbn [bind]. rewrite R1, R2, R3. cbn [map].
      rewrite swap_eq by assumption. change (zget [fst e0; fst e1] 0) with (Some (fst e0)). change (zget [snd e0; snd e1] 0) with (Some (snd e0)).
      change (zget [fst e0; fst e1] 1) with (Some (fst e1)). change (zget [snd e0; snd e1] 1) with (Some (snd e1)). cbn [bind].
      exists y0, y1. do 4 eexists. split; [reflexivity|]. rewrite (R5 y0) at 2 by (left; reflexivity). rewrite (R5 y1) at 2 by (right; left; reflexivity).
      split; [reflexivity|]. auto.
    Qed.

    (** regions of the fine patch y that are interpolated across its face f *)
    Definition hanging_regions (y : patch) (f : Z) (z : patch) (g : region) : Prop :=
      z = y /\ ((exists h, g = RFace f h) \/ exists c, hanging_corner w geo y f = Some c /\ g = RCorner c).

    Lemma copy_op : forall px pq p f y rf, is_patch w p -> 0 <= f < 4 -> face_of w p f = Same y rf -> gid px = Some p -> gid pq = Some y ->
      fills (Some [CopyFace px pq f (buf p) (face_data (face_trans geo p f rf) px pq)]) (fun z g => z = p /\ exists h, g = RFace f h).
    Proof.
      intros px pq p f y rf Hp Hf E G1 G2. eapply fills_one.
      - exists p, y, rf. auto 10.
      - cbn [assigns]. rewrite face_args. cbn [check]. unfold with_patches. rewrite G1, G2. cbn [bind]. reflexivity.
      - cbn [map face_data t_trans]. apply Forall_cons; [|apply Forall_cons; [|apply Forall_nil]]; apply same_follows; assumption.
      - intros z g (-> & h & ->). cbn [map target In]. destruct h; auto.
    Qed.
    Lemma avg_op : forall px pq p f ys rf k y, is_patch w p -> 0 <= f < 4 -> face_of w p f = Finer ys rf -> zget ys k = Some y -> lowest rq <= level_of w p ->
      gid px = Some p -> gid pq = Some y ->
      fills (Some [AvgFace px pq (f / 2) f k (buf p) (face_data (face_trans geo p f rf) px pq)]) (fun z g => z = p /\ g = RFace f (place geo p f k)).
    Proof.
      intros px pq p f ys rf k y Hp Hf E Hk L G1 G2. destruct (finer_facts _ _ FOREST _ _ _ _ _ _ Hp Hf E Hk) as (_ & _ & _ & _ & _ & _ & WF & _). eapply fills_one.
      - exists p, ys, y, rf. auto 10.
      - cbn [assigns]. rewrite face_args, Z.eqb_refl. cbn [check andb]. unfold with_patches. rewrite G1, G2. cbn [bind]. rewrite WF. cbn [bind]. reflexivity.
      - cbn [face_data t_trans]. apply Forall_cons; [|apply Forall_nil]. eapply finer_follows; eassumption.
      - intros z g (-> & ->). cbn [map target In]. auto.
    Qed.
    Lemma int_op : forall px pq p f ys rf k y, is_patch w p -> 0 <= f < 4 -> face_of w p f = Finer ys rf -> zget ys k = Some y -> lowest rq <= level_of w p ->
      gid px = Some p -> gid pq = Some y ->
      fills (Some [IntFace px pq (f / 2) f k (buf p) (face_data (face_trans geo p f rf) px pq)]) (hanging_regions y (rf mod 4)).
    Proof.
      intros px pq p f ys rf k y Hp Hf E Hk L G1 G2. destruct (finer_facts _ _ FOREST _ _ _ _ _ _ Hp Hf E Hk) as (_ & _ & _ & Ey & Ly & _ & WF & _). eapply fills_one.
      - exists p, ys, y, rf. auto 10.
      - cbn [assigns]. rewrite face_args, Z.eqb_refl. cbn [check andb]. unfold with_patches. rewrite G1, G2. cbn [bind]. rewrite WF. cbn [bind]. reflexivity.
      - cbn [face_data t_trans]. repeat (apply Forall_cons; [eapply interp_follows; try eassumption; eauto|]). apply Forall_nil.
      - assert (buf y = false) as BF by (apply buf_fine; pose proof (lowest_le rq); lia).
        intros z g (-> & [(h & ->)|(c & HC & ->)]); rewrite BF; cbn [map target In].
        + destruct h; auto.
        + unfold hanging_corner in HC. rewrite Ey in HC. rewrite back_mod, back_div in HC by assumption. injection HC as <-. auto.
    Qed.

    (** ** cb_face_fill *)
    Lemma cb_faces : forall e (K : Z -> patch -> region -> Prop),
      (forall f, 0 <= f < 4 -> edge w x f = false ->
         fills (face_fill_at v e b n (map (edge w x) (zrange 0 4)) (map (bface geo x) (zrange 0 4)) f) (K f)) ->
      fills (cb_face_fill v e b n) (fun z g => exists f, (0 <= f < 4 /\ edge w x f = false) /\ K f z g).
    Proof.
      intros e K H. unfold cb_face_fill. rewrite bc_ok. cbn [bind]. rewrite blk_ok.
      eapply fills_weaken; [apply (fills_mapM w geo rq r _ (fun f z g => edge w x f = false /\ K f z g))|].
      - intros f Hf. apply Proof_Mesh.in_range in Hf. destruct (edge w x f) eqn:E.
        + unfold face_fill_at. rewrite !zget_four by assumption. cbn [bind]. rewrite E. apply fills_nil. intros z g [? _]. discriminate.
        + eapply fills_weaken; [apply (H f Hf E)|]. intros z g [_ Kg]. exact Kg.
      - intros z g (f & [Hf E] & Kg). exists f. split; [apply Proof_Mesh.in_range; lia|]. auto.
    Qed.
    Lemma not_edge : forall f, edge w x f = false -> face_of w x f <> Edge.
    Proof. intros f H C. unfold edge in H. rewrite C in H. discriminate. Qed.

    Lemma face_copy : forall par, fills (cb_face_fill v (mkE COPY IS_COARSE par (buf x)) b n) (fun z g => exists f y rf, 0 <= f < 4 /\ face_of w x f = Same y rf /\
        ((z = x /\ exists h, g = RFace f h) \/ (fst y <> r /\ z = y /\ exists h, g = RFace (rf mod 4) h))).
    Proof.
      intros par. eapply fills_weaken; [apply (cb_faces _ (fun f z g => exists y rf, face_of w x f = Same y rf /\
        ((z = x /\ exists h, g = RFace f h) \/ (fst y <> r /\ z = y /\ exists h, g = RFace (rf mod 4) h))))|].
      2: { intros z g (f & y & rf & Hf & E & K). exists f. split; [split; [exact Hf|apply edge_false; congruence]|]. exists y, rf. auto. }
      intros f Hf NE. unfold face_fill_at. rewrite !zget_four by assumption. cbn [bind]. rewrite NE.
      destruct (face_of w x f) as [|y rf|ys rf|q sub rf] eqn:E; [destruct (not_edge f NE E)|..].
      - destruct (gfn_same f y rf Hf E) as (p & bl & -> & G1 & G2). cbn [bind fn_patches zget e_grid fn_level e_type ex_eqb orb fn_trans fn_ftrans fn_iface].
        change (zget [p] 0) with (Some p). cbn [bind e_ti].
        pose proof (acrossok _ _ FOREST _ _ Xp Hf) as A. unfold across_ok in A. rewrite E in A. destruct A as (Hy & Hr & _). change (num_orientations D2) with 8 in Hr.
        pose proof (sym _ _ FOREST _ _ Xp Hf) as S. unfold face_symmetric in S. rewrite E in S. destruct S as (S1 & S2 & S3).
        assert (buf y = buf x) as EB by (unfold Spec_Fill.buf; rewrite S2; reflexivity).
        assert (0 <= rf mod 4 < 4) as Hf' by (apply Z.mod_pos_bound; lia).
        rewrite G2. destruct (Z.eqb_spec (fst y) r) as [L|L]; cbn [negb].
        + eapply fills_weaken; [eapply (fills_app w geo rq r) with (K' := fun _ _ => False); [apply (copy_op _ _ _ _ _ _ Xp Hf E Xg G1)|apply fills_nil; auto]|].
          intros z g (y' & rf' & E' & K). inversion E'; subst y' rf'. destruct K as [K|(N & _)]; [left; exact K|contradiction].
        + eapply fills_weaken; [eapply (fills_app w geo rq r); [apply (copy_op _ _ _ _ _ _ Xp Hf E Xg G1)|]|].
          * rewrite <- EB. apply (copy_op _ _ _ _ _ _ Hy Hf' S1 G1 Xg).
          * intros z g (y' & rf' & E' & K). inversion E'; subst y' rf'. destruct K as [K|(N & K)]; [left; exact K|right; exact K].
      - destruct (gfn_finer f ys rf Hf E) as (y0 & y1 & p0 & p1 & bl & ft & -> & -> & _). cbn [bind fn_patches e_grid fn_level e_type ex_eqb orb].
        change (zget [p0; p1] 0) with (Some p0). cbn [bind andb]. change (zrange 0 2) with [0; 1]. cbn [mapM].
        change (zget [p0; p1] 0) with (Some p0). change (zget [p0; p1] 1) with (Some p1). cbn [bind].
        destruct (negb (negb (is_ghost p0) || _)), (negb (negb (is_ghost p1) || _)); cbn [bind concat app]; (apply fills_nil; intros z g (? & ? & ? & _); congruence).
      - destruct (gfn_coarser f q sub rf Hf E) as (p & bl & -> & _). cbn [bind fn_patches e_grid fn_level]. change (zget [p] 0) with (Some p). cbn [bind].
        apply fills_nil; intros z g (? & ? & ? & _); congruence.
    Qed.

    Lemma face_avg : forall par, lowest rq <= level_of w x ->
      fills (cb_face_fill v (mkE AVERAGE IS_COARSE par (buf x)) b n) (fun z g => exists f ys rf k y, 0 <= f < 4 /\ face_of w x f = Finer ys rf /\ zget ys k = Some y /\
        (fst y = r \/ par = true) /\ z = x /\ g = RFace f (place geo x f k)).
    Proof.
      intros par L. eapply fills_weaken; [apply (cb_faces _ (fun f z g => exists ys rf k y, face_of w x f = Finer ys rf /\ zget ys k = Some y /\
        (fst y = r \/ par = true) /\ z = x /\ g = RFace f (place geo x f k)))|].
      2: { intros z g (f & ys & rf & k & y & Hf & E & K). exists f. split; [split; [exact Hf|apply edge_false; congruence]|]. exists ys, rf, k, y. auto. }
      intros f Hf NE. unfold face_fill_at. rewrite !zget_four by assumption. cbn [bind]. rewrite NE.
      destruct (face_of w x f) as [|y rf|ys rf|q sub rf] eqn:E; [destruct (not_edge f NE E)|..].
      - destruct (gfn_same f y rf Hf E) as (p & bl & -> & G1 & G2). cbn [bind fn_patches e_grid fn_level e_type ex_eqb orb].
        change (zget [p] 0) with (Some p). cbn [bind]. apply fills_nil; intros z g (? & ? & ? & ? & ? & _); congruence.
      - destruct (gfn_finer f ys rf Hf E) as (y0 & y1 & p0 & p1 & bl & ft & -> & -> & G0 & R0 & G1 & R1). cbn [bind fn_patches e_grid fn_level e_type ex_eqb orb].
        change (zget [p0; p1] 0) with (Some p0). cbn [bind].
        eapply fills_weaken; [apply (fills_mapM w geo rq r _ (fun k z g => exists y, zget [y0; y1] k = Some y /\ (fst y = r \/ par = true) /\ z = x /\ g = RFace f (place geo x f k)))|].
        + intros k Hk. apply Proof_Mesh.in_range in Hk.
          assert (exists yk pk, zget [y0; y1] k = Some yk /\ zget [p0; p1] k = Some pk /\ gid pk = Some yk /\ is_ghost pk = negb (fst yk =? r)) as (yk & pk & Z1 & Z2 & Z3 & Z4).
          { assert (k = 0 \/ k = 1) as [-> | ->] by lia; [exists y0, p0|exists y1, p1]; auto. }
          rewrite Z2. cbn [bind]. rewrite Z4. cbn [e_parallel fn_trans e_ti andb]. destruct (Z.eqb_spec (fst yk) r) as [EL|NL]; cbn [negb orb].
          * eapply fills_weaken; [eapply avg_op; try eassumption; [exact Xp|exact Xg]|]. intros z g (y & _ & _ & K). exact K.
          * rewrite andb_true_r. destruct par; cbn [negb orb].
            -- eapply fills_weaken; [eapply avg_op; try eassumption; [exact Xp|exact Xg]|]. intros z g (y & _ & _ & K). exact K.
            -- apply fills_nil. intros z g (y & Ey & [C|C] & _); congruence.
        + intros z g (ys' & rf' & k & y & E' & Hk & K). inversion E'; subst ys' rf'. exists k.
          split; [apply Proof_Mesh.in_range; destruct (zget_in _ _ _ _ Hk) as [_ Hk']; cbn [length] in Hk'; lia|]. exists y. auto.
      - destruct (gfn_coarser f q sub rf Hf E) as (p & bl & -> & _). cbn [bind fn_patches e_grid fn_level]. change (zget [p] 0) with (Some p). cbn [bind].
        apply fills_nil; intros z g (? & ? & ? & ? & ? & _); congruence.
    Qed.

    Lemma face_int : forall par, lowest rq <= level_of w x ->
      fills (cb_face_fill v (mkE INTERPOLATE IS_COARSE par (buf x)) b n) (fun z g => exists f ys rf y, 0 <= f < 4 /\ face_of w x f = Finer ys rf /\ In y ys /\
        fst y = r /\ hanging_regions y (rf mod 4) z g).
    Proof.
      intros par L. eapply fills_weaken; [apply (cb_faces _ (fun f z g => exists ys rf y, face_of w x f = Finer ys rf /\ In y ys /\
        fst y = r /\ hanging_regions y (rf mod 4) z g))|].
      2: { intros z g (f & ys & rf & y & Hf & E & K). exists f. split; [split; [exact Hf|apply edge_false; congruence]|]. exists ys, rf, y. auto. }
      intros f Hf NE. unfold face_fill_at. rewrite !zget_four by assumption. cbn [bind]. rewrite NE.
      destruct (face_of w x f) as [|y rf|ys rf|q sub rf] eqn:E; [destruct (not_edge f NE E)|..].
      - destruct (gfn_same f y rf Hf E) as (p & bl & -> & G1 & G2). cbn [bind fn_patches e_grid fn_level e_type ex_eqb orb].
        change (zget [p] 0) with (Some p). cbn [bind]. apply fills_nil; intros z g (? & ? & ? & ? & _); congruence.
      - destruct (gfn_finer f ys rf Hf E) as (y0 & y1 & p0 & p1 & bl & ft & -> & -> & G0 & R0 & G1 & R1). cbn [bind fn_patches e_grid fn_level e_type ex_eqb orb].
        change (zget [p0; p1] 0) with (Some p0). cbn [bind].
        eapply fills_weaken; [apply (fills_mapM w geo rq r _ (fun k z g => exists y, zget [y0; y1] k = Some y /\ fst y = r /\ hanging_regions y (rf mod 4) z g))|].
        + intros k Hk. apply Proof_Mesh.in_range in Hk.
          assert (exists yk pk, zget [y0; y1] k = Some yk /\ zget [p0; p1] k = Some pk /\ gid pk = Some yk /\ is_ghost pk = negb (fst yk =? r)) as (yk & pk & Z1 & Z2 & Z3 & Z4).
          { assert (k = 0 \/ k = 1) as [-> | ->] by lia; [exists y0, p0|exists y1, p1]; auto. }
          rewrite Z2. cbn [bind]. rewrite Z4. cbn [e_parallel fn_trans e_ti andb]. destruct (Z.eqb_spec (fst yk) r) as [EL|NL]; cbn [negb orb].
          * eapply fills_weaken; [eapply int_op; try eassumption; [exact Xp|exact Xg]|]. intros z g (y & Ey & _ & K).
            rewrite Z1 in Ey. injection Ey as <-. exact K.
          * destruct par; cbn [negb orb andb]; apply fills_nil; intros z g (y & Ey & C & _); congruence.
        + intros z g (ys' & rf' & y & E' & Hin & K). inversion E'; subst ys' rf'.
          destruct (in_zget _ _ _ Hin) as [k Hk]. exists k.
          split; [apply Proof_Mesh.in_range; destruct (zget_in _ _ _ _ Hk) as [_ Hk']; cbn [length] in Hk'; lia|]. exists y. auto.
      - destruct (gfn_coarser f q sub rf Hf E) as (p & bl & -> & _). cbn [bind fn_patches e_grid fn_level]. change (zget [p] 0) with (Some p). cbn [bind].
        apply fills_nil; intros z g (? & ? & ? & ? & _); congruence.
    Qed.

    (** the coarse neighbor of our fine patch *)
    Lemma coarser_facts : forall f q sub rf, 0 <= f < 4 -> face_of w x f = Coarser q sub rf ->
      is_patch w q /\ 0 <= rf mod 4 < 4 /\ exists ys, face_of w q (rf mod 4) = Finer ys (back f rf) /\ zget ys sub = Some x /\ level_of w x = level_of w q + 1.
    Proof.
      intros f q sub rf Hf E. pose proof (acrossok _ _ FOREST _ _ Xp Hf) as A. unfold across_ok in A. rewrite E in A. destruct A as (Hy & Hr & _). change (num_orientations D2) with 8 in Hr.
      pose proof (sym _ _ FOREST _ _ Xp Hf) as S. unfold face_symmetric in S. rewrite E in S. destruct S as (ys & Ey & Hs).
      assert (0 <= rf mod 4 < 4) as Hf' by (apply Z.mod_pos_bound; lia). split; [exact Hy|]. split; [exact Hf'|]. exists ys. split; [exact Ey|]. split; [exact Hs|].
      destruct (finer_facts w geo FOREST _ _ _ _ _ _ Hy Hf' Ey Hs) as (_ & _ & _ & _ & L & _). exact L.
    Qed.
    Lemma face_fine : forall ex (K : Z -> patch -> region -> Prop) ti par, (ex = AVERAGE \/ ex = INTERPOLATE) ->
      (forall f q sub rf pq, 0 <= f < 4 -> face_of w x f = Coarser q sub rf -> fst q <> r -> par = true -> gid pq = Some q ->
         let t := face_data (face_trans geo q (rf mod 4) (back f rf)) pq (Loc b n) in
         fills (Some [if ex_eqb ex AVERAGE then AvgFace pq (Loc b n) (rf mod 4 / 2) (rf mod 4) sub ti t else IntFace pq (Loc b n) (rf mod 4 / 2) (rf mod 4) sub ti t]) (K f)) ->
      fills (cb_face_fill v (mkE ex IS_FINE par ti) b n) (fun z g => exists f q sub rf, 0 <= f < 4 /\ face_of w x f = Coarser q sub rf /\ fst q <> r /\ par = true /\ K f z g).
    Proof.
      intros ex K ti par EX H. eapply fills_weaken; [apply (cb_faces _ (fun f z g => exists q sub rf, face_of w x f = Coarser q sub rf /\ fst q <> r /\ par = true /\ K f z g))|].
      2: { intros z g (f & q & sub & rf & Hf & E & Kg). exists f. split; [split; [exact Hf|apply edge_false; congruence]|]. exists q, sub, rf. auto. }
      intros f Hf NE. unfold face_fill_at. rewrite !zget_four by assumption. cbn [bind]. rewrite NE.
      destruct (face_of w x f) as [|y rf|ys rf|q sub rf] eqn:E; [destruct (not_edge f NE E)|..].
      - destruct (gfn_same f y rf Hf E) as (p & bl & -> & G1 & G2). cbn [bind fn_patches e_grid fn_level e_type].
        change (zget [p] 0) with (Some p). cbn [bind]. apply fills_nil; intros z g (? & ? & ? & ? & _); congruence.
      - destruct (gfn_finer f ys rf Hf E) as (y0 & y1 & p0 & p1 & bl & ft & -> & -> & G0 & R0 & G1 & R1). cbn [bind fn_patches e_grid fn_level e_type].
        change (zget [p0; p1] 0) with (Some p0). cbn [bind]. apply fills_nil; intros z g (? & ? & ? & ? & _); congruence.
      - destruct (gfn_coarser f q sub rf Hf E) as (p & bl & -> & G1 & G2). cbn [bind fn_patches e_grid fn_level e_type fn_ftrans fn_iface fn_pos e_ti e_parallel].
        change (zget [p] 0) with (Some p). cbn [bind]. rewrite G2. destruct (Z.eqb_spec (fst q) r) as [L|L]; cbn [negb andb].
        + apply fills_nil. intros z g (q' & sub' & rf' & E' & N & _). inversion E'; subst. contradiction.
        + destruct par; [|apply fills_nil; intros z g (? & ? & ? & ? & ? & ? & _); congruence].
          specialize (H f q sub rf p Hf E L eq_refl G1). cbv zeta in H.
          eapply fills_weaken with (K := K f); [|intros z g (? & ? & ? & ? & ? & ? & Kg); exact Kg].
          destruct EX as [-> | ->]; cbn [ex_eqb] in *; exact H.
    Qed.
    Lemma face_avg_fine : forall par ti, (forall f q sub rf, 0 <= f < 4 -> face_of w x f = Coarser q sub rf -> lowest rq <= level_of w q /\ ti = buf q) ->
      fills (cb_face_fill v (mkE AVERAGE IS_FINE par ti) b n) (fun z g => exists f q sub rf, 0 <= f < 4 /\ face_of w x f = Coarser q sub rf /\ fst q <> r /\ par = true /\
        z = q /\ g = RFace (rf mod 4) (place geo q (rf mod 4) sub)).
    Proof.
      intros par ti H. eapply fills_weaken; [apply (face_fine AVERAGE (fun f z g => exists q sub rf, face_of w x f = Coarser q sub rf /\ z = q /\ g = RFace (rf mod 4) (place geo q (rf mod 4) sub)) ti par)|].
      - left; reflexivity.
      - intros f q sub rf pq Hf E N P G. cbn [ex_eqb]. destruct (H f q sub rf Hf E) as [L ->].
        destruct (coarser_facts f q sub rf Hf E) as (Hq & Hf' & ys & Eq & Es & _).
        eapply fills_weaken; [eapply avg_op; try eassumption; exact Xg|]. intros z g (q' & sub' & rf' & E' & K). rewrite E in E'. inversion E'; subst. exact K.
      - intros z g (f & q & sub & rf & Hf & E & N & P & K). exists f, q, sub, rf. repeat apply conj; try assumption; try apply Hf. exists q, sub, rf. auto.
    Qed.
    Lemma face_int_fine : forall par ti, (forall f q sub rf, 0 <= f < 4 -> face_of w x f = Coarser q sub rf -> lowest rq <= level_of w q /\ ti = buf q) ->
      fills (cb_face_fill v (mkE INTERPOLATE IS_FINE par ti) b n) (fun z g => exists f q sub rf, 0 <= f < 4 /\ face_of w x f = Coarser q sub rf /\ fst q <> r /\ par = true /\
        hanging_regions x f z g).
    Proof.
      intros par ti H. apply (face_fine INTERPOLATE (fun f z g => hanging_regions x f z g) ti par).
      - right; reflexivity.
      - intros f q sub rf pq Hf E N P G. cbn [ex_eqb]. destruct (H f q sub rf Hf E) as [L ->].
        destruct (coarser_facts f q sub rf Hf E) as (Hq & Hf' & ys & Eq & Es & _).
        eapply fills_weaken; [eapply int_op; try eassumption; exact Xg|]. intros z g K. rewrite back_mod by assumption. exact K.
    Qed.
  End Patch.
End Callbacks.
