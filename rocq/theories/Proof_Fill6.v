(** The update on all processes. *)
From Coq Require Import ZArith List Bool Lia.
From Verif Require Import Model_Face Model_Mesh Proof_Mesh Spec_Mesh Prop_Mesh Model_Fill Model_FillExec Spec_Fill Proof_Fill1 Proof_Fill2 Proof_Fill3 Proof_Fill4 Proof_Fill5.
Import ListNotations.
Open Scope Z_scope.

Lemma exec_app : forall w pl r a b s, exec w pl r (a ++ b) s = bind (exec w pl r a s) (exec w pl r b).
Proof.
  intros w pl r a b s. unfold exec, compile. rewrite mapM_app. destruct (mapM _ a) as [la|]; cbn [bind]; [|reflexivity].
  destruct (mapM _ b) as [lb|]; cbn [bind]; [|reflexivity]. rewrite concat_app, run_app. reflexivity.
Qed.
Lemma exec_andthen : forall w pl r a b s,
  bind (andthen a b) (fun ops => exec w pl r ops s) = bind (bind a (fun ops => exec w pl r ops s)) (fun s' => bind b (fun ops => exec w pl r ops s')) \/ b = None.
Proof.
  intros w pl r a b s. destruct b as [b|]; [left|right; reflexivity]. unfold andthen. destruct a as [a|]; cbn [bind]; [|reflexivity]. apply exec_app.
Qed.

Section Machine.
  Variable w : world.
  Variable geo : geometry.
  Variable rq : request.
  Variable views : Z -> view.
  Hypothesis FOREST : forest_ok w geo.
  Hypothesis MACHINE : machine_ok w geo rq views.
  Notation buf := (buf w rq).
  Notation rule := (rule w geo rq).
  Notation follows := (follows w geo rq).
  Notation settled := (settled w geo rq).
  Notation source := (source w geo rq).
  Notation in_range := (Spec_Fill.in_range w rq).
  Notation own := (own w).
  Notation hanging_regions := (hanging_regions w geo).

  Lemma top : forall x, is_patch w x -> level_of w x <= maxlevel rq. Proof. apply MACHINE. Qed.
  Lemma BAL : balanced w geo. Proof. apply FOREST. Qed.

  Lemma source_cases : forall x f h y, is_patch w x -> 0 <= f < 4 -> source x f h y ->
    (face_of w x f = Edge /\ y = x) \/ (exists rf, face_of w x f = Same y rf) \/ (exists ys rf k, face_of w x f = Finer ys rf /\ zget ys k = Some y /\ h = place geo x f k).
  Proof.
    intros x f h y Hx Hf (k & R). cbn [Spec_Fill.rule] in R. rewrite range_dec in R by assumption.
    destruct (face_of w x f) as [|z rf|ys rf|q sub rf] eqn:E.
    - left. inversion R. auto.
    - right; left. inversion R; subst. eauto.
    - right; right. cbv zeta in R. destruct (zget ys _) as [z|] eqn:Z1; [|discriminate]. inversion R; subst. exists ys, rf, (if eqb (place geo x f 0) h then 0 else 1).
      split; [reflexivity|]. split; [exact Z1|]. pose proof (sym _ _ FOREST _ _ Hx Hf) as S. unfold face_symmetric in S. rewrite E in S. destruct S as (N & _).
      destruct (place geo x f 0) eqn:P0, h; cbn [eqb]; try congruence; destruct (place geo x f 1); congruence.
    - unfold face_interp in R. rewrite E in R. destruct (level_of w q <? lowest rq); discriminate.
  Qed.
  Lemma source_level : forall x f h y, is_patch w x -> 0 <= f < 4 -> source x f h y -> is_patch w y /\ level_of w x <= level_of w y.
  Proof.
    intros x f h y Hx Hf S. destruct (source_cases x f h y Hx Hf S) as [(_ & ->)|[(rf & E)|(ys & rf & k & E & Hk & _)]].
    - split; [exact Hx|lia].
    - pose proof (acrossok _ _ FOREST _ _ Hx Hf) as A. unfold across_ok in A. rewrite E in A.
      pose proof (sym _ _ FOREST _ _ Hx Hf) as Sy. unfold face_symmetric in Sy. rewrite E in Sy. split; [tauto|lia].
    - destruct (finer_facts w geo FOREST _ _ _ _ _ _ Hx Hf E Hk) as (_ & Hy & _ & _ & L & _). split; [exact Hy|lia].
  Qed.
  Lemma source_range : forall x f h y, is_patch w x -> in_range x -> 0 <= f < 4 -> source x f h y -> is_patch w y /\ in_range y.
  Proof.
    intros x f h y Hx [L1 L2] Hf S. destruct (source_level x f h y Hx Hf S) as [Hy L]. split; [exact Hy|]. split; [lia|apply top; exact Hy].
  Qed.
  Lemma source_exists : forall x f h, is_patch w x -> 0 <= f < 4 -> not_coarser w x f -> exists y, source x f h y.
  Proof.
    intros x f h Hx Hf N. unfold not_coarser in N. unfold Spec_Fill.source. cbn [Spec_Fill.rule]. rewrite range_dec by assumption.
    destruct (face_of w x f) as [|z rf|ys rf|q sub rf] eqn:E; [eauto|eauto| |contradiction].
    pose proof (sym _ _ FOREST _ _ Hx Hf) as S. unfold face_symmetric in S. rewrite E in S. destruct S as (_ & y0 & y1 & -> & _).
    cbv zeta. destruct (eqb (place geo x f 0) h); [exists y0|exists y1]; eexists; reflexivity.
  Qed.

  (** the rule for regions interpolated across a face *)
  Definition reads (q : patch) (f : Z) (e : bool) : list (patch * region) := [(q, RInt); (q, RFace f false); (q, RFace f true); (q, RFace (endface f e) (side f))].
  Lemma interp_rule : forall x f q sub rf z g, is_patch w x -> 0 <= f < 4 -> face_of w x f = Coarser q sub rf -> lowest rq <= level_of w q -> hanging_regions x f z g ->
    z = x /\ ~ exempt w z g /\ exists k, rule z g = Some (k, reads q (rf mod 4) (place geo q (rf mod 4) sub)).
  Proof.
    intros x f q sub rf z g Hx Hf E L (-> & HR). split; [reflexivity|].
    assert (forall g, exists k, face_interp w geo rq x f g = Some (k, reads q (rf mod 4) (place geo q (rf mod 4) sub))) as FI.
    { intros g'. unfold face_interp. rewrite E. cbv zeta. destruct (Z.ltb_spec (level_of w q) (lowest rq)); [lia|]. eexists. reflexivity. }
    destruct HR as [(h & ->)|(c & HC & ->)].
    - split; [auto|]. cbn [Spec_Fill.rule]. rewrite range_dec, E by assumption. apply FI.
    - destruct (hangs w geo FOREST x f c Hx Hf HC) as (P & _). split; [cbn [exempt]; congruence|].
      assert (0 <= c < 4) as Hc. { unfold hanging_corner in HC. rewrite E in HC. injection HC as <-. apply endcorner_range. exact Hf. }
      cbn [Spec_Fill.rule]. rewrite range_dec by assumption. unfold physical_corner in P. apply orb_false_elim in P. destruct P as [-> ->].
      rewrite (hanging_face_eq w geo FOREST x f c Hx Hf HC). apply FI.
  Qed.
  Lemma coarser_ok : forall x f q sub rf, is_patch w x -> 0 <= f < 4 -> face_of w x f = Coarser q sub rf ->
    is_patch w q /\ 0 <= rf mod 4 < 4 /\ level_of w x = level_of w q + 1 /\ (exists ys, face_of w q (rf mod 4) = Finer ys (back f rf) /\ zget ys sub = Some x) /\ 0 <= rf < 8.
  Proof.
    intros x f q sub rf Hx Hf E. pose proof (acrossok _ _ FOREST _ _ Hx Hf) as A. unfold across_ok in A. rewrite E in A. destruct A as (Hy & Hr & _). change (num_orientations D2) with 8 in Hr.
    pose proof (sym _ _ FOREST _ _ Hx Hf) as S. unfold face_symmetric in S. rewrite E in S. destruct S as (ys & Ey & Hs).
    assert (0 <= rf mod 4 < 4) as Hf' by (apply Z.mod_pos_bound; lia). split; [exact Hy|]. split; [exact Hf'|].
    destruct (finer_facts w geo FOREST _ _ _ _ _ _ Hy Hf' Ey Hs) as (_ & _ & _ & _ & L & _). split; [exact L|]. split; [exists ys; auto|exact Hr].
  Qed.
  Lemma endface_range : forall f e, 0 <= f < 4 -> 0 <= endface f e < 4.
  Proof. intros f e H. assert (f = 0 \/ f = 1 \/ f = 2 \/ f = 3) as C by lia. destruct C as [-> | [-> | [-> | ->]]]; destruct e; cbn; lia. Qed.

  (** the base regions that interpolation reads have sources *)
  Lemma reads_sources : forall x f q sub rf, is_patch w x -> 0 <= f < 4 -> face_of w x f = Coarser q sub rf -> let f' := rf mod 4 in let e := place geo q f' sub in
    (exists y, source q f' false y) /\ (exists y, source q f' true y) /\ (exists y, source q (endface f' e) (side f') y).
  Proof.
    intros x f q sub rf Hx Hf E f' e. destruct (coarser_ok x f q sub rf Hx Hf E) as (Hq & Hf' & _ & (ys & Eq & _) & _).
    assert (not_coarser w q f') as N by (unfold not_coarser, f'; rewrite Eq; exact Logic.I).
    repeat apply conj; apply source_exists; try assumption; try (apply endface_range; assumption). apply (proj1 BAL x f q sub rf Hx Hf E).
  Qed.
  Lemma corner_sources : forall x c y c', is_patch w x -> 0 <= c < 4 -> physical_corner w x c = false -> diag w x c = Some (y, c') -> level_of w y < level_of w x ->
    (exists z, source y (cfx c') (nearx c') z) /\ (exists z, source y (cfy c') (neary c') z).
  Proof.
    intros x c y c' Hx Hc P E L. destruct (csym w geo FOREST x c Hx Hc P y c' E) as (Hc' & _). destruct (diag_level w geo FOREST x c y c' Hx Hc E) as [Hy _].
    destruct (proj2 BAL x c y c' Hx Hc P E L) as [N1 N2]. split; apply source_exists; try assumption; [apply cfx_range|apply cfy_range; assumption].
  Qed.

  (** ** One process *)
  Section Process.
    Variable r : Z.
    Hypothesis RANK : 0 <= r < procs w.
    Notation v := (views r).
    Let VIEW : view_ok w geo r v := proj1 (proj2 MACHINE r RANK).
    Let GHOSTS : ghosts_ok w geo rq r := proj2 (proj2 MACHINE r RANK).
    Notation flagged := (flagged w r v).
    Notation sel := (sel w r v).

    Definition own_good (s : state) : Prop := forall y, own r y -> in_range y -> settled s (y, RInt).
    Lemma own_keep : forall l s, Forall follows l -> own_good s -> own_good (run l s).
    Proof. intros l s F G y O L. apply run_settled; [exact F|apply G; assumption|auto]. Qed.

    Lemma flag_face : forall x f y, own r x -> 0 <= f < 4 -> fst y <> r -> match face_of w x f with Edge => False | Same z _ | Coarser z _ _ => y = z | Finer zs _ => In y zs end -> flagged x = true.
    Proof.
      intros x f y O Hf N H. destruct (own_here w r x O) as (b & n & Hb & Hn & ->). destruct (here_own w geo r v FOREST RANK b n Hb Hn) as [_ ->].
      destruct VIEW as (_ & _ & _ & _ & _ & FL). apply (FL b n Hb Hn). right; left. exists f, y. auto.
    Qed.
    Lemma flag_corner : forall x c y c', own r x -> 0 <= c < 4 -> fst y <> r -> diag w x c = Some (y, c') -> flagged x = true.
    Proof.
      intros x c y c' O Hc N H. destruct (own_here w r x O) as (b & n & Hb & Hn & ->). destruct (here_own w geo r v FOREST RANK b n Hb Hn) as [_ ->].
      destruct VIEW as (_ & _ & _ & _ & _ & FL). apply (FL b n Hb Hn). right; right. exists c, y, c'. auto.
    Qed.
    Lemma flag_layer : forall x s, own r x -> 0 <= s < procs w -> In x (layer w s) -> flagged x = true.
    Proof.
      intros x s O Hs H. destruct (own_here w r x O) as (b & n & Hb & Hn & ->). destruct (here_own w geo r v FOREST RANK b n Hb Hn) as [_ ->].
      destruct VIEW as (_ & _ & _ & _ & _ & FL). apply (FL b n Hb Hn). left. exists s. auto.
    Qed.
    Lemma source_nb : forall x f h y, is_patch w x -> 0 <= f < 4 -> source x f h y -> edge w x f = true \/ match face_of w x f with Edge => False | Same z _ | Coarser z _ _ => y = z | Finer zs _ => In y zs end.
    Proof.
      intros x f h y Hx Hf S. destruct (source_cases x f h y Hx Hf S) as [(E & _)|[(rf & E)|(ys & rf & k & E & Hk & _)]].
      - left. unfold edge. rewrite E. reflexivity.
      - right. rewrite E. reflexivity.
      - right. rewrite E. eapply zget_in; exact Hk.
    Qed.
    Lemma edge_source : forall x f h y, is_patch w x -> 0 <= f < 4 -> source x f h y -> edge w x f = true -> y = x.
    Proof.
      intros x f h y Hx Hf S E. unfold edge in E. destruct (source_cases x f h y Hx Hf S) as [(_ & ->)|[(rf & E')|(ys & rf & k & E' & _)]]; [reflexivity|rewrite E' in E; discriminate..].
    Qed.

    (** a face written by averaging, copying or at the boundary, selected by m *)
    Lemma base_targeted : forall par m hi x f h y, own r x -> in_range x -> sel m x = true -> 0 <= f < 4 -> source x f h y -> (fst y = r \/ par = true) ->
      (edge w x f = true -> level_of w x <= hi) ->
      Kavg w geo rq r v par m x (RFace f h) \/ Kcopy w rq r v par m x (RFace f h) \/ Kphys w rq r v hi m x (RFace f h).
    Proof.
      intros par m hi x f h y O [L1 L2] S Hf Sr P Eh. destruct (source_cases x f h y (proj1 O) Hf Sr) as [(E & _)|[(rf & E)|(ys & rf & k & E & Hk & ->)]].
      - right; right. assert (edge w x f = true) as EE by (unfold edge; rewrite E; reflexivity). split; [exact O|]. split; [exact S|]. split; [specialize (Eh EE); lia|]. eauto 10.
      - right; left. exists x. split; [exact O|]. split; [exact L1|]. split; [exact L2|]. split; [exact S|]. left. exists f, y, rf. split; [exact Hf|]. split; [exact E|]. left. eauto.
      - left. exists x. split; [exact O|]. split; [exact S|]. split; [exact L2|]. left. split; [exact L1|]. exists f, ys, rf, k, y. split; [exact Hf|]. split; [exact E|]. split; [exact Hk|].
        split; [apply top; apply (finer_facts w geo FOREST _ _ _ _ _ _ (proj1 O) Hf E Hk)|]. auto.
    Qed.

    Lemma base_settled : forall l s x f h y, Forall follows l -> source x f h y -> settled s (y, RInt) -> In (x, buf x, RFace f h) (map target l) \/ settled s (x, RFace f h) ->
      settled (run l s) (x, RFace f h).
    Proof. intros l s x f h y F (k & R) Sy T. eapply run_target; [exact F|exact R|auto|apply Forall_cons; [exact Sy|apply Forall_nil]|exact T]. Qed.

    (** *** Before sending *)
    Definition partly (s : state) : Prop := own_good s /\
      forall x f h y, own r x -> in_range x -> flagged x = true -> 0 <= f < 4 -> source x f h y -> fst y = r -> (edge w x f = true -> level_of w x < maxlevel rq) ->
        settled s (x, RFace f h).
    Lemma before_ok : forall start, own_good start -> exists s, bind (before_send v (minlevel rq) (maxlevel rq) (interp rq)) (fun ops => exec w (place geo) r ops start) = Some s /\ partly s.
    Proof.
      intros s G. unfold before_send. cbv zeta.
      pose proof (fills_andthen w geo rq r _ _ _ _ (avg_pass w geo rq r v FOREST RANK VIEW false GHOST_ONLY)
        (fills_andthen w geo rq r _ _ _ _ (copy_pass w geo rq r v FOREST RANK VIEW false GHOST_ONLY) (phys_pass w geo rq r v FOREST RANK VIEW (maxlevel rq - 1) GHOST_ONLY))) as F.
      destruct (fills_exec w geo rq r _ _ s F) as (l & E & Fl & T). exists (run l s). split; [exact E|]. split; [apply own_keep; assumption|].
      intros x f h y O R FL Hf Sr Ey Ee. destruct (source_range x f h y (proj1 O) R Hf Sr) as [Hy Ry].
      eapply base_settled; [exact Fl|exact Sr|apply G; [split; assumption|exact Ry]|]. left. apply T.
      apply (base_targeted false GHOST_ONLY (maxlevel rq - 1) x f h y O R FL Hf Sr); [auto|]. intros EE. specialize (Ee EE). lia.
    Qed.

    (** *** While sending: the patches that are not flagged are finished, except at the domain boundary *)
    Definition inner (s : state) : Prop :=
      (forall x f h y, own r x -> in_range x -> flagged x = false -> 0 <= f < 4 -> source x f h y -> (edge w x f = true -> level_of w x < maxlevel rq) -> settled s (x, RFace f h)) /\
      (forall x c y c', own r x -> in_range x -> flagged x = false -> 0 <= c < 4 -> physical_corner w x c = false -> diag w x c = Some (y, c') -> level_of w x <= level_of w y ->
         settled s (x, RCorner c)) /\
      (forall x f q sub rf z g, own r x -> in_range q -> own r q -> flagged q = false -> 0 <= f < 4 -> face_of w x f = Coarser q sub rf -> hanging_regions x f z g -> settled s (z, g)) /\
      (forall x c y c', own r x -> in_range y -> own r y -> flagged y = false -> 0 <= c < 4 -> physical_corner w x c = false -> diag w x c = Some (y, c') -> level_of w y < level_of w x ->
         settled s (x, RCorner c)).
    Lemma inner_own : forall x f h y, own r x -> flagged x = false -> 0 <= f < 4 -> source x f h y -> fst y = r.
    Proof.
      intros x f h y O FL Hf Sr. destruct (Z.eq_dec (fst y) r) as [E|N]; [exact E|]. destruct (source_nb x f h y (proj1 O) Hf Sr) as [E|H].
      - rewrite (edge_source x f h y (proj1 O) Hf Sr E). apply O.
      - rewrite (flag_face x f y O Hf N H) in FL. discriminate.
    Qed.
    (** a corner copied or averaged *)
    Lemma corner_targeted : forall par m x c y c', own r x -> in_range x -> sel m x = true -> 0 <= c < 4 -> physical_corner w x c = false -> diag w x c = Some (y, c') ->
      level_of w x <= level_of w y -> (fst y = r \/ par = true) -> Kavg w geo rq r v par m x (RCorner c) \/ Kcopy w rq r v par m x (RCorner c).
    Proof.
      intros par m x c y c' O [L1 L2] S Hc P E L PR. destruct (diag_level w geo FOREST x c y c' (proj1 O) Hc E) as [Hy _]. destruct (Z.eq_dec (level_of w y) (level_of w x)) as [EL|NL].
      - right. exists x. split; [exact O|]. split; [exact L1|]. split; [exact L2|]. split; [exact S|]. right. exists c, y, c'. auto 10.
      - left. exists x. split; [exact O|]. split; [exact S|]. split; [exact L2|]. right; left. split; [exact L1|]. exists c, y, c'. split; [exact Hc|]. split; [exact P|]. split; [exact E|].
        split; [lia|]. split; [apply top; exact Hy|]. auto.
    Qed.
    Lemma corner_settled : forall l s x c y c', is_patch w x -> 0 <= c < 4 -> physical_corner w x c = false -> diag w x c = Some (y, c') -> level_of w x <= level_of w y -> Forall follows l ->
      settled s (y, RInt) -> In (x, buf x, RCorner c) (map target l) \/ settled s (x, RCorner c) -> settled (run l s) (x, RCorner c).
    Proof.
      intros l s x c y c' Hx Hc P E L F Sy T. assert (exists k, rule x (RCorner c) = Some (k, [(y, RInt)])) as (k & R).
      { rewrite (corner_rule w geo rq FOREST x c y c' Hx Hc P E). destruct (level_of w y =? level_of w x) eqn:EL; [eauto|]. apply Z.eqb_neq in EL.
        destruct (Z.ltb_spec (level_of w x) (level_of w y)); [eauto|lia]. }
      eapply run_target; [exact F|exact R|cbn [exempt]; congruence|apply Forall_cons; [exact Sy|apply Forall_nil]|exact T].
    Qed.
    Lemma corner_rule_coarse : forall x c y c', is_patch w x -> 0 <= c < 4 -> physical_corner w x c = false -> diag w x c = Some (y, c') -> level_of w y < level_of w x -> lowest rq <= level_of w y ->
      exists k, rule x (RCorner c) = Some (k, [(y, RInt); (y, RFace (cfx c') (nearx c')); (y, RFace (cfy c') (neary c'))]).
    Proof.
      intros x c y c' Hx Hc P E L L'. rewrite (corner_rule w geo rq FOREST x c y c' Hx Hc P E). destruct (Z.eqb_spec (level_of w y) (level_of w x)); [lia|].
      destruct (Z.ltb_spec (level_of w x) (level_of w y)); [lia|]. destruct (Z.ltb_spec (level_of w y) (lowest rq)); [lia|]. eauto.
    Qed.

    Lemma while_ok : forall s, own_good s -> exists s', bind (while_sending v true (minlevel rq) (maxlevel rq) (interp rq)) (fun ops => exec w (place geo) r ops s) = Some s' /\
      own_good s' /\ inner s'.
    Proof.
      intros s G. unfold while_sending. cbn [negb]. cbv zeta.
      pose proof (avg_pass w geo rq r v FOREST RANK VIEW false INTERIOR_ONLY) as Fa. pose proof (copy_pass w geo rq r v FOREST RANK VIEW false INTERIOR_ONLY) as Fb.
      pose proof (phys_pass w geo rq r v FOREST RANK VIEW (maxlevel rq - 1) INTERIOR_ONLY) as Fc. pose proof (int_pass w geo rq r v FOREST RANK VIEW false INTERIOR_ONLY) as Fd.
      pose proof (phys_any w geo rq r v FOREST RANK VIEW (minlevel rq + 1) (maxlevel rq) INTERIOR_ONLY) as Fe.
      set (A := average_fine2coarse _ _ _ _ _ _) in *. set (B := copy_samelevel _ _ _ _ _ _) in *. set (C := fill_physical _ _ (maxlevel rq - 1) _ _) in *.
      set (D := interpolate_coarse2fine _ _ _ _ _ _) in *. set (E := fill_physical _ _ (maxlevel rq) _ _) in *. clearbody A B C D E.
      destruct (fills_exec w geo rq r _ _ s (fills_andthen w geo rq r _ _ _ _ Fa (fills_andthen w geo rq r _ _ _ _ Fb Fc))) as (l1 & E1 & F1 & T1).
      destruct (fills_exec w geo rq r _ _ (run l1 s) Fd) as (l2 & E2 & F2 & T2). destruct (fills_exec w geo rq r _ _ (run l2 (run l1 s)) Fe) as (l3 & E3 & F3 & T3).
      exists (run l3 (run l2 (run l1 s))).
      assert (own_good (run l1 s)) as G1 by (apply own_keep; assumption).
      assert (own_good (run l2 (run l1 s))) as G2 by (apply own_keep; assumption).
      split; [|split; [apply own_keep; assumption|]].
      { destruct (fills_some _ _ _ _ _ _ Fa) as [oa Ea]. destruct (fills_some _ _ _ _ _ _ Fb) as [ob Eb]. destruct (fills_some _ _ _ _ _ _ Fc) as [oc Ec].
        destruct (fills_some _ _ _ _ _ _ Fd) as [od Ed]. destruct (fills_some _ _ _ _ _ _ Fe) as [oe Ee]. subst. unfold andthen in *. cbn [bind] in *.
        replace (oa ++ ob ++ oc ++ od ++ oe) with ((oa ++ ob ++ oc) ++ od ++ oe) by (rewrite <- !app_assoc; reflexivity).
        rewrite exec_app, E1. cbn [bind]. rewrite exec_app, E2. cbn [bind]. exact E3. }
      (* base regions after the first part *)
      assert (forall x f h y, own r x -> in_range x -> flagged x = false -> 0 <= f < 4 -> source x f h y -> (edge w x f = true -> level_of w x < maxlevel rq) -> settled (run l1 s) (x, RFace f h)) as B1.
      { intros x f h y O R FL Hf Sr Ee. destruct (source_range x f h y (proj1 O) R Hf Sr) as [Hy Ry]. pose proof (inner_own x f h y O FL Hf Sr) as Ey.
        eapply base_settled; [exact F1|exact Sr|apply G; [split; assumption|exact Ry]|]. left. apply T1.
        apply (base_targeted false INTERIOR_ONLY (maxlevel rq - 1) x f h y O R); [cbn; rewrite FL; reflexivity|exact Hf|exact Sr|auto|]. intros EE. specialize (Ee EE). lia. }
      repeat apply conj.
      - intros x f h y O R FL Hf Sr Ee. apply run_settled; [exact F3| |auto]. apply run_settled; [exact F2| |auto]. eapply B1; eassumption.
      - intros x c y c' O R FL Hc P Ed L. assert (~ exempt w x (RCorner c)) as NX by (cbn [exempt]; congruence).
        destruct (diag_level w geo FOREST x c y c' (proj1 O) Hc Ed) as [Hy _].
        assert (fst y = r) as Ey by (destruct (Z.eq_dec (fst y) r) as [|N]; [assumption|rewrite (flag_corner x c y c' O Hc N Ed) in FL; discriminate]).
        apply run_settled; [exact F3| |exact NX]. apply run_settled; [exact F2| |exact NX].
        apply (corner_settled l1 s x c y c' (proj1 O) Hc P Ed L F1); [apply G; [split; assumption|split; [destruct R; lia|apply top; exact Hy]]|]. left. apply T1.
        destruct (corner_targeted false INTERIOR_ONLY x c y c' O R) as [K|K]; try assumption; auto. cbn. rewrite FL. reflexivity.
      - intros x f q sub rf z g O R Oq FL Hf Ef HR. destruct (coarser_ok x f q sub rf (proj1 O) Hf Ef) as (Hq & Hf' & LX & (ys & Eq & Es) & Hrf).
        destruct (interp_rule x f q sub rf z g (proj1 O) Hf Ef (proj1 R) HR) as (-> & NX & k & RU).
        destruct (reads_sources x f q sub rf (proj1 O) Hf Ef) as ((y1 & S1) & (y2 & S2) & (y3 & S3)). pose proof (top x (proj1 O)) as TX.
        apply run_settled; [exact F3| |exact NX]. eapply run_target; [exact F2|exact RU|exact NX| |].
        + unfold reads. repeat (apply Forall_cons; [|]); try apply Forall_nil; [apply G1; assumption|eapply B1; try eassumption; intros; lia..|].
          eapply B1; try eassumption; [apply endface_range; assumption|]. intros; lia.
        + left. apply T2. exists q. split; [exact Oq|]. split; [cbn; rewrite FL; reflexivity|]. split; [apply R|]. left. split; [apply R|].
          exists (rf mod 4), ys, (back f rf), x. split; [exact Hf'|]. split; [exact Eq|]. split; [eapply zget_in; exact Es|]. split; [apply O|]. split; [exact TX|].
          replace (back f rf mod 4) with f by (symmetry; apply back_mod; assumption). exact HR.
      - intros x c y c' O R Oy FL Hc P Ed L. assert (~ exempt w x (RCorner c)) as NX by (cbn [exempt]; congruence).
        destruct (csym w geo FOREST x c (proj1 O) Hc P y c' Ed) as (Hc' & P' & Ed' & _). pose proof (top x (proj1 O)) as TX.
        destruct (corner_rule_coarse x c y c' (proj1 O) Hc P Ed L (proj1 R)) as (k & RU). destruct (corner_sources x c y c' (proj1 O) Hc P Ed L) as ((y1 & S1) & (y2 & S2)).
        apply run_settled; [exact F3| |exact NX]. eapply run_target; [exact F2|exact RU|exact NX| |].
        + repeat (apply Forall_cons; [|]); try apply Forall_nil; [apply G1; assumption| |]; eapply B1; try eassumption; try (intros; lia); [apply cfx_range|apply cfy_range; assumption].
        + left. apply T2. exists y. split; [exact Oy|]. split; [cbn; rewrite FL; reflexivity|]. split; [apply R|]. right; left. split; [apply R|].
          exists c', x, c. split; [exact Hc'|]. split; [exact P'|]. split; [exact Ed'|]. split; [exact L|]. split; [exact TX|]. split; [apply O|]. auto.
    Qed.
  End Process.
End Machine.
