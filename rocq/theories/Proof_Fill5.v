(** The passes of one process. *)
From Coq Require Import ZArith List Bool Lia.
From Verif Require Import Model_Face Model_Mesh Proof_Mesh Spec_Mesh Prop_Mesh Model_Fill Model_FillExec Spec_Fill Proof_Fill1 Proof_Fill2 Proof_Fill3 Proof_Fill4.
Import ListNotations.
Open Scope Z_scope.

Section Passes.
  Variable w : world.
  Variable geo : geometry.
  Variable rq : request.
  Variable r : Z.
  Variable v : view.
  Hypothesis FOREST : forest_ok w geo.
  Hypothesis RANK : 0 <= r < procs w.
  Hypothesis VIEW : view_ok w geo r v.
  Notation buf := (buf w rq).
  Notation rule := (rule w geo rq).
  Notation follows := (follows w geo rq).
  Notation fills := (fills w geo rq r).
  Notation gid := (gid w r).
  Notation here := (here w r).
  Notation hanging_regions := (hanging_regions w geo).

  Definition own (x : patch) : Prop := is_patch w x /\ fst x = r.
  Definition flagged (x : patch) : bool := v_on_boundary v (block_of w x) (snd x - before w r (block_of w x)).
  Definition sel (m : mode) (x : patch) : bool := match m with GHOST_ONLY => flagged x | INTERIOR_ONLY => negb (flagged x) | ALL => true end.

  Lemma own_here : forall x, own x -> exists b n, 0 <= b < nblocks w /\ 0 <= n < count w r b /\ x = here b n.
  Proof.
    intros [p k] [(H1 & H2 & H3) E]. cbn [fst snd] in *. subst p. exists (block_of w (r, k)), (k - before w r (block_of w (r, k))).
    repeat apply conj; try lia. unfold Proof_Fill3.here. f_equal. lia.
  Qed.
  Lemma here_own : forall b n, 0 <= b < nblocks w -> 0 <= n < count w r b -> own (here b n) /\ flagged (here b n) = v_on_boundary v b n.
  Proof.
    intros b n Hb Hn. split; [split; [apply (Xp w geo r FOREST RANK b n Hb Hn)|reflexivity]|]. unfold flagged.
    rewrite (Xb w geo r FOREST RANK b n Hb Hn). unfold Proof_Fill3.here. cbn [snd]. f_equal. lia.
  Qed.

  (** ** Wrappers and loops *)
  Lemma parallel_fill : forall m cb b n (K : patch -> region -> Prop), 0 <= b < nblocks w -> 0 <= n < count w r b -> fills (cb b n) K ->
    fills (parallel_wrap v m cb b n) (fun z g => sel m (here b n) = true /\ K z g).
  Proof.
    intros m cb b n K Hb Hn F. destruct (here_own b n Hb Hn) as [_ E]. unfold parallel_wrap, sel. rewrite E.
    destruct m; [destruct (v_on_boundary v b n)..|]; cbn [negb];
      try (eapply fills_weaken; [exact F|]; intros z g [_ H]; exact H); (apply fills_nil; intros z g [H _]; discriminate).
  Qed.
  Definition interface (x : patch) : Prop :=
    (exists f, 0 <= f < 4 /\ match face_of w x f with Finer _ _ | Coarser _ _ _ => True | _ => False end) \/
    (exists c y c', 0 <= c < 4 /\ diag w x c = Some (y, c') /\ level_of w y <> level_of w x).
  Lemma interface_ok : forall b n, 0 <= b < nblocks w -> 0 <= n < count w r b -> exists t, on_interface v b n = Some t /\ (interface (here b n) -> t = true).
  Proof.
    intros b n Hb Hn. unfold on_interface.
    destruct (mapM_all _ _ (fun f => bind (face_neighbors D2 (v_dom v) b n f) (fun a => Some (match fa_rel a with HALFSIZE | DOUBLESIZE => true | _ => false end)))
      (fun f t => match face_of w (here b n) f with Finer _ _ | Coarser _ _ _ => t = true | _ => True end) (zrange 0 4)) as (fs & E1 & F1).
    { intros f Hf. apply Proof_Mesh.in_range in Hf.
      destruct (C05_face_neighbors D2 w r (v_dom v) b n f (WORLD _ _ FOREST) RANK (proj1 VIEW) Hb Hn Hf) as (a & Ea & R). rewrite Ea. cbn [bind].
      eexists. split; [reflexivity|]. unfold right_face in R. change (r, before w r b + n) with (here b n) in R.
      destruct (face_of w (here b n) f); try exact Logic.I.
      - destruct R as (l & _ & -> & _). reflexivity.
      - destruct R as (q & i & _ & ->). reflexivity. }
    destruct (mapM_all _ _ (fun c => bind (corner_neighbors D2 (v_dom v) b n c) (fun a => Some (match ca_rel a with HALFSIZE | DOUBLESIZE => true | _ => false end)))
      (fun c t => forall y c', diag w (here b n) c = Some (y, c') -> level_of w y <> level_of w (here b n) -> t = true) (zrange 0 4)) as (cs & E2 & F2).
    { intros c Hc. apply Proof_Mesh.in_range in Hc.
      destruct (C05_corner_neighbors D2 w r (v_dom v) b n c (WORLD _ _ FOREST) RANK (proj1 VIEW) Hb Hn Hc) as (a & Ea & R). rewrite Ea. cbn [bind].
      eexists. split; [reflexivity|]. intros y c' E N. unfold right_corner in R. change (r, before w r b + n) with (here b n) in R. unfold diag in E.
      destruct (corner_of w (here b n) c); try discriminate; inversion E; subst; destruct R as (q & i & _ & ->); cbn [ca_rel]; unfold size;
        (destruct (Z.ltb_spec (level_of w y) (level_of w (here b n))); [reflexivity|]; destruct (Z.ltb_spec (level_of w (here b n)) (level_of w y)); [reflexivity|lia]). }
    cbv zeta. rewrite E1. cbn [bind]. rewrite E2. cbn [bind]. eexists. split; [reflexivity|]. intros [(f & Hf & I')|(c & y & c' & Hc & E & N)]; apply orb_true_intro; [left|right];
      apply existsb_exists.
    - destruct (forall2_zget _ _ _ _ _ f f F1 ltac:(apply zget_range; lia)) as (t & Zt & Ht). exists t. split; [eapply zget_in; exact Zt|].
      destruct (face_of w (here b n) f); try contradiction; assumption.
    - destruct (forall2_zget _ _ _ _ _ c c F2 ltac:(apply zget_range; lia)) as (t & Zt & Ht). exists t. split; [eapply zget_in; exact Zt|]. eapply Ht; eassumption.
  Qed.
  Lemma interface_fill : forall m cb b n (K : patch -> region -> Prop), 0 <= b < nblocks w -> 0 <= n < count w r b -> fills (cb b n) K ->
    (forall z g, K z g -> interface (here b n)) -> fills (interface_wrap v m cb b n) (fun z g => sel m (here b n) = true /\ K z g).
  Proof.
    intros m cb b n K Hb Hn F NI. unfold interface_wrap. destruct (interface_ok b n Hb Hn) as (t & -> & Ht). cbn [bind]. destruct t.
    - apply parallel_fill; assumption.
    - apply fills_nil. intros z g [_ Kg]. specialize (Ht (NI z g Kg)). discriminate.
  Qed.
  Lemma iterate_fill : forall l cb (K : patch -> patch -> region -> Prop),
    (forall b n, 0 <= b < nblocks w -> 0 <= n < count w r b -> level_of w (here b n) = l -> fills (cb b n) (K (here b n))) ->
    fills (iterate_level v l cb) (fun z g => exists x, own x /\ level_of w x = l /\ K x z g).
  Proof.
    intros l cb K H. unfold iterate_level. destruct VIEW as (_ & _ & VL & _).
    eapply fills_weaken; [apply (fills_mapM w geo rq r _ (fun a => K (here (fst a) (snd a))))|].
    - intros [b n] Hin. apply VL in Hin. destruct Hin as (Hb & Hn & L). cbn [fst snd]. apply H; assumption.
    - intros z g (x & O & L & Kx). destruct (own_here x O) as (b & n & Hb & Hn & ->). exists (b, n). split; [apply VL; auto|exact Kx].
  Qed.
  Definition level_ti (lo l : Z) (t : bool) : Prop := (t = false /\ lo <= l) \/ (t = true /\ interp rq = true /\ l = lo - 1).
  Lemma levels_fill : forall lo hi f (K : Z -> bool -> patch -> region -> Prop),
    (forall l t, level_ti lo l t -> fills (f l t) (K l t)) ->
    fills (levels lo hi (interp rq) f) (fun z g => exists l t, level_ti lo l t /\ l <= Z.max hi (lo - 1) /\ K l t z g).
  Proof.
    intros lo hi f K H. unfold levels.
    eapply fills_weaken; [apply (fills_andthen w geo rq r _ _ (fun z g => exists l, In l (down lo hi) /\ (lo <= l <= hi /\ K l false z g)) (fun z g => interp rq = true /\ K (lo - 1) true z g))|].
    - apply (fills_mapM w geo rq r (fun l => f l false) (fun l z g => lo <= l <= hi /\ K l false z g)). intros l Hl. unfold down in Hl. apply in_rev in Hl. apply Proof_Mesh.in_range in Hl.
      eapply fills_weaken; [apply H; left; split; [reflexivity|lia]|]. tauto.
    - destruct (interp rq) eqn:EI.
      + eapply fills_weaken; [apply H; right; auto|]. tauto.
      + apply fills_nil. intros z g [? _]. discriminate.
    - intros z g (l & t & [(-> & L)|(-> & EI & ->)] & U & Kg).
      + destruct (Z_le_gt_dec l hi); [left|lia]. exists l. split; [unfold down; rewrite <- in_rev; apply Proof_Mesh.in_range; lia|]. auto.
      + right. auto.
  Qed.

  (** ** The passes; l is the level the pass is called with, t whether its patches are time interpolated *)
  Lemma level_buf : forall l t x, level_ti (minlevel rq) l t -> level_of w x = l -> buf x = t /\ lowest rq <= level_of w x.
  Proof.
    intros l t x [(-> & L)|(-> & EI & ->)] E; unfold Spec_Fill.buf, lowest.
    - destruct (Z.eqb_spec (level_of w x) (minlevel rq - 1)); [lia|]. rewrite andb_false_r. split; [reflexivity|]. destruct (interp rq); lia.
    - rewrite EI, E, Z.eqb_refl. split; [reflexivity|lia].
  Qed.
  Lemma level_exists : forall x, lowest rq <= level_of w x -> level_ti (minlevel rq) (level_of w x) (buf x).
  Proof.
    intros x L. unfold level_ti, Spec_Fill.buf, lowest in *. destruct (Z.eqb_spec (level_of w x) (minlevel rq - 1)) as [E|N].
    - destruct (interp rq); [right; auto|lia].
    - left. rewrite andb_false_r. split; [reflexivity|]. destruct (interp rq); lia.
  Qed.

  (** what one patch contributes *)
  Definition Fcopy (x z : patch) (g : region) : Prop := exists f y rf, 0 <= f < 4 /\ face_of w x f = Same y rf /\
    ((z = x /\ exists h, g = RFace f h) \/ (fst y <> r /\ z = y /\ exists h, g = RFace (rf mod 4) h)).
  Definition Ccopy (par : bool) (x z : patch) (g : region) : Prop := exists c y c', 0 <= c < 4 /\ physical_corner w x c = false /\ diag w x c = Some (y, c') /\
    level_of w y = level_of w x /\ (fst y = r \/ par = true) /\ z = x /\ g = RCorner c.
  Definition Favg (par : bool) (x z : patch) (g : region) : Prop := exists f ys rf k y, 0 <= f < 4 /\ face_of w x f = Finer ys rf /\ zget ys k = Some y /\
    (fst y = r \/ par = true) /\ z = x /\ g = RFace f (place geo x f k).
  Definition Cavg (par : bool) (x z : patch) (g : region) : Prop := exists c y c', 0 <= c < 4 /\ physical_corner w x c = false /\ diag w x c = Some (y, c') /\
    level_of w x < level_of w y /\ (fst y = r \/ par = true) /\ z = x /\ g = RCorner c.
  Definition Favg' (par : bool) (x z : patch) (g : region) : Prop := exists f q sub rf, 0 <= f < 4 /\ face_of w x f = Coarser q sub rf /\ fst q <> r /\ par = true /\
    z = q /\ g = RFace (rf mod 4) (place geo q (rf mod 4) sub).
  Definition Fint (x z : patch) (g : region) : Prop := exists f ys rf y, 0 <= f < 4 /\ face_of w x f = Finer ys rf /\ In y ys /\ fst y = r /\ hanging_regions y (rf mod 4) z g.
  Definition Cint (x z : patch) (g : region) : Prop := exists c y c', 0 <= c < 4 /\ physical_corner w x c = false /\ diag w x c = Some (y, c') /\
    level_of w x < level_of w y /\ fst y = r /\ z = y /\ g = RCorner c'.
  Definition Fint' (par : bool) (x z : patch) (g : region) : Prop := exists f q sub rf, 0 <= f < 4 /\ face_of w x f = Coarser q sub rf /\ fst q <> r /\ par = true /\ hanging_regions x f z g.
  Definition Cint' (par : bool) (x z : patch) (g : region) : Prop := exists c y c', 0 <= c < 4 /\ physical_corner w x c = false /\ diag w x c = Some (y, c') /\
    level_of w y < level_of w x /\ fst y <> r /\ par = true /\ z = x /\ g = RCorner c.
  Definition Fphys (t : bool) (x z : patch) (g : region) : Prop := t = buf x /\ z = x /\ exists f h, 0 <= f < 4 /\ edge w x f = true /\ g = RFace f h.

  Lemma iterate_parallel : forall l m cb (K : patch -> patch -> region -> Prop),
    (forall b n, 0 <= b < nblocks w -> 0 <= n < count w r b -> level_of w (here b n) = l -> fills (cb b n) (K (here b n))) ->
    fills (iterate_level v l (parallel_wrap v m cb)) (fun z g => exists x, own x /\ level_of w x = l /\ sel m x = true /\ K x z g).
  Proof.
    intros l m cb K H. apply (iterate_fill l _ (fun x z g => sel m x = true /\ K x z g)). intros b n Hb Hn L. apply (parallel_fill m cb b n (K (here b n))); auto.
  Qed.
  Lemma iterate_interface : forall l m cb (K : patch -> patch -> region -> Prop), (forall x z g, K x z g -> interface x) ->
    (forall b n, 0 <= b < nblocks w -> 0 <= n < count w r b -> level_of w (here b n) = l -> fills (cb b n) (K (here b n))) ->
    fills (iterate_level v l (interface_wrap v m cb)) (fun z g => exists x, own x /\ level_of w x = l /\ sel m x = true /\ K x z g).
  Proof.
    intros l m cb K HI H. apply (iterate_fill l _ (fun x z g => sel m x = true /\ K x z g)). intros b n Hb Hn L. apply (interface_fill m cb b n (K (here b n))); auto. intros z g. apply HI.
  Qed.

  Definition Kcopy (par : bool) (m : mode) (z : patch) (g : region) : Prop := exists x, own x /\ lowest rq <= level_of w x /\ level_of w x <= maxlevel rq /\ sel m x = true /\
    ((exists f y rf, 0 <= f < 4 /\ face_of w x f = Same y rf /\ ((z = x /\ exists h, g = RFace f h) \/ (fst y <> r /\ z = y /\ exists h, g = RFace (rf mod 4) h))) \/
     (exists c y c', 0 <= c < 4 /\ physical_corner w x c = false /\ diag w x c = Some (y, c') /\ level_of w y = level_of w x /\ (fst y = r \/ par = true) /\ z = x /\ g = RCorner c)).
  Lemma copy_pass : forall par m, fills (copy_samelevel v (minlevel rq) (maxlevel rq) (interp rq) par m) (Kcopy par m).
  Proof.
    intros par m. unfold copy_samelevel. eapply fills_weaken; [apply levels_fill|].
    - intros l t HL. unfold copy2ghost. apply fills_andthen.
      + apply (iterate_parallel l m _ Fcopy). intros b n Hb Hn EL. destruct (level_buf l t _ HL EL) as [<- _]. apply (face_copy w geo rq r v FOREST RANK VIEW b n Hb Hn par).
      + apply (iterate_parallel l m _ (Ccopy par)). intros b n Hb Hn EL. destruct (level_buf l t _ HL EL) as [<- _]. apply (corner_copy w geo rq r v FOREST RANK VIEW b n Hb Hn par).
    - intros z g (x & O & L1 & L2 & S & K). exists (level_of w x), (buf x). split; [apply level_exists; exact L1|]. split; [lia|].
      destruct K as [K|K]; [left|right]; exists x; (split; [exact O|]; split; [reflexivity|]; split; [exact S|]).
      + exact K.
      + exact K.
  Qed.

  Definition Kavg (par : bool) (m : mode) (z : patch) (g : region) : Prop := exists x, own x /\ sel m x = true /\ level_of w x <= maxlevel rq /\
    ((lowest rq <= level_of w x /\ exists f ys rf k y, 0 <= f < 4 /\ face_of w x f = Finer ys rf /\ zget ys k = Some y /\ level_of w y <= maxlevel rq /\
        (fst y = r \/ par = true) /\ z = x /\ g = RFace f (place geo x f k)) \/
     (lowest rq <= level_of w x /\ exists c y c', 0 <= c < 4 /\ physical_corner w x c = false /\ diag w x c = Some (y, c') /\ level_of w x < level_of w y /\ level_of w y <= maxlevel rq /\
        (fst y = r \/ par = true) /\ z = x /\ g = RCorner c) \/
     (lowest rq <= level_of w x - 1 /\ par = true /\ exists f q sub rf, 0 <= f < 4 /\ face_of w x f = Coarser q sub rf /\ fst q <> r /\
        z = q /\ g = RFace (rf mod 4) (place geo q (rf mod 4) sub))).
  Lemma coarse_buf : forall b n f q sub rf l t, 0 <= b < nblocks w -> 0 <= n < count w r b -> level_ti (minlevel rq) l t -> level_of w (here b n) = l + 1 -> 0 <= f < 4 ->
    face_of w (here b n) f = Coarser q sub rf -> lowest rq <= level_of w q /\ t = buf q.
  Proof.
    intros b n f q sub rf l t Hb Hn HL EL Hf E. destruct (coarser_facts w geo r FOREST RANK b n Hb Hn f q sub rf Hf E) as (_ & _ & ys & _ & _ & L).
    destruct (level_buf l t q HL ltac:(lia)) as [-> ?]. auto.
  Qed.
  Lemma avg_pass : forall par m, fills (average_fine2coarse v (minlevel rq) (maxlevel rq - 1) (interp rq) par m) (Kavg par m).
  Proof.
    intros par m. unfold average_fine2coarse. eapply fills_weaken; [apply levels_fill|].
    - intros l t HL. unfold average2ghost. apply fills_andthen; [|apply fills_andthen].
      + apply (iterate_interface l m _ (Favg par)).
        * intros x z g (f & ys & rf & k & y & Hf & E & _). left. exists f. rewrite E. auto.
        * intros b n Hb Hn EL. destruct (level_buf l t _ HL EL) as [<- LX]. apply (face_avg w geo rq r v FOREST RANK VIEW b n Hb Hn par LX).
      + apply (iterate_interface l m _ (Cavg par)).
        * intros x z g (c & y & c' & Hc & P & E & L & _). right. exists c, y, c'. split; [exact Hc|]. split; [exact E|lia].
        * intros b n Hb Hn EL. destruct (level_buf l t _ HL EL) as [<- LX]. apply (corner_avg w geo rq r v FOREST RANK VIEW b n Hb Hn par LX).
      + instantiate (1 := fun z g => par = true /\ exists x, own x /\ level_of w x = l + 1 /\ sel m x = true /\ Favg' par x z g).
        destruct par; [|apply fills_nil; intros z g [? _]; discriminate].
        eapply fills_weaken; [apply (iterate_interface (l + 1) m _ (Favg' true))|]; [| |intros z g [_ K]; exact K].
        * intros x z g (f & q & sub & rf & Hf & E & _). left. exists f. rewrite E. auto.
        * intros b n Hb Hn EL. apply (face_avg_fine w geo rq r v FOREST RANK VIEW b n Hb Hn true t). intros f q sub rf Hf E. eapply coarse_buf; eassumption.
    - intros z g (x & O & S & LM & K).
      destruct K as [(L & f & ys & rf & k & y & Hf & E & Hk & LY & K)|[(L & c & y & c' & Hc & P & E & L' & LY & K)|(L & -> & f & q & sub & rf & Hf & E & K)]].
      + exists (level_of w x), (buf x). split; [apply level_exists; exact L|]. split.
        { destruct (finer_facts w geo FOREST _ _ _ _ _ _ (proj1 O) Hf E Hk) as (_ & _ & _ & _ & L2 & _). lia. }
        left. exists x. split; [exact O|]. split; [reflexivity|]. split; [exact S|]. exists f, ys, rf, k, y. auto.
      + exists (level_of w x), (buf x). split; [apply level_exists; exact L|]. split; [lia|].
        right; left. exists x. split; [exact O|]. split; [reflexivity|]. split; [exact S|]. exists c, y, c'. auto.
      + destruct (own_here x O) as (b & n & Hb & Hn & ->). destruct (coarser_facts w geo r FOREST RANK b n Hb Hn f q sub rf Hf E) as (_ & _ & _ & _ & _ & LQ).
        exists (level_of w q), (buf q). split; [apply level_exists; lia|]. split; [lia|]. right; right. split; [reflexivity|].
        exists (here b n). split; [exact O|]. split; [lia|]. split; [exact S|]. destruct K as (K1 & K2 & K3). exists f, q, sub, rf. repeat apply conj; try assumption; try reflexivity; apply Hf.
  Qed.

  Definition Kint (par : bool) (m : mode) (z : patch) (g : region) : Prop := exists x, own x /\ sel m x = true /\ level_of w x <= maxlevel rq /\
    ((lowest rq <= level_of w x /\ exists f ys rf y, 0 <= f < 4 /\ face_of w x f = Finer ys rf /\ In y ys /\ fst y = r /\ level_of w y <= maxlevel rq /\ hanging_regions y (rf mod 4) z g) \/
     (lowest rq <= level_of w x /\ exists c y c', 0 <= c < 4 /\ physical_corner w x c = false /\ diag w x c = Some (y, c') /\ level_of w x < level_of w y /\ level_of w y <= maxlevel rq /\
        fst y = r /\ z = y /\ g = RCorner c') \/
     (lowest rq <= level_of w x - 1 /\ par = true /\ exists f q sub rf, 0 <= f < 4 /\ face_of w x f = Coarser q sub rf /\ fst q <> r /\ hanging_regions x f z g) \/
     (lowest rq <= level_of w x - 1 /\ par = true /\ exists c y c', 0 <= c < 4 /\ physical_corner w x c = false /\ diag w x c = Some (y, c') /\ level_of w y < level_of w x /\
        fst y <> r /\ z = x /\ g = RCorner c)).
  Lemma int_pass : forall par m, fills (interpolate_coarse2fine v (minlevel rq) (maxlevel rq - 1) (interp rq) par m) (Kint par m).
  Proof.
    intros par m. unfold interpolate_coarse2fine. eapply fills_weaken; [apply levels_fill|].
    - intros l t HL. unfold interpolate2ghost. apply fills_andthen; [|apply fills_andthen; [|apply fills_andthen]].
      + apply (iterate_interface l m _ Fint).
        * intros x z g (f & ys & rf & y & Hf & E & _). left. exists f. rewrite E. auto.
        * intros b n Hb Hn EL. destruct (level_buf l t _ HL EL) as [<- LX]. apply (face_int w geo rq r v FOREST RANK VIEW b n Hb Hn par LX).
      + apply (iterate_interface l m _ Cint).
        * intros x z g (c & y & c' & Hc & P & E & L & _). right. exists c, y, c'. split; [exact Hc|]. split; [exact E|lia].
        * intros b n Hb Hn EL. destruct (level_buf l t _ HL EL) as [<- LX]. apply (corner_int w geo rq r v FOREST RANK VIEW b n Hb Hn par LX).
      + apply (iterate_interface (l + 1) m _ (Fint' par)).
        * intros x z g (f & q & sub & rf & Hf & E & _). left. exists f. rewrite E. auto.
        * intros b n Hb Hn EL. apply (face_int_fine w geo rq r v FOREST RANK VIEW b n Hb Hn par t). intros f q sub rf Hf E. eapply coarse_buf; eassumption.
      + apply (iterate_interface (l + 1) m _ (Cint' par)).
        * intros x z g (c & y & c' & Hc & P & E & L & _). right. exists c, y, c'. split; [exact Hc|]. split; [exact E|lia].
        * intros b n Hb Hn EL. apply (corner_int_fine w geo rq r v FOREST RANK VIEW b n Hb Hn par t). intros c y c' Hc E L.
          destruct (diag_level w geo FOREST (here b n) c y c' (Xp w geo r FOREST RANK b n Hb Hn) Hc E) as [_ D].
          destruct (level_buf l t y HL ltac:(lia)) as [-> ?]. auto.
    - intros z g (x & O & S & LM & K).
      destruct K as [(L & f & ys & rf & y & Hf & E & Hy & Ly & LY & K)|[(L & c & y & c' & Hc & P & E & L' & LY & K)|[(L & -> & f & q & sub & rf & Hf & E & K)|(L & -> & c & y & c' & Hc & P & E & L' & K)]]].
      + exists (level_of w x), (buf x). split; [apply level_exists; exact L|]. split.
        { destruct (in_zget _ _ _ Hy) as [k Hk]. destruct (finer_facts w geo FOREST _ _ _ _ _ _ (proj1 O) Hf E Hk) as (_ & _ & _ & _ & L2 & _). lia. }
        left. exists x. split; [exact O|]. split; [reflexivity|]. split; [exact S|]. exists f, ys, rf, y. auto.
      + exists (level_of w x), (buf x). split; [apply level_exists; exact L|]. split; [lia|].
        right; left. exists x. split; [exact O|]. split; [reflexivity|]. split; [exact S|]. exists c, y, c'. auto.
      + destruct (own_here x O) as (b & n & Hb & Hn & ->). destruct (coarser_facts w geo r FOREST RANK b n Hb Hn f q sub rf Hf E) as (_ & _ & _ & _ & _ & LQ).
        exists (level_of w q), (buf q). split; [apply level_exists; lia|]. split; [lia|]. right; right; left.
        exists (here b n). split; [exact O|]. split; [lia|]. split; [exact S|]. destruct K as (K1 & K2). exists f, q, sub, rf. repeat apply conj; try assumption; try reflexivity; try apply Hf; apply K2.
      + destruct (diag_level w geo FOREST x c y c' (proj1 O) Hc E) as [_ D].
        exists (level_of w y), (buf y). split; [apply level_exists; lia|]. split; [lia|]. right; right; right.
        exists x. split; [exact O|]. split; [lia|]. split; [exact S|]. exists c, y, c'. repeat apply conj; try assumption; try reflexivity; try apply Hc; apply K.
  Qed.

  Definition Kphys (hi : Z) (m : mode) (z : patch) (g : region) : Prop := own z /\ sel m z = true /\ lowest rq <= level_of w z <= hi /\ exists f h, 0 <= f < 4 /\ edge w z f = true /\ g = RFace f h.
  Lemma phys_pass : forall hi m, fills (fill_physical v (minlevel rq) hi (interp rq) m) (Kphys hi m).
  Proof.
    intros hi m. unfold fill_physical. eapply fills_weaken; [apply levels_fill|].
    - intros l t HL. unfold setphysical. apply (iterate_parallel l m _ (Fphys t)). intros b n Hb Hn EL.
      apply (physical_fill w geo rq r v FOREST RANK VIEW b n Hb Hn t). intros NI. destruct HL as [[? _]|[_ [? _]]]; congruence.
    - intros z g (O & S & L & K). exists (level_of w z), (buf z). split; [apply level_exists; lia|]. split; [lia|]. exists z. split; [exact O|]. split; [reflexivity|]. split; [exact S|]. split; [reflexivity|]. split; [reflexivity|exact K].
  Qed.
  (** any other range: the calls follow the rules *)
  Lemma phys_any : forall lo hi m, fills (fill_physical v lo hi (interp rq) m) (fun _ _ => False).
  Proof.
    intros lo hi m. unfold fill_physical. eapply fills_weaken; [apply levels_fill|].
    - intros l t HL. unfold setphysical. apply (iterate_parallel l m _ (Fphys t)). intros b n Hb Hn EL.
      apply (physical_fill w geo rq r v FOREST RANK VIEW b n Hb Hn t). intros NI. destruct HL as [[? _]|[_ [? _]]]; congruence.
    - intros z g [].
  Qed.

  Definition Kghost (z : patch) (g : region) : Prop := In z (layer w r) /\ lowest rq <= level_of w z /\
    exists f h y, 0 <= f < 4 /\ g = RFace f h /\ source w geo rq z f h y /\ edge w z f = false /\ fst y <> fst z /\ In y (layer w r).
  Lemma ghost_pass : fills (face_neighbor_ghost v (minlevel rq) (interp rq)) Kghost.
  Proof.
    unfold face_neighbor_ghost. change (if interp rq then minlevel rq - 1 else minlevel rq) with (lowest rq). cbv zeta.
    destruct (proj1 VIEW) as (_ & _ & _ & NG & _ & _ & _ & _ & GL & _). rewrite NG.
    eapply fills_weaken; [apply (fills_mapM w geo rq r _ (fun i z g => zget (layer w r) i = Some z /\ Kghost z g))|].
    - intros i Hi. apply Proof_Mesh.in_range in Hi. destruct (zget_some _ (layer w r) i ltac:(lia)) as [x Hx]. destruct (GL i x Hx) as [_ ->]. cbn [bind g_level].
      destruct (Z.ltb_spec (level_of w x) (lowest rq)).
      + apply fills_nil. intros z g (E & _ & L & _). rewrite Hx in E. injection E as <-. lia.
      + eapply fills_weaken; [apply (fills_mapM w geo rq r); intros f Hf; apply Proof_Mesh.in_range in Hf; apply (ghost_at w geo rq r v FOREST RANK VIEW i x f Hx); lia|].
        intros z g (E & Hin & L & f & h & y & Hf & -> & Sr & NE & N & Hy). rewrite Hx in E. injection E as <-. exists f. split; [apply Proof_Mesh.in_range; lia|].
        exists h, y. auto 10.
    - intros z g K. destruct (in_zget _ _ _ (proj1 K)) as [i Hi]. exists i. split; [apply Proof_Mesh.in_range; apply zget_in in Hi; lia|]. auto.
  Qed.
End Passes.
