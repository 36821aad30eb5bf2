(** The calls made by the face and corner callbacks follow the rules. *)
From Coq Require Import ZArith List Bool Lia.
From Verif Require Import Model_Face Model_Mesh Proof_Mesh Spec_Mesh Prop_Mesh Model_Fill Model_FillExec Spec_Fill Proof_Fill1.
Import ListNotations.
Open Scope Z_scope.

Lemma pref_eqb_refl : forall x, pref_eqb x x = true.
Proof. intros [b n|n]; cbn [pref_eqb]; rewrite ?Z.eqb_refl; reflexivity. Qed.
Lemma patch_eqb_refl : forall x, patch_eqb x x = true. Proof. intros x. destruct (patch_eqb_spec x x); congruence. Qed.
Lemma face_args : forall tr x y, args_ok (face_data tr x y) x y = true.
Proof. intros tr x y. unfold args_ok, face_data. cbn [t_this t_nbr]. rewrite !pref_eqb_refl. reflexivity. Qed.

Lemma swap_eq : forall f rf, 0 <= f < 4 -> 0 <= rf < 8 -> face_swap D2 f rf = (rf mod 4, back f rf).
Proof.
  intros f rf Hf Hr. unfold face_swap, back. cbn [num_faces]. rewrite Z.rem_mod_nonneg, Z.quot_div_nonneg by lia. reflexivity.
Qed.
Lemma back_mod : forall f rf, 0 <= f < 4 -> back f rf mod 4 = f.
Proof. intros f rf H. unfold back. rewrite Z.mul_comm, Z.mod_add by lia. apply Z.mod_small. lia. Qed.
Lemma back_div : forall f rf, 0 <= f < 4 -> back f rf / 4 = rf / 4.
Proof. intros f rf H. unfold back. rewrite Z.mul_comm, Z.div_add by lia. rewrite Z.div_small by lia. lia. Qed.
Lemma back_back : forall f rf, 0 <= f < 4 -> back (rf mod 4) (back f rf) = rf.
Proof. intros f rf H. unfold back at 1. rewrite back_div by lia. pose proof (Z.div_mod rf 4 ltac:(lia)). lia. Qed.
Lemma endcorner_range : forall f e, 0 <= f < 4 -> 0 <= endcorner f e < 4.
Proof.
  intros f e H. assert (f = 0 \/ f = 1 \/ f = 2 \/ f = 3) as C by lia. destruct C as [-> | [-> | [-> | ->]]]; destruct e; cbn; lia.
Qed.
Lemma range_dec : forall f, 0 <= f < 4 -> negb ((0 <=? f) && (f <? 4)) = false.
Proof. intros f H. destruct (Z.leb_spec 0 f), (Z.ltb_spec f 4); try lia; reflexivity. Qed.
Lemma cfx_range : forall c, 0 <= cfx c < 4. Proof. intros c. unfold cfx. pose proof (Z.mod_pos_bound c 2 ltac:(lia)). lia. Qed.
Lemma cfy_range : forall c, 0 <= c < 4 -> 0 <= cfy c < 4.
Proof. intros c H. unfold cfy. assert (0 <= c / 2 < 2) by (split; [apply Z.div_pos; lia|apply Z.div_lt_upper_bound; lia]). lia. Qed.

Section Process.
  Variable w : world.
  Variable geo : geometry.
  Variable rq : request.
  Hypothesis FOREST : forest_ok w geo.
  Notation buf := (buf w rq).
  Notation rule := (rule w geo rq).
  Notation follows := (follows w geo rq).

  Lemma WORLD : world_ok D2 w. Proof. apply FOREST. Qed.
  Lemma acrossok : forall x f, is_patch w x -> 0 <= f < 4 -> across_ok D2 w x f.
  Proof. intros x f Hx Hf. destruct WORLD as (_ & _ & _ & _ & _ & A & _). apply A; assumption. Qed.
  Lemma sym : forall x f, is_patch w x -> 0 <= f < 4 -> face_symmetric w geo x f. Proof. apply FOREST. Qed.
  Lemma csym : forall x c, is_patch w x -> 0 <= c < 4 -> corner_symmetric w geo x c. Proof. apply FOREST. Qed.
  Lemma hangs : hanging_ok w geo. Proof. apply FOREST. Qed.

  Lemma edge_false : forall x f, face_of w x f <> Edge -> edge w x f = false.
  Proof. intros x f H. unfold edge. destruct (face_of w x f); congruence. Qed.

  (** ** Faces *)
  Lemma same_follows : forall x f y rf, is_patch w x -> 0 <= f < 4 -> face_of w x f = Same y rf -> forall h,
    follows (mkA (x, buf x, RFace f h) (KCopyFace f (face_trans geo x f rf) h) [(y, buf x, RInt)]).
  Proof.
    intros x f y rf Hx Hf E h z g T _. cbn [target] in T. inversion T; subst. split; [discriminate|]. intros k l R.
    cbn [Spec_Fill.rule] in R. rewrite range_dec, E in R by assumption. inversion R; subst. cbn [with_routine sources map]. split; [reflexivity|].
    unfold at_key. cbn [fst snd]. pose proof (sym _ _ Hx Hf) as S. unfold face_symmetric in S. rewrite E in S. destruct S as (_ & L & _).
    unfold Spec_Fill.buf. rewrite L. reflexivity.
  Qed.

  Lemma buf_fine : forall y, minlevel rq <= level_of w y -> buf y = false.
  Proof. intros y H. unfold Spec_Fill.buf. destruct (Z.eqb_spec (level_of w y) (minlevel rq - 1)); [lia|]. apply andb_false_r. Qed.
  Lemma lowest_le : minlevel rq - 1 <= lowest rq <= minlevel rq. Proof. unfold lowest. destruct (interp rq); lia. Qed.

  Lemma finer_facts : forall x f ys rf k y, is_patch w x -> 0 <= f < 4 -> face_of w x f = Finer ys rf -> zget ys k = Some y ->
    (k = 0 \/ k = 1) /\ is_patch w y /\ 0 <= rf < 8 /\ face_of w y (rf mod 4) = Coarser x k (back f rf) /\ level_of w y = level_of w x + 1 /\
    bface geo y (rf mod 4) = bface geo x f /\ where_fine w (place geo) x f y = Some (place geo x f k, rf) /\
    (if eqb (place geo x f 0) (place geo x f k) then 0 else 1) = k.
  Proof.
    intros x f ys rf k y Hx Hf E Hk. pose proof (sym _ _ Hx Hf) as S. unfold face_symmetric in S. rewrite E in S.
    destruct S as (P & y0 & y1 & -> & N & S). specialize (S _ _ Hk). destruct S as (S1 & S2 & S3).
    pose proof (acrossok _ _ Hx Hf) as A. unfold across_ok in A. rewrite E in A. destruct A as (_ & Hr & A & _).
    destruct (zget_in _ _ _ _ Hk) as [Hin Hk']. cbn [length] in Hk'.
    assert (k = 0 \/ k = 1) as C by lia.
    assert (is_patch w y) as Hy by (apply A; exact Hin). change (num_orientations D2) with 8 in Hr.
    split; [exact C|]. split; [exact Hy|]. split; [exact Hr|]. split; [exact S1|]. split; [exact S2|]. split; [exact S3|]. split.
    - unfold where_fine. rewrite E. destruct C as [-> | ->]; cbn in Hk; inversion Hk; subst; [rewrite patch_eqb_refl; reflexivity|].
      destruct (patch_eqb_spec y0 y); [congruence|]. rewrite patch_eqb_refl. reflexivity.
    - destruct C as [-> | ->]; [rewrite eqb_reflx; reflexivity|]. destruct (place geo x f 0), (place geo x f 1); cbn; congruence.
  Qed.

  Lemma finer_follows : forall x f ys rf k y, is_patch w x -> 0 <= f < 4 -> face_of w x f = Finer ys rf -> zget ys k = Some y -> lowest rq <= level_of w x ->
    follows (mkA (x, buf x, RFace f (place geo x f k)) (KAvgFace f k (face_trans geo x f rf) (place geo x f k)) [(y, false, RInt)]).
  Proof.
    intros x f ys rf k y Hx Hf E Hk L z g T _. cbn [target] in T. inversion T; subst. split; [discriminate|]. intros k' l R.
    destruct (finer_facts _ _ _ _ _ _ Hx Hf E Hk) as (C & Hy & _ & _ & Ly & _ & _ & PK).
    cbn [Spec_Fill.rule] in R. rewrite range_dec, E in R by assumption. cbv zeta in R. rewrite PK, Hk in R. inversion R; subst.
    cbn [with_routine sources map]. split; [reflexivity|].
    unfold at_key. cbn [fst snd]. rewrite buf_fine; [reflexivity|]. pose proof lowest_le. lia.
  Qed.

  Lemma hanging_face_eq : forall x f c, is_patch w x -> 0 <= f < 4 -> hanging_corner w geo x f = Some c -> hanging_face w geo x c = Some f.
  Proof.
    intros x f c Hx Hf H. unfold hanging_face.
    destruct (find _ (zrange 0 4)) as [g|] eqn:E.
    - apply find_some in E. destruct E as [Hg E]. apply Proof_Mesh.in_range in Hg. destruct (hanging_corner w geo x g) as [c'|] eqn:Eg; [|discriminate].
      apply Z.eqb_eq in E. subst c'. f_equal. eapply (proj2 (proj2 (hangs x f c Hx Hf H))); [lia|exact Eg].
    - apply find_none with (x := f) in E; [|apply Proof_Mesh.in_range; lia]. rewrite H, Z.eqb_refl in E. discriminate.
  Qed.

  (** the regions of the fine patch y that interpolation across face f of the coarse patch x writes *)
  Lemma interp_follows : forall x f ys rf k y, is_patch w x -> 0 <= f < 4 -> face_of w x f = Finer ys rf -> zget ys k = Some y -> lowest rq <= level_of w x ->
    forall g, (exists h, g = RFace (rf mod 4) h) \/ g = RCorner (endcorner (rf mod 4) (xorb (negb (place geo x f k)) (Z.odd (rf / 4)))) ->
    follows (mkA (y, false, g) (KIntFace f k (face_trans geo x f rf) g)
      [(x, buf x, RInt); (x, buf x, RFace f false); (x, buf x, RFace f true); (x, buf x, RFace (endface f (place geo x f k)) (side f))]).
  Proof.
    intros x f ys rf k y Hx Hf E Hk L g Hg z g' T NE. cbn [target] in T. inversion T; subst. split; [destruct Hg as [[h ->]| ->]; discriminate|]. intros k' l R.
    destruct (finer_facts _ _ _ _ _ _ Hx Hf E Hk) as (C & Hy & Hr & Ey & Ly & _ & _ & _).
    assert (0 <= rf mod 4 < 4) as Hf' by (apply Z.mod_pos_bound; lia).
    assert (face_interp w geo rq z (rf mod 4) g' = Some (KIntFace f k (face_trans geo x f rf) g',
      [(x, RInt); (x, RFace f false); (x, RFace f true); (x, RFace (endface f (place geo x f k)) (side f))])) as FI.
    { unfold face_interp. rewrite Ey. cbv zeta. destruct (Z.ltb_spec (level_of w x) (lowest rq)); [lia|].
      rewrite back_mod, back_back by assumption. reflexivity. }
    assert (rule z g' = face_interp w geo rq z (rf mod 4) g') as ER.
    { destruct Hg as [[h ->]| ->].
      - cbn [Spec_Fill.rule]. rewrite range_dec, Ey by assumption. reflexivity.
      - cbn [exempt] in NE. assert (hanging_corner w geo z (rf mod 4) = Some (endcorner (rf mod 4) (xorb (negb (place geo x f k)) (Z.odd (rf / 4))))) as HC.
        { unfold hanging_corner. rewrite Ey. rewrite back_mod, back_div by assumption. reflexivity. }
        cbn [Spec_Fill.rule]. rewrite range_dec by (apply endcorner_range; assumption).
        unfold physical_corner in NE. apply not_true_is_false in NE. apply orb_false_elim in NE. destruct NE as [-> ->].
        rewrite (hanging_face_eq _ _ _ Hy Hf' HC). reflexivity. }
    rewrite ER, FI in R. inversion R; subst. cbn [with_routine sources map]. split; reflexivity.
  Qed.

  (** ** Corners *)
  Lemma diag_level : forall x c y c', is_patch w x -> 0 <= c < 4 -> diag w x c = Some (y, c') -> is_patch w y /\ -1 <= level_of w y - level_of w x <= 1.
  Proof.
    intros x c y c' Hx Hc E. destruct WORLD as (_ & _ & _ & _ & _ & _ & D & _). specialize (D _ _ Hx Hc). unfold diagonal_ok in D. unfold diag in E.
    destruct (corner_of w x c); try discriminate; inversion E; subst; tauto.
  Qed.
  Lemma not_hanging : forall x c y c', is_patch w x -> diag w x c = Some (y, c') -> hanging_face w geo x c = None.
  Proof.
    intros x c y c' Hx E. unfold hanging_face. destruct (find _ (zrange 0 4)) as [g|] eqn:F; [|reflexivity]. exfalso.
    apply find_some in F. destruct F as [Hg F]. apply Proof_Mesh.in_range in Hg. destruct (hanging_corner w geo x g) as [d|] eqn:Eg; [|discriminate].
    apply Z.eqb_eq in F. subst d. destruct (hangs x g c Hx ltac:(lia) Eg) as (_ & N & _). congruence.
  Qed.
  Lemma corner_rule : forall x c y c', is_patch w x -> 0 <= c < 4 -> physical_corner w x c = false -> diag w x c = Some (y, c') ->
    rule x (RCorner c) =
      if level_of w y =? level_of w x then Some (KCopyCorner c (block_corner geo x c) (corner_iface geo x c) (corner_trans w geo x c), [(y, RInt)])
      else if level_of w x <? level_of w y then Some (KAvgCorner c (block_corner geo x c) (corner_iface geo x c) (corner_trans w geo x c), [(y, RInt)])
      else if level_of w y <? lowest rq then None
      else Some (KIntCorner c' (block_corner geo y c') (corner_iface geo y c') (corner_trans w geo y c'),
                 [(y, RInt); (y, RFace (cfx c') (nearx c')); (y, RFace (cfy c') (neary c'))]).
  Proof.
    intros x c y c' Hx Hc P E. cbn [Spec_Fill.rule]. rewrite range_dec by assumption. unfold physical_corner in P. apply orb_false_elim in P.
    destruct P as [-> ->]. rewrite (not_hanging _ _ _ _ Hx E), E. reflexivity.
  Qed.
  Lemma ccopy_follows : forall x c y c', is_patch w x -> 0 <= c < 4 -> physical_corner w x c = false -> diag w x c = Some (y, c') -> level_of w y = level_of w x ->
    follows (mkA (x, buf x, RCorner c) (KCopyCorner c (block_corner geo x c) (corner_iface geo x c) (corner_trans w geo x c)) [(y, buf x, RInt)]).
  Proof.
    intros x c y c' Hx Hc P E L z g T _. cbn [target] in T. inversion T; subst. split; [discriminate|]. intros k l R.
    rewrite (corner_rule _ _ _ _ Hx Hc P E), L, Z.eqb_refl in R. inversion R; subst. cbn [with_routine sources map]. split; [reflexivity|].
    unfold at_key. cbn [fst snd]. unfold Spec_Fill.buf. rewrite L. reflexivity.
  Qed.
  Lemma cavg_follows : forall x c y c', is_patch w x -> 0 <= c < 4 -> physical_corner w x c = false -> diag w x c = Some (y, c') -> level_of w x < level_of w y ->
    lowest rq <= level_of w x ->
    follows (mkA (x, buf x, RCorner c) (KAvgCorner c (block_corner geo x c) (corner_iface geo x c) (corner_trans w geo x c)) [(y, false, RInt)]).
  Proof.
    intros x c y c' Hx Hc P E L Lx z g T _. cbn [target] in T. inversion T; subst. split; [discriminate|]. intros k l R.
    rewrite (corner_rule _ _ _ _ Hx Hc P E) in R. destruct (Z.eqb_spec (level_of w y) (level_of w z)); [lia|].
    destruct (Z.ltb_spec (level_of w z) (level_of w y)); [|lia]. inversion R; subst. cbn [with_routine sources map]. split; [reflexivity|].
    unfold at_key. cbn [fst snd]. rewrite buf_fine; [reflexivity|]. pose proof lowest_le. lia.
  Qed.
  (** x is the coarse patch *)
  Lemma cint_follows : forall x c y c', is_patch w x -> 0 <= c < 4 -> physical_corner w x c = false -> diag w x c = Some (y, c') -> level_of w x < level_of w y ->
    lowest rq <= level_of w x ->
    follows (mkA (y, false, RCorner c') (KIntCorner c (block_corner geo x c) (corner_iface geo x c) (corner_trans w geo x c))
               [(x, buf x, RInt); (x, buf x, RFace (cfx c) (nearx c)); (x, buf x, RFace (cfy c) (neary c))]).
  Proof.
    intros x c y c' Hx Hc P E L Lx z g T _. cbn [target] in T. inversion T; subst. split; [discriminate|]. intros k l R.
    destruct (diag_level _ _ _ _ Hx Hc E) as [Hy _].
    destruct (csym _ _ Hx Hc P _ _ E) as (Hc' & P' & E' & _).
    rewrite (corner_rule _ _ _ _ Hy Hc' P' E') in R. destruct (Z.eqb_spec (level_of w x) (level_of w z)); [lia|].
    destruct (Z.ltb_spec (level_of w z) (level_of w x)); [lia|]. destruct (Z.ltb_spec (level_of w x) (lowest rq)); [lia|].
    inversion R; subst. cbn [with_routine sources map]. split; reflexivity.
  Qed.

  (** ** The domain boundary *)
  Lemma endcorner_faces : forall f e, 0 <= f < 4 -> f = cfx (endcorner f e) \/ f = cfy (endcorner f e).
  Proof. intros f e H. assert (f = 0 \/ f = 1 \/ f = 2 \/ f = 3) as C by lia. destruct C as [-> | [-> | [-> | ->]]]; destruct e; cbn; auto. Qed.
  Lemma phys_follows : forall x ti f, 0 <= f < 4 -> edge w x f = true -> Forall follows (phys_face x ti f).
  Proof.
    intros x ti f Hf E. assert (face_of w x f = Edge) as EE by (unfold edge in E; destruct (face_of w x f); congruence).
    assert (forall h, follows (mkA (x, ti, RFace f h) (KPhysFace f h) [(x, ti, RInt)])) as FH.
    { intros h z g T _. cbn [target] in T. inversion T; subst. split; [discriminate|]. intros k l R.
      cbn [Spec_Fill.rule] in R. rewrite range_dec, EE in R by assumption. inversion R; subst. cbn [with_routine sources map]. split; reflexivity. }
    assert (forall e, follows (mkA (x, ti, RCorner (endcorner f e)) (KPhysCorner f (endcorner f e)) [(x, ti, RFace (endface f e) (side f))])) as FC.
    { intros e z g T N. cbn [target] in T. inversion T; subst. exfalso. apply N. cbn [exempt]. unfold physical_corner.
      destruct (endcorner_faces f e Hf) as [C|C]; rewrite <- C, E; [reflexivity|apply orb_true_r]. }
    unfold phys_face. repeat (apply Forall_cons; [first [apply FH|apply FC]|]). apply Forall_nil.
  Qed.
End Process.
