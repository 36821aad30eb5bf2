From Coq Require Import ZArith List Lia Bool.
From Verif Require Import Model_Adapt Spec_Adapt.
Import ListNotations.
Local Open Scope Z_scope.

Lemma set2_spec : forall {A} (f : nat -> nat -> A) b p x b' p',
  set2 f b p x b' p' = if Nat.eqb b' b && Nat.eqb p' p then x else f b' p'.
Proof. reflexivity. Qed.

(* ------------------------------------------------------------ marking *)

(** Everything except targets and flags stays. *)
Definition same_mesh (d d' : proc) : Prop :=
  mpirank d' = mpirank d /\ num_blocks d' = num_blocks d /\
  (forall b, num_patches d' b = num_patches d b) /\
  (forall b p, level (pat d' b p) = level (pat d b p)) /\
  smooth_refine d' = smooth_refine d /\ smooth_level d' = smooth_level d.

Lemma same_mesh_refl : forall d, same_mesh d d.
Proof. repeat split. Qed.
Lemma same_mesh_trans : forall a b c, same_mesh a b -> same_mesh b c -> same_mesh a c.
Proof.
  intros a b c (A1 & A2 & A3 & A4 & A5 & A6) (B1 & B2 & B3 & B4 & B5 & B6).
  repeat split; intros; congruence.
Qed.
Lemma same_exists : forall d d' b p, same_mesh d d' -> exists_patch d' b p = exists_patch d b p.
Proof. intros d d' b p (_ & H2 & H3 & _). unfold exists_patch. now rewrite H2, H3. Qed.

Definition apply_mark (q : Z) (d : proc) (b p : nat) (m : mark) : option proc :=
  match m with
  | Refine => mark_refine q d b p
  | Coarsen => mark_coarsen d b p
  | NoMark => Some d
  end.

Lemma apply_mark_ok : forall q d b p m, m <> NoMark -> exists_patch d b p = true ->
  exists d', apply_mark q d b p m = Some d' /\ same_mesh d d' /\
    (forall b' p', target (pat d' b' p') =
       if Nat.eqb b' b && Nat.eqb p' p then requested q (level (pat d b p)) m
       else target (pat d b' p')) /\
    (forall b' p', flag d' b' p' =
       if Nat.eqb b' b && Nat.eqb p' p then (if smooth_refine d then flag d b' p' else m)
       else flag d b' p').
Proof.
  intros q d b p m Hm Hex. destruct m; [contradiction| |]; cbn [apply_mark].
  - unfold mark_refine. rewrite Hex. eexists. split; [reflexivity|].
    destruct (smooth_refine d) eqn:Es; cbn [smooth_refine with_pat negb]; rewrite Es; cbn [negb].
    + split; [|split].
      * repeat split. intros b' p'. cbn [pat with_pat]. rewrite set2_spec.
        destruct (Nat.eqb_spec b' b), (Nat.eqb_spec p' p); cbn [andb]; subst; reflexivity.
      * intros b' p'. cbn [pat with_pat]. rewrite set2_spec.
        destruct (Nat.eqb b' b && Nat.eqb p' p); [|reflexivity]. cbn [target requested].
        destruct (Z.ltb_spec (level (pat d b p)) q); lia.
      * intros b' p'. cbn [flag with_pat]. now destruct (Nat.eqb b' b && Nat.eqb p' p).
    + split; [|split].
      * repeat split. intros b' p'. cbn [pat with_pat with_flag]. rewrite set2_spec.
        destruct (Nat.eqb_spec b' b), (Nat.eqb_spec p' p); cbn [andb]; subst; reflexivity.
      * intros b' p'. cbn [pat with_pat with_flag]. rewrite set2_spec.
        destruct (Nat.eqb b' b && Nat.eqb p' p); [|reflexivity]. cbn [target requested].
        destruct (Z.ltb_spec (level (pat d b p)) q); lia.
      * intros b' p'. cbn [flag with_pat with_flag]. rewrite set2_spec. reflexivity.
  - unfold mark_coarsen. rewrite Hex. eexists. split; [reflexivity|].
    destruct (smooth_refine d) eqn:Es; cbn [smooth_refine with_pat negb]; rewrite Es; cbn [negb].
    + split; [|split].
      * repeat split. intros b' p'. cbn [pat with_pat]. rewrite set2_spec.
        destruct (Nat.eqb_spec b' b), (Nat.eqb_spec p' p); cbn [andb]; subst; reflexivity.
      * intros b' p'. cbn [pat with_pat]. rewrite set2_spec.
        destruct (Nat.eqb b' b && Nat.eqb p' p); [|reflexivity]. cbn [target requested].
        destruct (Z.ltb_spec 0 (level (pat d b p))); lia.
      * intros b' p'. cbn [flag with_pat]. now destruct (Nat.eqb b' b && Nat.eqb p' p).
    + split; [|split].
      * repeat split. intros b' p'. cbn [pat with_pat with_flag]. rewrite set2_spec.
        destruct (Nat.eqb_spec b' b), (Nat.eqb_spec p' p); cbn [andb]; subst; reflexivity.
      * intros b' p'. cbn [pat with_pat with_flag]. rewrite set2_spec.
        destruct (Nat.eqb b' b && Nat.eqb p' p); [|reflexivity]. cbn [target requested].
        destruct (Z.ltb_spec 0 (level (pat d b p))); lia.
      * intros b' p'. cbn [flag with_pat with_flag]. rewrite set2_spec. reflexivity.
Qed.

Definition op_patch (o : mark_op) : nat * nat :=
  match o with MRefine b p | MCoarsen b p => (b, p) end.
Definition op_mark (o : mark_op) : mark := match o with MRefine _ _ => Refine | MCoarsen _ _ => Coarsen end.

Lemma mark_run_cons : forall q d o tl, mark_run q d (o :: tl) =
  match apply_mark q d (fst (op_patch o)) (snd (op_patch o)) (op_mark o) with
  | Some d => mark_run q d tl | None => None end.
Proof. intros q d [b p|b p] tl; reflexivity. Qed.

Lemma last_mark_cons : forall o tl b p acc, last_mark (o :: tl) b p acc =
  last_mark tl b p (if Nat.eqb b (fst (op_patch o)) && Nat.eqb p (snd (op_patch o)) then op_mark o else acc).
Proof. intros [b p|b p] tl b' p' acc; reflexivity. Qed.

Lemma mark_run_ok : forall q l d acc,
  (forall b p, target (pat d b p) = requested q (level (pat d b p)) (acc b p)) ->
  (forall b p, flag d b p = if smooth_refine d then NoMark else acc b p) ->
  Forall (fun o => exists_patch d (fst (op_patch o)) (snd (op_patch o)) = true) l ->
  exists d', mark_run q d l = Some d' /\ same_mesh d d' /\
    (forall b p, target (pat d' b p) = requested q (level (pat d b p)) (last_mark l b p (acc b p))) /\
    (forall b p, flag d' b p = if smooth_refine d then NoMark else last_mark l b p (acc b p)).
Proof.
  induction l as [|o tl IH]; intros d acc HT HF HE.
  - exists d. cbn [mark_run last_mark]. split; [reflexivity|]. split; [apply same_mesh_refl|]. now split.
  - apply Forall_cons_iff in HE. destruct HE as [HE1 HE2].
    rewrite mark_run_cons.
    destruct (apply_mark_ok q d (fst (op_patch o)) (snd (op_patch o)) (op_mark o)) as (d1 & E & HM & HT1 & HF1);
      [destruct o; discriminate|exact HE1|].
    rewrite E. pose proof HM as (_ & _ & _ & HL & HS & _).
    destruct (IH d1 (fun b p => if Nat.eqb b (fst (op_patch o)) && Nat.eqb p (snd (op_patch o))
                                then op_mark o else acc b p)) as (d' & E' & HM' & HT' & HF').
    + intros b p. rewrite HT1, HL. destruct (Nat.eqb_spec b (fst (op_patch o)));
        destruct (Nat.eqb_spec p (snd (op_patch o))); cbn [andb]; try apply HT. now subst.
    + intros b p. rewrite HF1, HS, HF. destruct (Nat.eqb b _ && Nat.eqb p _); [|reflexivity].
      destruct (smooth_refine d); reflexivity.
    + eapply Forall_impl; [|exact HE2]. intros a Ha. now rewrite (same_exists d d1).
    + exists d'. split; [exact E'|]. split; [eapply same_mesh_trans; eassumption|]. split.
      * intros b p. rewrite HT', HL. f_equal. now rewrite last_mark_cons.
      * intros b p. rewrite HF', HS, last_mark_cons. reflexivity.
Qed.

Lemma mark_run_out : forall q l d, 
  ~ Forall (fun o => exists_patch d (fst (op_patch o)) (snd (op_patch o)) = true) l ->
  mark_run q d l = None.
Proof.
  induction l as [|o tl IH]; intros d H; [exfalso; apply H; constructor|].
  rewrite mark_run_cons. destruct (exists_patch d (fst (op_patch o)) (snd (op_patch o))) eqn:E.
  - destruct (apply_mark_ok q d (fst (op_patch o)) (snd (op_patch o)) (op_mark o)) as (d1 & E1 & HM & _);
      [destruct o; discriminate|exact E|].
    rewrite E1. apply IH. intros HF. apply H. constructor; [exact E|].
    eapply Forall_impl; [|exact HF]. intros a Ha. now rewrite <- (same_exists d d1).
  - destruct o; cbn [apply_mark op_mark op_patch fst snd] in *; unfold mark_refine, mark_coarsen; now rewrite E.
Qed.

Lemma mark_run_app : forall q a b d, mark_run q d (a ++ b) =
  match mark_run q d a with Some d' => mark_run q d' b | None => None end.
Proof.
  induction a as [|o a IH]; intros b d; [reflexivity|].
  cbn [app]. rewrite !mark_run_cons. destruct (apply_mark q d _ _ _); [apply IH|reflexivity].
Qed.

Lemma mark_run_mesh : forall q l d d', mark_run q d l = Some d' -> same_mesh d d'.
Proof.
  induction l as [|o tl IH]; intros d d' E; [cbn in E; injection E as <-; apply same_mesh_refl|].
  rewrite mark_run_cons in E. destruct (apply_mark q d _ _ _) as [d1|] eqn:E1; [|discriminate].
  apply (same_mesh_trans d d1 d'); [|now apply (IH d1 d')].
  destruct (exists_patch d (fst (op_patch o)) (snd (op_patch o))) eqn:Ex.
  - destruct (apply_mark_ok q d _ _ (op_mark o) ltac:(destruct o; discriminate) Ex) as (d2 & E2 & HM & _).
    congruence.
  - destruct o; cbn [apply_mark op_mark op_patch fst snd] in *; unfold mark_refine, mark_coarsen in *;
      rewrite Ex in E1; discriminate.
Qed.

(* ------------------------------------------------------------ regrid tags *)

Section Regrid.
  Variable q : Z.
  Variable tagR tagC : nat -> nat -> Z.
  Variable minlevel maxlevel : Z.

  Definition coarsen_ops (d : proc) (bp : nat * nat) : list mark_op :=
    let '(b, p) := bp in
    if (level (pat d b p) >? minlevel) && (tagC b p =? 1)
    then [MCoarsen b p; MCoarsen b (p + 1); MCoarsen b (p + 2); MCoarsen b (p + 3)] else [].
  Definition refine_ops (d : proc) (bp : nat * nat) : list mark_op :=
    let '(b, p) := bp in
    if (level (pat d b p) <? maxlevel) && (tagR b p =? 1) then [MRefine b p] else [].

  Lemma coarsen_ops_mesh : forall d d' bp, same_mesh d d' -> coarsen_ops d' bp = coarsen_ops d bp.
  Proof. intros d d' [b p] (_ & _ & _ & H & _). unfold coarsen_ops. now rewrite H. Qed.
  Lemma refine_ops_mesh : forall d d' bp, same_mesh d d' -> refine_ops d' bp = refine_ops d bp.
  Proof. intros d d' [b p] (_ & _ & _ & H & _). unfold refine_ops. now rewrite H. Qed.

  Lemma iterate_coarsen : forall l d,
    iterate (cb_tag4coarsening tagC minlevel) d l = mark_run q d (flat_map (coarsen_ops d) l).
  Proof.
    induction l as [|[b p] tl IH]; intros d; [reflexivity|].
    cbn [iterate flat_map]. rewrite mark_run_app.
    assert (E : cb_tag4coarsening tagC minlevel d b p = mark_run q d (coarsen_ops d (b, p))).
    { unfold cb_tag4coarsening, coarsen_ops. destruct (level (pat d b p) >? minlevel); [|reflexivity].
      destruct (tagC b p =? 1); [|reflexivity]. cbn [andb mark_run].
      destruct (mark_coarsen d b p); [|reflexivity]. cbn [bind].
      destruct (mark_coarsen p0 b (p + 1)); [|reflexivity]. cbn [bind].
      destruct (mark_coarsen p1 b (p + 2)); [|reflexivity]. cbn [bind].
      destruct (mark_coarsen p2 b (p + 3)); reflexivity. }
    rewrite E. destruct (mark_run q d (coarsen_ops d (b, p))) as [d1|] eqn:E1; [|reflexivity].
    cbn [bind]. rewrite IH. f_equal. apply flat_map_ext. intros bp.
    apply coarsen_ops_mesh. exact (mark_run_mesh q _ d d1 E1).
  Qed.

  Lemma iterate_refine : forall l d,
    iterate (cb_tag4refinement q tagR maxlevel) d l = mark_run q d (flat_map (refine_ops d) l).
  Proof.
    induction l as [|[b p] tl IH]; intros d; [reflexivity|].
    cbn [iterate flat_map]. rewrite mark_run_app.
    assert (E : cb_tag4refinement q tagR maxlevel d b p = mark_run q d (refine_ops d (b, p))).
    { unfold cb_tag4refinement, refine_ops. destruct (level (pat d b p) <? maxlevel); [|reflexivity].
      destruct (tagR b p =? 1); [|reflexivity]. cbn [andb mark_run].
      destruct (mark_refine q d b p); reflexivity. }
    rewrite E. destruct (mark_run q d (refine_ops d (b, p))) as [d1|] eqn:E1; [|reflexivity].
    cbn [bind]. rewrite IH. f_equal. apply flat_map_ext. intros bp.
    apply refine_ops_mesh. exact (mark_run_mesh q _ d d1 E1).
  Qed.

  Lemma all_patches_in : forall d b p, In (b, p) (all_patches d) <-> exists_patch d b p = true.
  Proof.
    intros d b p. unfold all_patches, exists_patch. rewrite in_flat_map, andb_true_iff, !Nat.ltb_lt. split.
    - intros (b' & Hb & Hp). apply in_seq in Hb. apply in_map_iff in Hp.
      destruct Hp as (p' & E & Hp). injection E as <- <-. apply in_seq in Hp. lia.
    - intros [Hb Hp]. exists b. split; [apply in_seq; lia|]. apply in_map_iff. exists p.
      split; [reflexivity|apply in_seq; lia].
  Qed.

  Lemma all_patches_mesh : forall d d', same_mesh d d' -> all_patches d' = all_patches d.
  Proof.
    intros d d' (_ & H2 & H3 & _). unfold all_patches. rewrite H2. apply flat_map_ext.
    intros b. now rewrite H3.
  Qed.

  (** the marks regridding puts on a patch *)
  Definition regrid_mark (fams : list (nat * nat)) (d : proc) (b p : nat) : mark :=
    if (level (pat d b p) <? maxlevel) && (tagR b p =? 1) then Refine
    else if existsb (fun '(b', p') => Nat.eqb b' b && (p' <=? p)%nat && (p <=? p' + 3)%nat &&
                     (level (pat d b p) >? minlevel) && (tagC b' p' =? 1)) fams
    then Coarsen else NoMark.

  Lemma last_mark_coarsen : forall d fams b p acc, Forall (family d) fams ->
    last_mark (flat_map (coarsen_ops d) fams) b p acc =
    if existsb (fun '(b', p') => Nat.eqb b' b && (p' <=? p)%nat && (p <=? p' + 3)%nat &&
                (level (pat d b p) >? minlevel) && (tagC b' p' =? 1)) fams
    then Coarsen else acc.
  Proof.
    intros d fams b p. induction fams as [|[b' p'] tl IH]; intros acc HF; [reflexivity|].
    apply Forall_cons_iff in HF. destruct HF as [Hf HF]. cbn [flat_map existsb].
    destruct Hf as (_ & _ & Hlev).
    assert (G : forall l acc, last_mark (coarsen_ops d (b', p') ++ l) b p acc =
      last_mark l b p (if Nat.eqb b' b && (p' <=? p)%nat && (p <=? p' + 3)%nat &&
                (level (pat d b p) >? minlevel) && (tagC b' p' =? 1) then Coarsen else acc)).
    { intros l acc0. unfold coarsen_ops.
      assert (E : Nat.eqb b' b && (p' <=? p)%nat && (p <=? p' + 3)%nat = true ->
                  level (pat d b' p') = level (pat d b p)).
      { rewrite !andb_true_iff, Nat.eqb_eq, !Nat.leb_le. intros [[-> H1] H2].
        symmetry. replace p with (p' + (p - p'))%nat by lia. apply Hlev. lia. }
      destruct (Nat.eqb b' b && (p' <=? p)%nat && (p <=? p' + 3)%nat) eqn:Ein.
      - rewrite (E eq_refl). cbn [andb].
        destruct ((level (pat d b p) >? minlevel) && (tagC b' p' =? 1)); [|reflexivity].
        cbn [app last_mark]. rewrite !andb_true_iff, Nat.eqb_eq, !Nat.leb_le in Ein.
        destruct Ein as [[-> H1] H2]. rewrite !Nat.eqb_refl. cbn [andb].
        destruct (Nat.eqb_spec p p'), (Nat.eqb_spec p (p' + 1)), (Nat.eqb_spec p (p' + 2)),
          (Nat.eqb_spec p (p' + 3)); try reflexivity; lia.
      - cbn [andb]. destruct ((level (pat d b' p') >? minlevel) && (tagC b' p' =? 1)); [|reflexivity].
        cbn [app last_mark]. f_equal.
        destruct (Nat.eqb_spec b b') as [->|]; cbn [andb]; [|reflexivity].
        rewrite Nat.eqb_refl in Ein. cbn [andb] in Ein. apply andb_false_iff in Ein.
        rewrite !Nat.leb_gt in Ein.
        destruct (Nat.eqb_spec p p'), (Nat.eqb_spec p (p' + 1)), (Nat.eqb_spec p (p' + 2)),
          (Nat.eqb_spec p (p' + 3)); try reflexivity; lia. }
    rewrite G, IH by assumption.
    destruct (Nat.eqb b' b && (p' <=? p)%nat && (p <=? p' + 3)%nat &&
                (level (pat d b p) >? minlevel) && (tagC b' p' =? 1)); cbn [orb]; [|reflexivity].
    now destruct (existsb _ tl).
  Qed.

  Lemma last_mark_refine : forall d l b p acc,
    last_mark (flat_map (refine_ops d) l) b p acc =
    if (level (pat d b p) <? maxlevel) && (tagR b p =? 1) &&
       existsb (fun '(b', p') => Nat.eqb b b' && Nat.eqb p p') l
    then Refine else acc.
  Proof.
    intros d l b p. induction l as [|[b' p'] tl IH]; intros acc.
    - cbn [flat_map last_mark existsb]. now rewrite andb_false_r.
    - cbn [flat_map existsb].
      destruct (Nat.eqb_spec b b') as [<-|Hb]; [destruct (Nat.eqb_spec p p') as [<-|Hp]|]; cbn [andb orb].
      + unfold refine_ops at 1. destruct ((level (pat d b p) <? maxlevel) && (tagR b p =? 1)) eqn:E; cbn [andb].
        * cbn [app last_mark]. rewrite !Nat.eqb_refl. cbn [andb]. rewrite IH.
          now destruct (existsb _ tl).
        * cbn [app]. rewrite IH. reflexivity.
      + unfold refine_ops at 1. destruct ((level (pat d b p') <? maxlevel) && (tagR b p' =? 1)).
        * cbn [app last_mark]. rewrite (proj2 (Nat.eqb_neq p p') Hp), andb_false_r. apply IH.
        * apply IH.
      + unfold refine_ops at 1. destruct ((level (pat d b' p') <? maxlevel) && (tagR b' p' =? 1)).
        * cbn [app last_mark]. rewrite (proj2 (Nat.eqb_neq b b') Hb). apply IH.
        * apply IH.
  Qed.

  Lemma last_mark_app : forall a c b p acc, last_mark (a ++ c) b p acc = last_mark c b p (last_mark a b p acc).
  Proof.
    induction a as [|o a IH]; intros c b p acc; [reflexivity|]. cbn [app].
    rewrite !last_mark_cons. apply IH.
  Qed.

  Lemma regrid_ok : forall fams d, unmarked d -> Forall (family d) fams ->
    exists d', regrid_tags q tagR tagC minlevel maxlevel fams d = Some d' /\ same_mesh d d' /\
      forall b p, exists_patch d b p = true ->
        target (pat d' b p) = requested q (level (pat d b p)) (regrid_mark fams d b p) /\
        flag d' b p = if smooth_refine d then NoMark else regrid_mark fams d b p.
  Proof.
    intros fams d HU HF. unfold regrid_tags. rewrite iterate_coarsen.
    set (opsC := flat_map (coarsen_ops d) fams).
    assert (HC : Forall (fun o => exists_patch d (fst (op_patch o)) (snd (op_patch o)) = true) opsC).
    { apply Forall_forall. intros o Ho. apply in_flat_map in Ho. destruct Ho as ([b p] & Hin & Ho).
      rewrite Forall_forall in HF. destruct (HF _ Hin) as (Hb & Hp & _).
      unfold coarsen_ops in Ho. destruct ((level (pat d b p) >? minlevel) && (tagC b p =? 1)); [|destruct Ho].
      unfold exists_patch. rewrite andb_true_iff, !Nat.ltb_lt.
      destruct Ho as [<-|[<-|[<-|[<-|[]]]]]; cbn [op_patch fst snd]; lia. }
    destruct (mark_run q d opsC) as [d1|] eqn:E1.
    2:{ exfalso. destruct (mark_run_ok q opsC d (fun _ _ => NoMark)) as (d1 & E & _).
        - intros b p. cbn [requested]. apply HU.
        - intros b p. rewrite (proj2 (HU b p)). now destruct (smooth_refine d).
        - exact HC.
        - congruence. }
    cbn [bind]. rewrite iterate_refine. pose proof (mark_run_mesh q _ _ _ E1) as HM1.
    rewrite (all_patches_mesh d d1 HM1).
    rewrite (flat_map_ext _ (refine_ops d)) by (intros bp; now apply refine_ops_mesh).
    set (opsR := flat_map (refine_ops d) (all_patches d)).
    assert (HR : Forall (fun o => exists_patch d (fst (op_patch o)) (snd (op_patch o)) = true) opsR).
    { apply Forall_forall. intros o Ho. apply in_flat_map in Ho. destruct Ho as ([b p] & Hin & Ho).
      apply all_patches_in in Hin. unfold refine_ops in Ho.
      destruct ((level (pat d b p) <? maxlevel) && (tagR b p =? 1)); [|destruct Ho].
      destruct Ho as [<-|[]]. exact Hin. }
    destruct (mark_run_ok q (opsC ++ opsR) d (fun _ _ => NoMark)) as (d' & E & HM & HT & HFl).
    - intros b p. cbn [requested]. apply HU.
    - intros b p. rewrite (proj2 (HU b p)). now destruct (smooth_refine d).
    - apply Forall_app. now split.
    - rewrite mark_run_app, E1 in E. exists d'. split; [exact E|]. split; [exact HM|].
      intros b p Hex. rewrite HT, HFl, last_mark_app. unfold opsR, opsC.
      rewrite last_mark_refine, last_mark_coarsen by assumption.
      assert (Hin : existsb (fun '(b', p') => Nat.eqb b b' && Nat.eqb p p') (all_patches d) = true).
      { apply existsb_exists. exists (b, p). split; [now apply all_patches_in|]. now rewrite !Nat.eqb_refl. }
      rewrite Hin, andb_true_r. unfold regrid_mark. now split.
  Qed.
End Regrid.

(* ------------------------------------------------------------ smooth refinement *)

Section Fold.
  Variable d : proc.
  Notation pulls := (fold_left (pull d)).

  Lemma pulls_ge : forall l m, m <= pulls l m.
  Proof.
    induction l as [|n l IH]; intros m; cbn [fold_left]; [lia|].
    etransitivity; [|apply IH]. unfold pull. destruct (level n >=? smooth_level d); lia.
  Qed.

  Lemma pulls_gt : forall l m lev, pulls l m > lev <->
    m > lev \/ exists n, In n l /\ level n >= smooth_level d /\ target n > lev.
  Proof.
    induction l as [|n l IH]; intros m lev; cbn [fold_left In].
    - split; [now left|]. intros [H|(n & [] & _)]; exact H.
    - rewrite IH. unfold pull. destruct (Z.geb_spec (level n) (smooth_level d)) as [Hl|Hl]; split.
      + intros [H|(n' & H & H')].
        * destruct (Z.max_spec m (target n)) as [[_ E]|[_ E]]; rewrite E in H.
          -- right. exists n. split; [now left|]. split; [lia|exact H].
          -- now left.
        * right. exists n'. split; [now right|exact H'].
      + intros [H|(n' & [<-|H] & H1 & H2)].
        * left. lia.
        * left. lia.
        * right. exists n'. now repeat split.
      + intros [H|(n' & H & H')]; [now left|]. right. exists n'. split; [now right|exact H'].
      + intros [H|(n' & [<-|H] & H1 & H2)]; [now left|lia|]. right. exists n'. now repeat split.
  Qed.

  Lemma pulls_app : forall a b m, pulls (a ++ b) m = pulls b (pulls a m).
  Proof. intros. apply fold_left_app. Qed.

  Lemma pulls_le : forall l m B, m <= B -> (forall n, In n l -> target n <= B) -> pulls l m <= B.
  Proof.
    intros l m B Hm Hl. destruct (Z_le_gt_dec (pulls l m) B) as [H|H]; [exact H|exfalso].
    apply pulls_gt in H. destruct H as [H|(n & Hn & _ & H)]; [lia|]. specialize (Hl n Hn). lia.
  Qed.

  Lemma pull_loop_ok : forall f lev (nb : nat -> list patch) n i m,
    (forall k m, (i <= k < i + n)%nat -> f m k = Some (pulls (nb k) m)) ->
    exists m', pull_loop f lev i n m = Some m' /\ m <= m' /\
      let full := pulls (flat_map nb (seq i n)) m in
      (m' = full \/ (lev < m' /\ m' <= full)).
  Proof.
    intros f lev nb. induction n as [|n IH]; intros i m Hf; cbn [pull_loop].
    - exists m. split; [reflexivity|]. split; [lia|]. now left.
    - destruct (Z.leb_spec m lev) as [Hm|Hm].
      + rewrite Hf by lia. cbn [bind].
        destruct (IH (S i) (pulls (nb i) m)) as (m' & E & Hge & Hfull).
        * intros k m0 Hk. apply Hf. lia.
        * exists m'. split; [exact E|]. split; [pose proof (pulls_ge (nb i) m); lia|].
          cbn [seq flat_map]. cbn zeta in *. rewrite pulls_app. exact Hfull.
      + exists m. split; [reflexivity|]. split; [lia|]. right. split; [lia|]. apply pulls_ge.
  Qed.
End Fold.

Section Smooth.
  Variable faces corners : nat.
  Variable F : forest.
  Hypothesis Hmesh : mesh_ok faces corners F.
  Hypothesis Hreq : requests_ok F.
  Variable r : Z.
  Notation D := (procs F r).
  Notation sl := (smooth_level (procs F r)).

  (** States during the loop: only the flags differ from the start. *)
  Definition during (d : proc) : Prop :=
    mpirank d = r /\ num_blocks d = num_blocks D /\ num_patches d = num_patches D /\
    pat d = pat D /\ num_ghost d = num_ghost D /\ ghost_block d = ghost_block D /\
    smooth_level d = sl /\
    (forall g, (g < num_ghost D)%nat ->
       ghost d g = mkP (glevel F (owner F r g)) (gtarget F (owner F r g))).

  Lemma during_start : during (store_ghost_targets D (delivered F r)).
  Proof.
    destruct Hmesh as (H1 & H2 & _). unfold during, store_ghost_targets.
    cbn [mpirank num_blocks num_patches pat num_ghost ghost_block smooth_level ghost].
    repeat split.
    - apply H1.
    - intros g Hg. rewrite (proj2 (Nat.ltb_lt _ _) Hg).
      rewrite (proj2 (H2 r g Hg)). reflexivity.
  Qed.

  Definition as_patch (x : ref) : patch := mkP (glevel F (resolve F r x)) (gtarget F (resolve F r x)).

  Lemma get_neighbor_ok : forall d b p x, during d -> exists_patch D b p = true ->
    near faces corners F r b p x -> get_neighbor d x = Some (as_patch x) /\ is_patch F (resolve F r x).
  Proof.
    intros d b p [[np nb] k] (Hr & Hnb & Hnp & Hpat & Hng & Hgb & Hsl & Hg) Hex Hnear.
    destruct Hmesh as (H1 & H2 & H3 & _). specialize (H3 r b p _ Hex Hnear).
    cbn in H3. destruct H3 as (A & B & C). unfold get_neighbor, as_patch, resolve.
    rewrite Hnb, (proj2 (Nat.ltb_lt nb (num_blocks D)) A). cbn [negb]. rewrite Hr.
    destruct (Z.eqb_spec np r) as [->|Hne]; cbn [negb].
    - rewrite Hnp, (proj2 (Nat.ltb_lt k _) (B eq_refl)), Hpat.
      unfold glevel, gtarget. split; [now destruct (pat D nb k)|].
      cbn. unfold exists_patch. rewrite andb_true_iff, !Nat.ltb_lt. split; [exact A|now apply B].
    - destruct (C Hne) as [C1 C2]. rewrite Hng, Hgb, (proj2 (Nat.ltb_lt k _) C1), C2, Nat.eqb_refl.
      cbn [andb]. rewrite (Hg k C1). split; [reflexivity|]. now apply H2.
  Qed.

  Definition face_list (b p f : nat) : list patch := map as_patch (refs_of_face (fnbr F r b p f)).
  Definition corner_list (b p c : nat) : list patch :=
    match cnbr F r b p c with Some x => [as_patch x] | None => [] end.

  Lemma pull_face_ok : forall d b p m f, during d -> exists_patch D b p = true -> (f < faces)%nat ->
    pull_face (fnbr F r) d b p (level (pat D b p)) m f = Some (fold_left (pull d) (face_list b p f) m).
  Proof.
    intros d b p m f Hd Hex Hf.
    assert (Hn : forall x, In x (refs_of_face (fnbr F r b p f)) -> get_neighbor d x = Some (as_patch x)).
    { intros x Hx. apply (get_neighbor_ok d b p); [exact Hd|exact Hex|]. left. now exists f. }
    pose proof (proj1 (proj2 (proj2 (proj2 Hmesh))) r b p f Hex Hf) as Hlev.
    unfold pull_face, face_list. destruct (fnbr F r b p f) as [|x|x|l]; cbn [refs_of_face map fold_left] in *.
    - reflexivity.
    - rewrite Hn by now left. cbn [bind as_patch level]. rewrite Hlev, Z.eqb_refl. reflexivity.
    - rewrite Hn by now left. cbn [bind as_patch level]. rewrite Hlev, Z.eqb_refl. reflexivity.
    - revert m. induction l as [|x l IH]; intros m; cbn [pull_half map fold_left]; [reflexivity|].
      rewrite Hn by now left. cbn [bind as_patch level]. rewrite Hlev by now left. rewrite Z.eqb_refl.
      apply IH; intros y Hy; [apply Hn|apply Hlev]; now right.
  Qed.

  Lemma pull_corner_ok : forall d b p m c, during d -> exists_patch D b p = true -> (c < corners)%nat ->
    pull_corner (cnbr F r) d b p (level (pat D b p)) m c = Some (fold_left (pull d) (corner_list b p c) m).
  Proof.
    intros d b p m c Hd Hex Hc. unfold pull_corner, corner_list.
    destruct (cnbr F r b p c) as [x|] eqn:E; [|reflexivity].
    rewrite (proj1 (get_neighbor_ok d b p x Hd Hex (or_intror (ex_intro _ c (conj Hc E))))). reflexivity.
  Qed.

  Definition all_list (b p : nat) : list patch :=
    flat_map (face_list b p) (seq 0 faces) ++ flat_map (corner_list b p) (seq 0 corners).

  Lemma all_list_in : forall b p n, In n (all_list b p) <->
    exists x, near faces corners F r b p x /\ n = as_patch x.
  Proof.
    intros b p n. unfold all_list, near. rewrite in_app_iff, !in_flat_map. split.
    - intros [(f & Hf & Hn)|(c & Hc & Hn)].
      + apply in_seq in Hf. unfold face_list in Hn. apply in_map_iff in Hn. destruct Hn as (x & <- & Hx).
        exists x. split; [|reflexivity]. left. exists f. split; [lia|exact Hx].
      + apply in_seq in Hc. unfold corner_list in Hn. destruct (cnbr F r b p c) as [x|] eqn:E; [|destruct Hn].
        destruct Hn as [<-|[]]. exists x. split; [|reflexivity]. right. exists c. split; [lia|exact E].
    - intros (x & [(f & Hf & Hx)|(c & Hc & Hx)] & ->).
      + left. exists f. split; [apply in_seq; lia|]. unfold face_list. now apply in_map.
      + right. exists c. split; [apply in_seq; lia|]. unfold corner_list. rewrite Hx. now left.
  Qed.

  Lemma near_level : forall b p x, exists_patch D b p = true -> near faces corners F r b p x ->
    glevel F (resolve F r x) <= level (pat D b p) + 1.
  Proof.
    intros b p x Hex [(f & Hf & Hx)|(c & Hc & Hx)].
    - pose proof (proj1 (proj2 (proj2 (proj2 Hmesh))) r b p f Hex Hf) as Hlev.
      destruct (fnbr F r b p f) as [|y|y|l]; cbn [refs_of_face In] in Hx.
      + destruct Hx.
      + destruct Hx as [->|[]]. lia.
      + destruct Hx as [->|[]]. lia.
      + rewrite (Hlev x Hx). lia.
    - exact (proj2 (proj2 (proj2 (proj2 Hmesh))) r b p c x Hex Hc Hx).
  Qed.

  (** the flag the loop sets *)
  Definition smooth_flag (b p : nat) (old : mark) : mark :=
    let full := fold_left (pull D) (all_list b p) (target (pat D b p)) in
    if full >? level (pat D b p) then Refine
    else if full <? level (pat D b p) then Coarsen else old.

  Lemma smooth_patch_ok : forall d b p, during d -> exists_patch D b p = true ->
    exists d', smooth_patch faces corners (fnbr F r) (cnbr F r) d b p = Some d' /\ during d' /\
      forall b' p', flag d' b' p' = if Nat.eqb b' b && Nat.eqb p' p
                                    then smooth_flag b p (flag d b' p') else flag d b' p'.
  Proof.
    intros d b p Hd Hex. pose proof Hd as (Hr & Hnb & Hnp & Hpat & Hng & Hgb & Hsl & Hg).
    assert (Hpull : forall l m, fold_left (pull d) l m = fold_left (pull D) l m).
    { induction l as [|n l IH]; intros m; cbn [fold_left]; [reflexivity|]. rewrite IH. f_equal.
      unfold pull. now rewrite Hsl. }
    unfold smooth_patch. rewrite Hpat. set (lev := level (pat D b p)). set (t := target (pat D b p)).
    destruct (pull_loop_ok d (pull_face (fnbr F r) d b p lev) lev (face_list b p) faces 0 t) as (m1 & E1 & G1 & F1).
    { intros k m Hk. apply pull_face_ok; [exact Hd|exact Hex|lia]. }
    rewrite E1. cbn [bind].
    destruct (pull_loop_ok d (pull_corner (cnbr F r) d b p lev) lev (corner_list b p) corners 0 m1) as (m2 & E2 & G2 & F2).
    { intros k m Hk. apply pull_corner_ok; [exact Hd|exact Hex|lia]. }
    rewrite E2. cbn [bind]. cbn zeta in F1, F2.
    set (full := fold_left (pull D) (all_list b p) t).
    assert (Hfull : full = fold_left (pull d) (flat_map (corner_list b p) (seq 0 corners))
                             (fold_left (pull d) (flat_map (face_list b p) (seq 0 faces)) t)).
    { unfold full, all_list. rewrite <- Hpull. apply pulls_app. }
    assert (Hres : m2 = full \/ (lev < m2 /\ m2 <= full)).
    { destruct F1 as [F1|[F1a F1b]].
      - rewrite F1, <- Hfull in F2. exact F2.
      - right. split; [lia|]. rewrite Hfull.
        assert (Hmono : forall l a c, a <= c -> fold_left (pull d) l a <= fold_left (pull d) l c).
        { induction l as [|n l IH]; intros a c Hac; cbn [fold_left]; [exact Hac|]. apply IH.
          unfold pull. destruct (level n >=? smooth_level d); lia. }
        specialize (Hmono (flat_map (corner_list b p) (seq 0 corners)) _ _ F1b).
        destruct F2 as [F2|[_ F2]]; lia. }
    assert (Hp : is_patch F (r, b, p)) by exact Hex.
    assert (Hb : full <= lev + 2).
    { apply pulls_le.
      - pose proof (Hreq (r, b, p) Hp) as H. cbn in H. unfold t, lev. lia.
      - intros n Hn. apply all_list_in in Hn. destruct Hn as (x & Hx & ->).
        pose proof (near_level b p x Hex Hx) as H1.
        pose proof (Hreq _ (proj2 (get_neighbor_ok d b p x Hd Hex Hx))) as H2.
        cbn [as_patch target]. unfold lev. lia. }
    assert (Ht : lev - 1 <= t) by (pose proof (Hreq (r, b, p) Hp) as H; cbn in H; unfold t, lev; lia).
    unfold smooth_flag. fold lev t full.
    destruct (Z.ltb_spec m2 lev) as [Hlt|Hge].
    - assert (m2 = full) by lia.
      assert (Heq : m2 = lev - 1) by lia. rewrite Heq, Z.eqb_refl. eexists. split; [reflexivity|]. split.
      + repeat split; assumption.
      + intros b' p'. cbn [flag with_flag]. rewrite set2_spec.
        destruct (Nat.eqb b' b && Nat.eqb p' p); [|reflexivity].
        destruct (Z.gtb_spec full lev); [lia|]. destruct (Z.ltb_spec full lev); [reflexivity|lia].
    - destruct (Z.gtb_spec m2 lev) as [Hgt|Hle].
      + rewrite (proj2 (Z.leb_le m2 (lev + 2))) by lia. eexists. split; [reflexivity|]. split.
        * repeat split; assumption.
        * intros b' p'. cbn [flag with_flag]. rewrite set2_spec.
          destruct (Nat.eqb b' b && Nat.eqb p' p); [|reflexivity].
          destruct (Z.gtb_spec full lev); [reflexivity|lia].
      + eexists. split; [reflexivity|]. split; [exact Hd|].
        intros b' p'. destruct (Nat.eqb b' b && Nat.eqb p' p); [|reflexivity].
        destruct (Z.gtb_spec full lev); [lia|]. destruct (Z.ltb_spec full lev); [lia|reflexivity].
  Qed.

  Lemma smooth_flag_idem : forall b p m, smooth_flag b p (smooth_flag b p m) = smooth_flag b p m.
  Proof.
    intros. unfold smooth_flag. destruct (_ >? _); [reflexivity|]. now destruct (_ <? _).
  Qed.

  Lemma smooth_iterate_ok : forall l d, during d -> Forall (fun bp => exists_patch D (fst bp) (snd bp) = true) l ->
    exists d', iterate (smooth_patch faces corners (fnbr F r) (cnbr F r)) d l = Some d' /\ during d' /\
      forall b p, flag d' b p = if existsb (fun '(b', p') => Nat.eqb b b' && Nat.eqb p p') l
                                then smooth_flag b p (flag d b p) else flag d b p.
  Proof.
    induction l as [|[b p] l IH]; intros d Hd HF; cbn [iterate].
    - exists d. split; [reflexivity|]. split; [exact Hd|]. reflexivity.
    - apply Forall_cons_iff in HF. destruct HF as [H1 H2].
      destruct (smooth_patch_ok d b p Hd H1) as (d1 & E1 & Hd1 & Hf1). rewrite E1. cbn [bind].
      destruct (IH d1 Hd1 H2) as (d' & E' & Hd' & Hf'). exists d'. split; [exact E'|]. split; [exact Hd'|].
      intros b' p'. rewrite Hf', Hf1. cbn [existsb].
      destruct (Nat.eqb_spec b' b) as [->|Hb], (Nat.eqb_spec p' p) as [->|Hp]; cbn [andb orb]; try reflexivity.
      destruct (existsb _ l); [apply smooth_flag_idem|reflexivity].
  Qed.

  Lemma smooth_flag_refine : forall b p, exists_patch D b p = true ->
    (smooth_flag b p NoMark = Refine <-> wants_finer faces corners F sl (r, b, p)).
  Proof.
    intros b p Hex. unfold smooth_flag, wants_finer.
    set (full := fold_left _ _ _).
    assert (H : smooth_flag b p NoMark = Refine <-> full > level (pat D b p)).
    { unfold smooth_flag. fold full. destruct (Z.gtb_spec full (level (pat D b p))).
      - split; [lia|reflexivity].
      - destruct (full <? level (pat D b p)); (split; [discriminate|lia]). }
    unfold smooth_flag in H. fold full in H. rewrite H. unfold full. rewrite pulls_gt. cbn [gtarget glevel].
    split.
    - intros [Hm|(n & Hn & Hl & Ht)]; [now left|right]. apply all_list_in in Hn.
      destruct Hn as (x & Hx & ->). exists (resolve F r x). split; [exists x; now split|]. now split.
    - intros [Hm|(h & (x & Hx & <-) & Hl & Ht)]; [now left|right]. exists (as_patch x).
      split; [apply all_list_in; now exists x|]. now split.
  Qed.

  Lemma smooth_flag_coarsen : forall b p, exists_patch D b p = true ->
    (smooth_flag b p NoMark = Coarsen <-> may_coarsen faces corners F sl (r, b, p)).
  Proof.
    intros b p Hex. unfold may_coarsen. cbn [gtarget glevel].
    set (full := fold_left (pull D) (all_list b p) (target (pat D b p))).
    assert (H : smooth_flag b p NoMark = Coarsen <-> ~ full > level (pat D b p) - 1).
    { unfold smooth_flag. fold full. destruct (Z.gtb_spec full (level (pat D b p))).
      - split; [discriminate|lia].
      - destruct (Z.ltb_spec full (level (pat D b p))); (split; [try discriminate; lia|try reflexivity; lia]). }
    rewrite H. unfold full. rewrite pulls_gt. split.
    - intros Hno. split; [lia|]. intros h (x & Hx & <-) Hl.
      destruct (Z_lt_ge_dec (gtarget F (resolve F r x)) (level (pat D b p))); [assumption|exfalso].
      apply Hno. right. exists (as_patch x). split; [apply all_list_in; now exists x|]. cbn [as_patch level target]. lia.
    - intros [Hm Hall] [Hgt|(n & Hn & Hl & Ht)]; [lia|]. apply all_list_in in Hn. destruct Hn as (x & Hx & ->).
      cbn [as_patch level target] in *. specialize (Hall (resolve F r x) (ex_intro _ x (conj Hx eq_refl)) Hl). lia.
  Qed.
End Smooth.
