(** The last pass over the domain boundary fills the corners there. *)
From Coq Require Import ZArith List Bool Lia.
From Verif Require Import Model_Face Model_Mesh Proof_Mesh Spec_Mesh Prop_Mesh Model_Fill Model_FillExec Spec_Fill Proof_Fill1 Proof_Fill2 Proof_Fill3 Proof_Fill4 Proof_Fill5 Proof_Fill6.
Import ListNotations.
Open Scope Z_scope.

(** one patch at a time *)
Definition rassign := (region * routine * region)%type.
Definition rstep (s : region -> val) (a : rassign) : region -> val := fun g => if region_eqb (fst (fst a)) g then App (snd (fst a)) [s (snd a)] else s g.
Definition lift (x : patch) (t : bool) (a : rassign) : assign := mkA (x, t, fst (fst a)) (snd (fst a)) [(x, t, snd a)].
Lemma rstep_ext : forall l s s', (forall g, s g = s' g) -> forall g, fold_left rstep l s g = fold_left rstep l s' g.
Proof.
  induction l as [|a l IH]; intros s s' E g; [apply E|]. cbn [fold_left]. apply IH. intros g'. unfold rstep. rewrite !E. reflexivity.
Qed.
Lemma key_same : forall x t g g', key_eqb (x, t, g) (x, t, g') = region_eqb g g'.
Proof. intros x t g g'. unfold key_eqb. cbn [fst snd]. destruct (patch_eqb_spec x x); [|congruence]. rewrite eqb_reflx. reflexivity. Qed.
Lemma run_lift : forall x t l s g, run (map (lift x t) l) s (x, t, g) = fold_left rstep l (fun g => s (x, t, g)) g.
Proof.
  intros x t. induction l as [|a l IH]; intros s g; [reflexivity|]. cbn [map fold_left]. rewrite run_cons, IH. apply rstep_ext. intros g'.
  unfold step, rstep, lift. cbn [target with_routine sources map]. rewrite key_same. reflexivity.
Qed.

Section Corners.
  Variable w : world.
  Definition plist (x : patch) (t : bool) : list assign := concat (map (phys_face x t) (filter (edge w x) (zrange 0 4))).
  Definition rface_list (f : Z) : list rassign :=
    [(RFace f false, KPhysFace f false, RInt); (RFace f true, KPhysFace f true, RInt);
     (RCorner (endcorner f false), KPhysCorner f (endcorner f false), RFace (endface f false) (side f)); (RCorner (endcorner f true), KPhysCorner f (endcorner f true), RFace (endface f true) (side f))].
  Lemma plist_lift : forall x t, plist x t = map (lift x t) (concat (map rface_list (filter (edge w x) (zrange 0 4)))).
  Proof. intros x t. unfold plist. rewrite concat_map, map_map. reflexivity. Qed.

  Definition corners_right (x : patch) (s : region -> val) : Prop := forall c, 0 <= c < 4 ->
    (edge w x (cfy c) = true -> s (RCorner c) = App (KPhysCorner (cfy c) c) [s (RFace (cfx c) (nearx c))]) /\
    (edge w x (cfy c) = false -> edge w x (cfx c) = true -> s (RCorner c) = App (KPhysCorner (cfx c) c) [s (RFace (cfy c) (neary c))]).
  Lemma plist_corners : forall x t s, corners_right x (fun g => run (plist x t) s (x, t, g)).
  Proof.
    intros x t s c Hc. rewrite !plist_lift. rewrite !run_lift. set (s0 := fun g => s (x, t, g)). clearbody s0.
    assert (filter (edge w x) (zrange 0 4) = (if edge w x 0 then [0] else []) ++ (if edge w x 1 then [1] else []) ++ (if edge w x 2 then [2] else []) ++ (if edge w x 3 then [3] else [])) as ->.
    { change (zrange 0 4) with [0; 1; 2; 3]. cbn [filter]. destruct (edge w x 0), (edge w x 1), (edge w x 2), (edge w x 3); reflexivity. }
    assert (c = 0 \/ c = 1 \/ c = 2 \/ c = 3) as C by lia.
    destruct C as [-> | [-> | [-> | ->]]];
      [change (cfy 0) with 2; change (cfx 0) with 0|change (cfy 1) with 2; change (cfx 1) with 1|change (cfy 2) with 3; change (cfx 2) with 0|change (cfy 3) with 3; change (cfx 3) with 1];
      destruct (edge w x 0), (edge w x 1), (edge w x 2), (edge w x 3); (split; intros; try discriminate); vm_compute; reflexivity.
  Qed.
  Lemma plist_targets : forall x t k, In k (map target (plist x t)) -> fst k = (x, t).
  Proof. intros x t k H. rewrite plist_lift, map_map in H. apply in_map_iff in H. destruct H as (a & <- & _). reflexivity. Qed.
  Lemma plists_corners : forall x t L s, In (x, t) L \/ corners_right x (fun g => s (x, t, g)) ->
    corners_right x (fun g => run (concat (map (fun a => plist (fst a) (snd a)) L)) s (x, t, g)).
  Proof.
    intros x t. induction L as [|[y u] L IH]; intros s H.
    - destruct H as [[]|H]. exact H.
    - cbn [map concat fst snd]. intros c Hc. rewrite run_app. apply IH; [|exact Hc]. clear c Hc.
      destruct (patch_eqb_spec x y) as [->|N1]; [destruct (bool_dec t u) as [->|N2]|].
      + right. apply plist_corners.
      + destruct H as [[E|H]|H]; [congruence|left; exact H|right]. intros c Hc. rewrite !run_other by (intros T; apply plist_targets in T; cbn [fst] in T; congruence). apply H. exact Hc.
      + destruct H as [[E|H]|H]; [congruence|left; exact H|right]. intros c Hc. rewrite !run_other by (intros T; apply plist_targets in T; cbn [fst] in T; congruence). apply H. exact Hc.
  Qed.

  Variable geo : geometry.
  Variable r : Z.
  Notation compile := (compile w (place geo) r).
  Definition shape (res : option (list op)) (P : patch -> bool -> Prop) : Prop :=
    exists ops L, res = Some ops /\ compile ops = Some (concat (map (fun a => plist (fst a) (snd a)) L)) /\ forall x t, P x t -> In (x, t) L.
  Lemma shape_weaken : forall res (P Q : patch -> bool -> Prop), shape res P -> (forall x t, Q x t -> P x t) -> shape res Q.
  Proof. intros res P Q (ops & L & E & C & H) I'. exists ops, L. auto. Qed.
  Lemma shape_andthen : forall a b (P Q : patch -> bool -> Prop), shape a P -> shape b Q -> shape (andthen a b) (fun x t => P x t \/ Q x t).
  Proof.
    intros a b P Q (o1 & L1 & -> & C1 & H1) (o2 & L2 & -> & C2 & H2). exists (o1 ++ o2), (L1 ++ L2). split; [reflexivity|]. split.
    - rewrite (compile_app w geo r _ _ _ _ C1 C2). rewrite map_app, concat_app. reflexivity.
    - intros x t [H|H]; apply in_or_app; auto.
  Qed.
  Lemma shape_nil : forall (P : patch -> bool -> Prop), (forall x t, ~ P x t) -> shape (Some []) P.
  Proof. intros P N. exists [], []. split; [reflexivity|]. split; [reflexivity|]. intros x t H. destruct (N x t H). Qed.
  Lemma shape_mapM : forall {A} (f : A -> option (list op)) (P : A -> patch -> bool -> Prop) l, (forall a, In a l -> shape (f a) (P a)) ->
    shape (bind (mapM f l) (fun l => Some (concat l))) (fun x t => exists a, In a l /\ P a x t).
  Proof.
    intros A f P l. induction l as [|a l IH]; intros H.
    - apply shape_nil. intros x t (a & [] & _).
    - pose proof (shape_andthen _ _ _ _ (H a (or_introl eq_refl)) (IH (fun b Hb => H b (or_intror Hb)))) as S.
      destruct S as (ops & L & E & C & T). exists ops, L. split; [|split; [exact C|intros x t (b & [<-|Hb] & Pb); apply T; [left; exact Pb|right; exists b; auto]]]. rewrite <- E. unfold andthen. cbn [mapM]. destruct (f a); cbn [bind]; [|reflexivity].
      destruct (mapM f l); reflexivity.
  Qed.

  Variable rq : request.
  Variable v : view.
  Hypothesis FOREST : forest_ok w geo.
  Hypothesis RANK : 0 <= r < procs w.
  Hypothesis VIEW : view_ok w geo r v.
  Notation buf := (buf w rq).
  Lemma phys_shape : shape (fill_physical v (minlevel rq) (maxlevel rq) (interp rq) ALL) (fun x t => own w r x /\ Spec_Fill.in_range w rq x /\ t = buf x).
  Proof.
    assert (forall l t, shape (setphysical v l t ALL) (fun x u => own w r x /\ level_of w x = l /\ u = t)) as S.
    { intros l t. unfold setphysical, iterate_level. pose proof VIEW as (_ & _ & VL & _).
      eapply shape_weaken; [apply (shape_mapM _ (fun a x u => x = here w r (fst a) (snd a) /\ u = t))|].
      - intros [b n] Hin. apply VL in Hin. destruct Hin as (Hb & Hn & _). cbn [fst snd]. unfold parallel_wrap, cb_physical.
        rewrite (bc_ok w geo r v FOREST RANK VIEW b n Hb Hn). cbn [bind]. destruct (physical_ops w geo r b n t) as (l' & E & El).
        eexists _, [(here w r b n, t)]. split; [reflexivity|]. split.
        + rewrite E, El. cbn [map concat fst snd]. rewrite app_nil_r. reflexivity.
        + intros x u (-> & ->). left. reflexivity.
      - intros x u (O & L & ->). destruct (own_here w r x O) as (b & n & Hb & Hn & ->). exists (b, n). split; [apply VL; auto|auto]. }
    unfold fill_physical, levels.
    eapply shape_weaken; [apply (shape_andthen _ _ _ (fun x u => interp rq = true /\ own w r x /\ level_of w x = minlevel rq - 1 /\ u = true) (shape_mapM _ (fun l x u => own w r x /\ level_of w x = l /\ u = false) _ (fun l _ => S l false)))|].
    - destruct (interp rq); [eapply shape_weaken; [apply S|tauto]|]. apply shape_nil. intros x t [? _]. discriminate.
    - intros x t (O & [L1 L2] & ->). unfold Spec_Fill.buf, lowest in *. destruct (Z.eqb_spec (level_of w x) (minlevel rq - 1)) as [E|N].
      + right. destruct (interp rq); [|lia]. auto.
      + left. exists (level_of w x). rewrite andb_false_r. split; [|auto]. unfold down. rewrite <- in_rev. apply Proof_Mesh.in_range. destruct (interp rq); lia.
  Qed.
End Corners.
