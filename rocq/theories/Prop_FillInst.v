(** A forest on three processes that meets the hypotheses of C46 and C47 (the one of Prop_Mesh: three patches of level 1, and
    four of level 2 in the upper right), and what the update does on it. *)
From Coq Require Import ZArith List Bool Lia.
From Verif Require Import Model_Face Model_Mesh Proof_Mesh Spec_Mesh Prop_Mesh Model_Fill Model_FillExec Spec_Fill Prop_Fill.
Import ListNotations.
Open Scope Z_scope.

Definition geo3 : geometry := mkGeo (edge w3) (fun _ _ i => i =? 1).
(** the exchange of neighbor information *)
Definition sent3 (p : Z) : list (list Z) := match indirect_begin D2 (dom3 p) with Some l => l | None => [] end.
Definition received3 (r i : Z) : option (list Z) := match zget (layer w3 r) i with Some (p, n) => zget (sent3 p) n | None => None end.
Definition view3 (r : Z) : view :=
  mkView (dom3 r) (match indirect_end D2 (dom3 r) (received3 r) with Some l => l | None => [] end)
    (fun x f => match gid w3 r x with Some p => edge w3 p f | None => false end)
    (fun _ _ => true)
    (fun l => filter (fun a => level_of w3 (r, snd a) =? l) (map (fun n => (0, n)) (zrange 0 (count w3 r 0))))
    false.
(** an update of levels 1 and 2, or of level 2 with time interpolated patches of level 1 *)
Definition rq3 (ti : bool) : request := mkReq (if ti then 2 else 1) 2 ti.

Ltac patches H := apply w3_patch in H; cbn [In] in H.
Ltac each H tac := repeat (destruct H as [<-|H]); try contradiction; tac.

Lemma forest3 : forest_ok w3 geo3.
Proof.
  split; [exact w3_ok|]. split; [|split; [|split]].
  - intros x f Hx Hf. patches Hx. unfold face_symmetric.
    each Hx ltac:(cases Hf; cbn [face_of w3 A B C D E F G bface geo3 place];
      first [ exact Logic.I
            | vm_compute; repeat split; reflexivity
            | eexists; split; reflexivity
            | split; [discriminate|]; eexists; eexists; split; [reflexivity|]; split; [discriminate|];
              intros i y Hi; destruct (zget_in _ _ _ _ Hi) as [_ Bi]; cases Bi; cbv in Hi; injection Hi as <-; vm_compute; repeat split; reflexivity ]).
  - intros x c Hx Hc. patches Hx. unfold corner_symmetric.
    each Hx ltac:(cases Hc; intros P y c' Ed; vm_compute in P; try discriminate P; vm_compute in Ed; try discriminate Ed; injection Ed as <- <-;
      (split; [lia|]; split; [reflexivity|]; split; [reflexivity|]; split; [reflexivity|]; split; [intros _ _; split; reflexivity|];
      intros f Hf Hf0; vm_compute in Hf; subst f; lia)).
  - split.
    + intros x f q sub rf Hx Hf Ef. patches Hx. each Hx ltac:(cases Hf; vm_compute in Ef; try discriminate Ef; injection Ef as <- <- <-; exact Logic.I).
    + intros x c y c' Hx Hc P Ed L. patches Hx.
      each Hx ltac:(cases Hc; vm_compute in P; try discriminate P; vm_compute in Ed; try discriminate Ed; injection Ed as <- <-; vm_compute in L; try discriminate L; split; exact Logic.I).
  - intros x f c Hx Hf HC. patches Hx.
    each Hx ltac:(cases Hf; vm_compute in HC; try discriminate HC; injection HC as <-; (split; [reflexivity|]; split; [reflexivity|];
      intros g Hg HG; cases Hg; vm_compute in HG; try discriminate HG; reflexivity)).
Qed.

Lemma machine3 : forall ti, machine_ok w3 geo3 (rq3 ti) view3.
Proof.
  intros ti. split.
  { intros x Hx. patches Hx. each Hx ltac:(destruct ti; vm_compute; congruence). }
  intros r Hr. split.
  - unfold view_ok. split; [apply dom3_ok; exact Hr|]. split; [reflexivity|]. split; [|split; [|split]].
    + intros l b n. cbn [v_level view3]. rewrite filter_In, in_map_iff, Z.eqb_eq. change (nblocks w3) with 1. split.
      * intros ((k & Ek & Hk) & EL). injection Ek as <- <-. apply Proof_Mesh.in_range in Hk. cbn [snd] in EL. split; [lia|]. split; [exact Hk|].
        change (before w3 r 0) with 0. exact EL.
      * intros (Hb & Hn & EL). assert (b = 0) by lia. subst b. change (before w3 r 0) with 0 in EL. split; [|exact EL]. exists n. split; [reflexivity|]. apply Proof_Mesh.in_range. exact Hn.
    + intros x p f Hg. cbn [v_block_face view3]. rewrite Hg. reflexivity.
    + destruct (C28_indirect D2 w3 dom3 w3_ok dom3_ok) as [_ X].
      destruct (X sent3) with (r := r) (received := received3 r) as (data & ED & H).
      * intros p Hp. change (procs w3) with 3 in Hp. unfold sent3. cases Hp; reflexivity.
      * exact Hr.
      * intros i p n Hi. exists n. unfold received3. rewrite Hi. split; [|reflexivity]. destruct (zget_in _ _ _ _ Hi) as [_ Bi].
        change (procs w3) with 3 in Hr. cases Hr; cases Bi; cbv in Hi; injection Hi as <- <-; reflexivity.
      * intros i x f Hi Hf. cbn [v_dom v_indirect view3]. rewrite ED. apply (proj1 (H i x Hi) f Hf).
    + intros b n Hb Hn x H. reflexivity.
  - change (procs w3) with 3 in Hr. split; [|split; [|split]].
    + intros x f y Hx Ex Hf Hy. patches Hx. each Hx ltac:(cases Hf; cbn in Hy; try contradiction; cbn [fst A B C D E F G] in Ex; subst r; unfold knows; cbn; unfold A, B, C, D, E, F, G in *; intuition (subst; cbn; tauto)).
    + intros x c y c' Hx Ex Hc Ed. patches Hx. each Hx ltac:(cases Hc; vm_compute in Ed; try discriminate Ed; injection Ed as <- <-; cbn [fst A B C D E F G] in Ex; subst r; unfold knows; cbn; unfold A, B, C, D, E, F, G in *; tauto).
    + intros x f q sub rf Hx Ex Hf Ef f' y Hy. patches Hx.
      each Hx ltac:(cases Hf; vm_compute in Ef; try discriminate Ef; injection Ef as <- <- <-; vm_compute in Ex; subst r; unfold f' in Hy;
        repeat (destruct Hy as [Hy|Hy]); destruct Hy as (k & Hy); vm_compute in Hy; injection Hy as _ <-; unfold knows; cbn; unfold A, B, C, D, E, F, G in *; tauto).
    + intros x c y c' Hx Ex Hc P Ed L z Hz. patches Hx.
      each Hx ltac:(cases Hc; vm_compute in P; try discriminate P; vm_compute in Ed; try discriminate Ed; injection Ed as <- <-; vm_compute in L; try discriminate L; vm_compute in Ex; subst r;
        (destruct Hz as [Hz|Hz]; destruct Hz as (k & Hz); vm_compute in Hz; injection Hz as _ <-; unfold knows; cbn; unfold A, B, C, D, E, F, G in *; tauto)).
Qed.

(** before the update: own patches have their solution, everything else is old *)
Definition start3 (r : Z) : state := fun k => let '(x, t, g) := k in match g with RInt => if fst x =? r then Interior x t else Old 0 | _ => Old 1 end.
Lemma start3_ok : forall ti r, 0 <= r < procs w3 -> has_solution w3 (rq3 ti) r (start3 r).
Proof. intros ti r _ x _ E _. unfold start3. rewrite E, Z.eqb_refl. reflexivity. Qed.

Example C46_instance : forall ti, forest_ok w3 geo3 /\ machine_ok w3 geo3 (rq3 ti) view3 /\ (forall r, 0 <= r < procs w3 -> has_solution w3 (rq3 ti) r (start3 r)).
Proof. intros ti. split; [exact forest3|]. split; [apply machine3|apply start3_ok]. Qed.

Definition observe (ti async : bool) (r : Z) (x : patch) (g : region) : option val :=
  bind (ghost_update w3 (place geo3) view3 async (minlevel (rq3 ti)) (maxlevel (rq3 ti)) ti (fun _ _ => Old 2) start3 r) (fun s => Some (s (x, buf w3 (rq3 ti) x, g))).
(** the left side of D is interpolated from C, with C's own ghost cells: of D, F, and of A below; the corner between D and C's
    other fine neighbor too; the corner with A from A *)
Example C46_instance_values :
  observe false true 1 D (RFace 0 false) = Some (App (KIntFace 1 0 Intra (RFace 0 false))
    [Interior C false; App (KAvgFace 1 0 Intra false) [Interior D false]; App (KAvgFace 1 1 Intra true) [Interior F false]; App (KCopyFace 2 Intra true) [Interior A false]]) /\
  observe true true 1 D (RCorner 0) = Some (App (KIntCorner 3 false (-1) Intra)
    [Interior A true; App (KCopyFace 1 Intra true) [Interior B true]; App (KCopyFace 3 Intra true) [Interior C true]]) /\
  observe false false 2 F (RCorner 0) = Some (App (KIntFace 1 1 Intra (RCorner 0))
    [Interior C false; App (KAvgFace 1 0 Intra false) [Interior D false]; App (KAvgFace 1 1 Intra true) [Interior F false]; App (KPhysFace 3 true) [Interior C false]]) /\
  observe true false 2 F (RCorner 2) = Some (App (KPhysCorner 3 2)
    [App (KIntFace 1 1 Intra (RFace 0 true)) [Interior C true; App (KAvgFace 1 0 Intra false) [Interior D false]; App (KAvgFace 1 1 Intra true) [Interior F false]; App (KPhysFace 3 true) [Interior C true]]]).
Proof. vm_compute. repeat split. Qed.

(** "data is only read from cells that are already valid" is not quite what happens: before the exchange, faces are copied from
    same-size patches of other processes, whose ghost copies are still those of an earlier update (the result is overwritten
    after the exchange): here the upper side of A, next to C of process 1 *)
Theorem C46_stale_copy_refuted : exists w geo rq views start r x y f h k, forest_ok w geo /\ machine_ok w geo rq views /\
  (forall q, 0 <= q < procs w -> has_solution w rq q (start q)) /\ 0 <= r < procs w /\ is_patch w x /\ fst x = r /\ in_range w rq x /\
  face_of w x f = Same y k /\ fst y <> r /\
  exists s, first_stage w (place geo) views (minlevel rq) (maxlevel rq) (interp rq) start r = Some s /\ ~ current w rq (s (x, buf w rq x, RFace f h)).
Proof.
  exists w3, geo3, (rq3 false), view3, start3, 0, A, C, 3, false, 2.
  split; [exact forest3|]. split; [apply machine3|]. split; [apply start3_ok|]. split; [vm_compute; split; congruence|].
  split; [apply w3_is; cbn; tauto|]. split; [reflexivity|]. split; [vm_compute; split; congruence|]. split; [reflexivity|]. split; [discriminate|].
  destruct (first_stage w3 (place geo3) view3 (minlevel (rq3 false)) (maxlevel (rq3 false)) (interp (rq3 false)) start3 0) as [s|] eqn:ES; [|vm_compute in ES; discriminate].
  exists s. split; [reflexivity|].
  assert (bind (first_stage w3 (place geo3) view3 (minlevel (rq3 false)) (maxlevel (rq3 false)) (interp (rq3 false)) start3 0) (fun s => Some (s (A, buf w3 (rq3 false) A, RFace 3 false)))
    = Some (App (KCopyFace 3 Intra false) [Old 0])) as V by (vm_compute; reflexivity).
  rewrite ES in V. cbn [bind] in V. apply (f_equal (fun o => match o with Some x => x | None => Old 9 end)) in V. cbv beta iota in V. intros H0. assert (current w3 (rq3 false) (App (KCopyFace 3 Intra false) [Old 0])) as H by (rewrite <- V; exact H0). inversion H as [|k l F E]; subst. inversion F as [|a l' O _]; subst. inversion O.
Qed.
Print Assumptions C46_stale_copy_refuted.

(** D, patch 1 of block 0, is interpolated at its lower left corner from A of process 0: the call says that D is in block 1 *)
Theorem C47_remote_coarse_refuted : exists w geo r v e b n ops o x bx y by', forest_ok w geo /\ 0 <= r < procs w /\ view_ok w geo r v /\
  0 <= b < nblocks w /\ 0 <= n < count w r b /\ cb_corner_fill v e b n = Some ops /\ In o ops /\ corner_call o = Some (x, bx, y, by') /\ ~ in_block w r y by'.
Proof.
  exists w3, geo3, 1, (view3 1), (mkE INTERPOLATE IS_FINE true false), 0, 1.
  eexists [_], _, (Gho 0), 0, (Loc 0 1), 1.
  split; [exact forest3|]. split; [vm_compute; split; congruence|]. split; [apply (machine3 false); vm_compute; split; congruence|].
  split; [vm_compute; split; congruence|]. split; [vm_compute; split; congruence|]. split; [vm_compute; reflexivity|]. split; [left; reflexivity|]. split; [reflexivity|].
  intros (p & Gp & Bp). vm_compute in Gp. injection Gp as <-. vm_compute in Bp. discriminate.
Qed.
Print Assumptions C47_remote_coarse_refuted.

Example C47_instance : forest_ok w3 geo3 /\ view_ok w3 geo3 1 (view3 1) /\
  cb_corner_fill (view3 1) (mkE COPY IS_COARSE true false) 0 0 = Some [CopyCorner (Loc 0 0) (Gho 1) 0 0 false 1 false (mkT Intra (Loc 0 0) (Gho 1) (-1) 1 false)].
Proof. split; [exact forest3|]. split; [apply (machine3 false); vm_compute; split; congruence|vm_compute; reflexivity]. Qed.
