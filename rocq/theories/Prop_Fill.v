(** C46, C47: the ghost update. *)
From Coq Require Import ZArith List Bool Lia.
From Verif Require Import Model_Face Model_Mesh Proof_Mesh Spec_Mesh Prop_Mesh Model_Fill Model_FillExec Spec_Fill.
From Verif Require Import Proof_Fill1 Proof_Fill2 Proof_Fill3 Proof_Fill4 Proof_Fill5 Proof_Fill6 Proof_Fill7 Proof_Fill8 Proof_Fill9 Proof_Fill10.
Import ListNotations.
Open Scope Z_scope.

(** C46: whatever was in the ghost cells and buffers before, on every process the update completes and all regions of its patches
    have their right contents, with and without the overlap of communication and computation *)
Theorem C46_ghost_update : forall w geo rq views start buffer async, forest_ok w geo -> machine_ok w geo rq views ->
  (forall r, 0 <= r < procs w -> has_solution w rq r (start r)) ->
  forall r, 0 <= r < procs w ->
  exists s, ghost_update w (place geo) views async (minlevel rq) (maxlevel rq) (interp rq) buffer start r = Some s /\
    forall x g v, is_patch w x -> fst x = r -> in_range w rq x -> is_value w geo rq x g v -> s (x, buf w rq x, g) = v.
Proof. intros w geo rq views start buffer async F M S r Hr. exact (update_ok w geo rq views F M buffer start S async r Hr). Qed.
Print Assumptions C46_ghost_update.

(** right contents are unique, and depend on the solution only *)
Theorem C46_values_current : forall w geo rq x g v, is_value w geo rq x g v -> current w rq v /\ forall v', is_value w geo rq x g v' -> v' = v.
Proof.
  intros w geo rq x g v V. split; [|intros v' V'; apply (value_unique w geo rq x g v' V' v V)].
  revert x g v V. fix IH 4. intros x g v V. destruct V as [x|x g k l vs R F]; constructor.
  clear R. induction F as [|a v l vs Ha F IHF]; constructor; [apply (IH _ _ _ Ha)|exact IHF].
Qed.
Print Assumptions C46_values_current.

(** the regions that have right contents: all faces, and all corners at the domain boundary, at the middle of a coarser face, or
    with a patch diagonally across; if the coarser neighbors take part in the update *)
Theorem C46_values_exist : forall w geo rq, forest_ok w geo ->
  forall x, is_patch w x -> in_range w rq x ->
  (forall f q sub rf, 0 <= f < 4 -> face_of w x f = Coarser q sub rf -> lowest rq <= level_of w q) ->
  (forall c y c', 0 <= c < 4 -> diag w x c = Some (y, c') -> lowest rq <= level_of w y) ->
  (exists v, is_value w geo rq x RInt v) /\
  (forall f h, 0 <= f < 4 -> exists v, is_value w geo rq x (RFace f h) v) /\
  (forall c, 0 <= c < 4 -> physical_corner w x c = true \/ (exists f, 0 <= f < 4 /\ hanging_corner w geo x f = Some c) \/ diag w x c <> None ->
     exists v, is_value w geo rq x (RCorner c) v).
Proof.
  intros w geo rq FO x Hx R LF LC.
  assert (forall z f h y, source w geo rq z f h y -> exists v, is_value w geo rq z (RFace f h) v) as SV.
  { intros z f h y (k & RU). eexists. eapply V_ghost; [exact RU|]. apply Forall2_cons; [apply V_interior|apply Forall2_nil]. }
  assert (forall f q sub rf g, 0 <= f < 4 -> face_of w x f = Coarser q sub rf -> hanging_regions w geo x f x g -> exists v, is_value w geo rq x g v) as IV.
  { intros f q sub rf g Hf E HR. destruct (interp_rule w geo rq FO x f q sub rf x g Hx Hf E (LF f q sub rf Hf E) HR) as (_ & _ & k & RU).
    destruct (reads_sources w geo rq FO x f q sub rf Hx Hf E) as ((y1 & S1) & (y2 & S2) & (y3 & S3)).
    destruct (SV _ _ _ _ S1) as [v1 V1], (SV _ _ _ _ S2) as [v2 V2], (SV _ _ _ _ S3) as [v3 V3].
    exists (App k [Interior q (buf w rq q); v1; v2; v3]). eapply V_ghost; [exact RU|]. unfold reads.
    apply Forall2_cons; [apply V_interior|]. apply Forall2_cons; [exact V1|]. apply Forall2_cons; [exact V2|]. apply Forall2_cons; [exact V3|]. apply Forall2_nil. }
  assert (forall f h, 0 <= f < 4 -> exists v, is_value w geo rq x (RFace f h) v) as FV.
  { intros f h Hf. destruct (face_of w x f) as [| | |q sub rf] eqn:E.
    1-3: destruct (source_exists w geo rq FO x f h Hx Hf) as (y & S); [unfold not_coarser; rewrite E; exact Logic.I|apply (SV _ _ _ _ S)].
    apply (IV f q sub rf (RFace f h) Hf E). split; [reflexivity|]. left. exists h. reflexivity. }
  split; [eexists; apply V_interior|]. split; [exact FV|]. intros c Hc H. destruct (physical_corner w x c) eqn:P.
  - destruct (edge w x (cfy c)) eqn:EY.
    + destruct (FV (cfx c) (nearx c) (cfx_range c)) as [v V]. eexists. eapply V_ghost; [cbn [rule]; rewrite range_dec, EY by assumption; reflexivity|].
      apply Forall2_cons; [exact V|apply Forall2_nil].
    + assert (edge w x (cfx c) = true) as EX by (unfold physical_corner in P; rewrite EY, orb_false_r in P; exact P).
      destruct (FV (cfy c) (neary c) (cfy_range c Hc)) as [v V]. eexists. eapply V_ghost; [cbn [rule]; rewrite range_dec, EY, EX by assumption; reflexivity|].
      apply Forall2_cons; [exact V|apply Forall2_nil].
  - destruct H as [H|[(f & Hf & HC)|H]]; [discriminate| |].
    + pose proof HC as HC'. unfold hanging_corner in HC'. destruct (face_of w x f) as [| | |q sub rf] eqn:E; try discriminate. apply (IV f q sub rf (RCorner c) Hf E).
      split; [reflexivity|]. right. exists c. auto.
    + destruct (diag w x c) as [[y c']|] eqn:Ed; [|congruence]. pose proof (corner_rule w geo rq FO x c y c' Hx Hc P Ed) as RU.
      destruct (Z.eqb_spec (level_of w y) (level_of w x)); [eexists; eapply V_ghost; [exact RU|]; apply Forall2_cons; [apply V_interior|apply Forall2_nil]|].
      destruct (Z.ltb_spec (level_of w x) (level_of w y)); [eexists; eapply V_ghost; [exact RU|]; apply Forall2_cons; [apply V_interior|apply Forall2_nil]|].
      destruct (corner_rule_coarse w geo rq FO x c y c' Hx Hc P Ed ltac:(lia) (LC c y c' Hc Ed)) as (k & RU').
      destruct (corner_sources w geo rq FO x c y c' Hx Hc P Ed ltac:(lia)) as ((y1 & S1) & (y2 & S2)).
      destruct (SV _ _ _ _ S1) as [v1 V1], (SV _ _ _ _ S2) as [v2 V2].
      exists (App k [Interior y (buf w rq y); v1; v2]). eapply V_ghost; [exact RU'|].
      apply Forall2_cons; [apply V_interior|]. apply Forall2_cons; [exact V1|]. apply Forall2_cons; [exact V2|]. apply Forall2_nil.
Qed.
Print Assumptions C46_values_exist.

(** two updates from the same solution agree on every region with right contents: neither the overlap of communication, nor the
    flags (beyond those required), nor earlier ghost contents matter *)
Theorem C46_deterministic : forall w geo rq views views' start start' buffer buffer' async async', forest_ok w geo ->
  machine_ok w geo rq views -> machine_ok w geo rq views' ->
  (forall r, 0 <= r < procs w -> has_solution w rq r (start r) /\ has_solution w rq r (start' r)) ->
  forall r, 0 <= r < procs w ->
  exists s s', ghost_update w (place geo) views async (minlevel rq) (maxlevel rq) (interp rq) buffer start r = Some s /\
    ghost_update w (place geo) views' async' (minlevel rq) (maxlevel rq) (interp rq) buffer' start' r = Some s' /\
    forall x g, is_patch w x -> fst x = r -> in_range w rq x -> (exists v, is_value w geo rq x g v) -> s (x, buf w rq x, g) = s' (x, buf w rq x, g).
Proof.
  intros w geo rq views views' start start' buffer buffer' async async' F M M' S r Hr.
  destruct (C46_ghost_update w geo rq views start buffer async F M (fun q Hq => proj1 (S q Hq)) r Hr) as (s & E & V).
  destruct (C46_ghost_update w geo rq views' start' buffer' async' F M' (fun q Hq => proj2 (S q Hq)) r Hr) as (s' & E' & V').
  exists s, s'. split; [exact E|]. split; [exact E'|]. intros x g Hx Ex R (v & H). rewrite (V x g v), (V' x g v); auto.
Qed.
Print Assumptions C46_deterministic.

(** C47: corner routines are called with the blocks of the patches they get, except that the block of a fine patch whose coarse
    neighbor is remote is given as the number of the patch in its block *)
Theorem C47_corner_blocks : forall w geo r v e b n, forest_ok w geo -> 0 <= r < procs w -> view_ok w geo r v ->
  0 <= b < nblocks w -> 0 <= n < count w r b ->
  exists ops, cb_corner_fill v e b n = Some ops /\ forall o x bx y by', In o ops -> corner_call o = Some (x, bx, y, by') ->
    in_block w r x bx /\ (in_block w r y by' \/ (e_grid e = IS_FINE /\ is_ghost x = true /\ y = Loc b n /\ by' = n)).
Proof.
  intros w geo r v e b n FO Hr V Hb Hn. unfold cb_corner_fill. rewrite (bc_ok w geo r v FO Hr V b n Hb Hn). cbn [bind]. unfold get_block_boundary.
  assert (gid w r (Loc b n) = Some (here w r b n)) as G0 by reflexivity.
  pose proof (Xp w geo r FO Hr b n Hb Hn) as Hx. pose proof (Xb w geo r FO Hr b n Hb Hn) as Bx.
  assert (map (v_block_face v (Loc b n)) (zrange 0 4) = map (bface geo (here w r b n)) (zrange 0 4)) as ->.
  { apply map_ext. intros f. destruct V as (_ & _ & _ & BF & _). apply (BF _ _ f G0). }
  destruct (mapM_all _ _ (corner_fill_at v e b n (map (edge w (here w r b n)) (zrange 0 4)) (map (bface geo (here w r b n)) (zrange 0 4)))
    (fun c ops => forall o x bx y by', In o ops -> corner_call o = Some (x, bx, y, by') ->
      in_block w r x bx /\ (in_block w r y by' \/ (e_grid e = IS_FINE /\ is_ghost x = true /\ y = Loc b n /\ by' = n))) (zrange 0 4)) as (ll & EL & FL).
  - intros c Hc. apply Proof_Mesh.in_range in Hc. unfold corner_fill_at. rewrite (gct w geo r b n c Hc). cbn [bind].
    destruct (physical_corner w (here w r b n) c) eqn:P; cbn [negb]; [eexists; split; [reflexivity|]; intros o x bx y by' []|].
    destruct (diag w (here w r b n) c) as [[z c']|] eqn:Ed.
    + destruct (gcn_some w geo r v FO Hr V b n Hb Hn c z c' Hc P Ed) as (p & -> & Gp & Ip). cbn [bind].
      assert (in_block w r p (block_of w z)) as Bp by (exists z; auto). assert (in_block w r (Loc b n) b) as B0 by (exists (here w r b n); auto).
      destruct (e_grid e) eqn:EG; [destruct ((e_parallel e && is_ghost p) || negb (is_ghost p)); [|eexists; split; [reflexivity|]; intros o x bx y by' []]|];
        destruct (lev_of (size w z (here w r b n)));
        repeat match goal with |- context [if ?t then _ else _] => destruct t eqn:? end;
        (eexists; split; [reflexivity|]; intros o x bx y by' HO HC; cbn [In] in HO; try contradiction; destruct HO as [<-|[]]; cbn [corner_call] in HC; inversion HC; subst);
        (split; [assumption|]); try (left; assumption).
      right. match goal with H : is_ghost _ && _ = true |- _ => apply andb_true_iff in H; destruct H end. auto.
    + rewrite (gcn_none w geo r v FO Hr V b n Hb Hn c Hc Ed). cbn [bind]. eexists. split; [reflexivity|]. intros o x bx y by' [].
  - rewrite EL. cbn [bind]. eexists. split; [reflexivity|]. intros o x bx y by' HO HC. apply in_concat in HO. destruct HO as (l & Hl & HO).
    clear EL. revert Hl. induction FL as [|c l' cs ll' Hc FL IH]; intros Hl; [destruct Hl|]. destruct Hl as [<-|Hl]; [eapply Hc; eassumption|apply IH; exact Hl].
Qed.
Print Assumptions C47_corner_blocks.
