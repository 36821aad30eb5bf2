(** C45, C52: patch data through initialisation, regridding, repartitioning and reset. *)
From Coq Require Import ZArith QArith List Bool Lia Lqa.
From Verif Require Import Model_Face Model_Domain Model_Iter Spec_Iter Proof_Iter Model_Regrid Spec_Regrid Proof_Regrid1 Proof_Regrid2 Proof_Regrid3 Proof_Regrid4 Proof_Regrid5.
Import ListNotations.
Open Scope Z_scope.

(* ------------------------------------------------------------------ *)
(** ** C45 *)

(** No run that p4est may produce fails: no double deletion, no use of missing or deleted data, no
    failed assertion; the counters agree whenever a domain is reset; and nothing is left in the end. *)
Theorem C45_whole_run : forall (V : Type) (interp : V -> nat -> V) (average : list V -> V) (init : key -> V)
    (levels : list (list Z)) (minlevel : Z) (ghosts : list nat) (es : list (event V)) (last : list (list Z)),
  uniform minlevel levels -> legal levels es last ->
  exists m reports, whole_run V interp average init levels minlevel ghosts es = Some (m, reports) /\
    Forall (eq true) reports /\ forall id, m_heap V m id = None.
Proof. intros V interp average init levels minlevel ghosts es last. exact (whole_run_ok V interp average init levels minlevel ghosts es last). Qed.
Print Assumptions C45_whole_run.

Lemma stable_sound (V : Type) (st : state V) a : stable V true true (s_mem V st) (s_dom V st) a -> sound st.
Proof.
  intros S. pose proof (st_wrep _ _ _ _ _ _ S) as W. unfold wrep in W. cbn [f_lo f_ln f_g f_ex n_so n_do n_sn n_dn] in W. destruct W as (_ & _ & _ & _ & _ & _ & _ & _ & _ & _ & R).
  pose proof R as ((G1 & G2 & G3) & _).
  assert (GH : forall n, (n < length (d_ghost (s_dom V st)))%nat -> exists id o, nth_error (d_ghost (s_dom V st)) n = Some (Some id) /\ m_heap V (s_mem V st) id = Some o).
  { intros n N. destruct (a (TG n)) as [o|] eqn:A; [|exfalso; apply (st_ghost _ _ _ _ _ _ S n N); exact A].
    destruct (rep_some V tag _ _ _ _ (TG n) o R N A) as (id & E1 & E2). exists id, o. split; [|exact E2]. cbn [slots] in E1. rewrite (nth_error_nth' _ None N), E1. reflexivity. }
  assert (GN : forall n id, nth_error (d_ghost (s_dom V st)) n = Some (Some id) -> (n < length (d_ghost (s_dom V st)))%nat /\ slots (s_dom V st) no_new (TG n) = Some id).
  { intros n id E. split; [apply nth_error_Some; congruence|]. cbn [slots]. apply nth_error_nth with (d := None) in E. exact E. }
  constructor.
  - intros k K. destruct (st_patch _ _ _ _ _ _ S k K) as (o & v & A & X1 & X2 & X3). destruct (rep_some V tag _ _ _ _ (TO k) o R K A) as (id & E1 & E2). exists id, o, v. auto.
  - intros k k' id K K' E E'. pose proof (G2 (TO k) (TO k') id K K' E E') as X. injection X as X. exact X.
  - exact GH.
  - apply NoDup_nth_error. intros i j L E. destruct (GH i L) as (id & o & E1 & _). rewrite E1 in E. symmetry in E. destruct (GN i id E1) as (L1 & S1). destruct (GN j id E) as (L2 & S2).
    pose proof (G2 (TG i) (TG j) id L1 L2 S1 S2) as X. injection X as X. exact X.
  - intros k id K E X. apply In_nth_error in X. destruct X as (n & X). destruct (GN n id X) as (L & SL). pose proof (G2 (TO k) (TG n) id K L E SL) as Y. discriminate.
  - intros id L. destruct (G3 id L) as ([k|k|n] & T & E); cbn [domain_of slots] in T, E.
    + left. exists k. auto.
    + destruct T as (T & _). cbn [length] in T. lia.
    + right. rewrite <- E. apply nth_In. exact T.
Qed.

(** At every point of every such run the bookkeeping is sound, for the levels that p4est reported. *)
Theorem C45_reachable : forall (V : Type) (interp : V -> nat -> V) (average : list V -> V) (init : key -> V)
    (levels : list (list Z)) (minlevel : Z) (ghosts : list nat) (es : list (event V)) (last : list (list Z)),
  uniform minlevel levels -> legal levels es last ->
  exists st, run V interp average init levels minlevel ghosts es = Some st /\ d_levels (s_dom V st) = last /\ sound st.
Proof.
  intros V interp average init levels minlevel ghosts es last U L. destruct (run_ok V interp average init levels minlevel ghosts es last U L) as (st & a & E & S & D & _).
  exists st. split; [exact E|]. split; [exact D|]. exact (stable_sound V st a S).
Qed.
Print Assumptions C45_reachable.

(** ** A concrete run: two trees, refinement at start, a repartitioning that moves patches in both
    directions, a coarsening *)
Definition ex_levels : list (list Z) := [[1; 1; 1; 1]; [1]].
Definition ex_init (k : key) : nat := (fst k * 100 + snd k)%nat.
Definition ex_oss1 : list (list outcome) := [[Keep 1; Refine 1; Keep 1; Keep 1]; [Keep 1]].
Definition ex_news1 : list (list Z) := [[1; 2; 2; 2; 2; 1; 1]; [1]].
(** the process owned the leaves 2 to 9 of 9 + 4 and now owns 0 to 11 *)
Definition ex_part : partition nat := mkPartition nat 2 8 0 [[1; 1; 1; 2; 2; 2; 2; 1; 1]; [1; 1; 1]] (map Z.to_nat (zrange 1000 1012)).
Definition ex_oss2 : list (list outcome) := [[Keep 1; Keep 1; Keep 1; Coarsen 2; Keep 1; Keep 1]; [Keep 1; Keep 1; Keep 1]].
Definition ex_news2 : list (list Z) := [[1; 1; 1; 1; 1; 1]; [1; 1; 1]].
Definition ex_events : list (event nat) :=
  [Refine_initially nat (fun k => (1000 + snd k)%nat) ex_news1 (Some ex_part) [1%nat; 0%nat]; Update nat (fun k v => S v); Regrid nat ex_news2 None [0%nat]].

Definition ex_sizes : list Z := [9; 4].
Lemma ex_repartition : repartition ex_sizes 2 10 0 12 ex_news1 ex_part.
Proof.
  split; [|split; [|split]].
  - split; [lia|]. split; [vm_compute; discriminate|]. split; [repeat constructor; lia|reflexivity].
  - split; [lia|]. split; [vm_compute; discriminate|]. split; [repeat constructor; lia|reflexivity].
  - split; intros H; [cbn; lia|lia].
  - reflexivity.
Qed.
Lemma ex_legal : legal ex_levels ex_events ex_news2.
Proof.
  apply (legal_initial ex_levels _ ex_news1 (Some ex_part) _ (p_levels nat ex_part) _ _ ex_oss1); [split; reflexivity| |].
  - split; [reflexivity|]. exists ex_sizes, 2, 10, 0, 12. exact ex_repartition.
  - apply legal_update. apply (legal_regrid (p_levels nat ex_part) ex_news2 None _ ex_news2 _ _ ex_oss2); [split; reflexivity|reflexivity|apply legal_nil].
Qed.
Lemma ex_uniform : uniform 1 ex_levels.
Proof. repeat constructor. Qed.

Definition ex_interp (v c : nat) : nat := (v * 4 + c)%nat.
Definition ex_average (vs : list nat) : nat := fold_right Nat.add 0%nat vs.

Example C45_instance : exists m reports, whole_run nat ex_interp ex_average ex_init ex_levels 1 [] ex_events = Some (m, reports) /\ reports = [true; true; true; true] /\
  forall id, m_heap nat m id = None.
Proof.
  destruct (C45_whole_run nat ex_interp ex_average ex_init ex_levels 1 [] ex_events ex_news2 ex_uniform ex_legal) as (m & rs & E & F & H). exists m, rs. split; [exact E|]. split; [|exact H].
  assert (X : option_map snd (whole_run nat ex_interp ex_average ex_init ex_levels 1 [] ex_events) = Some [true; true; true; true]) by (vm_compute; reflexivity).
  rewrite E in X. injection X as X. exact X.
Qed.

(** The patch number kept in the patch data, which fclaw2d_patch_get_patchno returns
    (fclaw2d_patch.c 917-924), is the number at the time the data was made: nothing calls
    fclaw2d_patch_reset_data (fclaw2d_patch.c 97-115).  After regridding it is another patch's. *)
Theorem C45_patch_number_refuted : exists (levels news : list (list Z)) (st : state nat) (k : key) (id : nat) (o : obj nat),
  uniform 1 levels /\ legal levels [Regrid nat news None []] news /\
  run nat ex_interp ex_average ex_init levels 1 [] [Regrid nat news None []] = Some st /\
  is_patch news k /\ d_slot (s_dom nat st) k = Some id /\ m_heap nat (s_mem nat st) id = Some o /\ o_patch nat o <> snd k.
Proof.
  exists [[1; 1]], [[2; 2; 2; 2; 1]].
  assert (U : uniform 1 [[1; 1]]) by repeat constructor.
  assert (L : legal [[1; 1]] [Regrid nat [[2; 2; 2; 2; 1]] None []] [[2; 2; 2; 2; 1]]).
  { apply (legal_regrid [[1; 1]] [[2; 2; 2; 2; 1]] None [] [[2; 2; 2; 2; 1]] [] _ [[Refine 1; Keep 1]]); [split; reflexivity|reflexivity|apply legal_nil]. }
  destruct (C45_reachable nat ex_interp ex_average ex_init [[1; 1]] 1 [] _ _ U L) as (st & E & D & _). exists st, (0%nat, 4%nat), 1%nat.
  assert (X : option_map (fun st => (d_slot (s_dom nat st) (0%nat, 4%nat), option_map (o_patch nat) (m_heap nat (s_mem nat st) 1%nat))) (run nat ex_interp ex_average ex_init [[1; 1]] 1 [] [Regrid nat [[2; 2; 2; 2; 1]] None []]) = Some (Some 1%nat, Some 1%nat)) by (vm_compute; reflexivity).
  rewrite E in X. cbn [option_map] in X. injection X as X1 X2. destruct (m_heap nat (s_mem nat st) 1%nat) as [o|] eqn:M; [|discriminate]. exists o.
  split; [exact U|]. split; [exact L|]. split; [exact E|]. split; [split; cbn; lia|]. split; [exact X1|]. split; [reflexivity|]. cbn [option_map] in X2. injection X2 as X2. cbn [snd]. lia.
Qed.
Print Assumptions C45_patch_number_refuted.

(* ------------------------------------------------------------------ *)
(** ** C52 *)

Lemma run_state (V : Type) (interp : V -> nat -> V) (average : list V -> V) init levels minlevel ghosts es last st :
  uniform minlevel levels -> legal levels es last -> run V interp average init levels minlevel ghosts es = Some st ->
  exists a, stable V true true (s_mem V st) (s_dom V st) a /\ d_levels (s_dom V st) = last.
Proof. intros U L E. destruct (run_ok V interp average init levels minlevel ghosts es last U L) as (st' & a & E' & S & D & _). rewrite E in E'. injection E' as <-. exists a. auto. Qed.

Lemma patch_value_avals (V : Type) (st : state V) a k : stable V true true (s_mem V st) (s_dom V st) a -> is_patch (d_levels (s_dom V st)) k -> patch_value st k = avals V a k.
Proof. intros S K. exact (stable_value V _ _ _ _ _ k S K). Qed.

Lemma before_patch oss i os n o j : nth_error oss i = Some os -> nth_error os n = Some o -> (j < length (before D2 o))%nat ->
  is_patch (map (leaves_before D2) oss) (i, (length (leaves_before D2 (firstn n os)) + j)%nat).
Proof.
  intros E1 E2 J. split; cbn [fst snd]; [rewrite map_length; apply nth_error_Some; congruence|].
  rewrite (nth_indep _ [] (leaves_before D2 [])) by (rewrite map_length; apply nth_error_Some; congruence). rewrite map_nth. rewrite (nth_error_nth _ _ _ E1).
  pose proof (nth_error_split _ _ E2) as (l1 & l2 & -> & <-). rewrite firstn_app, firstn_all, Nat.sub_diag, firstn_O, app_nil_r. unfold leaves_before. rewrite map_app, concat_app. cbn [map concat]. rewrite !app_length. lia.
Qed.
Lemma after_patch oss i os n o j : nth_error oss i = Some os -> nth_error os n = Some o -> (j < length (after D2 o))%nat ->
  is_patch (map (leaves_after D2) oss) (i, (length (leaves_after D2 (firstn n os)) + j)%nat).
Proof.
  intros E1 E2 J. split; cbn [fst snd]; [rewrite map_length; apply nth_error_Some; congruence|].
  rewrite (nth_indep _ [] (leaves_after D2 [])) by (rewrite map_length; apply nth_error_Some; congruence). rewrite map_nth. rewrite (nth_error_nth _ _ _ E1).
  pose proof (nth_error_split _ _ E2) as (l1 & l2 & -> & <-). rewrite firstn_app, firstn_all, Nat.sub_diag, firstn_O, app_nil_r. unfold leaves_after. rewrite map_app, concat_app. cbn [map concat]. rewrite !app_length. lia.
Qed.

(** the specification only looks at existing patches *)
Lemma regridded_ext {V} (interp : V -> nat -> V) average oss (f f' g g' : key -> option V) :
  (forall k, is_patch (map (leaves_before D2) oss) k -> f' k = f k) -> (forall k, is_patch (map (leaves_after D2) oss) k -> g' k = g k) ->
  regridded interp average oss f g -> regridded interp average oss f' g'.
Proof.
  intros E1 E2 H i os n o N1 N2. specialize (H i os n o N1 N2). cbn zeta in H |- *.
  pose proof (fun j J => E1 _ (before_patch oss i os n o j N1 N2 J)) as B. pose proof (fun j J => E2 _ (after_patch oss i os n o j N1 N2 J)) as A.
  destruct o as [l|l|l]; cbn [before after nch length repeat] in A, B.
  - specialize (A 0%nat ltac:(lia)). specialize (B 0%nat ltac:(lia)). rewrite Nat.add_0_r in A, B. congruence.
  - destruct H as (v & H1 & H2). exists v. specialize (B 0%nat ltac:(lia)). rewrite Nat.add_0_r in B. split; [congruence|]. intros c C. rewrite A by lia. apply H2, C.
  - destruct H as (v0 & v1 & v2 & v3 & H0 & H1 & H2 & H3 & H4). exists v0, v1, v2, v3. pose proof (B 0%nat ltac:(lia)) as B0. rewrite Nat.add_0_r in B0. pose proof (A 0%nat ltac:(lia)) as A0. rewrite Nat.add_0_r in A0. rewrite B0, !B, A0 by lia. auto.
Qed.
Lemma reinitialised_ext {V} (init : key -> V) oss (f f' g g' : key -> option V) :
  (forall k, is_patch (map (leaves_before D2) oss) k -> f' k = f k) -> (forall k, is_patch (map (leaves_after D2) oss) k -> g' k = g k) ->
  reinitialised init oss f g -> reinitialised init oss f' g'.
Proof.
  intros E1 E2 H i os n o N1 N2. specialize (H i os n o N1 N2). cbn zeta in H |- *.
  pose proof (fun j J => E1 _ (before_patch oss i os n o j N1 N2 J)) as B. pose proof (fun j J => E2 _ (after_patch oss i os n o j N1 N2 J)) as A.
  destruct o as [l|l|l]; cbn [before after nch length repeat] in A, B.
  - specialize (A 0%nat ltac:(lia)). specialize (B 0%nat ltac:(lia)). rewrite Nat.add_0_r in A, B. congruence.
  - intros c C. rewrite A by lia. apply H, C.
  - pose proof (A 0%nat ltac:(lia)) as A0. rewrite Nat.add_0_r in A0. congruence.
Qed.

(** Regridding from any state of any run: kept patches keep their data, the four children of a
    refined patch get data interpolated from it, a coarsened patch gets the average of its four
    children; if the mesh is also repartitioned, a patch that stays local keeps that data and a
    patch that arrives has what was received for it. *)
Theorem C52_regrid : forall (V : Type) (interp : V -> nat -> V) (average : list V -> V) (init : key -> V)
    (levels : list (list Z)) (minlevel : Z) (ghosts : list nat) (es : list (event V)) (last : list (list Z)) (st : state V)
    (oss : list (list outcome)) (news : list (list Z)) (p : option (partition V)) (ghosts' : list nat) (levels' : list (list Z)),
  uniform minlevel levels -> legal levels es last -> run V interp average init levels minlevel ghosts es = Some st ->
  adaptation oss last news -> repartition_opt news p levels' ->
  exists st' mid, do_event V interp average st (Regrid V news p ghosts') = Some st' /\ d_levels (s_dom V st') = levels' /\
    regridded interp average oss (patch_value st) mid /\ repartitioned news p mid (patch_value st').
Proof.
  intros V interp average init levels minlevel ghosts es last st oss news p ghosts' levels' U L E AD RP.
  destruct (run_state V interp average init levels minlevel ghosts es last st U L E) as (a & S & D). rewrite <- D in AD.
  destruct (refinement_ok V interp average None news p ghosts' st a oss levels' S AD RP) as (st' & a' & mid & rs & E' & S' & L' & _ & _ & R & PR & Q).
  exists st', mid. split; [exact E'|]. split; [exact L'|]. destruct AD as (AD1 & AD2). split.
  - apply (regridded_ext interp average oss (avals V a) _ mid mid); [|reflexivity|exact R]. intros k K. rewrite <- AD1 in K. apply (patch_value_avals V st a k S K).
  - destruct p as [p|].
    + intros sizes o0 o1 n0 n1 RP' i g IB NG. rewrite (patch_value_avals V st' a' _ S'); [apply (Q sizes o0 o1 n0 n1 RP' i g IB NG)|].
      rewrite L'. destruct RP as (-> & _). destruct RP' as (_ & OW & _). destruct IB as (B1 & B2). unfold is_patch, patch_of. cbn [fst snd]. rewrite (owns_length _ _ _ _ OW). split; [exact B1|]. pose proof (owns_block _ _ _ _ i OW B1). unfold local_first, local_num in *. lia.
    + intros k K. cbn [repartition_opt] in RP. subst levels'. rewrite (patch_value_avals V st' a' _ S') by (rewrite L'; exact K). apply (Q k K).
Qed.
Print Assumptions C52_regrid.

(** The same while the initial mesh is built: new patches are initialised instead. *)
Theorem C52_initial : forall (V : Type) (interp : V -> nat -> V) (average : list V -> V) (init : key -> V)
    (levels : list (list Z)) (minlevel : Z) (ghosts : list nat) (es : list (event V)) (last : list (list Z)) (st : state V)
    (oss : list (list outcome)) (init' : key -> V) (news : list (list Z)) (p : option (partition V)) (ghosts' : list nat) (levels' : list (list Z)),
  uniform minlevel levels -> legal levels es last -> run V interp average init levels minlevel ghosts es = Some st ->
  adaptation oss last news -> repartition_opt news p levels' ->
  exists st' mid, do_event V interp average st (Refine_initially V init' news p ghosts') = Some st' /\ d_levels (s_dom V st') = levels' /\
    reinitialised init' oss (patch_value st) mid /\ repartitioned news p mid (patch_value st').
Proof.
  intros V interp average init levels minlevel ghosts es last st oss init' news p ghosts' levels' U L E AD RP.
  destruct (run_state V interp average init levels minlevel ghosts es last st U L E) as (a & S & D). rewrite <- D in AD.
  destruct (refinement_ok V interp average (Some init') news p ghosts' st a oss levels' S AD RP) as (st' & a' & mid & rs & E' & S' & L' & _ & _ & R & PR & Q).
  exists st', mid. split; [exact E'|]. split; [exact L'|]. destruct AD as (AD1 & AD2). split.
  - apply (reinitialised_ext init' oss (avals V a) _ mid mid); [|reflexivity|exact R]. intros k K. rewrite <- AD1 in K. apply (patch_value_avals V st a k S K).
  - destruct p as [p|].
    + intros sizes o0 o1 n0 n1 RP' i g IB NG. rewrite (patch_value_avals V st' a' _ S'); [apply (Q sizes o0 o1 n0 n1 RP' i g IB NG)|].
      rewrite L'. destruct RP as (-> & _). destruct RP' as (_ & OW & _). destruct IB as (B1 & B2). unfold is_patch, patch_of. cbn [fst snd]. rewrite (owns_length _ _ _ _ OW). split; [exact B1|]. pose proof (owns_block _ _ _ _ i OW B1). unfold local_first, local_num in *. lia.
    + intros k K. cbn [repartition_opt] in RP. subst levels'. rewrite (patch_value_avals V st' a' _ S') by (rewrite L'; exact K). apply (Q k K).
Qed.
Print Assumptions C52_initial.

(** With the data of the whole forest right on the process before, and the right data received,
    repartitioning leaves it right. *)
Theorem C52_partition : forall (V : Type) (data : Z -> V) (sizes : list Z) (o0 o1 n0 n1 : Z) (news : list (list Z)) (p : partition V) (mid new : key -> option V),
  repartition sizes o0 o1 n0 n1 news p -> repartitioned news (Some p) mid new ->
  holds data sizes o0 o1 mid -> (forall g, n0 <= g < n1 -> ~ o0 <= g < o1 -> nth_error (p_buf V p) (Z.to_nat (g - n0)) = Some (data g)) ->
  holds data sizes n0 n1 new.
Proof.
  intros V data sizes o0 o1 n0 n1 news p mid new RP Q H B i g IB NG. rewrite (Q sizes o0 o1 n0 n1 RP i g IB NG). destruct ((o0 <=? g) && (g <? o1)) eqn:E.
  - apply andb_true_iff in E. rewrite Z.leb_le, Z.ltb_lt in E. apply H; [exact IB|lia].
  - apply B; [exact NG|]. intros X. apply andb_false_iff in E. rewrite Z.leb_gt, Z.ltb_ge in E. lia.
Qed.
Print Assumptions C52_partition.

(** ** Conservation *)
Lemma sumQ_app l r : (sumQ (l ++ r) == sumQ l + sumQ r)%Q.
Proof. unfold sumQ. induction l as [|x l IH]; cbn [app fold_right]; [ring|]. rewrite IH. ring. Qed.
Lemma sum_calls (f g : key -> Q) (cs : list acall) : (forall c, In c cs -> sumQ (map f (new_keys c)) == sumQ (map g (old_keys c)))%Q ->
  (sumQ (map f (flat_map new_keys cs)) == sumQ (map g (flat_map old_keys cs)))%Q.
Proof.
  induction cs as [|c cs IH]; intros H; [reflexivity|]. cbn [flat_map]. rewrite !map_app, !sumQ_app, (H c (or_introl eq_refl)), IH; [reflexivity|]. intros x X. apply H. right. exact X.
Qed.
Lemma all_reports_inv oss : forall i0 c, In c (all_reports i0 oss) -> exists i os n o, nth_error oss i = Some os /\ nth_error os n = Some o /\
  c = mkA (relation_of o) (i0 + i) (length (leaves_before D2 (firstn n os))) (length (leaves_after D2 (firstn n os))).
Proof.
  induction oss as [|os oss IH]; intros i0 c H; [destruct H|]. cbn [all_reports] in H. apply in_app_iff in H. destruct H as [H|H].
  - apply In_nth_error in H. destruct H as (n & H). rewrite reports_nth in H. destruct (nth_error os n) as [o|] eqn:E; [|discriminate]. injection H as <-. exists 0%nat, os, n, o. rewrite Nat.add_0_r. auto.
  - destruct (IH (S i0) c H) as (i & os' & n & o & E1 & E2 & ->). exists (S i), os', n, o. cbn [nth_error]. replace (i0 + S i)%nat with (S i0 + i)%nat by lia. auto.
Qed.

(** If interpolation and averaging conserve a quantity, regridding conserves its total. *)
Theorem C52_conserves : forall (V : Type) (interp : V -> nat -> V) (average : list V -> V) (mu : V -> Q) (oss : list (list outcome))
    (levels news : list (list Z)) (old new : key -> option V),
  (forall v, mu (interp v 0%nat) + mu (interp v 1%nat) + mu (interp v 2%nat) + mu (interp v 3%nat) == mu v)%Q ->
  (forall v0 v1 v2 v3, mu (average [v0; v1; v2; v3]) == mu v0 + mu v1 + mu v2 + mu v3)%Q ->
  adaptation oss levels news -> regridded interp average oss old new ->
  (content mu news new == content mu levels old)%Q.
Proof.
  intros V interp average mu oss levels news old new HI HA (-> & ->) R. unfold content. rewrite (keys_from_0 (map (leaves_after D2) oss)), (keys_from_0 (map (leaves_before D2) oss)), <- (new_keys_all oss 0), <- (old_keys_all oss 0). apply sum_calls.
  intros c C. destruct (all_reports_inv oss 0 c C) as (i & os & n & o & E1 & E2 & ->). specialize (R i os n o E1 E2). cbn zeta in R. unfold new_keys, old_keys. cbn [a_rel a_block a_oj a_nj plus].
  destruct o as [l|l|l]; cbn [relation_of seq map]; unfold amount.
  - rewrite R. reflexivity.
  - destruct R as (v & R1 & R2). rewrite R1. rewrite !R2 by lia. cbn [sumQ fold_right]. rewrite <- (HI v). ring.
  - destruct R as (v0 & v1 & v2 & v3 & R0 & R1 & R2 & R3 & R4). rewrite Nat.add_0_r, R0, R1, R2, R3, R4. cbn [sumQ fold_right]. rewrite HA. ring.
Qed.
Print Assumptions C52_conserves.

(** A concrete regridding: the events of [ex_events] before the last are a run, the last one
    coarsens; the data is what the specification says. *)
Example C52_instance : exists st st' mid, run nat ex_interp ex_average ex_init ex_levels 1 [] (firstn 2 ex_events) = Some st /\
  do_event nat ex_interp ex_average st (Regrid nat ex_news2 None [0%nat]) = Some st' /\
  regridded ex_interp ex_average ex_oss2 (patch_value st) mid /\ repartitioned ex_news2 None mid (patch_value st') /\
  map (patch_value st) (keys (p_levels nat ex_part)) = map Some [1001; 1002; 1; 1002; 1003; 1004; 1005; 3; 4; 101; 1011; 1012]%nat /\
  map (patch_value st') (keys ex_news2) = map Some [1001; 1002; 1; 4014; 3; 4; 101; 1011; 1012]%nat.
Proof.
  assert (L : legal ex_levels (firstn 2 ex_events) (p_levels nat ex_part)).
  { apply (legal_initial ex_levels _ ex_news1 (Some ex_part) _ (p_levels nat ex_part) _ _ ex_oss1); [split; reflexivity| |apply legal_update, legal_nil].
    split; [reflexivity|]. exists ex_sizes, 2, 10, 0, 12. exact ex_repartition. }
  destruct (C45_reachable nat ex_interp ex_average ex_init ex_levels 1 [] _ _ ex_uniform L) as (st & E & D & _).
  destruct (C52_regrid nat ex_interp ex_average ex_init ex_levels 1 [] _ _ st ex_oss2 ex_news2 None [0%nat] ex_news2 ex_uniform L E) as (st' & mid & E' & _ & R & Q); [split; reflexivity|reflexivity|].
  exists st, st', mid. split; [exact E|]. split; [exact E'|]. split; [exact R|]. split; [exact Q|].
  assert (X1 : option_map (fun st => map (patch_value st) (keys (p_levels nat ex_part))) (run nat ex_interp ex_average ex_init ex_levels 1 [] (firstn 2 ex_events)) = Some (map Some [1001; 1002; 1; 1002; 1003; 1004; 1005; 3; 4; 101; 1011; 1012]%nat)) by (vm_compute; reflexivity).
  rewrite E in X1. cbn [option_map] in X1. apply (f_equal (fun o => match o with Some l => l | None => [] end)) in X1. split; [exact X1|].
  assert (X2 : option_map (fun st => map (patch_value st) (keys ex_news2)) (match run nat ex_interp ex_average ex_init ex_levels 1 [] (firstn 2 ex_events) with Some st => do_event nat ex_interp ex_average st (Regrid nat ex_news2 None [0%nat]) | None => None end) = Some (map Some [1001; 1002; 1; 4014; 3; 4; 101; 1011; 1012]%nat)) by (vm_compute; reflexivity).
  rewrite E, E' in X2. cbn [option_map] in X2. apply (f_equal (fun o => match o with Some l => l | None => [] end)) in X2. exact X2.
Qed.
