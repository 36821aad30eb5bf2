(** C70: the initial mesh is the one the refinement criterion asks for. *)
From Coq Require Import ZArith QArith List Bool Lia.
From Verif Require Model_Grid Model_Tag.
From Verif Require Import Model_GeoTag Spec_GeoTag Prop_GeoTag.
From Verif Require Import Model_Init Spec_Init Proof_Init.
Import ListNotations.
Open Scope Z_scope.

(** Whatever balance adds: every patch of the initial mesh is between minlevel and maxlevel and holds its
    initial data, and going down from minlevel to it one meets a place that the criterion does not want
    refined, unless it is at maxlevel. *)
Theorem C70_criterion : forall D minlevel maxlevel (initialize : nat -> addr -> D) tagR tagC balance nb F b a d,
  0 <= minlevel <= maxlevel -> consistent initialize tagR tagC maxlevel ->
  initial_mesh minlevel maxlevel initialize tagR tagC (adapted maxlevel initialize balance) nb F ->
  patch F b a d ->
  (b < nb)%nat /\ address a /\ minlevel <= level a <= maxlevel /\ d = initialize b a /\
  (level a = maxlevel \/ exists a', above a' a /\ minlevel <= level a' /\ ~ wanted initialize tagR b a').
Proof.
  intros D minlevel maxlevel initialize tagR tagC balance nb F b a d Hl Con M P.
  destruct (start_good minlevel maxlevel initialize tagR tagC (fun _ _ => False) nb Hl) as (G & L & Pr & _).
  assert (X : good_data initialize F /\ levels minlevel maxlevel F /\ length F = nb /\ progress minlevel maxlevel initialize tagR (maxlevel - minlevel) F).
  { unfold initial_mesh in M. fold (start minlevel initialize nb) in M. destruct (Z.ltb_spec minlevel maxlevel).
    - destruct (build_end_state minlevel maxlevel initialize tagR tagC balance _ _ _ M G L) as (G' & L' & N). split; [exact G'|]. split; [exact L'|].
      split; [rewrite N; unfold start; now rewrite map_length, seq_length|].
      apply (build_progress minlevel maxlevel initialize tagR tagC balance _ _ _ M Con G L 0 Pr). unfold turns. lia.
    - subst F. split; [exact G|]. split; [exact L|]. split; [unfold start; now rewrite map_length, seq_length|].
      intros b' a' d' P' _. destruct (L b' a' d' P'). lia. }
  destruct X as (G' & L' & N & Pr').
  split; [destruct P as (t & E & _); rewrite <- N; apply nth_error_Some; congruence|].
  split; [destruct P as (t & _ & E); exact (leaf_address t a d E)|].
  split; [exact (L' b a d P)|]. split; [exact (G' b a d P)|].
  destruct (Z.eq_dec (level a) maxlevel) as [E | E]; [now left | right].
  assert (NA : ~ all_wanted minlevel initialize tagR b a) by (intro W; specialize (Pr' b a d P W); specialize (L' b a d P); lia).
  (* the chain is finite and the criterion decidable *)
  assert (Dec : forall p q, a = p ++ q -> (exists a', above a' p /\ minlevel <= level a' /\ ~ wanted initialize tagR b a') \/ (forall a', above a' p -> minlevel <= level a' -> wanted initialize tagR b a')).
  { intro p. induction p as [|x p IH] using rev_ind; intros q Eq.
    - destruct (Z.eq_dec (tagR b [] (initialize b [])) 1) as [W | W].
      + right. intros a' [r Er] _. destruct a'; [exact W | discriminate].
      + destruct (Z.le_gt_cases minlevel 0) as [B | B]; [left; exists []; split; [apply above_refl|]; split; [exact B | exact W]|].
        right. intros a' [r Er] Ha. destruct a'; [|discriminate]. unfold level in Ha. cbn in Ha. lia.
    - destruct (IH (x :: q)) as [(a' & A1 & A2 & A3) | Al].
      { rewrite Eq, <- app_assoc. reflexivity. }
      + left. exists a'. split; [now apply above_snoc|]. tauto.
      + destruct (Z.le_gt_cases minlevel (level (p ++ [x]))) as [B | B].
        * destruct (Z.eq_dec (tagR b (p ++ [x]) (initialize b (p ++ [x]))) 1) as [W | W].
          -- right. intros a' [[|y r] Er] Ha; [rewrite app_nil_r in Er; subst a'; exact W|]. apply Al; [|exact Ha].
             apply (strictly_above_snoc a' p x). now exists y, r.
          -- left. exists (p ++ [x]). split; [apply above_refl|]. split; assumption.
        * right. intros a' [r Er] Ha. assert (level a' <= level (p ++ [x])) by (rewrite Er, (level_app a' r); pose proof (level_nonneg r); lia). lia. }
  destruct (Dec a []) as [S | Al]; [now rewrite app_nil_r | exact S | contradiction].
Qed.
Print Assumptions C70_criterion.

(** Without balance the mesh is determined: its patches are the first places, going down from minlevel,
    that the criterion does not want refined, or those at maxlevel. *)
Theorem C70_exact : forall D minlevel maxlevel (initialize : nat -> addr -> D) tagR tagC nb F b a d,
  0 <= minlevel <= maxlevel -> consistent initialize tagR tagC maxlevel ->
  initial_mesh minlevel maxlevel initialize tagR tagC (adapted maxlevel initialize (fun _ _ => False)) nb F ->
  (patch F b a d <->
   (b < nb)%nat /\ address a /\ minlevel <= level a <= maxlevel /\ d = initialize b a /\
   (forall a', strictly_above a' a -> minlevel <= level a' -> wanted initialize tagR b a') /\
   (level a = maxlevel \/ ~ wanted initialize tagR b a)).
Proof.
  intros D minlevel maxlevel initialize tagR tagC nb F b a d Hl Con M.
  destruct (start_good minlevel maxlevel initialize tagR tagC (fun _ _ => False) nb Hl) as (G & L & _ & On).
  assert (X : only_wanted minlevel initialize tagR F /\ length F = nb).
  { unfold initial_mesh in M. fold (start minlevel initialize nb) in M. destruct (Z.ltb_spec minlevel maxlevel).
    - split; [apply (build_only minlevel maxlevel initialize tagR tagC (fun _ _ => False) _ _ _ M); auto|].
      destruct (build_end_state minlevel maxlevel initialize tagR tagC _ _ _ _ M G L) as (_ & _ & N). rewrite N. unfold start. now rewrite map_length, seq_length.
    - subst F. split; [exact On|]. unfold start. now rewrite map_length, seq_length. }
  destruct X as [On' N].
  assert (Fwd : forall b a d, patch F b a d -> (b < nb)%nat /\ address a /\ minlevel <= level a <= maxlevel /\ d = initialize b a /\
    (forall a', strictly_above a' a -> minlevel <= level a' -> wanted initialize tagR b a') /\ (level a = maxlevel \/ ~ wanted initialize tagR b a)).
  { intros b0 a0 d0 P. destruct (C70_criterion D minlevel maxlevel initialize tagR tagC _ nb F b0 a0 d0 Hl Con M P) as (A & B & C & E & H).
    split; [exact A|]. split; [exact B|]. split; [exact C|]. split; [exact E|]. split; [exact (On' b0 a0 d0 P)|].
    destruct H as [H | (a' & [[|x r] Er] & Ha & NW)]; [now left | |].
    - right. rewrite app_nil_r in Er. now subst a'.
    - exfalso. apply NW. apply (On' b0 a0 d0 P); [now exists x, r | exact Ha]. }
  split; [apply Fwd|]. intros (Hb & Ha & Hlev & -> & W & Fin).
  destruct (nth_error F b) as [t|] eqn:E; [|apply nth_error_None in E; lia].
  destruct (tree_covers t a Ha) as [(q & dq & [[|x r] Eq] & Lq) | (q & dq & (x & r & Eq) & Lq)].
  - rewrite app_nil_r in Eq. subst q. assert (P : patch F b a dq) by now exists t. destruct (Fwd b a dq P) as (_ & _ & _ & -> & _). exact P.
  - exfalso. assert (P : patch F b q dq) by now exists t. destruct (Fwd b q dq P) as (_ & _ & Lv & _ & _ & [Z | NW]).
    + rewrite Eq, level_app in Hlev. assert (1 <= level (x :: r)) by (unfold level; cbn [length]; lia). lia.
    + apply NW. apply W; [now exists x, r | lia].
  - exfalso. assert (P : patch F b q dq) by now exists t. destruct (Fwd b q dq P) as (_ & _ & Lv & _ & Wq & _). destruct Fin as [Z | NW].
    + rewrite Eq, level_app in Lv. assert (1 <= level (x :: r)) by (unfold level; cbn [length]; lia). lia.
    + apply NW. apply Wq; [now exists x, r | lia].
Qed.
Print Assumptions C70_exact.

(** There is such a mesh: doing what is marked and no more is one of the admitted ways, and the loop ends. *)
Theorem C70_exists : forall D minlevel maxlevel (initialize : nat -> addr -> D) tagR tagC nb balance, 
  (forall x y : D, {x = y} + {x <> y}) ->
  exists F, initial_mesh minlevel maxlevel initialize tagR tagC (fun b a t t' => t' = plain initialize b a t) nb F /\
            initial_mesh minlevel maxlevel initialize tagR tagC (adapted maxlevel initialize balance) nb F.
Proof.
  intros D minlevel maxlevel initialize tagR tagC nb balance Deq.
  assert (Teq : forall x y : qt D, {x = y} + {x <> y}) by (decide equality).
  assert (Feq : forall x y : list (qt D), {x = y} + {x <> y}) by (apply list_eq_dec; exact Teq).
  set (R := fun b a t t' => t' = plain initialize b a t).
  assert (Next : forall F, exists F', adapt_with minlevel maxlevel tagR tagC R F F').
  { intro F. exists (map (fun b => match nth_error F b with Some t => plain initialize b [] (tag minlevel maxlevel tagR tagC b t) | None => Leaf (initialize b []) end) (seq 0 (length F))).
    split; [now rewrite map_length, seq_length|]. intros b t t' E E'. rewrite nth_error_map in E'.
    assert (Lt : (b < length F)%nat) by (apply nth_error_Some; congruence).
    destruct (nth_error (seq 0 (length F)) b) as [x|] eqn:Es; [|discriminate].
    assert (x = b) by (apply nth_error_nth with (d := O) in Es; rewrite seq_nth in Es by exact Lt; lia). subst x.
    cbn [option_map] in E'. rewrite E in E'. inversion E'. reflexivity. }
  assert (All : forall n F, exists F', build minlevel maxlevel tagR tagC R n F F').
  { induction n as [|n IH]; intro F; [exists F; apply build_end|]. destruct (Next F) as [F1 A]. destruct (Feq F1 F) as [-> | Ne].
    - exists F. now apply build_break.
    - destruct (IH F1) as [F2 B]. exists F2. eapply build_turn; eassumption. }
  unfold initial_mesh. destruct (minlevel <? maxlevel).
  - destruct (All (turns minlevel maxlevel) (map (fun b : nat => uniform initialize (Z.to_nat minlevel) b []) (seq 0 nb))) as [F B].
    exists F. split; [exact B|]. now apply plain_build.
  - eexists. split; reflexivity.
Qed.
Print Assumptions C70_exists.

(** The criterion of clawpatch is consistent: whatever the options, sizes and data, and whatever criterion
    the user plugs in, it coarsens nothing while the mesh is built. *)
Record cdata := mkC { c_q : Model_Grid.arr; c_xlower : Q; c_ylower : Q; c_dx : Q; c_dy : Q }.
Definition of4 {A} (x0 x1 x2 x3 : A) (k : Z) : A := if k =? 0 then x0 else if k =? 1 then x1 else if k =? 2 then x2 else x3.
Definition claw_tagR (d : Model_Grid.dims) (o : Model_Tag.topts) : nat -> addr -> cdata -> Z :=
  fun b _ p => match Model_Tag.tag4refinement d o (Z.of_nat b) 1 (c_q p) (c_xlower p) (c_ylower p) (c_dx p) (c_dy p) with Some x => x | None => 0 end.
Definition claw_tagC (d : Model_Grid.dims) (o : Model_Tag.topts) : nat -> addr -> cdata -> cdata -> cdata -> cdata -> Z :=
  fun b _ p0 p1 p2 p3 =>
    match Model_Tag.tag4coarsening d o (Z.of_nat b) 1 (of4 (c_q p0) (c_q p1) (c_q p2) (c_q p3))
            (of4 (c_xlower p0) (c_xlower p1) (c_xlower p2) (c_xlower p3)) (of4 (c_ylower p0) (c_ylower p1) (c_ylower p2) (c_ylower p3))
            (c_dx p3) (c_dy p3) with Some x => x | None => 0 end.
Theorem C70_clawpatch : forall d o initialize maxlevel, consistent initialize (claw_tagR d o) (claw_tagC d o) maxlevel.
Proof.
  intros d o initialize maxlevel b a _ _ C. unfold claw_tagC, Model_Tag.tag4coarsening in C.
  destruct (Model_Tag.Qgtb _ _) in C; unfold Model_Tag.fort_tag4coarsening in C; cbn in C; discriminate.
Qed.
Print Assumptions C70_clawpatch.

(** ** GeoClaw *)
(** the criteria of GeoClaw while the mesh is built *)
Definition geo_tagR (g : geodata) (maxlevel : Z) (t : Q) : nat -> addr -> tpatch -> Z :=
  fun _ _ p => match tag4refinement g maxlevel t p 1 with Some x => x | None => 0 end.
Definition geo_tagC (g : geodata) (maxlevel : Z) (t : Q) : nat -> addr -> tpatch -> tpatch -> tpatch -> tpatch -> Z :=
  fun _ _ p0 p1 p2 p3 => match tag4coarsening g maxlevel t p0 p1 p2 p3 1 with Some x => x | None => 0 end.

(** the patches of one block, 8 by 8 cells, water one unit above sea level everywhere *)
Definition place (a : addr) : Z * Z := fold_left (fun (xy : Z * Z) k => (2 * fst xy + k mod 2, 2 * snd xy + k / 2)) a (0, 0).
Definition high_water (b : nat) (a : addr) : tpatch :=
  ex_patch 1 0 (level a) (fst (place a)) (snd (place a)) (1 / inject_Z (2 ^ level a)).

(** The last turn of the loop undoes the last refinement: no region, a wave above the tolerance everywhere,
    levels 0 to 1 allowed, and the initial mesh is a single patch of level 0. *)
Theorem C70_geoclaw_refuted :
  ~ (forall g minlevel maxlevel t initialize nb F b a d, data_ok g -> 0 <= minlevel <= maxlevel ->
       initial_mesh minlevel maxlevel initialize (geo_tagR g maxlevel t) (geo_tagC g maxlevel t)
         (fun b a t t' => t' = plain initialize b a t) nb F ->
       patch F b a d ->
       level a = maxlevel \/ exists a', above a' a /\ minlevel <= level a' /\ ~ wanted initialize (geo_tagR g maxlevel t) b a').
Proof.
  intro H. specialize (H (ex_geo [] []) 0 1 0%Q high_water 1%nat [Leaf (high_water 0 [])] O [] (high_water 0 [])).
  destruct H as [H | (a' & [p Hp] & _ & W)].
  - apply ex_data; constructor.
  - lia.
  - unfold initial_mesh. cbn [Z.ltb Z.compare]. change (turns 0 1) with 2%nat.
    set (L := Leaf (high_water 0 [])). set (N := Node (Leaf (high_water 0 [0])) (Leaf (high_water 0 [1])) (Leaf (high_water 0 [2])) (Leaf (high_water 0 [3]))).
    change (map (fun b : nat => uniform high_water (Z.to_nat 0) b []) (seq 0 1)) with [L].
    eapply (build_turn _ _ _ _ _ 1 [L] [N]).
    + split; [reflexivity|]. intros [|b] t t' E E'; [|destruct b; discriminate]. inversion E; subst t. inversion E'; subst t'.
      assert (W : geo_tagR (ex_geo [] []) 1 0 0%nat [] (high_water 0 []) = 1) by (vm_compute; reflexivity).
      unfold L, tag, tag_families, tag_patches. rewrite W. reflexivity.
    + discriminate.
    + eapply (build_turn _ _ _ _ _ 0 [N] [L]).
      * split; [reflexivity|]. intros [|b] t t' E E'; [|destruct b; discriminate]. inversion E; subst t. inversion E'; subst t'.
        assert (W : geo_tagC (ex_geo [] []) 1 0 0%nat [] (high_water 0 [0]) (high_water 0 [1]) (high_water 0 [2]) (high_water 0 [3]) = 1) by (vm_compute; reflexivity).
        unfold N, tag, tag_families. rewrite W. reflexivity.
      * discriminate.
      * apply build_end.
  - exists (Leaf (high_water 0 [])). split; reflexivity.
  - discriminate H.
  - destruct a'; [|discriminate]. apply W. vm_compute. reflexivity.
Qed.
Print Assumptions C70_geoclaw_refuted.

(** ** Concrete case: refine the lower left corner of each patch that contains it *)
Definition ex_init (b : nat) (a : addr) : Z := level a.
Definition ex_tagR (b : nat) (a : addr) (d : Z) : Z := if forallb (Z.eqb 0) a then 1 else 0.
Definition ex_tagC (b : nat) (a : addr) (d0 d1 d2 d3 : Z) : Z := if forallb (Z.eqb 0) a then 0 else 1.
Example C70_instance_consistent : consistent ex_init ex_tagR ex_tagC 3.
Proof. intros b a _ W C. unfold wanted, ex_tagR, ex_tagC in *. destruct (forallb _ a); discriminate. Qed.
Definition corner3 : qt Z :=
  Node (Node (Node (Leaf 3) (Leaf 3) (Leaf 3) (Leaf 3)) (Leaf 2) (Leaf 2) (Leaf 2)) (Leaf 1) (Leaf 1) (Leaf 1).
Example C70_instance : initial_mesh 1 3 ex_init ex_tagR ex_tagC (fun b a t t' => t' = plain ex_init b a t) 1 [corner3].
Proof.
  unfold initial_mesh. cbn [Z.ltb Z.compare Pos.compare Pos.compare_cont]. change (turns 1 3) with 3%nat.
  eapply build_turn with (F' := [Node (Node (Leaf 2) (Leaf 2) (Leaf 2) (Leaf 2)) (Leaf 1) (Leaf 1) (Leaf 1)]).
  - split; [reflexivity|]. intros [|[|b]] t t' E E'; try discriminate. inversion E. inversion E'. reflexivity.
  - discriminate.
  - eapply build_turn with (F' := [corner3]).
    + split; [reflexivity|]. intros [|[|b]] t t' E E'; try discriminate. inversion E. inversion E'. reflexivity.
    + discriminate.
    + apply build_break. split; [reflexivity|]. intros [|[|b]] t t' E E'; try discriminate. inversion E. inversion E'. reflexivity.
Qed.
