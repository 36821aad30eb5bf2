(** The initial mesh: lemmas. *)
From Coq Require Import ZArith List Bool Lia.
From Verif Require Import Model_Init Spec_Init.
Import ListNotations.
Open Scope Z_scope.

Lemma level_app : forall a p, level (a ++ p) = level a + level p.
Proof. intros. unfold level. rewrite app_length, Nat2Z.inj_add. reflexivity. Qed.
Lemma level_child : forall a k, level (child a k) = level a + 1.
Proof. intros. unfold child. rewrite level_app. reflexivity. Qed.
Lemma child_app : forall a k p, child a k ++ p = a ++ k :: p.
Proof. intros. unfold child. rewrite <- app_assoc. reflexivity. Qed.
Lemma level_nonneg : forall a, 0 <= level a.
Proof. intros. unfold level. lia. Qed.

Lemma leaf_node : forall {D} (t0 t1 t2 t3 : qt D) k p,
  leaf_at (Node t0 t1 t2 t3) (k :: p) = if k =? 0 then leaf_at t0 p else if k =? 1 then leaf_at t1 p else if k =? 2 then leaf_at t2 p else if k =? 3 then leaf_at t3 p else None.
Proof. intros. cbn [leaf_at]. unfold pick. destruct (k =? 0), (k =? 1), (k =? 2), (k =? 3); reflexivity. Qed.
Lemma leaf_node_inv : forall {D} (t0 t1 t2 t3 : qt D) p d, leaf_at (Node t0 t1 t2 t3) p = Some d ->
  exists k p', p = k :: p' /\ ((k = 0 /\ leaf_at t0 p' = Some d) \/ (k = 1 /\ leaf_at t1 p' = Some d) \/ (k = 2 /\ leaf_at t2 p' = Some d) \/ (k = 3 /\ leaf_at t3 p' = Some d)).
Proof.
  intros D t0 t1 t2 t3 [|k p] d H; [discriminate|]. rewrite leaf_node in H. exists k, p. split; [reflexivity|].
  destruct (Z.eqb_spec k 0); [tauto|]. destruct (Z.eqb_spec k 1); [tauto|]. destruct (Z.eqb_spec k 2); [tauto|]. destruct (Z.eqb_spec k 3); [tauto | discriminate].
Qed.
Lemma leaf_leaf : forall {D} (d d' : D) p, leaf_at (Leaf d) p = Some d' -> p = [] /\ d' = d.
Proof. intros D d d' [|k p] H; [inversion H; tauto | discriminate]. Qed.
Lemma leaf_address : forall {D} (t : qt D) p d, leaf_at t p = Some d -> address p.
Proof.
  induction t as [d0 | t0 I0 t1 I1 t2 I2 t3 I3]; intros p d H.
  - apply leaf_leaf in H. destruct H as [-> _]. constructor.
  - apply leaf_node_inv in H. destruct H as (k & p' & -> & [[-> H] | [[-> H] | [[-> H] | [-> H]]]]); unfold address in *; constructor; try lia; eauto.
Qed.

Section Init.
Context {D : Type}.
Variable minlevel maxlevel : Z.
Variable initialize : nat -> addr -> D.
Variable tagR : nat -> addr -> D -> Z.
Variable tagC : nat -> addr -> D -> D -> D -> D -> Z.
Variable balance : nat -> addr -> Prop.
Notation adapted := (adapted maxlevel initialize balance).
Notation tag_families := (tag_families minlevel tagC).
Notation tag_patches := (tag_patches maxlevel tagR).

Definition fin (b : nat) (a : addr) (d : D) (m : mark) : mark := if level a <? maxlevel then if tagR b a d =? 1 then Refine else m else m.

(** where the patches of the new mesh come from *)
Inductive origin (b : nat) (a : addr) (t : qt D) (p : addr) (d : D) : Prop :=
| o_keep : leaf_at t p = Some d -> ~ (level (a ++ p) < maxlevel /\ tagR b (a ++ p) d = 1) -> origin b a t p d
| o_split : forall q k d0, p = q ++ [k] -> leaf_at t q = Some d0 -> d = initialize b (a ++ p) ->
    level (a ++ q) < maxlevel -> (tagR b (a ++ q) d0 = 1 \/ balance b (a ++ q)) -> origin b a t p d
| o_merge : forall d0 d1 d2 d3, leaf_at t (p ++ [0]) = Some d0 -> leaf_at t (p ++ [1]) = Some d1 -> leaf_at t (p ++ [2]) = Some d2 -> leaf_at t (p ++ [3]) = Some d3 ->
    d = initialize b (a ++ p) -> tagC b (a ++ p) d0 d1 d2 d3 = 1 -> minlevel < level (a ++ p) + 1 -> origin b a t p d.

Lemma origin_node : forall b a (t0 t1 t2 t3 : qt D) p d k,
  0 <= k <= 3 -> origin b (child a k) (if k =? 0 then t0 else if k =? 1 then t1 else if k =? 2 then t2 else t3) p d ->
  origin b a (Node t0 t1 t2 t3) (k :: p) d.
Proof.
  intros b a t0 t1 t2 t3 p d k Hk O.
  assert (L : forall q e, leaf_at (if k =? 0 then t0 else if k =? 1 then t1 else if k =? 2 then t2 else t3) q = Some e -> leaf_at (Node t0 t1 t2 t3) (k :: q) = Some e).
  { intros q e H. rewrite leaf_node. destruct (Z.eqb_spec k 0); [exact H|]. destruct (Z.eqb_spec k 1); [exact H|]. destruct (Z.eqb_spec k 2); [exact H|].
    destruct (Z.eqb_spec k 3); [exact H | lia]. }
  destruct O as [A B | q j d0 A B C E G | d0 d1 d2 d3 A0 A1 A2 A3 B C E].
  - apply o_keep; [now apply L|]. rewrite child_app in B. exact B.
  - rewrite child_app in C, E, G. subst p. apply (o_split b a _ _ _ (k :: q) j d0); try assumption; [reflexivity | now apply L].
  - rewrite child_app in B, C, E. apply (o_merge b a _ _ _ d0 d1 d2 d3); try assumption; now apply (L (p ++ [_])).
Qed.

Lemma adapted_leaf : forall b a d m t' p d', m <> Refine -> adapted b a (Leaf (d, fin b a d m)) t' -> leaf_at t' p = Some d' ->
  origin b a (Leaf d) p d'.
Proof.
  intros b a d m t' p d' Hm H L. inversion H; subst.
  - apply leaf_leaf in L. destruct L as [-> ->]. apply o_keep; [reflexivity|]. rewrite app_nil_r. intros [A B].
    unfold fin in *. apply Z.ltb_lt in A. apply Z.eqb_eq in B. rewrite A, B in *. congruence.
  - apply leaf_node_inv in L. destruct L as (k & p' & -> & L).
    assert (X : p' = [] /\ d' = initialize b (child a k)).
    { destruct L as [[-> L] | [[-> L] | [[-> L] | [-> L]]]]; apply leaf_leaf in L; tauto. }
    match goal with X : _ = Refine \/ _ |- _ => rename X into Hw end.
    destruct X as [-> ->]. apply (o_split b a _ _ _ [] k d); try reflexivity; rewrite app_nil_r.
    + destruct Hw as [M | M]; [|tauto]. unfold fin in M. destruct (Z.ltb_spec (level a) maxlevel); [assumption | congruence].
    + destruct Hw as [M | M]; [left | tauto]. unfold fin in M. destruct (level a <? maxlevel); [|congruence].
      destruct (Z.eqb_spec (tagR b a d) 1); [assumption | congruence].
Qed.

Lemma tf_node : forall b a (t0 t1 t2 t3 : qt D),
  (exists d0 d1 d2 d3, t0 = Leaf d0 /\ t1 = Leaf d1 /\ t2 = Leaf d2 /\ t3 = Leaf d3) \/
  tag_families b a (Node t0 t1 t2 t3) = Node (tag_families b (child a 0) t0) (tag_families b (child a 1) t1) (tag_families b (child a 2) t2) (tag_families b (child a 3) t3).
Proof.
  intros b a t0 t1 t2 t3. destruct t0; [|right; reflexivity]. destruct t1; [|right; reflexivity]. destruct t2; [|right; reflexivity].
  destruct t3; [|right; reflexivity]. left. now exists d, d0, d1, d2.
Qed.
Definition fam_mark (b : nat) (a : addr) (d0 d1 d2 d3 : D) : mark :=
  if minlevel <? level (child a 0) then if tagC b a d0 d1 d2 d3 =? 1 then Coarsen else NoMark else NoMark.

Lemma not_coarsen : forall b a t (d : D), Leaf (d, Coarsen) = tag_patches b a (tag_families b a t) -> False.
Proof.
  intros b a [x | t0 t1 t2 t3] d.
  - cbn. destruct (_ <? _); [destruct (_ =? _)|]; discriminate.
  - destruct (tf_node b a t0 t1 t2 t3) as [(d0 & d1 & d2 & d3 & -> & -> & -> & ->) | E]; [discriminate|]. rewrite E. discriminate.
Qed.
Lemma adapted_origin : forall b t a t' p d, adapted b a (tag_patches b a (tag_families b a t)) t' -> leaf_at t' p = Some d -> origin b a t p d.
Proof.
  intros b t. induction t as [d0 | t0 I0 t1 I1 t2 I2 t3 I3]; intros a t' p d H L.
  - cbn [Model_Init.tag_families Model_Init.tag_patches] in H. fold (fin b a d0 NoMark) in H. eapply adapted_leaf; [|exact H|exact L]. discriminate.
  - destruct (tf_node b a t0 t1 t2 t3) as [(d0 & d1 & d2 & d3 & -> & -> & -> & ->) | E].
    + cbn [Model_Init.tag_families] in H. fold (fam_mark b a d0 d1 d2 d3) in H. set (m := fam_mark b a d0 d1 d2 d3) in *.
      cbn [Model_Init.tag_patches] in H.
      change (adapted b a (Node (Leaf (d0, fin b (child a 0) d0 m)) (Leaf (d1, fin b (child a 1) d1 m)) (Leaf (d2, fin b (child a 2) d2 m)) (Leaf (d3, fin b (child a 3) d3 m))) t') in H.
      assert (Hm : m <> Refine) by (unfold m, fam_mark; destruct (_ <? _); [destruct (_ =? _)|]; discriminate).
      inversion H; subst.
      * apply leaf_leaf in L. destruct L as [-> ->].
        assert (M : m = Coarsen).
        { match goal with X : Coarsen = fin b (child a 0) d0 m |- _ => unfold fin in X; destruct (_ <? _) in X; [destruct (_ =? _) in X; [discriminate|]|]; now symmetry
          | X : fin b (child a 0) d0 m = Coarsen |- _ => unfold fin in X; destruct (_ <? _) in X; [destruct (_ =? _) in X; [discriminate|]|]; exact X end. }
        unfold m, fam_mark in M. rewrite level_child in M. destruct (Z.ltb_spec minlevel (level a + 1)); [|discriminate].
        destruct (Z.eqb_spec (tagC b a d0 d1 d2 d3) 1); [|discriminate].
        apply (o_merge b a _ _ _ d0 d1 d2 d3); try reflexivity; rewrite app_nil_r; first [assumption | reflexivity].
      * apply leaf_node_inv in L. destruct L as (k & p' & -> & [[-> L] | [[-> L] | [[-> L] | [-> L]]]]); (apply origin_node; [lia|]); cbn [Z.eqb Pos.eqb];
          (eapply adapted_leaf; [exact Hm | eassumption | exact L]).
    + rewrite E in H. cbn [Model_Init.tag_patches] in H. inversion H; subst.
      * exfalso. match goal with X : Leaf (_, Coarsen) = tag_patches b (child a 0) _ |- _ => revert X | X : tag_patches b (child a 0) _ = Leaf (_, Coarsen) |- _ => symmetry in X; revert X end.
        apply not_coarsen.
      * apply leaf_node_inv in L. destruct L as (k & p' & -> & [[-> L] | [[-> L] | [[-> L] | [-> L]]]]); (apply origin_node; [lia|]); cbn [Z.eqb Pos.eqb]; eauto.
Qed.


(** ** One turn *)
Notation adapt := (adapt_with minlevel maxlevel tagR tagC adapted).
Lemma adapt_origin : forall F F' b a d, adapt F F' -> patch F' b a d -> exists t, nth_error F b = Some t /\ origin b [] t a d.
Proof.
  intros F F' b a d [Len H] (t' & N & L).
  destruct (nth_error F b) as [t|] eqn:E.
  - exists t. split; [reflexivity|]. eapply adapted_origin; [|exact L]. exact (H b t t' E N).
  - apply nth_error_None in E. assert (nth_error F' b <> None) by congruence. apply nth_error_Some in H0. lia.
Qed.

Definition good_data (F : list (qt D)) : Prop := forall b a d, patch F b a d -> d = initialize b a.
Definition levels (F : list (qt D)) : Prop := forall b a d, patch F b a d -> minlevel <= level a <= maxlevel.
Notation wanted := (wanted initialize tagR).
Definition all_wanted (b : nat) (a : addr) : Prop := forall a', above a' a -> minlevel <= level a' -> wanted b a'.
Definition progress (n : Z) (F : list (qt D)) : Prop :=
  forall b a d, patch F b a d -> all_wanted b a -> Z.min maxlevel (minlevel + n) <= level a.
Definition only_wanted (F : list (qt D)) : Prop :=
  forall b a d, patch F b a d -> forall a', strictly_above a' a -> minlevel <= level a' -> wanted b a'.

Lemma above_refl : forall a, above a a.
Proof. intro a. exists []. now rewrite app_nil_r. Qed.
Lemma above_snoc : forall a' a k, above a' a -> above a' (a ++ [k]).
Proof. intros a' a k [p ->]. exists (p ++ [k]). now rewrite app_assoc. Qed.
Lemma strictly_above_snoc : forall a' a k, strictly_above a' (a ++ [k]) <-> above a' a.
Proof.
  intros a' a k. split.
  - intros (j & p & E). destruct (exists_last (l := j :: p)) as (q & x & Eq); [discriminate|]. rewrite Eq, app_assoc in E.
    apply app_inj_tail in E. destruct E as [-> _]. now exists q.
  - intros [p ->]. destruct (p ++ [k]) as [|j r] eqn:E; [destruct p; discriminate|]. exists j, r. now rewrite <- app_assoc, E.
Qed.
Lemma strictly_above_above : forall a' a, strictly_above a' a -> above a' a.
Proof. intros a' a (k & p & ->). now exists (k :: p). Qed.

Lemma turn_data : forall F F', good_data F -> adapt F F' -> good_data F'.
Proof.
  intros F F' G A b a d P. destruct (adapt_origin F F' b a d A P) as (t & N & O). destruct O as [L _ | q k d0 E L Ed _ _ | d0 d1 d2 d3 _ _ _ _ Ed _ _]; [|exact Ed|exact Ed].
  apply (G b a d). now exists t.
Qed.
Lemma turn_levels : forall F F', levels F -> adapt F F' -> levels F'.
Proof.
  intros F F' G A b a d P. destruct (adapt_origin F F' b a d A P) as (t & N & O). destruct O as [L _ | q k d0 E L Ed Hl _ | d0 d1 d2 d3 L _ _ _ Ed _ Hl].
  - apply (G b a d). now exists t.
  - assert (X : minlevel <= level q <= maxlevel) by (apply (G b q d0); now exists t). cbn [app] in *. subst a. rewrite level_app.
    change (level [k]) with 1. lia.
  - assert (X : minlevel <= level (a ++ [0]) <= maxlevel) by (apply (G b (a ++ [0]) d0); now exists t). cbn [app] in Hl. rewrite level_app in X.
    change (level [0]) with 1 in X. lia.
Qed.
Lemma turn_progress : forall n F F', consistent initialize tagR tagC maxlevel -> good_data F -> levels F -> progress n F -> adapt F F' -> progress (n + 1) F'.
Proof.
  intros n F F' Con G Lv Pr A b a d P W. destruct (adapt_origin F F' b a d A P) as (t & N & O). destruct O as [L NW | q k d0 E L Ed Hl _ | d0 d1 d2 d3 L0 L1 L2 L3 Ed Ct Hl]; cbn [app] in *.
  - assert (Pa : patch F b a d) by now exists t. rewrite (G b a d Pa) in NW. specialize (Lv b a d Pa).
    destruct (Z.lt_ge_cases (level a) maxlevel) as [B | B]; [|lia]. exfalso. apply NW. split; [exact B|]. apply W; [apply above_refl | lia].
  - assert (Pq : patch F b q d0) by now exists t. subst a. rewrite level_app. change (level [k]) with 1.
    assert (W' : all_wanted b q) by (intros a' H Ha; apply W; [now apply above_snoc | exact Ha]). specialize (Pr b q d0 Pq W'). lia.
  - assert (X : forall k dk, leaf_at t (a ++ [k]) = Some dk -> dk = initialize b (child a k)).
    { intros k dk L. apply (G b (a ++ [k]) dk). now exists t. }
    rewrite (X 0 d0 L0), (X 1 d1 L1), (X 2 d2 L2), (X 3 d3 L3) in Ct.
    destruct (Z.lt_ge_cases (level a) maxlevel) as [B | B]; [|lia]. exfalso. apply (Con b a B); [|exact Ct]. apply W; [apply above_refl | lia].
Qed.
Lemma turn_only : forall F F', (forall b a, ~ balance b a) -> good_data F -> levels F -> only_wanted F -> adapt F F' -> only_wanted F'.
Proof.
  intros F F' NB G Lv On A b a d P a' S Ha. destruct (adapt_origin F F' b a d A P) as (t & N & O). destruct O as [L NW | q k d0 E L Ed Hl Why | d0 d1 d2 d3 L0 L1 L2 L3 Ed Ct Hl]; cbn [app] in *.
  - apply (On b a d); try assumption. now exists t.
  - assert (Pq : patch F b q d0) by now exists t. subst a. apply strictly_above_snoc in S. destruct S as [[|x p] Eq].
    + rewrite app_nil_r in Eq. subst a'. destruct Why as [Why | Why]; [|exfalso; exact (NB b q Why)]. rewrite (G b q d0 Pq) in Why. exact Why.
    + apply (On b q d0 Pq); [|exact Ha]. now exists x, p.
  - apply (On b (a ++ [0]) d0); [now exists t | | exact Ha]. apply strictly_above_snoc. now apply strictly_above_above.
Qed.
(** no change: nothing was marked for refinement *)
Lemma no_change : forall F, good_data F -> adapt F F -> forall b a d, patch F b a d -> level a < maxlevel -> ~ wanted b a.
Proof.
  intros F G A b a d P Hl W. destruct (adapt_origin F F b a d A P) as (t & N & O). destruct P as (t' & N' & L').
  rewrite N in N'. inversion N'; subst t'. clear N'.
  assert (Uniq : forall (t : qt D) p k x y, leaf_at t p = Some x -> leaf_at t (p ++ [k]) = Some y -> False).
  { clear. induction t as [d | t0 I0 t1 I1 t2 I2 t3 I3]; intros p k x y H1 H2.
    - apply leaf_leaf in H2. destruct H2 as [E _]. now destruct p.
    - apply leaf_node_inv in H1. destruct H1 as (j & p' & -> & H1). cbn [app] in H2. rewrite leaf_node in H2.
      destruct H1 as [[-> H] | [[-> H] | [[-> H] | [-> H]]]]; cbn [Z.eqb Pos.eqb] in H2; eauto. }
  destruct O as [L NW | q k d0 E L Ed _ Why | d0 d1 d2 d3 L0 L1 L2 L3 Ed Ct Hm]; cbn [app] in *.
  - apply NW. split; [exact Hl|]. rewrite (G b a d); [exact W | now exists t].
  - subst a. exact (Uniq t q k d0 d L L').
  - exact (Uniq t a 0 d d0 L' L0).
Qed.

(** ** The loop *)
Lemma uniform_leaf : forall n b a p d, leaf_at (uniform initialize n b a) p = Some d -> level p = Z.of_nat n /\ d = initialize b (a ++ p).
Proof.
  induction n as [|n IH]; intros b a p d H; cbn [uniform] in H.
  - apply leaf_leaf in H. destruct H as [-> ->]. rewrite app_nil_r. split; reflexivity.
  - apply leaf_node_inv in H. destruct H as (k & p' & -> & [[-> H] | [[-> H] | [[-> H] | [-> H]]]]); apply IH in H; rewrite child_app in H; destruct H as [H1 H2];
      (split; [unfold level in *; cbn [length]; lia | exact H2]).
Qed.
Definition start (nb : nat) : list (qt D) := map (fun b => uniform initialize (Z.to_nat minlevel) b []) (seq 0 nb).
Lemma start_patch : forall nb b a d, 0 <= minlevel -> patch (start nb) b a d -> level a = minlevel /\ d = initialize b a.
Proof.
  intros nb b a d H0 (t & N & L). unfold start in N. rewrite nth_error_map in N.
  destruct (nth_error (seq 0 nb) b) as [x|] eqn:E; [|discriminate]. cbn [option_map] in N. inversion N; subst t. clear N.
  assert (Lt : (b < nb)%nat) by (rewrite <- (seq_length nb 0); apply nth_error_Some; congruence).
  assert (x = b) by (apply nth_error_nth with (d := O) in E; rewrite seq_nth in E by exact Lt; lia). subst x.
  apply uniform_leaf in L. cbn [app] in L. destruct L as [L1 L2]. split; [lia | exact L2].
Qed.
Lemma start_good : forall nb, 0 <= minlevel <= maxlevel -> good_data (start nb) /\ levels (start nb) /\ progress 0 (start nb) /\ only_wanted (start nb).
Proof.
  intros nb H. repeat split.
  - intros b a d P. apply (start_patch nb b a d) in P; [tauto | lia].
  - apply (start_patch nb b a d) in H0; lia.
  - apply (start_patch nb b a d) in H0; lia.
  - intros b a d P W. apply (start_patch nb b a d) in P; [|lia]. lia.
  - intros b a d P a' (k & p & E) Ha. apply (start_patch nb b a d) in P; [|lia]. subst a. rewrite level_app in P. unfold level in P at 2. cbn [length] in P. lia.
Qed.
Notation build := (build minlevel maxlevel tagR tagC adapted).
(** what holds at the end: patches whose whole chain is wanted are at maxlevel *)
Lemma build_end_state : forall n F F', build n F F' -> good_data F -> levels F ->
  good_data F' /\ levels F' /\ length F' = length F.
Proof.
  intros n F F' H. induction H as [F | n F A | n F F' F'' A Ne B IH]; intros G L.
  - split; [exact G|]. split; [exact L | reflexivity].
  - split; [exact G|]. split; [exact L | reflexivity].
  - destruct (IH (turn_data F F' G A) (turn_levels F F' L A)) as (X & Y & Z). split; [exact X|]. split; [exact Y|]. rewrite Z. apply A.
Qed.
Lemma build_progress : forall n F F', build n F F' -> consistent initialize tagR tagC maxlevel -> good_data F -> levels F ->
  forall m, progress m F -> maxlevel - minlevel <= m + Z.of_nat n -> progress (maxlevel - minlevel) F'.
Proof.
  intros n F F' H Con. induction H as [F | n F A | n F F' F'' A Ne B IH]; intros G L m P Hm.
  - intros b a d Pa W. specialize (P b a d Pa W). cbn in Hm. lia.
  - intros b a d Pa W. specialize (L b a d Pa). destruct (Z.lt_ge_cases (level a) maxlevel) as [Hl | Hl]; [|lia]. exfalso.
    apply (no_change F G A b a d Pa Hl). apply W; [apply above_refl | lia].
  - apply (IH (turn_data F F' G A) (turn_levels F F' L A) (m + 1)); [now apply (turn_progress m F F') | lia].
Qed.
Lemma build_only : forall n F F', build n F F' -> (forall b a, ~ balance b a) -> good_data F -> levels F -> only_wanted F -> only_wanted F'.
Proof.
  intros n F F' H NB. induction H as [F | n F A | n F F' F'' A Ne B IH]; intros G L O; try assumption.
  apply IH; [exact (turn_data F F' G A) | exact (turn_levels F F' L A) | now apply (turn_only F F')].
Qed.

(** every address has a patch on its way or below it *)
Lemma tree_covers : forall (t : qt D) p, address p -> (exists q d, above q p /\ leaf_at t q = Some d) \/ (exists q d, strictly_above p q /\ leaf_at t q = Some d).
Proof.
  induction t as [d | t0 I0 t1 I1 t2 I2 t3 I3]; intros p Hp.
  - left. exists [], d. split; [now exists p | reflexivity].
  - assert (First : forall (t : qt D), exists q d, leaf_at t q = Some d).
    { clear. induction t as [d | t0 (q & d & H) t1 _ t2 _ t3 _]; [now exists [], d|]. exists (0 :: q), d. now rewrite leaf_node. }
    destruct p as [|k p].
    + right. destruct (First t0) as (q & d & H). exists (0 :: q), d. split; [now exists 0, q | now rewrite leaf_node].
    + inversion Hp as [|? ? Hk Hp']; subst.
      assert (X : forall t, (forall q d, leaf_at t q = Some d -> leaf_at (Node t0 t1 t2 t3) (k :: q) = Some d) ->
        (exists q d, above q p /\ leaf_at t q = Some d) \/ (exists q d, strictly_above p q /\ leaf_at t q = Some d) ->
        (exists q d, above q (k :: p) /\ leaf_at (Node t0 t1 t2 t3) q = Some d) \/ (exists q d, strictly_above (k :: p) q /\ leaf_at (Node t0 t1 t2 t3) q = Some d)).
      { intros t Ht [(q & d & [r ->] & L) | (q & d & (j & r & ->) & L)].
        - left. exists (k :: q), d. split; [now exists r | now apply Ht].
        - right. exists (k :: p ++ j :: r), d. split; [now exists j, r | now apply Ht]. }
      assert (K : k = 0 \/ k = 1 \/ k = 2 \/ k = 3) by lia.
      destruct K as [-> | [-> | [-> | ->]]]; [apply (X t0) | apply (X t1) | apply (X t2) | apply (X t3)]; try (intros q d L; now rewrite leaf_node); auto.
Qed.
End Init.

(** ** Doing exactly what is marked *)
Section Plain.
Context {D : Type}.
Variable minlevel maxlevel : Z.
Variable initialize : nat -> addr -> D.
Variable tagR : nat -> addr -> D -> Z.
Variable tagC : nat -> addr -> D -> D -> D -> D -> Z.
Variable balance : nat -> addr -> Prop.
Notation R := (fun b a t t' => t' = plain initialize b a t).
Lemma plain_node : forall b a t0 t1 t2 t3, (exists d0 d1 d2 d3, t0 = Leaf (d0, Coarsen) /\ t1 = Leaf (d1, Coarsen) /\ t2 = Leaf (d2, Coarsen) /\ t3 = Leaf (d3, Coarsen)) \/
  plain initialize b a (Node t0 t1 t2 t3) = Node (plain initialize b (child a 0) t0) (plain initialize b (child a 1) t1) (plain initialize b (child a 2) t2) (plain initialize b (child a 3) t3).
Proof.
  intros b a t0 t1 t2 t3. destruct t0 as [[d0 []]|]; try (right; reflexivity). destruct t1 as [[d1 []]|]; try (right; reflexivity).
  destruct t2 as [[d2 []]|]; try (right; reflexivity). destruct t3 as [[d3 []]|]; try (right; reflexivity). left. now exists d0, d1, d2, d3.
Qed.
Lemma plain_adapted : forall b t a, adapted maxlevel initialize balance b a t (plain initialize b a t).
Proof.
  intros b t. induction t as [[d m] | t0 I0 t1 I1 t2 I2 t3 I3]; intro a.
  - destruct m; cbn [plain]; [apply ad_keep; discriminate | apply ad_split; now left | apply ad_keep; discriminate].
  - destruct (plain_node b a t0 t1 t2 t3) as [(d0 & d1 & d2 & d3 & -> & -> & -> & ->) | E]; [apply ad_merge|]. rewrite E. apply ad_node; auto.
Qed.
Lemma plain_build : forall n F F', build minlevel maxlevel tagR tagC R n F F' -> build minlevel maxlevel tagR tagC (adapted maxlevel initialize balance) n F F'.
Proof.
  assert (X : forall F F', adapt_with minlevel maxlevel tagR tagC R F F' -> adapt_with minlevel maxlevel tagR tagC (adapted maxlevel initialize balance) F F').
  { intros F F' [L H]. split; [exact L|]. intros b t t' A B. rewrite (H b t t' A B). apply plain_adapted. }
  intros n F F' H. induction H as [F | n F A | n F F' F'' A Ne B IH]; [apply build_end | apply build_break; auto | eapply build_turn; eauto].
Qed.
End Plain.
