(** C63: extruded patches; tagging and diagnostics. *)
From Coq Require Import ZArith QArith Qminmax Qabs Lqa List Lia Bool.
From Verif Require Import Base_Float Model_Face Model_Grid Spec_Grid Model_Tag Model_Extruded Model_ExtrudedTag Spec_Extruded
  Spec_ExtrudedTag Proof_Tag Proof_Sync Proof_Diag Proof_Grid Proof_ExtrudedTag.
Import ListNotations.
Open Scope Z_scope.

(** ** Tagging *)

(** With a nonnegative threshold, a patch is tagged for refinement if and only if the cells of its array, ghost cells on
    all six sides included, meet the criterion. *)
Theorem C63_refine_iff : forall d crit tv dx dy dz th q f, usual3 d -> good_options d crit tv dx dy dz -> (0 <= th)%Q ->
  all_set3 d q f ->
  exists tag, tag4refinement3 d crit tv dx dy dz th q = Some tag /\ (tag = 0 \/ tag = 1) /\
    (tag = 1 <-> meets d crit tv th dx dy dz (fun _ => f) (fun c => in_array3 d c /\ fst (fst (fst c)) = 0)).
Proof.
  intros d crit tv dx dy dz th q f Hd Ho Ht Hq. unfold tag4refinement3.
  replace (Qgtb 0 th) with false by (symmetry; apply Qgtb_false; exact Ht).
  exact (refine3_ok d Hd crit tv dx dy dz th Ht Ho (fun _ => f) q Hq).
Qed.
Print Assumptions C63_refine_iff.

(** With a positive threshold, four siblings are tagged for coarsening, except when the mesh is initialised, if and only
    if their cells in layers 1 to mz, ghost cells on the four lateral sides included, do not meet the criterion. *)
Theorem C63_coarsen_iff : forall d crit tv dx dy dz th init q f, usual3 d -> good_options d crit tv dx dy dz -> (0 < th)%Q ->
  (forall g, 0 <= g < 4 -> all_set3 d (q g) (f g)) ->
  exists tag, tag4coarsening3 d crit tv dx dy dz th init q = Some tag /\ (tag = 0 \/ tag = 1) /\
    (tag = 1 <-> init = 0 /\ ~ meets d crit tv th dx dy dz f (fun c => in_array3 d c /\
       let '(g, _, _, k) := c in 0 <= g < 4 /\ 1 <= k <= mz d)).
Proof.
  intros d crit tv dx dy dz th init q f Hd Ho Ht Hq. unfold tag4coarsening3.
  rewrite (proj2 (Qgtb_iff th 0) Ht). destruct (Z.eq_dec init 0) as [->|N].
  - destruct (coarsen3_ok d Hd crit tv dx dy dz th ltac:(lra) Ho f q Hq) as (tag & E & H01 & Hi). rewrite E. cbn [bind].
    exists tag. split; [destruct H01 as [-> | ->]; reflexivity|]. split; [exact H01|]. rewrite Hi.
    assert (U : meets d crit tv th dx dy dz f (fun c => exists g, 0 <= g < 4 /\ looked d g c) <->
                meets d crit tv th dx dy dz f (fun c => in_array3 d c /\ let '(g, _, _, k) := c in 0 <= g < 4 /\ 1 <= k <= mz d)).
    { assert (V : forall c : fcell, (exists g, 0 <= g < 4 /\ looked d g c) <-> (in_array3 d c /\ let '(g, _, _, k) := c in 0 <= g < 4 /\ 1 <= k <= mz d)).
      { intros [[[g' i] j] k]. unfold looked. split.
        - intros (g & A & B & -> & C). split; [exact B|now split].
        - intros (A & B & C). exists g'. split; [exact B|]. split; [exact A|]. now split. }
      unfold meets. destruct Ho as (Hc & _). assert (EE : crit = 0 \/ crit = 1 \/ crit = 2 \/ crit = 3) by lia.
      destruct EE as [K|[K|[K|K]]]; rewrite K; split.
      all: try (intros (c & A & B); exists c; split; [now apply V|exact B]).
      all: intros (c & c' & A & A' & B); exists c, c'; split; [now apply V|]; split; [now apply V|exact B]. }
    rewrite U. tauto.
  - exists 0. unfold fort_tag4coarsening3. destruct (Z.eqb_spec init 0) as [E|_]; [contradiction|]. cbn [negb bind].
    split; [reflexivity|]. split; [now left|]. split; [discriminate|]. intros (E & _). contradiction.
Qed.
Print Assumptions C63_coarsen_iff.

(** With the criteria that look at differences or gradients and coarsen_threshold <= refine_threshold, no family tagged
    for coarsening contains a patch tagged for refinement. *)
Theorem C63_no_conflict : forall d crit tv dx dy dz cth rth init q f, usual3 d -> good_options d crit tv dx dy dz ->
  crit = 1 \/ crit = 3 -> (0 < cth)%Q -> (cth <= rth)%Q -> (forall g, 0 <= g < 4 -> all_set3 d (q g) (f g)) ->
  tag4coarsening3 d crit tv dx dy dz cth init q = Some 1 ->
  forall g, 0 <= g < 4 -> tag4refinement3 d crit tv dx dy dz rth (q g) = Some 0.
Proof.
  intros d crit tv dx dy dz cth rth init q f Hd Ho Hk Hc Hcr Hq Ht g Hg.
  destruct (C63_coarsen_iff d crit tv dx dy dz cth init q f Hd Ho Hc Hq) as (tag & E & _ & H). rewrite Ht in E.
  assert (tag = 1) by congruence. subst tag. destruct (proj1 H eq_refl) as (_ & HN).
  destruct (C63_refine_iff d crit tv dx dy dz rth (q g) (f g) Hd Ho ltac:(lra) (Hq g Hg)) as (tag & E2 & H01 & H2).
  rewrite E2. destruct H01 as [-> | ->]; [reflexivity|]. exfalso. apply HN. pose proof (proj1 H2 eq_refl) as P. unfold meets in *.
  destruct Hk as [K|K]; rewrite K in *.
  - destruct P as ([[[g' i] j] k] & _ & P1 & P2). exists (g, i, j, k). unfold in_array3, in_patch3 in *.
    destruct Hd as (Hx & Hy & Hz & Hb & Hm). split; [lia|]. split; [exact P1|]. unfold jumps in *.
    destruct P2 as [P2|[P2|P2]]; [left|right; left|right; right]; lra.
  - destruct P as ([[[g' i] j] k] & _ & P1 & P2). exists (g, i, j, k). unfold in_array3, in_patch3 in *.
    destruct Hd as (Hx & Hy & Hz & Hb & Hm). split; [lia|]. split; [exact P1|]. unfold steep in *. nra.
Qed.
Print Assumptions C63_no_conflict.

(** A negative refine_threshold tags every patch, a coarsen_threshold that is not positive tags no family. *)
Theorem C63_thresholds : forall d crit tv dx dy dz th init,
  ((th < 0)%Q -> forall q, tag4refinement3 d crit tv dx dy dz th q = Some 1) /\
  ((th <= 0)%Q -> forall q, tag4coarsening3 d crit tv dx dy dz th init q = Some 0).
Proof.
  intros d crit tv dx dy dz th init. split; intros H q.
  - unfold tag4refinement3. now rewrite (proj2 (Qgtb_iff 0 th) H).
  - unfold tag4coarsening3. now rewrite (proj2 (Qgtb_false th 0) H).
Qed.
Print Assumptions C63_thresholds.

(** ** Mass *)

(** Without a mapping, what a patch adds to the conserved total is the sum of all cell values times dx dy dz. *)
Theorem C63_mass_without_mapping : forall d dx dy dz vol q f m sum, 1 <= mx (flat d) -> 1 <= my (flat d) -> 1 <= mz d ->
  0 <= mbc (flat d) -> 1 <= m <= meqn (flat d) -> holds3 d q f ->
  exists s, conservation_check3 d false dx dy dz vol q m sum = Some s /\
    (s == sum + total3 d (fun i j k => f i j k m * (dx * dy * dz)))%Q.
Proof.
  intros d dx dy dz vol q f m sum Hx Hy Hz Hb Hm Hq. unfold conservation_check3.
  assert (SW : forall g : Z -> Z -> Q, (qsum 1 (my (flat d)) (fun j => qsum 1 (mx (flat d)) (fun i => g i j)) == total (flat d) g)%Q).
  { intros g. unfold total. apply qsum_swap. }
  match goal with |- context [loop 1 (mz d) ?F sum] =>
    destruct (loop_add (fun s : Q => s) (fun _ => True) F 1 (mz d) (fun k => total (flat d) (fun i j => (f i j k m * (dx * dy * dz))%Q))) with (s := sum)
      as (s & E & _ & V); [lia| |exact I|exists s; split; [exact E|exact V]] end.
  intros k s Hk _.
  match goal with |- context [loop 1 (my (flat d)) ?F s] =>
    destruct (loop_add (fun s : Q => s) (fun _ => True) F 1 (my (flat d)) (fun j => qsum 1 (mx (flat d)) (fun i => (f i j k m * (dx * dy * dz))%Q))) with (s := s)
      as (s' & E & _ & V); [lia| |exact I|exists s'; split; [exact E|split; [exact I|rewrite V, SW; reflexivity]]] end.
  intros j s1 Hj _.
  match goal with |- context [loop 1 (mx (flat d)) ?F s1] =>
    destruct (loop_add (fun s : Q => s) (fun _ => True) F 1 (mx (flat d)) (fun i => (f i j k m * (dx * dy * dz))%Q)) with (s := s1)
      as (s' & E & _ & V); [lia| |exact I|exists s'; split; [exact E|split; [exact I|exact V]]] end.
  intros i s2 Hi _. cbn [bind]. unfold rd3.
  replace (in_q3 d (i, j, k, m)) with true by (symmetry; unfold in_q3; rewrite !andb_true_iff, !Z.leb_le; lia).
  rewrite (Hq i j k m) by (first [exact Hk|unfold interior; lia]). cbn [bind]. eexists. split; [reflexivity|]. split; [exact I|]. ring.
Qed.
Print Assumptions C63_mass_without_mapping.

(** Without a mapping, what a patch adds to the sums for the error norms: the sums of the errors and of their squares
    times dx dy dz, and the largest error so far. *)
Definition largest (d : dims3) (g : Z -> Z -> Z -> Q) (v0 v : Q) : Prop :=
  (v0 <= v)%Q /\ (forall i j k, in_patch3 d (0, i, j, k) -> (g i j k <= v)%Q) /\
  ((v == v0)%Q \/ exists i j k, in_patch3 d (0, i, j, k) /\ (v == g i j k)%Q).
Theorem C63_error_sums : forall d dx dy dz vol q f m n1 n2 n3, 1 <= mx (flat d) -> 1 <= my (flat d) -> 1 <= mz d ->
  0 <= mbc (flat d) -> 1 <= m <= meqn (flat d) -> holds3 d q f ->
  exists s1 s2 s3, compute_error_norm3 d false dx dy dz vol q m (n1, n2, n3) = Some (s1, s2, s3) /\
    (s1 == n1 + total3 d (fun i j k => Qabs (f i j k m) * (dx * dy * dz)))%Q /\
    (s2 == n2 + total3 d (fun i j k => f i j k m * f i j k m * (dx * dy * dz)))%Q /\
    largest d (fun i j k => Qabs (f i j k m)) n3 s3.
Proof.
  intros d dx dy dz vol q f m n1 n2 n3 Hx Hy Hz Hb Hm Hq. unfold compute_error_norm3.
  assert (SW : forall g : Z -> Z -> Q, (qsum 1 (my (flat d)) (fun j => qsum 1 (mx (flat d)) (fun i => g i j)) == total (flat d) g)%Q).
  { intros g. unfold total. apply qsum_swap. }
  assert (RD : forall i j k, 1 <= i <= mx (flat d) -> 1 <= j <= my (flat d) -> 1 <= k <= mz d -> rd3 d q (i, j, k, m) = Some (f i j k m)).
  { intros i j k Hi Hj Hk. unfold rd3.
    replace (in_q3 d (i, j, k, m)) with true by (symmetry; unfold in_q3; rewrite !andb_true_iff, !Z.leb_le; lia).
    apply (Hq i j k m); [unfold interior; lia|exact Hk]. }
  assert (SQ : forall x : Q, (Qabs x * Qabs x == x * x)%Q).
  { intros x. destruct (Qlt_le_dec x 0) as [H|H]; [rewrite Qabs_neg by lra; ring|rewrite Qabs_pos by exact H; ring]. }
  set (B := fun k j i (st : Q * Q * Q) => let '(n1, n2, n3) := st in
      bind (Some (dx * dy * dz)%Q) (fun vol_ij =>
      bind (rd3 d q (i, j, k, m)) (fun e =>
      let eij := Qabs e in
      Some (n1 + eij * vol_ij, n2 + eij * eij * vol_ij, Qmax eij n3)%Q))).
  assert (BV : forall k j i st, 1 <= i <= mx (flat d) -> 1 <= j <= my (flat d) -> 1 <= k <= mz d ->
    B k j i st = Some ((fst (fst st) + Qabs (f i j k m) * (dx * dy * dz))%Q,
                       (snd (fst st) + Qabs (f i j k m) * Qabs (f i j k m) * (dx * dy * dz))%Q, Qmax (Qabs (f i j k m)) (snd st))).
  { intros k j i [[a b] c] Hi Hj Hk. unfold B. cbn [bind]. rewrite (RD i j k Hi Hj Hk). reflexivity. }
  assert (G : forall (val : Q * Q * Q -> Q) (g : Z -> Z -> Z -> Q),
    (forall i j k st st', 1 <= i <= mx (flat d) -> 1 <= j <= my (flat d) -> 1 <= k <= mz d -> B k j i st = Some st' -> (val st' == val st + g i j k)%Q) ->
    exists s, loop 1 (mz d) (fun k => loop 1 (my (flat d)) (fun j => loop 1 (mx (flat d)) (B k j))) (n1, n2, n3) = Some s /\
      (val s == val (n1, n2, n3) + total3 d g)%Q).
  { intros val g HB.
    destruct (loop_add val (fun _ => True) (fun k => loop 1 (my (flat d)) (fun j => loop 1 (mx (flat d)) (B k j))) 1 (mz d)
      (fun k => total (flat d) (fun i j => g i j k))) with (s := (n1, n2, n3)) as (s & E & _ & V); [lia| |exact I|exists s; split; [exact E|exact V]].
    intros k s Hk _.
    destruct (loop_add val (fun _ => True) (fun j => loop 1 (mx (flat d)) (B k j)) 1 (my (flat d))
      (fun j => qsum 1 (mx (flat d)) (fun i => g i j k))) with (s := s) as (s' & E & _ & V); [lia| |exact I|exists s'; split; [exact E|split; [exact I|rewrite V, SW; reflexivity]]].
    intros j s1 Hj _.
    destruct (loop_add val (fun _ => True) (B k j) 1 (mx (flat d)) (fun i => g i j k)) with (s := s1) as (s' & E & _ & V); [lia| |exact I|exists s'; split; [exact E|split; [exact I|exact V]]].
    intros i s2 Hi _. eexists. split; [apply (BV k j i s2 Hi Hj Hk)|]. split; [exact I|]. apply (HB i j k s2 _ Hi Hj Hk). apply (BV k j i s2 Hi Hj Hk). }
  destruct (G (fun s => fst (fst s)) (fun i j k => Qabs (f i j k m) * (dx * dy * dz))%Q) as ([[s1 s2] s3] & E & V1).
  { intros i j k st st' Hi Hj Hk Es. rewrite (BV k j i st Hi Hj Hk) in Es. injection Es as <-. reflexivity. }
  destruct (G (fun s => snd (fst s)) (fun i j k => f i j k m * f i j k m * (dx * dy * dz))%Q) as (s' & E' & V2).
  { intros i j k st st' Hi Hj Hk Es. rewrite (BV k j i st Hi Hj Hk) in Es. injection Es as <-. cbn [fst snd]. rewrite SQ. reflexivity. }
  rewrite E in E'. injection E' as <-. cbn [fst snd] in V1, V2.
  exists s1, s2, s3. split; [exact E|]. split; [exact V1|]. split; [exact V2|].
  destruct (loop_lub (fun s : Q * Q * Q => snd s) (fun _ => True) (fun k => loop 1 (my (flat d)) (fun j => loop 1 (mx (flat d)) (B k j))) 1 (mz d)
    (fun k x => exists j, 1 <= j <= my (flat d) /\ exists i, 1 <= i <= mx (flat d) /\ x = Qabs (f i j k m))) with (s := (n1, n2, n3)) as (s & E2 & _ & L); [lia| |exact I|].
  { intros k s Hk _.
    destruct (loop_lub (fun s : Q * Q * Q => snd s) (fun _ => True) (fun j => loop 1 (mx (flat d)) (B k j)) 1 (my (flat d))
      (fun j x => exists i, 1 <= i <= mx (flat d) /\ x = Qabs (f i j k m))) with (s := s) as (s' & E2 & _ & L); [lia| |exact I|exists s'; split; [exact E2|split; [exact I|exact L]]].
    intros j s4 Hj _.
    destruct (loop_lub (fun s : Q * Q * Q => snd s) (fun _ => True) (B k j) 1 (mx (flat d))
      (fun i x => x = Qabs (f i j k m))) with (s := s4) as (s' & E2 & _ & L); [lia| |exact I|exists s'; split; [exact E2|split; [exact I|exact L]]].
    intros i s5 Hi _. eexists. split; [apply (BV k j i s5 Hi Hj Hk)|]. split; [exact I|]. cbn [snd]. split; [apply Q.le_max_r|]. split.
    - intros x ->. apply Q.le_max_l.
    - destruct (Q.max_spec (Qabs (f i j k m)) (snd s5)) as [(_ & M)|(_ & M)]; [left; exact M|right; eexists; split; [reflexivity|exact M]]. }
  rewrite E in E2. injection E2 as <-. cbn [snd] in L. destruct L as (L1 & L2 & L3). split; [exact L1|]. unfold in_patch3. split.
  - intros i j k (Hi & Hj & Hk). apply L2. exists k. split; [exact Hk|]. exists j. split; [exact Hj|]. exists i. split; [exact Hi|reflexivity].
  - destruct L3 as [L3|(x & (k & Hk & j & Hj & i & Hi & ->) & L3)]; [now left|]. right. exists i, j, k. split; [now split|exact L3].
Qed.
Print Assumptions C63_error_sums.

(** ** What fails *)

(** With the criteria that look at values or at their range, layers above and below are looked at when refining but not
    when coarsening: a family is tagged for coarsening while all of its members are tagged for refinement, with the same
    threshold, because of ghost cells above them. *)
Definition above (v : Q) : arr3 := fun c => let '(i, j, k, mq) := c in Some (if 2 <? k then v else 0%Q).
Theorem C63_conflict_refuted : exists d q f th, usual3 d /\ (0 < th)%Q /\ (forall g, 0 <= g < 4 -> all_set3 d (q g) (f g)) /\
  forall crit, crit = 0 \/ crit = 2 -> good_options d crit 1 1 1 1 /\
    tag4coarsening3 d crit 1 1 1 1 th 0 q = Some 1 /\ forall g, 0 <= g < 4 -> tag4refinement3 d crit 1 1 1 1 th (q g) = Some 1.
Proof.
  exists (mkDims3 (mkDims 2 2 1 1) 2), (fun _ => above 1), (fun _ _ _ k _ => if 2 <? k then 1%Q else 0%Q), (1 # 2)%Q.
  split; [repeat split; cbn; lia|]. split; [reflexivity|]. split; [intros g _ i j k mq _ _; reflexivity|].
  intros crit [->| ->]; (split; [repeat split; cbn; try lia; intros; discriminate|]); (split; [vm_compute; reflexivity|]);
    intros g _; vm_compute; reflexivity.
Qed.
Print Assumptions C63_conflict_refuted.

(** With a mapping the total is not the sum of values times volumes: the volumes come from the lowest layer of ghost
    cells and are multiplied by dz once more.  A patch of eight cubes with sides 1/2, all cells with value 1 and the right
    volumes, has mass 1/2 instead of 1. *)
Theorem C63_mapped_mass_refuted : exists d q f vol v dx dy dz, usual3 d /\ all_set3 d q f /\ (forall c, vol c = Some v) /\
  (v == dx * dy * dz)%Q /\ (total3 d (fun i j k => f i j k 1%Z * v) == 1)%Q /\
  exists s, conservation_check3 d true dx dy dz vol q 1 0 = Some s /\ (s == 1 # 2)%Q.
Proof.
  exists (mkDims3 (mkDims 2 2 2 1) 2), (fun _ => Some 1%Q), (fun _ _ _ _ => 1%Q), (fun _ => Some (1 # 8)%Q), (1 # 8)%Q, (1 # 2)%Q, (1 # 2)%Q, (1 # 2)%Q.
  split; [repeat split; cbn; lia|]. split; [intros i j k mq _ _; reflexivity|]. split; [reflexivity|]. split; [reflexivity|].
  split; [vm_compute; reflexivity|]. eexists. split; [vm_compute; reflexivity|]. reflexivity.
Qed.
Print Assumptions C63_mapped_mass_refuted.

(** The norms of the error cannot be reported: the total area they are divided by is never computed. *)
Theorem C63_error_norms_refuted : forall d mapped dx dy dz vol m patches,
  gather_norm3 d mapped dx dy dz vol m patches = None.
Proof.
  intros d mapped dx dy dz vol m patches. unfold gather_norm3.
  match goal with |- bind ?x _ = _ => destruct x as [[[n1 n2] n3]|] end; reflexivity.
Qed.
Print Assumptions C63_error_norms_refuted.

(** Patches that are not square: with 2 by 4 columns row 4 is never written when the four siblings are averaged. *)
Definition full3 (f : data3) : arr3 := fun c => let '(i, j, k, mq) := c in Some (f i j k mq).
Theorem C63_not_square_refuted : exists d qfine ff, even_size (flat d) /\ 1 <= mz d /\ 0 <= mbc (flat d) /\
  (forall g, holds3 d (qfine g) (ff g)) /\
  bind (average2coarse3 d qfine (fun _ _ => None) false (fun _ => None)) (fun q => Some (q (1, 4, 1, 1), q (1, 2, 1, 1)))
    = Some (None, Some ((202 + 202 + 202 + 202) / 4)%Q).
Proof.
  exists (mkDims3 (mkDims 2 4 1 1) 1), (fun g => full3 (fun i j k mq => inject_Z (101 * g))), (fun g i j k mq => inject_Z (101 * g)).
  split; [split; [now exists 1|]; split; [now exists 2|]; cbn; lia|]. split; [cbn; lia|]. split; [cbn; lia|].
  split; [intros g i j k mq _ _; reflexivity|]. vm_compute. reflexivity.
Qed.
Print Assumptions C63_not_square_refuted.

(** ** Instances *)
Definition d3 : dims3 := mkDims3 (mkDims 3 2 1 2) 2.
Definition bump3 (i j k mq : Z) : Q := if (i =? 2) && (j =? 1) && (k =? 2) && (mq =? 2) then 1%Q else 0%Q.
Lemma full3_set : forall f, all_set3 d3 (full3 f) f.
Proof. intros f i j k mq _ _. reflexivity. Qed.
Example C63_instance_tag : forall crit, 0 <= crit <= 3 -> usual3 d3 /\ good_options d3 crit 2 1 1 (1#2) /\
  tag4refinement3 d3 crit 2 1 1 (1#2) (1#4) (full3 bump3) = Some 1 /\
  tag4refinement3 d3 crit 2 1 1 (1#2) (1#4) (full3 (fun _ _ _ _ => 0%Q)) = Some 0 /\
  tag4coarsening3 d3 crit 2 1 1 (1#2) (1#4) 0 (fun g => full3 (if g =? 3 then bump3 else fun _ _ _ _ => 0%Q)) = Some 0 /\
  tag4coarsening3 d3 crit 2 1 1 (1#2) (1#4) 0 (fun g => full3 (fun _ _ _ _ => 0%Q)) = Some 1.
Proof.
  intros crit Hc. split; [repeat split; cbn; lia|]. split; [repeat split; cbn; try lia; intros; discriminate|].
  assert (crit = 0 \/ crit = 1 \/ crit = 2 \/ crit = 3) as [->|[->|[->| ->]]] by lia; repeat split; vm_compute; reflexivity.
Qed.
Example C63_instance_mass : exists s, conservation_check3 d3 false 1 1 (1#2) (fun _ => None) (full3 bump3) 2 5 = Some s /\
  (s == 11 # 2)%Q /\ holds3 d3 (full3 bump3) bump3.
Proof.
  eexists. split; [vm_compute; reflexivity|]. split; [reflexivity|]. intros i j k mq _ _. reflexivity.
Qed.
