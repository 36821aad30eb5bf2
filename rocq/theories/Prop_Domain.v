(** Properties C06, C07 and C44: domain construction and iteration. *)
From Coq Require Import ZArith QArith List Bool Lia Permutation.
From Verif Require Import Base_Float Model_Face Model_Domain Spec_Domain Proof_Domain Proof_Domain2
  Proof_Domain3.
Import ListNotations.
Open Scope Z_scope.

(** ** C44 *)
(** fclaw2d_domain_new succeeds on every forest and mirror list, and the domain
    represents the forest (see [represents] in Spec_Domain). *)
Theorem C44_domain_new_represents_forest : forall rnd, rounding rnd -> forall d T mirrors,
  wf_forest d T -> wf_mirrors T mirrors ->
  exists dom, domain_new rnd d mirrors T = Some dom /\ represents d T mirrors dom.
Proof. exact domain_new_represents. Qed.
Print Assumptions C44_domain_new_represents_forest.

Theorem C44_ghost_patches : forall rnd, rounding rnd -> forall d q, wf_quad d q ->
  records d q (ghost_patch rnd d q) /\
  Z.testbit (p_flags (ghost_patch rnd d q)) 5 = true /\
  Z.testbit (p_flags (ghost_patch rnd d q)) 4 = false /\
  Z.testbit (p_flags (ghost_patch rnd d q)) 3 = false.
Proof. exact ghost_patch_records. Qed.
Print Assumptions C44_ghost_patches.

(** The list of patches lists every quadrant once. *)
Theorem C44_positions_complete : forall T i j,
  NoDup (positions T) /\ (In (i, j) (positions T) <-> exists q, quad_at T (i, j) = Some q).
Proof.
  intros T i j. split; [apply positions_from_NoDup|].
  unfold positions. rewrite positions_from_In, Nat.sub_0_r. unfold quad_at. cbn [fst snd]. split.
  - intros (t & _ & -> & Hj). destruct (nth_error t j) eqn:E; [eexists; reflexivity|].
    apply nth_error_None in E. lia.
  - intros (q & E). destruct (nth_error T i) as [t|]; [|discriminate]. exists t.
    repeat split; [lia|]. apply nth_error_Some. congruence.
Qed.
Print Assumptions C44_positions_complete.

(** ** C06 *)
Theorem C06_iterate_level : forall rnd d T mirrors dom l,
  wf_forest d T -> wf_mirrors T mirrors -> domain_new rnd d mirrors T = Some dom ->
  0 <= l <= maxl d ->
  iterate_level d dom l = Some (filter (has_level T l) (positions T)).
Proof. exact iterate_level_ok. Qed.
Print Assumptions C06_iterate_level.

Theorem C06_iterate_patches : forall rnd d T mirrors dom,
  wf_forest d T -> wf_mirrors T mirrors -> domain_new rnd d mirrors T = Some dom ->
  iterate_patches dom = positions T.
Proof. exact iterate_patches_ok. Qed.
Print Assumptions C06_iterate_patches.

(** Iterating over all levels visits every patch exactly once. *)
Theorem C06_all_levels : forall rnd d T mirrors dom,
  wf_forest d T -> wf_mirrors T mirrors -> domain_new rnd d mirrors T = Some dom ->
  exists runs,
    map (fun l => iterate_level d dom (Z.of_nat l)) (seq 0 (Z.to_nat (maxl d) + 1)) = map Some runs /\
    Permutation (concat runs) (positions T).
Proof.
  intros rnd d T mirrors dom Hwf Hm E.
  exists (map (fun l => filter (has_level T (Z.of_nat l)) (positions T)) (seq 0 (Z.to_nat (maxl d) + 1))).
  split.
  - rewrite map_map. apply map_ext_in. intros l Hl. apply in_seq in Hl.
    apply (iterate_level_ok rnd d T mirrors dom); auto. destruct d; cbn [maxl] in *; lia.
  - rewrite <- flat_map_concat_map. apply all_levels_perm. exact Hwf.
Qed.
Print Assumptions C06_all_levels.

(** ** C07 *)
Theorem C07_iterate_families : forall rnd d T mirrors dom,
  wf_forest d T -> wf_mirrors T mirrors -> domain_new rnd d mirrors T = Some dom ->
  exists calls sel, iterate_families d dom = Some calls /\
    (forall ij, sel ij = true <-> family_at d T ij) /\ calls = filter sel (positions T).
Proof. exact iterate_families_spec. Qed.
Print Assumptions C07_iterate_families.

Theorem C07_families_disjoint : forall d T i j j', wf_forest d T ->
  family_at d T (i, j) -> family_at d T (i, j') -> (j < j')%nat ->
  (j + num_children d <= j')%nat.
Proof. exact families_disjoint. Qed.
Print Assumptions C07_families_disjoint.

(** ** A concrete forest: block 0 has its first quadrant refined once more,
    block 1 is empty, block 2 is the root; patches 4 and 7 are mirrors. *)
Definition ex_forest : list (list quad) :=
  let h := 536870912 in let k := 268435456 in
  [ [mkQuad 2 0 0 0; mkQuad 2 k 0 0; mkQuad 2 0 k 0; mkQuad 2 k k 0;
     mkQuad 1 h 0 0; mkQuad 1 0 h 0; mkQuad 1 h h 0]; []; [mkQuad 0 0 0 0] ].
Definition ex_mirrors : list Z := [4; 7].

Lemma aligned_intro : forall d l k s r, side d l = s -> side d 0 = r -> 0 <= k ->
  k * s + s <= r -> 0 <= s -> aligned d l (k * s).
Proof. intros d l k s r E1 E2 H1 H2 H3. exists k. rewrite E1, E2. split; [reflexivity|]. nia. Qed.

Example ex_forest_wf : wf_forest D2 ex_forest.
Proof.
  assert (A0 : aligned D2 0 0) by (apply (aligned_intro D2 0 0 (2 ^ 30) (2 ^ 30)); vm_compute; auto; discriminate).
  assert (A1 : aligned D2 1 0) by (apply (aligned_intro D2 1 0 (2 ^ 29) (2 ^ 30)); vm_compute; auto; discriminate).
  assert (A2 : aligned D2 1 536870912)
    by (apply (aligned_intro D2 1 1 (2 ^ 29) (2 ^ 30)); vm_compute; auto; discriminate).
  assert (A3 : aligned D2 2 0) by (apply (aligned_intro D2 2 0 (2 ^ 28) (2 ^ 30)); vm_compute; auto; discriminate).
  assert (A4 : aligned D2 2 268435456)
    by (apply (aligned_intro D2 2 1 (2 ^ 28) (2 ^ 30)); vm_compute; auto; discriminate).
  unfold wf_forest, ex_forest.
  repeat (first [apply Forall_nil | apply Forall_cons]);
    (split; [cbn [q_level maxl]; lia|]; cbn [q_level q_x q_y q_z]; auto).
Qed.
Example ex_mirrors_wf : wf_mirrors ex_forest ex_mirrors.
Proof.
  unfold wf_mirrors. split; [cbn [increasing_from ex_mirrors]; lia|].
  change (count ex_forest) with 8. repeat constructor.
Qed.

Example C44_example :
  match domain_new (fun x => x) D2 ex_mirrors ex_forest with
  | Some dom => (dom_num dom, dom_min dom, dom_max dom, dom_exchange dom,
                 map (fun b => map p_flags (b_patches b)) (dom_blocks dom))
  | None => (0, 0, 0, [], [])
  end = (8, 0, 2, [(0, 4); (2, 0)]%nat,
         [[0 + 8 + 64 + 256; 1 + 256; 2 + 64; 3; 1 + 16 + 128 + 256; 2 + 64 + 512; 3 + 128 + 512];
          []; [16 + 64 + 128 + 256 + 512]]).
Proof. vm_compute. reflexivity. Qed.

Example C06_example :
  match domain_new (fun x => x) D2 ex_mirrors ex_forest with
  | Some dom => (iterate_level D2 dom 1, iterate_level D2 dom 2, iterate_families D2 dom)
  | None => (None, None, None)
  end = (Some [(0, 4); (0, 5); (0, 6)], Some [(0, 0); (0, 1); (0, 2); (0, 3)], Some [(0, 0)])%nat.
Proof. vm_compute. reflexivity. Qed.

Example C07_example : family_at D2 ex_forest (0, 0)%nat.
Proof. apply family_atb_ok; [exact ex_forest_wf|]. vm_compute. reflexivity. Qed.
