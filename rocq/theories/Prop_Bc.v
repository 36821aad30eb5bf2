(** C55: physical boundary conditions. *)
From Coq Require Import ZArith QArith List Lia Bool.
From Verif Require Import Base_Float Model_Face Model_Mesh Spec_Mesh Proof_Mesh Prop_Mesh Model_Grid Model_Fill Spec_Grid Proof_Grid Model_Bc Spec_Bc Proof_Bc.
Import ListNotations.
Open Scope Z_scope.

Definition listed (faces : list bool) (f : Z) : bool := nth (Z.to_nat f) faces false.

(** Every cell of the array gets the value prescribed by the boundary conditions; the routine does not fail. *)
Theorem C55_values : forall d block_mthbc faces q,
  0 <= mbc d -> mbc d <= mx d -> mbc d <= my d -> usable d block_mthbc (listed faces) ->
  exists q', clawpack46_bc2 d block_mthbc faces q = Some q' /\
    (forall i j mq, in_q d (i, j, mq) = true ->
       q' (i, j, mq) = bc_value d (side_of block_mthbc (listed faces)) q i j mq) /\
    (forall c, in_q d c = false -> q' c = q c).
Proof.
  intros d k faces q Hb Hx Hy HU.
  destruct (bc2_ok d Hb Hx Hy (side_of k (listed faces)) (fun i => if nth (Z.to_nat i) faces false then k i else -1) q) as (q' & E & A).
  - intros f Hf. specialize (HU f Hf). unfold side_of. unfold listed in *. destruct (nth (Z.to_nat f) faces false); [|reflexivity].
    destruct (HU eq_refl) as [->|[-> _]]; reflexivity.
  - intros f Hf Hw. specialize (HU f Hf). unfold side_of in Hw. destruct (listed faces f); [|discriminate].
    destruct (HU eq_refl) as [Hk|[_ Hk]]; [rewrite Hk in Hw; discriminate Hw|exact Hk].
  - exists q'. split; [exact E|]. split.
    + intros i j mq Hin. rewrite A. now apply four_sides.
    + intros c Hc. rewrite A. now apply outside_same.
Qed.
Print Assumptions C55_values.

(** The cells of the patch itself keep their values; so do the ghost cells beyond a side where the domain continues. *)
Theorem C55_unchanged : forall d block_mthbc faces q q',
  0 <= mbc d -> mbc d <= mx d -> mbc d <= my d -> usable d block_mthbc (listed faces) ->
  clawpack46_bc2 d block_mthbc faces q = Some q' ->
  forall i j mq, in_q d (i, j, mq) = true ->
    (listed faces 0 = true -> 1 <= i) -> (listed faces 1 = true -> i <= mx d) ->
    (listed faces 2 = true -> 1 <= j) -> (listed faces 3 = true -> j <= my d) ->
    q' (i, j, mq) = q (i, j, mq).
Proof.
  intros d k faces q q' Hb Hx Hy HU E i j mq Hin H0 H1 H2 H3.
  destruct (C55_values d k faces q Hb Hx Hy HU) as (q1 & E1 & A & _). rewrite E in E1. injection E1 as <-.
  rewrite A by assumption. unfold bc_value.
  assert (X : forall a b n t, (listed faces a = true -> 1 <= t) -> (listed faces b = true -> t <= n) ->
    image (side_of k (listed faces) a) (side_of k (listed faces) b) n t = t /\
    mirrored (side_of k (listed faces) a) (side_of k (listed faces) b) n t = false).
  { intros a b n t L U. unfold image, mirrored, side_of. destruct (Z.ltb_spec t 1), (Z.ltb_spec n t); cbn [andb orb].
    all: try (destruct (listed faces a); [specialize (L eq_refl); lia|]).
    all: try (destruct (listed faces b); [specialize (U eq_refl); lia|]).
    all: split; reflexivity. }
  destruct (X 0 1 (mx d) i H0 H1) as [-> ->]. destruct (X 2 3 (my d) j H2 H3) as [-> ->]. reflexivity.
Qed.
Print Assumptions C55_unchanged.

(** A wall on the left: the state e cells outside is the mirror image of the state e cells inside, moving the other way. *)
Theorem C55_wall : forall d block_mthbc faces q q',
  0 <= mbc d -> mbc d <= mx d -> mbc d <= my d -> usable d block_mthbc (listed faces) ->
  clawpack46_bc2 d block_mthbc faces q = Some q' ->
  forall e t mq, 1 <= e <= mbc d -> 1 <= mq <= meqn d ->
    (1 <= t <= my d -> listed faces 0 = true -> block_mthbc 0 = 3 ->
       q' (1 - e, t, mq) = if mq =? 2 then option_map Qopp (q (e, t, mq)) else q (e, t, mq)) /\
    (1 <= t <= my d -> listed faces 1 = true -> block_mthbc 1 = 3 ->
       q' (mx d + e, t, mq) = if mq =? 2 then option_map Qopp (q (mx d + 1 - e, t, mq)) else q (mx d + 1 - e, t, mq)) /\
    (1 <= t <= mx d -> listed faces 2 = true -> block_mthbc 2 = 3 ->
       q' (t, 1 - e, mq) = if mq =? 3 then option_map Qopp (q (t, e, mq)) else q (t, e, mq)) /\
    (1 <= t <= mx d -> listed faces 3 = true -> block_mthbc 3 = 3 ->
       q' (t, my d + e, mq) = if mq =? 3 then option_map Qopp (q (t, my d + 1 - e, mq)) else q (t, my d + 1 - e, mq)).
Proof.
  intros d k faces q q' Hb Hx Hy HU E e t mq He Hm.
  destruct (C55_values d k faces q Hb Hx Hy HU) as (q1 & E1 & A & _). rewrite E in E1. injection E1 as <-.
  assert (IN : forall a b n x, 1 <= x <= n -> image a b n x = x /\ mirrored a b n x = false).
  { intros a b n x H. unfold image, mirrored. destruct (Z.ltb_spec x 1), (Z.ltb_spec n x); try (exfalso; lia); split; reflexivity. }
  split; [|split; [|split]]; intros Ht Hl Hk; (rewrite A by (apply in_q_iff; lia)); unfold bc_value.
  1,2: rewrite !(proj1 (IN _ _ (my d) t Ht)), !(proj2 (IN _ _ (my d) t Ht)); cbn [andb]; rewrite orb_false_r.
  3,4: rewrite !(proj1 (IN _ _ (mx d) t Ht)), !(proj2 (IN _ _ (mx d) t Ht)); cbn [andb orb].
  - unfold side_of at 1 3 5. rewrite Hl, Hk. change (3 =? 3) with true. cbv iota. unfold image, mirrored.
    destruct (Z.ltb_spec (1 - e) 1); [|lia]. cbn [andb orb]. replace (1 - (1 - e)) with e by lia. reflexivity.
  - unfold side_of at 2 4 6. rewrite Hl, Hk. change (3 =? 3) with true. cbv iota. unfold image, mirrored.
    destruct (Z.ltb_spec (mx d + e) 1); [lia|]. destruct (Z.ltb_spec (mx d) (mx d + e)); [|lia]. cbn [andb orb].
    replace (2 * mx d + 1 - (mx d + e)) with (mx d + 1 - e) by lia. reflexivity.
  - unfold side_of at 1 3 5. rewrite Hl, Hk. change (3 =? 3) with true. cbv iota. unfold image, mirrored.
    destruct (Z.ltb_spec (1 - e) 1); [|lia]. cbn [andb orb]. replace (1 - (1 - e)) with e by lia. reflexivity.
  - unfold side_of at 2 4 6. rewrite Hl, Hk. change (3 =? 3) with true. cbv iota. unfold image, mirrored.
    destruct (Z.ltb_spec (my d + e) 1); [lia|]. destruct (Z.ltb_spec (my d) (my d + e)); [|lia]. cbn [andb orb].
    replace (2 * my d + 1 - (my d + e)) with (my d + 1 - e) by lia. reflexivity.
Qed.
Print Assumptions C55_wall.

(** The conditions may be applied any number of times between two updates: the second time changes nothing. *)
Theorem C55_again : forall d block_mthbc faces q q',
  0 <= mbc d -> mbc d <= mx d -> mbc d <= my d -> usable d block_mthbc (listed faces) ->
  clawpack46_bc2 d block_mthbc faces q = Some q' ->
  exists q'', clawpack46_bc2 d block_mthbc faces q' = Some q'' /\ forall c, q'' c = q' c.
Proof.
  intros d k faces q q' Hb Hx Hy HU E.
  destruct (C55_values d k faces q Hb Hx Hy HU) as (q1 & E1 & A & B). rewrite E in E1. injection E1 as <-.
  destruct (C55_values d k faces q' Hb Hx Hy HU) as (q2 & E2 & A2 & B2).
  exists q2. split; [exact E2|]. intros [[i j] mq]. destruct (in_q d (i, j, mq)) eqn:Hin; [|now rewrite B2].
  rewrite A2 by assumption. set (s := side_of k (listed faces)) in *.
  apply in_q_iff in Hin. destruct Hin as (Hi & Hj & Hm).
  assert (X : forall a b n t, mbc d <= n -> 1 - mbc d <= t <= n + mbc d -> 1 - mbc d <= image a b n t <= n + mbc d /\
    image a b n (image a b n t) = image a b n t /\ mirrored a b n (image a b n t) = false).
  { intros a b n t Hn Ht. unfold image, mirrored.
    destruct (Z.ltb_spec t 1); [|destruct (Z.ltb_spec n t)].
    all: destruct a, b; cbn [andb orb]; repeat rewrite andb_false_r; cbn [orb];
      repeat match goal with |- context [?x <? ?y] => destruct (Z.ltb_spec x y) end; cbn [andb orb]; first [exfalso; lia|split; [lia|split; [lia|reflexivity]]]. }
  unfold bc_value at 1. cbn zeta.
  destruct (X (s 0) (s 1) (mx d) i Hx Hi) as (I1 & I2 & I3). destruct (X (s 2) (s 3) (my d) j Hy Hj) as (J1 & J2 & J3).
  rewrite !A by (apply in_q_iff; lia). unfold bc_value. rewrite !I2, !J2, !I3, !J3. cbn [andb orb]. reflexivity.
Qed.
Print Assumptions C55_again.

(** All patches of a level: on each, exactly the sides on the boundary of the domain get boundary values; other patches
    are left alone. *)
Definition on_edge (w : world) (x : Spec_Mesh.patch) (f : Z) : bool := match face_of w x f with Edge => true | _ => false end.

Lemma get_bc_ok : forall w p v b n, world_ok D2 w -> 0 <= p < procs w -> represents D2 w p (v_dom v) ->
  0 <= b < nblocks w -> 0 <= n < count w p b ->
  exists l, get_bc v b n = Some l /\ forall f, 0 <= f < 4 -> listed l f = on_edge w (p, before w p b + n) f.
Proof.
  intros w p v b n W P R Hb Hn. destruct (C05_boundary_type D2 w p (v_dom v) b n W P R Hb Hn) as (l & any & E & L & F & _).
  unfold get_bc. rewrite E. cbn [bind]. eexists. split; [reflexivity|]. intros f Hf. cbn [num_faces] in L, F.
  specialize (F f Hf). destruct l as [|a0 [|a1 [|a2 [|a3 [|a4 l]]]]]; cbn [length] in L; try lia.
  unfold on_edge. assert (Ef : f = 0 \/ f = 1 \/ f = 2 \/ f = 3) by lia.
  destruct (face_of w (p, before w p b + n) f); destruct F as [F1 F2].
  1: specialize (F1 eq_refl); clear F2; destruct Ef as [->|[->|[->| ->]]]; cbv [zget Z.ltb Z.to_nat Z.compare nth_error Pos.to_nat Pos.iter_op Nat.add] in F1;
      injection F1 as ->; reflexivity.
  all: clear F1; (assert (F2' := F2 ltac:(discriminate))); clear F2; destruct Ef as [->|[->|[->| ->]]]; cbv [zget Z.ltb Z.to_nat Z.compare nth_error Pos.to_nat Pos.iter_op Nat.add] in F2';
      injection F2' as ->; reflexivity.
Qed.

Lemma side_of_ext : forall k a b f, a f = b f -> side_of k a f = side_of k b f.
Proof. intros k a b f E. unfold side_of. now rewrite E. Qed.
Lemma bc_value_ext : forall d s t q i j mq, (forall f, 0 <= f < 4 -> s f = t f) -> bc_value d s q i j mq = bc_value d t q i j mq.
Proof. intros d s t q i j mq H. unfold bc_value. now rewrite !H by lia. Qed.

Theorem C55_level : forall w p v d block_mthbc level s,
  world_ok D2 w -> 0 <= p < procs w -> represents D2 w p (v_dom v) ->
  0 <= mbc d -> mbc d <= mx d -> mbc d <= my d ->
  NoDup (v_level v level) ->
  (forall b n, In (b, n) (v_level v level) -> 0 <= b < nblocks w /\ 0 <= n < count w p b /\
     usable d block_mthbc (on_edge w (p, before w p b + n))) ->
  exists s', physical_set_bc d v block_mthbc level s = Some s' /\
    (forall b n i j mq, In (b, n) (v_level v level) -> in_q d (i, j, mq) = true ->
       s' b n (i, j, mq) = bc_value d (side_of block_mthbc (on_edge w (p, before w p b + n))) (s b n) i j mq) /\
    (forall b n, ~ In (b, n) (v_level v level) -> s' b n = s b n).
Proof.
  intros w p v d k level s W P R Hb Hx Hy ND HL. unfold physical_set_bc. revert s ND HL.
  induction (v_level v level) as [|[b n] l IH]; intros s ND HL.
  - exists s. split; [reflexivity|]. split; [intros b n i j mq []|reflexivity].
  - cbn [set_bc_list]. inversion ND as [|? ? Nin ND']; subst.
    destruct (HL b n (or_introl eq_refl)) as (Hbb & Hn & HU).
    destruct (get_bc_ok w p v b n W P R Hbb Hn) as (faces & Ef & Hf).
    assert (HU' : usable d k (listed faces)). { intros f Hf' T. rewrite Hf in T by assumption. now apply HU. }
    destruct (C55_values d k faces (s b n) Hb Hx Hy HU') as (q' & Eq & A & B).
    unfold cb_set_bc. rewrite Ef. cbn [bind]. rewrite Eq. cbn [bind].
    destruct (IH (upd_store s b n q') ND') as (s' & E & A' & B').
    { intros b' n' Hin. apply HL. now right. }
    exists s'. split; [exact E|]. split.
    + intros b' n' i j mq [Hin|Hin] Hq.
      * injection Hin as <- <-. rewrite B' by exact Nin. unfold upd_store. rewrite !Z.eqb_refl. cbn [andb]. rewrite A by assumption.
        apply bc_value_ext. intros f Hf'. apply side_of_ext. now apply Hf.
      * rewrite A' by assumption. unfold bc_value, upd_store.
        destruct ((b' =? b) && (n' =? n)) eqn:Ex; [|reflexivity]. apply andb_true_iff in Ex. destruct Ex as [Ex Ey].
        apply Z.eqb_eq in Ex, Ey. subst. contradiction.
    + intros b' n' Hnin. rewrite B' by (intros Hin; apply Hnin; now right). unfold upd_store.
      destruct ((b' =? b) && (n' =? n)) eqn:Ex; [|reflexivity]. apply andb_true_iff in Ex. destruct Ex as [Ex Ey].
      apply Z.eqb_eq in Ex, Ey. subst. exfalso. apply Hnin. now left.
Qed.
Print Assumptions C55_level.

(** *** Instance: the forest of [Prop_Mesh], walls on the left and bottom, three equations *)
Definition d3 : dims := mkDims 4 6 2 3.
Definition bc3 (f : Z) : Z := if (f =? 0) || (f =? 2) then 3 else 1.
Definition data3 : arr := fun '(i, j, m) => if in_q d3 (i, j, m) && (1 <=? i) && (i <=? 4) && (1 <=? j) && (j <=? 6)
  then Some (inject_Z (100 * m + 10 * i + j)) else None.
Definition view3 (p : Z) : view := mkView (dom3 p) [] (fun _ _ => false) (fun _ _ => false)
  (fun level => if level =? 0 then map (fun k => (0, k)) (zrange 0 (count w3 p 0)) else []) false.

Example C55_instance : exists s', physical_set_bc d3 (view3 0) bc3 0 (fun _ _ => data3) = Some s' /\
  s' 0 0 (-1, 3, 2) = Some (- inject_Z 223)%Q /\ s' 0 0 (-1, 3, 1) = Some (inject_Z 123) /\
  s' 0 0 (-1, 0, 2) = Some (- inject_Z 221)%Q /\ s' 0 0 (5, 0, 1) = None.
Proof.
  assert (P0 : 0 <= 0 < procs w3) by (cbn; lia).
  destruct (C55_level w3 0 (view3 0) d3 bc3 0 (fun _ _ => data3) w3_ok P0 (proj1 (dom3_ok 0 P0)) ltac:(cbn; lia) ltac:(cbn; lia) ltac:(cbn; lia))
    as (s' & E & A & _).
  - vm_compute. constructor; [intros [H|[]]; discriminate H|]. constructor; [intros []|constructor].
  - intros b n H. assert (Hn : b = 0 /\ 0 <= n < count w3 0 0).
    { vm_compute in H. destruct H as [H|[H|[]]]; injection H as <- <-; vm_compute; repeat split; congruence. }
    destruct Hn as [-> Hn]. split; [cbn; lia|]. split; [exact Hn|].
    intros f Hf _. unfold bc3. destruct ((f =? 0) || (f =? 2)); [right|left]; [|reflexivity]. split; [reflexivity|]. cbn. destruct (f <? 2); lia.
  - exists s'. split; [exact E|].
    assert (I0 : In (0, 0) (v_level (view3 0) 0)) by (vm_compute; tauto).
    rewrite !(A 0 0) by (exact I0 || reflexivity). vm_compute. repeat split.
Qed.

(** A wall needs a velocity component.  With one equation the routine addresses component 2 of an array with one
    component; neither the option check nor the routine rejects this. *)
Theorem C55_scalar_wall_refuted : exists d block_mthbc q, meqn d = 1 /\ mx d = 4 /\ my d = 4 /\ mbc d = 2 /\
  (forall f, 0 <= f < 4 -> block_mthbc f = 3) /\ (forall c, in_q d c = true -> q c <> None) /\
  clawpack46_bc2 d block_mthbc [true; false; false; false] q = None.
Proof.
  exists (mkDims 4 4 2 1), (fun _ => 3), (fun _ => Some 0%Q).
  do 4 (split; [reflexivity|]). split; [reflexivity|]. split; [discriminate|]. vm_compute. reflexivity.
Qed.
Print Assumptions C55_scalar_wall_refuted.
