From Coq Require Import String ZArith List Lia Bool.
From Verif Require Import Base_Mem Model_Packing Spec_Packing Proof_Packing Proof_Packing2
  Proof_Packing3.
Import ListNotations.
Local Open Scope string_scope.
Local Open Scope list_scope.
Local Open Scope Z_scope.

(* ------------------------------------------------------------ clawpatch *)

Lemma some3 : forall {A B C} (a a' : A) (b b' : B) (c c' : C),
  Some (a, b, c) = Some (a', b', c') -> a = a' /\ b = b' /\ c = c'.
Proof. intros * H. injection H. auto. Qed.

Lemma clawpatch_package : forall h f, good_clawpatch h f ->
  package_ok clawpatch_packsize clawpatch_pack clawpatch_unpack clawpatch_destroy
             same_clawpatch h f.
Proof.
  intros h f Hg.
  assert (HL : NoDup (map fst clawpatch_layout)) by nodup.
  destruct (package_core clawpatch_layout [] [] h f HL Hg eq_refl I (Forall_nil _))
    as (d & Hd & Hcore).
  cbn [datas] in Hd. injection Hd as <-. cbn [length] in Hcore.
  rewrite Z.add_0_r in Hcore.
  exists (Z.of_nat (struct_size clawpatch_layout 0)). split; [reflexivity|].
  intros m a. destruct (Hcore m a) as (m' & W & O & R). exists m'.
  split; [|split; [exact O|]].
  { unfold clawpatch_pack. rewrite <- W. unfold pack_bytes. cbn [pack_prog bind].
    do 2 f_equal. lia. }
  intros m2 h2 Hm2 Hh2.
  destruct (R m2 h2 Hm2 Hh2 _ eq_refl) as (Hread & h3 & f3 & U & HI).
  cbn [unpack_prog] in U. apply some3 in U. destruct U as (<- & <- & _).
  set (h1 := fst (halloc h2 OStruct)) in *.
  assert (G1 : 1 <= h_next h1) by (destruct Hh2; cbn; lia).
  pose (f3 := read_struct m2 a clawpatch_layout 0 (fun _ => 0)).
  pose (h4 := fst (halloc h1 (OKv kv_refinement))).
  pose (f4 := setf f3 "kv_refinement_criteria" (h_next h1)).
  pose proof (Inv_Owned _ _ _ _ _ _ _ HI) as HO.
  assert (HO4 : Owned h1 ["kv_refinement_criteria"] h4 f4).
  { apply Owned_alloc; [exact G1|intros []|exact HO]. }
  exists h4, (h_next h2), f4.
  split; [unfold clawpatch_unpack, f4, f3, h4, h1; cbn [halloc fst h_next]; reflexivity|].
  split; [|split].
  - split.
    + intros n (k & Hin & Hk). unfold f4. rewrite setf_other.
      * apply Hread. apply in_map_iff. exists (n, k). split; [reflexivity|exact Hin].
      * intros ->. cbn [clawpatch_layout In] in Hin.
        repeat (destruct Hin as [Hin|Hin]; [try discriminate; injection Hin as <-; contradiction|]).
        destruct Hin.
    + unfold f4. rewrite setf_same. unfold h4. cbn [halloc fst h_cell]. now rewrite Z.eqb_refl.
  - intros x Hx. rewrite (O_old _ _ _ _ HO4) by (cbn; lia).
    cbn. destruct (Z.eqb_spec x (h_next h2)); [lia|reflexivity].
  - destruct (free_all h2 _ h4 f4 ["kv_refinement_criteria"] Hh2 HO4) as (h5 & E5 & C5).
    + nodup.
    + tauto.
    + exists h5. split; [|exact C5]. rewrite <- E5. unfold clawpatch_destroy.
      rewrite hfrees_app.
      assert (Hk : f4 "kv_refinement_criteria" <> 0).
      { unfold f4. rewrite setf_same. lia. }
      destruct (Z.eqb_spec (f4 "kv_refinement_criteria") 0); [contradiction|reflexivity].
Qed.

(* ------------------------------------------------------------ clawpack46 *)

Lemma strip_app : forall a b, strip (a ++ b) = strip a ++ strip b.
Proof. intros. apply filter_app. Qed.
Lemma strip_ints : forall n l, strip (map (IInt n) l) = map (IInt n) l.
Proof. unfold strip. induction l; cbn [map filter is_alloc negb]; congruence. Qed.

Lemma clawpack46_strip : forall w, strip (clawpack46_unpack_prog w) = clawpack46_pack_prog w.
Proof.
  intros w. unfold clawpack46_unpack_prog, clawpack46_pack_prog.
  rewrite !strip_app, !strip_ints. reflexivity.
Qed.

Lemma allocs_ints : forall n l, allocs (map (IInt n) l) = [].
Proof. intros n l. induction l; [reflexivity|exact IHl]. Qed.

Lemma scoped_app : forall l1 l2 done, scoped done (l1 ++ l2) <-> scoped done l1 /\ scoped (done ++ l1) l2.
Proof.
  induction l1 as [|x tl IH]; intros l2 done; cbn [app scoped].
  - rewrite app_nil_r. tauto.
  - rewrite IH, <- app_assoc. cbn [app]. tauto.
Qed.

Lemma scoped_ints : forall n k l done, In (IAlloc n k) done -> (forall i, In i l -> (i < k)%nat) ->
  scoped done (map (IInt n) l).
Proof.
  induction l as [|i tl IH]; intros done Hin Hi; cbn [map scoped]; [exact I|]. split.
  - exists k. split; [assumption|]. apply Hi. now left.
  - apply IH; [rewrite in_app_iff; now left|]. intros j Hj. apply Hi. now right.
Qed.

Lemma clawpack46_allocs : forall w, allocs (clawpack46_unpack_prog w) =
  ["order_string"; "order"; "mthlim"; "mthlim_string"; "mthbc"; "mthbc_string"].
Proof.
  intros w. unfold clawpack46_unpack_prog. rewrite !allocs_app, !allocs_ints. reflexivity.
Qed.

Lemma clawpack46_scoped : forall w, scoped [] (clawpack46_unpack_prog w).
Proof.
  intros w. unfold clawpack46_unpack_prog.
  apply scoped_app. split.
  { cbn [scoped app allocs alloc1 flat_map In].
    repeat match goal with |- _ /\ _ => split end; try exact I;
      try (intuition discriminate); exists 2%nat; split; try tauto; lia. }
  apply scoped_app. split.
  { apply scoped_ints with (k := w); [cbn; tauto|]. intros i Hi. apply in_seq in Hi. lia. }
  apply scoped_app. split.
  { cbn [scoped]. rewrite !allocs_app, !allocs_ints. cbn [allocs alloc1 flat_map app In].
    intuition discriminate. }
  apply scoped_app. split.
  { apply scoped_ints with (k := 4%nat); [rewrite !in_app_iff; cbn; tauto|].
    intros i Hi. apply in_seq in Hi. lia. }
  cbn [scoped]. rewrite !allocs_app, !allocs_ints. cbn [allocs alloc1 flat_map app In].
  intuition discriminate.
Qed.

Lemma clawpack46_good : forall h f, good_clawpack46 h f ->
  Forall (good_ins h f) (clawpack46_pack_prog (Z.to_nat (f "mwaves"))).
Proof.
  intros h f (_ & Hw & Hs & Hd). unfold clawpack46_pack_prog.
  assert (S' : forall n, In n clawpack46_strings -> good_ins h f (IStr n)) by (intros; now apply Hs).
  assert (D' : forall n k i, In (n, k) (clawpack46_arrays f) -> (i < k)%nat -> good_ins h f (IInt n i))
    by (intros n k i H Hi; exact (Hd n k H i Hi)).
  repeat (apply Forall_app; split).
  - apply Forall_cons; [apply S'; cbn; tauto|].
    apply Forall_cons; [apply (D' "order" 2%nat); [cbn; tauto|lia]|].
    apply Forall_cons; [apply (D' "order" 2%nat); [cbn; tauto|lia]|]. apply Forall_nil.
  - apply Forall_forall. intros x Hx. apply in_map_iff in Hx. destruct Hx as (i & <- & Hi).
    apply in_seq in Hi. apply (D' "mthlim" (Z.to_nat (f "mwaves"))); [cbn; tauto|lia].
  - apply Forall_cons; [apply S'; cbn; tauto|apply Forall_nil].
  - apply Forall_forall. intros x Hx. apply in_map_iff in Hx. destruct Hx as (i & <- & Hi).
    apply in_seq in Hi. apply (D' "mthbc" 4%nat); [cbn; tauto|lia].
  - apply Forall_cons; [apply S'; cbn; tauto|apply Forall_nil].
Qed.

Lemma osum_cons : forall x l, osum (x :: l) = bind x (fun a => bind (osum l) (fun b => Some (a + b))).
Proof. reflexivity. Qed.
Lemma osum_app : forall l1 l2, osum (l1 ++ l2) =
  bind (osum l1) (fun a => bind (osum l2) (fun b => Some (a + b))).
Proof.
  induction l1 as [|x tl IH]; intros l2.
  - cbn [app osum fold_right bind]. change (fold_right _ (Some 0) l2) with (osum l2).
    destruct (osum l2); reflexivity.
  - cbn [app]. rewrite !osum_cons, IH. destruct x; cbn [bind]; [|reflexivity].
    destruct (osum tl); cbn [bind]; [|reflexivity].
    destruct (osum l2); cbn [bind]; [|reflexivity]. f_equal. lia.
Qed.

Lemma osum_ints : forall h f n l,
  osum (map (dsize h f) (map (IInt n) l)) = Some (Z.of_nat (length l) * 4).
Proof.
  induction l as [|i tl IH]; [reflexivity|]. cbn [map]. rewrite osum_cons, IH.
  cbn [dsize bind length]. f_equal. lia.
Qed.

Lemma clawpack46_package : forall h f, good_clawpack46 h f ->
  package_ok clawpack46_packsize clawpack46_pack clawpack46_unpack clawpack46_destroy
             same_clawpack46 h f.
Proof.
  intros h f Hg. pose proof (clawpack46_good h f Hg) as Hgood.
  destruct Hg as (Hsc & Hw & Hs & Hd').
  set (w := Z.to_nat (f "mwaves")) in *.
  assert (HL : NoDup (map fst clawpack46_layout)) by nodup.
  destruct (package_core clawpack46_layout (clawpack46_pack_prog w) (clawpack46_unpack_prog w) h f
     HL Hsc (clawpack46_strip w) (clawpack46_scoped w) Hgood) as (d & Hd & Hcore).
  pose proof (datas_size h f _ d Hgood Hd) as Hsz.
  set (size := Z.of_nat (struct_size clawpack46_layout 0) + Z.of_nat (length d)) in *.
  exists size. split.
  { unfold clawpack46_packsize. destruct (Z.ltb_spec (f "mwaves") 0); [lia|].
    unfold clawpack46_pack_prog in Hsz. rewrite !map_app, !osum_app, !osum_ints in Hsz.
    cbn [map dsize] in Hsz. rewrite !osum_cons in Hsz. rewrite !osum_cons.
    change (osum []) with (Some 0) in *.
    assert (exists s1 s2 s3, size_str h f "order_string" = Some s1 /\
      size_str h f "mthlim_string" = Some s2 /\ size_str h f "mthbc_string" = Some s3)
      as (s1 & s2 & s3 & E1 & E2 & E3).
    { destruct (good_string_data h f "order_string") as (? & _ & _ & _ & ->); [apply Hs; cbn; tauto|].
      destruct (good_string_data h f "mthlim_string") as (? & _ & _ & _ & ->); [apply Hs; cbn; tauto|].
      destruct (good_string_data h f "mthbc_string") as (? & _ & _ & _ & ->); [apply Hs; cbn; tauto|].
      do 3 eexists. split; [reflexivity|split; reflexivity]. }
    rewrite E1, E2, E3 in *. cbn [bind] in *. rewrite !seq_length in Hsz.
    assert (SI : forall x y : Z, Some x = Some y -> x = y) by congruence.
    apply SI in Hsz. apply f_equal. unfold size. rewrite <- Hsz. unfold w. lia. }
  intros m a. destruct (Hcore m a) as (m' & W & O & R). exists m'.
  split; [|split; [exact O|]].
  { unfold clawpack46_pack. fold w. rewrite <- W. unfold pack_bytes.
    destruct (Z.ltb_spec (f "mwaves") 0); [lia|reflexivity]. }
  intros m2 h2 Hm2 Hh2.
  destruct (R m2 h2 Hm2 Hh2 _ eq_refl) as (Hread & h3 & f3 & U & HI).
  pose proof (Inv_Owned _ _ _ _ _ _ _ HI) as HO.
  set (h1 := fst (halloc h2 OStruct)) in *.
  set (fr := read_struct m2 a clawpack46_layout 0 (fun _ => 0)) in *.
  pose (f4 := setf f3 "is_unpacked" 1).
  exists h3, (h_next h2), f4.
  rewrite clawpack46_allocs in HO.
  assert (HO4 : Owned h1 ["order_string"; "order"; "mthlim"; "mthlim_string"; "mthbc"; "mthbc_string"] h3 f4).
  { apply Owned_setf; [cbn; intuition discriminate|exact HO]. }
  destruct HI as [I1 I2 I3 I4 I5 I6 I7 I8 I9 I10 I11].
  assert (HU : forall x, In x (clawpack46_unpack_prog w) <->
     In x [IStr "order_string"; IAlloc "order" 2; IInt "order" 0; IInt "order" 1; IAlloc "mthlim" w]
     \/ In x (map (IInt "mthlim") (seq 0 w))
     \/ In x [IStr "mthlim_string"; IAlloc "mthbc" 4]
     \/ In x (map (IInt "mthbc") (seq 0 4)) \/ In x [IStr "mthbc_string"]).
  { intros x. unfold clawpack46_unpack_prog. rewrite !in_app_iff. tauto. }
  split; [|split; [|split]].
  - unfold clawpack46_unpack. cbn [halloc]. fold fr.
    assert (Em : fr "mwaves" = f "mwaves") by (apply Hread; cbn; tauto).
    rewrite Em. destruct (Z.ltb_spec (f "mwaves") 0); [lia|]. fold w.
    change (mkH (h_next h2 + 1) (fun x : Z => if x =? h_next h2 then Some OStruct else h_cell h2 x)) with h1.
    rewrite U. cbn [bind]. fold f4. apply f_equal. apply f_equal2; [reflexivity|lia].
  - split; [|split; [|split]].
    + intros n (k & Hin & Hk) Hne. unfold f4. rewrite setf_other by assumption.
      rewrite I7.
      * apply Hread. apply in_map_iff. exists (n, k). split; [reflexivity|exact Hin].
      * rewrite clawpack46_allocs. cbn [clawpack46_layout In] in Hin.
        repeat (destruct Hin as [Hin|Hin]; [injection Hin as <- <-;
          first [ contradiction Hk; reflexivity | cbn; intuition discriminate ]|]).
        destruct Hin.
    + apply setf_same.
    + intros n Hn. assert (Hin : In (IStr n) (clawpack46_unpack_prog w)).
      { apply HU. revert Hn. cbn [clawpack46_strings In]. intuition (subst; tauto). }
      unfold f4. rewrite setf_other by (intros ->; revert Hn; cbn; intuition discriminate).
      apply (I8 n Hin).
    + intros n k i Hn Hi. assert (Hin : In (IInt n i) (clawpack46_unpack_prog w)).
      { apply HU. cbn [clawpack46_arrays In] in Hn. fold w in Hn.
        destruct Hn as [Hn|[Hn|[Hn|[]]]].
        - assert (n = "order" /\ k = 2%nat) as [-> ->] by (split; congruence). left.
          cbn [In]. destruct i as [|[|i]]; [tauto|tauto|lia].
        - assert (n = "mthlim" /\ k = w) as [-> ->] by (split; congruence).
          right. left. apply in_map. apply in_seq. lia.
        - assert (n = "mthbc" /\ k = 4%nat) as [-> ->] by (split; congruence).
          do 3 right. left. apply in_map. apply in_seq. lia. }
      unfold f4. rewrite setf_other by (intros ->; revert Hn; cbn; intuition discriminate).
      apply (I11 n i Hin).
  - intros x Hx. rewrite (O_old _ _ _ _ HO4) by (cbn; lia).
    cbn. destruct (Z.eqb_spec x (h_next h2)); [lia|reflexivity].
  - destruct (free_all h2 _ h3 f4 (["mthbc"; "order"; "mthlim"] ++ clawpack46_strings) Hh2 HO4) as (h5 & E5 & C5).
    + nodup.
    + intros n. split; cbn; tauto.
    + exists h5. split; [|exact C5]. rewrite <- E5.
      unfold clawpack46_destroy. rewrite map_app, <- app_assoc, !hfrees_app.
      destruct (hfrees h3 (map f4 ["mthbc"; "order"; "mthlim"])) as [h6|]; [|reflexivity].
      cbn [bind]. assert (Hu : f4 "is_unpacked" = 1) by apply setf_same. rewrite Hu.
      cbn [Z.eqb]. rewrite !hfrees_app. reflexivity.
Qed.
