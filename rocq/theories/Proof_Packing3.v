From Coq Require Import String ZArith List Lia Bool.
From Verif Require Import Base_Mem Model_Packing Spec_Packing Proof_Packing Proof_Packing2.
Import ListNotations.
Local Open Scope string_scope.
Local Open Scope list_scope.
Local Open Scope Z_scope.

Definition is_alloc (x : ins) : bool := match x with IAlloc _ _ => true | _ => false end.
Definition strip (l : list ins) : list ins := filter (fun x => negb (is_alloc x)) l.

Lemma datas_strip : forall h f l, datas h f (strip l) = datas h f l.
Proof.
  unfold strip. induction l as [|x tl IH]; cbn [filter datas]; [reflexivity|].
  destruct x; cbn [is_alloc negb datas]; rewrite IH; try reflexivity.
  cbn [data bind app]. destruct (datas h f tl); reflexivity.
Qed.

Lemma good_strip : forall h f l, Forall (good_ins h f) (strip l) -> Forall (good_ins h f) l.
Proof.
  intros h f l H. rewrite Forall_forall in *. intros x Hx.
  destruct (is_alloc x) eqn:E; [destruct x; try discriminate; exact I|].
  apply H. apply filter_In. now rewrite E.
Qed.

(* ------------------------------------------------------------ ownership *)

Record Owned (h1 : heap) (names : list string) (h3 : heap) (f3 : struct) : Prop := {
  O_next : h_next h1 <= h_next h3;
  O_old : forall a, a < h_next h1 -> h_cell h3 a = h_cell h1 a;
  O_fresh : forall a, h_next h3 <= a -> h_cell h3 a = None;
  O_own : forall n, In n names ->
    f3 n = 0 \/ (h_next h1 <= f3 n < h_next h3 /\ h_cell h3 (f3 n) <> None);
  O_inj : forall n n', In n names -> In n' names -> f3 n = f3 n' -> f3 n <> 0 -> n = n';
  O_cover : forall a, h_next h1 <= a < h_next h3 -> exists n, In n names /\ f3 n = a }.

Lemma Inv_Owned : forall h f h1 f0 done h3 f3,
  Inv h f h1 f0 done h3 f3 -> Owned h1 (allocs done) h3 f3.
Proof. intros * H. destruct H. constructor; auto. Qed.

Lemma Owned_setf : forall h1 names h3 f3 n v, ~ In n names ->
  Owned h1 names h3 f3 -> Owned h1 names h3 (setf f3 n v).
Proof.
  intros h1 names h3 f3 n v Hn [A B C D E F].
  assert (X : forall n', In n' names -> setf f3 n v n' = f3 n').
  { intros n' H. apply setf_other. intros ->. contradiction. }
  constructor; auto.
  - intros n' H. rewrite X by assumption. auto.
  - intros n' n2 H H2. rewrite !X by assumption. auto.
  - intros a H. destruct (F a H) as (n' & Hin & <-). exists n'. rewrite X by assumption. auto.
Qed.

Lemma Owned_alloc : forall h1 names h3 f3 n o, 1 <= h_next h1 -> ~ In n names ->
  Owned h1 names h3 f3 ->
  Owned h1 (n :: names) (fst (halloc h3 o)) (setf f3 n (snd (halloc h3 o))).
Proof.
  intros h1 names h3 f3 n o G Hn [A B C D E F]. cbn [halloc fst snd].
  assert (X : forall n', In n' names -> setf f3 n (h_next h3) n' = f3 n').
  { intros n' H. apply setf_other. intros ->. contradiction. }
  assert (Y : forall n', In n' names -> f3 n' <> h_next h3).
  { intros n' H. destruct (D _ H) as [|[]]; lia. }
  constructor; cbn [h_next h_cell].
  - lia.
  - intros a H. destruct (Z.eqb_spec a (h_next h3)); [lia|auto].
  - intros a H. destruct (Z.eqb_spec a (h_next h3)); [lia|]. apply C. lia.
  - intros n' [<-|H].
    + rewrite setf_same, Z.eqb_refl. right. split; [lia|discriminate].
    + rewrite X by assumption. destruct (D _ H) as [|[]]; [now left|right].
      split; [lia|]. destruct (Z.eqb_spec (f3 n') (h_next h3)); [discriminate|assumption].
  - intros n1 n2 [<-|H1] [<-|H2] E1 E2; try reflexivity.
    + rewrite setf_same, X in E1 by assumption. exfalso. symmetry in E1. now apply Y in E1.
    + rewrite setf_same, X in E1 by assumption. exfalso. now apply Y in E1.
    + rewrite !X in * by assumption. auto.
  - intros a H. destruct (Z.eq_dec a (h_next h3)) as [->|Hne].
    + exists n. split; [now left|apply setf_same].
    + destruct (F a) as (n' & Hin & <-); [lia|]. exists n'. split; [now right|auto].
Qed.

Lemma NoDup_map_nz : forall (f : struct) N,
  NoDup N -> (forall n n', In n N -> In n' N -> f n = f n' -> f n <> 0 -> n = n') ->
  NoDup (filter (fun a => negb (a =? 0)) (map f N)).
Proof.
  induction N as [|n tl IH]; intros Hnd Hinj; cbn [map filter]; [apply NoDup_nil|].
  apply NoDup_cons_iff in Hnd. destruct Hnd as [Hn Hnd].
  assert (IH' : NoDup (filter (fun a => negb (a =? 0)) (map f tl))).
  { apply IH; [assumption|]. intros; apply Hinj; auto; now right. }
  destruct (Z.eqb_spec (f n) 0); cbn [negb]; [exact IH'|].
  constructor; [|exact IH'].
  rewrite filter_In, in_map_iff. intros [(n' & E & Hin) _].
  assert (n = n') by (apply Hinj; [now left|now right|congruence|assumption]). congruence.
Qed.

(** Destroying everything that was allocated restores the heap. *)
Lemma free_all : forall h2 names h3 f3 N,
  good_heap h2 ->
  Owned (fst (halloc h2 OStruct)) names h3 f3 -> NoDup N ->
  (forall n, In n N <-> In n names) ->
  exists h4, hfrees h3 (map f3 N ++ [h_next h2]) = Some h4 /\
    forall x, h_cell h4 x = h_cell h2 x.
Proof.
  intros h2 names h3 f3 N [G1 G2] [A B C D E F] Hnd HN. cbn [halloc fst h_next h_cell] in *.
  destruct (hfrees_ok (map f3 N ++ [h_next h2]) h3) as (h4 & E4 & C4).
  - intros a Ha. rewrite in_app_iff in Ha. cbn [In] in Ha. destruct Ha as [Ha|[<-|[]]].
    + apply in_map_iff in Ha. destruct Ha as (n & <- & Hn). apply HN in Hn.
      destruct (D _ Hn) as [|[]]; [now left|now right].
    + right. rewrite B by lia. rewrite Z.eqb_refl. discriminate.
  - rewrite filter_app. cbn [filter].
    destruct (Z.eqb_spec (h_next h2) 0); [lia|]. cbn [negb].
    assert (ND : NoDup (filter (fun a => negb (a =? 0)) (map f3 N))).
    { apply NoDup_map_nz; [assumption|]. intros n1 n2 H1 H2. apply E; now apply HN. }
    apply (NoDup_Add (a := h_next h2) (l := filter (fun a => negb (a =? 0)) (map f3 N))).
    + rewrite <- (app_nil_r (filter _ _)) at 1. apply Add_app.
    + split; [exact ND|]. rewrite filter_In, in_map_iff. intros [(n' & E' & Hn) Hz].
      apply HN in Hn. destruct (D _ Hn) as [|[]]; lia.
  - exists h4. split; [exact E4|]. intros x. rewrite C4.
    destruct (existsb _ _) eqn:Ex.
    + apply existsb_exists in Ex. destruct Ex as (a & Ha & Hx).
      apply andb_true_iff in Hx. destruct Hx as [Hx Hz]. apply Z.eqb_eq in Hx. subst a.
      symmetry. apply G2. rewrite in_app_iff in Ha. cbn [In] in Ha.
      destruct Ha as [Ha|[<-|[]]]; [|lia].
      apply in_map_iff in Ha. destruct Ha as (n & <- & Hn). apply HN in Hn.
      apply negb_true_iff, Z.eqb_neq in Hz. destruct (D _ Hn) as [|[]]; lia.
    + assert (Hx : x <> h_next h2 /\ forall n, In n names -> f3 n <> 0 -> f3 n <> x).
      { split.
        - intros ->. rewrite existsb_app in Ex. cbn [existsb] in Ex. rewrite Z.eqb_refl in Ex.
          destruct (Z.eqb_spec (h_next h2) 0); [lia|]. cbn in Ex.
          rewrite orb_true_r in Ex. discriminate.
        - intros n Hn Hz <-. rewrite existsb_app in Ex. apply orb_false_iff in Ex.
          destruct Ex as [Ex _].
          assert (existsb (fun a => (f3 n =? a) && negb (a =? 0)) (map f3 N) = true); [|congruence].
          apply existsb_exists. exists (f3 n). split; [apply in_map; now apply HN|].
          rewrite Z.eqb_refl. now destruct (Z.eqb_spec (f3 n) 0). }
      destruct Hx as [Hx1 Hx2].
      destruct (Z.lt_ge_cases x (h_next h2 + 1)) as [Hl|Hl].
      * rewrite B by lia. destruct (Z.eqb_spec x (h_next h2)); [contradiction|reflexivity].
      * rewrite G2 by lia. destruct (Z.lt_ge_cases x (h_next h3)) as [Hl3|Hl3].
        -- destruct (F x) as (n & Hn & <-); [lia|]. exfalso. apply (Hx2 n Hn); lia || reflexivity.
        -- apply C. lia.
Qed.

(* ------------------------------------------------------------ core *)

Lemma package_core : forall (L : layout) (P U : list ins) h f,
  NoDup (map fst L) -> good_scalars L f -> strip U = P -> scoped [] U ->
  Forall (good_ins h f) P ->
  exists d, datas h f P = Some d /\
  let size := Z.of_nat (struct_size L 0) + Z.of_nat (length d) in
  forall m a, exists m',
    (let '(m1, k) := pack_bytes (struct_bytes L 0 f) m a in
     bind (pack_prog h f P m1 (a + k)) (fun '(m, p) => Some (m, p - a))) = Some (m', size) /\
    (forall x, x < a \/ a + size <= x -> m' x = m x) /\
    forall m2 h2, (forall x, a <= x < a + size -> m2 x = m' x) -> good_heap h2 ->
    forall h1, h1 = fst (halloc h2 OStruct) ->
    (forall f0 n, In n (map fst L) -> read_struct m2 a L 0 f0 n = f n) /\
    exists h3 f3,
      unpack_prog m2 U (h1, read_struct m2 a L 0 (fun _ => 0), a + Z.of_nat (struct_size L 0))
        = Some (h3, f3, a + size) /\
      Inv h f h1 (read_struct m2 a L 0 (fun _ => 0)) U h3 f3.
Proof.
  intros L P U h f HL Hsc HU Hscope Hg. subst P.
  destruct (good_datas h f (strip U) Hg) as [d Hd]. exists d. split; [exact Hd|].
  pose proof (struct_bytes_length L 0 f) as SL. rewrite Nat.add_0_r in SL.
  intros size m a. exists (mstore m a (struct_bytes L 0 f ++ d)).
  assert (LB : Z.of_nat (length (struct_bytes L 0 f ++ d)) = size)
    by (unfold size; rewrite app_length; lia).
  split; [|split].
  - unfold pack_bytes. rewrite pack_prog_data, Hd. cbn [bind].
    rewrite mstore_app. apply f_equal. apply f_equal2; [reflexivity|]. unfold size. lia.
  - intros x Hx. apply mstore_other. lia.
  - intros m2 h2 Hm2 Hh2 h1 Hh1.
    assert (ML : mload m2 a (length (struct_bytes L 0 f ++ d)) = struct_bytes L 0 f ++ d).
    { eapply mload_agree; [apply mload_mstore|]. rewrite LB. exact Hm2. }
    apply mload_sub in ML. destruct ML as (M1 & M2 & _).
    split.
    + intros f0 n Hn. apply (read_struct_ok L m2 a 0 f f0 HL Hsc); [|exact Hn].
      rewrite Z.add_0_r. exact M1.
    + assert (Hh1' : good_heap h1).
      { subst h1. destruct Hh2 as [G1 G2]. split; cbn [halloc fst h_next h_cell]; [lia|].
        intros x Hx. destruct (Z.eqb_spec x (h_next h2)); [lia|]. apply G2. lia. }
      rewrite SL in M2. rewrite datas_strip in Hd.
      destruct (unpack_prog_ok U h f h1 (read_struct m2 a L 0 (fun _ => 0)) [] h1
                 (read_struct m2 a L 0 (fun _ => 0)) m2 (a + Z.of_nat (struct_size L 0)) d)
        as (h3 & f3 & E3 & I3).
      * exact Hh1'.
      * intros n i [[]|[]].
      * apply Inv_start. exact Hh1'.
      * exact Hscope.
      * now apply good_strip.
      * exact Hd.
      * exact M2.
      * exists h3, f3. split; [|exact I3]. rewrite E3. apply f_equal.
        apply f_equal2; [reflexivity|]. unfold size. lia.
Qed.

(** Sizes. *)
Lemma datas_app : forall h f l1 l2,
  datas h f (l1 ++ l2) =
  bind (datas h f l1) (fun d1 => bind (datas h f l2) (fun d2 => Some (d1 ++ d2))).
Proof.
  induction l1 as [|x tl IH]; intros l2; cbn [app datas].
  - cbn [bind]. destruct (datas h f l2); reflexivity.
  - rewrite IH. destruct (data h f x); cbn [bind]; [|reflexivity].
    destruct (datas h f tl); cbn [bind]; [|reflexivity].
    destruct (datas h f l2); cbn [bind]; [|reflexivity]. now rewrite app_assoc.
Qed.

(** number of bytes an instruction appends *)
Definition dsize (h : heap) (f : struct) (x : ins) : option Z :=
  match x with
  | IStr n => size_str h f n
  | IDbl _ _ => Some 8
  | IInt _ _ => Some 4
  | IAlloc _ _ => Some 0
  end.

Lemma data_size : forall h f x d, good_ins h f x -> data h f x = Some d ->
  dsize h f x = Some (Z.of_nat (length d)).
Proof.
  intros h f x d Hg Hd. destruct x; cbn [dsize].
  - destruct (good_string_data h f n Hg) as (s & _ & _ & E & E2). congruence.
  - destruct Hg as (v & Ev & _). cbn [data] in Hd. rewrite Ev in Hd. cbn [bind] in Hd.
    assert (d = le_bytes 8 v) by congruence. subst d. now rewrite le_bytes_length.
  - destruct Hg as (v & Ev & _). cbn [data] in Hd. rewrite Ev in Hd. cbn [bind] in Hd.
    assert (d = le_bytes 4 v) by congruence. subst d. now rewrite le_bytes_length.
  - cbn [data] in Hd. injection Hd as <-. reflexivity.
Qed.

Lemma datas_size : forall h f l d, Forall (good_ins h f) l -> datas h f l = Some d ->
  osum (map (dsize h f) l) = Some (Z.of_nat (length d)).
Proof.
  induction l as [|x tl IH]; intros d Hg Hd; cbn [datas map osum fold_right] in *.
  - injection Hd as <-. reflexivity.
  - inversion Hg; subst. destruct (data h f x) as [d1|] eqn:E1; [|discriminate].
    cbn [bind] in Hd. destruct (datas h f tl) as [d2|]; [|discriminate]. cbn [bind] in Hd.
    assert (d = d1 ++ d2) by congruence. subst d.
    rewrite (data_size h f x d1) by assumption. cbn [bind].
    change (fold_right _ (Some 0) (map (dsize h f) tl)) with (osum (map (dsize h f) tl)).
    rewrite (IH d2) by auto. cbn [bind]. rewrite app_length. f_equal. lia.
Qed.

(* ------------------------------------------------------------ fclaw_options *)

Fixpoint nodupb (l : list string) : bool :=
  match l with
  | [] => true
  | x :: tl => negb (existsb (String.eqb x) tl) && nodupb tl
  end.

Lemma NoDup_dec_true : forall l, nodupb l = true -> NoDup l.
Proof.
  induction l as [|x tl IH]; cbn [nodupb]; intros H; constructor.
  - apply andb_true_iff in H. destruct H as [H _]. intros Hin.
    apply negb_true_iff in H. rewrite <- not_true_iff_false in H. apply H.
    apply existsb_exists. exists x. split; [assumption|apply String.eqb_refl].
  - apply IH. now apply andb_true_iff in H.
Qed.

Ltac nodup := apply NoDup_dec_true; vm_compute; reflexivity.

Lemma options_nodup : NoDup (map fst options_layout).
Proof. nodup. Qed.

Lemma options_good : forall h f, good_options h f ->
  Forall (good_ins h f) options_pack_prog.
Proof.
  intros h f (_ & Hs & Hd).
  assert (S' : forall n, In n option_strings -> good_ins h f (IStr n)) by (intros; now apply Hs).
  assert (D' : forall n k i, In (n, k) option_arrays -> (i < k)%nat -> good_ins h f (IDbl n i))
    by (intros n k i H Hi; exact (Hd n k H i Hi)).
  cbn [options_pack_prog app flat_map seq].
  repeat (apply Forall_cons || apply Forall_nil).
  all: try (apply S'; cbn; tauto).
  all: try (eapply D'; [cbn; tauto|lia]).
  all: first [ eapply (D' "scale" 3%nat); [cbn; tauto|lia]
             | eapply (D' "shift" 3%nat); [cbn; tauto|lia]
             | eapply (D' "tikz_figsize" 2%nat); [cbn; tauto|lia] ].
Qed.

Lemma options_scoped : scoped [] options_unpack_prog.
Proof.
  cbn [options_unpack_prog app flat_map seq scoped allocs alloc1 flat_map].
  repeat match goal with |- _ /\ _ => split end; try exact I;
    try (cbn [In]; intuition discriminate);
    first [ exists 3%nat; cbn [In]; split; [tauto|lia] | exists 2%nat; cbn [In]; split; [tauto|lia] ].
Qed.

Definition options_freed : list string :=
  ["scale"; "shift"; "tikz_figsize"] ++ ["kv_timing_verbosity"] ++ option_strings.

Lemma plain_options : forall n, plain options_layout n ->
  In n (map fst options_layout) /\ ~ In n (allocs options_unpack_prog)
  /\ n <> "kv_timing_verbosity".
Proof.
  intros n (k & Hin & Hk). split; [apply in_map_iff; now exists (n, k)|].
  cbn [options_layout In] in Hin.
  repeat (destruct Hin as [Hin|Hin]; [injection Hin as <- <-;
    first [ contradiction Hk; reflexivity
          | split; [cbn; intuition discriminate|discriminate] ]|]).
  destruct Hin.
Qed.

Lemma options_package : forall h f, good_options h f ->
  package_ok options_packsize options_pack options_unpack options_destroy same_options h f.
Proof.
  intros h f Hg. pose proof (options_good h f Hg) as Hgood.
  destruct (package_core options_layout options_pack_prog options_unpack_prog h f
     options_nodup (proj1 Hg) eq_refl options_scoped Hgood) as (d & Hd & Hcore).
  pose proof (datas_size h f _ d Hgood Hd) as Hsz.
  set (size := Z.of_nat (struct_size options_layout 0) + Z.of_nat (length d)) in *.
  exists size. split.
  { unfold options_packsize. unfold size.
    cbn [options_pack_prog app flat_map seq map dsize osum fold_right] in Hsz.
    cbn [osum fold_right].
    repeat match type of Hsz with
    | context [bind (size_str h f ?n) _] =>
        destruct (size_str h f n) as [?s|] eqn:?; cbn [bind] in Hsz; [|discriminate]
    end.
    cbn [bind] in *.
    assert (SI : forall x y : Z, Some x = Some y -> x = y) by congruence.
    apply SI in Hsz. rewrite <- Hsz. apply f_equal. lia. }
  intros m a. destruct (Hcore m a) as (m' & W & O & R). exists m'.
  split; [exact W|]. split; [exact O|].
  intros m2 h2 Hm2 Hh2.
  destruct (R m2 h2 Hm2 Hh2 _ eq_refl) as (Hread & h3 & f3 & U & HI).
  pose proof (Inv_Owned _ _ _ _ _ _ _ HI) as HO.
  set (h1 := fst (halloc h2 OStruct)) in *.
  assert (G1 : 1 <= h_next h1) by (destruct Hh2; cbn; lia).
  pose (h4 := fst (halloc h3 (OKv kv_timing))).
  pose (f4 := setf (setf f3 "kv_timing_verbosity" (h_next h3)) "is_unpacked" 1).
  exists h4, (h_next h2), f4.
  assert (HO4 : Owned h1 ("kv_timing_verbosity" :: allocs options_unpack_prog) h4 f4).
  { apply Owned_setf; [cbn; intuition discriminate|].
    apply Owned_alloc; [exact G1|cbn; intuition discriminate|exact HO]. }
  destruct HI as [I1 I2 I3 I4 I5 I6 I7 I8 I9 I10 I11].
  assert (C4 : forall x, x <> h_next h3 -> h_cell h4 x = h_cell h3 x).
  { intros x Hx. cbn. destruct (Z.eqb_spec x (h_next h3)); [contradiction|reflexivity]. }
  assert (F4 : forall n, In n (allocs options_unpack_prog) -> f4 n = f3 n).
  { intros n Hn. unfold f4. rewrite !setf_other; [reflexivity| |];
      intros ->; revert Hn; cbn; intuition discriminate. }
  assert (N4 : forall n, In n (allocs options_unpack_prog) -> f3 n <> h_next h3).
  { intros n Hn. destruct (I4 n Hn) as [E|[E _]]; [|lia].
    rewrite E. lia. }
  split; [|split; [|split]].
  - unfold options_unpack. cbn [halloc]. fold h1.
    change (mkH (h_next h2 + 1) (fun x : Z => if x =? h_next h2 then Some OStruct else h_cell h2 x)) with h1.
    rewrite U. cbn [bind]. cbn [halloc]. fold f4.
    change (mkH (h_next h3 + 1) (fun x : Z => if x =? h_next h3 then Some (OKv kv_timing) else h_cell h3 x)) with h4.
    do 2 f_equal. lia.
  - split; [|split; [|split; [|split]]].
    + intros n Hn Hne. destruct (plain_options n Hn) as (P1 & P2 & P3).
      unfold f4. rewrite !setf_other by assumption. rewrite I7 by assumption.
      apply Hread. exact P1.
    + unfold f4. apply setf_same.
    + intros n Hn. assert (Hin : In (IStr n) options_unpack_prog).
      { revert Hn. cbn. intuition (subst; tauto). }
      pose proof (in_alloc_str _ _ Hin) as Ha. rewrite F4 by assumption.
      destruct (I8 n Hin) as [E _]. rewrite <- E. apply text_ext. apply C4. auto.
    + intros n k i Hn Hi. assert (Hin : In (IDbl n i) options_unpack_prog /\ In n (allocs options_unpack_prog)).
      { cbn [option_arrays In] in Hn.
        destruct Hn as [Hn|[Hn|[Hn|[]]]]; injection Hn as <- <-;
          (split; [|cbn; tauto]);
          repeat (destruct i as [|i]; [cbn; tauto|]); lia. }
      destruct Hin as [Hin Ha]. rewrite F4 by assumption.
      rewrite <- (I10 n i Hin). apply elem_ext. apply C4. auto.
    + unfold f4. rewrite setf_other by discriminate. rewrite setf_same. cbn.
      now rewrite Z.eqb_refl.
  - intros x Hx. assert (h_next h1 = h_next h2 + 1) by reflexivity.
    rewrite (O_old _ _ _ _ HO4) by lia. cbn.
    destruct (Z.eqb_spec x (h_next h2)); [lia|reflexivity].
  - destruct (free_all h2 _ h4 f4 options_freed Hh2 HO4) as (h5 & E5 & C5).
    + nodup.
    + intros n. split; cbn; tauto.
    + exists h5. split; [|exact C5]. rewrite <- E5.
      unfold options_destroy, options_freed. rewrite !map_app, <- !app_assoc.
      rewrite !hfrees_app.
      destruct (hfrees h4 (map f4 ["scale"; "shift"; "tikz_figsize"])) as [h6|]; [|reflexivity].
      cbn [bind]. assert (Hk : f4 "kv_timing_verbosity" <> 0).
      { unfold f4. rewrite setf_other by discriminate. rewrite setf_same. lia. }
      destruct (Z.eqb_spec (f4 "kv_timing_verbosity") 0) as [|_]; [contradiction|].
      change (map f4 ["kv_timing_verbosity"]) with [f4 "kv_timing_verbosity"].
      rewrite !hfrees_app.
      destruct (hfrees h6 [f4 "kv_timing_verbosity"]) as [h7|]; [|reflexivity].
      cbn [bind]. assert (Hu : f4 "is_unpacked" = 1) by apply setf_same. rewrite Hu.
      cbn [Z.eqb]. rewrite !hfrees_app. reflexivity.
Qed.
