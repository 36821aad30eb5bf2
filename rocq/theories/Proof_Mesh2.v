From Coq Require Import ZArith List Bool Lia.
From Verif Require Import Model_Face Model_Mesh Spec_Mesh Proof_Mesh.
Import ListNotations.
Open Scope Z_scope.

Ltac b_true := repeat match goal with
  | |- _ && _ = true => apply andb_true_intro; split
  | |- (_ <=? _) = true => apply Z.leb_le
  | |- (_ <? _) = true => apply Z.ltb_lt
  | |- (_ =? _) = true => apply Z.eqb_eq
  | |- negb _ = true => apply negb_true_iff
  | |- (_ =? _) = false => apply Z.eqb_neq
  end.

(* ------------------------------------------------------- flags *)

Lemma small_cases : forall rf (Q : Z -> bool), forallb Q (zrange 0 24) = true -> 0 <= rf < 24 -> Q rf = true.
Proof. intros rf Q H Hr. rewrite forallb_forall in H. apply H. apply in_range. exact Hr. Qed.

Lemma flag_facts : forall rf, 0 <= rf < 24 ->
  Z.land rf FLAGS = 0 /\ Z.land rf HALF_FLAG = 0 /\ Z.ldiff rf FLAGS = rf /\
  Z.ldiff (Z.lor rf HALF_FLAG) FLAGS = rf /\ Z.land (Z.lor rf HALF_FLAG) FLAGS <> 0 /\ Z.land (Z.lor rf HALF_FLAG) HALF_FLAG <> 0 /\ Z.land (Z.lor rf HALF_FLAG) DOUBLE_FLAG = 0 /\
  Z.ldiff (Z.lor rf DOUBLE_FLAG) FLAGS = rf /\ Z.land (Z.lor rf DOUBLE_FLAG) FLAGS <> 0 /\ Z.land (Z.lor rf DOUBLE_FLAG) HALF_FLAG = 0 /\ Z.land (Z.lor rf DOUBLE_FLAG) DOUBLE_FLAG <> 0.
Proof.
  intros rf H.
  pose proof (small_cases rf (fun rf =>
    (Z.land rf FLAGS =? 0) && (Z.land rf HALF_FLAG =? 0) && (Z.ldiff rf FLAGS =? rf) &&
    (Z.ldiff (Z.lor rf HALF_FLAG) FLAGS =? rf) && negb (Z.land (Z.lor rf HALF_FLAG) FLAGS =? 0) && negb (Z.land (Z.lor rf HALF_FLAG) HALF_FLAG =? 0) && (Z.land (Z.lor rf HALF_FLAG) DOUBLE_FLAG =? 0) &&
    (Z.ldiff (Z.lor rf DOUBLE_FLAG) FLAGS =? rf) && negb (Z.land (Z.lor rf DOUBLE_FLAG) FLAGS =? 0) && (Z.land (Z.lor rf DOUBLE_FLAG) HALF_FLAG =? 0) && negb (Z.land (Z.lor rf DOUBLE_FLAG) DOUBLE_FLAG =? 0)) eq_refl H) as Q.
  cbv beta in Q. rewrite !andb_true_iff, !negb_true_iff, !Z.eqb_eq, !Z.eqb_neq in Q. tauto.
Qed.

(* -------------------------------------------------------- records *)

Lemma none_len : forall k, length (none k) = Z.to_nat k. Proof. intros k. apply repeat_length. Qed.

Section Dim.
  Variable d : dim.
  Notation H := (num_half d).

  Lemma match_put : forall a b c f rest, length a = Z.to_nat H -> length c = Z.to_nat H ->
    match_face d (put_face a b c f ++ rest) = Some (a, b, c, f).
  Proof.
    intros a b c f rest La Lc. unfold match_face, put_face.
    assert (0 < H) as HP by (destruct d; reflexivity).
    rewrite check_true.
    - rewrite <- La. rewrite <- app_assoc. rewrite nth_error_app2 by lia. rewrite Nat.sub_diag. cbn [nth_error app]. unfold bind.
      rewrite nth_error_app2 by lia. replace (length a + 1 + length a - length a)%nat with (S (length a)) by lia. cbn [nth_error].
      rewrite <- app_assoc. rewrite nth_error_app2 by lia. rewrite La, <- Lc, Nat.sub_diag. cbn [nth_error app].
      f_equal. f_equal. f_equal; [f_equal|].
      + rewrite Lc, <- La. rewrite firstn_app, Nat.sub_diag, firstn_all. apply app_nil_r.
      + rewrite Lc, <- La. rewrite skipn_app, skipn_all2 by lia. replace (length a + 1 - length a)%nat with 1%nat by lia. cbn [skipn app].
        rewrite La, <- Lc, firstn_app, Nat.sub_diag, firstn_all. apply app_nil_r.
    - apply Z.leb_le. unfold face_info_size. rewrite !app_length. cbn [length]. rewrite app_length. cbn [length]. lia.
  Qed.

  Lemma put_len : forall a b c f, length a = Z.to_nat H -> length c = Z.to_nat H -> length (put_face a b c f) = Z.to_nat (face_info_size d).
  Proof.
    intros a b c f La Lc. unfold put_face, face_info_size. rewrite app_length. cbn [length]. rewrite app_length. cbn [length].
    assert (0 < H) by (destruct d; reflexivity). lia.
  Qed.

  Variable w : world.
  Hypothesis WOK : world_ok d w.

  (* ------------------------------------------- what an owner sends *)

  Definition enc (p : Z) (y : patch) : Z * Z := if fst y =? p then (-1, -1) else y.
  Definition block0 (ys : list patch) : Z := match ys with y :: _ => block_of w y | [] => 0 end.

  Definition sent_face (x : patch) (f : Z) : list Z :=
    match face_of w x f with
    | Edge => put_face (-1 :: none (H - 1)) (block_of w x) (-1 :: none (H - 1)) f
    | Same y rf => put_face (fst (enc (fst x) y) :: none (H - 1)) (block_of w y) (snd (enc (fst x) y) :: none (H - 1)) rf
    | Coarser y sub rf => put_face (fst (enc (fst x) y) :: sub :: none (H - 2)) (block_of w y) (snd (enc (fst x) y) :: none (H - 1)) (Z.lor rf DOUBLE_FLAG)
    | Finer ys rf => put_face (map (fun y => fst (enc (fst x) y)) ys) (block0 ys) (map (fun y => snd (enc (fst x) y)) ys) (Z.lor rf HALF_FLAG)
    end.

  Definition flagged (r : relation) (c : Z) : Z :=
    match r with HALFSIZE => Z.lor c HALF_FLAG | DOUBLESIZE => Z.lor c DOUBLE_FLAG | _ => c end.

  Definition sent_corner (x : patch) (c : Z) : list Z :=
    match corner_of w x c with
    | NoCorner | Many _ => [-1; block_of w x; -1; c]
    | Inside y => [fst (enc (fst x) y); block_of w y; snd (enc (fst x) y); flagged (size w y x) (num_corners d - 1 - c)]
    | Outside y rc => [fst (enc (fst x) y); block_of w y; snd (enc (fst x) y); flagged (size w y x) rc]
    end.

  Definition sent_patch (x : patch) : list Z :=
    concat (map (sent_face x) (zrange 0 (num_faces d))) ++ concat (map (sent_corner x) (zrange 0 (num_corners d))).

  Lemma none_tl : forall x, length (x :: none (H - 1)) = Z.to_nat H.
  Proof. intros x. cbn [length]. rewrite none_len. destruct d; reflexivity. Qed.
  Lemma none_tl2 : forall x y, length (x :: y :: none (H - 2)) = Z.to_nat H.
  Proof. intros x y. cbn [length]. rewrite none_len. destruct d; reflexivity. Qed.

  Lemma sent_face_len : forall x f, is_patch w x -> 0 <= f < num_faces d -> length (sent_face x f) = Z.to_nat (face_info_size d).
  Proof.
    intros x f Hx Hf. destruct WOK as (_ & _ & _ & _ & _ & HA & _). specialize (HA x f Hx Hf). unfold across_ok in HA.
    unfold sent_face. destruct (face_of w x f); apply put_len; try apply none_tl; try apply none_tl2; rewrite map_length; lia.
  Qed.

  Lemma sent_corner_len : forall x c, length (sent_corner x c) = 4%nat.
  Proof. intros x c. unfold sent_corner. destruct (corner_of w x c); reflexivity. Qed.

  Lemma concat_len : forall A (ls : list (list A)) s, (forall l, In l ls -> length l = s) -> length (concat ls) = (length ls * s)%nat.
  Proof.
    intros A ls s. induction ls as [|l ls IH]; intros Hl; [reflexivity|]. cbn [concat length]. rewrite app_length, IH by (intros; apply Hl; right; assumption).
    rewrite (Hl l (or_introl eq_refl)). lia.
  Qed.

  Lemma sent_patch_len : forall x, is_patch w x -> Z.of_nat (length (sent_patch x)) = info_size d.
  Proof.
    intros x Hx. unfold sent_patch. rewrite app_length.
    rewrite (concat_len _ _ (Z.to_nat (face_info_size d))).
    - rewrite (concat_len _ _ 4%nat).
      + rewrite !map_length, !length_range. destruct d; reflexivity.
      + intros l Hl. apply in_map_iff in Hl. destruct Hl as (c & <- & _). apply sent_corner_len.
    - intros l Hl. apply in_map_iff in Hl. destruct Hl as (f & <- & Hf). apply in_range in Hf. apply sent_face_len; assumption.
  Qed.

  Section Owner.
    Variable p : Z.
    Hypothesis Hp : 0 <= p < procs w.
    Variable dom : domain.
    Hypothesis REP : represents d w p dom.

    Lemma encode_enc : forall y q i, is_patch w y -> finds w p y q i -> indirect_encode dom q i = Some (enc p y).
    Proof.
      intros y q i Hy (-> & Fo & Fg). unfold indirect_encode, enc.
      pose proof Hy as (H1 & _). assert (mpisize dom = procs w) as -> by apply REP. rewrite check_true by (b_true; lia).
      rewrite (rank d w p dom REP). destruct (Z.eqb_spec (fst y) p) as [E|E]; [reflexivity|].
      specialize (Fg E). pose proof REP as (_ & _ & _ & _ & _ & _ & _ & _ & _ & _ & _ & (o & O0 & OP & OM & OL & OI)).
      assert (forall q, 0 <= q <= procs w -> zget (proc_offsets (dmesh dom)) q = Some (o q)) as G.
      { intros q Hq. rewrite OL, zget_map, zget_range by lia. reflexivity. }
      rewrite !G by lia. unfold bind. rewrite check_true by (specialize (OI i y Fg); b_true; lia).
      destruct (rep_layer d w WOK p Hp dom REP i y Fg) as (_ & _ & _ & _ & ->). cbn [g_local].
      rewrite check_true.
      - destruct y; reflexivity.
      - apply Z.leb_le. destruct Hy as (_ & H2 & H3). pose proof (before_nonneg d w WOK (fst y) H1 (block_of w y) ltac:(lia)). lia.
    Qed.

    Lemma begin_face_ok : forall b k f, 0 <= b < nblocks w -> 0 <= k < count w p b -> 0 <= f < num_faces d ->
      begin_face d dom b k f = Some (sent_face (p, before w p b + k) f).
    Proof.
      intros b k f Hb Hk Hf. destruct (face_ok d w WOK p Hp dom REP b k f Hb Hk Hf) as (a & E & R).
      destruct (local_patch d w WOK p Hp b k Hb Hk) as [Hx Eb].
      unfold begin_face. rewrite E. unfold bind at 1.
      destruct WOK as (_ & _ & _ & _ & _ & HA & _). specialize (HA _ f Hx Hf). unfold across_ok in HA.
      unfold right_face in R. unfold sent_face. cbn [fst snd] in *.
      destruct (face_of w (p, before w p b + k) f) as [|y rf|ys rf|y sub rf].
      - subst a. cbn [fa_rel fa_proc fa_patch fa_block fa_face]. change (zget (p :: none (H - 1)) 0) with (Some p). unfold bind at 1.
        match goal with |- context [zget (?x :: none (H - 1)) 0] => change (zget (x :: none (H - 1)) 0) with (Some x) end. unfold bind at 1.
        unfold indirect_encode. assert (mpisize dom = procs w) as -> by apply REP. rewrite check_true by (b_true; lia).
        rewrite (rank d w p dom REP), Z.eqb_refl. reflexivity.
      - destruct R as (q & i & Fd & ->). destruct HA as (Hy & _). cbn [fa_rel fa_proc fa_patch fa_block fa_face].
        change (zget (q :: none (H - 1)) 0) with (Some q). change (zget (i :: none (H - 1)) 0) with (Some i). unfold bind at 1 2.
        rewrite (encode_enc y q i Hy Fd). unfold bind. destruct (enc p y) as [e1 e2]. reflexivity.
      - destruct R as (l & F & R1 & R2 & R3 & R4 & R5). destruct HA as (HL & Hrf & HP & HB).
        rewrite R1, R2, R3, R4. clear R1 R2 R3 R4.
        assert (forall y e, is_patch w y -> finds w p y (fst e) (snd e) -> indirect_encode dom (fst e) (snd e) = Some (enc p y)) as EE
          by (intros; apply encode_enc; assumption).
        assert (block0 ys = fa_block a) as <-.
        { destruct ys as [|y0 ys]; [destruct d; discriminate|]. symmetry. apply R5. left. reflexivity. }
        destruct (half_pos d) as [HH|HH]; rewrite HH in HL.
        + destruct ys as [|y0 [|y1 [|? ?]]]; cbn [length] in HL; try lia.
          inversion F as [|? e0 ? l0 F0 F0']; subst. inversion F0' as [|? e1 ? l1 F1 F1']; subst. inversion F1'; subst.
          pose proof (EE y0 e0 (HP y0 (or_introl eq_refl)) F0) as E0. pose proof (EE y1 e1 (HP y1 (or_intror (or_introl eq_refl))) F1) as E1.
          rewrite HH. change (zrange 1 2) with [1]. cbn [map mapM].
          change (zget [fst e0; fst e1] 0) with (Some (fst e0)). change (zget [snd e0; snd e1] 0) with (Some (snd e0)).
          change (zget [fst e0; fst e1] 1) with (Some (fst e1)). change (zget [snd e0; snd e1] 1) with (Some (snd e1)).
          unfold bind. rewrite E0, E1. destruct (enc p y0), (enc p y1). reflexivity.
        + destruct ys as [|y0 [|y1 [|y2 [|y3 [|? ?]]]]]; cbn [length] in HL; try lia.
          inversion F as [|? e0 ? l0 F0 F0']; subst. inversion F0' as [|? e1 ? l1 F1 F1']; subst. inversion F1' as [|? e2 ? l2 F2 F2']; subst. inversion F2' as [|? e3 ? l3 F3 F3']; subst. inversion F3'; subst.
          pose proof (EE y0 e0 (HP y0 (or_introl eq_refl)) F0) as E0. pose proof (EE y1 e1 (HP y1 (or_intror (or_introl eq_refl))) F1) as E1.
          pose proof (EE y2 e2 (HP y2 (or_intror (or_intror (or_introl eq_refl)))) F2) as E2. pose proof (EE y3 e3 (HP y3 (or_intror (or_intror (or_intror (or_introl eq_refl))))) F3) as E3.
          rewrite HH. change (zrange 1 4) with [1; 2; 3]. cbn [map mapM].
          unfold bind at 1 2. change (zget [fst e0; fst e1; fst e2; fst e3] 0) with (Some (fst e0)). change (zget [snd e0; snd e1; snd e2; snd e3] 0) with (Some (snd e0)).
          cbv iota. rewrite E0.
          change (zget [fst e0; fst e1; fst e2; fst e3] 1) with (Some (fst e1)). change (zget [snd e0; snd e1; snd e2; snd e3] 1) with (Some (snd e1)).
          change (zget [fst e0; fst e1; fst e2; fst e3] 2) with (Some (fst e2)). change (zget [snd e0; snd e1; snd e2; snd e3] 2) with (Some (snd e2)).
          change (zget [fst e0; fst e1; fst e2; fst e3] 3) with (Some (fst e3)). change (zget [snd e0; snd e1; snd e2; snd e3] 3) with (Some (snd e3)).
          unfold bind. rewrite E1, E2, E3. destruct (enc p y0), (enc p y1), (enc p y2), (enc p y3). reflexivity.
      - destruct R as (q & i & Fd & ->). destruct HA as (Hy & _). cbn [fa_rel fa_proc fa_patch fa_block fa_face].
        change (zget (q :: sub :: none (H - 2)) 0) with (Some q). change (zget (i :: none (H - 1)) 0) with (Some i). unfold bind at 1 2.
        rewrite (encode_enc y q i Hy Fd). unfold bind. destruct (enc p y) as [e1 e2]. reflexivity.
    Qed.

    Lemma begin_corner_ok : forall b k c, 0 <= b < nblocks w -> 0 <= k < count w p b -> 0 <= c < num_corners d ->
      begin_corner d dom b k c = Some (sent_corner (p, before w p b + k) c).
    Proof.
      intros b k c Hb Hk Hc. destruct (corner_ok d w WOK p Hp dom REP b k c Hb Hk Hc) as (a & E & R).
      destruct (local_patch d w WOK p Hp b k Hb Hk) as [Hx Eb].
      unfold begin_corner. rewrite E. unfold bind at 1.
      destruct WOK as (_ & _ & _ & _ & _ & _ & HA & _). specialize (HA _ c Hx Hc). unfold diagonal_ok in HA.
      unfold right_corner in R. unfold sent_corner. cbn [fst snd] in *.
      destruct (corner_of w (p, before w p b + k) c) as [|ys|y|y rc].
      - subst a. reflexivity.
      - subst a. reflexivity.
      - destruct R as (q & i & Fd & ->). destruct HA as (Hy & _). cbn [ca_rel ca_proc ca_patch ca_block ca_corner].
        unfold bind. rewrite (encode_enc y q i Hy Fd). destruct (enc p y) as [e1 e2].
        assert (size w y (p, before w p b + k) <> BOUNDARY) as NB by (unfold size; destruct (_ <? _); [|destruct (_ <? _)]; discriminate).
        destruct (size w y (p, before w p b + k)); [congruence|reflexivity..].
      - destruct R as (q & i & Fd & ->). destruct HA as (Hy & _). cbn [ca_rel ca_proc ca_patch ca_block ca_corner].
        unfold bind. rewrite (encode_enc y q i Hy Fd). destruct (enc p y) as [e1 e2].
        assert (size w y (p, before w p b + k) <> BOUNDARY) as NB by (unfold size; destruct (_ <? _); [|destruct (_ <? _)]; discriminate).
        destruct (size w y (p, before w p b + k)); [congruence|reflexivity..].
    Qed.

    Lemma mapM_index : forall A B (g : Z -> A -> option B) (h : A -> B) l,
      (forall i x, zget l i = Some x -> g i x = Some (h x)) ->
      mapM (fun i => bind (zget l i) (g i)) (zrange 0 (Z.of_nat (length l))) = Some (map h l).
    Proof.
      intros A B g h l HG.
      assert (forall suf pre, l = pre ++ suf ->
        mapM (fun i => bind (zget l i) (g i)) (zrange (Z.of_nat (length pre)) (Z.of_nat (length l))) = Some (map h suf)) as G.
      { induction suf as [|a suf IH]; intros pre E.
        - subst l. rewrite app_nil_r. unfold zrange. rewrite Z.sub_diag. reflexivity.
        - rewrite (range_app _ (Z.of_nat (length pre) + 1)) by (rewrite ?E, ?app_length; cbn [length]; lia).
          replace (zrange (Z.of_nat (length pre)) (Z.of_nat (length pre) + 1)) with [Z.of_nat (length pre)].
          2:{ unfold zrange. replace (Z.of_nat (length pre) + 1 - Z.of_nat (length pre)) with 1 by lia. change (Z.to_nat 1) with 1%nat. cbn [seq map]. f_equal. lia. }
          assert (zget l (Z.of_nat (length pre)) = Some a) as Ea.
          { rewrite E. unfold zget. destruct (Z.ltb_spec (Z.of_nat (length pre)) 0); [lia|]. rewrite Nat2Z.id, nth_error_app2, Nat.sub_diag by lia. reflexivity. }
          cbn [app mapM map]. rewrite Ea. unfold bind at 1 2. rewrite (HG _ _ Ea).
          specialize (IH (pre ++ [a])). rewrite app_length in IH. cbn [length] in IH. rewrite Nat2Z.inj_add in IH. change (Z.of_nat 1) with 1 in IH.
          rewrite IH by (rewrite <- app_assoc; exact E). reflexivity. }
      apply (G l []). reflexivity.
    Qed.

    Lemma mirror_patch : forall n, In n (mirrors dom) -> is_patch w (p, n).
    Proof.
      intros n Hn. unfold mirrors in Hn. apply in_concat in Hn. destruct Hn as (l & Hl & Hn).
      apply in_map_iff in Hl. destruct Hl as (blk & <- & Hb). apply in_map_iff in Hn. destruct Hn as (k & <- & Hk).
      destruct (in_zget _ _ _ Hb) as [b Eb]. destruct (zget_in _ _ _ _ Eb) as [_ Rb].
      assert (0 <= b < nblocks w) as Hb' by (destruct REP as (_ & _ & Hl & _); lia).
      destruct (rep_block d w p dom REP b Hb') as (blk2 & E2 & _ & Be & _ & _ & _ & Ex). rewrite Eb in E2. injection E2 as <-.
      rewrite Be. apply (local_patch d w WOK p Hp b k Hb' (Ex k Hk)).
    Qed.

    Lemma begin_ok : exchange_ok w p dom -> indirect_begin d dom = Some (map (fun n => sent_patch (p, n)) (mirrors dom)).
    Proof.
      intros [XN _]. unfold indirect_begin.
      rewrite (mapM_index _ _ (fun nb block => mapM _ (b_exchange block)) (fun blk => map (fun k => sent_patch (p, b_before blk + k)) (b_exchange blk))).
      - unfold bind. cbv zeta.
        assert (concat (map (fun blk => map (fun k => sent_patch (p, b_before blk + k)) (b_exchange blk)) (blocks dom))
                = map (fun n => sent_patch (p, n)) (mirrors dom)) as E.
        { unfold mirrors. rewrite concat_map, map_map. f_equal. apply map_ext. intros blk. rewrite map_map. reflexivity. }
        rewrite E. rewrite check_true.
        + rewrite check_true; [reflexivity|]. apply Z.eqb_eq. rewrite map_length. symmetry. exact XN.
        + apply Z.eqb_eq. rewrite (concat_len _ _ (Z.to_nat (info_size d))).
          * rewrite Nat2Z.inj_mul. f_equal. destruct d; reflexivity.
          * intros l Hl. apply in_map_iff in Hl. destruct Hl as (n & <- & Hn).
            pose proof (sent_patch_len (p, n) (mirror_patch n Hn)). lia.
      - intros b blk Eb. destruct (zget_in _ _ _ _ Eb) as [_ Rb].
        assert (0 <= b < nblocks w) as Hb by (destruct REP as (_ & _ & Hl & _); lia).
        destruct (rep_block d w p dom REP b Hb) as (blk2 & E2 & Nu & Be & _ & _ & _ & Ex). rewrite Eb in E2. injection E2 as <-.
        apply mapM_map. intros k Hk. specialize (Ex k Hk). rewrite Nu. rewrite check_true by (b_true; lia).
        rewrite (mapM_map _ _ _ (sent_face (p, before w p b + k))).
        + unfold bind at 1. rewrite (mapM_map _ _ _ (sent_corner (p, before w p b + k))).
          * unfold bind. rewrite Be. reflexivity.
          * intros c Hc. apply in_range in Hc. apply begin_corner_ok; assumption.
        + intros f Hf. apply in_range in Hf. apply begin_face_ok; assumption.
    Qed.
  End Owner.

  (* ------------------------------------------- what the receiver knows *)

  Definition key (x : patch) : Z := Z.shiftl (fst x) 32 + snd x.

  Lemma key_inj : forall x y, 0 <= snd x < 2 ^ 31 -> 0 <= snd y < 2 ^ 31 -> key x = key y -> x = y.
  Proof.
    intros [a b] [a' b'] Hx Hy E. unfold key in E. cbn [fst snd] in *. rewrite !Z.shiftl_mul_pow2 in E by lia.
    change (2 ^ 32) with 4294967296 in E. change (2 ^ 31) with 2147483648 in *.
    assert (a = a') by lia. subst a'. f_equal. lia.
  Qed.

  Lemma patch_small : forall x, is_patch w x -> 0 <= snd x < 2 ^ 31 /\ 0 <= fst x < procs w.
  Proof.
    intros x Hx. pose proof Hx as (H1 & _). pose proof (own_bound d w WOK (fst x) H1 x Hx eq_refl).
    destruct WOK as (_ & _ & _ & HT & _). specialize (HT (fst x) H1). lia.
  Qed.

  Definition dec (r p : Z) (y : patch) : Z * Z :=
    if fst y =? p then (-1, -1)
    else match lookup (map key (layer w r)) (key y) 0 with Some i => (fst y, i) | None => (-1, -1) end.

  Lemma lookup_shift : forall ks k s i, lookup ks k s = Some i -> s <= i < s + Z.of_nat (length ks) /\ zget ks (i - s) = Some k.
  Proof.
    induction ks as [|k' ks IH]; intros k s i E; cbn [lookup] in E; [discriminate|].
    destruct (Z.eqb_spec k' k) as [->|N].
    - injection E as <-. cbn [length]. rewrite Z.sub_diag. split; [lia|reflexivity].
    - destruct (IH k (s + 1) i E) as [A B]. cbn [length]. split; [lia|].
      unfold zget in *. destruct (Z.ltb_spec (i - (s + 1)) 0); [lia|]. destruct (Z.ltb_spec (i - s) 0); [lia|].
      replace (Z.to_nat (i - s)) with (S (Z.to_nat (i - (s + 1)))) by lia. exact B.
  Qed.

  Lemma lookup_none : forall ks k s, lookup ks k s = None -> ~ In k ks.
  Proof.
    induction ks as [|k' ks IH]; intros k s E Hin; cbn [lookup] in E; [exact Hin|].
    destruct (Z.eqb_spec k' k) as [->|N]; [discriminate|]. destruct Hin as [->|Hin]; [congruence|]. exact (IH k (s + 1) E Hin).
  Qed.

  Section Receiver.
    Variable r : Z.
    Hypothesis Hr : 0 <= r < procs w.
    Variable dom : domain.
    Hypothesis REP : represents d w r dom.
    Notation L := (layer w r).

    Lemma layer_patch : forall x, In x L -> is_patch w x /\ fst x <> r.
    Proof. intros x Hx. destruct WOK as (_ & _ & _ & _ & _ & _ & _ & HL & _). exact (HL r x Hr Hx). Qed.

    Lemma dec_sees : forall p y, is_patch w y -> sees w r p y (fst (dec r p y)) (snd (dec r p y)).
    Proof.
      intros p y Hy. unfold sees, dec. destruct (Z.eqb_spec (fst y) p) as [E|E]; [right; auto|].
      destruct (lookup (map key L) (key y) 0) as [i|] eqn:El; cbn [fst snd].
      - left. split; [exact E|split; [reflexivity|]].
        apply lookup_shift in El. destruct El as [_ El]. rewrite Z.sub_0_r, zget_map in El.
        destruct (zget L i) as [x|] eqn:Ex; [|discriminate]. cbn [option_map] in El. f_equal.
        destruct (layer_patch x (proj1 (zget_in _ _ _ _ Ex))) as [Px _].
        apply key_inj; [apply patch_small; assumption..|congruence].
      - right. split; [|auto]. right. intros Hin. apply lookup_none in El. apply El. apply in_map. exact Hin.
    Qed.

    Lemma decode_ok : forall p y, is_patch w y ->
      indirect_decode dom (map key L) (fst (enc p y)) (snd (enc p y)) =
      Some (fst (dec r p y), snd (dec r p y), negb (fst (dec r p y) =? -1)).
    Proof.
      intros p y Hy. destruct (patch_small y Hy) as [Hs Hf]. unfold indirect_decode, enc, dec.
      rewrite (rank d w r dom REP).
      destruct (Z.eqb_spec (fst y) p) as [E|E]; cbn [fst snd].
      - destruct (Z.eqb_spec (-1) r); [lia|]. reflexivity.
      - destruct (Z.eqb_spec (fst y) r) as [E2|E2].
        + cbn [Z.eqb negb check Pos.eqb]. destruct (lookup (map key L) (key y) 0) as [i|] eqn:El; [exfalso|reflexivity].
          apply lookup_shift in El. destruct El as [_ El]. rewrite Z.sub_0_r, zget_map in El.
          destruct (zget L i) as [x|] eqn:Ex; [|discriminate]. cbn [option_map] in El.
          destruct (layer_patch x (proj1 (zget_in _ _ _ _ Ex))) as [Px Nx].
          assert (x = y) by (apply key_inj; [apply patch_small; assumption..|congruence]). congruence.
        + destruct (Z.eqb_spec (fst y) (-1)); [lia|]. cbn [negb].
          assert (mpisize dom = procs w) as -> by apply REP. rewrite check_true by (b_true; lia).
          unfold make_key. rewrite check_true by (b_true; lia). unfold bind. fold (key y).
          destruct (lookup (map key L) (key y) 0) as [i|]; cbn [fst snd]; [|reflexivity].
          destruct (Z.eqb_spec (fst y) (-1)); [lia|reflexivity].
    Qed.

    Lemma range_cons : forall lo hi, lo < hi -> zrange lo hi = lo :: zrange (lo + 1) hi.
    Proof.
      intros lo hi Hl. rewrite (range_app lo (lo + 1) hi) by lia.
      replace (zrange lo (lo + 1)) with [lo]; [reflexivity|].
      unfold zrange. replace (lo + 1 - lo) with 1 by lia. change (Z.to_nat 1) with 1%nat. cbn [seq map]. f_equal. lia.
    Qed.

    Definition pr (i : Z) : Z := match zget L i with Some x => fst x | None => 0 end.
    Definition ghost_walk : list (Z * Z) := map (fun i => (pr i, i)) (zrange 0 (Z.of_nat (length L))).

    Lemma walk_ok : (match proc_offsets (dmesh dom) with [] => None | _ :: offs => Some (walk offs 0 0) end) = Some ghost_walk.
    Proof.
      pose proof REP as (_ & _ & _ & _ & _ & _ & _ & _ & _ & _ & _ & (o & O0 & OP & OM & OL & OI)). rewrite OL.
      rewrite range_cons by lia. cbn [map]. f_equal. unfold ghost_walk. rewrite <- OP, <- O0.
      assert (forall q i, 0 <= q < procs w -> o q <= i < o (q + 1) -> 0 <= i < Z.of_nat (length L) -> pr i = q) as PR.
      { intros q i Hq Hi HiL. destruct (zget_some _ L i HiL) as [x Ex]. unfold pr. rewrite Ex. pose proof (OI i x Ex) as B.
        assert (forall a b, 0 <= a <= b -> b <= procs w -> o a <= o b) as Mono.
        { intros a b Hab Hb. replace b with (a + Z.of_nat (Z.to_nat (b - a))) by lia.
          assert (a + Z.of_nat (Z.to_nat (b - a)) <= procs w) as Q by lia. revert Q.
          induction (Z.to_nat (b - a)) as [|k IH]; intros Q; [replace (a + Z.of_nat 0) with a by lia; lia|].
          replace (a + Z.of_nat (S k)) with (a + Z.of_nat k + 1) by lia. specialize (IH ltac:(lia)). pose proof (OM (a + Z.of_nat k) ltac:(lia)). lia. }
        pose proof (layer_patch x (proj1 (zget_in _ _ _ _ Ex))) as [Px _]. destruct (patch_small x Px) as [_ Fx].
        destruct (Z.lt_trichotomy (fst x) q) as [C|[C|C]]; [|exact C|].
        - pose proof (Mono (fst x + 1) q ltac:(lia) ltac:(lia)). lia.
        - pose proof (Mono (q + 1) (fst x) ltac:(lia) ltac:(lia)). lia. }
      assert (forall a b, 0 <= a <= b -> b <= procs w -> o a <= o b) as Mono.
      { intros a b Hab Hb. replace b with (a + Z.of_nat (Z.to_nat (b - a))) by lia.
        assert (a + Z.of_nat (Z.to_nat (b - a)) <= procs w) as Q by lia. revert Q.
        induction (Z.to_nat (b - a)) as [|k IH]; intros Q; [replace (a + Z.of_nat 0) with a by lia; lia|].
        replace (a + Z.of_nat (S k)) with (a + Z.of_nat k + 1) by lia. specialize (IH ltac:(lia)). pose proof (OM (a + Z.of_nat k) ltac:(lia)). lia. }
      assert (forall k q, (k = Z.to_nat (procs w - q))%nat -> 0 <= q <= procs w ->
        walk (map o (zrange (q + 1) (procs w + 1))) q (o q) = map (fun i => (pr i, i)) (zrange (o q) (o (procs w)))) as G.
      { induction k as [|k IH]; intros q Ek Hq.
        - assert (q = procs w) as -> by lia. unfold zrange at 1. replace (procs w + 1 - (procs w + 1)) with 0 by lia. change (Z.to_nat 0) with 0%nat. cbn [seq map walk].
          unfold zrange. rewrite Z.sub_diag. reflexivity.
        - rewrite range_cons by lia. cbn [map walk]. rewrite Z.max_r by (apply OM; lia).
          rewrite IH by lia. rewrite (range_app (o q) (o (q + 1)) (o (procs w))) by (apply Mono; lia). rewrite map_app. f_equal.
          apply map_ext_in. intros i Hi. apply in_range in Hi. f_equal. symmetry. apply PR; [lia|exact Hi|].
          pose proof (Mono 0 q ltac:(lia) ltac:(lia)). pose proof (Mono (q + 1) (procs w) ltac:(lia) ltac:(lia)). rewrite OP in *. lia. }
      rewrite <- (G (Z.to_nat (procs w - 0)) 0 eq_refl ltac:(lia)). rewrite O0. reflexivity.
    Qed.

    Lemma zget_firstn : forall A (l : list A) k i x, zget (firstn k l) i = Some x -> zget l i = Some x /\ i < Z.of_nat k.
    Proof.
      intros A l k i x E. destruct (zget_in _ _ _ _ E) as [_ B]. rewrite firstn_length in B. split; [|lia].
      rewrite <- E. unfold zget. destruct (Z.ltb_spec i 0); [lia|]. symmetry.
      rewrite <- (firstn_skipn k l) at 2. rewrite nth_error_app1; [reflexivity|]. rewrite firstn_length. lia.
    Qed.

    Lemma firstn_snoc : forall A (l : list A) k x, nth_error l k = Some x -> firstn (S k) l = firstn k l ++ [x].
    Proof.
      intros A l. induction l as [|a l IH]; intros [|k] x E; cbn [nth_error] in E; try discriminate.
      - injection E as ->. reflexivity.
      - change (firstn (S (S k)) (a :: l)) with (a :: firstn (S k) l). rewrite (IH k x E). reflexivity.
    Qed.

    Lemma keys_ok : add_keys dom ghost_walk (-1, -1) [] = Some (map key L).
    Proof.
      assert (forall k s prev, (k = length L - s)%nat -> (s <= length L)%nat ->
        (prev = (-1, -1) /\ s = 0%nat \/ exists i, (s = S i) /\ nth_error L i = Some prev) ->
        add_keys dom (map (fun i => (pr i, i)) (zrange (Z.of_nat s) (Z.of_nat (length L)))) prev (map key (firstn s L)) = Some (map key L)) as G.
      { induction k as [|k IH]; intros s prev Ek Hs HP.
        - assert (s = length L) as -> by lia. unfold zrange. rewrite Z.sub_diag. cbn [Z.to_nat seq map add_keys]. rewrite firstn_all. reflexivity.
        - rewrite range_cons by lia. cbn [map add_keys].
          destruct (zget_some _ L (Z.of_nat s) ltac:(lia)) as [x Ex]. destruct (layer_patch x (proj1 (zget_in _ _ _ _ Ex))) as [Px _].
          destruct (patch_small x Px) as [Sx Fx].
          destruct (rep_layer d w WOK r Hr dom REP _ _ Ex) as (_ & _ & _ & _ & EG). rewrite EG. unfold bind at 1. cbn [g_local].
          assert (pr (Z.of_nat s) = fst x) as PX by (unfold pr; rewrite Ex; reflexivity). rewrite PX.
          assert (nth_error L s = Some x) as Ex'.
          { unfold zget in Ex. destruct (Z.ltb_spec (Z.of_nat s) 0); [lia|]. rewrite Nat2Z.id in Ex. exact Ex. }
          rewrite check_true.
          + unfold make_key. rewrite check_true by (b_true; lia). unfold bind. fold (key x).
            destruct (lookup (map key (firstn s L)) (key x) 0) as [i|] eqn:El.
            * exfalso. apply lookup_shift in El. destruct El as [_ El]. rewrite Z.sub_0_r, zget_map in El.
              destruct (zget (firstn s L) i) as [y|] eqn:Ey; [|discriminate]. cbn [option_map] in El.
              apply zget_firstn in Ey. destruct Ey as [Ey Bi]. destruct (layer_patch y (proj1 (zget_in _ _ _ _ Ey))) as [Py _].
              assert (y = x) as -> by (apply key_inj; [apply patch_small; assumption..|congruence]).
              destruct WOK as (_ & _ & _ & _ & _ & _ & _ & _ & HS).
              destruct (zget_in _ _ _ _ Ey) as [_ Bi2].
              destruct (HS r i (Z.of_nat s) x x Hr ltac:(lia) Ey Ex); lia.
            * specialize (IH (S s) (fst x, snd x) ltac:(lia) ltac:(lia)).
              rewrite (firstn_snoc _ _ _ _ Ex'), map_app in IH. cbn [map] in IH.
              replace (Z.of_nat (S s)) with (Z.of_nat s + 1) in IH by lia. apply IH. right. exists s. split; [reflexivity|]. destruct x; exact Ex'.
          + apply Z.ltb_lt. destruct HP as [[-> ->]|(i & -> & Ei)].
            * cbn [fst snd]. destruct (-1 =? fst x); lia.
            * destruct (Z.eqb_spec (fst prev) (fst x)) as [E|E]; [|lia].
              destruct WOK as (_ & _ & _ & _ & _ & _ & _ & _ & HS).
              assert (zget L (Z.of_nat i) = Some prev) as Ei' by (unfold zget; destruct (Z.ltb_spec (Z.of_nat i) 0); [lia|]; rewrite Nat2Z.id; exact Ei).
              destruct (HS r (Z.of_nat i) (Z.of_nat (S i)) prev x Hr ltac:(lia) Ei' Ex); lia. }
      apply (G (length L - 0)%nat 0%nat (-1, -1) eq_refl ltac:(lia)). left. auto.
    Qed.

    (* -------------------------------------------- the stored records *)

    Definition final_face (x : patch) (f : Z) : list Z :=
      match face_of w x f with
      | Edge => put_face (none H) (block_of w x) (none H) f
      | Same y rf =>
          if fst (dec r (fst x) y) =? -1 then put_face (none H) (block_of w y) (none H) rf
          else put_face (fst (dec r (fst x) y) :: none (H - 1)) (block_of w y) (snd (dec r (fst x) y) :: none (H - 1)) rf
      | Coarser y sub rf =>
          if fst (dec r (fst x) y) =? -1 then put_face (none H) (block_of w y) (none H) rf
          else put_face (fst (dec r (fst x) y) :: sub :: none (H - 2)) (block_of w y) (snd (dec r (fst x) y) :: none (H - 1)) (Z.lor rf DOUBLE_FLAG)
      | Finer ys rf =>
          let l := map (dec r (fst x)) ys in
          if forallb (fun e => fst e =? -1) l then put_face (none H) (block0 ys) (none H) rf
          else put_face (map fst l) (block0 ys) (map snd l) (Z.lor rf HALF_FLAG)
      end.

    Definition final_corner (x : patch) (c : Z) : list Z :=
      let answer y rc :=
        [fst (dec r (fst x) y); block_of w y; snd (dec r (fst x) y);
         if fst (dec r (fst x) y) =? -1 then rc else flagged (size w y x) rc] in
      match corner_of w x c with
      | NoCorner | Many _ => [-1; block_of w x; -1; c]
      | Inside y => answer y (num_corners d - 1 - c)
      | Outside y rc => answer y rc
      end.

    Lemma none_cons : none H = -1 :: none (H - 1). Proof. destruct d; reflexivity. Qed.
    Lemma dec_minus : forall p y, is_patch w y -> fst (dec r p y) = -1 -> snd (dec r p y) = -1.
    Proof.
      intros p y Hy E. destruct (patch_small y Hy) as [_ Fy]. unfold dec in *. destruct (fst y =? p); [reflexivity|].
      destruct (lookup _ _ _); cbn [fst snd] in *; [lia|reflexivity].
    Qed.
    Lemma enc_not : forall p y, is_patch w y -> 0 <= p -> negb (fst (enc p y) =? p) = true.
    Proof.
      intros p y Hy Hp. apply negb_true_iff, Z.eqb_neq. unfold enc. destruct (Z.eqb_spec (fst y) p); cbn [fst]; lia.
    Qed.

    Lemma orient_small : forall rf, 0 <= rf < num_orientations d -> 0 <= rf < 24.
    Proof. intros rf. destruct (orient_pos d) as [-> | ->]; lia. Qed.
    Lemma faces_small : forall f, 0 <= f < num_faces d -> 0 <= f < 24.
    Proof. intros f. destruct d; cbn; lia. Qed.
    Lemma corners_small : forall f, 0 <= f < num_corners d -> 0 <= f < 24.
    Proof. intros f. destruct d; cbn; lia. Qed.

    Lemma end_face_ok : forall x f rest, is_patch w x -> fst x <> r -> 0 <= f < num_faces d ->
      end_face d dom (map key L) (fst x) (sent_face x f ++ rest) = Some (final_face x f).
    Proof.
      intros x f rest Hx Hne Hf. destruct (patch_small x Hx) as [_ Fx].
      destruct WOK as (_ & _ & _ & _ & _ & HA & _). specialize (HA x f Hx Hf). unfold across_ok in HA.
      unfold end_face, sent_face, final_face.
      destruct (face_of w x f) as [|y rf|ys rf|y sub rf].
      - rewrite match_put by apply none_tl. unfold bind at 1.
        change (zget (-1 :: none (H - 1)) 0) with (Some (-1)). unfold bind at 1 2. rewrite check_true by (b_true; lia).
        unfold indirect_decode at 1. rewrite (rank d w r dom REP). destruct (Z.eqb_spec (-1) r); [lia|].
        destruct (flag_facts f (faces_small f Hf)) as (F1 & F2 & F3 & _). rewrite F2.
        cbn [Z.eqb Pos.eqb negb check]. unfold bind. rewrite F3. rewrite none_cons. reflexivity.
      - destruct HA as (Hy & Hrf & _). rewrite match_put by apply none_tl. unfold bind at 1.
        change (zget (fst (enc (fst x) y) :: none (H - 1)) 0) with (Some (fst (enc (fst x) y))).
        change (zget (snd (enc (fst x) y) :: none (H - 1)) 0) with (Some (snd (enc (fst x) y))). unfold bind at 1 2.
        rewrite check_true by (apply enc_not; [exact Hy|lia]). rewrite decode_ok by exact Hy. unfold bind at 1.
        destruct (flag_facts rf (orient_small rf Hrf)) as (F1 & F2 & F3 & _). rewrite F2. cbn [Z.eqb negb]. unfold bind. cbn [tl].
        destruct (Z.eqb_spec (fst (dec r (fst x) y)) (-1)) as [E|E]; cbn [negb]; [|reflexivity].
        rewrite E, (dec_minus _ _ Hy E), F3, none_cons. reflexivity.
      - destruct HA as (HL & Hrf & HP & HB).
        rewrite match_put by (rewrite map_length; lia). unfold bind at 1.
        destruct (flag_facts rf (orient_small rf Hrf)) as (F1 & F2 & F3 & F4 & F5 & F6 & F7 & _).
        assert (forall y, In y ys -> negb (fst (enc (fst x) y) =? fst x) = true) as EN by (intros; apply enc_not; [apply HP; assumption|lia]).
        assert (forall y, In y ys -> indirect_decode dom (map key L) (fst (enc (fst x) y)) (snd (enc (fst x) y)) =
           Some (fst (dec r (fst x) y), snd (dec r (fst x) y), negb (fst (dec r (fst x) y) =? -1))) as DO by (intros; apply decode_ok; apply HP; assumption).
        assert (forall y, In y ys -> fst (dec r (fst x) y) = -1 -> snd (dec r (fst x) y) = -1) as DM by (intros; apply dec_minus; [apply HP; assumption|assumption]).
        assert (negb (Z.land (Z.lor rf HALF_FLAG) HALF_FLAG =? 0) = true) as FT by (b_true; exact F6).
        destruct (half_pos d) as [HH|HH]; rewrite HH in HL.
        + destruct ys as [|y0 [|y1 [|? ?]]]; cbn [length] in HL; try lia.
          pose proof (EN y0 (or_introl eq_refl)) as N0. pose proof (EN y1 (or_intror (or_introl eq_refl))) as N1.
          pose proof (DO y0 (or_introl eq_refl)) as D0. pose proof (DO y1 (or_intror (or_introl eq_refl))) as D1.
          pose proof (DM y0 (or_introl eq_refl)) as M0.
          clear EN DO DM. cbn [map].
          change (zget [fst (enc (fst x) y0); fst (enc (fst x) y1)] 0) with (Some (fst (enc (fst x) y0))).
          change (zget [snd (enc (fst x) y0); snd (enc (fst x) y1)] 0) with (Some (snd (enc (fst x) y0))). unfold bind at 1 2.
          rewrite N0. cbn [check]. rewrite D0. unfold bind at 1. rewrite FT. rewrite HH. change (zrange 1 2) with [1]. cbn [mapM].
          change (zget [fst (enc (fst x) y0); fst (enc (fst x) y1)] 1) with (Some (fst (enc (fst x) y1))).
          change (zget [snd (enc (fst x) y0); snd (enc (fst x) y1)] 1) with (Some (snd (enc (fst x) y1))).
          unfold bind. rewrite N1. cbn [check]. rewrite D1. cbn [map fst snd existsb forallb].
          destruct (Z.eqb_spec (fst (dec r (fst x) y0)) (-1)) as [E0|E0]; cbn [negb orb andb].
          * destruct (Z.eqb_spec (fst (dec r (fst x) y1)) (-1)) as [E1|E1]; cbn [negb orb andb]; [|reflexivity].
            rewrite E0, (M0 E0), F4. reflexivity.
          * reflexivity.
        + destruct ys as [|y0 [|y1 [|y2 [|y3 [|? ?]]]]]; cbn [length] in HL; try lia.
          pose proof (EN y0 (or_introl eq_refl)) as N0. pose proof (EN y1 (or_intror (or_introl eq_refl))) as N1.
          pose proof (EN y2 (or_intror (or_intror (or_introl eq_refl)))) as N2. pose proof (EN y3 (or_intror (or_intror (or_intror (or_introl eq_refl))))) as N3.
          pose proof (DO y0 (or_introl eq_refl)) as D0. pose proof (DO y1 (or_intror (or_introl eq_refl))) as D1.
          pose proof (DO y2 (or_intror (or_intror (or_introl eq_refl)))) as D2. pose proof (DO y3 (or_intror (or_intror (or_intror (or_introl eq_refl))))) as D3.
          pose proof (DM y0 (or_introl eq_refl)) as M0.
          clear EN DO DM. cbn [map].
          set (ea := fst (enc (fst x) y0)) in *. set (eb := fst (enc (fst x) y1)) in *. set (ec := fst (enc (fst x) y2)) in *. set (ed := fst (enc (fst x) y3)) in *.
          set (na := snd (enc (fst x) y0)) in *. set (nb := snd (enc (fst x) y1)) in *. set (nc := snd (enc (fst x) y2)) in *. set (nd := snd (enc (fst x) y3)) in *.
          change (zget [ea; eb; ec; ed] 0) with (Some ea). change (zget [na; nb; nc; nd] 0) with (Some na). unfold bind at 1 2.
          rewrite N0. cbn [check]. rewrite D0. unfold bind at 1. rewrite FT. rewrite HH. change (zrange 1 4) with [1; 2; 3]. cbn [mapM].
          change (zget [ea; eb; ec; ed] 1) with (Some eb). change (zget [na; nb; nc; nd] 1) with (Some nb).
          change (zget [ea; eb; ec; ed] 2) with (Some ec). change (zget [na; nb; nc; nd] 2) with (Some nc).
          change (zget [ea; eb; ec; ed] 3) with (Some ed). change (zget [na; nb; nc; nd] 3) with (Some nd).
          unfold bind. rewrite N1, N2, N3. cbn [check]. rewrite D1, D2, D3. cbn [map fst snd existsb forallb].
          destruct (Z.eqb_spec (fst (dec r (fst x) y0)) (-1)) as [E0|E0]; cbn [negb orb andb]; [|reflexivity].
          destruct (Z.eqb_spec (fst (dec r (fst x) y1)) (-1)) as [E1|E1]; cbn [negb orb andb]; [|reflexivity].
          destruct (Z.eqb_spec (fst (dec r (fst x) y2)) (-1)) as [E2|E2]; cbn [negb orb andb]; [|reflexivity].
          destruct (Z.eqb_spec (fst (dec r (fst x) y3)) (-1)) as [E3|E3]; cbn [negb orb andb]; [|reflexivity].
          rewrite E0, (M0 E0), F4. reflexivity.
      - destruct HA as (Hy & Hrf & _). rewrite match_put by (apply none_tl || apply none_tl2). unfold bind at 1.
        change (zget (fst (enc (fst x) y) :: sub :: none (H - 2)) 0) with (Some (fst (enc (fst x) y))).
        change (zget (snd (enc (fst x) y) :: none (H - 1)) 0) with (Some (snd (enc (fst x) y))). unfold bind at 1 2.
        rewrite check_true by (apply enc_not; [exact Hy|lia]). rewrite decode_ok by exact Hy. unfold bind at 1.
        destruct (flag_facts rf (orient_small rf Hrf)) as (_ & _ & _ & _ & _ & _ & _ & F8 & F9 & F10 & F11). rewrite F10. cbn [Z.eqb negb]. unfold bind. cbn [tl].
        destruct (Z.eqb_spec (fst (dec r (fst x) y)) (-1)) as [E|E]; cbn [negb]; [|reflexivity].
        rewrite E, (dec_minus _ _ Hy E), F8, none_cons. reflexivity.
    Qed.

    Lemma flagged_ldiff : forall y x rc, 0 <= rc < 24 -> Z.ldiff (flagged (size w y x) rc) FLAGS = rc.
    Proof.
      intros y x rc Hrc. destruct (flag_facts rc Hrc) as (F1 & F2 & F3 & F4 & F5 & F6 & F7 & F8 & _).
      destruct (size w y x); cbn [flagged]; assumption.
    Qed.

    Lemma end_corner_ok : forall x c rest, is_patch w x -> fst x <> r -> 0 <= c < num_corners d ->
      end_corner dom (map key L) (fst x) (sent_corner x c ++ rest) = Some (final_corner x c).
    Proof.
      intros x c rest Hx Hne Hc. destruct (patch_small x Hx) as [_ Fx].
      destruct WOK as (_ & _ & _ & _ & _ & _ & HA & _). specialize (HA x c Hx Hc). unfold diagonal_ok in HA.
      unfold end_corner, sent_corner, final_corner.
      assert (0 <= num_corners d - 1 - c < num_corners d) as Hc' by lia.
      destruct (corner_of w x c) as [|ys|y|y rc].
      - cbn [app match_corner]. unfold bind at 1. rewrite check_true by (b_true; lia).
        unfold indirect_decode. rewrite (rank d w r dom REP). destruct (Z.eqb_spec (-1) r); [lia|].
        cbn [Z.eqb Pos.eqb negb check]. unfold bind.
        destruct (flag_facts c (corners_small c Hc)) as (_ & _ & F3 & _). rewrite F3. reflexivity.
      - cbn [app match_corner]. unfold bind at 1. rewrite check_true by (b_true; lia).
        unfold indirect_decode. rewrite (rank d w r dom REP). destruct (Z.eqb_spec (-1) r); [lia|].
        cbn [Z.eqb Pos.eqb negb check]. unfold bind.
        destruct (flag_facts c (corners_small c Hc)) as (_ & _ & F3 & _). rewrite F3. reflexivity.
      - destruct HA as [Hy _]. cbn [app match_corner]. unfold bind at 1. rewrite check_true by (apply enc_not; [exact Hy|lia]).
        rewrite decode_ok by exact Hy. unfold bind.
        destruct (Z.eqb_spec (fst (dec r (fst x) y)) (-1)) as [E|E]; cbn [negb]; [|reflexivity].
        rewrite flagged_ldiff by (apply corners_small; exact Hc'). reflexivity.
      - destruct HA as (Hy & Hrc & _). cbn [app match_corner]. unfold bind at 1. rewrite check_true by (apply enc_not; [exact Hy|lia]).
        rewrite decode_ok by exact Hy. unfold bind.
        destruct (Z.eqb_spec (fst (dec r (fst x) y)) (-1)) as [E|E]; cbn [negb]; [|reflexivity].
        rewrite flagged_ldiff by (apply corners_small; exact Hrc). reflexivity.
    Qed.

    Definition final_patch (x : patch) : list Z :=
      concat (map (final_face x) (zrange 0 (num_faces d))) ++ concat (map (final_corner x) (zrange 0 (num_corners d))).

    Lemma sent_at_face : forall x f, is_patch w x -> 0 <= f < num_faces d ->
      exists rest, skipn (Z.to_nat f * Z.to_nat (face_info_size d)) (sent_patch x) = sent_face x f ++ rest.
    Proof.
      intros x f Hx Hf. unfold sent_patch. rewrite skipn_concat.
      - rewrite (skipn_nth _ _ _ (sent_face x f)).
        + cbn [concat]. rewrite <- app_assoc. eauto.
        + rewrite nth_error_map, nth_error_range by lia. cbn [option_map]. do 2 f_equal. lia.
      - intros l Hl. apply in_map_iff in Hl. destruct Hl as (f' & <- & Hf'). apply in_range in Hf'. apply sent_face_len; assumption.
      - rewrite map_length, length_range. lia.
    Qed.

    Lemma sent_at_corner : forall x c, is_patch w x -> 0 <= c < num_corners d ->
      exists rest, skipn (Z.to_nat (num_faces d * face_info_size d) + Z.to_nat c * 4) (sent_patch x) = sent_corner x c ++ rest.
    Proof.
      intros x c Hx Hc. unfold sent_patch.
      assert (length (concat (map (sent_face x) (zrange 0 (num_faces d)))) = Z.to_nat (num_faces d * face_info_size d)) as HL.
      { rewrite (concat_len _ _ (Z.to_nat (face_info_size d))).
        - rewrite map_length, length_range. destruct d; reflexivity.
        - intros l Hl. apply in_map_iff in Hl. destruct Hl as (f & <- & Hf). apply in_range in Hf. apply sent_face_len; assumption. }
      rewrite skipn_app, HL. rewrite skipn_all2 by lia. cbn [app].
      replace (Z.to_nat (num_faces d * face_info_size d) + Z.to_nat c * 4 - Z.to_nat (num_faces d * face_info_size d))%nat with (Z.to_nat c * 4)%nat by lia.
      rewrite <- (app_nil_r (concat _)). rewrite skipn_concat.
      - rewrite (skipn_nth _ _ _ (sent_corner x c)).
        + cbn [concat]. rewrite <- app_assoc. eauto.
        + rewrite nth_error_map, nth_error_range by lia. cbn [option_map]. do 2 f_equal. lia.
      - intros l Hl. apply in_map_iff in Hl. destruct Hl as (f' & <- & Hf'). apply sent_corner_len.
      - rewrite map_length, length_range. lia.
    Qed.

    Lemma end_ghost_ok : forall x, is_patch w x -> fst x <> r -> end_ghost d dom (map key L) (fst x) (sent_patch x) = Some (final_patch x).
    Proof.
      intros x Hx Hne. unfold end_ghost, final_patch.
      rewrite (mapM_map _ _ _ (final_face x)).
      - unfold bind at 1. rewrite (mapM_map _ _ _ (final_corner x)); [reflexivity|].
        intros c Hc. apply in_range in Hc. destruct (sent_at_corner x c Hx Hc) as [rest ->]. apply end_corner_ok; assumption.
      - intros f Hf. apply in_range in Hf. destruct (sent_at_face x f Hx Hf) as [rest ->]. apply end_face_ok; assumption.
    Qed.

    Lemma end_ok : forall received,
      (forall i x, zget L i = Some x -> received i = Some (sent_patch x)) ->
      indirect_end d dom received = Some (map final_patch L).
    Proof.
      intros received HR. unfold indirect_end. rewrite walk_ok. unfold bind at 1. rewrite keys_ok. unfold bind at 1.
      rewrite check_true.
      2:{ apply Z.eqb_eq. rewrite map_length. symmetry. apply REP. }
      unfold ghost_walk.
      pose proof (mapM_index _ _ (fun i x => bind (received i) (end_ghost d dom (map key L) (pr i))) final_patch L) as G.
      rewrite <- G.
      - clear G. assert (forall l, (forall i, In i l -> 0 <= i < Z.of_nat (length L)) ->
          mapM (fun '(p, ng) => bind (received ng) (end_ghost d dom (map key L) p)) (map (fun i => (pr i, i)) l)
          = mapM (fun i => bind (zget L i) (fun _ => bind (received i) (end_ghost d dom (map key L) (pr i)))) l) as E.
        { induction l as [|i l IH]; intros Hl; [reflexivity|]. cbn [map mapM].
          destruct (zget_some _ L i (Hl i (or_introl eq_refl))) as [x Ex]. rewrite Ex. rewrite IH by (intros; apply Hl; right; assumption). reflexivity. }
        apply E. intros i Hi. apply in_range in Hi. exact Hi.
      - intros i x Ex. rewrite (HR i x Ex). unfold bind. unfold pr. rewrite Ex.
        destruct (layer_patch x (proj1 (zget_in _ _ _ _ Ex))) as [Px Nx]. apply end_ghost_ok; assumption.
    Qed.

    (* --------------------------------------------------- the answers *)

    Lemma final_face_len : forall x f, is_patch w x -> 0 <= f < num_faces d -> length (final_face x f) = Z.to_nat (face_info_size d).
    Proof.
      intros x f Hx Hf. destruct WOK as (_ & _ & _ & _ & _ & HA & _). specialize (HA x f Hx Hf). unfold across_ok in HA.
      unfold final_face. destruct (face_of w x f) as [|y rf|ys rf|y sub rf]; cbv zeta; try destruct (_ =? -1); try destruct (forallb _ _);
        apply put_len; rewrite ?map_length; try apply none_len; try apply none_tl; try apply none_tl2; lia.
    Qed.

    Lemma final_corner_len : forall x c, length (final_corner x c) = 4%nat.
    Proof. intros x c. unfold final_corner. destruct (corner_of w x c); reflexivity. Qed.

    Lemma final_at_face : forall x f, is_patch w x -> 0 <= f < num_faces d ->
      exists rest, skipn (Z.to_nat (face_info_size d * f)) (final_patch x) = final_face x f ++ rest.
    Proof.
      intros x f Hx Hf. unfold final_patch.
      replace (Z.to_nat (face_info_size d * f)) with (Z.to_nat f * Z.to_nat (face_info_size d))%nat.
      2:{ rewrite Z.mul_comm, Z2Nat.inj_mul; [reflexivity|lia|destruct d; vm_compute; congruence]. }
      rewrite skipn_concat.
      - rewrite (skipn_nth _ _ _ (final_face x f)).
        + cbn [concat]. rewrite <- app_assoc. eauto.
        + rewrite nth_error_map, nth_error_range by lia. cbn [option_map]. do 2 f_equal. lia.
      - intros l Hl. apply in_map_iff in Hl. destruct Hl as (f' & <- & Hf'). apply in_range in Hf'. apply final_face_len; assumption.
      - rewrite map_length, length_range. lia.
    Qed.

    Lemma final_at_corner : forall x c, is_patch w x -> 0 <= c < num_corners d ->
      exists rest, skipn (Z.to_nat (face_info_size d * num_faces d + corner_info_size * c)) (final_patch x) = final_corner x c ++ rest.
    Proof.
      intros x c Hx Hc. unfold final_patch.
      assert (length (concat (map (final_face x) (zrange 0 (num_faces d)))) = Z.to_nat (num_faces d * face_info_size d)) as HL.
      { rewrite (concat_len _ _ (Z.to_nat (face_info_size d))).
        - rewrite map_length, length_range. destruct d; reflexivity.
        - intros l Hl. apply in_map_iff in Hl. destruct Hl as (f & <- & Hf). apply in_range in Hf. apply final_face_len; assumption. }
      replace (Z.to_nat (face_info_size d * num_faces d + corner_info_size * c)) with (Z.to_nat (num_faces d * face_info_size d) + Z.to_nat c * 4)%nat.
      2:{ unfold corner_info_size. assert (0 <= num_faces d * face_info_size d) by (destruct d; vm_compute; congruence). rewrite (Z.mul_comm (face_info_size d)). lia. }
      rewrite skipn_app, HL. rewrite skipn_all2 by lia. cbn [app].
      replace (Z.to_nat (num_faces d * face_info_size d) + Z.to_nat c * 4 - Z.to_nat (num_faces d * face_info_size d))%nat with (Z.to_nat c * 4)%nat by lia.
      rewrite <- (app_nil_r (concat _)). rewrite skipn_concat.
      - rewrite (skipn_nth _ _ _ (final_corner x c)).
        + cbn [concat]. rewrite <- app_assoc. eauto.
        + rewrite nth_error_map, nth_error_range by lia. cbn [option_map]. do 2 f_equal. lia.
      - intros l Hl. apply in_map_iff in Hl. destruct Hl as (f' & <- & Hf'). apply final_corner_len.
      - rewrite map_length, length_range. lia.
    Qed.

    Lemma nb_len : Z.of_nat (length (blocks dom)) = nblocks w. Proof. apply REP. Qed.
    Lemma ng_len : num_ghost_patches dom = Z.of_nat (length L). Proof. apply REP. Qed.
    Lemma orient_eq : num_orientations d = num_faces d * num_half d. Proof. reflexivity. Qed.

    Lemma forallb_none : forall k, forallb (fun x => x =? -1) (none k) = true.
    Proof. intros k. apply forallb_forall. intros x Hx. apply repeat_spec in Hx. subst x. reflexivity. Qed.
    Lemma map_none : forall k, map (fun _ : Z => -1) (none k) = none k.
    Proof. intros k. unfold none. induction (Z.to_nat k); cbn [repeat map]; congruence. Qed.

    Lemma face_answer_ok : forall i x f, zget L i = Some x -> 0 <= f < num_faces d ->
      exists a, indirect_face_neighbors d dom (map final_patch L) i f = Some a /\ right_indirect_face d w r x f a.
    Proof.
      intros i x f Ex Hf. destruct (zget_in _ _ _ _ Ex) as [Hin Bi]. destruct (layer_patch x Hin) as [Hx Hne].
      unfold indirect_face_neighbors. rewrite ng_len. rewrite check_true by (b_true; lia). rewrite check_true by (b_true; lia).
      rewrite zget_map, Ex. cbn [option_map]. unfold bind at 1. destruct (final_at_face x f Hx Hf) as [rest ->].
      rewrite nb_len. rewrite <- orient_eq.
      destruct WOK as (_ & _ & _ & _ & _ & HA & _). specialize (HA x f Hx Hf). unfold across_ok in HA.
      unfold final_face, right_indirect_face. pose proof Hx as (_ & Bx & _). pose proof (faces_orient d) as FO.
      assert (forall b rf, 0 <= b < nblocks w -> 0 <= rf < num_orientations d ->
        bind (match_face d (put_face (none H) b (none H) rf ++ rest)) (fun '(grproc, grblockno, grpatchno, grfaceno) =>
          check ((0 <=? grblockno) && (grblockno <? nblocks w)) (
          let rfaceno := Z.ldiff grfaceno FLAGS in
          check ((0 <=? rfaceno) && (rfaceno <? num_orientations d)) (
          bind (zget grproc 0) (fun p0 =>
          if Z.land grfaceno FLAGS =? 0 then
            if p0 =? -1 then
              check (forallb (fun x => x =? -1) grproc && forallb (fun x => x =? -1) grpatchno) (
              Some (mkFA BOUNDARY (map (fun _ => -1) grproc) grblockno (map (fun _ => -1) grpatchno) rfaceno))
            else Some (mkFA SAMESIZE grproc grblockno grpatchno rfaceno)
          else if negb (Z.land grfaceno HALF_FLAG =? 0) then
            check (Z.land grfaceno DOUBLE_FLAG =? 0) (Some (mkFA HALFSIZE grproc grblockno grpatchno rfaceno))
          else
            check (negb (Z.land grfaceno DOUBLE_FLAG =? 0)) (Some (mkFA DOUBLESIZE grproc grblockno grpatchno rfaceno))))))
        = Some (mkFA BOUNDARY (none H) b (none H) rf)) as NB.
      { intros b rf Hb Hrf. rewrite match_put by apply none_len. unfold bind at 1. rewrite check_true by (b_true; lia).
        destruct (flag_facts rf (orient_small rf Hrf)) as (F1 & F2 & F3 & _). rewrite F1, F3. cbv zeta. rewrite check_true by (b_true; lia).
        assert (zget (none H) 0 = Some (-1)) as -> by (rewrite none_cons; reflexivity). unfold bind. cbn [Z.eqb Pos.eqb].
        rewrite forallb_none, map_none. reflexivity. }
      destruct (face_of w x f) as [|y rf|ys rf|y sub rf].
      - rewrite NB by lia. eauto.
      - destruct HA as (Hy & Hrf & _). pose proof Hy as (_ & By & _). pose proof (dec_sees (fst x) y Hy) as DS.
        destruct (Z.eqb_spec (fst (dec r (fst x) y)) (-1)) as [E|E].
        + rewrite NB by lia. eexists. split; [reflexivity|]. exists (fst (dec r (fst x) y)), (snd (dec r (fst x) y)). split; [exact DS|].
          rewrite E. reflexivity.
        + rewrite match_put by apply none_tl. unfold bind at 1. rewrite check_true by (b_true; lia).
          destruct (flag_facts rf (orient_small rf Hrf)) as (F1 & F2 & F3 & _). rewrite F1, F3. cbv zeta. rewrite check_true by (b_true; lia).
          match goal with |- context [zget (?a :: ?l) 0] => change (zget (a :: l) 0) with (Some a) end. unfold bind. cbn [Z.eqb].
          destruct (Z.eqb_spec (fst (dec r (fst x) y)) (-1)); [congruence|].
          eexists. split; [reflexivity|]. exists (fst (dec r (fst x) y)), (snd (dec r (fst x) y)). split; [exact DS|].
          destruct (Z.eqb_spec (fst (dec r (fst x) y)) (-1)); [congruence|reflexivity].
      - destruct HA as (HL & Hrf & HP & HB). cbv zeta.
        assert (0 <= block0 ys < nblocks w /\ forall y, In y ys -> block0 ys = block_of w y) as [B0 B1].
        { destruct ys as [|y0 ys]; [destruct d; discriminate|]. cbn [block0]. split.
          - apply (HP y0 (or_introl eq_refl)).
          - intros y Hy. apply HB; [left; reflexivity|exact Hy]. }
        assert (Forall2 (fun y e => sees w r (fst x) y (fst e) (snd e)) ys (map (dec r (fst x)) ys)) as FS.
        { clear - WOK Hr HP. induction ys as [|y ys IH]; cbn [map]; constructor.
          - apply dec_sees. apply HP. left. reflexivity.
          - apply IH. intros; apply HP; right; assumption. }
        destruct (forallb (fun e => fst e =? -1) (map (dec r (fst x)) ys)) eqn:EA.
        + rewrite NB by lia. eexists. split; [reflexivity|]. exists (map (dec r (fst x)) ys). cbn [fa_rel fa_proc fa_patch fa_face fa_block].
          split; [exact FS|]. rewrite EA.
          assert (map fst (map (dec r (fst x)) ys) = none H /\ map snd (map (dec r (fst x)) ys) = none H) as [-> ->]; [|auto].
          unfold none. rewrite <- HL, Nat2Z.id.
          clear - WOK Hr HP EA. induction ys as [|y ys IH]; [split; reflexivity|].
          cbn [map forallb length repeat] in *. apply andb_true_iff in EA. destruct EA as [E1 E2]. apply Z.eqb_eq in E1.
          destruct IH as [I1 I2]; [intros; apply HP; right; assumption|exact E2|].
          rewrite I1, I2, E1, (dec_minus _ _ (HP y (or_introl eq_refl)) E1). split; reflexivity.
        + rewrite match_put by (rewrite !map_length; lia). unfold bind at 1. rewrite check_true by (b_true; lia).
          destruct (flag_facts rf (orient_small rf Hrf)) as (F1 & F2 & F3 & F4 & F5 & F6 & F7 & _). rewrite F4, F7. cbv zeta. rewrite check_true by (b_true; lia).
          destruct ys as [|y0 ys]; [destruct d; discriminate|].
          cbn [map]. match goal with |- context [zget (?a :: ?l) 0] => change (zget (a :: l) 0) with (Some a) end. unfold bind.
          destruct (Z.eqb_spec (Z.land (Z.lor rf HALF_FLAG) FLAGS) 0); [congruence|].
          destruct (Z.eqb_spec (Z.land (Z.lor rf HALF_FLAG) HALF_FLAG) 0); [congruence|]. cbn [negb Z.eqb check].
          eexists. split; [reflexivity|]. exists (map (dec r (fst x)) (y0 :: ys)). rewrite EA.
          cbn [fa_rel fa_proc fa_patch fa_face fa_block]. split; [exact FS|]. split; [reflexivity|]. split; [reflexivity|]. split; [reflexivity|]. split; [reflexivity|exact B1].
      - destruct HA as (Hy & Hrf & _). pose proof Hy as (_ & By & _). pose proof (dec_sees (fst x) y Hy) as DS.
        destruct (Z.eqb_spec (fst (dec r (fst x) y)) (-1)) as [E|E].
        + rewrite NB by lia. eexists. split; [reflexivity|]. exists (fst (dec r (fst x) y)), (snd (dec r (fst x) y)). split; [exact DS|].
          rewrite E. reflexivity.
        + rewrite match_put by (apply none_tl || apply none_tl2). unfold bind at 1. rewrite check_true by (b_true; lia).
          destruct (flag_facts rf (orient_small rf Hrf)) as (_ & _ & _ & _ & _ & _ & _ & F8 & F9 & F10 & F11). rewrite F8, F10. cbv zeta. rewrite check_true by (b_true; lia).
          match goal with |- context [zget (?a :: ?l) 0] => change (zget (a :: l) 0) with (Some a) end. unfold bind.
          destruct (Z.eqb_spec (Z.land (Z.lor rf DOUBLE_FLAG) FLAGS) 0); [congruence|]. cbn [Z.eqb negb].
          rewrite check_true by (b_true; exact F11).
          eexists. split; [reflexivity|]. exists (fst (dec r (fst x) y)), (snd (dec r (fst x) y)). split; [exact DS|].
          destruct (Z.eqb_spec (fst (dec r (fst x) y)) (-1)); [congruence|reflexivity].
    Qed.

    Lemma corner_answer_ok : forall i x c, zget L i = Some x -> 0 <= c < num_corners d ->
      exists a, indirect_corner_neighbor d dom (map final_patch L) i c = Some a /\ right_indirect_corner d w r x c a.
    Proof.
      intros i x c Ex Hc. destruct (zget_in _ _ _ _ Ex) as [Hin Bi]. destruct (layer_patch x Hin) as [Hx Hne].
      unfold indirect_corner_neighbor. rewrite ng_len. rewrite check_true by (b_true; lia). rewrite check_true by (b_true; lia).
      rewrite zget_map, Ex. cbn [option_map]. unfold bind at 1. destruct (final_at_corner x c Hx Hc) as [rest ->].
      rewrite nb_len.
      destruct WOK as (_ & _ & _ & _ & _ & _ & HA & _). specialize (HA x c Hx Hc). unfold diagonal_ok in HA.
      unfold final_corner, right_indirect_corner. pose proof Hx as (_ & Bx & _).
      assert (forall y rc, is_patch w y -> 0 <= rc < num_corners d ->
        exists a,
        bind (match_corner ([fst (dec r (fst x) y); block_of w y; snd (dec r (fst x) y); if fst (dec r (fst x) y) =? -1 then rc else flagged (size w y x) rc] ++ rest)) (fun '(grproc, grblockno, grpatchno, grcornerno) =>
          check ((0 <=? grblockno) && (grblockno <? nblocks w)) (
          let rcornerno := Z.ldiff grcornerno FLAGS in
          check ((0 <=? rcornerno) && (rcornerno <? num_corners d)) (
          if Z.land grcornerno FLAGS =? 0 then
            if grproc =? -1 then
              check (grpatchno =? -1) (Some (mkCA BOUNDARY (Some (-1)) grblockno (Some (-1)) rcornerno))
            else Some (mkCA SAMESIZE (Some grproc) grblockno (Some grpatchno) rcornerno)
          else if negb (Z.land grcornerno HALF_FLAG =? 0) then
            check (Z.land grcornerno DOUBLE_FLAG =? 0) (Some (mkCA HALFSIZE (Some grproc) grblockno (Some grpatchno) rcornerno))
          else
            check (negb (Z.land grcornerno DOUBLE_FLAG =? 0)) (Some (mkCA DOUBLESIZE (Some grproc) grblockno (Some grpatchno) rcornerno)))))
        = Some a /\
        exists q i, sees w r (fst x) y q i /\
          a = if q =? -1 then mkCA BOUNDARY (Some (-1)) (block_of w y) (Some (-1)) rc
              else mkCA (size w y x) (Some q) (block_of w y) (Some i) rc) as ANS.
      { intros y rc Hy Hrc. pose proof Hy as (_ & By & _). pose proof (dec_sees (fst x) y Hy) as DS.
        cbn [app match_corner]. unfold bind at 1. rewrite check_true by (b_true; lia).
        destruct (flag_facts rc (corners_small rc Hrc)) as (F1 & F2 & F3 & F4 & F5 & F6 & F7 & F8 & F9 & F10 & F11).
        destruct (Z.eqb_spec (fst (dec r (fst x) y)) (-1)) as [E|E].
        - rewrite F1, F3. cbv zeta. rewrite check_true by (b_true; lia). cbn [Z.eqb]. rewrite check_true by (b_true; apply dec_minus; assumption).
          eexists. split; [reflexivity|]. exists (fst (dec r (fst x) y)), (snd (dec r (fst x) y)). split; [exact DS|]. rewrite E. reflexivity.
        - rewrite flagged_ldiff by (apply corners_small; exact Hrc). cbv zeta. rewrite check_true by (b_true; lia).
          eexists. split; [|exists (fst (dec r (fst x) y)), (snd (dec r (fst x) y)); split; [exact DS|reflexivity]].
          destruct (Z.eqb_spec (fst (dec r (fst x) y)) (-1)); [congruence|].
          assert (size w y x <> BOUNDARY) as NBd by (unfold size; destruct (_ <? _); [|destruct (_ <? _)]; discriminate).
          destruct (size w y x); cbn [flagged].
          + congruence.
          + destruct (Z.eqb_spec (Z.land (Z.lor rc HALF_FLAG) FLAGS) 0); [congruence|].
            destruct (Z.eqb_spec (Z.land (Z.lor rc HALF_FLAG) HALF_FLAG) 0); [congruence|]. cbn [negb]. rewrite F7. reflexivity.
          + rewrite F1. reflexivity.
          + destruct (Z.eqb_spec (Z.land (Z.lor rc DOUBLE_FLAG) FLAGS) 0); [congruence|]. rewrite F10. cbn [Z.eqb negb].
            rewrite check_true by (b_true; exact F11). reflexivity. }
      assert (0 <= num_corners d - 1 - c < num_corners d) as Hc' by lia.
      destruct (corner_of w x c) as [|ys|y|y rc].
      - cbn [app match_corner]. unfold bind. rewrite check_true by (b_true; lia).
        destruct (flag_facts c (corners_small c Hc)) as (F1 & _ & F3 & _). rewrite F1, F3. cbv zeta. rewrite check_true by (b_true; lia).
        eexists. split; reflexivity.
      - cbn [app match_corner]. unfold bind. rewrite check_true by (b_true; lia).
        destruct (flag_facts c (corners_small c Hc)) as (F1 & _ & F3 & _). rewrite F1, F3. cbv zeta. rewrite check_true by (b_true; lia).
        eexists. split; reflexivity.
      - destruct HA as (Hy & _). exact (ANS y (num_corners d - 1 - c) Hy Hc').
      - destruct HA as (Hy & Hrc & _). exact (ANS y rc Hy Hrc).
    Qed.
  End Receiver.
End Dim.
