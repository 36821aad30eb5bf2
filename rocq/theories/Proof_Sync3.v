(** Corrections at one face. *)
From Coq Require Import ZArith QArith List Lia Lqa Bool Qfield.
From Verif Require Import Base_Float Model_Face Spec_Face Proof_Face5 Model_Grid Spec_Grid Proof_Grid Proof_Grid2 Proof_Grid4 Proof_Grid5
  Model_Sync Spec_Sync Proof_Sync Proof_Sync2.
Import ListNotations.
Open Scope Z_scope.

Definition WIN (f t mq : Z) : cell := match f with 0 => FP 0 t mq | 1 => FM 1 t mq | 2 => GP 0 t mq | _ => GM 1 t mq end.
Definition WOUT (f t mq : Z) : cell := match f with 0 => FM 0 t mq | 1 => FP 1 t mq | 2 => GM 0 t mq | _ => GP 1 t mq end.
Definition sg (f : Z) : Z := if Z.odd f then -1 else 1.

Lemma inflow_sg : forall r f t mq, 0 <= f < 4 ->
  (inflow r f t mq == inject_Z (sg f) * val r (EF f t mq 0) - val r (WIN f t mq))%Q.
Proof. intros r f t mq Hf. face4 f Hf; unfold inflow, WIN, sg; cbn [Z.odd]; ring. Qed.
Lemma outside_sg : forall r f t mq, 0 <= f < 4 ->
  (inflow_outside r f t mq == inject_Z (sg f) * val r (EF f t mq 1) + val r (WOUT f t mq))%Q.
Proof. intros r f t mq Hf. face4 f Hf; unfold inflow_outside, WOUT, sg; cbn [Z.odd]; ring. Qed.

Lemma w0_seq : forall s0 f g W W' V, writes none s0 f W V -> writes none s0 g W' V ->
  writes none s0 (seq f g) (fun c => W c \/ W' c) V.
Proof.
  intros s0 f g W W' V Hf Hg. eapply writes_sub; [apply (writes_seq none none s0 f g W W' V Hf Hg)|].
  - intros c [].
  - intros c [[]|[]].
Qed.

Lemma w0_set : forall s0 d c x v (V : arr), in_q d c = true -> x = Some v -> V c = Some v ->
  writes none s0 (fun q => bind x (wr d q c)) (fun c' => c' = c) V.
Proof. intros s0 d c x v V Hc -> HV. cbn [bind]. now apply writes_cell. Qed.

Section Face.
  Variable rnd : Q -> Q.
  Hypothesis Hrnd : rounding rnd.
  Variable d : dims.
  Variable m : Z.
  Hypothesis Hx : mx d = m.
  Hypothesis Hy : my d = m.
  Hypothesis Hm : 1 <= m < 2 ^ 28.
  Hypothesis Hb : 2 <= mbc d.

  Lemma face_len_m : forall f, face_len d f = m.
  Proof. intros f. unfold face_len. rewrite Hx, Hy. now destruct (f <? 2). Qed.

  Lemma in_wave : forall a t mq, 0 <= a < 16 -> 1 <= t <= m -> 1 <= mq <= meqn d -> in_reg d (a, t, mq) = true.
  Proof.
    intros a t mq Ha Ht Hmq. apply in_reg_iff. rewrite Hx, Hy.
    replace (a <? 16) with true by (symmetry; apply Z.ltb_lt; lia). destruct (along_y a); lia.
  Qed.
  Lemma in_area : forall f t, 0 <= f < 4 -> 1 <= t <= m -> in_reg d (AR f t) = true.
  Proof.
    intros f t Hf Ht. unfold AR. apply in_reg_iff. rewrite Hx, Hy.
    replace (20 + f <? 16) with false by (symmetry; apply Z.ltb_ge; lia). destruct (along_y (20 + f)); lia.
  Qed.
  Lemma in_WIN : forall f t mq, 0 <= f < 4 -> 1 <= t <= m -> 1 <= mq <= meqn d -> in_reg d (WIN f t mq) = true.
  Proof. intros f t mq Hf Ht Hmq. face4 f Hf; unfold WIN, FP, FM, GP, GM; apply in_wave; lia. Qed.
  Lemma in_WOUT : forall f t mq, 0 <= f < 4 -> 1 <= t <= m -> 1 <= mq <= meqn d -> in_reg d (WOUT f t mq) = true.
  Proof. intros f t mq Hf Ht Hmq. face4 f Hf; unfold WOUT, FP, FM, GP, GM; apply in_wave; lia. Qed.
  Lemma in_EF : forall f t mq s, 0 <= f < 4 -> 0 <= s <= 1 -> 1 <= t <= m -> 1 <= mq <= meqn d -> in_reg d (EF f t mq s) = true.
  Proof. intros f t mq s Hf Hs Ht Hmq. unfold EF. apply in_wave; lia. Qed.

  (* ------------------------------------------------------------ same size *)

  Definition same_dummy (rn : regs) : arr := fun c =>
    let '(i, j, mq) := c in
    Some (val rn (if i =? 0 then FM 0 j mq else if i =? -1 then EF 0 j mq 1
      else if i =? m + 1 then FP 1 j mq else if i =? m + 2 then EF 1 j mq 1
      else if j =? 0 then GM 0 i mq else if j =? -1 then EF 2 i mq 1
      else if j =? m + 1 then GP 1 i mq else EF 3 i mq 1)).

  Lemma samesize_fill_ok : forall rn, assigned d rn -> exists D, samesize_fill d rn = Some D /\
    forall nf t mq, 0 <= nf < 4 -> 1 <= t <= m -> 1 <= mq <= meqn d ->
      D (at3 (inner_cell nf m 0 t) mq) = Some (val rn (WOUT nf t mq)) /\
      D (at3 (inner_cell nf m (-1) t) mq) = Some (val rn (EF nf t mq 1)).
  Proof.
    intros rn HA. unfold samesize_fill.
    assert (W : writes none zeros
      (loop 1 (meqn d) (fun mq => seq
        (loop 1 (my d) (fun j => seq (seq (fun q => bind (rdr d rn (FM 0 j mq)) (wr d q (0, j, mq))) (fun q => bind (rdr d rn (EF 0 j mq 1)) (wr d q (-1, j, mq))))
             (seq (fun q => bind (rdr d rn (FP 1 j mq)) (wr d q (mx d + 1, j, mq))) (fun q => bind (rdr d rn (EF 1 j mq 1)) (wr d q (mx d + 2, j, mq))))))
        (loop 1 (mx d) (fun i => seq (seq (fun q => bind (rdr d rn (GM 0 i mq)) (wr d q (i, 0, mq))) (fun q => bind (rdr d rn (EF 2 i mq 1)) (wr d q (i, -1, mq))))
             (seq (fun q => bind (rdr d rn (GP 1 i mq)) (wr d q (i, my d + 1, mq))) (fun q => bind (rdr d rn (EF 3 i mq 1)) (wr d q (i, my d + 2, mq))))))))
      (fun c => exists mq, 1 <= mq <= meqn d /\
         ((exists j, 1 <= j <= my d /\ ((c = (0, j, mq) \/ c = (-1, j, mq)) \/ (c = (mx d + 1, j, mq) \/ c = (mx d + 2, j, mq)))) \/
          (exists i, 1 <= i <= mx d /\ ((c = (i, 0, mq) \/ c = (i, -1, mq)) \/ (c = (i, my d + 1, mq) \/ c = (i, my d + 2, mq))))))
      (same_dummy rn)).
    { apply writes_loop0. intros mq Hmq. apply w0_seq.
      - apply (writes_loop0 zeros (fun j c => (c = (0, j, mq) \/ c = (-1, j, mq)) \/ (c = (mx d + 1, j, mq) \/ c = (mx d + 2, j, mq)))).
        intros j Hj. rewrite Hy in Hj.
        assert (T : forall i r, -1 <= i <= m + 2 -> in_reg d r = true -> same_dummy rn (i, j, mq) = Some (val rn r) ->
          writes none zeros (fun q => bind (rdr d rn r) (wr d q (i, j, mq))) (fun c => c = (i, j, mq)) (same_dummy rn)).
        { intros i r Hi Hr HD. eapply w0_set; [|now apply rdr_val|exact HD]. apply in_q_iff. rewrite Hx, Hy. lia. }
        assert (C0 : (m + 1 =? 0) = false /\ (m + 1 =? -1) = false /\ (m + 2 =? 0) = false /\ (m + 2 =? -1) = false /\ (m + 2 =? m + 1) = false)
          by (repeat split; apply Z.eqb_neq; lia). destruct C0 as (C1 & C2 & C3 & C4 & C5).
        apply w0_seq; apply w0_seq; apply T; rewrite ?Hx; try lia; try (apply in_wave; lia); unfold same_dummy;
          rewrite ?Z.eqb_refl, ?C1, ?C2, ?C3, ?C4, ?C5, ?Z.eqb_refl; reflexivity.
      - apply (writes_loop0 zeros (fun i c => (c = (i, 0, mq) \/ c = (i, -1, mq)) \/ (c = (i, my d + 1, mq) \/ c = (i, my d + 2, mq)))).
        intros i Hi. rewrite Hx in Hi.
        assert (T : forall j r, -1 <= j <= m + 2 -> in_reg d r = true -> same_dummy rn (i, j, mq) = Some (val rn r) ->
          writes none zeros (fun q => bind (rdr d rn r) (wr d q (i, j, mq))) (fun c => c = (i, j, mq)) (same_dummy rn)).
        { intros j r Hj Hr HD. eapply w0_set; [|now apply rdr_val|exact HD]. apply in_q_iff. rewrite Hx, Hy. lia. }
        assert (B0 : (i =? 0) = false /\ (i =? -1) = false /\ (i =? m + 1) = false /\ (i =? m + 2) = false)
          by (repeat split; apply Z.eqb_neq; lia). destruct B0 as (B1 & B2 & B3 & B4).
        assert (C0 : (m + 1 =? 0) = false /\ (m + 1 =? -1) = false /\ (m + 2 =? 0) = false /\ (m + 2 =? -1) = false /\ (m + 2 =? m + 1) = false)
          by (repeat split; apply Z.eqb_neq; lia). destruct C0 as (C1 & C2 & C3 & C4 & C5).
        apply w0_seq; apply w0_seq; apply T; rewrite ?Hy; try lia; try (apply in_wave; lia); unfold same_dummy;
          rewrite ?B1, ?B2, ?B3, ?B4, ?Z.eqb_refl, ?C1, ?C2, ?C3, ?C4, ?C5, ?Z.eqb_refl; reflexivity. }
    destruct (W zeros ltac:(intros c [])) as (D & E & A & _). exists D. split; [exact E|].
    intros nf t mq Hn Ht Hmq.
    assert (C0 : (m + 1 =? 0) = false /\ (m + 1 =? -1) = false /\ (m + 2 =? 0) = false /\ (m + 2 =? -1) = false /\ (m + 2 =? m + 1) = false)
      by (repeat split; apply Z.eqb_neq; lia). destruct C0 as (C1 & C2 & C3 & C4 & C5).
    assert (B0 : (t =? 0) = false /\ (t =? -1) = false /\ (t =? m + 1) = false /\ (t =? m + 2) = false)
      by (repeat split; apply Z.eqb_neq; lia). destruct B0 as (B1 & B2 & B3 & B4).
    face4 nf Hn; unfold at3; cbn [inner_cell fst snd]; rewrite ?Z.sub_0_r; replace (m + 1 - -1) with (m + 2) by lia;
      (split; (rewrite A; [unfold same_dummy; rewrite ?B1, ?B2, ?B3, ?B4, ?Z.eqb_refl, ?C1, ?C2, ?C3, ?C4, ?C5, ?Z.eqb_refl; reflexivity|]));
      exists mq; (split; [exact Hmq|]); rewrite Hx, Hy;
      first [left; exists t; split; [exact Ht|]; tauto | right; exists t; split; [exact Ht|]; tauto].
  Qed.

  (** cells along a face, in the loops *)
  Definition along_face (f : Z) (c : cell) : Prop := exists t mq, edge_cell d m f c t mq.

  Lemma edge_loops : forall f (body : Z -> Z -> arr -> option arr) s0 V, 0 <= f < 4 ->
    (forall t mq, 1 <= t <= m -> 1 <= mq <= meqn d ->
       updates none s0 (body mq t) (fun c => c = at3 (inner_cell f m 1 t) mq) V) ->
    updates none s0 (loop 1 (meqn d) (fun mq => loop 1 m (body mq))) (along_face f) V.
  Proof.
    intros f body s0 V Hf HB. eapply updates_weaken.
    - apply (updates_loop none s0 (fun mq c => exists t, 1 <= t <= m /\ c = at3 (inner_cell f m 1 t) mq)).
      + intros mq Hmq. apply (updates_loop none s0 (fun t c => c = at3 (inner_cell f m 1 t) mq)).
        * intros t Ht. now apply HB.
        * intros t t' c _ Hlt _ -> E. clear - Hf Hlt E. face4 f Hf; unfold at3 in E; cbn [inner_cell fst snd] in E; celleq; lia.
      + intros q q' c _ Hlt _ (t & _ & ->) (t' & _ & E). unfold at3 in E. celleq. lia.
    - intros c. unfold along_face, edge_cell. split.
      + intros (mq & H1 & t & H2 & ->). exists t, mq. tauto.
      + intros (t & mq & -> & H1 & H2). exists mq. split; [exact H2|]. exists t. tauto.
  Qed.

  Lemma depth_inner : forall f dep t, 0 <= f < 4 -> depth f m (inner_cell f m dep t) = 1 - dep /\ posn f (inner_cell f m dep t) = t.
  Proof. intros f dep t Hf. face4 f Hf; cbn [inner_cell depth posn fst snd]; lia. Qed.

  Lemma inner_in : forall f t mq, 0 <= f < 4 -> 1 <= t <= m -> 1 <= mq <= meqn d -> in_q d (at3 (inner_cell f m 1 t) mq) = true.
  Proof. intros f t mq Hf Ht Hmq. unfold at3. apply in_q_iff. rewrite Hx, Hy. face4 f Hf; cbn [inner_cell fst snd]; lia. Qed.

  (** the correction that the neighbor of the same size causes *)
  Definition same_delta (r rn : regs) (f nf : Z) (o : bool) (t mq : Z) : Q :=
    ((1 # 2) * (- inflow_outside rn nf (flip o m t) mq - inflow r f t mq))%Q.

  Definition corrected (q : arr) (r : regs) (f : Z) (delta : Z -> Z -> Q) (q' : arr) : Prop :=
    (forall t mq c, edge_cell d m f c t mq ->
       exists v, q' c = Some v /\ (v == val q c + delta t mq / val r (AR f t))%Q) /\
    (forall c, ~ along_face f c -> q' c = q c).

  (** the value the code writes *)
  Definition same_raw (r rn : regs) (f nf : Z) (o : bool) (t mq : Z) : Q :=
    let sc := (- sg f * sg nf)%Z in
    let ef := (inject_Z sc * val rn (EF nf (flip o m t) mq 1))%Q in
    let w := val rn (WOUT nf (flip o m t) mq) in
    let e0 := val r (EF f t mq 0) in
    let w0 := val r (WIN f t mq) in
    (if Z.even f then (ef - e0) - (w - w0) else (e0 - ef) - (w - w0))%Q.

  Lemma raw_delta : forall r rn f nf o t mq, 0 <= f < 4 -> 0 <= nf < 4 ->
    (same_raw r rn f nf o t mq == - inflow_outside rn nf (flip o m t) mq - inflow r f t mq)%Q.
  Proof.
    intros r rn f nf o t mq Hf Hn. rewrite (inflow_sg r f t mq Hf), (outside_sg rn nf _ mq Hn). unfold same_raw.
    set (E := val rn (EF nf (flip o m t) mq 1)). set (w := val rn (WOUT nf (flip o m t) mq)).
    set (e0 := val r (EF f t mq 0)). set (w0 := val r (WIN f t mq)). clearbody E w e0 w0.
    face4 f Hf; face4 nf Hn; unfold sg; cbn [Z.even Z.odd Z.opp Z.mul Pos.mul]; ring.
  Qed.

  Definition raw_arr (q : arr) (g : Z -> Z -> Q) (f : Z) (s : Q -> Q -> Q) (r : regs) : arr := fun c =>
    let '(i, j, mq) := c in
    Some (val q c + s (g (posn f (i, j)) mq) (val r (AR f (posn f (i, j)))))%Q.

  Lemma posn_at3 : forall f t mq (g : Z -> Z -> Q) q s r, 0 <= f < 4 ->
    raw_arr q g f s r (at3 (inner_cell f m 1 t) mq) =
      Some (val q (at3 (inner_cell f m 1 t) mq) + s (g t mq) (val r (AR f t)))%Q.
  Proof.
    intros f t mq g q s r Hf. destruct (depth_inner f 1 t Hf) as [_ HP]. unfold at3. destruct (inner_cell f m 1 t) as [i j]. cbn [fst snd].
    unfold raw_arr. now rewrite HP.
  Qed.

  Lemma samesize_cell_ok : forall ip op f nf o ft r rn D q0 t mq,
    same_size f nf o ip op ft -> square d m (level ip) -> assigned d r ->
    (forall nf t mq, 0 <= nf < 4 -> 1 <= t <= m -> 1 <= mq <= meqn d ->
      D (at3 (inner_cell nf m 0 t) mq) = Some (val rn (WOUT nf t mq)) /\
      D (at3 (inner_cell nf m (-1) t) mq) = Some (val rn (EF nf t mq 1))) ->
    (forall c, interior d c -> exists v, q0 c = Some v) ->
    1 <= t <= m -> 1 <= mq <= meqn d ->
    updates none q0
      (fun q => samesize_cell rnd d D r (mkT ip op ft) (- sg f * sg nf) (Z.even f) (AR f t) (WIN f t mq) (EF f t mq 0)
        (fst (inner_cell f m 1 t)) (snd (inner_cell f m 1 t)) (fst (inner_cell f m 2 t)) (snd (inner_cell f m 2 t)) mq q)
      (fun c => c = at3 (inner_cell f m 1 t) mq)
      (raw_arr q0 (same_raw r rn f nf o) f (fun x a => (1 # 2) * x / a)%Q r).
  Proof.
    intros ip op f nf o ft r rn D q0 t mq HS HQ HA HD Hq Ht Hmq. pose proof HS as (_ & Hf & Hn & _).
    split; [|intros c _ []]. intros q Hq0. unfold samesize_cell.
    destruct (depth_inner f 1 t Hf) as [D1 P1]. destruct (depth_inner f 2 t Hf) as [D2' P2].
    destruct (inner_cell f m 1 t) as [i1 j1] eqn:E1. destruct (inner_cell f m 2 t) as [i2 j2] eqn:E2. cbn [fst snd].
    assert (T1 : 1 <= flip o m t <= m) by (unfold flip; destruct o; lia).
    rewrite (t_face_ok rnd Hrnd d m ip op f nf o ft i1 j1 HS HQ) by lia.
    rewrite (t_face_ok rnd Hrnd d m ip op f nf o ft i2 j2 HS HQ) by lia.
    cbn [bind]. unfold image. rewrite D1, P1, D2', P2. change (1 - 1) with 0. change (1 - 2) with (-1).
    destruct (HD nf (flip o m t) mq Hn T1 Hmq) as [HD1 HD2]. unfold at3 in HD1, HD2. unfold c3.
    assert (R1 : rd d D (fst (inner_cell nf m 0 (flip o m t)), snd (inner_cell nf m 0 (flip o m t)), mq) = Some (val rn (WOUT nf (flip o m t) mq))).
    { apply rd_some; [|exact HD1]. apply in_q_iff. rewrite Hx, Hy. clear - Hn T1 Hm Hb Hmq. face4 nf Hn; cbn [inner_cell fst snd]; lia. }
    assert (R2 : rd d D (fst (inner_cell nf m (-1) (flip o m t)), snd (inner_cell nf m (-1) (flip o m t)), mq) = Some (val rn (EF nf (flip o m t) mq 1))).
    { apply rd_some; [|exact HD2]. apply in_q_iff. rewrite Hx, Hy. clear - Hn T1 Hm Hb Hmq. face4 nf Hn; cbn [inner_cell fst snd]; lia. }
    rewrite R1. cbn [bind]. rewrite R2. cbn [bind].
    rewrite (rdr_val d r _ HA (in_EF f t mq 0 Hf ltac:(lia) Ht Hmq)), (rdr_val d r _ HA (in_WIN f t mq Hf Ht Hmq)),
      (rdr_val d r _ HA (in_area f t Hf Ht)). cbn [bind].
    assert (IN : in_q d (i1, j1, mq) = true) by (pose proof (inner_in f t mq Hf Ht Hmq) as X; rewrite E1 in X; exact X).
    assert (II : interior d (i1, j1, mq)).
    { unfold interior. rewrite Hx, Hy. clear - E1 Hf Ht Hmq Hm. face4 f Hf; cbn [inner_cell] in E1; celleq; lia. }
    assert (R3 : rd d q (i1, j1, mq) = Some (val q0 (i1, j1, mq))).
    { unfold rd. rewrite IN, Hq0 by (left; reflexivity). destruct (Hq _ II) as (v & Hv). rewrite Hv. unfold val. now rewrite Hv. }
    rewrite R3. cbn [bind].
    apply (writes_cell none q0 d (i1, j1, mq) _ IN); [|intros c []].
    pose proof (posn_at3 f t mq (same_raw r rn f nf o) q0 (fun x a => (1 # 2) * x / a)%Q r Hf) as HP.
    rewrite E1 in HP. unfold at3 in HP. cbn [fst snd] in HP. exact HP.
  Qed.

  Lemma samesize_ok : forall ip op f nf o ft r rn q,
    same_size f nf o ip op ft -> square d m (level ip) -> assigned d r -> assigned d rn ->
    (forall c, interior d c -> exists v, q c = Some v) ->
    exists q', time_sync_samesize rnd d f r rn (mkT ip op ft) q = Some q' /\
      corrected q r f (same_delta r rn f nf o) q'.
  Proof.
    intros ip op f nf o ft r rn q HS HQ HA HAn Hq. pose proof HS as (_ & Hf & Hn & _).
    unfold time_sync_samesize.
    destruct (build_transform_same_ok rnd Hrnd d m ip op f nf o ft HS HQ) as (A & EA & HAm). rewrite EA. cbn [bind].
    destruct A as [[[[[a11 a12] a21] a22] f1] f2].
    destruct (samesize_fill_ok rn HAn) as (D & ED & HD). rewrite ED. cbn [bind].
    assert (SC : (if Z.quot f 2 =? 0 then a11 + a21 else a12 + a22) = - sg f * sg nf).
    { pose proof (HAm (0, 0)) as A0. pose proof (HAm (1, 0)) as A1. pose proof (HAm (0, 1)) as A2. clear - A0 A1 A2 Hf Hn.
      unfold amap, image in *. cbn [fst snd] in *.
      face4 f Hf; face4 nf Hn; unfold sg; cbn [Z.quot Z.eqb Z.quotrem Z.odd fst N.pos_div_eucl N.compare Pos.compare Pos.compare_cont N.succ_double N.double Z.of_N];
      cbn [depth posn inner_cell fst snd] in *; celleq; destruct o; cbn [flip] in *; (change (Z.quot 0 2) with 0 || change (Z.quot 1 2) with 0 || change (Z.quot 2 2) with 1 || change (Z.quot 3 2) with 1 || idtac); cbn [Z.eqb]; lia. }
    assert (U : updates none q
      (fun q => if Z.quot f 2 =? 0 then
        loop 1 (meqn d) (fun mq => loop 1 (my d) (fun j =>
        if f =? 0 then
          samesize_cell rnd d D r (mkT ip op ft) (a11 + a21) true (AR 0 j) (FP 0 j mq) (EF 0 j mq 0) 1 j 2 j mq
        else
          samesize_cell rnd d D r (mkT ip op ft) (a11 + a21) false (AR 1 j) (FM 1 j mq) (EF 1 j mq 0) (mx d) j (mx d - 1) j mq)) q
      else loop 1 (meqn d) (fun mq => loop 1 (mx d) (fun i =>
        if f =? 2 then
          samesize_cell rnd d D r (mkT ip op ft) (a12 + a22) true (AR 2 i) (GP 0 i mq) (EF 2 i mq 0) i 1 i 2 mq
        else
          samesize_cell rnd d D r (mkT ip op ft) (a12 + a22) false (AR 3 i) (GM 1 i mq) (EF 3 i mq 0) i (my d) i (my d - 1) mq)) q)
      (along_face f) (raw_arr q (same_raw r rn f nf o) f (fun x a => (1 # 2) * x / a)%Q r)).
    { assert (CO := fun t mq => samesize_cell_ok ip op f nf o ft r rn D q t mq HS HQ HA HD Hq).
      revert SC CO. rewrite Hx, Hy. clear - Hf Hx Hy Hm Hb Hrnd.
      replace (m - 1) with (m + 1 - 2) by lia. 
      face4 f Hf; intros SC CO; [change (Z.quot 0 2 =? 0) with true in * | change (Z.quot 1 2 =? 0) with true in * | change (Z.quot 2 2 =? 0) with false in * | change (Z.quot 3 2 =? 0) with false in *];
        cbv iota; cbv iota in SC; cbn [Z.eqb Pos.eqb]; rewrite SC;
        [apply (edge_loops 0)|apply (edge_loops 1)|apply (edge_loops 2)|apply (edge_loops 3)]; try lia;
        intros t mq Ht Hmq; specialize (CO t mq Ht Hmq); cbn [inner_cell fst snd Z.even WIN] in CO;
        cbn [inner_cell]; replace (m + 1 - 1) with m in * by lia; exact CO. }
    destruct (updates_run _ _ _ _ _ U) as (q' & E & A' & B'). exists q'. split; [exact E|]. split.
    - intros t mq c (-> & Ht & Hmq). rewrite A'.
      + rewrite posn_at3 by exact Hf. eexists. split; [reflexivity|]. rewrite (raw_delta r rn f nf o t mq Hf Hn). unfold same_delta. reflexivity.
      + exists t, mq. split; [reflexivity|]. tauto.
    - exact B'.
  Qed.
End Face.
