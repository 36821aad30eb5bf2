(** Corrections from a fine neighbor. *)
From Coq Require Import ZArith QArith List Lia Lqa Bool Qfield.
From Verif Require Import Base_Float Model_Face Spec_Face Proof_Face5 Model_Grid Spec_Grid Proof_Grid Proof_Grid2 Proof_Grid4 Proof_Grid5
  Model_Sync Spec_Sync Proof_Sync Proof_Sync2 Proof_Sync3.
Import ListNotations.
Open Scope Z_scope.

Lemma w0_bind : forall {A} s0 (x : option A) v f W V, x = Some v -> writes none s0 (f v) W V ->
  writes none s0 (fun q => bind x (fun y => f y q)) W V.
Proof. intros A s0 x v f W V -> H. exact H. Qed.

Definition pairs (g : Z -> Q) (t : Z) : Q := (g (2 * ((t - 1) / 2) + 1)%Z + g (2 * ((t - 1) / 2) + 2)%Z)%Q.

Lemma pairs_at : forall g j t, 2 * (j - 1) + 1 <= t <= 2 * (j - 1) + 2 ->
  pairs g t = (g (2 * (j - 1) + 1)%Z + g (2 * (j - 1) + 2)%Z)%Q.
Proof.
  intros g j t Ht. unfold pairs. assert (E : (t - 1) / 2 = j - 1) by (symmetry; apply Z.div_unique with (t - 1 - 2 * (j - 1)); lia).
  now rewrite E.
Qed.

Section Face.
  Variable rnd : Q -> Q.
  Hypothesis Hrnd : rounding rnd.
  Variable d : dims.
  Variable m : Z.
  Hypothesis Hx : mx d = m.
  Hypothesis Hy : my d = m.
  Hypothesis Hm : 1 <= m < 2 ^ 28.
  Hypothesis Hb : 2 <= mbc d.
  Hypothesis Hev : Z.Even m.

  Definition fine_dummy (rf : regs) : arr := fun c =>
    let '(i, j, mq) := c in
    Some (if i <? 1 then pairs (fun t => val rf (if -2 <? i then FM 0 t mq else EF 0 t mq 1)) j
      else if m <? i then pairs (fun t => val rf (if i <? m + 3 then FP 1 t mq else EF 1 t mq 1)) j
      else if j <? 1 then pairs (fun t => val rf (if -2 <? j then GM 0 t mq else EF 2 t mq 1)) i
      else pairs (fun t => val rf (if j <? m + 3 then GP 1 t mq else EF 3 t mq 1)) i).

  (** cells filled from pair number k *)
  Definition fillx (k mq : Z) (c : cell) : Prop :=
    let '(i, j, m') := c in m' = mq /\ 2 * (k - 1) + 1 <= j <= 2 * (k - 1) + 2 /\ (-3 <= i <= 0 \/ m + 1 <= i <= m + 4).
  Definition filly (k mq : Z) (c : cell) : Prop :=
    let '(i, j, m') := c in m' = mq /\ 2 * (k - 1) + 1 <= i <= 2 * (k - 1) + 2 /\ (-3 <= j <= 0 \/ m + 1 <= j <= m + 4).

  Ltac ltb_all := repeat match goal with |- context [?a <? ?b] => destruct (Z.ltb_spec a b); try (exfalso; lia) end.

  Lemma fill_strip : forall V k (mk1 mk2 : Z -> Z -> cell) lo hi g1 g2,
    (forall ii jj, lo <= ii <= hi -> 2 * (k - 1) + 1 <= jj <= 2 * (k - 1) + 2 ->
       in_q (d2 d) (mk1 ii jj) = true /\ in_q (d2 d) (mk2 ii jj) = true /\
       V (mk1 ii jj) = Some g1 /\ V (mk2 ii jj) = Some g2) ->
    writes none zeros
      (loop (2 * (k - 1) + 1) (2 * (k - 1) + 2) (fun jj => loop lo hi (fun ii q =>
         bind (wr (d2 d) q (mk1 ii jj) g1) (fun q => wr (d2 d) q (mk2 ii jj) g2))))
      (fun c => exists jj, 2 * (k - 1) + 1 <= jj <= 2 * (k - 1) + 2 /\ exists ii, lo <= ii <= hi /\
         (c = mk1 ii jj \/ c = mk2 ii jj)) V.
  Proof.
    intros V k mk1 mk2 lo hi g1 g2 H.
    apply (writes_loop0 zeros (fun jj c => exists ii, lo <= ii <= hi /\ (c = mk1 ii jj \/ c = mk2 ii jj))).
    intros jj Hjj. apply (writes_loop0 zeros (fun ii c => c = mk1 ii jj \/ c = mk2 ii jj)). intros ii Hii.
    destruct (H ii jj Hii Hjj) as (I1 & I2 & V1 & V2).
    apply (w0_seq zeros (fun q => wr (d2 d) q (mk1 ii jj) g1) (fun q => wr (d2 d) q (mk2 ii jj) g2));
      [now apply (writes_cell none zeros (d2 d) (mk1 ii jj) g1)|now apply (writes_cell none zeros (d2 d) (mk2 ii jj) g2)].
  Qed.

  Lemma sum_ok : forall rf c1 c2, assigned d rf -> in_reg d c1 = true -> in_reg d c2 = true ->
    bind (rdr d rf c1) (fun x => bind (rdr d rf c2) (fun y => Some (x + y)%Q)) = Some (val rf c1 + val rf c2)%Q.
  Proof. intros rf c1 c2 HA H1 H2. now rewrite (rdr_val d rf c1 HA H1), (rdr_val d rf c2 HA H2). Qed.

  Lemma f2c_fill_ok : forall rf, assigned d rf -> exists D, f2c_fill d rf = Some D /\
    forall nf e t mq, 0 <= nf < 4 -> -3 <= e <= 0 -> 1 <= t <= m -> 1 <= mq <= meqn d ->
      D (at3 (inner_cell nf m e t) mq) =
        Some (pairs (fun t => val rf (if -2 <? e then WOUT nf t mq else EF nf t mq 1)) t).
  Proof.
    intros rf HA. destruct Hev as [h Eh].
    assert (Q2 : Z.quot m 2 = h) by (rewrite Eh, Z.mul_comm, Z.quot_mul; lia).
    assert (INQ : forall i j mq, 1 <= mq <= meqn d -> -3 <= i <= m + 4 -> -3 <= j <= m + 4 -> in_q (d2 d) (i, j, mq) = true).
    { intros i j mq H1 H2 H3. apply in_q_iff. unfold d2. cbn [mx my mbc meqn]. lia. }
    unfold f2c_fill. rewrite Hx, Hy, Q2.
    match goal with |- exists D, ?L zeros = Some D /\ _ => set (LL := L) end.
    assert (W : writes none zeros LL
      (fun c => exists mq, 1 <= mq <= meqn d /\
         ((exists k, 1 <= k <= h /\ fillx k mq c) \/ (exists k, 1 <= k <= h /\ filly k mq c))) (fine_dummy rf)).
    { unfold LL. apply (writes_loop0 zeros (fun mq c => (exists k, 1 <= k <= h /\ fillx k mq c) \/ (exists k, 1 <= k <= h /\ filly k mq c))).
      intros mq Hmq.
      assert (IR : forall a jj, 0 <= a < 16 -> 1 <= jj <= m -> in_reg d (a, jj, mq) = true) by (intros; now apply (in_wave d m Hx Hy)).
      apply w0_seq.
      - apply (writes_loop0 zeros (fun k c => fillx k mq c)). intros k Hk. cbv zeta.
        assert (J : 1 <= 2 * (k - 1) + 1 <= m /\ 1 <= 2 * (k - 1) + 2 <= m) by lia. destruct J as [J1 J2].
        eapply w0_bind; [apply sum_ok; [exact HA| |]; apply IR; lia|].
        eapply w0_bind; [apply sum_ok; [exact HA| |]; apply IR; lia|].
        eapply writes_weaken; [apply w0_seq| |].
        + apply (fill_strip (fine_dummy rf) k (fun ii jj => (ii, jj, mq)) (fun ii jj => (ii - 2, jj, mq)) (-1) 0).
          intros ii jj Hii Hjj. split; [apply INQ; lia|]. split; [apply INQ; lia|].
          unfold fine_dummy. split; ltb_all; rewrite (pairs_at _ k) by lia; reflexivity.
        + eapply w0_bind; [apply sum_ok; [exact HA| |]; apply IR; lia|].
          eapply w0_bind; [apply sum_ok; [exact HA| |]; apply IR; lia|].
          apply (fill_strip (fine_dummy rf) k (fun ii jj => (m + ii, jj, mq)) (fun ii jj => (m + ii + 2, jj, mq)) 1 2).
          intros ii jj Hii Hjj. split; [apply INQ; lia|]. split; [apply INQ; lia|].
          unfold fine_dummy. split; ltb_all; rewrite (pairs_at _ k) by lia; reflexivity.
        + intros c [].
        + intros [[i j] m']. unfold fillx. split.
          * intros [(jj & H1 & ii & H2 & [E|E])|(jj & H1 & ii & H2 & [E|E])]; celleq; lia.
          * intros (-> & H1 & [H2|H2]).
            -- left. exists j. split; [exact H1|]. destruct (Z_le_gt_dec (-1) i).
               ++ exists i. split; [lia|]. now left.
               ++ exists (i + 2). split; [lia|]. right. f_equal. f_equal. lia.
            -- right. exists j. split; [exact H1|]. destruct (Z_le_gt_dec i (m + 2)).
               ++ exists (i - m). split; [lia|]. left. f_equal. f_equal. lia.
               ++ exists (i - m - 2). split; [lia|]. right. f_equal. f_equal. lia.
      - apply (writes_loop0 zeros (fun k c => filly k mq c)). intros k Hk. cbv zeta.
        assert (J : 1 <= 2 * (k - 1) + 1 <= m /\ 1 <= 2 * (k - 1) + 2 <= m) by lia. destruct J as [J1 J2].
        eapply w0_bind; [apply sum_ok; [exact HA| |]; apply IR; lia|].
        eapply w0_bind; [apply sum_ok; [exact HA| |]; apply IR; lia|].
        eapply writes_weaken; [apply w0_seq| |].
        + apply (fill_strip (fine_dummy rf) k (fun jj ii => (ii, jj, mq)) (fun jj ii => (ii, jj - 2, mq)) (-1) 0).
          intros ii jj Hii Hjj. split; [apply INQ; lia|]. split; [apply INQ; lia|].
          unfold fine_dummy. split; ltb_all; rewrite (pairs_at _ k) by lia; reflexivity.
        + eapply w0_bind; [apply sum_ok; [exact HA| |]; apply IR; lia|].
          eapply w0_bind; [apply sum_ok; [exact HA| |]; apply IR; lia|].
          apply (fill_strip (fine_dummy rf) k (fun jj ii => (ii, m + jj, mq)) (fun jj ii => (ii, m + jj + 2, mq)) 1 2).
          intros ii jj Hii Hjj. split; [apply INQ; lia|]. split; [apply INQ; lia|].
          unfold fine_dummy. split; ltb_all; rewrite (pairs_at _ k) by lia; reflexivity.
        + intros c [].
        + intros [[i j] m']. unfold filly. split.
          * intros [(jj & H1 & ii & H2 & [E|E])|(jj & H1 & ii & H2 & [E|E])]; celleq; lia.
          * intros (-> & H1 & [H2|H2]).
            -- left. exists i. split; [exact H1|]. destruct (Z_le_gt_dec (-1) j).
               ++ exists j. split; [lia|]. now left.
               ++ exists (j + 2). split; [lia|]. right. f_equal. f_equal. lia.
            -- right. exists i. split; [exact H1|]. destruct (Z_le_gt_dec j (m + 2)).
               ++ exists (j - m). split; [lia|]. left. f_equal. f_equal. lia.
               ++ exists (j - m - 2). split; [lia|]. right. f_equal. f_equal. lia. }
    destruct (W zeros ltac:(intros c [])) as (D & E & A & _). exists D. split; [exact E|].
    intros nf e t mq Hn He Ht Hmq.
    assert (HK : exists k, 1 <= k <= h /\ 2 * (k - 1) + 1 <= t <= 2 * (k - 1) + 2).
    { exists ((t - 1) / 2 + 1). pose proof (Z.div_mod (t - 1) 2 ltac:(lia)). pose proof (Z.mod_pos_bound (t - 1) 2 ltac:(lia)). lia. }
    destruct HK as (k & Hk & Hkt).
    rewrite A.
    - clear - Hn He Ht Hm. face4 nf Hn; unfold at3; cbn [inner_cell fst snd]; unfold fine_dummy; ltb_all; reflexivity.
    - exists mq. split; [exact Hmq|]. face4 nf Hn; unfold at3; cbn [inner_cell fst snd];
        [left|left|right|right]; exists k; (split; [exact Hk|]); unfold fillx, filly; lia.
  Qed.

  (* ------------------------------------------------------------ one coarse cell *)

  Lemma half_pos : forall pos t, 0 <= pos <= 1 ->
    (in_halfb m pos t = true <-> 1 <= 2 * t - 1 - pos * m /\ 2 * t - pos * m <= m).
  Proof.
    intros pos t Hp. destruct Hev as [h Eh]. assert (E2 : m / 2 = h) by (rewrite Eh, Z.mul_comm, Z.div_mul; lia).
    unfold in_halfb. rewrite E2, andb_true_iff, !Z.leb_le. assert (P : pos = 0 \/ pos = 1) by lia. destruct P as [-> | ->]; lia.
  Qed.

  Lemma valid_at : forall nf e u, 0 <= nf < 4 -> e <= 0 ->
    valid_correct d (fst (inner_cell nf m e u)) (snd (inner_cell nf m e u)) = ((1 <=? u) && (u <=? m)).
  Proof.
    intros nf e u Hn He. unfold valid_correct. rewrite Hx, Hy.
    face4 nf Hn; cbn [inner_cell fst snd];
    repeat match goal with |- context [?a <=? ?b] => destruct (Z.leb_spec a b); try (exfalso; lia) end; reflexivity.
  Qed.

  Lemma skip_ok : forall f nf o pos p ij, 0 <= f < 4 -> 0 <= nf < 4 -> 0 <= pos <= 1 -> depth f m p <= 0 ->
    (forall sx sy, 0 <= sx <= 1 -> 0 <= sy <= 1 -> ij (2 * sy + sx) = Some (fimage f nf o pos m p sx sy)) ->
    skip_this_grid d ij = Some (negb (in_halfb m pos (posn f p))).
  Proof.
    intros f nf o pos p ij Hf Hn Hp Hd HI. unfold skip_this_grid.
    rewrite (HI 0 0 ltac:(lia) ltac:(lia) : ij 0 = _), (HI 1 0 ltac:(lia) ltac:(lia) : ij 1 = _),
      (HI 0 1 ltac:(lia) ltac:(lia) : ij 2 = _), (HI 1 1 ltac:(lia) ltac:(lia) : ij 3 = _). cbn [bind]. unfold fimage.
    assert (FD : forall s, 0 <= s <= 1 -> fdepth f (depth f m p) s <= 0) by (intros s Hs; unfold fdepth; destruct (Z.odd f); lia).
    rewrite !valid_at by (try exact Hn; apply FD; clear - Hf; face4 f Hf; cbn [nchild]; lia).
    pose proof (half_pos pos (posn f p) Hp) as HH. set (t := posn f p) in *. clearbody t. f_equal. f_equal.
    apply eq_true_iff_eq. rewrite HH. rewrite !andb_true_iff, !Z.leb_le. clear - Hf Hp Hm.
    assert (P : pos = 0 \/ pos = 1) by lia. face4 f Hf; cbn [tchild]; destruct P as [-> | ->]; destruct o; cbn [flip]; lia.
  Qed.

  Lemma pairs_flip : forall g o pos t, 0 <= pos <= 1 ->
    (pairs g (flip o m (2 * t - 1 - pos * m)) == g (flip o m (2 * t - 1 - pos * m)) + g (flip o m (2 * t - pos * m)))%Q.
  Proof.
    intros g o pos t Hp. destruct Hev as [h Eh]. destruct o; cbn [flip].
    - rewrite (pairs_at _ (h - t + pos * h + 1)) by lia.
      replace (2 * (h - t + pos * h + 1 - 1) + 1) with (m + 1 - (2 * t - pos * m)) by lia.
      replace (2 * (h - t + pos * h + 1 - 1) + 2) with (m + 1 - (2 * t - 1 - pos * m)) by lia. ring.
    - rewrite (pairs_at _ (t - pos * h)) by lia.
      replace (2 * (t - pos * h - 1) + 1) with (2 * t - 1 - pos * m) by lia.
      replace (2 * (t - pos * h - 1) + 2) with (2 * t - pos * m) by lia. ring.
  Qed.

  (** the correction that one of the two half-size neighbors causes *)
  Definition half_delta (rc rf : regs) (f nf : Z) (o : bool) (pos t mq : Z) : Q :=
    if in_halfb m pos t then
      (- (inflow_outside rf nf (flip o m (2 * t - 1 - pos * m)) mq + inflow_outside rf nf (flip o m (2 * t - pos * m)) mq)
       - inflow rc f t mq)%Q
    else 0%Q.

  Definition half_raw (rc rf : regs) (f nf : Z) (o : bool) (pos t mq : Z) : Q :=
    if in_halfb m pos t then
      let u := flip o m (2 * t - 1 - pos * m) in
      let ef := (inject_Z (- sg f * sg nf) * pairs (fun t => val rf (EF nf t mq 1)) u)%Q in
      let w := pairs (fun t => val rf (WOUT nf t mq)) u in
      let e0 := val rc (EF f t mq 0) in
      let w0 := val rc (WIN f t mq) in
      (if Z.even f then (ef - e0) - (w - w0) else (e0 - ef) - (w - w0))%Q
    else 0%Q.

  Lemma half_raw_delta : forall rc rf f nf o pos t mq, 0 <= f < 4 -> 0 <= nf < 4 -> 0 <= pos <= 1 ->
    (half_raw rc rf f nf o pos t mq == half_delta rc rf f nf o pos t mq)%Q.
  Proof.
    intros rc rf f nf o pos t mq Hf Hn Hp. unfold half_raw, half_delta. destruct (in_halfb m pos t); [|reflexivity]. cbv zeta.
    rewrite (inflow_sg rc f t mq Hf), !(outside_sg rf nf _ mq Hn).
    pose proof (pairs_flip (fun t => val rf (EF nf t mq 1)) o pos t Hp) as PE.
    pose proof (pairs_flip (fun t => val rf (WOUT nf t mq)) o pos t Hp) as PW. cbn beta in PE, PW.
    set (PE1 := pairs (fun t => val rf (EF nf t mq 1)) _) in *. set (PW1 := pairs (fun t => val rf (WOUT nf t mq)) _) in *.
    clearbody PE1 PW1.
    set (a := flip o m (2 * t - 1 - pos * m)) in *. set (b := flip o m (2 * t - pos * m)) in *.
    set (E1 := val rf (EF nf a mq 1)). set (E2 := val rf (EF nf b mq 1)). set (W1 := val rf (WOUT nf a mq)). set (W2 := val rf (WOUT nf b mq)).
    set (e0 := val rc (EF f t mq 0)). set (w0 := val rc (WIN f t mq)). fold E1 in PE. fold E2 in PE. fold W1 in PW. fold W2 in PW. clearbody E1 E2 W1 W2 e0 w0.
    face4 f Hf; face4 nf Hn; unfold sg; cbn [Z.even Z.odd Z.opp Z.mul Pos.mul]; rewrite PE, PW; ring.
  Qed.

  Lemma f2c_cell_ok : forall ip op f nf o pos ft rc rf D q0 t mq,
    half_size f nf o pos ip op ft -> square d m (level op) -> assigned d rc ->
    (forall nf e t mq, 0 <= nf < 4 -> -3 <= e <= 0 -> 1 <= t <= m -> 1 <= mq <= meqn d ->
      D (at3 (inner_cell nf m e t) mq) =
        Some (pairs (fun t => val rf (if -2 <? e then WOUT nf t mq else EF nf t mq 1)) t)) ->
    (forall c, interior d c -> exists v, q0 c = Some v) ->
    1 <= t <= m -> 1 <= mq <= meqn d ->
    updates none q0
      (fun q => f2c_cell rnd d D rc (mkT ip op ft) (- sg f * sg nf) (Z.even f) (AR f t) (WIN f t mq) (EF f t mq 0)
        (fst (inner_cell f m 1 t)) (snd (inner_cell f m 1 t)) (fst (inner_cell f m 2 t)) (snd (inner_cell f m 2 t)) mq q)
      (fun c => c = at3 (inner_cell f m 1 t) mq)
      (raw_arr q0 (half_raw rc rf f nf o pos) f (fun x a => x / a)%Q rc).
  Proof.
    intros ip op f nf o pos ft rc rf D q0 t mq HS HQ HA HD Hq Ht Hmq. pose proof HS as (_ & Hp & Hf & Hn & _).
    split; [|intros c _ []]. intros q Hq0. unfold f2c_cell.
    destruct (depth_inner m f 1 t Hf) as [D1 P1]. destruct (depth_inner m f 2 t Hf) as [D2' P2].
    pose proof (posn_at3 m f t mq (half_raw rc rf f nf o pos) q0 (fun x a => x / a)%Q rc Hf) as HP.
    pose proof (inner_in d m Hx Hy Hm Hb f t mq Hf Ht Hmq) as IN.
    assert (II : interior d (at3 (inner_cell f m 1 t) mq)).
    { unfold interior, at3. rewrite Hx, Hy. clear - Hf Ht Hmq Hm. face4 f Hf; cbn [inner_cell fst snd]; lia. }
    destruct (inner_cell f m 1 t) as [i1 j1] eqn:E1. destruct (inner_cell f m 2 t) as [i2 j2] eqn:E2. unfold at3 in *. cbn [fst snd] in *.
    assert (MEV : 2 <= m) by (destruct Hev; lia).
    destruct (t_half_ok rnd Hrnd d m ip op f nf o pos ft i1 j1 HS HQ ltac:(lia) ltac:(lia)) as (ij & RI & HI).
    destruct (t_half_ok rnd Hrnd d m ip op f nf o pos ft i2 j2 HS HQ ltac:(lia) ltac:(lia)) as (ij2 & RI2 & HI2).
    rewrite RI. cbn [bind]. rewrite (rdr_val d rc _ HA (in_area d m Hx Hy f t Hf Ht)). cbn [bind].
    rewrite (skip_ok f nf o pos (i1, j1) ij Hf Hn Hp ltac:(lia) HI), P1. cbn [bind].
    assert (R3 : rd d q (i1, j1, mq) = Some (val q0 (i1, j1, mq))).
    { unfold rd. rewrite IN, Hq0 by (left; reflexivity). destruct (Hq _ II) as (v & Hv). rewrite Hv. unfold val. now rewrite Hv. }
    assert (FIN : forall x, x = half_raw rc rf f nf o pos t mq ->
      exists q', bind (rd d q (i1, j1, mq)) (fun y => wr d q (i1, j1, mq) (y + x / val rc (AR f t))%Q) = Some q' /\
        (forall c, c = (i1, j1, mq) -> q' c = raw_arr q0 (half_raw rc rf f nf o pos) f (fun x a => x / a)%Q rc c) /\
        (forall c, ~ c = (i1, j1, mq) -> q' c = q c) /\
        (forall c, q' c = raw_arr q0 (half_raw rc rf f nf o pos) f (fun x a => x / a)%Q rc c \/ q' c = q c)).
    { intros x ->. rewrite R3. cbn [bind].
      apply (writes_cell none q0 d (i1, j1, mq) _ IN); [|intros c []]. exact HP. }
    unfold half_raw in FIN at 1. destruct (in_halfb m pos t) eqn:EH; cbn [negb].
    - apply half_pos in EH; [|exact Hp].
      assert (T1 : 1 <= flip o m (2 * t - 1 - pos * m) <= m) by (unfold flip; destruct o; lia).
      pose proof (HI 0 0 ltac:(lia) ltac:(lia)) as S1. pose proof (HI2 0 0 ltac:(lia) ltac:(lia)) as S2.
      change (2 * 0 + 0) with 0 in S1, S2. rewrite S1. cbn [bind]. unfold fimage in S1, S2 |- *.
      rewrite D1, P1 in *. rewrite D2', P2 in S2.
      assert (E00 : nchild f 0 0 = 0 /\ tchild f 0 0 = 0) by (clear - Hf; face4 f Hf; cbn [nchild tchild]; lia).
      destruct E00 as [N0 T0]. rewrite N0, T0 in *. rewrite !Z.add_0_r in *.
      assert (F1 : -1 <= fdepth f (1 - 1) 0 <= 0) by (unfold fdepth; destruct (Z.odd f); lia).
      assert (F2 : -3 <= fdepth f (1 - 2) 0 <= -2) by (unfold fdepth; destruct (Z.odd f); lia).
      set (u := flip o m (2 * t - 1 - pos * m)) in *.
      pose proof (HD nf (fdepth f (1 - 1) 0) u mq Hn ltac:(lia) T1 Hmq) as HD1.
      pose proof (HD nf (fdepth f (1 - 2) 0) u mq Hn ltac:(lia) T1 Hmq) as HD2.
      replace (-2 <? fdepth f (1 - 1) 0) with true in HD1 by (symmetry; apply Z.ltb_lt; lia).
      replace (-2 <? fdepth f (1 - 2) 0) with false in HD2 by (symmetry; apply Z.ltb_ge; lia).
      assert (IQ : forall e, -3 <= e <= 0 -> in_q (d2 d) (fst (inner_cell nf m e u), snd (inner_cell nf m e u), mq) = true).
      { intros e He. apply in_q_iff. unfold d2. cbn [mx my mbc meqn]. rewrite Hx, Hy. clear - Hn He T1 Hm Hb Hmq. face4 nf Hn; cbn [inner_cell fst snd]; lia. }
      unfold at3 in HD1, HD2. unfold c3.
      rewrite (rd_some (d2 d) D _ _ (IQ (fdepth f (1 - 1) 0) ltac:(lia)) HD1). cbn [bind].
      rewrite RI2. cbn [bind]. rewrite S2. cbn [bind].
      rewrite (rd_some (d2 d) D _ _ (IQ (fdepth f (1 - 2) 0) ltac:(lia)) HD2). cbn [bind].
      rewrite (rdr_val d rc _ HA (in_EF d m Hx Hy f t mq 0 Hf ltac:(lia) Ht Hmq)), (rdr_val d rc _ HA (in_WIN d m Hx Hy f t mq Hf Ht Hmq)). cbn [bind].
      apply FIN. reflexivity.
    - cbn [bind]. apply FIN. reflexivity.
  Qed.

  Lemma f2c_ok : forall ip op f nf o pos ft rc rf q,
    half_size f nf o pos ip op ft -> square d m (level op) -> assigned d rc -> assigned d rf ->
    (forall c, interior d c -> exists v, q c = Some v) ->
    exists q', time_sync_f2c rnd d (Z.quot f 2) f ((f + nf) mod 2) rc rf (mkT ip op ft) q = Some q' /\
      corrected d m q rc f (half_delta rc rf f nf o pos) q'.
  Proof.
    intros ip op f nf o pos ft rc rf q HS HQ HA HAf Hq. pose proof HS as (_ & Hp & Hf & Hn & _).
    assert (MEV : 2 <= m) by (destruct Hev; lia).
    unfold time_sync_f2c, build_transform.
    assert (TH : forall i j, 0 <= i <= 1 -> 0 <= j <= 1 -> exists ij, t_face_half rnd d (mkT ip op ft) i j = Some ij /\
      ij 0 = Some (fimage f nf o pos m (i, j) 0 0)).
    { intros i j Hi Hj. destruct (t_half_ok rnd Hrnd d m ip op f nf o pos ft i j HS HQ) as (ij & RI & HI).
      - clear - Hf Hi Hj MEV. face4 f Hf; cbn [depth fst snd]; lia.
      - clear - Hf Hi Hj MEV. face4 f Hf; cbn [posn fst snd]; lia.
      - exists ij. split; [exact RI|]. exact (HI 0 0 ltac:(lia) ltac:(lia)). }
    destruct (TH 0 0 ltac:(lia) ltac:(lia)) as (i0 & R0 & S0).
    destruct (TH 1 0 ltac:(lia) ltac:(lia)) as (i1 & R1 & S1).
    destruct (TH 0 1 ltac:(lia) ltac:(lia)) as (i2 & R2 & S2).
    rewrite R0. cbn [bind]. rewrite S0. destruct (fimage f nf o pos m (0, 0) 0 0) as [f1 f2] eqn:E0. cbn [bind].
    rewrite R1. cbn [bind]. rewrite S1. destruct (fimage f nf o pos m (1, 0) 0 0) as [p1 p2] eqn:E1. cbn [bind].
    rewrite R2. cbn [bind]. rewrite S2. destruct (fimage f nf o pos m (0, 1) 0 0) as [q1 q2] eqn:E2. cbn [bind].
    assert (SC : (if Z.quot f 2 =? 0 then Z.quot (p1 - f1 + (p2 - f2)) 2 else Z.quot (q1 - f1 + (q2 - f2)) 2) = - sg f * sg nf).
    { clear - E0 E1 E2 Hf Hn.
      assert (QQ : forall x, x = 2 \/ x = -2 -> Z.quot x 2 = x / 2) by (intros x [-> | ->]; reflexivity).
      assert (X : (if Z.quot f 2 =? 0 then p1 - f1 + (p2 - f2) else q1 - f1 + (q2 - f2)) = 2 * (- sg f * sg nf)).
      { unfold fimage, fdepth in *.
        face4 f Hf; face4 nf Hn; unfold sg; cbn [Z.odd];
        [change (Z.quot 0 2 =? 0) with true|change (Z.quot 0 2 =? 0) with true|change (Z.quot 0 2 =? 0) with true|change (Z.quot 0 2 =? 0) with true
        |change (Z.quot 1 2 =? 0) with true|change (Z.quot 1 2 =? 0) with true|change (Z.quot 1 2 =? 0) with true|change (Z.quot 1 2 =? 0) with true
        |change (Z.quot 2 2 =? 0) with false|change (Z.quot 2 2 =? 0) with false|change (Z.quot 2 2 =? 0) with false|change (Z.quot 2 2 =? 0) with false
        |change (Z.quot 3 2 =? 0) with false|change (Z.quot 3 2 =? 0) with false|change (Z.quot 3 2 =? 0) with false|change (Z.quot 3 2 =? 0) with false];
        cbn [depth posn inner_cell fst snd nchild tchild Z.odd] in *; destruct o; cbn [flip] in *; celleq; lia. }
      assert (Y : forall x, x = 2 * (- sg f * sg nf) -> Z.quot x 2 = - sg f * sg nf) by (intros x ->; rewrite Z.mul_comm; apply Z.quot_mul; lia).
      destruct (Z.quot f 2 =? 0); apply Y; exact X. }
    assert (NM : (- sg f * sg nf =? (if (f + nf) mod 2 =? 0 then -1 else 1)) = true) by (clear - Hf Hn; face4 f Hf; face4 nf Hn; reflexivity).
    cbv zeta. rewrite SC, NM. cbn [negb].
    destruct (f2c_fill_ok rf HAf) as (D & ED & HD). rewrite ED. cbn [bind].
    set (sc := - sg f * sg nf) in *.
    assert (U : updates none q
      (fun q => if Z.quot f 2 =? 0 then
      loop 1 (meqn d) (fun mq => loop 1 (my d) (fun jc =>
        if f =? 0 then
          f2c_cell rnd d D rc (mkT ip op ft) sc true (AR 0 jc) (FP 0 jc mq) (EF 0 jc mq 0) 1 jc 2 jc mq
        else if f =? 1 then
          f2c_cell rnd d D rc (mkT ip op ft) sc false (AR 1 jc) (FM 1 jc mq) (EF 1 jc mq 0) (mx d) jc (mx d - 1) jc mq
        else fun _ => None)) q
    else
      loop 1 (meqn d) (fun mq => loop 1 (mx d) (fun ic =>
        if f =? 2 then
          f2c_cell rnd d D rc (mkT ip op ft) sc true (AR 2 ic) (GP 0 ic mq) (EF 2 ic mq 0) ic 1 ic 2 mq
        else if f =? 3 then
          f2c_cell rnd d D rc (mkT ip op ft) sc false (AR 3 ic) (GM 1 ic mq) (EF 3 ic mq 0) ic (my d) ic (my d - 1) mq
        else fun _ => None)) q)
      (along_face d m f) (raw_arr q (half_raw rc rf f nf o pos) f (fun x a => x / a)%Q rc)).
    { assert (CO := fun t mq => f2c_cell_ok ip op f nf o pos ft rc rf D q t mq HS HQ HA HD Hq).
      fold sc in CO. clearbody sc. revert CO. rewrite Hx, Hy. clear - Hf Hx Hy Hm Hb Hrnd.
      replace (m - 1) with (m + 1 - 2) by lia.
      face4 f Hf; intros CO; [change (Z.quot 0 2 =? 0) with true | change (Z.quot 1 2 =? 0) with true | change (Z.quot 2 2 =? 0) with false | change (Z.quot 3 2 =? 0) with false];
        cbv iota; cbn [Z.eqb Pos.eqb];
        [apply (edge_loops d m Hm 0)|apply (edge_loops d m Hm 1)|apply (edge_loops d m Hm 2)|apply (edge_loops d m Hm 3)]; try lia;
        intros t mq Ht Hmq; specialize (CO t mq Ht Hmq); cbn [inner_cell fst snd Z.even WIN] in CO;
        cbn [inner_cell]; replace (m + 1 - 1) with m in * by lia; exact CO. }
    destruct (updates_run _ _ _ _ _ U) as (q' & E & A' & B'). exists q'. split.
    - rewrite <- E. clear. destruct (Z.quot f 2 =? 0); reflexivity.
    - split.
      + intros t mq c (-> & Ht & Hmq). rewrite A'.
        * rewrite (posn_at3 m f t mq) by exact Hf. eexists. split; [reflexivity|]. rewrite (half_raw_delta rc rf f nf o pos t mq Hf Hn Hp). reflexivity.
        * exists t, mq. split; [reflexivity|]. tauto.
      + exact B'.
  Qed.
End Face.
