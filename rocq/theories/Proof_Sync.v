(** One time step: what the registers record. *)
From Coq Require Import ZArith QArith List Lia Lqa Bool Qfield.
From Verif Require Import Base_Float Model_Face Spec_Face Model_Grid Spec_Grid Proof_Grid Proof_Grid2
  Model_Sync Spec_Sync.
Import ListNotations.
Open Scope Z_scope.

Lemma in_reg_iff : forall d a j m, in_reg d (a, j, m) = true <->
  0 <= a < 24 /\ 1 <= j <= (if along_y a then my d else mx d) /\ 1 <= m <= (if a <? 16 then meqn d else 1).
Proof.
  intros. unfold in_reg. rewrite !andb_true_iff, !Z.leb_le, Z.ltb_lt. lia.
Qed.

Lemma val_some : forall (r : arr) c v, r c = Some v -> val r c = v.
Proof. intros r c v E. unfold val. now rewrite E. Qed.

Lemma rdr_val : forall d r c, assigned d r -> in_reg d c = true -> rdr d r c = Some (val r c).
Proof. intros d r c HA Hc. unfold rdr, val. rewrite Hc. destruct (HA c Hc) as (v & ->). reflexivity. Qed.

Lemma rd_val : forall d q c, full d q -> in_q d c = true -> rd d q c = Some (val q c).
Proof. intros d r c HA Hc. unfold rd, val. rewrite Hc. destruct (HA c Hc) as (v & ->). reflexivity. Qed.

Lemma writes_sub : forall (R R' : cell -> Prop) s0 f W V, writes R s0 f W V ->
  (forall c, R c -> R' c) -> writes R' s0 f W V.
Proof. intros. eapply writes_weaken; [eassumption|assumption|reflexivity]. Qed.

(** a set of cells that is read and not written *)
Section Frame.
  Variable keep : cell -> Prop.
  (** [f] reads what it writes, and cells in [keep] *)
  Definition updates (s0 : arr) (f : arr -> option arr) (W : cell -> Prop) (V : arr) : Prop :=
    writes (fun c => W c \/ keep c) s0 f W V /\ forall c, W c -> ~ keep c.

  Lemma updates_weaken : forall s0 f W W' V, updates s0 f W V -> (forall c, W c <-> W' c) -> updates s0 f W' V.
  Proof.
    intros s0 f W W' V [H1 H2] HW. split.
    - eapply writes_weaken; [exact H1| |exact HW]. intros c [Hc|Hc]; [left; now apply HW|now right].
    - intros c Hc. apply H2, HW, Hc.
  Qed.

  Lemma updates_loop : forall s0 W V f lo hi,
    (forall k, lo <= k <= hi -> updates s0 (f k) (W k) V) ->
    (forall k k' c, lo <= k -> k < k' -> k' <= hi -> W k' c -> ~ W k c) ->
    updates s0 (loop lo hi f) (fun c => exists k, lo <= k <= hi /\ W k c) V.
  Proof.
    intros s0 W V f lo hi Hf HD. split.
    - eapply writes_weaken.
      + apply (writes_loop (fun k c => W k c \/ keep c) s0 W V).
        * intros k Hk. apply Hf, Hk.
        * intros k k' c H1 H2 H3 [HW|HK]; [now apply (HD k k')|]. intros HW. now apply (Hf k ltac:(lia)) in HW.
      + intros c (k & Hk & [HW|HK]); [left; now exists k|now right].
      + reflexivity.
    - intros c (k & Hk & HW). now apply (Hf k Hk).
  Qed.

  Lemma updates_seq : forall s0 f g W W' V, updates s0 f W V -> updates s0 g W' V -> (forall c, W' c -> ~ W c) ->
    updates s0 (seq f g) (fun c => W c \/ W' c) V.
  Proof.
    intros s0 f g W W' V [F1 F2] [G1 G2] HD. split.
    - eapply writes_weaken.
      + apply (writes_seq _ _ s0 f g W W' V F1 G1). intros c [HW|HK]; [now apply HD|]. intros HW. now apply F2 in HW.
      + intros c [[H|H]|[H|H]]; auto.
      + reflexivity.
    - intros c [H|H]; [now apply F2|now apply G2].
  Qed.

  Lemma updates_run : forall s0 f W V, updates s0 f W V ->
    exists s', f s0 = Some s' /\ (forall c, W c -> s' c = V c) /\ (forall c, ~ W c -> s' c = s0 c).
  Proof.
    intros s0 f W V [H _]. destruct (H s0 ltac:(reflexivity)) as (s' & E & A & B & _). exists s'. tauto.
  Qed.
End Frame.

Ltac celleq := unfold FP, FM, GP, GM, EF, EL, AR in *;
  repeat match goal with
  | H : (_, _, _) = (_, _, _) |- _ => apply pair_equal_spec in H; destruct H
  | H : (_, _) = (_, _) |- _ => apply pair_equal_spec in H; destruct H
  end.

Section Step.
  Variable d : dims.
  Variable rpn2_cons : Z -> Z -> (Z -> option Q) -> (Z -> option Q) -> (Z -> option Q) -> Z -> option Q.
  Variable maux : Z.
  Variable F : fluxes.
  Variable q aux : arr.
  Variable dt dx dy : Q.
  Hypothesis Hsz : 1 <= mx d /\ 1 <= my d.
  Hypothesis HF : fluxes_of d rpn2_cons maux F q aux.

  (** what store_flux adds *)
  Definition inc_flux (c : cell) : Q :=
    let '(a, j, m) := c in
    if a =? 8 then (dt * elx F 1%Z j * fl F 1%Z j m)%Q
    else if a =? 9 then (dt * elx F 1%Z j * fr F 0%Z j m)%Q
    else if a =? 10 then (dt * elx F (mx d + 1)%Z j * fr F (mx d) j m)%Q
    else if a =? 11 then (dt * elx F (mx d + 1)%Z j * fl F (mx d + 1)%Z j m)%Q
    else if a =? 12 then (dt * ely F j 1%Z * gl F j 1%Z m)%Q
    else if a =? 13 then (dt * ely F j 1%Z * gr F j 0%Z m)%Q
    else if a =? 14 then (dt * ely F j (my d + 1)%Z * gr F j (my d) m)%Q
    else (dt * ely F j (my d + 1)%Z * gl F j (my d + 1)%Z m)%Q.

  Definition is_el (c : cell) : Prop := let '(a, _, _) := c in 16 <= a < 20.

  Lemma addr_ok : forall keep r0 c x v (V : arr), in_reg d c = true -> r0 c = Some v -> V c = Some (v + x)%Q -> ~ keep c ->
    updates keep r0 (addr d c x) (fun c' => c' = c) V.
  Proof.
    intros keep r0 c x v V Hin Hv HV HK. split; [|intros c' ->; exact HK].
    intros s Hs. unfold addr, rdr, wrr. rewrite Hin. rewrite (Hs c) by now left. rewrite Hv. cbn [bind].
    eexists. split; [reflexivity|]. cbn beta. split; [|split].
    - intros c' ->. now rewrite cell_eqb_refl, HV.
    - intros c' Hn. destruct (cell_eqb_spec c' c); [contradiction|reflexivity].
    - intros c'. destruct (cell_eqb_spec c' c) as [->|]; [left; now rewrite HV|now right].
  Qed.

  Lemma updates_bind : forall keep r0 (x : option Q) v f W V, x = Some v -> updates keep r0 (f v) W V ->
    updates keep r0 (fun r => bind x (fun y => f y r)) W V.
  Proof. intros keep r0 x v f W V -> H. exact H. Qed.

  Definition vadd (inc : cell -> Q) (r : arr) : arr := fun c => Some (val r c + inc c)%Q.

  Lemma put_ok : forall r0 k j m s x el, assigned d r0 -> 0 <= k < 4 -> 0 <= s <= 1 -> 1 <= m <= meqn d ->
    1 <= j <= face_len d k -> x <> None -> r0 (EL k j) = Some el ->
    (forall y, x = Some y -> inc_flux (EF k j m s) = (dt * el * y)%Q) ->
    updates is_el r0 (fun r => bind x (fun y => bind (rdr d r (EL k j)) (fun el => addr d (EF k j m s) (dt * el * y)%Q r)))
      (fun c => c = EF k j m s) (vadd inc_flux r0).
  Proof.
    intros r0 k j m s x el HA Hk Hs Hm Hj Hx Hel HI. destruct x as [y|]; [|contradiction]. cbn [bind].
    assert (LEN : (if along_y (8 + 2 * k + s) then my d else mx d) = face_len d k /\
                  (if along_y (16 + k) then my d else mx d) = face_len d k).
    { unfold face_len. assert (E : k = 0 \/ k = 1 \/ k = 2 \/ k = 3) by lia.
      assert (E2 : s = 0 \/ s = 1) by lia. destruct E as [->|[->|[->| ->]]], E2 as [->| ->]; now split. }
    assert (I1 : in_reg d (EF k j m s) = true).
    { unfold EF. apply in_reg_iff. rewrite (proj1 LEN). replace (8 + 2 * k + s <? 16) with true by (symmetry; apply Z.ltb_lt; lia). lia. }
    assert (I2 : in_reg d (EL k j) = true).
    { unfold EL. apply in_reg_iff. rewrite (proj2 LEN). replace (16 + k <? 16) with false by (symmetry; apply Z.ltb_ge; lia). lia. }
    assert (NK : ~ is_el (EF k j m s)) by (unfold is_el, EF; lia).
    destruct (HA _ I1) as (v & Hv).
    destruct (addr_ok is_el r0 (EF k j m s) (dt * el * y)%Q v (vadd inc_flux r0) I1 Hv) as [U1 U2]; [|exact NK|].
    { unfold vadd. rewrite (val_some _ _ _ Hv), (HI y eq_refl). reflexivity. }
    split; [|exact U2]. intros r Hr. unfold rdr at 1. rewrite I2.
    assert (E : r (EL k j) = Some el) by (rewrite Hr, Hel; [reflexivity|right; unfold is_el, EL; lia]). rewrite E. cbn [bind]. now apply U1.
  Qed.

  Lemma store_flux_ok : forall r0, assigned d r0 -> lengths d F r0 ->
    updates is_el r0 (store_flux d rpn2_cons maux dt q aux)
      (fun c => let '(a, j, m) := c in 8 <= a < 16 /\ 1 <= j <= (if a <? 12 then my d else mx d) /\ 1 <= m <= meqn d)
      (vadd inc_flux r0).
  Proof.
    intros r0 HA [L1 L2]. unfold store_flux.
    (* one (k, m) nest *)
    assert (N : forall k j (x : Z -> Z -> option Q) el, 0 <= k < 4 -> 1 <= j <= face_len d k -> r0 (EL k j) = Some el ->
      (forall s m, 0 <= s <= 1 -> 1 <= m <= meqn d -> exists y, x s m = Some y /\ inc_flux (EF k j m s) = (dt * el * y)%Q) ->
      updates is_el r0 (loop 0 1 (fun s => loop 1 (meqn d) (fun m r =>
          bind (x s m) (fun y => bind (rdr d r (EL k j)) (fun el => addr d (EF k j m s) (dt * el * y)%Q r)))))
        (fun c => let '(a, j', m) := c in 8 + 2 * k <= a <= 9 + 2 * k /\ j' = j /\ 1 <= m <= meqn d) (vadd inc_flux r0)).
    { intros k j x el Hk Hj Hel Hx. eapply updates_weaken.
      - apply (updates_loop is_el r0 (fun s c => exists m, 1 <= m <= meqn d /\ c = EF k j m s)).
        + intros s Hs. apply (updates_loop is_el r0 (fun m c => c = EF k j m s)).
          * intros m Hm. destruct (Hx s m Hs Hm) as (y & Ey & Hy).
            apply (put_ok r0 k j m s (x s m) el); try assumption; [congruence|].
            intros y' E'. rewrite E' in Ey. injection Ey as ->. exact Hy.
          * intros m1 m2 c _ Hlt _ -> E. celleq. lia.
        + intros s1 s2 c _ Hlt _ (m2 & _ & ->) (m1 & _ & E). celleq. lia.
      - intros [[a j'] m]. split.
        + intros (s & Hs & m' & Hm & E). celleq. lia.
        + intros (H1 & -> & H3). exists (a - 8 - 2 * k). split; [lia|]. exists m. split; [lia|]. unfold EF. f_equal. f_equal. lia. }
    eapply updates_weaken.
    - apply updates_seq.
      + apply (updates_loop is_el r0 (fun j c => let '(a, j', m) := c in 8 <= a < 12 /\ j' = j /\ 1 <= m <= meqn d)).
        * intros j Hj. destruct (L1 j Hj) as [E0 E1]. eapply updates_weaken.
          -- apply updates_seq; [apply (N 0 j _ _ ltac:(lia) ltac:(exact Hj) E0)|apply (N 1 j _ _ ltac:(lia) ltac:(exact Hj) E1)|].
             ++ intros s m Hs Hm. destruct (HF m Hm) as (X1 & X2 & _ & _).
                assert (Es : s = 0 \/ s = 1) by lia. destruct Es as [->| ->].
                ** exists (fl F 1 j m). split; [apply (X1 1 j); lia|reflexivity].
                ** exists (fr F 0 j m). split; [apply (X2 0 j); lia|reflexivity].
             ++ intros s m Hs Hm. destruct (HF m Hm) as (X1 & X2 & _ & _).
                assert (Es : s = 0 \/ s = 1) by lia. destruct Es as [->| ->].
                ** exists (fr F (mx d) j m). change (1 - 0) with 1. rewrite Z.add_0_r.
                   split; [apply (X2 (mx d) j); lia|reflexivity].
                ** exists (fl F (mx d + 1) j m). split; [apply (X1 (mx d + 1) j); lia|reflexivity].
             ++ intros [[a j'] m] H1 H2. lia.
          -- intros [[a j'] m]. lia.
        * intros j1 j2 [[a j'] m] _ Hlt _ H1 H2. lia.
      + apply (updates_loop is_el r0 (fun j c => let '(a, j', m) := c in 12 <= a < 16 /\ j' = j /\ 1 <= m <= meqn d)).
        * intros i Hi. destruct (L2 i Hi) as [E0 E1]. eapply updates_weaken.
          -- apply updates_seq; [apply (N 2 i _ _ ltac:(lia) ltac:(exact Hi) E0)|apply (N 3 i _ _ ltac:(lia) ltac:(exact Hi) E1)|].
             ++ intros s m Hs Hm. destruct (HF m Hm) as (_ & _ & X1 & X2).
                assert (Es : s = 0 \/ s = 1) by lia. destruct Es as [->| ->].
                ** exists (gl F i 1 m). split; [apply (X1 i 1); lia|reflexivity].
                ** exists (gr F i 0 m). split; [apply (X2 i 0); lia|reflexivity].
             ++ intros s m Hs Hm. destruct (HF m Hm) as (_ & _ & X1 & X2).
                assert (Es : s = 0 \/ s = 1) by lia. destruct Es as [->| ->].
                ** exists (gr F i (my d) m). change (3 - 0) with 3. rewrite Z.add_0_r.
                   split; [apply (X2 i (my d)); lia|reflexivity].
                ** exists (gl F i (my d + 1) m). split; [apply (X1 i (my d + 1)); lia|reflexivity].
             ++ intros [[a j'] m] H1 H2. lia.
          -- intros [[a j'] m]. lia.
        * intros j1 j2 [[a j'] m] _ Hlt _ H1 H2. lia.
      + intros [[a j'] m] (k & H1 & H2) (k' & H3 & H4). lia.
    - intros [[a j'] m]. destruct (Z.ltb_spec a 12); split.
      + intros [(k & H1 & H2)|(k & H1 & H2)]; lia.
      + intros H1. left. exists j'. lia.
      + intros [(k & H1 & H2)|(k & H1 & H2)]; lia.
      + intros H1. right. exists j'. lia.
  Qed.

  (** what accumulate_waves adds *)
  Variable fp fm gp gm : arr.
  Hypothesis Hmbc : 1 <= mbc d.
  Hypothesis Hfp : full d fp.
  Hypothesis Hfm : full d fm.
  Hypothesis Hgp : full d gp.
  Hypothesis Hgm : full d gm.

  Definition inc_wave (c : cell) : Q :=
    let '(a, j, m) := c in
    if a =? 0 then (-1 * (dt * dy * val fp (1%Z, j, m)))%Q
    else if a =? 1 then (-1 * (dt * dy * val fp ((mx d + 1)%Z, j, m)))%Q
    else if a =? 2 then (1 * (dt * dy * val fm (1%Z, j, m)))%Q
    else if a =? 3 then (1 * (dt * dy * val fm ((mx d + 1)%Z, j, m)))%Q
    else if a =? 4 then (-1 * (dt * dx * val gp (j, 1%Z, m)))%Q
    else if a =? 5 then (-1 * (dt * dx * val gp (j, (my d + 1)%Z, m)))%Q
    else if a =? 6 then (1 * (dt * dx * val gm (j, 1%Z, m)))%Q
    else (1 * (dt * dx * val gm (j, (my d + 1)%Z, m)))%Q.

  Lemma add_ok : forall r0 c s h w wc, assigned d r0 -> in_reg d c = true -> full d w -> in_q d wc = true ->
    inc_wave c = (s * (dt * h * val w wc))%Q ->
    updates none r0 (fun r => bind (rd d w wc) (fun x => addr d c (s * (dt * h * x))%Q r)) (fun c' => c' = c) (vadd inc_wave r0).
  Proof.
    intros r0 c s h w wc HA Hc Hw Hwc HI. rewrite (rd_val d w wc Hw Hwc). cbn [bind].
    destruct (HA c Hc) as (v & Hv). eapply addr_ok; [exact Hc|exact Hv| |intros []].
    unfold vadd. rewrite (val_some _ _ _ Hv), HI. reflexivity.
  Qed.

  Lemma accumulate_ok : forall r0, assigned d r0 ->
    updates none r0 (accumulate_waves d dt dx dy fp fm gp gm)
      (fun c => let '(a, j, m) := c in 0 <= a < 8 /\ 1 <= j <= (if a <? 4 then my d else mx d) /\ 1 <= m <= meqn d)
      (vadd inc_wave r0).
  Proof.
    intros r0 HA. unfold accumulate_waves.
    assert (IR : forall a j m, 0 <= a < 8 -> 1 <= j <= (if a <? 4 then my d else mx d) -> 1 <= m <= meqn d -> in_reg d (a, j, m) = true).
    { intros a j m Ha Hj Hm. apply in_reg_iff.
      assert (E : a = 0 \/ a = 1 \/ a = 2 \/ a = 3 \/ a = 4 \/ a = 5 \/ a = 6 \/ a = 7) by lia.
      destruct E as [->|[->|[->|[->|[->|[->|[->| ->]]]]]]]; cbn in Hj |- *; lia. }
    eapply updates_weaken.
    - apply updates_seq.
      + apply (updates_loop none r0 (fun j c => let '(a, j', m) := c in 0 <= a < 4 /\ j' = j /\ 1 <= m <= meqn d)).
        * intros j Hj. eapply updates_weaken.
          -- apply (updates_loop none r0 (fun m c => let '(a, j', m') := c in 0 <= a < 4 /\ j' = j /\ m' = m)).
             ++ intros m Hm.
                assert (I1 : in_q d (1, j, m) = true) by (apply in_q_iff; lia).
                assert (I2 : in_q d (mx d + 1, j, m) = true) by (apply in_q_iff; lia).
                eapply updates_weaken.
                ** apply updates_seq; [apply updates_seq| apply updates_seq |];
                     [apply add_ok|apply add_ok| |apply add_ok|apply add_ok| |];
                     try assumption; try (apply IR; cbn; lia); try reflexivity;
                     unfold FP, FM; intros c H1 H2; subst; celleq; try lia.
                   destruct H1 as [->| ->]; destruct H2 as [H2|H2]; celleq; lia.
                ** unfold FP, FM. intros [[a j'] m']. split.
                   --- intros [[E|E]|[E|E]]; celleq; lia.
                   --- intros (H1 & -> & ->).
                       assert (E : a = 0 \/ a = 1 \/ a = 2 \/ a = 3) by lia. destruct E as [->|[->|[->| ->]]]; tauto.
             ++ intros m1 m2 [[a j'] m'] _ Hlt _ H1 H2. lia.
          -- intros [[a j'] m']. split.
             ++ intros (k & H1 & H2). lia.
             ++ intros H1. exists m'. lia.
        * intros m1 m2 [[a j'] m'] _ Hlt _ H1 H2. lia.
      + apply (updates_loop none r0 (fun j c => let '(a, j', m) := c in 4 <= a < 8 /\ j' = j /\ 1 <= m <= meqn d)).
        * intros j Hj. eapply updates_weaken.
          -- apply (updates_loop none r0 (fun m c => let '(a, j', m') := c in 4 <= a < 8 /\ j' = j /\ m' = m)).
             ++ intros m Hm.
                assert (I1 : in_q d (j, 1, m) = true) by (apply in_q_iff; lia).
                assert (I2 : in_q d (j, my d + 1, m) = true) by (apply in_q_iff; lia).
                eapply updates_weaken.
                ** apply updates_seq; [apply updates_seq| apply updates_seq |];
                     [apply add_ok|apply add_ok| |apply add_ok|apply add_ok| |];
                     try assumption; try (apply IR; cbn; lia); try reflexivity;
                     unfold GP, GM; intros c H1 H2; subst; celleq; try lia.
                   destruct H1 as [->| ->]; destruct H2 as [H2|H2]; celleq; lia.
                ** unfold GP, GM. intros [[a j'] m']. split.
                   --- intros [[E|E]|[E|E]]; celleq; lia.
                   --- intros (H1 & -> & ->).
                       assert (E : a = 4 \/ a = 5 \/ a = 6 \/ a = 7) by lia. destruct E as [->|[->|[->| ->]]]; tauto.
             ++ intros m1 m2 [[a j'] m'] _ Hlt _ H1 H2. lia.
          -- intros [[a j'] m']. split.
             ++ intros (k & H1 & H2). lia.
             ++ intros H1. exists m'. lia.
        * intros m1 m2 [[a j'] m'] _ Hlt _ H1 H2. lia.
      + intros [[a j'] m] (k & H1 & H2) (k' & H3 & H4). lia.
    - intros [[a j'] m]. destruct (Z.ltb_spec a 4); split.
      + intros [(k & H1 & H2)|(k & H1 & H2)]; lia.
      + intros H1. left. exists j'. lia.
      + intros [(k & H1 & H2)|(k & H1 & H2)]; lia.
      + intros H1. right. exists j'. lia.
  Qed.

  (* ------------------------------------------------------------------ update of q *)
  Variable mcapa : Z.
  Variable kappa : areas.
  Hypothesis Hq : full d q.
  Hypothesis Hcap : capacity d maux kappa dx dy mcapa aux.

  Definition newq (c : cell) : Q :=
    let '(i, j, m) := c in
    let X := (val fm ((i + 1)%Z, j, m) - val fp (i, j, m))%Q in
    let Y := (val gm (i, (j + 1)%Z, m) - val gp (i, j, m))%Q in
    if mcapa =? 0 then (val q (i, j, m) - dt / dx * X - dt / dy * Y)%Q
    else (val q (i, j, m) - (dt / dx * X + dt / dy * Y) / val aux (i, j, mcapa))%Q.

  Lemma update_ok : 
    updates none q (update_q d maux dt dx dy mcapa aux fp fm gp gm)
      (fun c => let '(i, j, m) := c in 1 - mbc d <= i <= mx d + mbc d - 1 /\ 1 - mbc d <= j <= my d + mbc d - 1 /\ 1 <= m <= meqn d)
      (fun c => Some (newq c)).
  Proof.
    unfold update_q. eapply updates_weaken.
    - apply (updates_loop none q (fun m c => let '(i, j, m') := c in
        1 - mbc d <= i <= mx d + mbc d - 1 /\ 1 - mbc d <= j <= my d + mbc d - 1 /\ m' = m)).
      + intros m Hm. eapply updates_weaken.
        * apply (updates_loop none q (fun i c => let '(i', j, m') := c in
            i' = i /\ 1 - mbc d <= j <= my d + mbc d - 1 /\ m' = m)).
          -- intros i Hi. eapply updates_weaken.
             ++ apply (updates_loop none q (fun j c => c = (i, j, m))).
                ** intros j Hj. split; [|intros c _ []].
                   intros s Hs.
                   assert (I0 : in_q d (i, j, m) = true) by (apply in_q_iff; lia).
                   assert (I1 : in_q d (i + 1, j, m) = true) by (apply in_q_iff; lia).
                   assert (I2 : in_q d (i, j + 1, m) = true) by (apply in_q_iff; lia).
                   assert (E : rd d s (i, j, m) = Some (val q (i, j, m))).
                   { rewrite <- (rd_val d q _ Hq I0). unfold rd. rewrite I0. apply Hs. now left. }
                   rewrite E, (rd_val d fm _ Hfm I1), (rd_val d fp _ Hfp I0), (rd_val d gm _ Hgm I2), (rd_val d gp _ Hgp I0).
                   cbn [bind].
                   assert (G : forall v, newq (i, j, m) = v ->
                     exists s', wr d s (i, j, m) v = Some s' /\ (forall c, c = (i, j, m) -> s' c = Some (newq c)) /\
                       (forall c, c <> (i, j, m) -> s' c = s c) /\ (forall c, s' c = Some (newq c) \/ s' c = s c)).
                   { intros v Hv. destruct (writes_cell none q d (i, j, m) v I0 (fun c => Some (newq c)) (f_equal Some Hv) s) as (s' & X & A & B & C); [intros c []|].
                     exists s'. tauto. }
                   destruct (Z.eqb_spec mcapa 0) as [H0|H0].
                   --- apply G. unfold newq. rewrite (proj2 (Z.eqb_eq mcapa 0) H0). reflexivity.
                   --- destruct Hcap as [_ HC]. destruct (HC H0) as (Hr & Ha & _).
                       assert (EA : at_aux d maux aux i j mcapa = Some (val aux (i, j, mcapa))).
                       { unfold at_aux. apply rd_val; [exact Ha|]. apply in_q_iff. cbn [mx my mbc meqn]. lia. }
                       rewrite EA. cbn [bind]. apply G. unfold newq. rewrite (proj2 (Z.eqb_neq mcapa 0) H0). reflexivity.
                ** intros j1 j2 c _ Hlt _ -> E. celleq. lia.
             ++ intros [[i' j'] m']. split.
                ** intros (k & H1 & E). celleq. lia.
                ** intros (-> & H & ->). exists j'. split; [lia|reflexivity].
          -- intros m1 m2 [[a j'] m'] _ Hlt _ H1 H2. lia.
        * intros [[i' j'] m']. split; [intros (k & H1 & H2); lia|intros H1; exists i'; lia].
      + intros m1 m2 [[a j'] m'] _ Hlt _ H1 H2. lia.
    - intros [[i' j'] m']. split; [intros (k & H1 & H2); lia|intros H1; exists m'; lia].
  Qed.

  (* ------------------------------------------------------------------------ balance *)
  Hypothesis Hdx : ~ (dx == 0)%Q.
  Hypothesis Hdy : ~ (dy == 0)%Q.
  Hypothesis Hsplit : splits d F dx dy fp fm gp gm.
  Hypothesis Hclosed : closed d F.

  Definition PX (i j m : Z) : Q := (dy * val fp (i, j, m) + elx F i j * fl F i j m)%Q.
  Definition PY (i j m : Z) : Q := (dx * val gp (i, j, m) + ely F i j * gl F i j m)%Q.

  Lemma PX_out : forall i j m, 1 <= i <= mx d + 1 -> 1 <= j <= my d -> 1 <= m <= meqn d ->
    (PX i j m == dy * val fm (i, j, m) + elx F i j * fr F (i - 1)%Z j m)%Q.
  Proof. intros i j m H1 H2 H3. destruct (Hsplit i j m H3) as [S _]. specialize (S H1 H2). unfold PX. lra. Qed.
  Lemma PY_out : forall i j m, 1 <= i <= mx d -> 1 <= j <= my d + 1 -> 1 <= m <= meqn d ->
    (PY i j m == dx * val gm (i, j, m) + ely F i j * gr F i (j - 1)%Z m)%Q.
  Proof. intros i j m H1 H2 H3. destruct (Hsplit i j m H3) as [_ S]. specialize (S H1 H2). unfold PY. lra. Qed.

  Lemma cell_balance : forall i j m, 1 <= i <= mx d -> 1 <= j <= my d -> 1 <= m <= meqn d ->
    (kappa i j * (newq (i, j, m) - val q (i, j, m)) ==
     - dt * (PX (i + 1)%Z j m - PX i j m) - dt * (PY i (j + 1)%Z m - PY i j m))%Q.
  Proof.
    intros i j m H1 H2 H3.
    pose proof (PX_out (i + 1) j m ltac:(lia) H2 H3) as P1. pose proof (PY_out i (j + 1) m H1 ltac:(lia) H3) as P2.
    replace (i + 1 - 1) with i in P1 by lia. replace (j + 1 - 1) with j in P2 by lia.
    pose proof (Hclosed i j m H1 H2 H3) as CL.
    rewrite P1, P2. unfold PX, PY.
    set (fme := val fm ((i + 1)%Z, j, m)). set (fpw := val fp (i, j, m)).
    set (gmn := val gm (i, (j + 1)%Z, m)). set (gps := val gp (i, j, m)).
    transitivity (- dt * (dy * (fme - fpw)) - dt * (dx * (gmn - gps)))%Q.
    - unfold newq. fold fme fpw gmn gps. destruct Hcap as [C1 C2]. destruct (Z.eqb_spec mcapa 0) as [E|E].
      + rewrite (C1 E i j H1 H2). field. split; assumption.
      + destruct (C2 E) as (_ & _ & C3). destruct (C3 i j H1 H2) as [C4 C5]. rewrite C4. field. repeat split; assumption.
    - transitivity (- dt * (dy * (fme - fpw)) - dt * (dx * (gmn - gps)) +
         dt * ((elx F i j * fl F i j m - elx F (i + 1)%Z j * fr F i j m) +
               (ely F i j * gl F i j m - ely F i (j + 1)%Z * gr F i j m)))%Q.
      + rewrite CL. ring.
      + ring.
  Qed.
End Step.

Lemma qsum_tele_n : forall n lo (f : Z -> Q), (qsum_n n lo (fun k => f (k + 1)%Z - f k) == f (lo + Z.of_nat n)%Z - f lo)%Q.
Proof.
  induction n as [|n IH]; intros lo f; cbn [qsum_n].
  - replace (lo + Z.of_nat 0) with lo by lia. ring.
  - rewrite IH. replace (lo + 1 + Z.of_nat n) with (lo + Z.of_nat (S n)) by lia. ring.
Qed.
Lemma qsum_tele : forall n f, 0 <= n -> (qsum 1 n (fun k => f (k + 1)%Z - f k) == f (n + 1)%Z - f 1%Z)%Q.
Proof.
  intros n f Hn. unfold qsum. rewrite qsum_tele_n. replace (1 + Z.of_nat (Z.to_nat (n - 1 + 1))) with (n + 1) by lia. reflexivity.
Qed.
Lemma qsum_n_const0 : forall n lo, (qsum_n n lo (fun _ => 0) == 0)%Q.
Proof. induction n as [|n IH]; intros lo; cbn [qsum_n]; [reflexivity|]. rewrite IH. ring. Qed.
Lemma qsum_n_swap : forall n lo (m : nat) lo' f,
  (qsum_n n lo (fun i => qsum_n m lo' (fun j => f i j)) == qsum_n m lo' (fun j => qsum_n n lo (fun i => f i j)))%Q.
Proof.
  induction n as [|n IH]; intros lo m lo' f; cbn [qsum_n].
  - symmetry. apply qsum_n_const0.
  - rewrite IH. rewrite <- qsum_n_add. apply qsum_n_ext. intros k _. reflexivity.
Qed.
Lemma qsum_swap : forall lo hi lo' hi' f,
  (qsum lo hi (fun i => qsum lo' hi' (fun j => f i j)) == qsum lo' hi' (fun j => qsum lo hi (fun i => f i j)))%Q.
Proof. intros. apply qsum_n_swap. Qed.
