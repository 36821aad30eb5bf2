From Coq Require Import ZArith Znumtheory QArith Qminmax Qfield List Bool Lia Lqa.
From Verif Require Import Model_Advance Spec_Advance Proof_Advance Proof_Advance2.
Import ListNotations.
Open Scope Z_scope.

(** * Not subcycled: all levels take the same step *)
Section Flat.
  Variable cfg : config.
  Variable cfl : Z -> Q -> Q -> Q.
  Variable t0 d : Q.
  Variable G L N : Z.
  Hypothesis HG : global_max cfg = G.
  Hypothesis HL : Z.min (local_min cfg) G = L.
  Hypothesis HS : subcycle cfg = false.

  Definition finv (c : counters) (pre : list event) : Prop :=
    (forall l, c_inc c l = 1) /\ (forall l, c_dt c l = d) /\ (forall l, c_total c l = N) /\
    (forall l, L <= l <= G -> (c_time c l == t0 + inject_Z (c_last c l) * d)%Q) /\
    (forall l, L <= l <= G -> (reached t0 l pre == c_time c l)%Q) /\
    (forall l, L <= l <= G -> Z.of_nat (length (steps_on l pre)) = c_last c l).

  Definition flat_event (pre : list event) (e : event) : Prop :=
    match e with
    | Step l t dt =>
      L <= l <= G /\ (dt == d)%Q /\ (t == reached t0 l pre)%Q /\
      (L < l -> (reached t0 (l - 1)%Z pre == t)%Q)
    | Interp _ _ => False
    | Ghost lo hi s b => b = false /\ lo = global_min cfg /\ hi = G /\
        (forall l, L <= l <= G -> (reached t0 l pre == s)%Q)
    | Sync lo hi => lo = global_min cfg /\ hi = G /\
        (forall l, L <= l <= G -> (reached t0 l pre == reached t0 G pre)%Q)
    end.

  Lemma advance_level_flat : forall fuel l nf m c pre,
    L <= l <= G -> (Z.to_nat (l - L) <= fuel)%nat ->
    finv c pre -> (forall j, L <= j <= l -> c_last c j = nf) -> largest_cfl cfl pre m ->
    exists c' evs m', advance_level cfg cfl fuel l nf m c = Some (c', evs, m') /\
      finv c' (pre ++ evs) /\ (forall j, L <= j <= l -> c_last c' j = nf + 1) /\
      (forall j, l < j <= G -> c_last c' j = c_last c j) /\
      good flat_event pre evs /\ largest_cfl cfl (pre ++ evs) m'.
  Proof.
    induction fuel; intros l nf m c pre Hl Hf Hinv Hb Hm;
      cbn [advance_level]; fold advance_level;
      rewrite (local_ltb cfg G L HL) by lia.
    all: set (c1 := increment c l).
    all: destruct Hinv as (H1 & H2 & H3 & H4 & H5 & H6).
    all: assert (Hlast : forall j, L <= j < l -> c_last c1 j = nf)
        by (intros; unfold c1, increment, updl; cbn [c_last]; destruct (Z.eqb_spec j l); [lia|apply Hb; lia]).
    all: assert (Hll : c_last c1 l = nf + 1)
        by (unfold c1, increment, updl; cbn [c_last]; rewrite Z.eqb_refl, (Hb l), H1 by lia; reflexivity).
    all: assert (Hother : forall j, l < j -> c_last c1 j = c_last c j)
        by (intros; unfold c1, increment, updl; cbn [c_last]; destruct (Z.eqb_spec j l); [lia|reflexivity]).
    all: assert (Hinv1 : finv c1 (pre ++ [Step l (c_time c l) (c_dt c l)])).
    1,3: split; [|split; [|split; [|split; [|split]]]];
         [ intros; apply H1; auto | intros; apply H2; auto | intros; apply H3; auto | | |].
    1,4: intros j Hj; unfold c1, increment, updl; cbn [c_last c_time c_dt];
         destruct (Z.eqb_spec j l); [subst j|apply H4; auto];
         rewrite H4, H2, H1, inject_Z_plus by auto; ring.
    1,3: intros j Hj; rewrite reached_app, reached_step; unfold c1, increment, updl; cbn [c_time c_dt];
         rewrite (Z.eqb_sym l j); destruct (Z.eqb_spec j l); [subst j; rewrite H5 by auto; reflexivity|apply H5; auto].
    1,2: intros j Hj; rewrite steps_on_app, app_length, Nat2Z.inj_add, H6 by auto;
         unfold c1, increment, updl, steps_on; cbn [c_last flat_map app];
         rewrite (Z.eqb_sym l j); destruct (Z.eqb_spec j l); cbn [length app]; [subst j; rewrite H1 by auto|]; lia.
    all: assert (Hok : flat_event pre (Step l (c_time c l) (c_dt c l))).
    1,3: cbn [flat_event]; split; [|split; [|split]];
         [lia | rewrite H2; reflexivity | symmetry; apply H5; auto |];
         intro HLl; rewrite H5 by lia; rewrite !H4 by lia; rewrite !Hb by lia; reflexivity.
    all: assert (Hm1 : largest_cfl cfl (pre ++ [Step l (c_time c l) (c_dt c l)])
                         (Qmax m (cfl l (c_time c l) (c_dt c l)))) by (apply largest_step; auto).
    all: destruct (Z.ltb_spec L l) as [HLl|HLl]; cbn [andb].
    1: lia.
    2: {
      rewrite (Hlast (l - 1)) by lia. rewrite Z.eqb_refl.
      destruct (IHfuel (l - 1) nf (Qmax m (cfl l (c_time c l) (c_dt c l))) c1
                  (pre ++ [Step l (c_time c l) (c_dt c l)]))
        as (c' & evs & m' & E & A1 & A2 & A3 & A4 & A5); auto; try lia.
      intros j Hj; apply Hlast; lia.
      rewrite E, HS. eexists _, _, _. split. reflexivity.
      change (Step l (c_time c l) (c_dt c l) :: evs) with ([Step l (c_time c l) (c_dt c l)] ++ evs).
      rewrite (app_assoc pre). split; auto. split; [|split; [|split]].
      - intros j Hj. destruct (Z.eq_dec j l). subst j. rewrite A3 by lia. auto. apply A2; lia.
      - intros j Hj. rewrite A3 by lia. apply Hother; lia.
      - cbn [app good]. split; auto.
      - eapply largest_eq; [|exact A5].
        symmetry. apply Q.max_r. destruct A5 as (B1 & B2 & B3). destruct Hm1 as (C1 & C2 & C3).
        destruct C3 as [C3|(l' & t' & h' & C3 & C4)]. rewrite C3; auto.
        rewrite C4. apply B1. apply in_or_app; auto. }
    all: eexists _, _, _; split; [reflexivity|].
    all: split; [exact Hinv1|split; [|split; [intros; apply Hother; lia|split; [cbn [good]; auto|exact Hm1]]]].
    all: intros j Hj; assert (j = l) by lia; subst j; auto.
  Qed.

  Lemma flat_fine_steps : forall n nf m c pre, 0 <= nf -> nf + Z.of_nat n = N ->
    finv c pre -> (forall j, L <= j <= G -> c_last c j = nf) -> good flat_event [] pre ->
    largest_cfl cfl pre m ->
    exists c' evs m', fine_steps cfg cfl n nf m c = Some (c', evs, m') /\
      finv c' (pre ++ evs) /\ (forall j, L <= j <= G -> c_last c' j = N) /\
      good flat_event [] (pre ++ evs) /\ largest_cfl cfl (pre ++ evs) m'.
  Proof.
    assert (HLG : L <= G) by lia.
    induction n; intros nf m c pre H0 Hn Hinv Hb Hg Hm; cbn [fine_steps].
    - eexists _, _, _. split. reflexivity. rewrite app_nil_r. split; auto. split; auto.
      intros. rewrite Hb by auto. lia.
    - unfold fine_step. rewrite HG.
      destruct (advance_level_flat (Z.to_nat (G - local_min cfg)) G nf m c pre)
        as (c' & evs & m' & E & A1 & A2 & A3 & A4 & A5); auto; try lia.
      rewrite E.
      assert (Hm' : largest_cfl cfl (pre ++ evs) (Qmax m' m)).
      { eapply largest_eq; [|exact A5]. symmetry. apply Q.max_l.
        destruct Hm as (B1 & B2 & B3). destruct A5 as (C1 & C2 & C3).
        destruct B3 as [B3|(l' & t' & h' & B3 & B4)]. rewrite B3; auto.
        rewrite B4. apply C1. apply in_or_app; auto. }
      destruct A1 as (F1 & F2 & F3 & F4 & F5 & F6).
      assert (HT : forall l, L <= l <= G -> (reached t0 l (pre ++ evs) == c_time c' G)%Q).
      { intros. rewrite F5, !F4, !A2 by lia. reflexivity. }
      rewrite HS, A2, F3 by lia. destruct (Z.ltb_spec (nf + 1) N).
      + set (q := [Ghost (global_min cfg) G (c_time c' G) false] ++ (if time_sync cfg then [Sync (global_min cfg) G] else [])).
        assert (Hns : forall j, steps_on j q = []) by (intros; unfold q; destruct (time_sync cfg); reflexivity).
        destruct (IHn (nf + 1) (Qmax m' m) c' (pre ++ evs ++ q)) as (c2 & evs2 & m2 & E2 & B1 & B2 & B3 & B4); try lia.
        * split; [|split; [|split; [|split; [|split]]]]; auto; intros; rewrite app_assoc.
          rewrite reached_app, (reached_nostep _ _ _ (Hns l)). auto.
          rewrite steps_on_app, Hns, app_nil_r. auto.
        * auto.
        * rewrite app_assoc. apply good_app. split. apply good_app; auto. unfold q. apply good_app. cbn [app].
          split. cbn [good]. split; [|exact I]. cbn [flat_event]. auto.
          destruct (time_sync cfg); cbn [good]; auto. split; [|exact I]. cbn [flat_event]. split; auto. split; auto.
          intros. rewrite !reached_app, !(reached_nostep _ _ [Ghost _ _ _ _]) by reflexivity.
          rewrite <- !reached_app. rewrite !HT by lia. reflexivity.
        * rewrite app_assoc. apply largest_nonstep; auto.
        * rewrite E2. eexists _, _, _. split. reflexivity. rewrite !app_assoc in *. auto.
      + assert (n = 0%nat) by lia. subst n. cbn [fine_steps].
        eexists _, _, _. split. reflexivity. rewrite app_nil_r. split; [|split; [|split]]; auto.
        split; [|split; [|split; [|split; [|split]]]]; auto.
        intros. rewrite A2 by auto. lia. apply good_app; auto.
  Qed.
End Flat.

Section TopFlat.
  Variable cfg : config.
  Variable cfl : Z -> Q -> Q -> Q.
  Variable t0 dt : Q.
  Hypothesis Hwf : wf_config cfg.
  Hypothesis HS : subcycle cfg = false.
  Let G := global_max cfg.
  Let L := Z.min (local_min cfg) G.
  (** number of steps taken in one call *)
  Definition flat_steps : Z := if advance_one_step cfg then 1 else 2 ^ (maxlevel cfg - minlevel cfg).
  Definition flat_dt : Q := if advance_one_step cfg then dt else (dt / inject_Z (2 ^ (maxlevel cfg - minlevel cfg)))%Q.

  Lemma flat_steps_dt : (inject_Z flat_steps * flat_dt == dt)%Q.
  Proof.
    unfold flat_steps, flat_dt. destruct (advance_one_step cfg).
    change (inject_Z 1) with 1%Q. ring. field. apply pow2_neq0. destruct Hwf as (W0 & W1 & W2 & W3). lia.
  Qed.

  Lemma advance_flat :
    exists evs m, advance_all_levels cfg cfl t0 dt = Some (evs, m) /\
      good (flat_event cfg t0 flat_dt G L) [] evs /\ largest_cfl cfl evs m /\
      (forall l, L <= l <= G -> Z.of_nat (length (steps_on l evs)) = flat_steps).
  Proof.
    unfold advance_all_levels. fold G.
    destruct Hwf as (W0 & W1 & W2 & W3).
    assert (HLG : L <= G) by (unfold L; lia).
    assert (Hinit : finv t0 flat_dt G L flat_steps (init_counters cfg t0 dt) []).
    { unfold init_counters. rewrite HS. unfold flat_dt, flat_steps.
      destruct (advance_one_step cfg); (split; [|split; [|split; [|split; [|split]]]]);
      cbn [c_inc c_dt c_total c_time c_last]; intros; auto;
      try (change (inject_Z 0) with 0%Q; ring); reflexivity. }
    destruct Hinit as (I1 & I2 & I3 & I4 & I5 & I6).
    rewrite I1. cbn [negb Z.eqb Pos.eqb]. rewrite I3.
    assert (0 < flat_steps) by (unfold flat_steps; destruct (advance_one_step cfg); [lia|apply Z.pow_pos_nonneg; lia]).
    destruct (flat_fine_steps cfg cfl t0 flat_dt G L flat_steps eq_refl eq_refl HS
                (Z.to_nat flat_steps) 0 0%Q (init_counters cfg t0 dt) [])
      as (c & evs & m & E & S1 & M1 & G1 & C1); auto; try lia.
    { split; [|split; [|split; [|split; [|split]]]]; auto. }
    { intros. rewrite <- I6 by auto. reflexivity. }
    { exact I. }
    { apply largest_nil. }
    rewrite E. cbn [app] in *.
    destruct S1 as (F1 & F2 & F3 & F4 & F5 & F6).
    assert (Hdone : levels_done cfg c = true).
    { unfold levels_done. apply forallb_forall. intros k Hk. apply in_seq in Hk. cbn beta zeta.
      assert (L <= local_min cfg + Z.of_nat k <= G) by (unfold L, G in *; lia).
      rewrite M1, F1, F3 by auto. apply Z.eqb_eq. lia. }
    rewrite Hdone. cbn [negb]. eexists _, _. split. reflexivity.
    set (q := [Ghost (global_min cfg) G (c_time c G) false] ++ (if time_sync cfg then [Sync (global_min cfg) G] else [])).
    change (Ghost (global_min cfg) G (c_time c G) false :: _) with q.
    assert (Hns : forall j, steps_on j q = []) by (intros; unfold q; destruct (time_sync cfg); reflexivity).
    assert (HT : forall l, L <= l <= G -> (reached t0 l evs == c_time c G)%Q).
    { intros. rewrite F5, !F4, !M1 by lia. reflexivity. }
    split; [|split].
    - apply good_app. split; auto. unfold q. apply good_app. cbn [app]. split.
      + cbn [good]. split; [|exact I]. cbn [flat_event]. auto.
      + destruct (time_sync cfg); cbn [good]; auto. split; [|exact I]. cbn [flat_event]. split; auto. split; auto.
        intros. rewrite !reached_app, !(reached_nostep _ _ [Ghost _ _ _ _]) by reflexivity.
        rewrite !HT by lia. reflexivity.
    - apply largest_nonstep; auto.
    - intros l Hll. rewrite steps_on_app, Hns, app_nil_r. rewrite F6 by auto. auto.
  Qed.
End TopFlat.

(** * Statements for the property file *)
Lemma every_good : forall P evs, every evs P -> good P [] evs.
Proof.
  intros P evs H. assert (X : forall r pre, evs = pre ++ r -> good P pre r).
  { induction r; intros pre E; cbn [good]; auto. split. apply (H pre a r E).
    apply IHr. rewrite <- app_assoc. exact E. }
  apply X. reflexivity.
Qed.

Lemma steps_in_range : forall evs (P : list event -> event -> Prop) (R : Z -> Prop),
  every evs P -> (forall pre l t h, P pre (Step l t h) -> R l) ->
  forall l t h, In (Step l t h) evs -> R l.
Proof.
  intros evs P R H HPQ l t h Hin. apply in_split in Hin. destruct Hin as (a & b & E).
  eapply HPQ. apply (H a _ b E).
Qed.

Theorem advance_subcycled : forall cfg cfl t dt, wf_config cfg -> subcycle cfg = true ->
  let lo := Z.min (local_min cfg) (global_max cfg) in
  let dt_of l := (dt / inject_Z (2 ^ (l - minlevel cfg)))%Q in
  exists evs m, advance_all_levels cfg cfl t dt = Some (evs, m) /\
    (forall l, lo <= l <= global_max cfg ->
       same_steps (steps_on l evs) (uniform_steps t (dt_of l) (Z.to_nat (2 ^ (l - minlevel cfg)))) /\
       (reached t l evs == t + dt)%Q) /\
    (forall l, ~ lo <= l <= global_max cfg -> steps_on l evs = []) /\
    largest_cfl cfl evs m /\
    every evs (fun pre e =>
      match e with
      | Step l s h => lo < l -> (reached t (l - 1)%Z pre == s \/ reached t (l - 1)%Z pre == s + h)%Q
      | Interp l a => lo <= l < global_max cfg /\ (a == 1 # 2)%Q /\
          (a * dt_of l == reached t (l + 1)%Z pre - (reached t l pre - dt_of l))%Q
      | Ghost l1 l2 s true =>
          l2 = global_max cfg /\ minlevel cfg < l1 <= l2 /\
          (forall l, lo <= l -> l1 <= l <= l2 -> (reached t l pre == s)%Q) /\
          (lo < l1 -> exists a, interpolated (l1 - 1) a pre /\
             (reached t (l1 - 1)%Z pre - dt_of (l1 - 1)%Z + a * dt_of (l1 - 1)%Z == s)%Q)
      | Ghost l1 l2 s false =>
          l1 = global_min cfg /\ l2 = global_max cfg /\
          (forall l, lo <= l <= l2 -> (reached t l pre == s)%Q)
      | Sync l1 l2 =>
          forall l l', lo <= l -> lo <= l' -> l1 <= l <= l2 -> l1 <= l' <= l2 ->
            (reached t l pre == reached t l' pre)%Q
      end).
Proof.
  intros cfg cfl t dt Hwf HS lo dt_of.
  destruct (advance_sub cfg cfl t dt Hwf HS) as (evs & m & E & Hg & Hm & Hn).
  assert (W := Hwf). destruct W as (W0 & W1 & W2 & W3).
  fold lo in Hg, Hn. set (G := global_max cfg) in *. set (m0 := minlevel cfg) in *.
  set (h := (dt / inject_Z (2 ^ (G - m0)))%Q) in *.
  assert (Hlo : m0 <= lo <= G) by (unfold lo, m0, G; lia).
  assert (Hd : forall l, m0 <= l <= G -> (inject_Z (inc G l) * h == dt_of l)%Q).
  { intros. unfold dt_of. apply (inc_h cfg dt). auto. }
  exists evs, m. split; auto. split; [|split; [|split]]; auto.
  - intros l Hl. destruct (steps_uniform t (dt_of l) l evs) as [A B].
    { eapply good_impl; [|exact Hg]. intros p [] HP; cbn [step_at]; auto. intro. subst level.
      cbn [ok_ghost ok_event] in HP. destruct HP as (P1 & P2 & P3 & P4). split. apply P3; lia.
      rewrite P2. apply Hd. lia. }
    pose proof (Hn l Hl) as X.
    assert (length (steps_on l evs) = Z.to_nat (2 ^ (l - m0))) as Y by lia.
    split. rewrite Y in A. exact A. rewrite B, X. unfold dt_of. field. apply pow2_neq0. lia.
  - intros l Hl. destruct (steps_on l evs) as [|[s d] r] eqn:Es; auto. exfalso. apply Hl.
    assert (In (s, d) (steps_on l evs)) as Hin by (rewrite Es; left; reflexivity).
    unfold steps_on in Hin. apply in_flat_map in Hin. destruct Hin as (e & He & Hin).
    destruct e; try contradiction. destruct (Z.eqb_spec level l); [|contradiction]. subst level.
    eapply (steps_in_range evs _ (fun l => lo <= l <= G) (good_every _ _ Hg)); [|exact He].
    intros pre l' t' h' HP. cbn [ok_ghost ok_event] in HP. destruct HP as ([P|P] & _); lia.
  - intros pre e post Ee. pose proof (good_every _ _ Hg pre e post Ee) as HP.
    destruct e as [l s d|l a|l1 l2 s []|l1 l2]; cbn [ok_ghost ok_event] in HP.
    + destruct HP as (P1 & P2 & P3 & P4). exact P4.
    + destruct HP as (P1 & P2 & P3). split; auto. split; auto. rewrite P3, Hd by lia. rewrite P2. field.
    + destruct HP as (P1 & P2 & P3 & P4). split; auto. split. lia. split. intros; apply P3; lia.
      intro X. destruct (P4 X) as (a & Ha & Hi & Hr). exists a. split; auto. rewrite <- Hr, Hd by lia. ring.
    + destruct HP as (P1 & P2 & P3). split; auto. split; auto. intros; apply P3; lia.
    + destruct HP as (P1 & P2). intros. rewrite P2 by lia. rewrite (P2 l') by lia. reflexivity.
Qed.

Theorem advance_not_subcycled : forall cfg cfl t dt, wf_config cfg -> subcycle cfg = false ->
  let lo := Z.min (local_min cfg) (global_max cfg) in
  let n := if advance_one_step cfg then 1 else 2 ^ (maxlevel cfg - minlevel cfg) in
  exists evs m, advance_all_levels cfg cfl t dt = Some (evs, m) /\
    (forall l, lo <= l <= global_max cfg ->
       same_steps (steps_on l evs) (uniform_steps t (dt / inject_Z n) (Z.to_nat n)) /\
       (reached t l evs == t + dt)%Q) /\
    (forall l, ~ lo <= l <= global_max cfg -> steps_on l evs = []) /\
    largest_cfl cfl evs m /\
    every evs (fun pre e =>
      match e with
      | Step l s h => lo < l -> (reached t (l - 1)%Z pre == s)%Q
      | Interp _ _ => False
      | Ghost l1 l2 s b =>
          b = false /\ l1 = global_min cfg /\ l2 = global_max cfg /\
          (forall l, lo <= l <= l2 -> (reached t l pre == s)%Q)
      | Sync l1 l2 =>
          l1 = global_min cfg /\ l2 = global_max cfg /\
          forall l l', lo <= l <= l2 -> lo <= l' <= l2 -> (reached t l pre == reached t l' pre)%Q
      end).
Proof.
  intros cfg cfl t dt Hwf HS lo n.
  destruct (advance_flat cfg cfl t dt Hwf HS) as (evs & m & E & Hg & Hm & Hn).
  pose proof (flat_steps_dt cfg dt Hwf) as Hfd.
  assert (W := Hwf). destruct W as (W0 & W1 & W2 & W3).
  fold lo in Hg, Hn. set (G := global_max cfg) in *.
  assert (Hlo : lo <= G) by (unfold lo, G; lia).
  assert (Hnn : flat_steps cfg = n) by reflexivity.
  assert (Hpos : 0 < n).
  { unfold n. destruct (advance_one_step cfg). lia. apply Z.pow_pos_nonneg; lia. }
  assert (Hd : (flat_dt cfg dt == dt / inject_Z n)%Q).
  { rewrite <- Hfd at 2. rewrite Hnn. field. intro X. unfold Qeq, inject_Z in X. cbn [Qnum Qden] in X. lia. }
  exists evs, m. split; auto. split; [|split; [|split]]; auto.
  - intros l Hl. destruct (steps_uniform t (dt / inject_Z n) l evs) as [A B].
    { eapply good_impl; [|exact Hg]. intros p [] HP; cbn [step_at]; auto. intro. subst level.
      cbn [flat_event] in HP. destruct HP as (P1 & P2 & P3 & P4). split. auto.
      rewrite P2. exact Hd. }
    pose proof (Hn l Hl) as X. rewrite Hnn in X.
    assert (length (steps_on l evs) = Z.to_nat n) as Y by lia.
    split. rewrite Y in A. exact A. rewrite B, X. field.
    intro Z0. unfold Qeq, inject_Z in Z0. cbn [Qnum Qden] in Z0. lia.
  - intros l Hl. destruct (steps_on l evs) as [|[s d] r] eqn:Es; auto. exfalso. apply Hl.
    assert (In (s, d) (steps_on l evs)) as Hin by (rewrite Es; left; reflexivity).
    unfold steps_on in Hin. apply in_flat_map in Hin. destruct Hin as (e & He & Hin).
    destruct e; try contradiction. destruct (Z.eqb_spec level l); [|contradiction]. subst level.
    eapply (steps_in_range evs _ (fun l => lo <= l <= G) (good_every _ _ Hg)); [|exact He].
    intros pre l' t' h' HP. cbn [flat_event] in HP. tauto.
  - intros pre e post Ee. pose proof (good_every _ _ Hg pre e post Ee) as HP.
    destruct e as [l s d|l a|l1 l2 s b|l1 l2]; cbn [flat_event] in HP.
    + destruct HP as (P1 & P2 & P3 & P4). exact P4.
    + exact HP.
    + destruct HP as (P1 & P2 & P3 & P4). split; auto. split; auto. split; auto. intros; apply P4; lia.
    + destruct HP as (P1 & P2 & P3). split; auto. split; auto. intros. rewrite P3 by lia. rewrite (P3 l') by lia. reflexivity.
Qed.
