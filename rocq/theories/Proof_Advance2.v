From Coq Require Import ZArith Znumtheory QArith Qminmax Qfield List Bool Lia Lqa.
From Verif Require Import Model_Advance Spec_Advance Proof_Advance.
Import ListNotations.
Open Scope Z_scope.

(** Steps that start where the level stands and have one size are uniform. *)
Lemma uniform_snoc : forall t d n,
  uniform_steps t d (S n) = uniform_steps t d n ++ [((t + inject_Z (Z.of_nat n) * d)%Q, d)].
Proof. intros. unfold uniform_steps. rewrite seq_S, map_app. reflexivity. Qed.

Definition step_at (t0 d : Q) (l : Z) (pre : list event) (e : event) : Prop :=
  match e with Step l' t h => l' = l -> (t == reached t0 l pre)%Q /\ (h == d)%Q | _ => True end.

Lemma steps_uniform : forall t0 d l evs, good (step_at t0 d l) [] evs ->
  same_steps (steps_on l evs) (uniform_steps t0 d (length (steps_on l evs))) /\
  (reached t0 l evs == t0 + inject_Z (Z.of_nat (length (steps_on l evs))) * d)%Q.
Proof.
  intros t0 d l evs. induction evs as [|e evs IH] using rev_ind; intro H.
  - cbn [steps_on flat_map length]. split. constructor. unfold reached. cbn [steps_on flat_map fold_left].
    change (inject_Z (Z.of_nat 0)) with 0%Q. ring.
  - apply good_app in H. destruct H as [H1 H2]. specialize (IH H1). destruct IH as [A B].
    cbn [app good] in H2. destruct H2 as [H2 _].
    rewrite steps_on_app, reached_app.
    assert (E : steps_on l [e] = [] \/ exists t h, e = Step l t h /\ steps_on l [e] = [(t, h)]).
    { destruct e; auto. unfold steps_on. cbn [flat_map app]. destruct (Z.eqb_spec level l); auto.
      subst. right. exists t, dt. auto. }
    destruct E as [E|(t & h & E & F)].
    + rewrite (reached_nostep _ _ _ E), E, app_nil_r. auto.
    + subst e. rewrite F. cbn [step_at app] in H2. destruct (H2 eq_refl) as [X Y].
      rewrite app_length, Nat.add_1_r, uniform_snoc. split.
      * apply Forall2_app; auto. constructor; [|constructor]. cbn [fst snd]. split; auto. rewrite X. exact B.
      * rewrite reached_step, Z.eqb_refl. rewrite B, Y, Nat2Z.inj_succ.
        unfold Z.succ. rewrite inject_Z_plus. ring.
Qed.

(** * Subcycled *)
Section Sub.
  Variable cfg : config.
  Variable cfl : Z -> Q -> Q -> Q.
  Variable t0 h : Q.
  Variable G L m0 : Z.
  Hypothesis HG : global_max cfg = G.
  Hypothesis HL : Z.min (local_min cfg) G = L.
  Hypothesis HM : minlevel cfg = m0.
  Hypothesis HS : subcycle cfg = true.
  Hypothesis Hm0 : m0 <= L.
  Notation inc := (inc G).

  Lemma L_le_G : L <= G.
  Proof. clear HG HM HS Hm0. lia. Qed.

  Definition ok_ghost (pre : list event) (e : event) : Prop :=
    match e with
    | Ghost lo hi s true =>
      hi = G /\ m0 < lo <= G /\ (forall l, L <= l -> lo <= l <= G -> (reached t0 l pre == s)%Q) /\
      (L < lo -> exists a, (a == 1 # 2)%Q /\ interpolated (lo - 1) a pre /\
         (reached t0 (lo - 1)%Z pre - (1 - a) * (inject_Z (inc (lo - 1)%Z) * h) == s)%Q)
    | Ghost lo hi s false =>
      lo = global_min cfg /\ hi = G /\ (forall l, L <= l <= G -> (reached t0 l pre == s)%Q)
    | Sync lo hi => hi = G /\ (forall l, L <= l -> lo <= l <= G -> (reached t0 l pre == reached t0 G pre)%Q)
    | _ => ok_event t0 h G L pre e
    end.

  Lemma ok_event_ghost : forall pre e, ok_event t0 h G L pre e -> ok_ghost pre e.
  Proof. intros pre [] H; cbn [ok_event ok_ghost] in *; auto; contradiction. Qed.

  Lemma inc_divides : forall j l, j <= l -> l <= G -> (inc l | inc j).
  Proof.
    clear. intros. exists (2 ^ (l - j)). unfold Proof_Advance.inc.
    replace (G - j) with ((l - j) + (G - l)) by lia. rewrite Z.pow_add_r by lia. reflexivity.
  Qed.

  Lemma timeinterp_ok : forall c last fuel ti,
    (forall l, m0 <= l <= G -> c_inc c l = inc l) ->
    0 < last < inc m0 -> m0 <= ti < G -> (inc (ti + 1) | last) -> (Z.to_nat (ti + 1 - m0) <= fuel)%nat ->
    exists ti', timeinterp_level fuel c last ti = Some ti' /\
      m0 <= ti' < G /\ (inc (ti' + 1) | last) /\ ~ (inc ti' | last).
  Proof.
    clear HG HL HM HS Hm0.
    intros c last. induction fuel; intros ti Hc Hlast Hti Hd Hf. lia.
    cbn [timeinterp_level]. rewrite Hc by lia. pose proof (inc_pos G ti ltac:(lia)) as Hp.
    replace (inc ti =? 0) with false by (symmetry; apply Z.eqb_neq; lia).
    destruct (Z.eqb_spec (last mod inc ti) 0) as [E|E].
    - apply Z.mod_divide in E; [|lia].
      destruct (Z.eq_dec ti m0). subst. apply Z.divide_pos_le in E; lia.
      apply IHfuel; auto; try lia. replace (ti - 1 + 1) with ti by lia. auto.
    - exists ti. split; auto. split. lia. split. auto. intro D. apply E. apply Z.mod_divide; auto; lia.
  Qed.

  Definition carried (nf : Z) (pre : list event) : Prop :=
    0 < nf -> forall j, L <= j < G -> exists a, (a == 1 # 2)%Q /\ interpolated j a pre.

  Definition state_ok (nf : Z) (c : counters) (pre : list event) : Prop :=
    inv t0 h G L c pre /\ before G L c nf G /\ carried nf pre /\
    (forall l, m0 <= l <= G -> c_inc c l = inc l) /\ c_total c G = inc m0 /\
    good ok_ghost [] pre.

  Lemma fine_step_ok : forall nf m c pre, 0 <= nf < inc m0 ->
    state_ok nf c pre -> largest_cfl cfl pre m ->
    exists c' evs m', fine_step cfg cfl nf m c = Some (c', evs, m') /\
      state_ok (nf + 1) c' (pre ++ evs) /\ largest_cfl cfl (pre ++ evs) m' /\
      c_total c' = c_total c.
  Proof.
    intros nf m c pre Hnf (Hinv & Hb & Hc & Hi & Ht & Hg) Hm. pose proof L_le_G as HLG.
    unfold fine_step. rewrite HG.
    destruct (advance_level_ok cfg cfl t0 h G L HL HS (Z.to_nat (G - local_min cfg)) G nf m c pre)
      as (c' & evs & m' & E & A1 & A2 & A3 & A4 & A5 & A6 & A7 & A8 & A9 & A10); auto.
    lia. lia.
    { unfold Proof_Advance.inc. replace (G - G) with 0 by lia. apply Z.divide_1_l. }
    rewrite E.
    assert (HiG : inc G = 1) by (unfold Proof_Advance.inc; replace (G - G) with 0 by lia; reflexivity).
    assert (Hlast : c_last c' G = nf + 1).
    { rewrite A2 by lia. rewrite HiG. unfold up. rewrite Z.div_1_r. lia. }
    assert (Hcar : carried (nf + 1) (pre ++ evs)).
    { intros _ j Hj. destruct (Zdivide_dec (inc j) nf) as [D|D].
      - apply A9; auto; lia.
      - assert (0 < nf). { destruct (Z.eq_dec nf 0); [|lia]. subst. exfalso. apply D. apply Z.divide_0_r. }
        destruct (Hc H j Hj) as (a & Ha & Hin). exists a. split; auto.
        apply interp_lt; auto. apply A10; auto. lia. }
    assert (Hm' : largest_cfl cfl (pre ++ evs) (Qmax m' m)).
    { eapply largest_eq; [|exact A7]. symmetry. apply Q.max_l.
      destruct Hm as (B1 & B2 & B3). destruct A7 as (C1 & C2 & C3).
      destruct B3 as [B3|(l' & t' & h' & B3 & B4)]. rewrite B3; auto.
      rewrite B4. apply C1. apply in_or_app; auto. }
    assert (Hg' : good ok_ghost [] (pre ++ evs)).
    { apply good_app. split; auto. cbn [app]. eapply good_impl; [|exact A6]. apply ok_event_ghost. }
    assert (Hi' : forall l, m0 <= l <= G -> c_inc c' l = inc l) by (rewrite A5; auto).
    rewrite Hlast, A4, Ht, HS.
    destruct (Z.ltb_spec (nf + 1) (inc m0)) as [Hlt|Hge].
    - rewrite HM.
      assert (m0 < G).
      { destruct (Z.eq_dec m0 G) as [e|]; [|lia]. exfalso. rewrite e, HiG in Hlt. lia. }
      destruct (timeinterp_ok c' (nf + 1) (Z.to_nat (G - m0)) (G - 1)) as (ti & E' & T1 & T2 & T3); auto; try lia.
      { replace (G - 1 + 1) with G by lia. rewrite HiG. apply Z.divide_1_l. }
      rewrite E'. eexists _, _, _. split. reflexivity.
      assert (Hns : forall q, q = [Ghost (ti + 1) G (c_time c' G) true] ++ (if time_sync cfg then [Sync (ti + 1) G] else []) ->
                forall j, steps_on j q = []) by (intros q Hq j; subst q; destruct (time_sync cfg); reflexivity).
      specialize (Hns _ eq_refl).
      assert (HT : forall l, L <= l -> ti + 1 <= l <= G -> (reached t0 l (pre ++ evs) == c_time c' G)%Q).
      { destruct A1 as (H1 & H2 & H3 & H4 & H5). intros l Hl1 Hl2. rewrite H4, !H3, Hlast, A2 by lia.
        rewrite up_mult. reflexivity. apply inc_pos; lia.
        eapply Z.divide_trans; [|exact T2]. apply inc_divides; lia. }
      assert (HTi : L <= ti -> (reached t0 ti (pre ++ evs) == c_time c' G + inject_Z (inc (ti + 1)%Z) * h)%Q).
      { destruct A1 as (H1 & H2 & H3 & H4 & H5). intros Hl1. rewrite H4, !H3, Hlast, A2 by lia.
        replace ti with (ti + 1 - 1) at 1 by lia. rewrite inc_pred by lia.
        rewrite up_half; auto. rewrite inject_Z_plus. ring. apply inc_pos; lia.
        rewrite <- inc_pred by lia. replace (ti + 1 - 1) with ti by lia. auto. }
      set (q := [Ghost (ti + 1) G (c_time c' G) true] ++ (if time_sync cfg then [Sync (ti + 1) G] else [])) in *.
      rewrite (app_assoc pre).
      split; [|split].
      + split; [|split; [|split; [|split; [|split]]]].
        * destruct A1 as (H1 & H2 & H3 & H4 & H5). split; [|split; [|split; [|split]]]; auto.
          intros. rewrite reached_app, (reached_nostep _ _ _ (Hns l)). auto.
          intros. rewrite steps_on_app, Hns, app_nil_r. auto.
        * exact A2.
        * intros Hpos j Hj. destruct (Hcar Hpos j Hj) as (a & Ha & Hin). exists a. split; auto.
          apply interp_lt; auto.
        * auto.
        * rewrite A4; auto.
        * apply good_app. split; auto. unfold q. apply good_app. cbn [app]. split.
          -- cbn [good]. split; [|exact I]. cbn [ok_ghost]. split; auto. split. lia. split. auto.
             intro. replace (ti + 1 - 1) with ti by lia.
             destruct (Hcar ltac:(lia) ti ltac:(lia)) as (a & Ha & Hin). exists a. split; auto. split; auto.
             rewrite HTi by lia. rewrite Ha. replace ti with (ti + 1 - 1) at 2 by lia.
             rewrite inc_pred by lia. rewrite inject_Z_mult. change (inject_Z 2) with 2%Q. ring.
          -- destruct (time_sync cfg); cbn [good]; auto. split; [|exact I]. cbn [ok_ghost].
             split; auto. intros l Hl1 Hl2. rewrite !reached_app.
             rewrite !(reached_nostep _ _ [Ghost _ _ _ _]) by reflexivity.
             rewrite <- !reached_app. rewrite HT by auto. rewrite HT by lia. reflexivity.
      + apply largest_nonstep; auto.
      + auto.
    - eexists _, _, _. split. reflexivity. split; [|split; auto].
      split; [|split; [|split; [|split; [|split]]]]; auto. rewrite A4; auto.
  Qed.

  Lemma fine_steps_ok : forall n nf m c pre, 0 <= nf -> nf + Z.of_nat n = inc m0 ->
    state_ok nf c pre -> largest_cfl cfl pre m ->
    exists c' evs m', fine_steps cfg cfl n nf m c = Some (c', evs, m') /\
      state_ok (inc m0) c' (pre ++ evs) /\ largest_cfl cfl (pre ++ evs) m' /\ c_total c' = c_total c.
  Proof.
    induction n; intros nf m c pre H0 Hn Hs Hm; cbn [fine_steps].
    - eexists _, _, _. split. reflexivity. rewrite app_nil_r. replace (inc m0) with nf by lia. auto.
    - destruct (fine_step_ok nf m c pre) as (c1 & evs & m1 & E & S1 & M1 & T1); auto. lia.
      rewrite E. destruct (IHn (nf + 1) m1 c1 (pre ++ evs)) as (c2 & evs2 & m2 & E2 & S2 & M2 & T2); auto; try lia.
      rewrite E2. eexists _, _, _. split. reflexivity. rewrite app_assoc. split; auto. split; auto. congruence.
  Qed.
End Sub.

Section Top.
  Variable cfg : config.
  Variable cfl : Z -> Q -> Q -> Q.
  Variable t0 dt : Q.
  Hypothesis Hwf : wf_config cfg.
  Let G := global_max cfg.
  Let L := Z.min (local_min cfg) G.
  Let m0 := minlevel cfg.
  Let h := (dt / inject_Z (2 ^ (G - m0)))%Q.

  Lemma inc_h : forall l, m0 <= l <= G -> (inject_Z (inc G l) * h == dt / inject_Z (2 ^ (l - m0)))%Q.
  Proof.
    clear. intros. unfold h, inc. replace (G - m0) with ((G - l) + (l - m0)) by lia.
    rewrite Z.pow_add_r, inject_Z_mult by lia. field.
    split; apply pow2_neq0; lia.
  Qed.

  Lemma init_sub : subcycle cfg = true -> state_ok cfg t0 h G L m0 0 (init_counters cfg t0 dt) [].
  Proof.
    intro HS. unfold init_counters. rewrite HS. destruct Hwf as (W0 & W1 & W2 & W3).
    assert (Hinc : forall l, m0 <= l <= G ->
      Nat.iter (Z.to_nat (l - minlevel cfg)) (fun s => s / 2) (2 ^ (global_max cfg - minlevel cfg)) = inc G l).
    { intros. fold G m0. rewrite iter_half by lia. unfold inc. f_equal. lia. }
    assert (HLm : m0 <= L) by (unfold L, G, m0; lia).
    split; [|split; [|split; [|split; [|split]]]].
    - split; [|split; [|split; [|split]]]; cbn [c_inc c_dt c_time c_last]; intros.
      + apply Hinc. lia.
      + fold m0. rewrite iter_dt. rewrite inc_h by lia. rewrite Z2Nat.id by lia. reflexivity.
      + change (inject_Z 0) with 0%Q. ring.
      + reflexivity.
      + reflexivity.
    - intros j Hj. cbn [c_last]. assert (0 < inc G j) by (apply inc_pos; lia).
      symmetry. apply up_mult; auto. apply Z.divide_0_r.
    - intro. lia.
    - exact Hinc.
    - cbn [c_total]. fold m0 G. rewrite iter_double. unfold inc. rewrite Z2Nat.id; [reflexivity|]. unfold G, m0; lia.
    - exact I.
  Qed.

  (** the whole call, subcycled *)
  Lemma advance_sub : subcycle cfg = true ->
    exists evs m, advance_all_levels cfg cfl t0 dt = Some (evs, m) /\
      good (ok_ghost cfg t0 h G L m0) [] evs /\ largest_cfl cfl evs m /\
      (forall l, L <= l <= G -> Z.of_nat (length (steps_on l evs)) = 2 ^ (l - m0)).
  Proof.
    intro HS. unfold advance_all_levels. fold G.
    pose proof (init_sub HS) as Hinit. destruct Hwf as (W0 & W1 & W2 & W3).
    assert (HLm : m0 <= L) by (unfold L, G, m0; lia).
    assert (HLG : L <= G) by (unfold L; lia).
    assert (HincG : inc G G = 1) by (unfold inc; replace (G - G) with 0 by lia; reflexivity).
    assert (Hi1 : c_inc (init_counters cfg t0 dt) G = 1).
    { destruct Hinit as (_ & _ & _ & Hi & _). rewrite Hi by (unfold m0, G; lia). exact HincG. }
    assert (Htot : c_total (init_counters cfg t0 dt) G = inc G m0) by (destruct Hinit as (_ & _ & _ & _ & Ht & _); exact Ht).
    rewrite Hi1. cbn [negb Z.eqb Pos.eqb].
    assert (0 < inc G m0) by (apply inc_pos; lia).
    destruct (fine_steps_ok cfg cfl t0 h G L m0 eq_refl eq_refl eq_refl HS HLm
                (Z.to_nat (c_total (init_counters cfg t0 dt) G)) 0 0%Q (init_counters cfg t0 dt) [])
      as (c & evs & m & E & S1 & M1 & T1); auto.
    { lia. }
    { rewrite Htot. lia. }
    { apply largest_nil. }
    rewrite E. cbn [app] in S1, M1.
    destruct S1 as ((H1 & H2 & H3 & H4 & H5) & Hb & Hc & Hi & Ht & Hg).
    assert (Hl : forall l, L <= l <= G -> c_last c l = inc G m0).
    { intros l Hl. rewrite Hb by lia. apply up_mult. apply inc_pos; lia.
      apply inc_divides; lia. }
    assert (Hinc : forall l, L <= l <= G -> inc G l * 2 ^ (l - m0) = inc G m0).
    { intros. unfold inc. rewrite <- Z.pow_add_r by lia. f_equal. lia. }
    assert (Htl : forall l, L <= l <= G -> c_total c l = 2 ^ (l - m0)).
    { intros. rewrite T1. unfold init_counters. rewrite HS. cbn [c_total]. fold m0. rewrite iter_double.
      rewrite Z2Nat.id by lia. reflexivity. }
    assert (Hdone : levels_done cfg c = true).
    { unfold levels_done. apply forallb_forall. intros k Hk. apply in_seq in Hk. cbn beta zeta.
      assert (L <= local_min cfg + Z.of_nat k <= G).
      { unfold L, G in *. lia. }
      rewrite Hl, H1, Htl by auto. rewrite Hinc by auto. apply Z.eqb_refl. }
    rewrite Hdone. cbn [negb]. eexists _, _. split. reflexivity.
    set (q := [Ghost (global_min cfg) G (c_time c G) false] ++ (if time_sync cfg then [Sync (global_min cfg) G] else [])).
    assert (Hns : forall j, steps_on j q = []) by (intros; unfold q; destruct (time_sync cfg); reflexivity).
    assert (HT : forall l, L <= l <= G -> (reached t0 l evs == c_time c G)%Q).
    { intros. rewrite H4, !H3, !Hl by lia. reflexivity. }
    split; [|split].
    - apply good_app. split; auto. unfold q. apply good_app. cbn [app]. split.
      + cbn [good]. split; [|exact I]. cbn [ok_ghost]. auto.
      + destruct (time_sync cfg); cbn [good]; auto. split; [|exact I]. cbn [ok_ghost]. split; auto.
        intros. rewrite !reached_app, !(reached_nostep _ _ [Ghost _ _ _ _]) by reflexivity.
        rewrite !HT by lia. reflexivity.
    - apply largest_nonstep; auto.
    - intros l Hll. rewrite steps_on_app, Hns, app_nil_r.
      pose proof (H5 l Hll) as X. rewrite Hl in X by auto. rewrite <- (Hinc l) in X by auto.
      pose proof (inc_pos G l ltac:(lia)). nia.
  Qed.
End Top.
