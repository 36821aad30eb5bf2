(** Proofs about GeoClaw's time loops. *)
From Coq Require Import ZArith QArith Qround Qabs List Bool Lia Lqa.
From Verif Require Import Model_Run Spec_Run Model_GeoRun Spec_GeoRun.
Import ListNotations.
Open Scope Q_scope.

Lemma qlt_true a b : qlt a b = true -> a < b.
Proof.
  unfold qlt. intro H. apply negb_true_iff in H. apply Qnot_le_lt. intro X.
  apply Qle_bool_iff in X. congruence.
Qed.
Lemma qlt_false a b : qlt a b = false -> b <= a.
Proof. unfold qlt. intro H. apply negb_false_iff in H. apply Qle_bool_iff. exact H. Qed.
Lemma leb_false a b : Qle_bool a b = false -> b < a.
Proof. intro H. apply Qnot_le_lt. intro X. apply Qle_bool_iff in X. congruence. Qed.

Section P.
  Variable St : Type.
  Variable advance : St -> Q -> Q -> St * Q.
  Variable regrid : St -> St.
  Variable gmax : Q -> Q.
  Variable o : ropts.
  Variables iv0 iv1 dtmax : Q.
  Notation history := (history St advance regrid).
  Notation sub := (sub St).
  Notation sub_step := (sub_step St advance).
  Notation sub_steps := (sub_steps St advance).
  Notation d_sol := (d_sol St). Notation d_glob := (d_glob St).
  Notation d_cfl := (d_cfl St). Notation d_log := (d_log St).

  Lemma history_start t u s l t' s' : t == u -> history t s l t' s' -> history u s l t' s'.
  Proof.
    intros E H. revert u E. induction H; intros w E; constructor; eauto; try (rewrite H; assumption).
    rewrite <- E. exact H.
  Qed.

  Lemma history_app t s l t' s' l2 t'' s'' :
    history t s l t' s' -> history t' s' l2 t'' s'' -> history t s (l ++ l2) t'' s''.
  Proof.
    intros H H2. induction H; cbn [app]; try (constructor; auto; fail).
    eapply history_start; [symmetry; exact H|exact H2].
  Qed.

  Lemma history_end t s l t' s' u : t' == u -> history t s l t' s' -> history t s l u s'.
  Proof. intros E H. induction H; constructor; auto. rewrite H; exact E. Qed.

  (** CFL numbers of the calls in a log *)
  Definition cfl_le (m : Q) (e : revent St) : Prop :=
    match e with Accept _ t dt s _ => snd (advance s t dt) <= m | _ => True end.

  Lemma cfl_le_mono m m' l : m <= m' -> Forall (cfl_le m) l -> Forall (cfl_le m') l.
  Proof.
    intros E H. eapply Forall_impl; [|exact H]. intros [ | |t dt s s'| | ] X; cbn in *; auto. lra.
  Qed.

  Lemma sub_step_spec t dt x : let y := sub_step t dt x in
    d_log y = d_log x ++ [Accept St t dt (d_sol x) (d_sol y)] /\
    d_sol y = fst (advance (d_sol x) t dt) /\ d_glob y = d_glob x + dt /\
    d_cfl x <= d_cfl y /\ snd (advance (d_sol x) t dt) <= d_cfl y.
  Proof.
    intro y. unfold y, Model_GeoRun.sub_step. destruct (advance (d_sol x) t dt) as [s' c].
    cbn [Model_GeoRun.d_sol Model_GeoRun.d_log Model_GeoRun.d_glob Model_GeoRun.d_cfl fst snd].
    split; [reflexivity|]. split; [reflexivity|]. split; [reflexivity|].
    destruct (qlt (d_cfl x) c) eqn:E; [apply qlt_true in E | apply qlt_false in E]; lra.
  Qed.

  (** where the steps of a loop of equal steps lie *)
  Definition within (a b dt : Q) (e : revent St) : Prop :=
    match e with Accept _ t h _ _ => h = dt /\ (0 < dt -> a <= t /\ t + h <= b) | _ => False end.

  Lemma sub_steps_spec M : forall dt x, let y := sub_steps M dt x in
    exists es, d_log y = d_log x ++ es /\ length es = M /\
      history (d_glob x) (d_sol x) es (d_glob y) (d_sol y) /\
      d_glob y == d_glob x + inject_Z (Z.of_nat M) * dt /\
      Forall (within (d_glob x) (d_glob x + inject_Z (Z.of_nat M) * dt) dt) es /\
      d_cfl x <= d_cfl y /\ Forall (cfl_le (d_cfl y)) es.
  Proof.
    induction M as [|M IH]; intros dt x y.
    - exists []. unfold y. cbn [Model_GeoRun.sub_steps]. rewrite app_nil_r.
      change (inject_Z (Z.of_nat 0)) with 0. repeat split; auto; try (constructor; reflexivity); try lra.
    - unfold y. cbn [Model_GeoRun.sub_steps]. clear y.
      destruct (sub_step_spec (d_glob x) dt x) as (L & S & G & C1 & C2).
      set (z := sub_step (d_glob x) dt x) in *.
      destruct (IH dt z) as (es & L' & N & H & G' & W & C3 & C4).
      set (y := sub_steps M dt z) in *.
      assert (E : inject_Z (Z.of_nat (Datatypes.S M)) == inject_Z (Z.of_nat M) + 1)
        by (rewrite Nat2Z.inj_succ; unfold Z.succ; rewrite inject_Z_plus; reflexivity).
      assert (P : 0 <= inject_Z (Z.of_nat M))
        by (change 0 with (inject_Z 0); rewrite <- Zle_Qle; lia).
      exists (Accept St (d_glob x) dt (d_sol x) (d_sol z) :: es).
      split; [rewrite L', L, <- app_assoc; reflexivity|]. split; [cbn [length]; rewrite N; reflexivity|].
      split.
      { rewrite S. constructor; [reflexivity|]. rewrite <- S, <- G. exact H. }
      split; [rewrite G', G, E; ring|]. split.
      { constructor.
        - cbn. split; [reflexivity|]. intro D.
          rewrite E. split; [lra|]. assert (0 <= inject_Z (Z.of_nat M) * dt) by (apply Qmult_le_0_compat; lra). lra.
        - eapply Forall_impl; [|exact W]. intros [ | |t h s s'| | ]; cbn; auto. intros (A & B).
          split; [exact A|]. intro D. destruct (B D) as (B1 & B2). rewrite G in B1, B2. rewrite E. lra. }
      split; [lra|]. constructor; [cbn; lra|]. exact C4.
  Qed.

  (** the size of the steps while the bed moves *)
  Lemma count_spec D : 0 < dtmax ->
    let dtmin := if qlt D dtmax then D else dtmax in
    ~ dtmin == 0 -> let M := (Qceiling (D / dtmin) + 1)%Z in
    (2 <= M)%Z /\ inject_Z M * (D / inject_Z M) == D /\ D / inject_Z M < dtmax /\
    (0 < D -> 0 < D / inject_Z M) /\ (0 < D -> inject_Z M < D / dtmax + 3).
  Proof.
    intros P dtmin NZ M.
    assert (Q1 : D / dtmin <= inject_Z (Qceiling (D / dtmin))) by apply Qle_ceiling.
    assert (Q0 : inject_Z (Qceiling (D / dtmin)) < D / dtmin + 1).
    { pose proof (Qceiling_lt (D / dtmin)) as X. unfold Z.sub in X.
      rewrite inject_Z_plus in X. assert (Y : inject_Z (- (1)) == - (1)) by reflexivity.
      rewrite Y in X. revert X. generalize (inject_Z (Qceiling (D / dtmin))) (D / dtmin). intros; lra. }
    assert (Q2 : 1 <= D / dtmin).
    { unfold dtmin in *. destruct (qlt D dtmax) eqn:E.
      - assert (X : D / D == 1) by (field; exact NZ). rewrite X. lra.
      - apply qlt_false in E. apply Qle_shift_div_l; lra. }
    assert (K : (1 <= Qceiling (D / dtmin))%Z).
    { rewrite Zle_Qle. change (inject_Z 1) with 1. lra. }
    assert (M2 : (2 <= M)%Z) by (unfold M; lia).
    assert (MQ : inject_Z M == inject_Z (Qceiling (D / dtmin)) + 1) by (unfold M; rewrite inject_Z_plus; reflexivity).
    assert (MP : 2 <= inject_Z M) by (change 2 with (inject_Z 2); rewrite <- Zle_Qle; exact M2).
    split; [exact M2|]. split; [field; lra|].
    assert (PD : 0 < D -> 0 < D / inject_Z M).
    { intro DP. apply Qlt_shift_div_l; lra. }
    split; [|split; [exact PD|]].
    - apply Qlt_shift_div_r; [lra|]. unfold dtmin in *. destruct (qlt D dtmax) eqn:E.
      + apply qlt_true in E. nra.
      + assert (D == (D / dtmax) * dtmax) by (field; lra).
        assert ((D / dtmax) * dtmax <= inject_Z (Qceiling (D / dtmax)) * dtmax) by (apply Qmult_le_compat_r; lra).
        rewrite MQ. lra.
    - intro DP. unfold dtmin in *. destruct (qlt D dtmax) eqn:E.
      + assert (X : D / D == 1) by (field; lra). assert (0 < D / dtmax) by (apply Qlt_shift_div_l; lra).
        rewrite MQ. rewrite X in Q0 at 2. lra.
      + rewrite MQ. lra.
  Qed.

  Notation step_dtopo := (step_dtopo St advance iv0 iv1 dtmax).

  (** no solver call crosses the start of the motion; one that crosses the end leaves less
      than a hundredth of the outer step *)
  Definition well_placed (ts te : Q) (e : revent St) : Prop :=
    match e with
    | Accept _ t dt _ _ => 0 < dt /\ (t + dt <= iv0 \/ iv0 <= t) /\
        (t < iv1 -> iv1 < t + dt -> te - iv1 < (1 # 100) * (te - ts))
    | _ => False
    end.

  Lemma step_dtopo_spec ts te s g log x : 0 < dtmax -> g == ts ->
    step_dtopo ts te s g log = Ok x ->
    exists es, d_log x = log ++ es /\ (2 <= length es)%nat /\
      history ts s es (d_glob x) (d_sol x) /\ d_glob x == te /\
      Forall (resolved iv0 iv1 dtmax) es /\ Forall (cfl_le (d_cfl x)) es /\
      Forall (fun e => is_accept e = true) es /\
      (ts < te -> iv0 < iv1 -> Forall (well_placed ts te) es).
  Proof.
    intros P G. unfold Model_GeoRun.step_dtopo.
    destruct (Qle_bool iv1 ts || Qle_bool te iv0) eqn:E0; [discriminate|].
    apply orb_false_iff in E0. destruct E0 as (E1 & E2). apply leb_false in E1. apply leb_false in E2.
    set (pair := if qlt ts iv0 then _ else _).
    assert (A : exists e1, d_log (fst pair) = log ++ e1 /\ snd pair == d_glob (fst pair) /\
      history ts s e1 (d_glob (fst pair)) (d_sol (fst pair)) /\
      iv0 <= snd pair /\ (ts <= snd pair) /\ (ts < te -> snd pair < te) /\ (iv0 < iv1 -> snd pair < iv1) /\
      Forall (cfl_le (d_cfl (fst pair))) e1 /\ Forall (fun e => is_accept e = true) e1 /\
      Forall (resolved iv0 iv1 dtmax) e1 /\ (iv0 < iv1 -> Forall (well_placed ts te) e1)).
    { unfold pair. destruct (qlt ts iv0) eqn:L.
      - apply qlt_true in L. destruct (advance s ts (iv0 - ts)) as [s' c] eqn:A.
        cbn [fst snd Model_GeoRun.d_sol Model_GeoRun.d_log Model_GeoRun.d_glob Model_GeoRun.d_cfl].
        exists [Accept St ts (iv0 - ts) s s'].
        split; [reflexivity|]. split; [reflexivity|]. split.
        { replace s' with (fst (advance s ts (iv0 - ts))) by (rewrite A; reflexivity).
          constructor; [reflexivity|]. constructor. reflexivity. }
        split; [lra|]. split; [lra|]. split; [intro; lra|]. split; [intro; lra|].
        split; [constructor; [cbn; rewrite A; cbn; lra|constructor]|].
        split; [constructor; [reflexivity|constructor]|].
        split; [constructor; [cbn; intros; lra|constructor]|].
        intro I. constructor; [|constructor]. cbn. split; [lra|]. split; [left; lra|]. intros; lra.
      - apply qlt_false in L. exists [].
        cbn [fst snd Model_GeoRun.d_sol Model_GeoRun.d_log Model_GeoRun.d_glob Model_GeoRun.d_cfl].
        rewrite app_nil_r. split; [reflexivity|]. split; [symmetry; exact G|].
        split; [constructor; symmetry; exact G|]. split; [exact L|]. split; [lra|].
        split; [intro; lra|]. split; [intros _; exact E1|]. split; [constructor|]. split; [constructor|]. split; [constructor|]. intros _; constructor. }
    destruct pair as [x1 tl]. cbn [fst snd] in A.
    destruct A as (e1 & L1 & T1 & H1 & I1 & I2 & I3 & I4 & C1 & AC1 & R1 & W1).
    set (te0 := if qlt iv1 te then iv1 else te).
    set (tel := if qlt (Qabs (te - te0)) _ then te else te0).
    assert (TE : (tel = te /\ (iv1 < te -> te - iv1 < (1 # 100) * (te - ts))) \/ (tel = iv1 /\ iv1 < te)).
    { unfold tel, te0. destruct (qlt iv1 te) eqn:L.
      - apply qlt_true in L. destruct (qlt (Qabs (te - iv1)) _) eqn:L2; [left|right; split; [reflexivity|exact L]].
        apply qlt_true in L2. split; [reflexivity|]. intros _. rewrite Qabs_pos in L2 by lra. exact L2.
      - apply qlt_false in L. destruct (qlt (Qabs (te - te)) _); left; (split; [reflexivity|intro; lra]). }
    clearbody tel. clear te0.
    set (D := tel - tl). set (dtmin := if qlt D dtmax then D else dtmax).
    destruct (Qeq_bool dtmin 0) eqn:EZ; [discriminate|].
    assert (NZ : ~ dtmin == 0) by (intro X; apply Qeq_bool_iff in X; congruence).
    pose proof (count_spec D P NZ) as CS. cbv zeta in CS. fold dtmin in CS.
    set (M := (Qceiling (D / dtmin) + 1)%Z) in *.
    destruct CS as (M2 & MD & ML & MP & _).
    destruct ((M <? -2147483648) || (2147483647 <? M) || (M =? 0))%Z; [discriminate|].
    destruct (sub_steps_spec (Z.to_nat M) (D / inject_Z M) x1) as (e2 & L2 & N2 & H2 & G2 & W2 & C2 & C3).
    set (x2 := sub_steps (Z.to_nat M) (D / inject_Z M) x1) in *.
    rewrite Z2Nat.id in G2, W2 by lia.
    assert (GE : d_glob x2 == tel) by (rewrite G2, MD, <- T1; unfold D; ring).
    assert (RES : Forall (resolved iv0 iv1 dtmax) (e1 ++ e2)).
    { apply Forall_app. split; [exact R1|]. eapply Forall_impl; [|exact W2].
      intros [ | |t h a b| | ]; cbn; auto. intros (X & _) _ _. rewrite X. exact ML. }
    assert (ACC : Forall (fun e => is_accept e = true) (e1 ++ e2)).
    { apply Forall_app. split; [exact AC1|]. eapply Forall_impl; [|exact W2].
      intros [ | |t h a b| | ]; cbn; auto; contradiction. }
    assert (WP : ts < te -> iv0 < iv1 -> Forall (well_placed ts te) (e1 ++ e2)).
    { intros TT II. apply Forall_app. split; [exact (W1 II)|].
      assert (DP : 0 < D) by (unfold D; specialize (I4 II); specialize (I3 TT); destruct TE as [(X & _)|(X & _)]; rewrite X; lra).
      specialize (MP DP). eapply Forall_impl; [|exact W2].
      intros [ | |t h a b| | ]; cbn; auto. intros (X & Y). specialize (Y MP). destruct Y as (Y1 & Y2).
      rewrite X in *. rewrite MD in Y2. split; [exact MP|]. split; [right; lra|].
      assert (Y3 : t + D / inject_Z M <= tel).
      { assert (DE : D == tel - tl) by reflexivity. rewrite DE in Y2 at 2. rewrite T1 in Y2.
        eapply Qle_trans; [exact Y2|]. lra. }
      revert Y3. generalize (D / inject_Z M). intros h1 Y3 B1 B2.
      destruct TE as [(Z1 & Z2)|(Z1 & Z2)]; rewrite Z1 in Y3; [apply Z2|]; lra. }
    intro OK.
    destruct (qlt tel te) eqn:L3; assert (XE := OK); apply (f_equal (fun r => match r with Ok a => a | _ => x end)) in XE; cbn in XE; subst x; clear OK.
    - apply qlt_true in L3. destruct TE as [(X & _)|(X & XL)]; [rewrite X in L3; lra|].
      destruct (sub_step_spec tel (te - tel) x2) as (L & S & G' & D1 & D2).
      set (y := sub_step tel (te - tel) x2) in *.
      exists ((e1 ++ e2) ++ [Accept St tel (te - tel) (d_sol x2) (d_sol y)]).
      split; [rewrite L, L2, L1, !app_assoc; reflexivity|].
      split; [rewrite !app_length, N2; lia|].
      split.
      { eapply history_app; [eapply history_app; [exact H1|exact H2]|]. rewrite S. constructor; [symmetry; exact GE|].
        constructor. rewrite G'. rewrite GE. reflexivity. }
      split; [rewrite G', GE; ring|].
      split; [apply Forall_app; split; [exact RES|constructor; [|constructor]]; cbn; rewrite X; intros; lra|].
      split.
      { apply Forall_app. split; [|constructor; [cbn; exact D2|constructor]].
        apply Forall_app; split; [eapply cfl_le_mono; [|exact C1]|eapply cfl_le_mono; [|exact C3]]; lra. }
      split; [apply Forall_app; split; [exact ACC|constructor; [reflexivity|constructor]]|].
      intros TT II. apply Forall_app. split; [exact (WP TT II)|]. constructor; [|constructor]. cbn.
      split; [lra|]. split; [right; rewrite X; lra|]. intros B1. rewrite X in B1. lra.
    - apply qlt_false in L3. exists (e1 ++ e2).
      split; [rewrite L2, L1, app_assoc; reflexivity|].
      split; [rewrite app_length, N2; lia|].
      split; [eapply history_app; [exact H1|exact H2]|].
      split; [rewrite GE; destruct TE as [(X & _)|(X & XL)]; [rewrite X; reflexivity|rewrite X in L3; lra]|].
      split; [exact RES|]. split; [|split; [exact ACC|exact WP]].
      apply Forall_app; split; [eapply cfl_le_mono; [|exact C1]|exact C3]; lra.
  Qed.

  (** it does end, unless the number of steps does not fit into an int *)
  Lemma step_dtopo_ends ts te s g log : 0 < dtmax -> ts < te -> iv0 < iv1 -> ts < iv1 -> iv0 < te ->
    (te - ts) / dtmax <= 2147483644 -> exists x, step_dtopo ts te s g log = Ok x.
  Proof.
    intros P TT II E1 E2 B. unfold Model_GeoRun.step_dtopo.
    destruct (Qle_bool iv1 ts) eqn:X1; [apply Qle_bool_iff in X1; lra|].
    destruct (Qle_bool te iv0) eqn:X2; [apply Qle_bool_iff in X2; lra|]. cbn [orb].
    set (pair := if qlt ts iv0 then _ else _).
    assert (A : ts <= snd pair /\ snd pair < te /\ snd pair < iv1).
    { unfold pair. destruct (qlt ts iv0) eqn:L.
      - apply qlt_true in L. destruct (advance s ts (iv0 - ts)). cbn [snd]. lra.
      - apply qlt_false in L. cbn [snd]. lra. }
    destruct pair as [x1 tl]. cbn [snd] in A.
    set (te0 := if qlt iv1 te then iv1 else te).
    set (tel := if qlt (Qabs (te - te0)) _ then te else te0).
    assert (TE : tel <= te /\ tl < tel).
    { unfold tel, te0. destruct (qlt iv1 te) eqn:L; [apply qlt_true in L | apply qlt_false in L];
      destruct (qlt (Qabs _) _); lra. }
    clearbody tel. clear te0.
    set (D := tel - tl). set (dtmin := if qlt D dtmax then D else dtmax).
    assert (DP : 0 < D) by (unfold D; lra).
    assert (NZ : ~ dtmin == 0) by (unfold dtmin; destruct (qlt D dtmax); lra).
    destruct (Qeq_bool dtmin 0) eqn:EZ; [apply Qeq_bool_iff in EZ; contradiction|].
    pose proof (count_spec D P NZ) as CS. cbv zeta in CS. fold dtmin in CS.
    set (M := (Qceiling (D / dtmin) + 1)%Z) in *.
    destruct CS as (M2 & _ & _ & _ & MB). specialize (MB DP).
    assert (BD : D / dtmax <= (te - ts) / dtmax).
    { apply Qle_shift_div_l; [exact P|]. assert (D / dtmax * dtmax == D) as -> by (field; lra). unfold D; lra. }
    assert (MB' : (M < 2147483647)%Z).
    { rewrite Zlt_Qlt. change (inject_Z 2147483647) with 2147483647. lra. }
    replace ((M <? -2147483648) || (2147483647 <? M) || (M =? 0))%Z with false; [eexists; reflexivity|].
    symmetry. apply orb_false_iff. split; [apply orb_false_iff; split; apply Z.ltb_ge; lia|].
    apply Z.eqb_neq. lia.
  Qed.

  (** ** Whole runs *)
  Notation rstate := (rstate St).
  Notation r_sol := (r_sol St). Notation r_time := (r_time St). Notation r_glob := (r_glob St).
  Notation r_log := (r_log St).
  Notation outer_step := (outer_step St advance iv0 iv1 dtmax).
  Notation gpass1 := (gpass1 St advance regrid gmax o iv0 iv1 dtmax).
  Notation gwhile1 := (gwhile1 St advance regrid gmax o iv0 iv1 dtmax).
  Notation gfor1 := (gfor1 St advance regrid gmax o iv0 iv1 dtmax).
  Notation gpass3 := (gpass3 St advance regrid gmax o iv0 iv1 dtmax).
  Notation gwhile3 := (gwhile3 St advance regrid gmax o iv0 iv1 dtmax).
  Notation accepts := (Forall (fun e : revent St => is_accept e = true)).

  Lemma outer_step_spec dt r x tc b : 0 < dtmax -> r_glob r == r_time r ->
    outer_step dt r = Ok (x, tc, b) ->
    exists es, d_log x = r_log r ++ es /\
      history (r_time r) (r_sol r) es (r_time r + dt) (d_sol x) /\ tc == r_time r + dt /\
      Forall (resolved iv0 iv1 dtmax) es /\ accepts es.
  Proof.
    intros P G. unfold Model_GeoRun.outer_step.
    destruct (Qle_bool iv1 (r_time r) || Qle_bool (r_time r + dt) iv0) eqn:E; cbn [negb].
    - destruct (advance (r_sol r) (r_time r) dt) as [s' c] eqn:A. intro OK.
      assert (X : x = mkSub St s' (r_glob r) c (r_log r ++ [Accept St (r_time r) dt (r_sol r) s'])) by congruence.
      assert (Y : tc = r_time r + dt) by congruence. subst x tc. clear OK.
      cbn [Model_GeoRun.d_log Model_GeoRun.d_sol].
      eexists. split; [reflexivity|]. split.
      { replace s' with (fst (advance (r_sol r) (r_time r) dt)) by (rewrite A; reflexivity).
        constructor; [reflexivity|]. constructor. reflexivity. }
      split; [reflexivity|]. split; [|constructor; [reflexivity|constructor]].
      constructor; [|constructor]. cbn. intros B1 B2. apply orb_true_iff in E.
      destruct E as [E|E]; apply Qle_bool_iff in E; lra.
    - destruct (step_dtopo (r_time r) (r_time r + dt) (r_sol r) (r_glob r) (r_log r)) as [y| | ] eqn:S;
        [|discriminate|discriminate].
      intro OK. assert (X : x = y) by congruence. assert (Y : tc = d_glob y) by congruence. subst x tc. clear OK.
      destruct (step_dtopo_spec _ _ _ _ _ _ P G S) as (es & L & _ & H & GE & R & _ & AC & _).
      exists es. split; [exact L|]. split; [eapply history_end; [exact GE|exact H]|].
      split; [exact GE|]. split; [exact R|exact AC].
  Qed.

  Definition J (s0 : St) (r : rstate) : Prop :=
    history 0 s0 (r_log r) (r_time r) (r_sol r) /\ r_glob r == r_time r /\
    Forall (resolved iv0 iv1 dtmax) (r_log r).

  (** what the parts of a pass leave alone *)
  Definition same (r r' : rstate) : Prop :=
    r_time r' = r_time r /\ frames (r_log r') = frames (r_log r) /\ r_frame _ r' = r_frame _ r /\ r_n _ r' = r_n _ r.

  Lemma frames_app a b : frames (a ++ b) = frames a ++ @frames St b.
  Proof. unfold frames. apply flat_map_app. Qed.
  Lemma frames_accepts es : accepts es -> frames es = [].
  Proof. induction 1 as [|e es H _ IH]; [reflexivity|]. destruct e; cbn in H; try discriminate. exact IH. Qed.

  Lemma J_regrid s0 r : J s0 r -> J s0 (maybe_regrid St regrid o r) /\ same r (maybe_regrid St regrid o r).
  Proof.
    intros (H & G & R). unfold maybe_regrid. destruct (_ && _)%bool; [|split; [split; auto|repeat split]].
    unfold J, same, emit. cbn [Model_Run.r_log Model_Run.r_time Model_Run.r_sol Model_Run.r_glob Model_Run.r_frame Model_Run.r_n].
    split; [|repeat split; rewrite frames_app; apply app_nil_r].
    split; [eapply history_app; [exact H|constructor; [reflexivity|constructor; reflexivity]]|].
    split; [exact G|]. apply Forall_app. split; [exact R|repeat constructor].
  Qed.
  Lemma J_diag s0 b r : J s0 r -> J s0 (diagnostics St b r) /\ same r (diagnostics St b r).
  Proof.
    intros (H & G & R). unfold diagnostics, J, same, emit.
    cbn [Model_Run.r_log Model_Run.r_time Model_Run.r_sol Model_Run.r_glob Model_Run.r_frame Model_Run.r_n].
    split; [|repeat split; rewrite frames_app; apply app_nil_r].
    split; [eapply history_app; [exact H|constructor; [exact G|constructor; reflexivity]]|].
    split; [exact G|]. apply Forall_app. split; [exact R|repeat constructor].
  Qed.
  Lemma J_frame s0 r : J s0 r -> J s0 (output_frame St r) /\
    r_time (output_frame St r) = r_time r /\ r_frame _ (output_frame St r) = r_frame _ r /\
    frames (r_log (output_frame St r)) = frames (r_log r) ++ [(r_frame _ r, r_glob r)].
  Proof.
    intros (H & G & R). unfold output_frame, J, emit.
    cbn [Model_Run.r_log Model_Run.r_time Model_Run.r_sol Model_Run.r_glob Model_Run.r_frame Model_Run.r_n].
    split; [|repeat split; rewrite frames_app; reflexivity].
    split; [eapply history_app; [exact H|constructor; [exact G|constructor; reflexivity]]|].
    split; [exact G|]. apply Forall_app. split; [exact R|repeat constructor].
  Qed.

  Lemma J_step s0 r es s' t t' dt' n' f l : J s0 r -> l = r_log r ++ es ->
    history (r_time r) (r_sol r) es t s' -> t == t' -> Forall (resolved iv0 iv1 dtmax) es ->
    J s0 (mkRst St s' t' t' dt' n' f l).
  Proof.
    intros (H & G & R) L H' T R'. unfold J.
    cbn [Model_Run.r_log Model_Run.r_time Model_Run.r_sol Model_Run.r_glob]. subst l.
    split; [eapply history_app; [exact H|eapply history_end; [exact T|exact H']]|].
    split; [reflexivity|]. apply Forall_app. split; assumption.
  Qed.

  Lemma J_reject s0 r dt dt' : J s0 r ->
    J s0 (mkRst St (r_sol r) (r_time r) (r_glob r) dt' (r_n _ r) (r_frame _ r)
            (r_log r ++ [Reject St (r_time r) dt (r_sol r) (r_sol r)])).
  Proof.
    intros (H & G & R). unfold J.
    cbn [Model_Run.r_log Model_Run.r_time Model_Run.r_sol Model_Run.r_glob].
    split; [eapply history_app; [exact H|constructor; [reflexivity|constructor; reflexivity]]|].
    split; [exact G|]. apply Forall_app. split; [exact R|repeat constructor].
  Qed.

  Lemma gpass1_J s0 tend r r' : 0 < dtmax -> J s0 r -> gpass1 tend r = Ok r' ->
    J s0 r' /\ frames (r_log r') = frames (r_log r) /\ r_frame _ r' = r_frame _ r /\
    (use_fixed_dt o = false -> r_time r <= tend -> r_time r' <= tend).
  Proof.
    intros P HJ. unfold Model_GeoRun.gpass1.
    set (d0 := if r_advance_one_step o then _ else _).
    set (adj := negb (use_fixed_dt o) && _).
    set (d := if adj then _ else d0).
    assert (DB : use_fixed_dt o = false -> r_time r <= tend -> r_time r + d <= tend).
    { intros F T. unfold d, adj. rewrite F. cbn [negb andb].
      destruct (Qle_bool ((1 # 100) * d0) (tend - (r_time r + d0))) eqn:E; cbn [negb].
      - apply Qle_bool_iff in E. destruct (Qlt_le_dec d0 0); lra.
      - lra. }
    clearbody d. set (tss := adj && _). clearbody tss. clear adj d0.
    destruct (outer_step d r) as [[[x tc] took]| | ] eqn:S; [|discriminate|discriminate].
    destruct (outer_step_spec d r x tc took P (proj1 (proj2 HJ)) S) as (es & L & H & T & R & AC).
    set (c := if reduce_cfl o then _ else _). clearbody c.
    destruct (negb took && _).
    - destruct (Qeq_bool c 0); [discriminate|]. destruct (use_fixed_dt o) eqn:F; [discriminate|].
      intro OK. apply (f_equal (fun z => match z with Ok a => a | _ => r end)) in OK. subst r'.
      split; [apply J_reject; exact HJ|]. cbn [Model_Run.r_log Model_Run.r_frame Model_Run.r_time].
      split; [rewrite frames_app; apply app_nil_r|]. split; [reflexivity|]. intros _ X; exact X.
    - destruct (negb (use_fixed_dt o) && Qeq_bool c 0); [discriminate|].
      set (dt' := if negb (use_fixed_dt o) && negb tss then _ else _). clearbody dt'.
      set (r1 := mkRst St (d_sol x) _ _ _ _ _ _).
      intro OK. apply (f_equal (fun z => match z with Ok a => a | _ => r end)) in OK. subst r'.
      assert (J1 : J s0 r1) by (eapply J_step; [exact HJ|exact L|exact H|reflexivity|exact R]).
      assert (F1 : frames (r_log r1) = frames (r_log r)).
      { unfold r1. cbn [Model_Run.r_log]. rewrite L, frames_app, (frames_accepts es AC). apply app_nil_r. }
      assert (T1 : r_time r1 = r_time r + d) by reflexivity.
      assert (N1 : r_frame _ r1 = r_frame _ r) by reflexivity.
      clearbody r1.
      set (r2 := if r_advance_one_step o then _ else _).
      assert (J2 : J s0 r2 /\ same r1 r2).
      { unfold r2. destruct (r_advance_one_step o); [apply J_diag; exact J1|split; [exact J1|repeat split]]. }
      destruct J2 as (J2 & S2). destruct (J_regrid s0 r2 J2) as (J3 & S3).
      destruct S2 as (A1 & A2 & A3 & _). destruct S3 as (B1 & B2 & B3 & _).
      split; [exact J3|]. rewrite B1, B2, B3, A1, A2, A3, F1, N1, T1. split; [reflexivity|].
      split; [reflexivity|]. exact DB.
  Qed.

  Lemma gwhile1_J s0 tend fuel : forall r r', 0 < dtmax -> J s0 r -> gwhile1 fuel tend r = Ok r' ->
    J s0 r' /\ frames (r_log r') = frames (r_log r) /\ r_frame _ r' = r_frame _ r /\ tend <= r_time r' /\
    (use_fixed_dt o = false -> r_time r <= tend -> r_time r' <= tend).
  Proof.
    induction fuel as [|fuel IH]; intros r r' P HJ; cbn [Model_GeoRun.gwhile1];
      destruct (Qle_bool tend (r_time r)) eqn:E;
      try (intro OK; apply (f_equal (fun z => match z with Ok a => a | _ => r end)) in OK; subst r';
           apply Qle_bool_iff in E; repeat split; auto; try apply HJ; fail); try discriminate.
    destruct (gpass1 tend r) as [r1| | ] eqn:S; [|discriminate|discriminate]. intro OK.
    destruct (gpass1_J s0 tend r r1 P HJ S) as (J1 & F1 & N1 & B1).
    destruct (IH r1 r' P J1 OK) as (J2 & F2 & N2 & T2 & B2).
    split; [exact J2|]. split; [congruence|]. split; [congruence|]. split; [exact T2|]. auto.
  Qed.

  Lemma J_same s0 r dt n f : J s0 r -> J s0 (mkRst St (r_sol r) (r_time r) (r_time r) dt n f (r_log r)).
  Proof. intros (H & G & R). split; [exact H|]. split; [reflexivity|exact R]. Qed.

  Lemma gfor1_J s0 d fuel n : forall r r', 0 < dtmax -> J s0 r ->
    gfor1 fuel n d r = Ok r' -> J s0 r'.
  Proof.
    induction n as [|n IH]; intros r r' P HJ; cbn [Model_GeoRun.gfor1].
    - intro OK. apply (f_equal (fun z => match z with Ok a => a | _ => r end)) in OK. subst r'. exact HJ.
    - set (ra := mkRst St _ _ _ _ _ _ _). assert (JA : J s0 ra) by (apply J_same; exact HJ).
      destruct (gwhile1 fuel _ ra) as [rb| | ] eqn:W; [|discriminate|discriminate].
      destruct (gwhile1_J s0 _ fuel ra rb P JA W) as (JB & _). intro OK.
      revert OK. apply IH; [exact P|].
      apply J_frame. apply (J_same s0 (diagnostics St false rb)). apply J_diag. exact JB.
  Qed.

  Lemma gfor1_frames s0 d fuel n : forall k r r', 0 < dtmax -> 0 <= d -> use_fixed_dt o = false -> J s0 r ->
    gfor1 fuel n d r = Ok r' -> r_frame _ r = Z.of_nat k -> r_time r == inject_Z (Z.of_nat k) * d ->
    r_time r' == inject_Z (Z.of_nat (k + n)) * d /\
    exists new, frames (r_log r') = frames (r_log r) ++ new /\
      same_frames new (map (fun i => (Z.of_nat i, inject_Z (Z.of_nat i) * d)) (seq (S k) n)).
  Proof.
    induction n as [|n IH]; intros k r r' P PD F HJ; cbn [Model_GeoRun.gfor1].
    - intros OK FR T. apply (f_equal (fun z => match z with Ok a => a | _ => r end)) in OK. subst r'.
      rewrite Nat.add_0_r. split; [exact T|]. exists []. rewrite app_nil_r. split; [reflexivity|constructor].
    - intros OK FR T. revert OK.
      set (ra := mkRst St _ _ _ _ _ _ _). assert (JA : J s0 ra) by (apply J_same; exact HJ).
      change (r_time ra) with (r_time r).
      destruct (gwhile1 fuel (r_time r + d) ra) as [rb| | ] eqn:W; [|discriminate|discriminate].
      destruct (gwhile1_J s0 _ fuel ra rb P JA W) as (JB & F2 & N2 & T2 & B2).
      specialize (B2 F). change (r_time ra) with (r_time r) in B2.
      assert (TB : r_time rb == inject_Z (Z.of_nat (S k)) * d).
      { rewrite Nat2Z.inj_succ. unfold Z.succ. rewrite inject_Z_plus. change (inject_Z 1) with 1.
        assert (r_time rb <= r_time r + d) by (apply B2; lra). lra. }
      set (rc := mkRst St (r_sol (diagnostics St false rb)) _ _ _ _ _ _). intro OK.
      assert (JC : J s0 rc) by (apply (J_same s0 (diagnostics St false rb)); apply J_diag; exact JB).
      destruct (J_frame s0 (next_frame St rc) JC) as (JD & T3 & N3 & F3).
      assert (X1 : r_frame _ (output_frame St (next_frame St rc)) = Z.of_nat (S k)).
      { rewrite N3. unfold next_frame, rc, diagnostics, emit. cbn [Model_Run.r_frame]. rewrite N2.
        change (r_frame _ ra) with (r_frame _ r). rewrite FR. lia. }
      assert (X2 : r_time (output_frame St (next_frame St rc)) == inject_Z (Z.of_nat (S k)) * d).
      { rewrite T3. exact TB. }
      destruct (IH (S k) _ r' P PD F JD OK X1 X2) as (Y1 & new & Y2 & Y3).
      split; [rewrite Y1; replace (S k + n)%nat with (k + S n)%nat by lia; reflexivity|].
      exists ((Z.of_nat (S k), r_time rb) :: new). split.
      + rewrite Y2, F3. rewrite N3 in X1. rewrite X1.
        change (r_glob (next_frame St rc)) with (r_time rb).
        unfold next_frame, rc, diagnostics, emit. cbn [Model_Run.r_log].
        rewrite frames_app, F2. change (r_log ra) with (r_log r). cbn [frames flat_map].
        rewrite app_nil_r, <- app_assoc. reflexivity.
      + cbn [seq map]. constructor; [split; [reflexivity|exact TB]|exact Y3].
  Qed.

  Lemma goutstyle_1_J fuel s r : 0 < dtmax ->
    goutstyle_1 St advance regrid gmax o iv0 iv1 dtmax fuel s = Ok r -> J s r.
  Proof.
    intro P. unfold goutstyle_1. apply gfor1_J; [exact P|]. apply J_diag. apply J_frame.
    split; [constructor; reflexivity|]. split; [reflexivity|constructor].
  Qed.

  Lemma goutstyle_1_frames fuel s r : 0 < dtmax -> use_fixed_dt o = false -> 0 <= tfinal o -> (0 < nout o)%Z ->
    goutstyle_1 St advance regrid gmax o iv0 iv1 dtmax fuel s = Ok r ->
    same_frames (frames (r_log r))
      (map (fun k => (Z.of_nat k, inject_Z (Z.of_nat k) * (tfinal o / inject_Z (nout o))))
           (seq 0 (S (Z.to_nat (nout o))))) /\ r_time r == tfinal o.
  Proof.
    intros P F TF N. unfold goutstyle_1.
    set (r0 := diagnostics St true _). set (d := (tfinal o - 0) / inject_Z (nout o)). intro OK.
    assert (NP : 0 < inject_Z (nout o)) by (change 0 with (inject_Z 0); rewrite <- Zlt_Qlt; exact N).
    assert (DE : d == tfinal o / inject_Z (nout o)) by (unfold d; field; lra).
    assert (PD : 0 <= d) by (rewrite DE; apply Qle_shift_div_l; lra).
    assert (J0 : J s r0).
    { apply J_diag. apply J_frame. split; [constructor; reflexivity|]. split; [reflexivity|constructor]. }
    destruct (gfor1_frames s d fuel (Z.to_nat (nout o)) 0 r0 r P PD F J0 OK) as (T & new & E & SF).
    { reflexivity. } { change (r_time r0) with 0. change (inject_Z (Z.of_nat 0)) with 0. ring. }
    cbn [Nat.add] in T. rewrite Z2Nat.id in T by lia.
    split; [|rewrite T, DE; field; lra].
    rewrite E. change (frames (r_log r0)) with [(0%Z, 0)]. cbn [app seq map]. constructor.
    - split; [reflexivity|]. cbn [snd]. change (inject_Z (Z.of_nat 0)) with 0. ring.
    - revert SF. generalize (seq 1 (Z.to_nat (nout o))). intro l. clear - DE.
      { revert new. induction l as [|i l IH]; intros new SF; cbn [map] in SF.
        - inversion SF. constructor.
        - inversion SF as [|a b la lb X Y]. constructor; [|apply IH; exact Y].
          destruct X as (A & B). split; [exact A|]. cbn [snd] in *. rewrite B, DE. reflexivity. }
  Qed.

  Lemma gpass3_J s0 m r r' : 0 < dtmax -> J s0 r -> gpass3 m r = Ok r' -> J s0 r'.
  Proof.
    intros P HJ. unfold Model_GeoRun.gpass3. 
    destruct (outer_step _ r) as [[[x tc] took]| | ] eqn:S; [|discriminate|discriminate].
    destruct (outer_step_spec _ r x tc took P (proj1 (proj2 HJ)) S) as (es & L & H & T & R & AC).
    set (c := if reduce_cfl o then _ else _). clearbody c.
    destruct (negb took && _).
    - destruct (Qeq_bool c 0); [discriminate|]. destruct (use_fixed_dt o) eqn:F; [discriminate|].
      intro OK. apply (f_equal (fun z => match z with Ok a => a | _ => r end)) in OK. subst r'.
      apply J_reject. exact HJ.
    - destruct (negb (use_fixed_dt o) && Qeq_bool c 0); [discriminate|].
      set (r1 := mkRst St (d_sol x) _ _ _ _ _ _).
      assert (J1 : J s0 r1) by (eapply J_step; [exact HJ|exact L|exact H|symmetry; exact T|exact R]).
      clearbody r1. destruct (J_regrid s0 r1 J1) as (J2 & _).
      set (r2 := if r_advance_one_step o then _ else _).
      assert (J3 : J s0 r2) by (unfold r2; destruct (r_advance_one_step o); [apply J_diag|]; exact J2).
      destruct (m =? 0)%Z; [discriminate|].
      destruct (_ =? 0)%Z; intro OK; apply (f_equal (fun z => match z with Ok a => a | _ => r end)) in OK; subst r';
        [apply (J_frame s0 (next_frame St r2)); exact J3|exact J3].
  Qed.

  Lemma gwhile3_J s0 n m fuel : forall r r', 0 < dtmax -> J s0 r -> gwhile3 fuel n m r = Ok r' -> J s0 r'.
  Proof.
    induction fuel as [|fuel IH]; intros r r' P HJ; cbn [Model_GeoRun.gwhile3];
      destruct (n <=? r_n _ r)%Z;
      try (intro OK; apply (f_equal (fun z => match z with Ok a => a | _ => r end)) in OK; subst r'; exact HJ);
      try discriminate.
    destruct (gpass3 m r) as [r1| | ] eqn:S; [|discriminate|discriminate]. intro OK.
    eapply IH; [exact P| |exact OK]. eapply gpass3_J; eauto.
  Qed.

  Lemma goutstyle_3_J fuel s r : 0 < dtmax ->
    goutstyle_3 St advance regrid gmax o iv0 iv1 dtmax fuel s = Ok r -> J s r.
  Proof.
    intro P. unfold goutstyle_3. apply gwhile3_J; [exact P|]. apply J_frame. apply J_diag.
    split; [constructor; reflexivity|]. split; [reflexivity|constructor].
  Qed.

  (** without moving bed a pass is the one of the core library *)
  Lemma gpass1_regular tend r :
    (forall dt, Qle_bool iv1 (r_time r) || Qle_bool (r_time r + dt) iv0 = true) ->
    gpass1 tend r = pass1 St advance regrid gmax o tend r.
  Proof.
    intro H. unfold Model_GeoRun.gpass1, pass1, Model_GeoRun.outer_step. cbv zeta. rewrite H. cbn [negb].
    destruct (advance (r_sol r) (r_time r) _) as [s' c]. reflexivity.
  Qed.

  (** diagnostics of output style 3 *)
  Definition diags (l : list (revent St)) := filter is_diag l.
  Lemma diags_app a b : diags (a ++ b) = diags a ++ diags b.
  Proof. apply filter_app. Qed.
  Lemma diags_accepts es : accepts es -> diags es = [].
  Proof. induction 1 as [|e es H _ IH]; [reflexivity|]. destruct e; cbn in H; try discriminate. exact IH. Qed.

  Lemma gpass3_diags s0 m r r' : 0 < dtmax -> J s0 r -> r_advance_one_step o = false ->
    gpass3 m r = Ok r' -> diags (r_log r') = diags (r_log r).
  Proof.
    intros P HJ A. unfold Model_GeoRun.gpass3. rewrite A, andb_false_r.
    destruct (outer_step _ r) as [[[x tc] took]| | ] eqn:S; [|discriminate|discriminate].
    destruct (outer_step_spec _ r x tc took P (proj1 (proj2 HJ)) S) as (es & L & H & T & R & AC).
    set (c := if reduce_cfl o then _ else _). clearbody c.
    destruct (negb took && _).
    - destruct (Qeq_bool c 0); [discriminate|]. destruct (use_fixed_dt o) eqn:F; [discriminate|].
      intro OK. apply (f_equal (fun z => match z with Ok a => a | _ => r end)) in OK. subst r'.
      cbn [Model_Run.r_log]. rewrite diags_app. apply app_nil_r.
    - destruct (negb (use_fixed_dt o) && Qeq_bool c 0); [discriminate|].
      set (r1 := mkRst St (d_sol x) _ _ _ _ _ _).
      assert (D1 : diags (r_log r1) = diags (r_log r)).
      { unfold r1. cbn [Model_Run.r_log]. rewrite L, diags_app, (diags_accepts es AC). apply app_nil_r. }
      clearbody r1.
      assert (D2 : diags (r_log (maybe_regrid St regrid o r1)) = diags (r_log r1)).
      { unfold maybe_regrid. destruct (_ && _)%bool; [|reflexivity]. unfold emit. cbn [Model_Run.r_log].
        rewrite diags_app. apply app_nil_r. }
      destruct (m =? 0)%Z; [discriminate|].
      destruct (_ =? 0)%Z; intro OK; apply (f_equal (fun z => match z with Ok a => a | _ => r end)) in OK; subst r'.
      + unfold output_frame, next_frame, emit. cbn [Model_Run.r_log]. rewrite diags_app, D2, D1. apply app_nil_r.
      + rewrite D2, D1. reflexivity.
  Qed.

  Lemma gwhile3_diags s0 n m fuel : forall r r', 0 < dtmax -> J s0 r -> r_advance_one_step o = false ->
    gwhile3 fuel n m r = Ok r' -> diags (r_log r') = diags (r_log r).
  Proof.
    induction fuel as [|fuel IH]; intros r r' P HJ A; cbn [Model_GeoRun.gwhile3];
      destruct (n <=? r_n _ r)%Z;
      try (intro OK; apply (f_equal (fun z => match z with Ok a => a | _ => r end)) in OK; subst r'; reflexivity);
      try discriminate.
    destruct (gpass3 m r) as [r1| | ] eqn:S; [|discriminate|discriminate]. intro OK.
    rewrite (IH r1 r' P (gpass3_J s0 m r r1 P HJ S) A OK). eapply gpass3_diags; eauto.
  Qed.

  Lemma goutstyle_3_diags fuel s r : 0 < dtmax -> r_advance_one_step o = false ->
    goutstyle_3 St advance regrid gmax o iv0 iv1 dtmax fuel s = Ok r ->
    filter is_diag (r_log r) = [Diag St true 0 s].
  Proof.
    intros P A. unfold goutstyle_3. intro OK. change (filter is_diag (r_log r)) with (diags (r_log r)).
    rewrite (gwhile3_diags s _ _ _ _ _ P (proj1 (J_frame s _ (proj1 (J_diag s true (start St o s)
      (conj (h_end _ _ _ 0 s 0 (Qeq_refl 0)) (conj (Qeq_refl 0) (Forall_nil _)))))))
      A OK). reflexivity.
  Qed.
End P.
