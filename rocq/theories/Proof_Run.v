From Coq Require Import ZArith QArith Qfield List Bool Lia Lqa.
From Verif Require Import Model_Run Spec_Run.
Import ListNotations.
Open Scope Z_scope.

Section P.
  Variable St : Type.
  Variable advance : St -> Q -> Q -> St * Q.
  Variable regrid : St -> St.
  Variable gmax : Q -> Q.
  Variable o : ropts.
  Notation runs := (runs St advance regrid).

  Lemma runs_app : forall a l1 b l2 c, runs a l1 b -> runs b l2 c -> runs a (l1 ++ l2) c.
  Proof. intros a l1 b l2 c H. revert l2 c. induction H; intros; cbn [app]; auto; constructor; auto. Qed.

  Lemma count_app : forall f (a b : list (revent St)), count f (a ++ b) = count f a + count f b.
  Proof. intros. unfold count. rewrite filter_app, app_length. lia. Qed.
  Lemma count_one : forall f (e : revent St), count f [e] = if f e then 1 else 0.
  Proof. intros. unfold count. cbn [filter]. destruct (f e); reflexivity. Qed.
  Lemma frames_app : forall (a b : list (revent St)), frames (a ++ b) = frames a ++ frames b.
  Proof. intros. apply flat_map_app. Qed.
  Lemma count_nonneg : forall f (a : list (revent St)), 0 <= count f a.
  Proof. intros. unfold count. lia. Qed.

  (** regridding happens after every regrid_interval-th accepted step *)
  Definition regrids_ok (log : list (revent St)) : Prop :=
    count is_regrid log = if 0 <? regrid_interval o then count is_accept log / regrid_interval o else 0.

  Definition sok (s0 : St) (r : rstate St) : Prop :=
    runs (0%Q, s0) (r_log _ r) (r_time _ r, r_sol _ r) /\ r_glob _ r = r_time _ r /\
    r_n _ r = count is_accept (r_log _ r) /\ regrids_ok (r_log _ r).

  Lemma emit_ok : forall s0 r e, sok s0 r ->
    (e = Frame St (r_frame _ r) (r_glob _ r) (r_sol _ r) \/ exists b, e = Diag St b (r_glob _ r) (r_sol _ r)) ->
    sok s0 (emit St r e).
  Proof.
    intros s0 r e (A & B & C & D) H. unfold emit, sok, regrids_ok. cbn [r_log r_time r_sol r_glob r_n].
    rewrite !count_app, !count_one. split; [|split; [auto|split]].
    - eapply runs_app; eauto. rewrite B in H.
      destruct H as [H|[b H]]; subst e; repeat constructor.
    - destruct H as [H|[b H]]; subst e; cbn [is_accept]; lia.
    - unfold regrids_ok in D. destruct H as [H|[b H]]; subst e; cbn [is_accept is_regrid]; rewrite !Z.add_0_r; auto.
  Qed.

  (** an accepted step followed by regridding *)
  Lemma accept_regrid_ok : forall s0 r dt dt' s' diag, sok s0 r -> s' = fst (advance (r_sol _ r) (r_time _ r) dt) ->
    let r1 := mkRst St s' (r_time _ r + dt)%Q (r_time _ r + dt)%Q dt' (r_n _ r + 1) (r_frame _ r)
                 (r_log _ r ++ [Accept St (r_time _ r) dt (r_sol _ r) s']) in
    let r2 := if diag : bool then diagnostics St false r1 else r1 in
    sok s0 (maybe_regrid St regrid o r2).
  Proof.
    intros s0 r dt dt' s' diag (A & B & C & D) Hs r1 r2.
    assert (Hruns : runs (0%Q, s0) (r_log _ r1) (r_time _ r1, r_sol _ r1)).
    { unfold r1. cbn [r_log r_time r_sol]. eapply runs_app; eauto. subst s'. repeat constructor. }
    assert (H1 : runs (0%Q, s0) (r_log _ r2) (r_time _ r2, r_sol _ r2) /\ r_glob _ r2 = r_time _ r2 /\
                 r_n _ r2 = count is_accept (r_log _ r2) /\ r_n _ r2 = count is_accept (r_log _ r) + 1 /\
                 count is_regrid (r_log _ r2) = count is_regrid (r_log _ r)).
    { unfold r2. destruct diag; unfold diagnostics, emit; cbn [r_log r_time r_sol r_glob r_n r1]; (split; [|split; [|split; [|split]]]).
      all: try reflexivity; try (rewrite ?count_app, ?count_one; cbn [is_accept is_regrid]; lia).
      - eapply runs_app. apply Hruns. repeat constructor.
      - exact Hruns. }
    destruct H1 as (H1 & H2 & H3 & H3' & H4).
    unfold regrids_ok in D. unfold maybe_regrid.
    destruct (Z.ltb_spec 0 (regrid_interval o)) as [Hi|Hi]; cbn [andb] in *.
    - set (k := regrid_interval o) in *. set (n := count is_accept (r_log _ r)) in *.
      rewrite H3'.
      pose proof (Z.div_mod n k ltac:(lia)) as E1. pose proof (Z.mod_pos_bound n k Hi) as E2.
      destruct (Z.eqb_spec ((n + 1) mod k) 0) as [Em|Em].
      + unfold emit. unfold sok. cbn [r_log r_time r_sol r_glob r_n].
        split; [|split; [auto|split]].
        * eapply runs_app. apply H1. repeat constructor.
        * rewrite count_app, count_one. cbn [is_accept]. lia.
        * unfold regrids_ok. fold k. destruct (Z.ltb_spec 0 k); [|lia].
          rewrite !count_app, !count_one. cbn [is_accept is_regrid]. rewrite H4, D, <- H3, H3', Z.add_0_r.
          pose proof (Z.div_mod (n + 1) k ltac:(lia)). nia.
      + unfold sok. split; auto. split; auto. split; auto.
        unfold regrids_ok. fold k. destruct (Z.ltb_spec 0 k); [|lia].
        rewrite H4, D, <- H3, H3'.
        pose proof (Z.div_mod (n + 1) k ltac:(lia)). pose proof (Z.mod_pos_bound (n + 1) k Hi). nia.
    - unfold sok. split; auto. split; auto. split; auto.
      unfold regrids_ok. destruct (Z.ltb_spec 0 (regrid_interval o)); [lia|]. rewrite H4; auto.
  Qed.

  Lemma reject_ok : forall s0 r dt dt', sok s0 r ->
    sok s0 (mkRst St (r_sol _ r) (r_time _ r) (r_glob _ r) dt' (r_n _ r) (r_frame _ r)
                  (r_log _ r ++ [Reject St (r_time _ r) dt (r_sol _ r) (r_sol _ r)])).
  Proof.
    intros s0 r dt dt' (A & B & C & D). unfold sok, regrids_ok in *. cbn [r_log r_time r_sol r_glob r_n].
    rewrite !count_app, !count_one. cbn [is_accept is_regrid]. rewrite !Z.add_0_r.
    split; [|split; [auto|split; auto]]. eapply runs_app; eauto. repeat constructor.
  Qed.

  Lemma start_ok : forall s, sok s (start St o s).
  Proof.
    intros. unfold sok, start, regrids_ok. cbn [r_log r_time r_sol r_glob r_n]. split. constructor.
    split; auto. split; auto. unfold count. cbn [filter length]. destruct (Z.ltb_spec 0 (regrid_interval o)); auto.
  Qed.

  (** fields kept by regridding and diagnostics *)
  Lemma maybe_regrid_fields : forall r,
    r_time _ (maybe_regrid St regrid o r) = r_time _ r /\ r_frame _ (maybe_regrid St regrid o r) = r_frame _ r /\
    r_n _ (maybe_regrid St regrid o r) = r_n _ r /\ r_dt _ (maybe_regrid St regrid o r) = r_dt _ r /\
    (r_log _ (maybe_regrid St regrid o r) = r_log _ r \/
     r_log _ (maybe_regrid St regrid o r) = r_log _ r ++ [Regrid St (r_time _ r)]).
  Proof. intros. unfold maybe_regrid. destruct (_ && _); cbn [emit r_time r_frame r_n r_dt r_log]; tauto. Qed.

  (** * Output style 1 *)
  (** A step event of the log, with [k] frames written before it, ends at or before
      time [k * d]. *)
  Definition within (d : Q) (log : list (revent St)) : Prop :=
    forall pre e post, log = pre ++ e :: post ->
      match e with
      | Accept _ t dt _ _ | Reject _ t dt _ _ =>
          (t < inject_Z (count is_frame pre) * d)%Q /\ (t + dt <= inject_Z (count is_frame pre) * d)%Q
      | _ => True
      end.

  Definition quiet (e : revent St) : Prop :=
    match e with Accept _ _ _ _ _ | Reject _ _ _ _ _ => False | _ => True end.

  Lemma within_snoc : forall d log e, within d log ->
    match e with
      | Accept _ t dt _ _ | Reject _ t dt _ _ =>
          (t < inject_Z (count is_frame log) * d)%Q /\ (t + dt <= inject_Z (count is_frame log) * d)%Q
      | _ => True
    end -> within d (log ++ [e]).
  Proof.
    intros d log e H He pre e' post E.
    destruct post as [|p post] using rev_ind.
    - apply app_inj_tail in E. destruct E; subst. auto.
    - rewrite app_comm_cons, app_assoc in E. apply app_inj_tail in E. destruct E as [E _]. eapply H; eauto.
  Qed.

  (** State inside the outer loop: [k] frames written, working towards [tend]. *)
  Definition in1 (s0 : St) (d tend : Q) (k : Z) (r : rstate St) : Prop :=
    sok s0 r /\ (r_time _ r <= tend)%Q /\ r_frame _ r = k - 1 /\
    same_frames (frames (r_log _ r))
      (map (fun i => (Z.of_nat i, (inject_Z (Z.of_nat i) * d)%Q)) (seq 0 (Z.to_nat k))) /\
    count is_frame (r_log _ r) = k /\ within d (r_log _ r).

  Lemma frames_snoc_other : forall log (e : revent St), is_frame e = false -> frames (log ++ [e]) = frames log.
  Proof. intros log [] H; try discriminate H; unfold frames; rewrite flat_map_app; cbn; apply app_nil_r. Qed.

  Lemma pass1_ok : forall s0 d tend k r r', use_fixed_dt o = false -> (tend == inject_Z k * d)%Q ->
    in1 s0 d tend k r -> (r_time _ r < tend)%Q ->
    pass1 St advance regrid gmax o tend r = Ok r' -> in1 s0 d tend k r'.
  Proof.
    intros s0 d tend k r r' Hf Htend (Hs & Hle & Hfr & Hframes & Hcnt & Hw) Hlt E.
    unfold pass1 in E. rewrite Hf in E. cbn [negb andb] in E.
    set (dt0 := if r_advance_one_step o then (r_dt _ r / inject_Z (level_factor o))%Q else r_dt _ r) in *.
    set (adj := negb (Qle_bool ((1 # 100) * dt0) (tend - (r_time _ r + dt0)))) in *.
    set (dt1 := if adj then (tend - r_time _ r)%Q else dt0) in *.
    assert (Hend : (r_time _ r + dt1 <= tend)%Q).
    { unfold dt1, adj. destruct (Qle_bool ((1 # 100) * dt0) (tend - (r_time _ r + dt0))) eqn:Eq; cbn [negb].
      - apply Qle_bool_iff in Eq. destruct (Qlt_le_dec dt0 0); lra.
      - lra. }
    destruct (advance (r_sol _ r) (r_time _ r) dt1) as [s' c] eqn:Eadv.
    set (c' := if reduce_cfl o then gmax c else c) in *.
    destruct (negb (Qle_bool c' (max_cfl o)) && reduce_cfl o && true).
    - destruct (Qeq_bool c' 0); [discriminate|]. inversion E; subst r'; clear E.
      split; [apply reject_ok; auto|]. cbn [r_time r_frame r_log].
      rewrite frames_snoc_other by reflexivity. rewrite count_app, count_one. cbn [is_frame]. rewrite Z.add_0_r.
      split; auto. split; auto. split; auto. split; auto. apply within_snoc; auto. rewrite Hcnt, <- Htend. auto.
    - destruct (Qeq_bool c' 0); [discriminate|]. 
      match type of E with Ok (maybe_regrid _ _ _ (if _ then diagnostics _ _ ?x else _)) = _ => set (r1 := x) in * end.
      set (r2 := if r_advance_one_step o then diagnostics St false r1 else r1) in *.
      inversion E; subst r'; clear E.
      assert (Hs2 : sok s0 (maybe_regrid St regrid o r2)).
      { unfold r2, r1. apply accept_regrid_ok; auto. rewrite Eadv. reflexivity. }
      destruct (maybe_regrid_fields r2) as (F1 & F2 & F3 & F4 & F5).
      assert (Htime : r_time _ r2 = (r_time _ r + dt1)%Q) by (unfold r2, r1; destruct (r_advance_one_step o); reflexivity).
      assert (Hframe : r_frame _ r2 = r_frame _ r) by (unfold r2, r1; destruct (r_advance_one_step o); reflexivity).
      assert (Hlog : exists tl, r_log _ (maybe_regrid St regrid o r2) =
                (r_log _ r ++ [Accept St (r_time _ r) dt1 (r_sol _ r) s']) ++ tl /\
                Forall (fun e => quiet e /\ is_frame e = false) tl).
      { assert (exists tl, r_log _ r2 = (r_log _ r ++ [Accept St (r_time _ r) dt1 (r_sol _ r) s']) ++ tl /\
                Forall (fun e => quiet e /\ is_frame e = false) tl) as (tl & E1 & E2).
        { unfold r2, r1. destruct (r_advance_one_step o). eexists; split; [reflexivity|]. repeat constructor.
          exists []. rewrite app_nil_r. split; auto. }
        destruct F5 as [F5|F5]; rewrite F5, E1.
        - exists tl; auto.
        - exists (tl ++ [Regrid St (r_time _ r2)]). rewrite <- app_assoc. split; auto. apply Forall_app. split; auto.
          repeat constructor. }
      destruct Hlog as (tl & Hlog & Htl).
      split; auto. rewrite F1, Htime, F2, Hframe, Hlog. split; auto. split; auto.
      clear - Hcnt Hframes Hw Htl Hend Hlt Htend.
      assert (X : forall l, frames (r_log _ r ++ [Accept St (r_time _ r) dt1 (r_sol _ r) s']) = frames (r_log _ r) /\
                  count is_frame (r_log _ r ++ [Accept St (r_time _ r) dt1 (r_sol _ r) s']) = k /\
                  within d (r_log _ r ++ [Accept St (r_time _ r) dt1 (r_sol _ r) s']) /\ l = l :> Z).
      { intros. split. apply frames_snoc_other; reflexivity. split. rewrite count_app, count_one. cbn [is_frame]. lia.
        split; auto. apply within_snoc; auto. rewrite Hcnt, <- Htend. auto. }
      destruct (X 0) as (X1 & X2 & X3 & _). clear X.
      set (log0 := r_log _ r ++ [Accept St (r_time _ r) dt1 (r_sol _ r) s']) in *. clearbody log0.
      rewrite <- X1 in Hframes. clear X1.
      revert log0 Hframes X2 X3. induction Htl as [|e tl [He1 He2] Htl IH]; intros log0 A B C.
      + rewrite app_nil_r. auto.
      + replace (log0 ++ e :: tl) with ((log0 ++ [e]) ++ tl) by (rewrite <- app_assoc; reflexivity).
        apply IH. rewrite frames_snoc_other; auto. rewrite count_app, count_one, He2. lia.
        apply within_snoc; auto. destruct e; auto; contradiction.
  Qed.

  Lemma while1_ok : forall fuel s0 d tend k r r', use_fixed_dt o = false -> (tend == inject_Z k * d)%Q ->
    in1 s0 d tend k r -> while1 St advance regrid gmax o fuel tend r = Ok r' ->
    in1 s0 d tend k r' /\ (r_time _ r' == tend)%Q.
  Proof.
    induction fuel; intros s0 d tend k r r' Hf Ht Hin E; cbn [while1] in E.
    all: destruct (Qle_bool tend (r_time _ r)) eqn:Eq.
    1,3: inversion E; subst; split; auto; apply Qle_bool_iff in Eq; destruct Hin as (_ & H & _); lra.
    - discriminate.
    - destruct (pass1 St advance regrid gmax o tend r) as [r1| |] eqn:Ep; try discriminate.
      apply (IHfuel s0 d tend k r1 r'); auto. apply (pass1_ok s0 d tend k r r1); auto.
      destruct (Qlt_le_dec (r_time _ r) tend); auto. apply Qle_bool_iff in q. congruence.
  Qed.

  Lemma in1_tend : forall s0 d t1 t2 k r, (t1 <= t2)%Q -> in1 s0 d t1 k r -> in1 s0 d t2 k r.
  Proof. intros s0 d t1 t2 k r H (A & B & C). split; auto. split; auto. lra. Qed.

  Lemma for1_ok : forall fuel n s0 d k r r', use_fixed_dt o = false -> (0 <= d)%Q -> 0 < k ->
    in1 s0 d (inject_Z (k - 1) * d) k r -> (r_time _ r == inject_Z (k - 1) * d)%Q ->
    for1 St advance regrid gmax o fuel n d r = Ok r' ->
    in1 s0 d (inject_Z (k + Z.of_nat n - 1) * d) (k + Z.of_nat n) r' /\
    (r_time _ r' == inject_Z (k + Z.of_nat n - 1) * d)%Q.
  Proof.
    induction n; intros s0 d k r r' Hf Hd Hk Hin Ht E; cbn [for1] in E.
    - inversion E; subst. replace (k + Z.of_nat 0) with k by lia. auto.
    - set (r0 := mkRst St (r_sol _ r) (r_time _ r) (r_time _ r) (r_dt _ r) (r_n _ r) (r_frame _ r) (r_log _ r)) in *.
      assert (Hr0 : r0 = r).
      { destruct r as [a1 a2 a3 a4 a5 a6 a7]. unfold r0. cbn. destruct Hin as ((_ & Hg & _) & _). cbn in Hg. subst a3. reflexivity. }
      rewrite Hr0 in E. clear Hr0 r0.
      assert (Hk1 : (inject_Z k == inject_Z (k - 1) + 1)%Q).
      { replace k with (k - 1 + 1) at 1 by lia. rewrite inject_Z_plus. reflexivity. }
      assert (Htend : (r_time _ r + d == inject_Z k * d)%Q).
      { rewrite Ht, Hk1. ring. }
      destruct (while1 St advance regrid gmax o fuel (r_time _ r + d) r) as [r1| |] eqn:Ew; try discriminate.
      destruct (while1_ok fuel s0 d (r_time _ r + d) k r r1) as (Hin1 & Ht1); auto.
      { eapply in1_tend; [|exact Hin]. rewrite Ht. lra. }
      match type of E with for1 _ _ _ _ _ _ _ _ ?x = _ => set (r2 := x) in * end.
      destruct Hin1 as (I1 & I2 & I3 & I4 & I5 & I6).
      assert (Hr2 : in1 s0 d (inject_Z k * d) (k + 1) r2 /\ (r_time _ r2 == inject_Z k * d)%Q).
      { assert (Hg1 : r_glob _ r1 = r_time _ r1) by (destruct I1 as (_ & X & _); exact X).
        assert (Hlog : r_log _ r2 = (r_log _ r1 ++ [Diag St false (r_time _ r1) (r_sol _ r1)]) ++
                  [Frame St (r_frame _ r1 + 1) (r_time _ r1) (r_sol _ r1)]).
        { unfold r2. cbn [output_frame emit next_frame diagnostics r_log r_frame r_glob r_sol r_time]. rewrite Hg1. reflexivity. }
        assert (Hs1 : sok s0 (diagnostics St false r1)) by (apply emit_ok; eauto).
        assert (Hs2 : sok s0 r2).
        { unfold r2. apply emit_ok; [|left; reflexivity].
          destruct Hs1 as (S1 & S2 & S3 & S4). split; auto. }
        split; [|unfold r2; cbn [output_frame emit next_frame diagnostics r_time]; rewrite Ht1; auto].
        split; auto. split; [unfold r2; cbn [output_frame emit next_frame diagnostics r_time]; lra|].
        split; [unfold r2; cbn [output_frame emit next_frame diagnostics r_frame]; lia|].
        rewrite Hlog. split; [|split].
        - rewrite frames_app. rewrite frames_snoc_other by reflexivity.
          replace (Z.to_nat (k + 1)) with (S (Z.to_nat k)) by lia. rewrite seq_S, map_app.
          apply Forall2_app; auto. cbn. constructor; auto. cbn [fst snd]. split. lia.
          rewrite Z2Nat.id by lia. rewrite Ht1; auto.
        - rewrite !count_app, !count_one. cbn [is_frame]. lia.
        - apply within_snoc; auto. apply within_snoc; auto. }
      destruct Hr2 as (Hr2 & Ht2).
      destruct (IHn s0 d (k + 1) r2 r') as (J1 & J2); auto; try lia;
        replace (k + 1 - 1) with k by lia; auto.
      replace (k + 1 + Z.of_nat n) with (k + Z.of_nat (S n)) in J1 by lia.
      replace (k + 1 + Z.of_nat n) with (k + Z.of_nat (S n)) in J2 by lia. auto.
  Qed.

  Lemma start_frame_ok : forall s d, in1 s d (inject_Z (1 - 1) * d) 1 (output_frame St (diagnostics St true (start St o s))) /\
    r_time _ (output_frame St (diagnostics St true (start St o s))) = 0%Q.
  Proof.
    intros. split; [|reflexivity]. split.
    apply emit_ok; [|left; reflexivity]. apply emit_ok; [|right; eexists; reflexivity]. apply start_ok.
    cbn [output_frame diagnostics emit start r_time r_frame r_log]. change (inject_Z (1 - 1)) with 0%Q.
    split. lra. split. reflexivity. split.
    - cbn. constructor; [|constructor]. cbn [fst snd]. split; auto. change (inject_Z 0) with 0%Q. ring.
    - split. reflexivity. intros pre e post E.
      destruct pre as [|a [|b pre]]; inversion E; subst; auto. destruct pre; discriminate.
  Qed.

  Theorem outstyle_1_ok : forall fuel s r, use_fixed_dt o = false -> (0 <= tfinal o)%Q -> 0 < nout o ->
    outstyle_1 St advance regrid gmax o fuel s = Ok r ->
    let d := (tfinal o / inject_Z (nout o))%Q in
    same_frames (frames (r_log _ r)) (map (fun i => (Z.of_nat i, (inject_Z (Z.of_nat i) * d)%Q)) (seq 0 (S (Z.to_nat (nout o))))) /\
    within d (r_log _ r) /\ (r_time _ r == tfinal o)%Q /\ sok s r.
  Proof.
    intros fuel s r Hf Hft Hn E d. unfold outstyle_1 in E. fold d in E.
    assert (Hn0 : (0 < inject_Z (nout o))%Q) by (unfold Qlt, inject_Z; cbn [Qnum Qden]; lia).
    set (d' := ((tfinal o - 0) / inject_Z (nout o))%Q) in *.
    assert (Hdd : (d' == d)%Q) by (unfold d', d; field; lra).
    assert (Hd : (0 <= d')%Q).
    { rewrite Hdd. unfold d. apply Qle_shift_div_l; auto. }
    destruct (start_frame_ok s d') as (A & B).
    apply (for1_ok fuel (Z.to_nat (nout o)) s d' 1) in E; auto; try lia; try (rewrite B; change (inject_Z (1 - 1)) with 0%Q; ring).
    destruct E as (C & D). rewrite Z2Nat.id in * by lia. replace (1 + nout o - 1) with (nout o) in * by lia.
    destruct C as (C1 & C2 & C3 & C4 & C5 & C6). split; [|split; [|split]].
    - replace (S (Z.to_nat (nout o))) with (Z.to_nat (1 + nout o)) by lia.
      unfold same_frames in *. clear - C4 Hdd. revert C4. generalize (frames (r_log _ r)) as l.
      generalize (seq 0 (Z.to_nat (1 + nout o))) as q. induction q; intros l H; inversion H; subst; cbn [map].
      constructor. match goal with H : _ /\ _ |- _ => destruct H as [Y1 Y2] end. cbn [fst snd] in Y1, Y2. constructor; cbn [fst snd]. split; auto. rewrite Y2, Hdd. reflexivity. auto.
    - intros pre e post Ee. specialize (C6 pre e post Ee). destruct e; auto; rewrite <- Hdd; auto.
    - rewrite D, Hdd. unfold d. field. lra.
    - exact C1.
  Qed.

  (** * Output styles 3 and 4 *)
  (** [k] is the number of steps between two frames *)
  Definition in3 (s0 : St) (k : Z) (r : rstate St) : Prop :=
    sok s0 r /\ count is_frame (r_log _ r) = r_frame _ r + 1 /\
    r_frame _ r = r_n _ r / k /\
    (forall pre i t s post, r_log _ r = pre ++ Frame St i t s :: post ->
       i = count is_frame pre /\ count is_accept pre = i * k).

  Lemma frame_pos_snoc : forall k log (e : revent St),
    (forall pre i t s post, log = pre ++ Frame St i t s :: post -> i = count is_frame pre /\ count is_accept pre = i * k) ->
    (forall i t s, e = Frame St i t s -> i = count is_frame log /\ count is_accept log = i * k) ->
    (forall pre i t s post, log ++ [e] = pre ++ Frame St i t s :: post -> i = count is_frame pre /\ count is_accept pre = i * k).
  Proof.
    intros k log e H He pre i t s post E.
    destruct post as [|p post] using rev_ind.
    - apply app_inj_tail in E. destruct E; subst. eapply He; eauto.
    - rewrite app_comm_cons, app_assoc in E. apply app_inj_tail in E. destruct E as [E _]. eapply H; eauto.
  Qed.

  (** accepted step, optional regrid, and output after every k-th step *)
  Lemma step_output_ok : forall s0 k r dt dt' s', 0 < k -> in3 s0 k r ->
    s' = fst (advance (r_sol _ r) (r_time _ r) dt) ->
    let r1 := mkRst St s' (r_time _ r + dt)%Q (r_time _ r + dt)%Q dt' (r_n _ r + 1) (r_frame _ r)
                 (r_log _ r ++ [Accept St (r_time _ r) dt (r_sol _ r) s']) in
    let r2 := maybe_regrid St regrid o r1 in
    r_n _ r2 = r_n _ r + 1 /\
    in3 s0 k (if r_n _ r2 mod k =? 0 then output_frame St (diagnostics St false (next_frame St r2)) else r2) /\
    in3 s0 k (if r_n _ r2 mod k =? 0 then output_frame St (next_frame St (diagnostics St false r2)) else r2).
  Proof.
    intros s0 k r dt dt' s' Hk (Hs & Hc & Hf & Hp) Hs' r1 r2.
    assert (Hs2 : sok s0 r2) by (apply (accept_regrid_ok s0 r dt dt' s' false); auto).
    destruct (maybe_regrid_fields r1) as (F1 & F2 & F3 & F4 & F5). fold r2 in F1, F2, F3, F4, F5.
    assert (Hn : r_n _ r2 = r_n _ r + 1) by (rewrite F3; reflexivity).
    assert (Hfr : r_frame _ r2 = r_frame _ r) by (rewrite F2; reflexivity).
    assert (Hn0 : 0 <= r_n _ r). { destruct Hs as (_ & _ & X & _). rewrite X. apply count_nonneg. }
    assert (Hlog : count is_frame (r_log _ r2) = count is_frame (r_log _ r) /\
        (forall pre i t s post, r_log _ r2 = pre ++ Frame St i t s :: post -> i = count is_frame pre /\ count is_accept pre = i * k)).
    { assert (X : forall pre i t s post, r_log _ r1 = pre ++ Frame St i t s :: post -> i = count is_frame pre /\ count is_accept pre = i * k).
      { unfold r1. cbn [r_log]. apply frame_pos_snoc; auto. intros; discriminate. }
      destruct F5 as [F5|F5]; rewrite F5.
      - split; auto. unfold r1. cbn [r_log]. rewrite count_app, count_one. cbn [is_frame]. lia.
      - split. unfold r1. cbn [r_log]. rewrite !count_app, !count_one. cbn [is_frame]. lia.
        apply frame_pos_snoc; auto. intros; discriminate. }
    destruct Hlog as (Hl1 & Hl2).
    split; auto. rewrite Hn.
    pose proof (Z.div_mod (r_n _ r) k ltac:(lia)) as D1. pose proof (Z.mod_pos_bound (r_n _ r) k Hk) as D2.
    pose proof (Z.div_mod (r_n _ r + 1) k ltac:(lia)) as D3. pose proof (Z.mod_pos_bound (r_n _ r + 1) k Hk) as D4.
    assert (Hacc : r_n _ r2 = count is_accept (r_log _ r2)) by (destruct Hs2 as (_ & _ & X & _); exact X).
    destruct (Z.eqb_spec ((r_n _ r + 1) mod k) 0) as [Em|Em].
    - assert (Hq : (r_n _ r + 1) / k = r_n _ r / k + 1) by nia.
      assert (Hq2 : (r_n _ r / k + 1) * k = r_n _ r + 1) by nia.
      assert (HsA : sok s0 (next_frame St r2)) by (destruct Hs2 as (S1 & S2 & S3 & S4); split; auto).
      assert (HsB : sok s0 (next_frame St (diagnostics St false r2))).
      { assert (sok s0 (diagnostics St false r2)) as (S1 & S2 & S3 & S4) by (apply emit_ok; eauto). split; auto. }
      split.
      + split. { apply emit_ok; [|left; reflexivity]. apply emit_ok; auto. right. eexists; reflexivity. }
        cbn [output_frame diagnostics emit next_frame r_log r_frame r_n r_glob r_sol].
        rewrite !count_app, !count_one. cbn [is_frame]. rewrite Hl1, Hc, Hfr, Hn.
        split. lia. split. lia.
        apply frame_pos_snoc. apply frame_pos_snoc; auto. intros; discriminate.
        intros i t s Ei. inversion Ei; subst i. rewrite !count_app, !count_one. cbn [is_frame is_accept].
        rewrite Hl1, Hc, <- Hacc, Hn, Hf. lia.
      + split. { apply emit_ok; auto. }
        cbn [output_frame diagnostics emit next_frame r_log r_frame r_n r_glob r_sol].
        rewrite !count_app, !count_one. cbn [is_frame]. rewrite Hl1, Hc, Hfr, Hn.
        split. lia. split. lia.
        apply frame_pos_snoc. apply frame_pos_snoc; auto. intros; discriminate.
        intros i t s Ei. inversion Ei; subst i. rewrite !count_app, !count_one. cbn [is_frame is_accept].
        rewrite Hl1, Hc, <- Hacc, Hn, Hf. lia.
    - assert (Hq : (r_n _ r + 1) / k = r_n _ r / k) by nia.
      assert (in3 s0 k r2) by (split; auto; split; [lia|split; auto; rewrite Hfr, Hn, Hq; auto]). auto.
  Qed.

  Lemma reject3_ok : forall s0 k r dt dt', in3 s0 k r ->
    in3 s0 k (mkRst St (r_sol _ r) (r_time _ r) (r_glob _ r) dt' (r_n _ r) (r_frame _ r)
                  (r_log _ r ++ [Reject St (r_time _ r) dt (r_sol _ r) (r_sol _ r)])).
  Proof.
    intros s0 k r dt dt' (A & B & C & D). split. apply reject_ok; auto.
    cbn [r_log r_frame r_n]. rewrite count_app, count_one. cbn [is_frame]. split. lia. split; auto.
    apply frame_pos_snoc; auto. intros; discriminate.
  Qed.

  Lemma pass3_ok : forall s0 k r r', 0 < k -> in3 s0 k r ->
    pass3 St advance regrid gmax o k r = Ok r' -> in3 s0 k r' /\ (r_n _ r' = r_n _ r \/ r_n _ r' = r_n _ r + 1).
  Proof.
    intros s0 k r r' Hk Hin E. unfold pass3 in E.
    set (dt := if negb (r_subcycle o) && r_advance_one_step o then (r_dt _ r / inject_Z (level_factor o))%Q else r_dt _ r) in *.
    destruct (advance (r_sol _ r) (r_time _ r) dt) as [s' c] eqn:Ea.
    set (c' := if reduce_cfl o then gmax c else c) in *.
    destruct (reduce_cfl o && negb (Qle_bool c' (max_cfl o)) && negb (use_fixed_dt o)) eqn:Er.
    - destruct (Qeq_bool c' 0); [discriminate|]. destruct (use_fixed_dt o) eqn:Eu; [discriminate|].
      inversion E; subst. split; [apply reject3_ok; auto|left; reflexivity].
    - destruct (negb (use_fixed_dt o) && Qeq_bool c' 0); [discriminate|].
      replace (k =? 0) with false in E by (symmetry; apply Z.eqb_neq; lia).
      match type of E with (if r_n St (maybe_regrid _ _ _ ?x) mod _ =? 0 then _ else _) = _ => set (r1 := x) in * end.
      destruct (step_output_ok s0 k r dt (r_dt _ r1) s' Hk Hin) as (A & B & _). rewrite Ea; reflexivity.
      unfold r1 in A, B. cbn [r_dt] in A, B. fold r1 in A, B.
      assert (Hr' : r' = if r_n St (maybe_regrid St regrid o r1) mod k =? 0
               then output_frame St (diagnostics St false (next_frame St (maybe_regrid St regrid o r1))) else maybe_regrid St regrid o r1).
      { destruct (_ =? 0); inversion E; reflexivity. }
      rewrite <- Hr' in B. split; auto. right. rewrite Hr', <- A. destruct (_ =? 0); reflexivity.
  Qed.

  Lemma while3_ok : forall fuel s0 n k r r', 0 < k -> in3 s0 k r -> r_n _ r <= n ->
    while3 St advance regrid gmax o fuel n k r = Ok r' -> in3 s0 k r' /\ r_n _ r' = n.
  Proof.
    induction fuel; intros s0 n k r r' Hk Hin Hn E; cbn [while3] in E.
    all: destruct (Z.leb_spec n (r_n _ r)); [inversion E; subst; split; auto; lia|].
    discriminate.
    destruct (pass3 St advance regrid gmax o k r) as [r1| |] eqn:Ep; try discriminate.
    destruct (pass3_ok s0 k r r1 Hk Hin Ep) as (A & B). eapply IHfuel; eauto. lia.
  Qed.

  Lemma start3 : forall s k, 0 < k -> in3 s k (output_frame St (diagnostics St true (start St o s))) /\
     in3 s k (diagnostics St true (output_frame St (start St o s))).
  Proof.
    intros. split.
    - split. { apply emit_ok; [|left; reflexivity]. apply emit_ok; [|right; eexists; reflexivity]. apply start_ok. }
      cbn [output_frame diagnostics emit start r_frame r_log r_n r_glob r_sol]. split. reflexivity.
      split. rewrite Z.div_0_l; lia.
      apply frame_pos_snoc. intros pre i t s' post E. destruct pre as [|a [|b pre]]; inversion E.
      intros. inversion H0; subst. cbn. auto.
    - split. { apply emit_ok; [|right; eexists; reflexivity]. apply emit_ok; [|left; reflexivity]. apply start_ok. }
      cbn [output_frame diagnostics emit start r_frame r_log r_n r_glob r_sol]. split. reflexivity.
      split. rewrite Z.div_0_l; lia.
      apply frame_pos_snoc. 2: intros; discriminate.
      intros pre i t s' post E. destruct pre as [|a [|b pre]]; inversion E; subst; auto.
  Qed.

  Lemma pow_factor_pos : r_minlevel o <= r_maxlevel o -> 0 < step_factor o.
  Proof.
    intros. unfold step_factor, level_factor. destruct (_ && _ && _); [|lia]. apply Z.pow_pos_nonneg; lia.
  Qed.

  Theorem outstyle_3_ok : forall fuel s r, 0 <= nout o -> 0 < nstep o -> r_minlevel o <= r_maxlevel o ->
    outstyle_3 St advance regrid gmax o fuel s = Ok r ->
    let k := nstep o * step_factor o in
    sok s r /\ count is_accept (r_log _ r) = nout o * step_factor o /\
    count is_frame (r_log _ r) = nout o / nstep o + 1 /\
    (forall pre i t s' post, r_log _ r = pre ++ Frame St i t s' :: post ->
       i = count is_frame pre /\ count is_accept pre = i * k).
  Proof.
    intros fuel s r Hno Hns Hl E k. pose proof (pow_factor_pos Hl) as Hp. unfold outstyle_3 in E. fold k in E.
    assert (Hk : 0 < k) by (unfold k; nia).
    destruct (start3 s k Hk) as (A & _).
    eapply while3_ok in E; eauto. 2: { cbn [output_frame diagnostics emit start r_n]. nia. }
    destruct E as ((B1 & B2 & B3 & B4) & C). split; auto. split.
    destruct B1 as (_ & _ & X & _). lia. split; auto. rewrite B2, B3, C. unfold k.
    rewrite Z.div_mul_cancel_r by lia. reflexivity.
  Qed.

  Lemma pass4_ok : forall s0 r, 0 < nstep o -> in3 s0 (nstep o) r ->
    exists r', pass4 St advance regrid o r = Ok r' /\ in3 s0 (nstep o) r' /\ r_n _ r' = r_n _ r + 1 /\
      r_dt _ r' = r_dt _ r /\ r_time _ r' = (r_time _ r + r_dt _ r)%Q.
  Proof.
    intros s0 r Hk Hin. unfold pass4.
    destruct (advance (r_sol _ r) (r_time _ r) (r_dt _ r)) as [s' c] eqn:Ea.
    replace (nstep o =? 0) with false by (symmetry; apply Z.eqb_neq; lia).
    match goal with |- context [maybe_regrid _ _ _ ?x] => set (r1 := x) in * end.
    destruct (step_output_ok s0 (nstep o) r (r_dt _ r) (r_dt _ r1) s' Hk Hin) as (A & _ & B). rewrite Ea; reflexivity.
    unfold r1 in A, B. cbn [r_dt] in A, B. fold r1 in A, B.
    destruct (maybe_regrid_fields r1) as (F1 & F2 & F3 & F4 & F5).
    set (r2 := maybe_regrid St regrid o r1) in *.
    destruct (Z.eqb_spec (r_n _ r2 mod nstep o) 0); eexists; (split; [reflexivity|split; [exact B|]]);
      cbn [output_frame next_frame diagnostics emit r_n r_dt r_time]; rewrite F1, F4; auto.
  Qed.

  Lemma while4_ok : forall fuel s0 r, 0 < nstep o -> in3 s0 (nstep o) r -> r_n _ r <= nout o ->
    (Z.to_nat (nout o - r_n _ r) <= fuel)%nat ->
    exists r', while4 St advance regrid o fuel r = Ok r' /\ in3 s0 (nstep o) r' /\ r_n _ r' = nout o /\
      r_dt _ r' = r_dt _ r /\ (r_time _ r' == r_time _ r + inject_Z (nout o - r_n _ r) * r_dt _ r)%Q.
  Proof.
    induction fuel; intros s0 r Hk Hin Hle Hfu; cbn [while4].
    all: destruct (Z.leb_spec (nout o) (r_n _ r)).
    1,3: exists r; split; auto; split; auto; split; [lia|split; auto]; replace (nout o - r_n _ r) with 0 by lia;
         change (inject_Z 0) with 0%Q; ring.
    lia.
    destruct (pass4_ok s0 r Hk Hin) as (r1 & E & A & B & C & D). rewrite E.
    destruct (IHfuel s0 r1) as (r2 & E2 & A2 & B2 & C2 & D2); auto; try lia.
    exists r2. split; auto. split; auto. split; auto. split. congruence.
    rewrite D2, B, C, D. replace (nout o - r_n _ r) with (1 + (nout o - (r_n _ r + 1))) by lia.
    rewrite inject_Z_plus. change (inject_Z 1) with 1%Q. ring.
  Qed.

  Theorem outstyle_4_ok : forall fuel s, 0 <= nout o -> 0 < nstep o -> (Z.to_nat (nout o) <= fuel)%nat ->
    exists r, outstyle_4 St advance regrid o fuel s = Ok r /\ sok s r /\
    count is_accept (r_log _ r) = nout o /\
    count is_frame (r_log _ r) = nout o / nstep o + 1 /\
    (r_time _ r == inject_Z (nout o) * initial_dt o)%Q /\
    (forall pre i t s' post, r_log _ r = pre ++ Frame St i t s' :: post ->
       i = count is_frame pre /\ count is_accept pre = i * nstep o).
  Proof.
    intros fuel s Hno Hns Hfu. unfold outstyle_4.
    destruct (start3 s (nstep o) Hns) as (_ & A).
    destruct (while4_ok fuel s _ Hns A) as (r & E & (B1 & B2 & B3 & B4) & C & D & F).
    { exact Hno. }
    { cbn [output_frame diagnostics emit start r_n]. lia. }
    exists r. split; auto. split; auto. split. destruct B1 as (_ & _ & X & _). lia.
    split. rewrite B2, B3, C. reflexivity. split; auto.
    rewrite F. cbn [output_frame diagnostics emit start r_n r_time r_dt]. rewrite Z.sub_0_r. ring.
  Qed.

  (** every step of style 4 has the same size *)
  Lemma pass4_steps : forall r r', pass4 St advance regrid o r = Ok r' -> r_dt _ r' = r_dt _ r /\
    forall d, r_dt _ r = d -> (forall t dt s s', In (Accept St t dt s s') (r_log _ r) -> dt = d) ->
    (forall t dt s s', In (Accept St t dt s s') (r_log _ r') -> dt = d) /\ (forall t dt s s', In (Reject St t dt s s') (r_log _ r') -> In (Reject St t dt s s') (r_log _ r)).
  Proof.
    intros r r' E. unfold pass4 in E.
    destruct (advance (r_sol _ r) (r_time _ r) (r_dt _ r)) as [s' c] eqn:Ea.
    destruct (nstep o =? 0); [discriminate|].
    match type of E with context [maybe_regrid _ _ _ ?x] => set (r1 := x) in * end.
    destruct (maybe_regrid_fields r1) as (F1 & F2 & F3 & F4 & F5).
    set (r2 := maybe_regrid St regrid o r1) in *.
    assert (G : r_dt _ r' = r_dt _ r /\ forall e, In e (r_log _ r') -> In e (r_log _ r) \/ e = Accept St (r_time _ r) (r_dt _ r) (r_sol _ r) s' \/
               (forall t dt s0 s0', e <> Accept St t dt s0 s0' /\ e <> Reject St t dt s0 s0')).
    { assert (X : forall e, In e (r_log _ r2) -> In e (r_log _ r) \/ e = Accept St (r_time _ r) (r_dt _ r) (r_sol _ r) s' \/
               (forall t dt s0 s0', e <> Accept St t dt s0 s0' /\ e <> Reject St t dt s0 s0')).
      { intros e He. destruct F5 as [F5|F5]; rewrite F5 in He; unfold r1 in He; cbn [r_log] in He;
        rewrite ?in_app_iff in He; cbn [In] in He; intuition; subst; auto;
        right; right; intros; split; discriminate. }
      destruct (_ =? 0) in E; inversion E; subst r'.
      - cbn [output_frame next_frame diagnostics emit r_dt r_log]. split; auto. intros e He.
        rewrite !in_app_iff in He; cbn [In] in He; intuition; subst; auto; right; right; intros; split; discriminate.
      - split; auto. }
    destruct G as (G1 & G2). split; auto. intros d Hd Ha. split.
    - intros t dt s s0 Hin. destruct (G2 _ Hin) as [X|[X|X]]. eauto. inversion X; subst; auto. destruct (X t dt s s0); congruence.
    - intros t dt s s0 Hin. destruct (G2 _ Hin) as [X|[X|X]]; auto. discriminate. destruct (X t dt s s0); congruence.
  Qed.

  Lemma while4_steps : forall fuel r r', while4 St advance regrid o fuel r = Ok r' ->
    (forall t dt s s', In (Accept St t dt s s') (r_log _ r) -> dt = r_dt _ r) ->
    (forall t dt s s', ~ In (Reject St t dt s s') (r_log _ r)) ->
    (forall t dt s s', In (Accept St t dt s s') (r_log _ r') -> dt = r_dt _ r) /\
    (forall t dt s s', ~ In (Reject St t dt s s') (r_log _ r')).
  Proof.
    induction fuel; intros r r' E Ha Hr; cbn [while4] in E; destruct (_ <=? _); try discriminate; try (inversion E; subst; auto; fail).
    destruct (pass4 St advance regrid o r) as [r1| |] eqn:Ep; try discriminate.
    destruct (pass4_steps r r1 Ep) as (A & B). destruct (B _ eq_refl Ha) as (B1 & B2).
    destruct (IHfuel r1 r' E) as (C & D). rewrite A; auto. intros t dt s s' Hin. eapply Hr. apply B2; eauto.
    split; auto. intros. rewrite <- A. eauto.
  Qed.

  Theorem outstyle_4_steps : forall fuel s r, outstyle_4 St advance regrid o fuel s = Ok r ->
    (forall t dt s s', In (Accept St t dt s s') (r_log _ r) -> dt = initial_dt o) /\
    (forall t dt s s', ~ In (Reject St t dt s s') (r_log _ r)).
  Proof.
    intros fuel s r E. unfold outstyle_4 in E. apply while4_steps in E. exact E.
    intros t dt s1 s2 H. cbn in H. intuition discriminate.
    intros t dt s1 s2 H. cbn in H. intuition discriminate.
  Qed.
End P.
