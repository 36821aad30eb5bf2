(** C74: the timing report of a run. *)

From Coq Require Import NArith ZArith QArith List Bool Lia Lqa.
From Verif Require Import Model_Timer Spec_Timer Proof_Timer.
Import ListNotations.
Open Scope Q_scope.

(** No sequence of calls made by a run -- any output style, any options, any
    number of steps, levels and patches -- starts a timer twice or stops one
    that is not running; when the run is over only the wall clock is still
    on; and the clean-up after the report is safe, too. *)
Theorem C74_no_abort : forall outstyle p tr,
  application outstyle = Some p -> timed p tr ->
  (exists st, do_events tr cleared = Some st /\
     running (st WALLTIME) = true /\
     forall t, t <> WALLTIME -> running (st t) = false) /\
  (forall st tr2, (forall t, running (st t) = false) -> timed finalize_tail tr2 ->
     exists st2, do_events tr2 st = Some st2).
Proof.
  intros o p tr Ho Ht. split.
  - pose proof (application_safe o p Ho _ Ht) as Hw.
    destruct (walk_run rules tr 0 m_wall cleared agrees_cleared Hw) as (st & Hd & Ha).
    exists st. split; [exact Hd|]. split; [apply (Ha WALLTIME)|].
    intros t Hn. rewrite (Ha t). unfold m_wall. rewrite N.setbit_neq by congruence.
    apply N.bits_0.
  - intros st tr2 Hoff Ht2.
    assert (Hs : safe [] finalize_tail 0 0) by checked.
    destruct (walk_run [] tr2 0 0%N st) as (st2 & Hd & _).
    + intros t. rewrite Hoff. symmetry. apply N.bits_0.
    + apply Hs, Ht2.
    + exists st2. exact Hd.
Qed.
Print Assumptions C74_no_abort.

(** At every moment of a run at most one of the timers reported as exclusive
    is on, and detailed timers run only inside the timers they detail. *)
Theorem C74_exclusive : forall outstyle p tr before after,
  application outstyle = Some p -> timed p tr -> tr = before ++ after ->
  exists st, do_events before cleared = Some st /\
    (how_many exclusive st <= 1)%nat /\
    (forall a b, In (a, b) nested -> (how_many a st <= how_many b st)%nat) /\
    (forall t, In t reported -> running (st t) = true -> running (st WALLTIME) = true).
Proof.
  intros o p tr before after Ho Ht E.
  pose proof (application_safe o p Ho _ Ht) as Hw.
  destruct (walk_obeys rules tr 0 m_wall cleared before after agrees_cleared
              (obeys_cleared rules) Hw E) as (st & Hd & Hob).
  exists st. split; [exact Hd|].
  assert (Hn : forall a b, In (a, b) nested -> (how_many a st <= how_many b st)%nat).
  { intros a b Hin. apply Hob. apply in_or_app. left. exact Hin. }
  split.
  - apply Nat.le_trans with (how_many [WALLTIME] st); [apply Hn; left; reflexivity|].
    unfold how_many. cbn [filter]. destruct (running (st WALLTIME)); cbn [length]; lia.
  - split; [exact Hn|]. intros t Hin Hr.
    assert (Hl : (how_many [t] st <= how_many [WALLTIME] st)%nat).
    { apply Hob. apply in_or_app. right. apply in_or_app. left.
      apply (in_map (fun t => ([t], [WALLTIME]))). exact Hin. }
    unfold how_many in Hl. cbn [filter] in Hl. rewrite Hr in Hl.
    destruct (running (st WALLTIME)); [reflexivity|]. cbn [length] in Hl. lia.
Qed.
Print Assumptions C74_exclusive.

(** A ghost update may be called with or without a running timer, in either
    variant; it switches the caller's timer off and on again and leaves all
    timers as it found them. *)
Theorem C74_ghost_update : forall caller p tr st,
  In caller [None; Some INIT; Some ADVANCE; Some REGRID] ->
  In p [ghost_update caller; ghost_update_nonasync caller] ->
  timed p tr ->
  (forall t, running (st t) = true <-> t = WALLTIME \/ Some t = caller) ->
  exists st', do_events tr st = Some st' /\ forall t, running (st' t) = running (st t).
Proof.
  intros caller p tr st Hc Hp Ht Hst.
  set (m := match caller with Some t => N.setbit m_wall t | None => m_wall end).
  assert (Ha : agrees m st).
  { intros t. apply eq_true_iff_eq. rewrite Hst. unfold m, m_wall.
    destruct caller as [c|].
    - rewrite !N.setbit_iff, N.bits_0. split.
      + intros [->|E]; [right; left; reflexivity|injection E as ->; left; reflexivity].
      + intros [->|[->|E]]; [right; reflexivity|left; reflexivity|discriminate].
    - rewrite N.setbit_iff, N.bits_0. split.
      + intros [->|E]; [left; reflexivity|discriminate].
      + intros [->|E]; [left; reflexivity|discriminate]. }
  assert (Hs : safe rules p m m).
  { unfold m. cbn [In] in Hc, Hp.
    destruct Hc as [<-|[<-|[<-|[<-|[]]]]]; destruct Hp as [<-|[<-|[]]]; checked. }
  destruct (walk_run rules tr m m st Ha (Hs _ Ht)) as (st' & Hd & Ha').
  exists st'. split; [exact Hd|]. intros t. rewrite (Ha t), (Ha' t). reflexivity.
Qed.
Print Assumptions C74_ghost_update.

(** The state in which the report is made. *)
Lemma report_state outstyle p tr t0 now st :
  application outstyle = Some p -> timed p tr ->
  forward t0 (tr ++ [(Stop WALLTIME, now)]) ->
  do_events tr cleared = Some st ->
  agrees m_wall st /\
  (forall t, value st now t == on_time t false t0 tr now) /\
  (forall a b, In (a, b) rules -> values st now a <= values st now b).
Proof.
  intros Ho Ht Hf Hd.
  pose proof (application_safe outstyle p Ho _ Ht) as Hw.
  destruct (walk_run rules tr 0 m_wall cleared agrees_cleared Hw) as (st' & Hd' & Ha).
  rewrite Hd in Hd'. injection Hd' as <-.
  destruct (forward_end _ _ _ _ Hf) as [Hf1 Hf2].
  split; [exact Ha|]. split.
  - intros t. rewrite (on_time_value t tr cleared t0 st now Hd).
    unfold value at 1, cleared at 1 2 3, timer_init. cbn [running cumulative].
    change (running (cleared t)) with false. lra.
  - intros a b Hin.
    destruct (run_values rules tr 0 m_wall cleared t0 st a b agrees_cleared
                (obeys_cleared rules) Hw Hd Hf1 Hin) as [Hob Hv].
    { rewrite !values_cleared. lra. }
    eapply pass_le; [exact Hf2|apply Hob, Hin|exact Hv].
Qed.

Lemma one_value st now t : values st now [t] == value st now t.
Proof. unfold values. cbn [fold_right]. lra. Qed.

Lemma values_split st now a b :
  values st now (a ++ b) == values st now a + values st now b.
Proof.
  induction a as [|x a IH]; cbn [app values fold_right].
  - fold (values st now b). lra.
  - fold (values st now (a ++ b)) (values st now a). rewrite IH. lra.
Qed.

Lemma member_nonneg st now ts :
  (forall t, In t reported -> 0 <= value st now t) ->
  (forall t, In t ts -> In t reported) -> 0 <= values st now ts.
Proof.
  intros Hp. induction ts as [|t ts IH]; intros Hs.
  - unfold values. cbn [fold_right]. lra.
  - cbn [values fold_right]. fold (values st now ts).
    assert (H1 : 0 <= value st now t) by (apply Hp, Hs; left; reflexivity).
    assert (H2 : 0 <= values st now ts) by (apply IH; intros u Hu; apply Hs; right; exact Hu).
    lra.
Qed.

Ltac listed := let t := fresh in let H := fresh in
  intros t H; cbn [In exclusive1 exclusive2] in H;
  repeat (destruct H as [<-|H]; [cbn [In reported]; tauto|]); destruct H.

Lemma reported_facts outstyle p tr t0 now st :
  application outstyle = Some p -> timed p tr ->
  forward t0 (tr ++ [(Stop WALLTIME, now)]) ->
  do_events tr cleared = Some st ->
  value st now WALLTIME < inject_Z 2147483648 ->
  forall summary k,
  exists st' r, timer_report summary k now st = Some (st', r) /\
    (forall t, running (st' t) = false) /\
    (forall t, In t reported -> shown_for r t == value st now t) /\
    (let gap := values st now exclusive1 + (if summary then 0 else values st now exclusive2)
                + unaccounted r - value st now WALLTIME in
     0 <= gap /\ gap < (if summary then 1 else 2)) /\
    0 <= unaccounted r /\
    global_comm r == values st now [ADAPT_COMM; GHOSTPATCH_COMM; PARTITION_COMM;
                                    DIAGNOSTICS_COMM; CFL_COMM] /\
    global_comm r + local_comm r == value st now WALLTIME /\
    (let a := at_least_one (n_advance k) in
     grids_per_proc r = Z.quot (at_least_one (n_grids k)) a /\
     grids_local r = Z.quot (n_local_boundary k) a /\
     grids_remote r = Z.quot (n_remote_boundary k) a /\
     grids_interior r = (grids_per_proc r - grids_local r)%Z).
Proof.
  intros Ho Ht Hf Hd Hlt summary k.
  destruct (report_state _ _ _ _ _ _ Ho Ht Hf Hd) as (Ha & _ & Hr).
  assert (Hp : forall t, In t reported -> 0 <= value st now t).
  { intros t Hin. rewrite <- (one_value st now t).
    change 0 with (values st now []). apply Hr.
    apply in_or_app. right. apply in_or_app. right.
    apply (in_map (fun t => ([], [t]))). exact Hin. }
  apply report_ok; [exact Ha|apply member_nonneg; [exact Hp|listed]|
                    apply member_nonneg; [exact Hp|listed]| |exact Hlt].
  rewrite <- values_split, <- one_value.
  apply Hr. apply in_or_app. left. left. reflexivity.
Qed.

(** The report never aborts after a run shorter than 2^31 seconds, and shows
    for every timer exactly the time during which it was on. *)
Theorem C74_report : forall outstyle p tr t0 now st summary k,
  application outstyle = Some p -> timed p tr ->
  forward t0 (tr ++ [(Stop WALLTIME, now)]) ->
  do_events tr cleared = Some st ->
  on_time WALLTIME false t0 tr now < inject_Z 2147483648 ->
  exists st' r, timer_report summary k now st = Some (st', r) /\
    (forall t, running (st' t) = false) /\
    (forall t, In t reported -> shown_for r t == on_time t false t0 tr now).
Proof.
  intros o p tr t0 now st summary k Ho Ht Hf Hd Hlt.
  destruct (report_state _ _ _ _ _ _ Ho Ht Hf Hd) as (_ & Hv & _).
  destruct (reported_facts _ _ _ _ _ _ Ho Ht Hf Hd ltac:(rewrite Hv; exact Hlt) summary k)
    as (st' & r & Hrep & Hoff & Hs & _).
  exists st', r. split; [exact Hrep|]. split; [exact Hoff|].
  intros t Hin. rewrite (Hs t Hin). apply Hv.
Qed.
Print Assumptions C74_report.

(** The times shown add up: nothing is negative, nothing exceeds the wall
    clock, the exclusive times together do not exceed it, and detailed times
    do not exceed what they detail. *)
Theorem C74_sums : forall outstyle p tr t0 now st summary k,
  application outstyle = Some p -> timed p tr ->
  forward t0 (tr ++ [(Stop WALLTIME, now)]) ->
  do_events tr cleared = Some st ->
  on_time WALLTIME false t0 tr now < inject_Z 2147483648 ->
  exists st' r, timer_report summary k now st = Some (st', r) /\
    (forall t, In t reported -> 0 <= shown_for r t <= shown_for r WALLTIME) /\
    (forall a b, In (a, b) nested -> shown_sum r a <= shown_sum r b) /\
    shown_sum r exclusive <= shown_for r WALLTIME.
Proof.
  intros o p tr t0 now st summary k Ho Ht Hf Hd Hlt.
  destruct (report_state _ _ _ _ _ _ Ho Ht Hf Hd) as (_ & Hv & Hr).
  destruct (reported_facts _ _ _ _ _ _ Ho Ht Hf Hd ltac:(rewrite Hv; exact Hlt) summary k)
    as (st' & r & Hrep & Hoff & Hs & _).
  exists st', r. split; [exact Hrep|].
  assert (Hwin : In WALLTIME reported) by (cbn [In reported]; tauto).
  assert (Hsum : forall ts, (forall t, In t ts -> In t reported) ->
                            shown_sum r ts == values st now ts).
  { induction ts as [|t ts IH]; intros Hin; [reflexivity|].
    cbn [shown_sum values fold_right]. fold (shown_sum r ts) (values st now ts).
    rewrite IH by (intros u Hu; apply Hin; right; exact Hu).
    rewrite (Hs t) by (apply Hin; left; reflexivity). reflexivity. }
  assert (Hn : forall a b, In (a, b) nested ->
                 (forall t, In t a -> In t reported) /\ (forall t, In t b -> In t reported)).
  { intros a b Hin. cbn [In nested] in Hin.
    repeat (destruct Hin as [Hin|Hin];
            [injection Hin as <- <-; split; intros t Hx;
             unfold exclusive in Hx; cbn [In app exclusive1 exclusive2] in Hx;
             repeat (destruct Hx as [<-|Hx]; [cbn [In reported]; tauto|]); destruct Hx|]).
    destruct Hin. }
  split; [|split].
  - intros t Hin. rewrite (Hs t Hin), (Hs WALLTIME Hwin).
    rewrite <- (one_value st now t), <- (one_value st now WALLTIME). split.
    + change 0 with (values st now []). apply Hr. apply in_or_app. right. apply in_or_app.
      right. apply (in_map (fun t => ([], [t]))). exact Hin.
    + apply Hr. apply in_or_app. right. apply in_or_app. left.
      apply (in_map (fun t => ([t], [WALLTIME]))). exact Hin.
  - intros a b Hin. destruct (Hn a b Hin) as [Ha Hb]. rewrite (Hsum a Ha), (Hsum b Hb).
    apply Hr. apply in_or_app. left. exact Hin.
  - assert (Hin : In (exclusive, [WALLTIME]) nested) by (left; reflexivity).
    destruct (Hn _ _ Hin) as [Ha _]. rewrite (Hsum _ Ha), (Hs WALLTIME Hwin).
    rewrite <- (one_value st now WALLTIME). apply Hr. apply in_or_app. left. exact Hin.
Qed.
Print Assumptions C74_sums.

(** The column UNACCOUNTED is meant to be what the exclusive timers leave of
    the wall clock.  It is never negative, and exceeds the remainder by less
    than one second (summary) or two seconds (all other verbosities). *)
Theorem C74_unaccounted : forall outstyle p tr t0 now st summary k,
  application outstyle = Some p -> timed p tr ->
  forward t0 (tr ++ [(Stop WALLTIME, now)]) ->
  do_events tr cleared = Some st ->
  on_time WALLTIME false t0 tr now < inject_Z 2147483648 ->
  exists st' r, timer_report summary k now st = Some (st', r) /\
    0 <= unaccounted r /\
    (let rest := shown_for r WALLTIME
                 - shown_sum r (if summary then exclusive1 else exclusive) in
     rest <= unaccounted r /\ unaccounted r < rest + (if summary then 1 else 2)) /\
    global_comm r == shown_sum r [ADAPT_COMM; GHOSTPATCH_COMM; PARTITION_COMM;
                                  DIAGNOSTICS_COMM; CFL_COMM] /\
    global_comm r + local_comm r == shown_for r WALLTIME.
Proof.
  intros o p tr t0 now st summary k Ho Ht Hf Hd Hlt.
  destruct (report_state _ _ _ _ _ _ Ho Ht Hf Hd) as (_ & Hv & _).
  destruct (reported_facts _ _ _ _ _ _ Ho Ht Hf Hd ltac:(rewrite Hv; exact Hlt) summary k)
    as (st' & r & Hrep & Hoff & Hs & [Hg1 Hg2] & Hu & Hcomm & Hloc & _).
  exists st', r. split; [exact Hrep|]. split; [exact Hu|].
  assert (Hw : shown_for r WALLTIME == value st now WALLTIME)
    by (apply Hs; cbn [In reported]; tauto).
  assert (Hsum : forall ts, (forall t, In t ts -> In t reported) ->
                            shown_sum r ts == values st now ts).
  { induction ts as [|t ts IH]; intros Hin; [reflexivity|].
    cbn [shown_sum values fold_right]. fold (shown_sum r ts) (values st now ts).
    rewrite IH by (intros u Hin'; apply Hin; right; exact Hin').
    rewrite (Hs t) by (apply Hin; left; reflexivity). reflexivity. }
  split; [|split].
  - cbv zeta. destruct summary.
    + rewrite (Hsum exclusive1) by listed. rewrite Hw. split; lra.
    + unfold exclusive. rewrite Hsum, values_split, Hw; [split; lra|].
      intros t Hx. cbn [In app exclusive1 exclusive2] in Hx.
      repeat (destruct Hx as [<-|Hx]; [cbn [In reported]; tauto|]); destruct Hx.
  - rewrite Hcomm. symmetry. apply Hsum. intros t Hx. cbn [In] in Hx.
    repeat (destruct Hx as [<-|Hx]; [cbn [In reported]; tauto|]); destruct Hx.
  - rewrite Hw. exact Hloc.
Qed.
Print Assumptions C74_unaccounted.

(** ** A run *)

(** The shortest run with output style 0: no refinement, no output. *)
Definition short_run : list (event * Q) :=
  [(Start WALLTIME, 0); (Start INIT, 0);
   (Start REGRID_BUILD, 0); (Stop REGRID_BUILD, 0);
   (Start GHOSTPATCH_BUILD, 0); (Stop GHOSTPATCH_BUILD, 0); (Stop INIT, 0);
   (Start GHOSTPATCH_COMM, 0); (Stop GHOSTPATCH_COMM, 0); (Start INIT, 0);
   (Start GHOSTPATCH_BUILD, 0); (Stop GHOSTPATCH_BUILD, 0); (Stop INIT, 0);
   (Start GHOSTPATCH_COMM, 0); (Stop GHOSTPATCH_COMM, 0); (Start INIT, 0);
   (Start NEIGHBOR_SEARCH, 0); (Stop NEIGHBOR_SEARCH, 0);
   (Stop INIT, 9#10);
   (Start OUTPUT, 9#10); (Stop OUTPUT, 1);
   (Start DIAGNOSTICS, 1); (Stop DIAGNOSTICS, 1);
   (Start DIAGNOSTICS_COMM, 1); (Stop DIAGNOSTICS_COMM, 1);
   (Start DIAGNOSTICS, 1); (Stop DIAGNOSTICS, 1);
   (Start ELLIPTIC_SOLVE, 1); (Stop ELLIPTIC_SOLVE, 19#10);
   (Start DIAGNOSTICS, 19#10); (Stop DIAGNOSTICS, 19#10)].

Lemma exec_cons e p tr : exec p tr -> exec (Seq (Ev e) p) (e :: tr).
Proof. intros H. exact (exec_seq (Ev e) p [e] tr (exec_ev e) H). Qed.

Lemma exec_block p a l b : exec p a -> exec (block l) b -> exec (block (p :: l)) (a ++ b).
Proof. intros H1 H2. exact (exec_seq _ _ _ _ H1 H2). Qed.

Example C74_instance_run :
  exists p, application 0 = Some p /\ timed p short_run /\
            forward 0 (short_run ++ [(Stop WALLTIME, 19#10)]).
Proof.
  eexists. split; [reflexivity|]. split.
  - unfold timed.
    change (map fst short_run) with
      (([Start WALLTIME; Start INIT; Start REGRID_BUILD; Stop REGRID_BUILD;
         Start GHOSTPATCH_BUILD; Stop GHOSTPATCH_BUILD; Stop INIT;
         Start GHOSTPATCH_COMM; Stop GHOSTPATCH_COMM; Start INIT;
         Start GHOSTPATCH_BUILD; Stop GHOSTPATCH_BUILD; Stop INIT;
         Start GHOSTPATCH_COMM; Stop GHOSTPATCH_COMM; Start INIT;
         Start NEIGHBOR_SEARCH; Stop NEIGHBOR_SEARCH; Stop INIT]) ++
       ((([Start OUTPUT; Stop OUTPUT] ++
          [Start DIAGNOSTICS; Stop DIAGNOSTICS; Start DIAGNOSTICS_COMM; Stop DIAGNOSTICS_COMM;
           Start DIAGNOSTICS; Stop DIAGNOSTICS]) ++
         ([Start ELLIPTIC_SOLVE; Stop ELLIPTIC_SOLVE] ++ [])) ++
        ([Start DIAGNOSTICS; Stop DIAGNOSTICS] ++ []))).
    apply exec_block; [|apply exec_block; [|apply exec_block; [|apply exec_skip]]].
    + repeat apply exec_cons.
      change [Start GHOSTPATCH_BUILD; Stop GHOSTPATCH_BUILD; Stop INIT;
         Start GHOSTPATCH_COMM; Stop GHOSTPATCH_COMM; Start INIT;
         Start GHOSTPATCH_BUILD; Stop GHOSTPATCH_BUILD; Stop INIT;
         Start GHOSTPATCH_COMM; Stop GHOSTPATCH_COMM; Start INIT;
         Start NEIGHBOR_SEARCH; Stop NEIGHBOR_SEARCH; Stop INIT] with
        ([Start GHOSTPATCH_BUILD; Stop GHOSTPATCH_BUILD; Stop INIT;
         Start GHOSTPATCH_COMM; Stop GHOSTPATCH_COMM; Start INIT;
         Start GHOSTPATCH_BUILD; Stop GHOSTPATCH_BUILD; Stop INIT;
         Start GHOSTPATCH_COMM; Stop GHOSTPATCH_COMM; Start INIT] ++
         ([Start NEIGHBOR_SEARCH; Stop NEIGHBOR_SEARCH] ++
          ([] ++ (([] ++ []) ++ ([] ++ ([Stop INIT] ++ [])))))).
      apply exec_seq; [repeat apply exec_cons; apply exec_skip|].
      apply exec_seq; [repeat apply exec_cons; apply exec_skip|].
      apply exec_seq; [apply exec_right, exec_skip|].
      apply exec_seq; [apply exec_seq; [apply exec_done|apply exec_right, exec_skip]|].
      apply exec_seq; [apply exec_right, exec_skip|].
      apply exec_seq; [apply exec_ev|apply exec_skip].
    + apply exec_again.
      * apply exec_left. apply exec_seq.
        -- apply exec_left. repeat apply exec_cons. apply exec_skip.
        -- change [Start DIAGNOSTICS; Stop DIAGNOSTICS; Start DIAGNOSTICS_COMM;
                   Stop DIAGNOSTICS_COMM; Start DIAGNOSTICS; Stop DIAGNOSTICS] with
             ([Start DIAGNOSTICS] ++ ([Stop DIAGNOSTICS] ++ ([Start DIAGNOSTICS_COMM] ++
               ([Stop DIAGNOSTICS_COMM] ++ ([Start DIAGNOSTICS; Stop DIAGNOSTICS] ++ []))))).
           repeat (apply exec_seq; [first [apply exec_ev
                     | repeat apply exec_cons; apply exec_skip]|]). apply exec_skip.
      * apply exec_again; [|apply exec_done]. apply exec_right.
        repeat apply exec_cons. apply exec_skip.
    + repeat apply exec_cons. apply exec_skip.
  - cbn [forward app short_run]. repeat split; lra.
Qed.

(** ** UNACCOUNTED is not the remainder *)

(** In that run set-up takes 0.9 s, output 0.1 s and the elliptic solve 0.9 s
    of a wall time of 1.9 s, so nothing is unaccounted for; the sums of the
    two groups are cut to whole seconds (0 and 1), and the report shows 0.9 s
    as unaccounted. *)
Theorem C74_unaccounted_refuted :
  exists outstyle p tr t0 now st k st' r,
    application outstyle = Some p /\ timed p tr /\
    forward t0 (tr ++ [(Stop WALLTIME, now)]) /\
    do_events tr cleared = Some st /\
    on_time WALLTIME false t0 tr now < inject_Z 2147483648 /\
    timer_report false k now st = Some (st', r) /\
    shown_sum r exclusive == shown_for r WALLTIME /\
    unaccounted r == 9#10.
Proof.
  destruct C74_instance_run as (p & Hp & Ht & Hf).
  destruct (C74_no_abort _ _ _ Hp Ht) as [(st & Hd & _) _].
  exists 0%Z, p, short_run, 0, (19#10), st, (Counts 0 0 0 0).
  assert (Hlt : on_time WALLTIME false 0 short_run (19#10) < inject_Z 2147483648)
    by (vm_compute; reflexivity).
  destruct (C74_report _ _ _ _ _ _ false (Counts 0 0 0 0) Hp Ht Hf Hd Hlt)
    as (st' & r & Hr & _ & _).
  exists st', r. repeat (split; [assumption|]).
  remember (do_events short_run cleared) as x eqn:Ex. vm_compute in Ex. subst x.
  injection Hd as <-. vm_compute in Hr. injection Hr as <- <-.
  split; vm_compute; reflexivity.
Qed.
Print Assumptions C74_unaccounted_refuted.

(** ** Grid counts *)

(** The mean number of grids per step, of grids on the boundary and of ghost
    grids is rounded down to a whole number. *)
Theorem C74_means : forall outstyle p tr t0 now st summary k,
  application outstyle = Some p -> timed p tr ->
  forward t0 (tr ++ [(Stop WALLTIME, now)]) ->
  do_events tr cleared = Some st ->
  on_time WALLTIME false t0 tr now < inject_Z 2147483648 ->
  (0 < n_advance k)%Z -> (0 < n_grids k)%Z ->
  (0 <= n_local_boundary k <= n_grids k)%Z -> (0 <= n_remote_boundary k)%Z ->
  exists st' r, timer_report summary k now st = Some (st', r) /\
    (grids_per_proc r * n_advance k <= n_grids k < (grids_per_proc r + 1) * n_advance k)%Z /\
    (grids_local r * n_advance k <= n_local_boundary k < (grids_local r + 1) * n_advance k)%Z /\
    (grids_remote r * n_advance k <= n_remote_boundary k
     < (grids_remote r + 1) * n_advance k)%Z /\
    (0 <= grids_interior r)%Z /\
    (grids_interior r + grids_local r = grids_per_proc r)%Z.
Proof.
  intros o p tr t0 now st summary k Ho Ht Hf Hd Hlt Ha Hg Hl Hrm.
  destruct (report_state _ _ _ _ _ _ Ho Ht Hf Hd) as (_ & Hv & _).
  destruct (reported_facts _ _ _ _ _ _ Ho Ht Hf Hd ltac:(rewrite Hv; exact Hlt) summary k)
    as (st' & r & Hrep & _ & _ & _ & _ & _ & _ & E1 & E2 & E3 & E4).
  exists st', r. split; [exact Hrep|].
  unfold at_least_one in E1, E2, E3.
  replace (0 <? n_advance k)%Z with true in * by (symmetry; apply Z.ltb_lt; exact Ha).
  replace (0 <? n_grids k)%Z with true in * by (symmetry; apply Z.ltb_lt; exact Hg).
  rewrite E4, E1, E2, E3.
  rewrite !Z.quot_div_nonneg by lia.
  pose proof (Z.div_mod (n_grids k) (n_advance k) ltac:(lia)).
  pose proof (Z.mod_pos_bound (n_grids k) (n_advance k) Ha).
  pose proof (Z.div_mod (n_local_boundary k) (n_advance k) ltac:(lia)).
  pose proof (Z.mod_pos_bound (n_local_boundary k) (n_advance k) Ha).
  pose proof (Z.div_mod (n_remote_boundary k) (n_advance k) ltac:(lia)).
  pose proof (Z.mod_pos_bound (n_remote_boundary k) (n_advance k) Ha).
  pose proof (Z.div_le_mono (n_local_boundary k) (n_grids k) (n_advance k) Ha ltac:(lia)).
  repeat split; nia.
Qed.
Print Assumptions C74_means.

(** So the "arithmetic mean of grids per processor" is not the mean: three
    grids over two steps are reported as one. *)
Theorem C74_means_refuted :
  exists outstyle p tr t0 now st k st' r,
    application outstyle = Some p /\ timed p tr /\
    forward t0 (tr ++ [(Stop WALLTIME, now)]) /\
    do_events tr cleared = Some st /\
    timer_report false k now st = Some (st', r) /\
    (n_advance k = 2 /\ n_grids k = 3 /\ grids_per_proc r = 1)%Z.
Proof.
  destruct C74_instance_run as (p & Hp & Ht & Hf).
  destruct (C74_no_abort _ _ _ Hp Ht) as [(st & Hd & _) _].
  exists 0%Z, p, short_run, 0, (19#10), st, (Counts 2 3 0 0).
  assert (Hlt : on_time WALLTIME false 0 short_run (19#10) < inject_Z 2147483648)
    by (vm_compute; reflexivity).
  destruct (reported_facts _ _ _ _ _ _ Hp Ht Hf Hd) with (summary := false)
    (k := Counts 2 3 0 0) as (st' & r & Hr & _ & _ & _ & _ & _ & _ & E & _).
  { destruct (report_state _ _ _ _ _ _ Hp Ht Hf Hd) as (_ & Hv & _). rewrite Hv. exact Hlt. }
  exists st', r. repeat (split; [assumption|]).
  split; [reflexivity|]. split; [reflexivity|]. rewrite E. reflexivity.
Qed.
Print Assumptions C74_means_refuted.

(** ** Threads *)

(** With OpenMP the patches of a level are updated by several threads.  With
    clawpack 4.6 the timers inside the update are switched off, and no
    interleaving of two updates aborts ... *)
Theorem C74_threads : forall a b tr st,
  exec (patch_update_clawpack46 true) a -> exec (patch_update_clawpack46 true) b ->
  shuffle a b (map fst tr) -> do_events tr st = Some st.
Proof.
  intros a b tr st Ha Hb Hs. cbn [patch_update_clawpack46] in Ha, Hb.
  inversion Ha; subst. inversion Hb; subst. inversion Hs as [E| |].
  destruct tr; [reflexivity|discriminate].
Qed.
Print Assumptions C74_threads.

(** ... but the 5.x solver uses the plain timers: if a second thread starts its
    patch before the first has finished, the run aborts, whatever the state of
    the timers. *)
Theorem C74_threads_refuted :
  exists a b c, exec patch_update_clawpack5 a /\ exec patch_update_clawpack5 b /\
    shuffle a b c /\
    (forall tr st, map fst tr = c -> do_events tr st = None).
Proof.
  exists [Start ADVANCE_STEP2; Stop ADVANCE_STEP2], [Start ADVANCE_STEP2; Stop ADVANCE_STEP2],
    [Start ADVANCE_STEP2; Start ADVANCE_STEP2; Stop ADVANCE_STEP2; Stop ADVANCE_STEP2].
  assert (He : exec patch_update_clawpack5 [Start ADVANCE_STEP2; Stop ADVANCE_STEP2]).
  { change [Start ADVANCE_STEP2; Stop ADVANCE_STEP2] with
      ([] ++ [Start ADVANCE_STEP2; Stop ADVANCE_STEP2]).
    apply exec_seq; [apply exec_right, exec_skip|].
    repeat apply exec_cons. apply exec_skip. }
  split; [exact He|]. split; [exact He|]. split; [repeat constructor|].
  intros tr st H. destruct tr as [|[e1 n1] [|[e2 n2] tr]]; try discriminate.
  cbn [map fst] in H. injection H as -> -> _.
  cbn [do_events do_event]. unfold timer_start at 1.
  destruct (running (st ADVANCE_STEP2)); [reflexivity|].
  cbn [do_event]. rewrite set_same. cbn [timer_start running]. reflexivity.
Qed.
Print Assumptions C74_threads_refuted.

(** ** A longer run meets the hypotheses *)

(** Some execution of every output style, with a time step. *)
Fixpoint sample (p : prog) : list event :=
  match p with
  | Skip => []
  | Ev e => [e]
  | Seq p q => sample p ++ sample q
  | Choice p _ => sample p
  | Loop p => sample p ++ []
  | Any f => sample (f 1%nat)
  end.

Lemma sample_exec p : exec p (sample p).
Proof.
  induction p; cbn [sample]; try (constructor; assumption).
  - econstructor; [eassumption|constructor].
  - econstructor. eauto.
Qed.

Example C74_instance_step :
  exists p, application 1 = Some p /\ exec p (sample p) /\
    In (Start EXTRA1) (sample p) /\ In (Start CFL_COMM) (sample p) /\
    (300 <= length (sample p))%nat.
Proof.
  eexists. split; [reflexivity|]. split; [apply sample_exec|].
  split; [|split].
  - assert (H : existsb (fun e => match e with Start t => N.eqb t EXTRA1 | _ => false end)
      (sample (block [initialize; Loop (Choice outstyle_1 elliptic_solve);
                      diagnostics_finalize])) = true) by (vm_compute; reflexivity).
    apply existsb_exists in H. destruct H as (e & Hin & He).
    destruct e as [t|t]; [|discriminate]. apply N.eqb_eq in He. subst t. exact Hin.
  - assert (H : existsb (fun e => match e with Start t => N.eqb t CFL_COMM | _ => false end)
      (sample (block [initialize; Loop (Choice outstyle_1 elliptic_solve);
                      diagnostics_finalize])) = true) by (vm_compute; reflexivity).
    apply existsb_exists in H. destruct H as (e & Hin & He).
    destruct e as [t|t]; [|discriminate]. apply N.eqb_eq in He. subst t. exact Hin.
  - apply Nat.leb_le. vm_compute. reflexivity.
Qed.
