(** C75: GeoClaw's time steps over a moving sea floor. *)
From Coq Require Import ZArith QArith Qabs List Bool Lia Lqa.
From Verif Require Import Model_Run Spec_Run Model_GeoRun Spec_GeoRun Proof_GeoRun.
Import ListNotations.
Open Scope Q_scope.

(** One outer step from ts to te that meets the motion is cut into at least two solver
    calls that follow each other without gap from ts to te.  Each has positive length; none
    crosses the start of the motion; one crosses the end only if less than one percent of
    the outer step is left after it; one that starts during the motion is shorter than the
    limit; and the reported CFL number is not below that of any call. *)
Theorem C75_substeps : forall St advance regrid iv0 iv1 dtmax ts te (s : St) log,
  0 < dtmax -> ts < te -> iv0 < iv1 -> ts < iv1 -> iv0 < te ->
  (te - ts) / dtmax <= 2147483644 ->
  exists x es, step_dtopo St advance iv0 iv1 dtmax ts te s ts log = Ok x /\
    d_log _ x = log ++ es /\ (2 <= length es)%nat /\
    history St advance regrid ts s es te (d_sol _ x) /\ d_glob _ x == te /\
    forall e, In e es -> exists t dt s1 s2, e = Accept St t dt s1 s2 /\
      0 < dt /\ (t + dt <= iv0 \/ iv0 <= t) /\
      (t < iv1 -> iv1 < t + dt -> te - iv1 < (1 # 100) * (te - ts)) /\
      (iv0 <= t -> t < iv1 -> dt < dtmax) /\
      snd (advance s1 t dt) <= d_cfl _ x.
Proof.
  intros St advance regrid iv0 iv1 dtmax ts te s log P TT II E1 E2 B.
  destruct (step_dtopo_ends St advance iv0 iv1 dtmax ts te s ts log P TT II E1 E2 B) as (x & OK).
  destruct (step_dtopo_spec St advance regrid iv0 iv1 dtmax ts te s ts log x P (Qeq_refl _) OK)
    as (es & L & N & H & G & R & C & _ & W).
  exists x, es. split; [exact OK|]. split; [exact L|]. split; [exact N|].
  split; [eapply history_end; [exact G|exact H]|]. split; [exact G|].
  intros e I. rewrite Forall_forall in R, C. specialize (R e I). specialize (C e I).
  specialize (W TT II). rewrite Forall_forall in W. specialize (W e I).
  destruct e as [ | |t dt s1 s2| | ]; try contradiction. cbn in R, C, W.
  exists t, dt, s1, s2. tauto.
Qed.
Print Assumptions C75_substeps.

(** Whole runs with output style 1 or 3: the log is a gapless history from time 0, and every
    solver call that starts during the motion is shorter than the limit. *)
Theorem C75_motion_resolved : forall St advance regrid gmax o iv0 iv1 dtmax fuel (s : St) r,
  0 < dtmax ->
  (goutstyle_1 St advance regrid gmax o iv0 iv1 dtmax fuel s = Ok r \/
   goutstyle_3 St advance regrid gmax o iv0 iv1 dtmax fuel s = Ok r) ->
  history St advance regrid 0 s (r_log _ r) (r_time _ r) (r_sol _ r) /\
  forall t dt s1 s2, In (Accept St t dt s1 s2) (r_log _ r) -> iv0 <= t -> t < iv1 -> dt < dtmax.
Proof.
  intros St advance regrid gmax o iv0 iv1 dtmax fuel s r P OK.
  assert (HJ : J St advance regrid iv0 iv1 dtmax s r).
  { destruct OK as [OK|OK]; [eapply goutstyle_1_J|eapply goutstyle_3_J]; eauto. }
  destruct HJ as (H & _ & R). split; [exact H|]. intros t dt s1 s2 I.
  rewrite Forall_forall in R. exact (R _ I).
Qed.
Print Assumptions C75_motion_resolved.

(** Output style 1 with variable steps: frame k is written at k * tfinal / nout, whatever the
    motion, and the run ends at the final time. *)
Theorem C75_output_times : forall St advance regrid gmax o iv0 iv1 dtmax fuel (s : St) r,
  0 < dtmax -> use_fixed_dt o = false -> 0 <= tfinal o -> (0 < nout o)%Z ->
  goutstyle_1 St advance regrid gmax o iv0 iv1 dtmax fuel s = Ok r ->
  same_frames (frames (r_log _ r))
    (map (fun k => (Z.of_nat k, inject_Z (Z.of_nat k) * (tfinal o / inject_Z (nout o))))
         (seq 0 (S (Z.to_nat (nout o))))) /\
  r_time _ r == tfinal o.
Proof. intros. eapply goutstyle_1_frames; eauto. Qed.
Print Assumptions C75_output_times.

(** Once the motion is over, one pass is that of the core library, with its retaken steps. *)
Theorem C75_after_motion : forall St advance regrid gmax o iv0 iv1 dtmax tend (r : rstate St),
  iv1 <= r_time _ r ->
  gpass1 St advance regrid gmax o iv0 iv1 dtmax tend r = pass1 St advance regrid gmax o tend r.
Proof.
  intros. apply gpass1_regular. intro dt. apply orb_true_iff. left. apply Qle_bool_iff. exact H.
Qed.
Print Assumptions C75_after_motion.

(** Steps that meet the motion are not retaken, and the next step size is scaled by the CFL
    number of the short calls: with waves of constant speed, a first step at the desired CFL
    number and a limit of one tenth of it, a solver call at 1.8 is accepted although the limit
    is 1. *)
Definition cfl_opts := mkRopts 12 1 1 1 0 0 false true 1 (9 # 10) true false false 0.
Definition cfl_adv (s : unit) (t h : Q) : unit * Q := (s, (9 # 10) * h).
Theorem C75_cfl_refuted : exists fuel r t dt,
  goutstyle_1 unit cfl_adv (fun s => s) (fun x => x) cfl_opts 0 10 (1 # 10) fuel tt = Ok r /\
  reduce_cfl cfl_opts = true /\ use_fixed_dt cfl_opts = false /\
  In (Accept unit t dt tt tt) (r_log _ r) /\ snd (cfl_adv tt t dt) == 18 # 10 /\
  max_cfl cfl_opts < snd (cfl_adv tt t dt).
Proof.
  exists 5%nat. eexists. exists 10, 2. split; [vm_compute; reflexivity|].
  split; [reflexivity|]. split; [reflexivity|].
  split; [|split; [reflexivity|unfold cfl_adv; cbn; lra]].
  match goal with |- In ?a ?l => let l' := eval cbn [r_log] in l in change (In a l') end.
  repeat (first [left; reflexivity | right]).
Qed.
Print Assumptions C75_cfl_refuted.

(** A bed that moves at one instant inside the step makes the number of calls 0/0. *)
Theorem C75_instant_refuted : forall St advance iv0 iv1 dtmax ts te (s : St) g log,
  0 < dtmax -> iv0 == iv1 -> ts < iv0 -> (1 # 100) * (te - ts) <= te - iv0 -> ts < te ->
  step_dtopo St advance iv0 iv1 dtmax ts te s g log = Stuck.
Proof.
  intros St advance iv0 iv1 dtmax ts te s g log P E L B T. unfold step_dtopo.
  assert (XX : iv1 == iv0) by (symmetry; exact E).
  destruct (_ || _); [reflexivity|].
  destruct (qlt ts iv0) eqn:Q1; [|apply qlt_false in Q1; lra].
  destruct (advance s ts (iv0 - ts)) as [s' c].
  destruct (qlt iv1 te) eqn:Q2; [apply qlt_true in Q2|apply qlt_false in Q2; lra].
  destruct (qlt (Qabs (te - iv1)) _) eqn:Q3.
  { apply qlt_true in Q3. rewrite Qabs_pos in Q3 by lra. lra. }
  destruct (qlt (iv1 - (ts + (iv0 - ts))) dtmax) eqn:Q4; [|apply qlt_false in Q4; lra].
  replace (Qeq_bool (iv1 - (ts + (iv0 - ts))) 0) with true; [reflexivity|].
  symmetry. apply Qeq_bool_iff. rewrite XX. ring.
Qed.
Print Assumptions C75_instant_refuted.

(** Output style 4 does not look at the motion. *)
Definition plain_opts := mkRopts 1 1 1 1 0 0 true false 1 (9 # 10) true false false 0.
Theorem C75_outstyle_4_refuted : exists fuel r t dt,
  outstyle_4 unit cfl_adv (fun s => s) plain_opts fuel tt = Ok r /\
  In (Accept unit t dt tt tt) (r_log _ r) /\ 0 <= t /\ t < 10 /\ (1 # 10) < dt.
Proof.
  exists 2%nat. eexists. exists 0, 1. split; [vm_compute; reflexivity|].
  split; [|split; [lra|split; lra]].
  match goal with |- In ?a ?l => let l' := eval cbn [r_log] in l in change (In a l') end.
  repeat (first [left; reflexivity | right]).
Qed.
Print Assumptions C75_outstyle_4_refuted.

(** Output style 3 without single steps gathers diagnostics once, at time 0: frames come
    without diagnostics, and gauges record nothing later. *)
Theorem C75_diagnostics_refuted : forall St advance regrid gmax o iv0 iv1 dtmax fuel (s : St) r,
  0 < dtmax -> r_advance_one_step o = false ->
  goutstyle_3 St advance regrid gmax o iv0 iv1 dtmax fuel s = Ok r ->
  filter is_diag (r_log _ r) = [Diag St true 0 s].
Proof. intros. eapply goutstyle_3_diags; eauto. Qed.
Print Assumptions C75_diagnostics_refuted.

(** Non-vacuity: a step from 0 to 4 over a motion from 1 to 3 takes one call, five calls of
    2/5, and one call; a motion that ends at 399/100 is joined to the end of the step. *)
Definition calls {St} (l : list (revent St)) : list (Q * Q) :=
  flat_map (fun e => match e with Accept _ t dt _ _ => [(Qred t, Qred dt)] | _ => [] end) l.
Definition ex_adv (s : Z) (t h : Q) : Z * Q := ((s + 1)%Z, 2 * h).
Example C75_instance_step : exists x y,
  step_dtopo Z ex_adv 1 3 (1 # 2) 0 4 0%Z 0 [] = Ok x /\
  calls (d_log _ x) = [(0, 1); (1, 2 # 5); (7 # 5, 2 # 5); (9 # 5, 2 # 5); (11 # 5, 2 # 5);
                       (13 # 5, 2 # 5); (3, 1)] /\
  d_sol _ x = 7%Z /\ d_cfl _ x == 2 /\
  step_dtopo Z ex_adv 1 (399 # 100) 2 0 4 0%Z 0 [] = Ok y /\
  calls (d_log _ y) = [(0, 1); (1, 1); (2, 1); (3, 1)].
Proof. eexists. eexists. repeat split; vm_compute; reflexivity. Qed.

Definition run_opts := mkRopts 4 2 2 1 0 0 false true 1 (9 # 10) true false false 0.
Example C75_instance_run : exists fuel r fuel3 r3,
  goutstyle_1 Z ex_adv (fun s => s) (fun x => x) run_opts 1 (3 # 2) (1 # 2) fuel 0%Z = Ok r /\
  (0 < length (filter (fun c => Qle_bool 1 (fst c) && Qle_bool (fst c) (3 # 2)) (calls (r_log _ r))))%nat /\
  goutstyle_3 Z ex_adv (fun s => s) (fun x => x) run_opts 1 (3 # 2) (1 # 2) fuel3 0%Z = Ok r3.
Proof.
  exists 12%nat. eexists. exists 12%nat. eexists. split; [vm_compute; reflexivity|].
  split; [vm_compute; lia|]. vm_compute; reflexivity.
Qed.
