(** C14, C15: the time loops of fclaw2d_run. *)
From Coq Require Import ZArith QArith List Bool Lia Lqa.
From Verif Require Import Model_Run Spec_Run Proof_Run Proof_Run2.
Import ListNotations.
Open Scope Z_scope.

(** Output style 1 with variable step size: whatever CFL numbers the solver returns,
    a finished run has written frame k at time k * tfinal / nout for k = 0..nout and stands at
    tfinal. *)
Theorem C14_output_times : forall St advance regrid gmax o fuel (s : St) r,
  use_fixed_dt o = false -> (0 <= tfinal o)%Q -> 0 < nout o ->
  outstyle_1 St advance regrid gmax o fuel s = Ok r ->
  same_frames (frames (r_log _ r))
    (map (fun k => (Z.of_nat k, (inject_Z (Z.of_nat k) * (tfinal o / inject_Z (nout o)))%Q))
         (seq 0 (S (Z.to_nat (nout o))))) /\
  (r_time _ r == tfinal o)%Q.
Proof. intros. edestruct outstyle_1_ok as (A & B & C & D); eauto. Qed.
Print Assumptions C14_output_times.

(** No step, accepted or retaken, goes beyond the next output time. *)
Theorem C14_never_past_output_time : forall St advance regrid gmax o fuel (s : St) r,
  use_fixed_dt o = false -> (0 <= tfinal o)%Q -> 0 < nout o ->
  outstyle_1 St advance regrid gmax o fuel s = Ok r ->
  forall pre t dt s1 s2 post,
  (r_log _ r = pre ++ Accept St t dt s1 s2 :: post \/ r_log _ r = pre ++ Reject St t dt s1 s2 :: post) ->
  let next_output := (inject_Z (count is_frame pre) * (tfinal o / inject_Z (nout o)))%Q in
  (t < next_output /\ t + dt <= next_output)%Q.
Proof.
  intros St advance regrid gmax o fuel s r H H0 H1 E pre t dt s1 s2 post Hl.
  destruct (outstyle_1_ok St advance regrid gmax o fuel s r H H0 H1 E) as (A & B & C & D).
  destruct Hl as [Hl|Hl]; apply (B pre _ post Hl).
Qed.
Print Assumptions C14_never_past_output_time.

(** The whole log is a consistent history: a retaken step leaves time and solution as
    they were, an accepted one is exactly one solver call from the current time
    and solution, and frames show the current time and solution.  Regridding happens after
    every regrid_interval-th accepted step. *)
Theorem C14_history : forall St advance regrid gmax o fuel (s : St) r,
  use_fixed_dt o = false -> (0 <= tfinal o)%Q -> 0 < nout o ->
  outstyle_1 St advance regrid gmax o fuel s = Ok r ->
  runs St advance regrid (0%Q, s) (r_log _ r) (r_time _ r, r_sol _ r) /\
  count is_regrid (r_log _ r) =
    (if 0 <? regrid_interval o then count is_accept (r_log _ r) / regrid_interval o else 0).
Proof.
  intros. edestruct outstyle_1_ok as (A & B & C & (D1 & D2 & D3 & D4)); eauto.
Qed.
Print Assumptions C14_history.

(** The run does finish if CFL numbers are positive and at most proportional to the step
    size, as they are for finite wave speeds. *)
Theorem C14_terminates : forall St advance regrid gmax o Lam (s : St),
  (0 < Lam)%Q ->
  (forall s t h, (0 < h)%Q -> let c := snd (advance s t h) in
     let c := if reduce_cfl o then gmax c else c in (0 < c)%Q /\ (c <= Lam * h)%Q) ->
  use_fixed_dt o = false -> (0 < desired_cfl o /\ desired_cfl o < max_cfl o)%Q ->
  r_minlevel o <= r_maxlevel o -> (0 < initial_dt o)%Q ->
  exists fuel0 r, forall fuel, (fuel0 <= fuel)%nat -> outstyle_1 St advance regrid gmax o fuel s = Ok r.
Proof. intros St advance regrid gmax o Lam s H H0 H1 H2 H3 H4. exact (outstyle_1_ends St advance regrid gmax o Lam H H0 H1 H2 H3 H4 s). Qed.
Print Assumptions C14_terminates.

(** With a fixed step size output times are overshot: the claim is limited to variable
    steps. *)
Definition fixed_opts := mkRopts 1 1 1 (3 # 4) 0 0 true false 1 (9 # 10) true false false 0.
Theorem C14_fixed_step_refuted : exists fuel r,
  outstyle_1 unit (fun s _ _ => (s, 1%Q)) (fun s => s) (fun x => x) fixed_opts fuel tt = Ok r /\
  ~ (r_time _ r <= tfinal fixed_opts)%Q.
Proof. exists 5%nat. eexists. split. vm_compute. reflexivity. vm_compute. intro H; apply H; reflexivity. Qed.
Print Assumptions C14_fixed_step_refuted.

(** Output style 3: nout accepted steps (times 2^(maxlevel-minlevel) when all levels
    take the finest step and counts refer to the coarsest), frame i written directly
    after accepted step i * nstep (scaled alike), nout / nstep + 1 frames in all. *)
Theorem C15_outstyle_3 : forall St advance regrid gmax o fuel (s : St) r,
  0 <= nout o -> 0 < nstep o -> r_minlevel o <= r_maxlevel o ->
  outstyle_3 St advance regrid gmax o fuel s = Ok r ->
  let factor := if negb (r_subcycle o) && r_advance_one_step o && negb (outstyle_uses_maxlevel o)
                then 2 ^ (r_maxlevel o - r_minlevel o) else 1 in
  count is_accept (r_log _ r) = nout o * factor /\
  count is_frame (r_log _ r) = nout o / nstep o + 1 /\
  (forall pre i t s' post, r_log _ r = pre ++ Frame St i t s' :: post ->
     i = count is_frame pre /\ count is_accept pre = i * (nstep o * factor)) /\
  runs St advance regrid (0%Q, s) (r_log _ r) (r_time _ r, r_sol _ r) /\
  count is_regrid (r_log _ r) =
    (if 0 <? regrid_interval o then count is_accept (r_log _ r) / regrid_interval o else 0).
Proof.
  intros St advance regrid gmax o fuel s r H H0 H1 E.
  destruct (outstyle_3_ok St advance regrid gmax o fuel s r H H0 H1 E) as ((D1 & D2 & D3 & D4) & B & C & D); eauto.
Qed.
Print Assumptions C15_outstyle_3.

(** Output style 4 always finishes: exactly nout steps of size initial_dt, none
    retaken, final time nout * initial_dt. *)
Theorem C15_outstyle_4 : forall St advance regrid o fuel (s : St),
  0 <= nout o -> 0 < nstep o -> (Z.to_nat (nout o) <= fuel)%nat ->
  exists r, outstyle_4 St advance regrid o fuel s = Ok r /\
  count is_accept (r_log _ r) = nout o /\
  (forall t dt s1 s2, In (Accept St t dt s1 s2) (r_log _ r) -> dt = initial_dt o) /\
  (forall t dt s1 s2, ~ In (Reject St t dt s1 s2) (r_log _ r)) /\
  (r_time _ r == inject_Z (nout o) * initial_dt o)%Q /\
  count is_frame (r_log _ r) = nout o / nstep o + 1 /\
  (forall pre i t s' post, r_log _ r = pre ++ Frame St i t s' :: post ->
     i = count is_frame pre /\ count is_accept pre = i * nstep o) /\
  runs St advance regrid (0%Q, s) (r_log _ r) (r_time _ r, r_sol _ r) /\
  count is_regrid (r_log _ r) =
    (if 0 <? regrid_interval o then count is_accept (r_log _ r) / regrid_interval o else 0).
Proof.
  intros St advance regrid o fuel s H H0 H1.
  destruct (outstyle_4_ok St advance regrid o fuel s H H0 H1) as (r & E & (D1 & D2 & D3 & D4) & B & C & D & F).
  destruct (outstyle_4_steps St advance regrid (fun x => x) o fuel s r E) as (G1 & G2).
  exists r. split; auto. split; auto. split; [exact G1|]. split; [exact G2|]. auto.
Qed.
Print Assumptions C15_outstyle_4.

(** The initial frame is written before the first step in every style (position 0 of
    the two theorems above; here for any run, finished or not, of style 1). *)
Theorem C15_initial_frame : forall St advance regrid gmax o fuel (s : St) r,
  use_fixed_dt o = false -> (0 <= tfinal o)%Q -> 0 < nout o ->
  outstyle_1 St advance regrid gmax o fuel s = Ok r ->
  exists q, frames (r_log _ r) = (0, q) :: tl (frames (r_log _ r)) /\ (q == 0)%Q.
Proof.
  intros St advance regrid gmax o fuel s r H H0 H1 E.
  destruct (outstyle_1_ok St advance regrid gmax o fuel s r H H0 H1 E) as (A & _).
  cbn [seq map] in A. inversion A as [|x y l l' X Y]; subst. destruct X as (X1 & X2). destruct x as [i q].
  cbn [fst snd] in *. subst i. exists q. split. reflexivity. rewrite X2. change (inject_Z (Z.of_nat 0)) with 0%Q. ring.
Qed.
Print Assumptions C15_initial_frame.

(** A zero frame interval is a division by zero in the code. *)
Theorem C15_zero_interval_refuted : forall St advance regrid o fuel (s : St),
  nstep o = 0 -> 0 < nout o -> (0 < fuel)%nat -> outstyle_4 St advance regrid o fuel s = Stuck.
Proof.
  intros. destruct fuel; [lia|]. unfold outstyle_4. cbn [while4 diagnostics output_frame emit start r_n].
  destruct (Z.leb_spec (nout o) 0); [lia|]. unfold pass4. cbn [r_sol r_time r_dt].
  destruct (advance (r_sol _ _) (r_time _ _) (r_dt _ _)). rewrite H. reflexivity.
Qed.
Print Assumptions C15_zero_interval_refuted.

(** Non-vacuity: a run with a rejected first step, a small last step in each interval, and
    two output times. *)
Definition ex_opts := mkRopts 2 2 2 (9 # 10) 0 1 false true 1 (9 # 10) true false false 2.
Definition ex_adv (s : Z) (t h : Q) : Z * Q := (s + 1, (2 * h)%Q).
Example ex_run1 : exists r, outstyle_1 Z ex_adv (fun s => s + 100) (fun x => x) ex_opts 10 0 = Ok r /\
  count is_accept (r_log _ r) = 6 /\ count (fun e => match e with Reject _ _ _ _ _ => true | _ => false end) (r_log _ r) = 1 /\
  count is_regrid (r_log _ r) = 3.
Proof. eexists. split. vm_compute. reflexivity. vm_compute. auto. Qed.
Example ex_run3 : exists r, outstyle_3 Z ex_adv (fun s => s + 100) (fun x => x) ex_opts 10 0 = Ok r /\
  count is_accept (r_log _ r) = 2 /\ count is_frame (r_log _ r) = 2.
Proof. eexists. split. vm_compute. reflexivity. vm_compute. auto. Qed.
