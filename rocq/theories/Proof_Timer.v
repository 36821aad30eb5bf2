(** Proofs about timers. *)

From Coq Require Import NArith ZArith QArith Qround List Bool Lia Lqa.
From Verif Require Import Model_Timer Spec_Timer.
Import ListNotations.
Open Scope Q_scope.

(** ** A static check of the programs *)

(** Sets of running timers as bit masks. *)
Definition count (ts : list N) (m : N) : nat :=
  length (filter (fun t => N.testbit m t) ts).

Definition fine (cs : list (list N * list N)) (m : N) : bool :=
  forallb (fun c => Nat.leb (count (fst c) m) (count (snd c) m)) cs.

Definition move (cs : list (list N * list N)) (e : event) (m : N) : option N :=
  match e with
  | Start t => if N.testbit m t then None
               else if fine cs (N.setbit m t) then Some (N.setbit m t) else None
  | Stop t => if N.testbit m t then
                if fine cs (N.clearbit m t) then Some (N.clearbit m t) else None
              else None
  end.

Fixpoint walk (cs : list (list N * list N)) (tr : list event) (m : N) : option N :=
  match tr with
  | [] => Some m
  | e :: r => match move cs e m with Some m' => walk cs r m' | None => None end
  end.

Lemma walk_app cs a : forall b m,
  walk cs (a ++ b) m = match walk cs a m with Some m' => walk cs b m' | None => None end.
Proof.
  induction a as [|e a IH]; intros b m; cbn [walk app]; [reflexivity|].
  destruct (move cs e m); [apply IH|reflexivity].
Qed.

Definition safe cs (p : prog) (m m' : N) : Prop :=
  forall tr, exec p tr -> walk cs tr m = Some m'.

Lemma safe_skip cs m : safe cs Skip m m.
Proof. intros tr H. inversion H; subst. reflexivity. Qed.

Lemma safe_ev cs e m m' : move cs e m = Some m' -> safe cs (Ev e) m m'.
Proof. intros E tr H. inversion H; subst. cbn [walk]. rewrite E. reflexivity. Qed.

Lemma safe_seq cs p q m1 m2 m3 :
  safe cs p m1 m2 -> safe cs q m2 m3 -> safe cs (Seq p q) m1 m3.
Proof.
  intros Hp Hq tr H. inversion H; subst. rewrite walk_app, (Hp _ ltac:(eassumption)).
  apply Hq. assumption.
Qed.

Lemma safe_choice cs p q m m' : safe cs p m m' -> safe cs q m m' -> safe cs (Choice p q) m m'.
Proof. intros Hp Hq tr H. inversion H; subst; [apply Hp|apply Hq]; assumption. Qed.

Lemma safe_loop cs p m : safe cs p m m -> safe cs (Loop p) m m.
Proof.
  intros Hp tr H. remember (Loop p) as lp eqn:El. induction H; try discriminate.
  - reflexivity.
  - injection El as ->. rewrite walk_app, (Hp _ ltac:(eassumption)). auto.
Qed.

Lemma safe_any cs f m m' : (forall n, safe cs (f n) m m') -> safe cs (Any f) m m'.
Proof. intros Hf tr H. inversion H; subst. eapply Hf. eassumption. Qed.

Fixpoint check cs (p : prog) (m : N) : option N :=
  match p with
  | Skip => Some m
  | Ev e => move cs e m
  | Seq p q => match check cs p m with Some m' => check cs q m' | None => None end
  | Choice p q =>
      match check cs p m, check cs q m with
      | Some a, Some b => if N.eqb a b then Some a else None
      | _, _ => None
      end
  | Loop p =>
      match check cs p m with
      | Some a => if N.eqb a m then Some m else None
      | None => None
      end
  | Any _ => None
  end.

Lemma check_safe cs p : forall m m', check cs p m = Some m' -> safe cs p m m'.
Proof.
  induction p as [|e|p IHp q IHq|p IHp q IHq|p IHp|f IHf]; intros m m' H; cbn [check] in H.
  - injection H as <-. apply safe_skip.
  - apply safe_ev, H.
  - destruct (check cs p m) eqn:E; [|discriminate]. eapply safe_seq; eauto.
  - destruct (check cs p m) eqn:E; [|discriminate].
    destruct (check cs q m) eqn:E2; [|discriminate].
    destruct (N.eqb_spec n n0) as [->|_]; [|discriminate]. injection H as <-.
    apply safe_choice; eauto.
  - destruct (check cs p m) eqn:E; [|discriminate].
    destruct (N.eqb_spec n m) as [->|_]; [|discriminate]. injection H as <-.
    apply safe_loop; eauto.
  - discriminate.
Qed.

(** ** From masks to timers *)

Definition agrees (m : N) (st : timers) : Prop := forall t, running (st t) = N.testbit m t.

Lemma agrees_count ts m st : agrees m st -> how_many ts st = count ts m.
Proof.
  intros Ha. unfold how_many, count. f_equal. induction ts as [|t ts IH]; [reflexivity|].
  cbn [filter]. rewrite (Ha t), IH. reflexivity.
Qed.

Definition obeys (cs : list (list N * list N)) (st : timers) : Prop :=
  forall a b, In (a, b) cs -> (how_many a st <= how_many b st)%nat.

Lemma fine_obeys cs m st : agrees m st -> fine cs m = true -> obeys cs st.
Proof.
  intros Ha Hf a b Hin. unfold fine in Hf. rewrite forallb_forall in Hf.
  specialize (Hf _ Hin). cbn [fst snd] in Hf. apply Nat.leb_le in Hf.
  rewrite !(agrees_count _ _ _ Ha). exact Hf.
Qed.

Lemma set_same t c st : set_timer t c st t = c.
Proof. unfold set_timer. rewrite N.eqb_refl. reflexivity. Qed.

Lemma set_other t u c st : u <> t -> set_timer t c st u = st u.
Proof. intros H. unfold set_timer. apply N.eqb_neq in H. rewrite H. reflexivity. Qed.

Lemma move_step cs e m m' st now :
  agrees m st -> move cs e m = Some m' ->
  exists st', do_event e now st = Some st' /\ agrees m' st' /\ obeys cs st'.
Proof.
  intros Ha Hm. destruct e as [t|t]; cbn [move] in Hm; cbn [do_event].
  - destruct (N.testbit m t) eqn:E; [discriminate|].
    destruct (fine cs (N.setbit m t)) eqn:F; [|discriminate]. injection Hm as <-.
    unfold timer_start. rewrite (Ha t), E. eexists. split; [reflexivity|].
    assert (Hag : agrees (N.setbit m t) (set_timer t (Cell true now (cumulative (st t))) st)).
    { intros u. destruct (N.eq_dec u t) as [->|Hn].
      - rewrite set_same, N.setbit_eq. reflexivity.
      - rewrite set_other, N.setbit_neq by congruence. apply Ha. }
    split; [exact Hag|]. eapply fine_obeys; eauto.
  - destruct (N.testbit m t) eqn:E; [|discriminate].
    destruct (fine cs (N.clearbit m t)) eqn:F; [|discriminate]. injection Hm as <-.
    unfold timer_stop. rewrite (Ha t), E. eexists. split; [reflexivity|].
    assert (Hag : agrees (N.clearbit m t)
       (set_timer t (Cell false (started (st t)) (cumulative (st t) + (now - started (st t)))) st)).
    { intros u. destruct (N.eq_dec u t) as [->|Hn].
      - rewrite set_same, N.clearbit_eq. reflexivity.
      - rewrite set_other, N.clearbit_neq by congruence. apply Ha. }
    split; [exact Hag|]. eapply fine_obeys; eauto.
Qed.

Lemma walk_run cs tr : forall m m' st,
  agrees m st -> walk cs (map fst tr) m = Some m' ->
  exists st', do_events tr st = Some st' /\ agrees m' st'.
Proof.
  induction tr as [|[e now] tr IH]; intros m m' st Ha Hw; cbn [map fst walk] in Hw.
  - injection Hw as <-. exists st. split; [reflexivity|exact Ha].
  - destruct (move cs e m) as [m1|] eqn:E; [|discriminate].
    destruct (move_step cs e m m1 st now Ha E) as (st1 & Hd & Ha1 & _).
    destruct (IH m1 m' st1 Ha1 Hw) as (st' & Hr & Ha').
    exists st'. cbn [do_events]. rewrite Hd. split; assumption.
Qed.

Lemma walk_obeys cs tr : forall m m' st pre post,
  agrees m st -> obeys cs st -> walk cs (map fst tr) m = Some m' -> tr = pre ++ post ->
  exists st', do_events pre st = Some st' /\ obeys cs st'.
Proof.
  induction tr as [|[e now] tr IH]; intros m m' st pre post Ha Ho Hw E;
    cbn [map fst walk] in Hw.
  - symmetry in E. apply app_eq_nil in E. destruct E as [-> ->].
    exists st. split; [reflexivity|exact Ho].
  - destruct (move cs e m) as [m1|] eqn:Em; [|discriminate].
    destruct pre as [|p pre]; [exists st; split; [reflexivity|exact Ho]|].
    cbn [app] in E. injection E as <- E.
    destruct (move_step cs e m m1 st now Ha Em) as (st1 & Hd & Ha1 & Ho1).
    destruct (IH m1 m' st1 pre post Ha1 Ho1 Hw E) as (st' & Hr & Ho').
    exists st'. cbn [do_events]. rewrite Hd. split; assumption.
Qed.

(** ** Time *)

Definition value (st : timers) (now : Q) (t : N) : Q :=
  cumulative (st t) + (if running (st t) then now - started (st t) else 0).

Definition values (st : timers) (now : Q) (ts : list N) : Q :=
  fold_right (fun t s => value st now t + s) 0 ts.

Lemma event_value e now st st' t :
  do_event e now st = Some st' -> value st' now t == value st now t.
Proof.
  intros H. destruct e as [u|u]; cbn [do_event] in H.
  - unfold timer_start in H. destruct (running (st u)) eqn:E; [discriminate|].
    injection H as <-. unfold value. destruct (N.eq_dec t u) as [->|Hn].
    + rewrite set_same. cbn [cumulative running started]. rewrite E. lra.
    + rewrite set_other by exact Hn. reflexivity.
  - unfold timer_stop in H. destruct (running (st u)) eqn:E; [|discriminate].
    injection H as <-. unfold value. destruct (N.eq_dec t u) as [->|Hn].
    + rewrite set_same. cbn [cumulative running started]. rewrite E. lra.
    + rewrite set_other by exact Hn. reflexivity.
Qed.

Lemma event_values e now st st' ts :
  do_event e now st = Some st' -> values st' now ts == values st now ts.
Proof.
  intros H. induction ts as [|t ts IH]; cbn [values fold_right]; [reflexivity|].
  fold (values st' now ts) (values st now ts).
  rewrite IH, (event_value _ _ _ _ t H). reflexivity.
Qed.

Lemma values_pass st now now' ts :
  values st now' ts == values st now ts + inject_Z (Z.of_nat (how_many ts st)) * (now' - now).
Proof.
  unfold how_many. induction ts as [|t ts IH].
  - cbn [values fold_right filter length]. change (inject_Z (Z.of_nat 0)) with 0. lra.
  - cbn [values fold_right filter]. fold (values st now' ts) (values st now ts).
    rewrite IH. unfold value. destruct (running (st t)); cbn [length].
    + rewrite Nat2Z.inj_succ. unfold Z.succ. rewrite inject_Z_plus.
      change (inject_Z 1) with 1. lra.
    + lra.
Qed.

Lemma pass_le st a b last now :
  last <= now -> (how_many a st <= how_many b st)%nat ->
  values st last a <= values st last b -> values st now a <= values st now b.
Proof.
  intros Hl Hh Hv. rewrite (values_pass st last now a), (values_pass st last now b).
  assert (Hz : inject_Z (Z.of_nat (how_many a st)) <= inject_Z (Z.of_nat (how_many b st))).
  { rewrite <- Zle_Qle. lia. }
  assert (Hp : 0 <= (inject_Z (Z.of_nat (how_many b st)) - inject_Z (Z.of_nat (how_many a st)))
                    * (now - last)).
  { apply Qmult_le_0_compat; lra. }
  lra.
Qed.

(** The last reading of a trace. *)
Fixpoint final (last : Q) (tr : list (event * Q)) : Q :=
  match tr with [] => last | (_, now) :: r => final now r end.

Lemma run_values cs tr : forall m m' st last st' a b,
  agrees m st -> obeys cs st -> walk cs (map fst tr) m = Some m' ->
  do_events tr st = Some st' -> forward last tr -> In (a, b) cs ->
  values st last a <= values st last b ->
  obeys cs st' /\ values st' (final last tr) a <= values st' (final last tr) b.
Proof.
  induction tr as [|[e now] tr IH]; intros m m' st last st' a b Ha Ho Hw Hd Hf Hin Hv;
    cbn [map fst walk do_events forward final] in *.
  - injection Hd as <-. split; assumption.
  - destruct (move cs e m) as [m1|] eqn:Em; [|discriminate].
    destruct (move_step cs e m m1 st now Ha Em) as (st1 & Hd1 & Ha1 & Ho1).
    rewrite Hd1 in Hd. destruct Hf as [Hl Hf].
    eapply IH; eauto.
    rewrite !(event_values _ _ _ _ _ Hd1).
    eapply pass_le; eauto.
Qed.

Lemma on_time_value t tr : forall st last st' end_,
  do_events tr st = Some st' ->
  value st' end_ t == value st last t + on_time t (running (st t)) last tr end_.
Proof.
  induction tr as [|[e now] tr IH]; intros st last st' end_ Hd; cbn [do_events on_time] in *.
  - injection Hd as <-. unfold value. destruct (running (st t)); lra.
  - destruct (do_event e now st) as [st1|] eqn:E; [|discriminate].
    rewrite (IH st1 now st' end_ Hd). rewrite (event_value _ _ _ _ t E).
    assert (Hr : running (st1 t) = match e with
                 | Start u => if N.eqb u t then true else running (st t)
                 | Stop u => if N.eqb u t then false else running (st t)
                 end).
    { destruct e as [u|u]; cbn [do_event] in E;
        [unfold timer_start in E|unfold timer_stop in E];
        destruct (running (st u)) eqn:Er; try discriminate; injection E as <-;
        unfold set_timer; rewrite (N.eqb_sym t u);
        destruct (N.eqb u t); reflexivity. }
    rewrite <- Hr. unfold value. destruct (running (st t)); lra.
Qed.

(** ** The programs *)

(** Every timer other than the wall clock runs only while the wall clock
    does. *)
Definition within_wall : list (list N * list N) :=
  map (fun t => ([t], [WALLTIME])) reported.

Definition nonnegative : list (list N * list N) := map (fun t => ([], [t])) reported.

Definition rules := nested ++ within_wall ++ nonnegative.

Definition m_wall : N := N.setbit 0 WALLTIME.
Definition m_advance : N := N.setbit m_wall ADVANCE.

Ltac checked := apply check_safe; vm_compute; reflexivity.

Lemma advance_level_safe n : safe rules (advance_level n) m_advance m_advance.
Proof.
  induction n as [|n IH]; cbn [advance_level].
  - checked.
  - eapply safe_seq; [checked|]. apply safe_choice; [|apply safe_skip].
    eapply safe_seq; [exact IH|]. checked.
Qed.

Lemma advance_all_safe : safe rules advance_all_levels m_wall m_wall.
Proof.
  unfold advance_all_levels. cbn [block].
  apply safe_seq with m_advance; [checked|].
  apply safe_seq with m_advance.
  - apply safe_loop. eapply safe_seq; [apply safe_any; apply advance_level_safe|]. checked.
  - checked.
Qed.

Lemma outstyle_1_safe : safe rules outstyle_1 m_wall m_wall.
Proof.
  unfold outstyle_1. cbn [block].
  apply safe_seq with m_wall; [checked|]. apply safe_seq with m_wall; [checked|].
  apply safe_seq with m_wall; [|apply safe_skip]. apply safe_loop.
  apply safe_seq with m_wall; [|checked]. apply safe_loop.
  apply safe_seq with m_wall; [apply advance_all_safe|checked].
Qed.

Lemma outstyle_3_safe : safe rules outstyle_3 m_wall m_wall.
Proof.
  unfold outstyle_3. cbn [block].
  apply safe_seq with m_wall; [checked|]. apply safe_seq with m_wall; [checked|].
  apply safe_seq with m_wall; [|apply safe_skip]. apply safe_loop.
  apply safe_seq with m_wall; [apply advance_all_safe|checked].
Qed.

Lemma outstyle_4_safe : safe rules outstyle_4 m_wall m_wall.
Proof.
  unfold outstyle_4. cbn [block].
  apply safe_seq with m_wall; [checked|]. apply safe_seq with m_wall; [checked|].
  apply safe_seq with m_wall; [|apply safe_skip]. apply safe_loop.
  apply safe_seq with m_wall; [apply advance_all_safe|checked].
Qed.

Lemma run_safe o p : run o = Some p -> safe rules p m_wall m_wall.
Proof.
  unfold run. intros H.
  destruct o as [|[[[]|[]|]|[[]|[]|]|]|]; try discriminate; injection H as <-.
  all: first [ exact outstyle_1_safe | exact outstyle_3_safe | exact outstyle_4_safe | checked ].
Qed.

Lemma application_safe o p : application o = Some p -> safe rules p 0 m_wall.
Proof.
  unfold application. destruct (run o) as [r|] eqn:E; [|discriminate].
  intros H. injection H as <-. cbn [block].
  apply safe_seq with m_wall; [checked|].
  apply safe_seq with m_wall.
  - apply safe_loop, safe_choice; [eapply run_safe; eassumption|checked].
  - checked.
Qed.

Lemma agrees_cleared : agrees 0 cleared.
Proof. intros t. cbn [cleared timer_init running]. symmetry. apply N.bits_0. Qed.

Lemma obeys_cleared cs : obeys cs cleared.
Proof.
  intros a b _. unfold how_many, cleared, timer_init. cbn [running].
  replace (filter (fun _ => false) a) with (@nil N); [cbn [length]; lia|].
  induction a as [|x a IH]; [reflexivity|]. exact IH.
Qed.

Lemma values_cleared now ts : values cleared now ts == 0.
Proof.
  induction ts as [|t ts IH]; [reflexivity|]. cbn [values fold_right].
  fold (values cleared now ts). rewrite IH. unfold value. cbn. lra.
Qed.

(** ** The report *)

Lemma existsb_all_off (l : list N) st :
  (forall t, running (st t) = false) -> existsb (fun t => running (st t)) l = false.
Proof.
  intros H. induction l as [|t l IH]; [reflexivity|]. cbn [existsb]. rewrite H. exact IH.
Qed.

Lemma total_values st now ts :
  (forall t, running (st t) = false) -> values st now ts == total ts st.
Proof.
  intros H. induction ts as [|t ts IH]; [reflexivity|].
  cbn [values total fold_right]. fold (values st now ts) (total ts st).
  rewrite IH. unfold value. rewrite H. lra.
Qed.

Lemma agrees_wall_stop m st now :
  m = m_wall -> agrees m st ->
  exists st', do_event (Stop WALLTIME) now st = Some st' /\ (forall t, running (st' t) = false).
Proof.
  intros -> Ha. destruct (move_step [] (Stop WALLTIME) m_wall 0 st now Ha eq_refl)
    as (st' & Hd & Ha' & _).
  exists st'. split; [exact Hd|]. intros t. rewrite (Ha' t). apply N.bits_0.
Qed.

Lemma to_int_some q :
  0 <= q -> q < inject_Z 2147483648 ->
  exists z, to_int q = Some z /\ inject_Z z <= q /\ q < inject_Z z + 1.
Proof.
  intros H0 H1. unfold to_int. apply Qle_bool_iff in H0. rewrite H0.
  pose proof (Qfloor_le q) as Hf. pose proof (Qlt_floor q) as Hc.
  rewrite inject_Z_plus in Hc. change (inject_Z 1) with 1 in Hc.
  assert (Hz : (0 <= Qfloor q)%Z).
  { change 0%Z with (Qfloor 0). apply Qfloor_resp_le. apply Qle_bool_iff, H0. }
  assert (Hu : (Qfloor q < 2147483648)%Z).
  { rewrite Zlt_Qlt. lra. }
  exists (Qfloor q).
  replace (-2147483648 <=? Qfloor q)%Z with true by (symmetry; apply Z.leb_le; lia).
  replace (Qfloor q <=? 2147483647)%Z with true by (symmetry; apply Z.leb_le; lia).
  cbn [andb]. split; [reflexivity|]. split; assumption.
Qed.

Lemma forward_end last tr e x :
  forward last (tr ++ [(e, x)]) -> forward last tr /\ final last tr <= x.
Proof.
  revert last. induction tr as [|[e' now] tr IH]; intros last; cbn [app forward final].
  - intros [H _]. split; [exact I|exact H].
  - intros [H1 H2]. destruct (IH now H2) as [Hf Hx]. repeat split; assumption.
Qed.

Lemma find_shown (f : N -> Q) t l :
  In t l ->
  find (fun x : N * Q => N.eqb (fst x) t) (map (fun u => (u, f u)) l) = Some (t, f t).
Proof.
  induction l as [|u l IH]; [intros []|]. intros [->|H]; cbn [map find fst].
  - rewrite N.eqb_refl. reflexivity.
  - destruct (N.eqb_spec u t) as [->|_]; [reflexivity|apply IH, H].
Qed.

(** What the report does after a run whose timers are all stopped. *)
Lemma report_ok summary k st now :
  agrees m_wall st ->
  0 <= values st now exclusive1 -> 0 <= values st now exclusive2 ->
  values st now exclusive1 + values st now exclusive2 <= value st now WALLTIME ->
  value st now WALLTIME < inject_Z 2147483648 ->
  exists st' r, timer_report summary k now st = Some (st', r) /\
    (forall t, running (st' t) = false) /\
    (forall t, In t reported -> shown_for r t == value st now t) /\
    (let gap := values st now exclusive1 + (if summary then 0 else values st now exclusive2)
                + unaccounted r - value st now WALLTIME in
     0 <= gap /\ gap < (if summary then 1 else 2)) /\
    0 <= unaccounted r /\
    global_comm r == values st now [ADAPT_COMM; GHOSTPATCH_COMM; PARTITION_COMM;
                                    DIAGNOSTICS_COMM; CFL_COMM] /\
    global_comm r + local_comm r == value st now WALLTIME /\
    (let a := at_least_one (n_advance k) in
     grids_per_proc r = Z.quot (at_least_one (n_grids k)) a /\
     grids_local r = Z.quot (n_local_boundary k) a /\
     grids_remote r = Z.quot (n_remote_boundary k) a /\
     grids_interior r = (grids_per_proc r - grids_local r)%Z).
Proof.
  intros Ha H1 H2 H12 Hw.
  destruct (agrees_wall_stop m_wall st now eq_refl Ha) as (st' & Hd & Hoff).
  assert (Hval : forall t, value st' now t == value st now t)
    by (intros t; apply (event_value _ _ _ _ t Hd)).
  assert (Hvals : forall ts, total ts st' == values st now ts).
  { intros ts. rewrite <- (total_values st' now ts Hoff). apply (event_values _ _ _ _ ts Hd). }
  assert (Hcum : forall t, cumulative (st' t) == value st now t).
  { intros t. rewrite <- (Hval t). unfold value. rewrite Hoff. lra. }
  unfold timer_report. rewrite Hd, (existsb_all_off reported st' Hoff).
  assert (Hs1 : total [REGRID; ADVANCE; GHOSTFILL; ADAPT_COMM; ELLIPTIC_SOLVE;
                       GHOSTPATCH_COMM] st' == values st now exclusive1).
  { rewrite (Hvals _). unfold values, exclusive1. cbn [fold_right]. ring. }
  assert (Hs2 : total [INIT; OUTPUT; DIAGNOSTICS; PARTITION_COMM; DIAGNOSTICS_COMM;
                       CFL_COMM] st' == values st now exclusive2).
  { rewrite (Hvals _). reflexivity. }
  destruct (to_int_some (total [REGRID; ADVANCE; GHOSTFILL; ADAPT_COMM; ELLIPTIC_SOLVE;
                       GHOSTPATCH_COMM] st')) as (z1 & E1 & L1 & U1);
    [rewrite Hs1; exact H1|rewrite Hs1; lra|].
  destruct (to_int_some (total [INIT; OUTPUT; DIAGNOSTICS; PARTITION_COMM; DIAGNOSTICS_COMM;
                       CFL_COMM] st')) as (z2 & E2 & L2 & U2);
    [rewrite Hs2; exact H2|rewrite Hs2; lra|].
  rewrite E1, E2. rewrite Hs1 in L1, U1. rewrite Hs2 in L2, U2.
  eexists. eexists. split; [reflexivity|].
  cbn [unaccounted global_comm local_comm grids_per_proc grids_local grids_remote
       grids_interior].
  split; [exact Hoff|].
  split.
  { intros t Ht. unfold shown_for. cbn [shown].
    rewrite (find_shown (fun u => cumulative (st' u)) t reported Ht). apply Hcum. }
  pose proof (Hcum WALLTIME) as Hc.
  split.
  { cbv zeta. destruct summary; split; rewrite Hc; lra. }
  split.
  { destruct summary; rewrite Hc; lra. }
  split; [apply Hvals|].
  split; [rewrite Hc; lra|].
  cbv zeta. repeat split; reflexivity.
Qed.
