(** C39: gauge samples; C40: gauge slots. *)
From Coq Require Import ZArith QArith List Bool Lia Lqa Arith.
From Verif Require Import Base_Float Model_Search Model_Brick Model_Gauge Spec_Brick Spec_Gauge Spec_Search Proof_Search Proof_Search2 Proof_Gauge Proof_Gauge2 Prop_Brick.
Import ListNotations.
Open Scope Z_scope.

(** ** C40 *)

(** gauge [g] lies in block [b] *)
Definition in_block V (normalize : Z -> Q * Q -> Q * Q) (box : Z -> option ((Q * Q) * (Q * Q))) (g : gauge V) (b : nat) : Prop :=
  exists c, box (Z.of_nat b) = Some c /\ in_closed_box (normalize (Z.of_nat b) (xc V g, yc V g)) c.

(** If every gauge lies in exactly one block, initialisation succeeds: each gauge gets the number of its block
    and a slot of its own in the range of that block, with the coordinates relative to the block. *)
Theorem C40_slots : forall V rnd mi mj normalize box len nb (gs0 : list (gauge V)) cs0 offs0, 0 <= len ->
  length cs0 = length gs0 -> length offs0 = S nb -> (forall b, (b < nb)%nat -> exists c, box (Z.of_nat b) = Some c) ->
  (forall i g, nth_error gs0 i = Some g -> exists b, (b < nb)%nat /\ in_block V normalize box g b /\ forall b', (b' < nb)%nat -> in_block V normalize box g b' -> b' = b) ->
  exists gs cs offs, gauge_initialize V rnd mi mj normalize box len nb gs0 cs0 offs0 = Some (gs, cs, offs) /\
    length gs = length gs0 /\ length cs = length gs0 /\ offsets_ok nb offs (length gs0) /\
    (forall i g0, nth_error gs0 i = Some g0 -> exists g b k c p, nth_error gs i = Some g /\ (b < nb)%nat /\
       in_block V normalize box g0 b /\ blockno V g = Z.of_nat b /\
       location V g = Z.of_nat k /\ nth b offs 0 <= location V g < nth (S b) offs 0 /\
       box (Z.of_nat b) = Some c /\ normalize (Z.of_nat b) (xc V g0, yc V g0) = p /\
       nth_error cs k = Some (rnd (inject_Z mi * rnd (fst p - fst (fst c))), rnd (inject_Z mj * rnd (snd p - snd (fst c))))%Q /\
       started V len (length gs0) g /\ patchno V g = -1 /\
       num V g = num V g0 /\ t1 V g = t1 V g0 /\ t2 V g = t2 V g0 /\ min_time_increment V g = min_time_increment V g0 /\ xc V g = xc V g0 /\ yc V g = yc V g0) /\
    (forall i j g g', nth_error gs i = Some g -> nth_error gs j = Some g' -> location V g = location V g' -> i = j).
Proof.
  intros V rnd mi mj normalize box len nb gs0 cs0 offs0 LEN LC LO BX ONE.
  assert (GZ : forall i g, nth_error gs0 i = Some g -> gz V gs0 i = g) by (intros i g E; unfold gz; apply nth_error_nth; exact E).
  destruct (init_ok V rnd mi mj normalize box len nb gs0 LEN BX) with (cs0 := cs0) (offs0 := offs0) as (gs & cs & offs & E & L1 & L2 & OO & H & INJ); [|exact LC|exact LO|].
  { intros i HI. destruct (nth_error gs0 i) as [g|] eqn:EG; [|apply nth_error_None in EG; lia]. destruct (ONE i g EG) as (b & HB & HL & U). unfold lies. rewrite (GZ i g EG). exists b. auto. }
  exists gs, cs, offs. split; [exact E|]. split; [exact L1|]. split; [exact L2|]. split; [exact OO|]. split; [|exact INJ].
  intros i g0 EG. destruct (H i (nth_some_lt _ _ _ _ EG)) as (b & k & HB & HK & HL & EI & RG & EC). destruct (BX b HB) as (c & EB).
  eexists _, b, k, c, _. split; [exact EI|]. unfold ginit. cbn [set_place blockno location patchno num t1 t2 min_time_increment xc yc]. rewrite (GZ i g0 EG).
  split; [exact HB|]. split; [unfold lies in HL; rewrite (GZ i g0 EG) in HL; exact HL|]. split; [reflexivity|]. split; [reflexivity|]. split; [exact RG|]. split; [exact EB|]. split; [reflexivity|].
  split. { unfold coords, corners, norm in EC. rewrite EB, (GZ i g0 EG) in EC. exact EC. }
  split. { split; [reflexivity|]. split; [reflexivity|]. cbn [set_place buffer location]. split; [apply repeat_length|]. lia. }
  auto 10.
Qed.
Print Assumptions C40_slots.

(** In a brick (exact arithmetic) a gauge inside the domain that is not on an inner edge lies in exactly one
    block. *)
Definition off_edges (m : Z) (x : Q) : Prop := forall k, 0 < k < m -> ~ (x * inject_Z m == inject_Z k)%Q.
Theorem C40_brick : forall V mi mj vertices ax bx ay by_ (g : gauge V), brick_vertices mi mj vertices -> (ax < bx)%Q -> (ay < by_)%Q ->
  (ax <= xc V g <= bx)%Q -> (ay <= yc V g <= by_)%Q ->
  off_edges mi ((xc V g - ax) / (bx - ax))%Q -> off_edges mj ((yc V g - ay) / (by_ - ay))%Q ->
  let box := gauge_box exact true (Some (map_new_brick vertices mi mj)) in
  (forall b, (b < length vertices)%nat -> exists c, box (Z.of_nat b) = Some c) /\
  exists b, (b < length vertices)%nat /\ in_block V (geoclaw_normalize exact ax bx ay by_) box g b /\
    forall b', (b' < length vertices)%nat -> in_block V (geoclaw_normalize exact ax bx ay by_) box g b' -> b' = b.
Proof.
  intros V mi mj vs ax bx ay by_ g BV AX AY X Y OX OY box. pose proof BV as (M1 & M2 & _).
  set (x := ((xc V g - ax) / (bx - ax))%Q) in *. set (y := ((yc V g - ay) / (by_ - ay))%Q) in *.
  assert (UX : unit x). { unfold x. split; [apply Qle_shift_div_l; lra|apply Qle_shift_div_r; lra]. }
  assert (UY : unit y). { unfold y. split; [apply Qle_shift_div_l; lra|apply Qle_shift_div_r; lra]. }
  assert (BX : forall b i j, position vs b i j -> box b = Some ((inject_Z i + 0) / inject_Z mi, (inject_Z j + 0) / inject_Z mj, ((inject_Z i + 1) / inject_Z mi, (inject_Z j + 1) / inject_Z mj))%Q).
  { intros b i j P. unfold box, gauge_box, c2m_nomap_brick, brick2c. rewrite !(c2m mi mj vs BV exact b i j _ _ P). reflexivity. }
  assert (IB : forall b i j, position vs (Z.of_nat b) i j -> (in_block V (geoclaw_normalize exact ax bx ay by_) box g b <->
      ((inject_Z i <= x * inject_Z mi <= inject_Z i + 1)%Q /\ (inject_Z j <= y * inject_Z mj <= inject_Z j + 1)%Q))).
  { intros b i j P. unfold in_block. rewrite (BX _ i j P). pose proof (zq mi ltac:(lia)) as Z1. pose proof (zq mj ltac:(lia)) as Z2.
    assert (D1 : forall a m z, (0 < inject_Z m)%Q -> (a / inject_Z m <= z <-> a <= z * inject_Z m)%Q).
    { intros a m z Hm. split; intros H; [|apply Qle_shift_div_r; assumption]. assert (E : (a == a / inject_Z m * inject_Z m)%Q) by (field; lra). rewrite E. apply Qmult_le_compat_r; [exact H|lra]. }
    assert (D2 : forall a m z, (0 < inject_Z m)%Q -> (z <= a / inject_Z m <-> z * inject_Z m <= a)%Q).
    { intros a m z Hm. split; intros H; [|apply Qle_shift_div_l; assumption]. assert (E : (a == a / inject_Z m * inject_Z m)%Q) by (field; lra). rewrite E. apply Qmult_le_compat_r; [exact H|lra]. }
    assert (EQV : in_closed_box (geoclaw_normalize exact ax bx ay by_ (Z.of_nat b) (xc V g, yc V g)) ((inject_Z i + 0) / inject_Z mi, (inject_Z j + 0) / inject_Z mj, ((inject_Z i + 1) / inject_Z mi, (inject_Z j + 1) / inject_Z mj))%Q <->
      ((inject_Z i <= x * inject_Z mi <= inject_Z i + 1)%Q /\ (inject_Z j <= y * inject_Z mj <= inject_Z j + 1)%Q)).
    { unfold in_closed_box, geoclaw_normalize, exact. cbn [fst snd]. fold x y. rewrite !D1, !D2 by assumption. split; intros ((A & B) & (C & D)); repeat split; lra. }
    split; [intros (c & [= <-] & H); apply EQV; exact H|]. intros H. eexists. split; [reflexivity|]. apply EQV. exact H. }
  split.
  { intros b HB. destruct (pos_of mi mj vs BV (Z.of_nat b) ltac:(lia)) as (i & j & P). rewrite (BX _ i j P). eauto. }
  destruct (column mi x ltac:(lia) UX) as (i & u & HI & UU & EI). destruct (column mj y ltac:(lia) UY) as (j & v & HJ & UV & EJ).
  destruct (pos_ex mi mj vs BV i j HI HJ) as (b & P). assert (HB : (Z.to_nat b < length vs)%nat) by (destruct P as (_ & P); apply nth_error_Some; congruence).
  assert (P' : position vs (Z.of_nat (Z.to_nat b)) i j) by (rewrite Z2Nat.id; [exact P|apply P]).
  exists (Z.to_nat b). split; [exact HB|]. unfold unit in UU, UV. split; [apply (IB _ i j P'); lra|].
  intros b' HB' H'. destruct (pos_of mi mj vs BV (Z.of_nat b') ltac:(lia)) as (i' & j' & P2). apply (IB _ i' j' P2) in H'.
  pose proof (proj1 (IB _ i j P')) as HH. destruct (pos_range mi mj vs BV _ _ _ P2) as (HI' & HJ').
  assert (U : forall m z k u k', off_edges m z -> 0 <= k < m -> (0 <= u <= 1)%Q -> (inject_Z k + u == z * inject_Z m)%Q -> 0 <= k' < m -> (inject_Z k' <= z * inject_Z m <= inject_Z k' + 1)%Q -> k' = k).
  { intros m z k w k' OE HK HW EK HK' (L1 & L2). destruct (Z.lt_trichotomy k k') as [LT|[EQ|GT]]; [|symmetry; exact EQ|].
    - exfalso. apply (OE k'); [lia|]. assert (inject_Z (k + 1) <= inject_Z k')%Q by (rewrite <- Zle_Qle; lia). rewrite inject_Z_plus in H. change (inject_Z 1) with 1%Q in H. lra.
    - exfalso. apply (OE k); [lia|]. assert (inject_Z (k' + 1) <= inject_Z k)%Q by (rewrite <- Zle_Qle; lia). rewrite inject_Z_plus in H. change (inject_Z 1) with 1%Q in H. lra. }
  destruct H' as (H1 & H2). assert (i' = i) by (apply (U mi x i u i'); assumption). assert (j' = j) by (apply (U mj y j v j'); assumption). subst i' j'.
  pose proof (pos_inj mi mj vs BV _ _ i j P2 P'). lia.
Qed.
Print Assumptions C40_brick.

Definition new_gauge (id : Z) (x y a b inc : Q) : gauge Z := mkGauge Z id x y a b inc 0 0 0 0 None [] 0.

(** A gauge on the edge between two blocks is counted in both: the array of coordinates overflows. *)
Theorem C40_shared_edge_refuted :
  let gs := [new_gauge 7 (1 # 2) (1 # 4) 0 1 0] in
  brick_vertices 2 3 example_vertices /\
  gauge_initialize Z exact 2 3 (geoclaw_normalize exact 0 1 0 1) (gauge_box exact true (Some (map_new_brick example_vertices 2 3))) 1 6 gs [(0, 0)]%Q (repeat 0 7) = None.
Proof. split; [exact (proj1 C48_instance)|vm_compute; reflexivity]. Qed.
Print Assumptions C40_shared_edge_refuted.

(** In a domain of several blocks that is no brick (such as the cubed sphere) every gauge of the unit square is
    counted in every block. *)
Theorem C40_no_brick_refuted :
  gauge_initialize Z exact 1 1 (geoclaw_normalize exact 0 1 0 1) (gauge_box exact false None) 1 6 [new_gauge 7 (1 # 3) (1 # 4) 0 1 0] [(0, 0)]%Q (repeat 0 7) = None.
Proof. vm_compute. reflexivity. Qed.
Print Assumptions C40_no_brick_refuted.

(** A gauge outside the domain gets no slot, and the next search for the gauges fails on every process,
    whatever it finds. *)
Theorem C40_outside_refuted : exists gs cs offs,
  gauge_initialize Z exact 1 1 (geoclaw_normalize exact 0 1 0 1) (gauge_box exact false None) 1 1 [new_gauge 7 2 (1 # 4) 0 1 0] [(0, 0)]%Q [0; 0] = Some (gs, cs, offs) /\
  forall g results, In g gs -> locate_gauge Z 1 results g = None.
Proof. do 3 eexists. split; [vm_compute; reflexivity|]. intros g r [<-|[]]. reflexivity. Qed.
Print Assumptions C40_outside_refuted.

Example C40_instance : exists gs cs offs,
  gauge_initialize Z exact 2 3 (geoclaw_normalize exact 0 1 0 1) (gauge_box exact true (Some (map_new_brick example_vertices 2 3))) 2 6
    [new_gauge 7 (3 # 4) (1 # 4) 0 1 0; new_gauge 8 (1 # 4) (3 # 4) 0 1 0; new_gauge 9 (7 # 8) (1 # 8) 0 1 0] (repeat (0, 0)%Q 3) (repeat 5 7) = Some (gs, cs, offs) /\
  map (blockno Z) gs = [1; 4; 1] /\ map (location Z) gs = [0; 2; 1] /\ offs = [0; 0; 2; 2; 2; 3; 3] /\
  forall g, In g gs -> off_edges 2 ((xc Z g - 0) / (1 - 0))%Q.
Proof.
  do 3 eexists. split; [vm_compute; reflexivity|]. split; [reflexivity|]. split; [reflexivity|]. split; [reflexivity|].
  intros g [<-|[<-|[<-|[]]]] k K; assert (k = 1) by lia; subst k; cbn; intros H; vm_compute in H; discriminate.
Qed.

(** ** C39 *)

(** Every gauge file ends up with exactly one line for each sampling time, in this order, taken by the process
    that owned the gauge at that time; no assertion fails and no buffer overflows. *)
Theorem C39_samples : forall V len n P (gs : nat -> gauge V), 1 <= len -> (forall i, (i < n)%nat -> started V len n (gs i)) ->
  (forall i j, (i < n)%nat -> (j < n)%nat -> num V (gs i) = num V (gs j) -> i = j) ->
  forall calls w, history V (map fst calls) -> Forall (fun c => order_ok P n (snd c) /\ results_ok V P n (fst c)) calls ->
  (forall p i, (p < P)%nat -> (i < n)%nat -> gauges V w p i = gs i) ->
  exists w', run_calls V len (Z.of_nat n) calls w = Some w' /\
    forall i, (i < n)%nat -> files V w' (num V (gs i)) = files V w (num V (gs i)) ++
      expected V P i (location V (gs i)) (t1 V (gs i)) (t2 V (gs i)) (min_time_increment V (gs i)) None (t1 V (gs i)) (map fst calls).
Proof. intros V len n P gs LEN ST IDS calls w HI F W. exact (run_ok V len n P gs LEN ST IDS calls w HI F W). Qed.
Print Assumptions C39_samples.

(** every search finds the gauge on some process *)
Definition always_found V (P : nat) (loc : Z) (cs : list (call V)) : Prop :=
  forall r, In (Locate V r) cs -> owner_of P r loc <> None.
Lemma expected_times V P i loc a b inc : forall cs owner last, (owner <> None \/ exists r cs', cs = Locate V r :: cs') -> always_found V P loc cs ->
  map fst (expected V P i loc a b inc owner last cs) = sample_times a b inc last (update_times V cs).
Proof.
  induction cs as [|c cs IH]; intros owner last O AF; [reflexivity|].
  assert (AF' : always_found V P loc cs) by (intros r H; apply AF; now right).
  destruct c as [t v|r|]; cbn [expected update_times sample_times].
  - assert (NO : owner <> None) by (destruct O as [O|(r & cs' & O)]; [exact O|discriminate]). destruct (due _ _ _ _ _); [|apply IH; auto].
    destruct owner as [p|]; [|contradiction]. cbn [map fst app]. f_equal. apply IH; auto.
  - apply IH; [left; apply AF; now left|exact AF'].
  - assert (NO : owner <> None) by (destruct O as [O|(r & cs' & O)]; [exact O|discriminate]). apply IH; auto.
Qed.
(** The times in the file depend on the update times and the gauge only, not on the partition, the buffer length
    or the order of execution. *)
Theorem C39_times : forall V P i loc t1 t2 inc cs, history V cs -> always_found V P loc cs ->
  map fst (expected V P i loc t1 t2 inc None t1 cs) = sample_times t1 t2 inc t1 (update_times V cs).
Proof. intros V P i loc a b inc cs (r & mid & -> & _) AF. apply expected_times; [right; eauto|exact AF]. Qed.
Print Assumptions C39_times.

(** the sampling times lie in [t1,t2] and are spaced by the increment; any other update time outside [t1,t2] or
    closer than the increment to the preceding sample (or the start) *)
Fixpoint spaced (inc last : Q) (ts : list Q) : Prop := match ts with [] => True | t :: ts => (last + inc <= t)%Q /\ spaced inc t ts end.
(** the last sampling time before an update *)
Definition last_of (t0 : Q) (ts : list Q) : Q := last ts t0.
Theorem C39_spacing : forall t1 t2 inc last ts,
  (forall t, In t (sample_times t1 t2 inc last ts) -> In t ts /\ (t1 <= t <= t2)%Q) /\ spaced inc last (sample_times t1 t2 inc last ts) /\
  (forall before t after, ts = before ++ t :: after ->
     sample_times t1 t2 inc last ts = sample_times t1 t2 inc last before ++
       let prev := last_of last (sample_times t1 t2 inc last before) in
       (if due t1 t2 inc prev t then t :: sample_times t1 t2 inc t after else sample_times t1 t2 inc prev after)).
Proof.
  intros a b inc last ts. split; [|split].
  - revert last. induction ts as [|t ts IH]; intros last x H; [contradiction|]. cbn [sample_times] in H. destruct (due a b inc last t) eqn:D.
    + destruct H as [<-|H]; [|destruct (IH t x H); split; [now right|assumption]]. split; [now left|]. unfold due in D. rewrite !andb_true_iff, !Qle_bool_iff in D. tauto.
    + destruct (IH last x H). split; [now right|assumption].
  - revert last. induction ts as [|t ts IH]; intros last; [exact Logic.I|]. cbn [sample_times]. destruct (due a b inc last t) eqn:D; [|apply IH].
    split; [|apply IH]. unfold due in D. rewrite !andb_true_iff, !Qle_bool_iff in D. lra.
  - intros before. revert last ts. induction before as [|u before IH]; intros last ts t after ->.
    + cbn [app sample_times last_of]. unfold last_of. cbn. destruct (due a b inc last t); reflexivity.
    + cbn [app sample_times]. destruct (due a b inc last u).
      * rewrite (IH u _ t after eq_refl). cbn [app]. f_equal. f_equal. unfold last_of.
        assert (LE : forall (l : list Q) u d, List.last (u :: l) d = List.last l u). {
          assert (D : forall (l : list Q) x d d', List.last (x :: l) d = List.last (x :: l) d') by (induction l as [|z l IHl]; intros x d d'; [reflexivity|]; exact (IHl z d d')).
          intros l x d. destruct l as [|z l]; [reflexivity|]. exact (D l z d x). }
        rewrite LE. reflexivity.
      * apply (IH last _ t after eq_refl).
Qed.
Print Assumptions C39_spacing.

(** With a buffer length of 0, which the options accept, the first sample is stored outside the buffer. *)
Theorem C39_zero_buffer_refuted : forall V g t v, buffer V g = [] -> is_local V g = Some true ->
  (t1 V g <= t)%Q -> (t <= t2 V g)%Q -> (min_time_increment V g <= t - last_time V g)%Q -> gauge_update V 0 t v g = None.
Proof.
  intros V g t v EB EL H1 H2 H3. unfold gauge_update. apply Qle_bool_iff in H1, H2, H3. rewrite H1, H2, H3. cbn [andb set_last is_local]. rewrite EL. cbn [bind].
  unfold update_gauge. cbn [set_last buffer next]. rewrite EB. unfold zput. destruct (next V g <? 0); [reflexivity|]. destruct (Z.to_nat (next V g)); reflexivity.
Qed.
Print Assumptions C39_zero_buffer_refuted.

(** Two processes, one gauge that moves from process 0 to process 1 with a sample in the buffer. *)
Definition example_gauge : gauge Z := mkGauge Z 7 0 0 0 10 1 0 0 (-1) 0 None [None; None] 0.
Definition at_process (q : nat) : call Z := Locate Z (fun p => if Nat.eqb p q then [3] else [-1]).
Definition sampling (t : Q) : call Z := Update Z t (fun p _ => Z.of_nat p).
Definition example_calls : list (call Z * list (nat * nat)) :=
  map (fun c => (c, [(1, 0); (0, 0)]%nat)) [at_process 0; sampling 1; sampling 2; sampling (5 # 2); sampling 3; at_process 1; sampling 4; at_process 1; Finalize Z].
Example C39_instance : started Z 2 1 example_gauge /\ history Z (map fst example_calls) /\ Forall (fun c => order_ok 2 1 (snd c) /\ results_ok Z 2 1 (fst c)) example_calls /\
  always_found Z 2 0 (map fst example_calls) /\
  exists w', run_calls Z 2 1 example_calls (mkW Z (fun _ _ => example_gauge) (fun _ => [])) = Some w' /\ files Z w' 7 = [(1%Q, 0); (2%Q, 0); (3%Q, 0); (4%Q, 1)].
Proof.
  split; [split; [reflexivity|]; split; [reflexivity|]; split; [reflexivity|cbn; lia]|]. split.
  { exists (fun p => if Nat.eqb p 0 then [3] else [-1]), [sampling 1; sampling 2; sampling (5 # 2); sampling 3; at_process 1; sampling 4; at_process 1]. split; [reflexivity|].
    repeat constructor. }
  assert (OK : order_ok 2 1 [(1, 0); (0, 0)]%nat).
  { split; [repeat constructor; cbn; intuition discriminate|]. intros p i. cbn. split; [intros [[= <- <-]|[[= <- <-]|[]]]; lia|]. intros (HP & HI). assert (i = O) by lia. subst i.
    assert (p = 0 \/ p = 1)%nat as [-> | ->] by lia; auto. }
  assert (AT : forall q, results_ok Z 2 1 (at_process q)).
  { intros q p HP. split; [destruct (Nat.eqb p q); reflexivity|]. intros p' loc HP' HL F1 F2. assert (loc = 0) by lia. subst loc. unfold finds in F1, F2. cbn in F1, F2.
    destruct (Nat.eqb p q) eqn:E1; [|discriminate]. destruct (Nat.eqb p' q) eqn:E2; [|discriminate]. apply Nat.eqb_eq in E1, E2. congruence. }
  split.
  { apply Forall_forall. intros c IN. unfold example_calls in IN. apply in_map_iff in IN. destruct IN as (x & <- & IN). split; [exact OK|]. cbn [fst].
    repeat (destruct IN as [<-|IN]; [first [apply AT|exact Logic.I]|]). contradiction. }
  split. { intros r H. cbn in H. repeat (destruct H as [H|H]; [try discriminate; injection H as <-; vm_compute; discriminate|]). contradiction. }
  assert (E : option_map (fun w => files Z w 7) (run_calls Z 2 1 example_calls (mkW Z (fun _ _ => example_gauge) (fun _ => []))) = Some [(1%Q, 0); (2%Q, 0); (3%Q, 0); (4%Q, 1)]) by (vm_compute; reflexivity).
  destruct (run_calls _ _ _ _ _) as [w'|]; [|discriminate]. exists w'. split; [reflexivity|]. cbn [option_map] in E. congruence.
Qed.
