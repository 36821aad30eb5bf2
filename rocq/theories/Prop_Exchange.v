(** C27: the ghost exchange. *)
From Coq Require Import ZArith List Bool Lia Arith.
From Verif Require Import Model_Exchange Spec_Exchange Proof_Exchange Proof_Exchange2.
Import ListNotations.
Open Scope Z_scope.

Section Claims.
  Variable V : Type.
  Variable lay : layout.
  Hypothesis LO : layout_ok lay.
  (** all processes execute the calls [prog], in any interleaving and computing in between *)
  Variable prog : list op.
  Variable sf : phase.
  Hypothesis PR : protocol Absent prog sf.
  Hypothesis LV : levels_ok lay prog.
  Variable d0 : nat -> nat -> bool -> V.

  Lemma reach : forall c, steps V lay (initial V prog d0) c -> inv V lay prog [] c.
  Proof.
    intros c H. apply (reach_inv V lay prog [] sf LO LV PR (or_introl eq_refl) d0). rewrite app_nil_r. exact H.
  Qed.

  (** Every end delivers the data the owners had at the matching begin. *)
  Theorem C27_delivery : forall c r k rem mn mx ti, steps V lay (initial V prog d0) c -> (r < size lay)%nat ->
    nth_error (ends V c r) k = Some rem -> nth_error (exchanges prog) k = Some (mn, mx, ti) ->
    delivered lay (begins V c) r k mn ti rem.
  Proof. intros c r k rem mn mx ti H. exact (proj2 (reach c H) r k rem mn mx ti). Qed.

  (** No call fails, and as long as some process has calls left one of them can go on. *)
  Theorem C27_progress : forall c, steps V lay (initial V prog d0) c ->
    (forall p, (p < size lay)%nat -> exec V lay p c <> Error) /\
    ((exists p, (p < size lay)%nat /\ todo V (procs V c p) <> []) -> exists p c', (p < size lay)%nat /\ exec V lay p c = Done c').
  Proof.
    intros c H. assert (IV := reach c H). split.
    - intros p P E. destruct (exec_cases V lay prog [] sf LO LV PR (or_introl eq_refl) c p IV P) as [(_ & _ & X)|[(_ & X & _)|[(X & _)|(c1 & X & _)]]]; congruence.
    - intros (p0 & P0 & T0).
      assert (M : forall n, exists p, (p < size lay)%nat /\ todo V (procs V c p) <> [] /\
                (exec V lay p c <> Blocked \/ (n <= length (todo V (procs V c p)))%nat)).
      { induction n as [|n IH]; [exists p0; split; [exact P0|split; [exact T0|right; lia]]|].
        destruct IH as (p & P & T & [X|X]); [exists p; auto|].
        destruct (exec_cases V lay prog [] sf LO LV PR (or_introl eq_refl) c p IV P) as [(E & _)|[(_ & E & _)|[(E & q & Q & L)|(c1 & E & _)]]].
        - contradiction.
        - now contradiction E.
        - exists q. split; [exact Q|]. split; [intros Z0; rewrite Z0 in L; cbn in L; lia|]. right. lia.
        - exists p. split; [exact P|]. split; [exact T|]. left. congruence. }
      destruct (M (S (length prog))) as (p & P & T & X).
      destruct (exec_cases V lay prog [] sf LO LV PR (or_introl eq_refl) c p IV P) as [(E & _)|[(_ & E & _)|[(E & _)|(c1 & E & _)]]].
      + contradiction.
      + now contradiction E.
      + exfalso. destruct X as [X|X]; [contradiction|].
        destruct (proj1 IV p P) as (done & t & s & A1 & A2 & _). rewrite A2, app_nil_r in X.
        assert (length prog = length done + length t)%nat by (rewrite A1; apply app_length). lia.
      + exists p, c1. split; [exact P|exact E].
  Qed.

  (** At the end of a program that deletes its exchange object nothing is left allocated, and each exchange was
      begun and ended once.  Freeing or using a released block is an error, which does not occur by C27_progress. *)
  Theorem C27_released : forall c p, steps V lay (initial V prog d0) c -> (p < size lay)%nat -> sf = Absent ->
    todo V (procs V c p) = [] ->
    (forall i, block V (hp V (procs V c p)) i = None) /\
    length (begins V c p) = length (exchanges prog) /\ length (ends V c p) = length (exchanges prog).
  Proof.
    intros c p H P SF T. destruct (proj1 (reach c H) p P) as (done & t & s & A1 & A2 & A3 & A4 & A5 & A6 & A7 & A8 & _).
    rewrite A2, app_nil_r in T. rewrite T, app_nil_r in A1. subst done.
    assert (s = Absent) by (rewrite <- SF; eapply protocol_det; eassumption). subst s. cbn in A7, A8.
    split; [exact A8|]. lia.
  Qed.

  (** A call out of order is rejected: begin, end or delete without an exchange object, end without begin,
      begin while an exchange is under way. *)
  Theorem C27_out_of_order : forall o rest c p, forbidden sf o -> steps V lay (initial V (prog ++ o :: rest) d0) c -> (p < size lay)%nat ->
    todo V (procs V c p) = o :: rest -> exec V lay p c = Error.
  Proof.
    intros o rest c p F H P T.
    assert (TB : o :: rest = [] \/ exists o' rest', o :: rest = o' :: rest' /\ forbidden sf o') by (right; exists o, rest; auto).
    assert (IV := reach_inv V lay prog (o :: rest) sf LO LV PR TB d0 c H).
    destruct (proj1 IV p P) as (done & t & s & A1 & A2 & A3 & A4 & A5 & A6 & A7 & A8 & _).
    assert (t = []).
    { rewrite T in A2. assert (L := f_equal (@length _) A2). rewrite app_length in L. destruct t; [reflexivity|]. cbn in L. lia. }
    subst t. rewrite app_nil_r in A1. subst done.
    assert (s = sf) by (eapply protocol_det; eassumption). subst s.
    eapply (bad_call V lay c p sf); [right; eexists; exact A8|exact F|exact T].
  Qed.
End Claims.
Print Assumptions C27_delivery.
Print Assumptions C27_progress.
Print Assumptions C27_released.
Print Assumptions C27_out_of_order.

(** Ghost patches more than one level below the exchanged range keep their content. *)
Lemma unpack_below : forall V mn mx ti gs mem rem rem', unpack V gs mem mn mx ti rem = Done rem' ->
  forall i g, nth_error gs i = Some g -> glevel g < mn - 1 -> nth_error rem' i = nth_error rem i.
Proof.
  intros V mn mx ti. induction gs as [|g0 gs IH]; intros mem rem rem' E i g Hi Hl; [destruct i; discriminate|].
  destruct mem as [|q mem]; [discriminate|]. destruct rem as [|[a b] rem]; [discriminate|]. cbn [unpack] in E.
  destruct (unpack V gs mem mn mx ti rem) as [| |r1] eqn:E1; try discriminate. cbn [bind] in E.
  destruct i as [|i].
  - cbn in Hi. assert (g = g0) by congruence. subst g0. destruct (Z.leb_spec (mn - 1) (glevel g)); [lia|].
    assert (X : (a, b) :: r1 = rem') by congruence. rewrite <- X. reflexivity.
  - match type of E with Done (?x :: _) = _ => assert (X : x :: r1 = rem') by congruence end. rewrite <- X. cbn [nth_error]. exact (IH mem rem r1 E1 i g Hi Hl).
Qed.
Theorem C27_untouched : forall V lay p (c c' : config V) mn mx ti l, todo V (procs V c p) = End mn mx ti :: l -> exec V lay p c = Done c' ->
  forall i g, nth_error (ghosts lay p) i = Some g -> glevel g < mn - 1 ->
    nth_error (remote V (procs V c' p)) i = nth_error (remote V (procs V c p)) i.
Proof.
  intros V lay p c c' mn mx ti l T E i g Hi Hl. unfold exec in E. rewrite T in E. unfold ghost_patches_end in E.
  destruct (ex V (procs V c p)) as [e|]; [|discriminate].
  destruct (ghost_exchange_end V lay p e (sent V c) (hp V (procs V c p))) as [| |[e' h']]; try discriminate. cbn [bind] in E.
  destruct (load V h' (gm_id e')) as [| |mem]; try discriminate. cbn [bind] in E.
  destruct (unpack V (ghosts lay p) mem mn mx ti (remote V (procs V c p))) as [| |rem] eqn:U; try discriminate. cbn [bind] in E.
  match type of E with Done ?x = _ => assert (X : x = c') by congruence end. rewrite <- X. cbn [procs]. rewrite set_same. cbn [remote].
  exact (unpack_below V mn mx ti _ _ _ _ U i g Hi Hl).
Qed.
Print Assumptions C27_untouched.

(** *** An example: two processes, levels 1 and 2 *)
Definition lay2 : layout := mkL 2 1 2
  (fun p => match p with O => [(1, true); (2, true); (2, false)] | _ => [(2, false); (2, true)] end)
  (fun p => match p with O => [mkG 1 0 2] | _ => [mkG 0 0 1; mkG 0 1 2] end).
Definition prog2 : list op := [Setup; Begin 1 2 false; End 1 2 false; Begin 2 2 true; End 2 2 true; Delete].
Definition d2 (v p np : nat) (ti : bool) : Z := Z.of_nat v * 1000 + Z.of_nat p * 100 + Z.of_nat np * 10 + (if ti then 1 else 0).

(** scheduler: process [p] makes its next call, or gets new data *)
Inductive act := Call (p : nat) | Compute (p v : nat).
Fixpoint schedule (lay : layout) (l : list act) (c : config Z) : result (config Z) :=
  match l with
  | [] => Done c
  | Call p :: l => bind (exec Z lay p c) (schedule lay l)
  | Compute p v :: l =>
      let s := procs Z c p in
      schedule lay l (mkC Z (set (procs Z c) p (mkP Z (todo Z s) (hp Z s) (ex Z s) (d2 v p) (remote Z s) (count Z s))) (sent Z c) (begins Z c) (ends Z c))
  end.
Definition who (a : act) : nat := match a with Call p => p | Compute p _ => p end.
Lemma schedule_steps : forall lay l c0 c c', steps Z lay c0 c -> (forall a, In a l -> (who a < size lay)%nat) -> schedule lay l c = Done c' -> steps Z lay c0 c'.
Proof.
  intros lay. induction l as [|a l IH]; intros c0 c c' S W H; [cbn in H; congruence|]. destruct a as [p|p v]; cbn [schedule] in H.
  - destruct (exec Z lay p c) as [| |c1] eqn:E; try discriminate. apply (IH c0 c1 c'); [|intros a Ha; apply W; now right|exact H].
    eapply more; [exact S|]. eapply s_call; [exact (W (Call p) (or_introl eq_refl))|exact E].
  - eapply IH; [|intros a Ha; apply W; now right|exact H]. eapply more; [exact S|]. apply s_compute. exact (W (Compute p v) (or_introl eq_refl)).
Qed.

(** process 0 begins twice before process 1 ends its first exchange, with new data in between *)
Definition sched2 : list act :=
  [Call 0; Call 1; Call 0; Compute 0 5; Call 1; Call 0; Call 0; Compute 0 7; Call 1; Compute 1 9; Call 1; Call 1; Call 0; Call 0; Call 1].
Example C27_instance :
  layout_ok lay2 /\ protocol Absent prog2 Absent /\ levels_ok lay2 prog2 /\
  bind (schedule lay2 sched2 (initial Z prog2 (d2 0))) (fun c =>
    Done (ends Z c 0, ends Z c 1, todo Z (procs Z c 0), todo Z (procs Z c 1))) =
  Done ([[(Some 110, None)]; [(Some 9110, None)]],
        [[(Some 0, None); (Some 10, None)]; [(Some 0, Some 5001); (Some 5010, None)]], [], []).
Proof.
  split; [|split; [|split]].
  - intros p g P H. destruct p as [|[|p]]; [| |cbn in P; lia]; cbn in H.
    + destruct H as [<-|H]; [|contradiction]. split; [cbn; lia|]. exists 1%nat. reflexivity.
    + destruct H as [<-|[<-|H]]; [| |contradiction]; (split; [cbn; lia|]); [exists 0%nat|exists 1%nat]; reflexivity.
  - repeat (econstructor; [reflexivity|]). constructor.
  - intros mn mx ti p x H P Hx. cbn in H. assert (E : mx = 2) by (destruct H as [H|[H|H]]; [congruence|congruence|contradiction]). rewrite E.
    destruct p as [|[|p]]; [| |cbn in P; lia]; cbn in Hx.
    + destruct Hx as [<-|[<-|Hx]]; [| |contradiction]; cbn; lia.
    + destruct Hx as [<-|Hx]; [|contradiction]; cbn; lia.
  - vm_compute. reflexivity.
Qed.

(** Outside the claim: an exchange of levels mn..mx without time interpolation also rewrites the ghost patches of
    level mn - 1, from data of an earlier exchange: here the plain ghost patch of level 1 receives the
    time-interpolated data of the exchange before. *)
Definition prog3 : list op := [Setup; Begin 1 2 false; End 1 2 false; Begin 2 2 true; End 2 2 true; Begin 2 2 false; End 2 2 false; Delete].
Definition sched3 : list act := flat_map (fun _ => [Call 0; Call 1]) (seq 0 7).
Theorem C27_below_range_overwritten : exists c, steps Z lay2 (initial Z prog3 (d2 0)) c /\
  nth_error (exchanges prog3) 2 = Some (2, 2, false) /\ nth_error (ghosts lay2 1) 0 = Some (mkG 0 0 1) /\
  (exists rem, nth_error (ends Z c 1) 1 = Some rem /\ nth_error rem 0 = Some (Some (d2 0 0 0 false), Some (d2 0 0 0 true))) /\
  (exists rem, nth_error (ends Z c 1) 2 = Some rem /\ nth_error rem 0 = Some (Some (d2 0 0 0 true), Some (d2 0 0 0 true))).
Proof.
  destruct (schedule lay2 sched3 (initial Z prog3 (d2 0))) as [| |c] eqn:E.
  - exfalso. assert (X : bind (schedule lay2 sched3 (initial Z prog3 (d2 0))) (fun _ => Done true) = Done true) by (vm_compute; reflexivity). rewrite E in X. discriminate.
  - exfalso. assert (X : bind (schedule lay2 sched3 (initial Z prog3 (d2 0))) (fun _ => Done true) = Done true) by (vm_compute; reflexivity). rewrite E in X. discriminate.
  - exists c. split; [apply (schedule_steps lay2 sched3 _ (initial Z prog3 (d2 0)) c); [constructor| |exact E]|].
    + intros a Ha. assert (W : forallb (fun a => Nat.ltb (who a) 2) sched3 = true) by (vm_compute; reflexivity).
      rewrite forallb_forall in W. apply Nat.ltb_lt. exact (W a Ha).
    + split; [reflexivity|]. split; [reflexivity|].
      assert (X : bind (schedule lay2 sched3 (initial Z prog3 (d2 0))) (fun c => Done (ends Z c 1)) =
        Done [[(Some 0, None); (Some 10, None)]; [(Some 0, Some 1); (Some 10, None)]; [(Some 1, Some 1); (Some 10, None)]]) by (vm_compute; reflexivity).
      rewrite E in X. cbn [bind] in X.
      match type of X with Done _ = Done ?y => assert (Y : ends Z c 1 = y) by congruence end. rewrite Y.
      split; eexists; (split; [reflexivity|reflexivity]).
Qed.
Print Assumptions C27_below_range_overwritten.

(** Outside the claim: deleting the exchange object while an exchange is under way is not rejected. *)
Theorem C27_delete_inside_accepted : exists c, schedule lay2 [Call 0; Call 1; Call 0; Call 1; Call 0; Call 1] (initial Z [Setup; Begin 1 2 false; Delete] (d2 0)) = Done c /\
  todo Z (procs Z c 0) = [] /\ ends Z c 0 = [].
Proof.
  set (l := [Call 0; Call 1; Call 0; Call 1; Call 0; Call 1]).
  assert (X : bind (schedule lay2 l (initial Z [Setup; Begin 1 2 false; Delete] (d2 0))) (fun c => Done (todo Z (procs Z c 0), ends Z c 0)) = Done ([], [])) by (vm_compute; reflexivity).
  destruct (schedule lay2 l (initial Z [Setup; Begin 1 2 false; Delete] (d2 0))) as [| |c]; try discriminate. exists c. cbn [bind] in X.
  split; [reflexivity|]. split; congruence.
Qed.
Print Assumptions C27_delete_inside_accepted.
