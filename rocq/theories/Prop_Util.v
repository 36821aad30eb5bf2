(** C36 pointer map, C37 timers, C38 integer power. *)
From Coq Require Import ZArith QArith List Lia Bool Permutation String.
From Verif Require Import Model_Util Spec_Util Proof_Util.
Import ListNotations.
Local Open Scope Z_scope.

Section C36.
  Variable K P D : Type.
  Variable K_dec : forall a b : K, {a = b} + {a <> b}.
  Notation run := (pm_run K P D K_dec).
  Notation last := (last_inserted K P D K_dec).

  (** Lookup returns the pointer of the last insertion under that key, NULL if there
      was none. *)
  Theorem C36_last_insertion_wins : forall h k,
    pm_get K P D K_dec (run h) k = option_map fst (last h k) /\
    (pm_get K P D K_dec (run h) k <> None <-> inserted K P D h k).
  Proof.
    intros h k. split; [apply get_ok|]. rewrite get_ok. split.
    - intros H. destruct (last h k) as [v|] eqn:E; [|now destruct H].
      exact (last_some_inserted K P D K_dec h k v E).
    - intros H. pose proof (inserted_last K P D K_dec h k H). destruct (last h k); [discriminate|contradiction].
  Qed.

  (** An insertion destroys exactly the value it replaces, if that has a destructor;
      a lookup destroys nothing. *)
  Theorem C36_destroyed_when_replaced : forall h k p d,
    pm_log K P D (run (h ++ [Insert K P D k p d])) =
    pm_log K P D (run h) ++
      match last h k with Some (p', Some d') => [(d', p')] | _ => [] end /\
    pm_log K P D (run (h ++ [Get K P D k])) = pm_log K P D (run h).
  Proof. intros. split; [apply insert_log|apply get_log]. Qed.

  (** After the map is destroyed, whatever order the table visits its entries in, the
      destructor calls made over its life are the inserted values that have a
      destructor, each exactly once. *)
  Theorem C36_each_destroyed_once : forall h order, (forall l, Permutation (order l) l) ->
    Permutation (pm_destroy K P D order (run h)) (to_destroy K P D h).
  Proof. apply destroy_ok. Qed.

  (** Iteration calls back once for every key ever inserted, with its current value,
      and the size is the number of such keys. *)
  Theorem C36_iterate_and_size : forall h order, (forall l, Permutation (order l) l) ->
    NoDup (map fst (pm_iterate K P D order (run h))) /\
    (forall k p, In (k, p) (pm_iterate K P D order (run h)) <->
                 option_map fst (last h k) = Some p) /\
    pm_size K P D order (run h) = Z.of_nat (List.length (pm_iterate K P D order (run h))).
  Proof. apply iterate_ok. Qed.
End C36.
Print Assumptions C36_last_insertion_wins.
Print Assumptions C36_destroyed_when_replaced.
Print Assumptions C36_each_destroyed_once.
Print Assumptions C36_iterate_and_size.

Definition hist36 : list (pm_op string Z nat) :=
  [Insert _ _ _ "a"%string 1 (Some 7%nat); Insert _ _ _ "b"%string 2 None;
   Insert _ _ _ "a"%string 3 (Some 8%nat); Get _ _ _ "a"%string].
Example C36_instance :
  last_inserted _ _ _ string_dec hist36 "a"%string = Some (3, Some 8%nat) /\
  pm_log _ _ _ (pm_run _ _ _ string_dec hist36) = [(7%nat, 1)] /\
  to_destroy _ _ _ hist36 = [(7%nat, 1); (8%nat, 3)] /\
  pm_size _ _ _ (fun l => l) (pm_run _ _ _ string_dec hist36) = 2.
Proof. vm_compute. repeat split. Qed.

(** Timers: from initialised timers, a history of start and stop calls runs to its end
    iff the calls on every single timer alternate, beginning with start, and aborts
    otherwise; each timer has then accumulated the lengths of its own completed
    intervals and nothing else. *)
Theorem C37_cumulative : forall h ts,
  timer_run (fun _ => timer_init) h = Some ts ->
  forall i, (cumulative (ts i) == total_length (intervals i None h))%Q.
Proof.
  intros h ts E i.
  pose proof (timer_run_ok h (fun _ => timer_init) (fun _ => None)) as H. rewrite E in H.
  destruct (H (fun _ => eq_refl) i) as [_ B]. rewrite B. cbn [timer_init cumulative]. ring.
Qed.
Print Assumptions C37_cumulative.

Theorem C37_aborts_unless_alternating : forall h,
  timer_run (fun _ => timer_init) h <> None <->
  forall i, alternates true (calls i h) = true.
Proof.
  intros h.
  pose proof (timer_run_ok h (fun _ => timer_init) (fun _ => None)) as H.
  specialize (H (fun _ => eq_refl)). destruct (timer_run _ h) as [ts|].
  - split; [intros _ i; exact (proj1 (H i))|discriminate].
  - split; [now intros []|]. intros A. destruct H as [i Hi]. specialize (A i). cbn in Hi. congruence.
Qed.
Print Assumptions C37_aborts_unless_alternating.

(** Starting a running timer or stopping a stopped one aborts. *)
Theorem C37_misuse_aborts : forall t now,
  (running t = true -> timer_start t now = None) /\
  (running t = false -> timer_stop t now = None) /\
  (forall t', timer_start t now = Some t' -> running t' = true) /\
  (forall t', timer_stop t now = Some t' -> running t' = false).
Proof.
  intros t now. unfold timer_start, timer_stop. destruct (running t); cbn [negb];
    repeat split; try discriminate; try reflexivity; intros t' E; injection E as <-; reflexivity.
Qed.
Print Assumptions C37_misuse_aborts.

Definition hist37 := [Start 0 1; Start 1 2; Stop 0 5; Start 0 7; Stop 1 9; Stop 0 8].
Example C37_instance :
  (forall i, alternates true (calls i hist37) = true) /\
  intervals 0 None hist37 = [(1, 5); (7, 8)]%Q /\
  (total_length (intervals 0 None hist37) == 5)%Q.
Proof.
  split; [|vm_compute; now split]. intros [|[|i]]; reflexivity.
Qed.

(** pow_int, exact characterisation of the result: for a positive exponent with
    [1 + log2 e] bits, it returns the power iff [b ^ (2 ^ (1 + log2 e))], the square
    that the last pass of the loop computes and never uses, is representable; otherwise
    the multiplication overflows. *)
Theorem C38_exact_result : forall b e, 0 < e < 2 ^ 31 ->
  (representable (b ^ (2 ^ (1 + Z.log2 e))) -> pow_int b e = Some (b ^ e)) /\
  (~ representable (b ^ (2 ^ (1 + Z.log2 e))) -> pow_int b e = None).
Proof. apply pow_int_exact. Qed.
Print Assumptions C38_exact_result.

Theorem C38_zero_exponent : forall b, pow_int b 0 = Some 1.
Proof. reflexivity. Qed.
Print Assumptions C38_zero_exponent.

(** The powers of two the code asks for (2^level): every exponent up to 15. *)
Theorem C38_powers_of_two : forall e, 0 <= e <= 15 -> pow_int 2 e = Some (2 ^ e).
Proof.
  intros e He. destruct (Z.eq_dec e 0) as [->|Hne]; [reflexivity|].
  apply pow_int_exact; [lia|]. fold (bits e).
  assert (Hb : bits e <= 4).
  { unfold bits. assert (Z.log2 e <= Z.log2 15) by (apply Z.log2_le_mono; lia). cbn in H. lia. }
  assert (H1 : 1 <= bits e) by (unfold bits; pose proof (Z.log2_nonneg e); lia).
  assert (2 ^ bits e <= 2 ^ 4) by (apply Z.pow_le_mono_r; lia).
  assert (2 ^ (2 ^ bits e) <= 2 ^ (2 ^ 4)) by (apply Z.pow_le_mono_r; lia).
  unfold representable. pose proof (Z.pow_pos_nonneg 2 (2 ^ bits e)).
  change (2 ^ (2 ^ 4)) with 65536 in *. lia.
Qed.
Print Assumptions C38_powers_of_two.

(** The English property fails: 2^16 is representable and the loop overflows. *)
Theorem C38_no_overflow_refuted :
  ~ (forall b e, 0 <= e -> representable (b ^ e) -> pow_int b e = Some (b ^ e)).
Proof.
  intros H. specialize (H 2 16 ltac:(lia)). assert (R : representable (2 ^ 16)).
  { unfold representable. lia. }
  specialize (H R). vm_compute in H. discriminate.
Qed.
Print Assumptions C38_no_overflow_refuted.

(** When signed arithmetic wraps around, the result is right whenever representable. *)
Theorem C38_wrapping_arithmetic : forall b e, 0 <= e < 2 ^ 31 -> representable (b ^ e) ->
  pow_int_wrap b e = b ^ e.
Proof. apply pow_int_wrap_ok. Qed.
Print Assumptions C38_wrapping_arithmetic.

Example C38_instance : pow_int 3 7 = Some 2187 /\ pow_int (-2) 5 = Some (-32) /\
  pow_int_wrap (-2) 31 = - 2 ^ 31 /\ pow_int 7 15 = None.
Proof. vm_compute. repeat split. Qed.
