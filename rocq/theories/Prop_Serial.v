(** C29: serialized sections. *)
From Coq Require Import List Arith Lia Bool.
From Verif Require Import Model_Serial Spec_Serial Proof_Serial.
Import ListNotations.

(** At most one process is inside, on every schedule, if the section is used once or with a
    collective operation between two uses. *)
Theorem C29_exclusion : forall rounds barrier size c, barrier = true \/ rounds <= 1 ->
  steps size (initial rounds barrier size) c ->
  forall p q, p < size -> q < size -> inside c p -> inside c q -> p = q.
Proof.
  intros rounds barrier size c HO HS p q Hp Hq Ip Iq. pose proof (inv_steps rounds barrier size c HS) as HI.
  destruct (lt_eq_lt_dec p q) as [[H|H]|H]; [|exact H|].
  - exfalso. exact (exclusion rounds barrier size c HI HO p q H Hq Ip Iq).
  - exfalso. exact (exclusion rounds barrier size c HI HO q p H Hp Iq Ip).
Qed.
Print Assumptions C29_exclusion.

(** Processes pass in the order of their ranks: the j-th time a process enters, all processes
    of lower rank have left the section j times. *)
Theorem C29_order : forall rounds barrier size c, steps size (initial rounds barrier size) c ->
  forall p q, p < q -> q < size -> entered rounds c q <= left rounds c p.
Proof.
  intros rounds barrier size c HS. exact (order rounds barrier size c (inv_steps rounds barrier size c HS)).
Qed.
Print Assumptions C29_order.

(** No deadlock, even if no message is ever buffered; every schedule ends. *)
Theorem C29_progress : forall rounds barrier size c, steps size (initial rounds barrier size) c ->
  finished size c \/ exists c', step_sync size c c'.
Proof.
  intros rounds barrier size c HS. exact (progress rounds barrier size c (inv_steps rounds barrier size c HS)).
Qed.
Print Assumptions C29_progress.
Theorem C29_terminates : forall size c c', step size c c' -> work size c' < work size c.
Proof. exact work_step. Qed.
Print Assumptions C29_terminates.

(** ** Repeated use without a collective operation in between

    Rank 0 does not wait for anybody: it can be inside for the second time while rank 1 is still
    inside for the first time. *)
Theorem C29_repeated_refuted : exists rounds size c p q, steps size (initial rounds false size) c /\
  p < size /\ q < size /\ p <> q /\ inside c p /\ inside c q.
Proof.
  exists 2, 2. eexists. exists 0, 1. split.
  - eapply more; [eapply more; [eapply more; [eapply more; [eapply more; [eapply more; [apply none|]|]|]|]|]|].
    + apply sync_step. apply (s_begin 2 _ 0); [lia|reflexivity].
    + apply sync_step. apply (s_end 2 _ 0); [lia|reflexivity].
    + apply (s_send 2 _ 0 1 0); [lia|reflexivity].
    + apply sync_step. apply (s_begin 2 _ 0); [lia|reflexivity].
    + apply sync_step. eapply (s_recv 2 _ 1 0); [lia|reflexivity|reflexivity].
    + apply sync_step. apply (s_begin 2 _ 1); [lia|reflexivity].
  - split; [lia|]. split; [lia|]. split; [lia|]. split; eexists; reflexivity.
Qed.
Print Assumptions C29_repeated_refuted.

(** *** Instance: three processes; the last one is inside, the others have passed *)
Example C29_instance : exists c, steps 3 (initial 1 true 3) c /\ inside c 2 /\ left 1 c 0 = 1 /\ left 1 c 1 = 1 /\ entered 1 c 2 = 1 /\ ~ finished 3 c.
Proof.
  eexists. split.
  - eapply more; [eapply more; [eapply more; [eapply more; [eapply more; [eapply more; [eapply more; [apply none|]|]|]|]|]|]|].
    + apply sync_step. apply (s_begin 3 _ 0); [lia|reflexivity].
    + apply sync_step. apply (s_end 3 _ 0); [lia|reflexivity].
    + apply sync_step. eapply (s_handover 3 _ 0 1); [lia|lia|lia|reflexivity|reflexivity|reflexivity].
    + apply sync_step. apply (s_begin 3 _ 1); [lia|reflexivity].
    + apply sync_step. apply (s_end 3 _ 1); [lia|reflexivity].
    + apply sync_step. eapply (s_handover 3 _ 1 2); [lia|lia|lia|reflexivity|reflexivity|reflexivity].
    + apply sync_step. apply (s_begin 3 _ 2); [lia|reflexivity].
  - split; [eexists; reflexivity|]. split; [reflexivity|]. split; [reflexivity|]. split; [reflexivity|].
    intros H. specialize (H 2 ltac:(lia)). discriminate H.
Qed.
