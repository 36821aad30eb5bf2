(** Serialized sections: src/forestclaw2d.c:2398-2427. *)
From Coq Require Import List Arith Lia Bool.
Import ListNotations.

(** What a process does, as far as other processes can see.  [Begin] and [End] delimit the
    code between the two calls; [Barrier] is any collective operation of all processes. *)
Inductive op :=
| Recv (src : nat)              (* sc_MPI_Recv of one int *)
| Send (dst : nat) (i : nat)    (* sc_MPI_Send of one int *)
| Begin
| End
| Barrier.

(** forestclaw2d.c:2398-2413 fclaw2d_domain_serialization_enter.  The assertion i == 0 is part of
    the semantics of [Recv]. *)
Definition serialization_enter (mpirank mpisize : nat) : list op :=
  if 0 <? mpirank then [Recv (mpirank - 1)] else [].

(** forestclaw2d.c:2415-2427 fclaw2d_domain_serialization_leave *)
Definition serialization_leave (mpirank mpisize : nat) : list op :=
  if mpirank + 1 <? mpisize then [Send (mpirank + 1) 0] else [].

(** A program that serializes its section [rounds] times, with or without a collective operation
    after each (for example fc2d_geoclaw_output_ascii.c:98-106 once per output frame). *)
Definition section (barrier : bool) (rank size : nat) : list op :=
  serialization_enter rank size ++ [Begin; End] ++ serialization_leave rank size ++ (if barrier then [Barrier] else []).
Fixpoint program (rounds : nat) (barrier : bool) (rank size : nat) : list op :=
  match rounds with
  | 0 => []
  | S r => section barrier rank size ++ program r barrier rank size
  end.

(** ** Message passing

    [rest p]: what process p still has to do; [chan s d]: the messages under way from s to d, oldest
    first.  MPI may buffer a message or wait for the receiver: both are steps. *)
Record config := mkC { rest : nat -> list op; chan : nat -> nat -> list nat }.
Definition setr (f : nat -> list op) (p : nat) (l : list op) : nat -> list op := fun p' => if p' =? p then l else f p'.
Definition setc (f : nat -> nat -> list nat) (s d : nat) (l : list nat) : nat -> nat -> list nat :=
  fun s' d' => if (s' =? s) && (d' =? d) then l else f s' d'.

Section Semantics.
  Variable size : nat.

  (** steps that need no buffering *)
  Inductive step_sync : config -> config -> Prop :=
  | s_begin : forall c p l, p < size -> rest c p = Begin :: l -> step_sync c (mkC (setr (rest c) p l) (chan c))
  | s_end : forall c p l, p < size -> rest c p = End :: l -> step_sync c (mkC (setr (rest c) p l) (chan c))
  | s_recv : forall c p s l ms, p < size -> rest c p = Recv s :: l -> chan c s p = 0 :: ms ->
      step_sync c (mkC (setr (rest c) p l) (setc (chan c) s p ms))
  | s_handover : forall c p d l l', p < size -> d < size -> p <> d -> rest c p = Send d 0 :: l -> rest c d = Recv p :: l' ->
      chan c p d = [] -> step_sync c (mkC (setr (setr (rest c) p l) d l') (chan c))
  | s_barrier : forall c l, (forall p, p < size -> rest c p = Barrier :: l p) ->
      (forall p, size <= p -> l p = rest c p) -> 0 < size ->
      step_sync c (mkC l (chan c)).

  Inductive step : config -> config -> Prop :=
  | sync_step : forall c c', step_sync c c' -> step c c'
  | s_send : forall c p d i l, p < size -> rest c p = Send d i :: l ->
      step c (mkC (setr (rest c) p l) (setc (chan c) p d (chan c p d ++ [i]))).

  Inductive steps : config -> config -> Prop :=
  | none : forall c, steps c c
  | more : forall c c1 c2, steps c c1 -> step c1 c2 -> steps c c2.
End Semantics.

(** all processes before the first section *)
Definition initial (rounds : nat) (barrier : bool) (size : nat) : config :=
  mkC (fun p => if p <? size then program rounds barrier p size else []) (fun _ _ => []).
