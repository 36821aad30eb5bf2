(** Serialized sections: what is promised. *)
From Coq Require Import List Arith Lia Bool.
From Verif Require Import Model_Serial.
Import ListNotations.

(** the process has returned from _enter and not yet called _leave *)
Definition inside (c : config) (p : nat) : Prop := exists l, rest c p = End :: l.
Definition is_begin (o : op) : bool := match o with Begin => true | _ => false end.
Definition is_end (o : op) : bool := match o with End => true | _ => false end.
Definition count (f : op -> bool) (l : list op) : nat := length (filter f l).
(** how often a process has entered and has left its section *)
Definition entered (rounds : nat) (c : config) (p : nat) : nat := rounds - count is_begin (rest c p).
Definition left (rounds : nat) (c : config) (p : nat) : nat := rounds - count is_end (rest c p).
Definition finished (size : nat) (c : config) : Prop := forall p, p < size -> rest c p = [].
(** something left to do *)
Fixpoint work (size : nat) (c : config) : nat := match size with 0 => 0 | S k => length (rest c k) + work k c end.
