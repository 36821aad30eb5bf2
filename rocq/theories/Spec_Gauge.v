(** What the gauges are expected to do. *)
From Coq Require Import ZArith QArith List Bool.
From Verif Require Import Model_Search Model_Gauge Spec_Search.
Import ListNotations.
Open Scope Z_scope.

(** ** Slots *)
Definition in_closed_box (p : Q * Q) (c : (Q * Q) * (Q * Q)) : Prop :=
  (fst (fst c) <= fst p <= fst (snd c) /\ snd (fst c) <= snd p <= snd (snd c))%Q.

(** ** Samples *)
(** sampling times: an update time is used if it lies in [t1,t2] and at least [inc] after the last one used *)
Definition due (t1 t2 inc last t : Q) : bool := Qle_bool t1 t && Qle_bool t t2 && Qle_bool inc (t - last).
Fixpoint sample_times (t1 t2 inc last : Q) (ts : list Q) : list Q :=
  match ts with
  | [] => []
  | t :: ts => if due t1 t2 inc last t then t :: sample_times t1 t2 inc t ts else sample_times t1 t2 inc last ts
  end.

Section Values.
  Variable V : Type.
  (** the process that finds the gauge with slot [loc] *)
  Definition finds (r : nat -> list Z) (loc : Z) (p : nat) : bool := 0 <=? nth (Z.to_nat loc) (r p) (-1).
  Definition owner_of (P : nat) (r : nat -> list Z) (loc : Z) : option nat := find (finds r loc) (seq 0 P).

  (** the samples of gauge number [i] with slot [loc]: one for each sampling time, taken by the process that
      owns the gauge since the last search *)
  Fixpoint expected (P : nat) (i : nat) (loc : Z) (t1 t2 inc : Q) (owner : option nat) (last : Q) (cs : list (call V)) : list (Q * V) :=
    match cs with
    | [] => []
    | Update _ t v :: cs =>
        if due t1 t2 inc last t
        then match owner with Some p => [(t, v p i)] | None => [] end ++ expected P i loc t1 t2 inc owner t cs
        else expected P i loc t1 t2 inc owner last cs
    | Locate _ r :: cs => expected P i loc t1 t2 inc (owner_of P r loc) last cs
    | Finalize _ :: cs => expected P i loc t1 t2 inc owner last cs
    end.
  Fixpoint update_times (cs : list (call V)) : list Q :=
    match cs with Update _ t _ :: cs => t :: update_times cs | _ :: cs => update_times cs | [] => [] end.

  (** the calls of a run: a search after initialisation, updates and searches, finalize *)
  Definition plain (c : call V) : Prop := match c with Finalize _ => False | _ => True end.
  Definition history (cs : list (call V)) : Prop :=
    exists r mid, cs = Locate V r :: mid ++ [Finalize V] /\ Forall plain mid.
  (** every search delivers one result for each slot, and no slot is found by two processes *)
  Definition results_ok (P : nat) (n : nat) (c : call V) : Prop :=
    match c with
    | Locate _ r => forall p, (p < P)%nat -> length (r p) = n /\
        forall p' loc, (p' < P)%nat -> 0 <= loc < Z.of_nat n -> finds r loc p = true -> finds r loc p' = true -> p = p'
    | _ => True
    end.
  (** every process treats every gauge once, in any order *)
  Definition order_ok (P n : nat) (order : list (nat * nat)) : Prop :=
    NoDup order /\ forall p i, In (p, i) order <-> (p < P /\ i < n)%nat.

  (** a gauge as gauge_initialize leaves it, with a slot *)
  Definition started (len : Z) (n : nat) (g : gauge V) : Prop :=
    last_time V g = t1 V g /\ next V g = 0 /\ length (buffer V g) = Z.to_nat len /\ 0 <= location V g < Z.of_nat n.
End Values.
