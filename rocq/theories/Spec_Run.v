(** Specification vocabulary for the time loops: everything is read off the log of
    observable events. *)
From Coq Require Import ZArith QArith List Bool Lia.
From Verif Require Import Model_Run.
Import ListNotations.
Open Scope Z_scope.

Section Spec.
  Variable St : Type.
  Variable advance : St -> Q -> Q -> St * Q.
  Variable regrid : St -> St.
  Notation ev := (revent St).

  Definition is_accept (e : ev) : bool := match e with Accept _ _ _ _ _ => true | _ => false end.
  Definition is_regrid (e : ev) : bool := match e with Regrid _ _ => true | _ => false end.
  Definition is_frame (e : ev) : bool := match e with Frame _ _ _ _ => true | _ => false end.
  Definition count (f : ev -> bool) (log : list ev) : Z := Z.of_nat (length (filter f log)).

  (** Number and time of the frames written. *)
  Definition frames (log : list ev) : list (Z * Q) :=
    flat_map (fun e => match e with Frame _ i t _ => [(i, t)] | _ => [] end) log.
  Definition same_frames : list (Z * Q) -> list (Z * Q) -> Prop :=
    Forall2 (fun a b => fst a = fst b /\ (snd a == snd b)%Q).

  (** The log describes a run: from (time, solution), each event is consistent with
      the state before it and leads to the state after it.  An accepted step is one call of
      the solver on the current solution; a rejected one changes nothing; frames and
      diagnostics see the current time and solution. *)
  Inductive runs : Q * St -> list ev -> Q * St -> Prop :=
  | runs_nil : forall t s, runs (t, s) [] (t, s)
  | runs_accept : forall t s dt log x,
      runs ((t + dt)%Q, fst (advance s t dt)) log x ->
      runs (t, s) (Accept St t dt s (fst (advance s t dt)) :: log) x
  | runs_reject : forall t s dt log x,
      runs (t, s) log x -> runs (t, s) (Reject St t dt s s :: log) x
  | runs_regrid : forall t s log x,
      runs (t, regrid s) log x -> runs (t, s) (Regrid St t :: log) x
  | runs_frame : forall t s i log x,
      runs (t, s) log x -> runs (t, s) (Frame St i t s :: log) x
  | runs_diag : forall t s b log x,
      runs (t, s) log x -> runs (t, s) (Diag St b t s :: log) x.
End Spec.
Arguments is_accept {St} e. Arguments is_regrid {St} e. Arguments is_frame {St} e.
Arguments count {St} f log. Arguments frames {St} log.
