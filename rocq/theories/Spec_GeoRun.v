(** Specification vocabulary for GeoClaw's time loops, read off the log of events. *)
From Coq Require Import ZArith QArith List Bool.
From Verif Require Import Model_Run.
Import ListNotations.
Open Scope Q_scope.

Section Spec.
  Variable St : Type.
  Variable advance : St -> Q -> Q -> St * Q.
  Variable regrid : St -> St.
  Notation ev := (revent St).

  (** The log is a history from (t, s) to (t', s'): every solver call starts from the current
      solution at the current time, and the next one starts where it ends; a retaken step
      changes nothing; frames and diagnostics see the current time and solution. *)
  Inductive history : Q -> St -> list ev -> Q -> St -> Prop :=
  | h_end : forall t s t', t == t' -> history t s [] t' s
  | h_step : forall t s u dt log t' s', u == t ->
      history (u + dt)%Q (fst (advance s u dt)) log t' s' ->
      history t s (Accept St u dt s (fst (advance s u dt)) :: log) t' s'
  | h_retake : forall t s u dt log t' s', u == t ->
      history t s log t' s' -> history t s (Reject St u dt s s :: log) t' s'
  | h_regrid : forall t s u log t' s', u == t ->
      history t (regrid s) log t' s' -> history t s (Regrid St u :: log) t' s'
  | h_frame : forall t s u i log t' s', u == t ->
      history t s log t' s' -> history t s (Frame St i u s :: log) t' s'
  | h_diag : forall t s u b log t' s', u == t ->
      history t s log t' s' -> history t s (Diag St b u s :: log) t' s'.

  (** A solver call that starts while the bed moves is shorter than the limit. *)
  Definition resolved (iv0 iv1 dtmax : Q) (e : ev) : Prop :=
    match e with Accept _ t dt _ _ => iv0 <= t -> t < iv1 -> dt < dtmax | _ => True end.

  Definition is_diag (e : ev) : bool := match e with Diag _ _ _ _ => true | _ => false end.
End Spec.
Arguments is_diag {St} e.
Arguments resolved {St} iv0 iv1 dtmax e.
