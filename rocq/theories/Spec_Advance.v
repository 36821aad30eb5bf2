(** Specification vocabulary for time stepping: everything is read off the list
    of observable events of one call. *)
From Coq Require Import ZArith QArith Qminmax List Bool Lia.
From Verif Require Import Model_Advance.
Import ListNotations.
Open Scope Z_scope.

(** Start time and size of each step taken on a level, in order. *)
Definition steps_on (l : Z) (evs : list event) : list (Q * Q) :=
  flat_map (fun e => match e with Step l' t h => if l' =? l then [(t, h)] else [] | _ => [] end) evs.

(** Time a level has reached after the events [evs], having started at [t0]. *)
Definition reached (t0 : Q) (l : Z) (evs : list event) : Q :=
  fold_left (fun t s => (t + snd s)%Q) (steps_on l evs) t0.

(** Equality of lists of steps with rational components. *)
Definition same_steps : list (Q * Q) -> list (Q * Q) -> Prop :=
  Forall2 (fun a b => (fst a == fst b)%Q /\ (snd a == snd b)%Q).

(** [n] consecutive steps of size [h] from [t]. *)
Definition uniform_steps (t h : Q) (n : nat) : list (Q * Q) :=
  map (fun k => ((t + inject_Z (Z.of_nat k) * h)%Q, h)) (seq 0 n).

(** Property of each event in relation to the events before it. *)
Definition every (evs : list event) (P : list event -> event -> Prop) : Prop :=
  forall pre e post, evs = pre ++ e :: post -> P pre e.

(** The time-interpolated data of level [l], made with parameter [a], is based on
    the latest step of that level. *)
Definition interpolated (l : Z) (a : Q) (evs : list event) : Prop :=
  exists p q, evs = p ++ Interp l a :: q /\ steps_on l q = [].

(** Largest CFL number of all steps taken. *)
Definition largest_cfl (cfl : Z -> Q -> Q -> Q) (evs : list event) (m : Q) : Prop :=
  (forall l t h, In (Step l t h) evs -> cfl l t h <= m)%Q /\ (0 <= m)%Q /\
  (m == 0 \/ exists l t h, In (Step l t h) evs /\ m == cfl l t h)%Q.

(** Levels of a valid configuration: the domain's levels lie within the range given
    by the options; a process without patches on coarse levels has a larger
    [local_min] (with no patches at all it is the largest possible level). *)
Definition wf_config (cfg : config) : Prop :=
  0 <= minlevel cfg /\ minlevel cfg <= global_min cfg <= global_max cfg /\
  global_max cfg <= maxlevel cfg /\ global_min cfg <= local_min cfg.
