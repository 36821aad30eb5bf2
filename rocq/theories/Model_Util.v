(** Pointer map, timers, integer power.

    src/fclaw_pointer_map.c, src/fclaw_timer.c:67-108, src/fclaw_math.c:34-52. *)
From Coq Require Import ZArith QArith List Lia Bool.
Import ListNotations.
Local Open Scope Z_scope.

(* ------------------------------------------------------------ pointer map *)

Section PMap.
  (** Keys are compared by content (sc_keyvalue hashes and compares strings);
      [K] stands for key strings, [P] for pointers, [D] for destroy functions. *)
  Variable K P D : Type.
  Variable K_dec : forall a b : K, {a = b} + {a <> b}.

  (** fclaw_pointer_map.c:29-33 struct value (destroy = None is NULL) *)
  Definition value : Type := (P * option D)%type.

  (** The sc_keyvalue table, as entries in an unspecified order; and the calls
      destroy (pointer) made so far. *)
  Record pmap := mkPM { pm_tab : list (K * value); pm_log : list (D * P) }.

  (** fclaw_pointer_map.c:36-39 fclaw_pointer_map_new *)
  Definition pm_new : pmap := mkPM [] [].

  (** sc_keyvalue_get_pointer (external): the stored value or NULL *)
  Fixpoint kv_get (l : list (K * value)) (k : K) : option value :=
    match l with
    | [] => None
    | (k', v) :: tl => if K_dec k' k then Some v else kv_get tl k
    end.

  (** the fields of the value struct stored under [k] are overwritten *)
  Fixpoint kv_overwrite (l : list (K * value)) (k : K) (v : value) : list (K * value) :=
    match l with
    | [] => []
    | (k', v') :: tl =>
        if K_dec k' k then (k', v) :: tl else (k', v') :: kv_overwrite tl k v
    end.

  (** "if (value->destroy != NULL) value->destroy (value->pointer)" *)
  Definition call_destroy (v : value) : list (D * P) :=
    match v with (p, Some d) => [(d, p)] | (_, None) => [] end.

  (** fclaw_pointer_map.c:70-99 fclaw_pointer_map_insert *)
  Definition pm_insert (m : pmap) (k : K) (p : P) (d : option D) : pmap :=
    match kv_get (pm_tab m) k with
    | Some old => mkPM (kv_overwrite (pm_tab m) k (p, d)) (pm_log m ++ call_destroy old)
    | None => mkPM (pm_tab m ++ [(k, (p, d))]) (pm_log m)
    end.

  (** fclaw_pointer_map.c:101-111 fclaw_pointer_map_get (None is NULL) *)
  Definition pm_get (m : pmap) (k : K) : option P :=
    match kv_get (pm_tab m) k with
    | None => None
    | Some v => Some (fst v)
    end.

  (** fclaw_pointer_map.c:41-68 destroy_iter, fclaw_pointer_map_destroy.
      sc_keyvalue_foreach visits the entries in an order of its own. *)
  Definition pm_destroy (order : list (K * value) -> list (K * value)) (m : pmap)
    : list (D * P) :=
    pm_log m ++ flat_map (fun e => call_destroy (snd e)) (order (pm_tab m)).

  (** fclaw_pointer_map.c:119-139 iterator_iter, fclaw_pointer_map_iterate: the
      sequence of callback invocations (key, pointer). *)
  Definition pm_iterate (order : list (K * value) -> list (K * value)) (m : pmap)
    : list (K * P) :=
    map (fun e => (fst e, fst (snd e))) (order (pm_tab m)).

  (** fclaw_pointer_map.c:141-156 size_iter, fclaw_pointer_map_size *)
  Definition pm_size (order : list (K * value) -> list (K * value)) (m : pmap) : Z :=
    fold_left (fun s _ => s + 1) (order (pm_tab m)) 0.

  (** A program using the map: insertions and lookups. *)
  Inductive pm_op := Insert (k : K) (p : P) (d : option D) | Get (k : K).

  Definition pm_step (m : pmap) (o : pm_op) : pmap :=
    match o with Insert k p d => pm_insert m k p d | Get _ => m end.

  Definition pm_run (l : list pm_op) : pmap := fold_left pm_step l pm_new.
End PMap.

(* ------------------------------------------------------------ timers *)

(** fclaw_timer.h:119-125 fclaw2d_timer_t; times are exact rationals. *)
Record timer := mkT { running : bool; started : Q; stopped : Q; cumulative : Q }.

(** fclaw_timer.c:74-78 fclaw2d_timer_init *)
Definition timer_init : timer := mkT false 0 0 0.

(** fclaw_timer.c:80-93 fclaw2d_timer_start; None is SC_ABORT.  [now] is what
    fclaw2d_timer_wtime returns. *)
Definition timer_start (t : timer) (now : Q) : option timer :=
  if negb (running t) then Some (mkT true now 0 (cumulative t)) else None.

(** fclaw_timer.c:95-108 fclaw2d_timer_stop *)
Definition timer_stop (t : timer) (now : Q) : option timer :=
  if running t
  then Some (mkT false (started t) now (cumulative t + (now - started t))%Q)
  else None.

(** The timers of a run (glob->timers[]), operated on by index. *)
Inductive timer_op := Start (i : nat) (now : Q) | Stop (i : nat) (now : Q).

Definition timers := nat -> timer.
Definition set_timer (ts : timers) (i : nat) (t : timer) : timers :=
  fun j => if Nat.eqb j i then t else ts j.

Definition timer_step (ts : timers) (o : timer_op) : option timers :=
  match o with
  | Start i now => match timer_start (ts i) now with
                   | Some t => Some (set_timer ts i t) | None => None end
  | Stop i now => match timer_stop (ts i) now with
                  | Some t => Some (set_timer ts i t) | None => None end
  end.

Fixpoint timer_run (ts : timers) (l : list timer_op) : option timers :=
  match l with
  | [] => Some ts
  | o :: tl => match timer_step ts o with Some ts => timer_run ts tl | None => None end
  end.

(* ------------------------------------------------------------ pow_int *)

Definition in_int (v : Z) : bool := (- 2 ^ 31 <=? v) && (v <? 2 ^ 31).

(** signed int multiplication: overflow is undefined *)
Definition int_mul (a b : Z) : option Z := if in_int (a * b) then Some (a * b) else None.

(** fclaw_math.c:41-49, the while loop.  [fuel] bounds the iterations; exp has
    at most 31 bits. *)
Fixpoint pow_loop (fuel : nat) (result base exp : Z) : option Z :=
  if exp =? 0 then Some result
  else match fuel with
  | O => None
  | S fuel =>
      match (if Z.odd exp then int_mul result base else Some result) with
      | None => None
      | Some result =>
          let exp := Z.shiftr exp 1 in
          match int_mul base base with
          | None => None
          | Some base => pow_loop fuel result base exp
          end
      end
  end.

(** fclaw_math.c:34-52 pow_int; a negative exponent fails the assertion. *)
Definition pow_int (base exp : Z) : option Z :=
  if exp <? 0 then None else pow_loop 31 1 base exp.

(** The same loop when signed arithmetic wraps around (what the usual compilers
    produce, and what -fwrapv guarantees). *)
Definition wrap (v : Z) : Z := (v + 2 ^ 31) mod 2 ^ 32 - 2 ^ 31.
Fixpoint pow_loop_wrap (fuel : nat) (result base exp : Z) : Z :=
  if exp =? 0 then result
  else match fuel with
  | O => result
  | S fuel =>
      let result := if Z.odd exp then wrap (result * base) else result in
      pow_loop_wrap fuel result (wrap (base * base)) (Z.shiftr exp 1)
  end.
Definition pow_int_wrap (base exp : Z) : Z := pow_loop_wrap 31 1 base exp.
