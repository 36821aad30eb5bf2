(** Vocabulary for the pointer map, the timers and the integer power. *)
From Coq Require Import ZArith QArith List Lia Bool.
From Verif Require Import Model_Util.
Import ListNotations.
Local Open Scope Z_scope.

Section PMap.
  Variable K P D : Type.
  Variable K_dec : forall a b : K, {a = b} + {a <> b}.

  (** The value most recently inserted under [k]: read the history backwards. *)
  Fixpoint last_rev (l : list (pm_op K P D)) (k : K) : option (P * option D) :=
    match l with
    | [] => None
    | Insert _ _ _ k' p d :: tl => if K_dec k' k then Some (p, d) else last_rev tl k
    | Get _ _ _ _ :: tl => last_rev tl k
    end.
  Definition last_inserted (h : list (pm_op K P D)) (k : K) : option (P * option D) :=
    last_rev (rev h) k.

  (** All values inserted with a destructor, in the order of insertion. *)
  Definition to_destroy (h : list (pm_op K P D)) : list (D * P) :=
    flat_map (fun o => match o with Insert _ _ _ _ p (Some d) => [(d, p)] | _ => [] end) h.

  (** Keys that have been inserted. *)
  Definition inserted (h : list (pm_op K P D)) (k : K) : Prop :=
    exists p d, In (Insert _ _ _ k p d) h.
End PMap.

(** The completed intervals of timer [i] in a history, as (start, stop) times:
    [open] is the start time of an interval in progress. *)
Fixpoint intervals (i : nat) (open : option Q) (l : list timer_op) : list (Q * Q) :=
  match l with
  | [] => []
  | Start j now :: tl => intervals i (if Nat.eqb j i then Some now else open) tl
  | Stop j now :: tl =>
      if Nat.eqb j i then
        match open with
        | Some s => (s, now) :: intervals i None tl
        | None => intervals i None tl
        end
      else intervals i open tl
  end.

Definition total_length (l : list (Q * Q)) : Q :=
  fold_right (fun x acc => (snd x - fst x + acc)%Q) 0%Q l.

(** The calls made on timer [i], in order: true for start, false for stop. *)
Fixpoint calls (i : nat) (l : list timer_op) : list bool :=
  match l with
  | [] => []
  | Start j _ :: tl => if Nat.eqb j i then true :: calls i tl else calls i tl
  | Stop j _ :: tl => if Nat.eqb j i then false :: calls i tl else calls i tl
  end.

(** start, stop, start, stop, ... *)
Fixpoint alternates (next : bool) (l : list bool) : bool :=
  match l with
  | [] => true
  | b :: tl => Bool.eqb b next && alternates (negb next) tl
  end.

(** the int range *)
Definition representable (v : Z) : Prop := - 2 ^ 31 <= v < 2 ^ 31.
