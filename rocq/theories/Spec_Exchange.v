(** The protocol of the ghost exchange, in terms of the calls a user makes. *)
From Coq Require Import ZArith List Bool.
From Verif Require Import Model_Exchange.
Import ListNotations.
Open Scope Z_scope.

(** What the calls made so far amount to: no exchange object, one that is idle, or an exchange under way. *)
Inductive phase := Absent | Idle | Active (mn mx : Z) (ti : bool).
Definition next (s : phase) (o : op) : option phase :=
  match s, o with
  | Absent, Setup => Some Idle
  | Idle, Begin mn mx ti => Some (Active mn mx ti)
  | Active mn mx ti, End mn' mx' ti' => if (mn' =? mn) && (mx' =? mx) && Bool.eqb ti' ti then Some Idle else None
  | Idle, Delete => Some Absent
  | _, _ => None
  end.
Inductive protocol : phase -> list op -> phase -> Prop :=
| p_nil : forall s, protocol s [] s
| p_cons : forall s o s1 l s2, next s o = Some s1 -> protocol s1 l s2 -> protocol s (o :: l) s2.

(** calls the code has to reject *)
Definition forbidden (s : phase) (o : op) : Prop :=
  match s, o with
  | Absent, Setup => False
  | Absent, _ => True
  | Idle, End _ _ _ => True
  | Active _ _ _, Begin _ _ _ => True
  | _, _ => False
  end.

(** the exchanges of a program, in order *)
Definition exchanges (l : list op) : list (Z * Z * bool) :=
  flat_map (fun o => match o with Begin mn mx ti => [(mn, mx, ti)] | _ => [] end) l.

(** the patches of a process that other processes see: ((level, _), patch number) *)
Definition boundary_patches (lay : layout) (p : nat) : list ((Z * bool) * nat) :=
  filter (fun x => snd (fst x)) (combine (patches lay p) (seq 0 (length (patches lay p)))).

(** every ghost patch is a boundary patch of its owner *)
Definition layout_ok (lay : layout) : Prop :=
  forall p g, (p < size lay)%nat -> In g (ghosts lay p) ->
    (owner g < size lay)%nat /\ exists np, nth_error (boundary_patches lay (owner g)) (mirror g) = Some ((glevel g, true), np).
(** the exchanges go up to the finest level *)
Definition levels_ok (lay : layout) (prog : list op) : Prop :=
  forall mn mx ti p x, In (mn, mx, ti) (exchanges prog) -> (p < size lay)%nat -> In x (boundary_patches lay p) -> fst (fst x) <= mx.

(** After its k-th exchange (mn, mx, ti) a process holds, for each ghost patch on the exchanged levels, what
    the owner had in that patch when it began its k-th exchange; time-interpolated data on level mn - 1 if ti is
    set. *)
Definition delivered {V} (lay : layout) (begins : nat -> list (nat -> bool -> V)) (r k : nat)
    (mn : Z) (ti : bool) (rem : list (option V * option V)) : Prop :=
  forall i g, nth_error (ghosts lay r) i = Some g -> (if ti then mn - 1 else mn) <= glevel g ->
    exists dat np plain interp,
      nth_error (begins (owner g)) k = Some dat /\
      nth_error (boundary_patches lay (owner g)) (mirror g) = Some ((glevel g, true), np) /\
      nth_error rem i = Some (plain, interp) /\
      (if ti && (glevel g =? mn - 1) then interp = Some (dat np true) else plain = Some (dat np false)).
