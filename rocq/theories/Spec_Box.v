(** What array boxes should be: independent values.

    The abstract state gives every live box its list of numbers (and its index box
    and number of fields); operations act on the named box only. *)
From Coq Require Import ZArith List Lia Bool.
From Verif Require Import Model_Box.
Import ListNotations.
Local Open Scope Z_scope.

Record abox := mkA { a_vals : list (option Z); a_box : list (Z * Z); a_fields : Z }.

Section Abstract.
  Variable debug : bool.
  Variable I : Type.
  Variable I_dec : forall a b : I, {a = b} + {a <> b}.

  Definition astate := I -> option abox.
  Definition aset (s : astate) (i : I) (x : option abox) : astate :=
    fun j => if I_dec j i then x else s j.

  (** number of cells of an index box *)
  Definition cells (box : list (Z * Z)) : Z :=
    fold_right (fun r a => (snd r - fst r + 1) * a) 1 box.

  (** Values after (re)defining a box with [n] numbers: signaling nans in a debug
      build; otherwise the old ones if there were exactly [n], else uninitialised. *)
  Definition defined (old : list (option Z)) (n : nat) : list (option Z) :=
    if debug then repeat (Some snan) n
    else if Nat.eqb (length old) n then old else repeat None n.

  Definition astep (s : astate) (o : op I) : option astate :=
    match o with
    | Construct i =>
        match s i with Some _ => None | None => Some (aset s i (Some (mkA [] [] 0))) end
    | Destroy i =>
        match s i with Some _ => Some (aset s i None) | None => None end
    | Define i box n =>
        match s i with
        | Some a =>
            if (0 <=? cells box) && (0 <=? cells box * n)
            then Some (aset s i (Some (mkA (defined (a_vals a) (Z.to_nat (cells box * n))) box n)))
            else None
        | None => None
        end
    | Assign i j =>
        match s i, s j with
        | Some _, Some b => Some (aset s i (Some b))
        | _, _ => None
        end
    | Write i k v =>
        match s i with
        | Some a => if (k <? length (a_vals a))%nat
                    then Some (aset s i (Some (mkA (firstn k (a_vals a) ++ Some v :: skipn (S k) (a_vals a))
                                                   (a_box a) (a_fields a))))
                    else None
        | None => None
        end
    | SetValue i v =>
        match s i with
        | Some a => Some (aset s i (Some (mkA (repeat (Some v) (length (a_vals a))) (a_box a) (a_fields a))))
        | None => None
        end
    | CopyFrom i d =>
        match s i with
        | Some a => if (length (a_vals a) <=? length d)%nat
                    then Some (aset s i (Some (mkA (map Some (firstn (length (a_vals a)) d))
                                                   (a_box a) (a_fields a))))
                    else None
        | None => None
        end
    end.

  Fixpoint arun (s : astate) (l : list (op I)) : option astate :=
    match l with
    | [] => Some s
    | o :: tl => match astep s o with Some s => arun s tl | None => None end
    end.

  (** In a debug build assigning a box to itself destroys it; everything else is a
      legal program. *)
  Definition legal (o : op I) : Prop :=
    match o with Assign i j => debug = true -> i <> j | _ => True end.

  (** The numbers a box shows to its user. *)
  Definition shows (s : state I) (i : I) (l : list (option Z)) : Prop :=
    copyTo I s i = Some l.
End Abstract.

(** The operations on patch [p] that create, build or destroy it or save its solution. *)
Definition keeps_saved (p : nat) (x : cp_op) : Prop :=
  match x with
  | PNew q | PBuild q _ | PDelete q | PSave q => q <> p
  | PWrite q m _ _ => m <> griddata_save /\ m <> aux_save
  | PRestore _ | PSaveCurrent _ | PUnpack _ _ => True
  end.

Definition crun (debug : bool) (o : cp_opts) (l : list cp_op) : option (state name) :=
  run debug name name_dec init (cp_ops o l).
