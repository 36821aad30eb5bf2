(** Array boxes and the saved copies of the solution of a patch.

    src/fclaw2d_farraybox.cpp, src/patches/clawpatch/fclaw2d_clawpatch.cpp:166-187,
    305-383 (allocations), 446-471 (save, restore), 1546-1551.

    Numbers are 64-bit patterns; an array element is [None] while uninitialised.
    [None] as the outcome of an operation is undefined behaviour or exit(1).
    Simplification: the int arithmetic of sizes does not overflow. *)
From Coq Require Import ZArith List Lia Bool.
Import ListNotations.
Local Open Scope Z_scope.

Definition bind {A B} (x : option A) (f : A -> option B) : option B :=
  match x with Some a => f a | None => None end.

(** A [double *]: NULL, the start of an allocated array, or an indeterminate value. *)
Inductive ptr := Null | At (b : nat) | Wild.

(** Arrays from operator new[].  (Simplification: addresses are not reused.) *)
Record heap := mkH { h_next : nat; h_blk : nat -> option (list (option Z)) }.

(** new double[n] *)
Definition hnew (h : heap) (n : nat) : heap * ptr :=
  (mkH (S (h_next h))
       (fun b => if Nat.eqb b (h_next h) then Some (repeat None n) else h_blk h b),
   At (h_next h)).

(** delete [] p, for p not NULL *)
Definition hdelete (h : heap) (p : ptr) : option heap :=
  match p with
  | At b => match h_blk h b with
            | Some _ => Some (mkH (h_next h) (fun x => if Nat.eqb x b then None else h_blk h x))
            | None => None
            end
  | _ => None
  end.

(** p[i] *)
Definition hload (h : heap) (p : ptr) (i : nat) : option (option Z) :=
  match p with At b => bind (h_blk h b) (fun l => nth_error l i) | _ => None end.

Fixpoint set_nth {A} (l : list A) (i : nat) (x : A) : list A :=
  match l, i with
  | [], _ => []
  | _ :: tl, O => x :: tl
  | y :: tl, S j => y :: set_nth tl j x
  end.

(** p[i] = v *)
Definition hstore (h : heap) (p : ptr) (i : nat) (v : option Z) : option heap :=
  match p with
  | At b => bind (h_blk h b) (fun l =>
            if (i <? length l)%nat
            then Some (mkH (h_next h) (fun x => if Nat.eqb x b then Some (set_nth l i v) else h_blk h x))
            else None)
  | _ => None
  end.

(** for (i = 0; i < n; i++) p[i] = f (i) *)
Fixpoint hfill (h : heap) (p : ptr) (i n : nat) (f : heap -> nat -> option (option Z)) : option heap :=
  match n with
  | O => Some h
  | S n => bind (f h i) (fun v => bind (hstore h p i v) (fun h => hfill h p (S i) n f))
  end.

(** fclaw2d_farraybox.hpp:34-74 class FArrayBox; a Box is the list of its index
    ranges (smallEnd, bigEnd). *)
Record fab := mkFab { f_data : ptr; f_size : Z; f_box : list (Z * Z); f_fields : Z }.

(** signaling nan, fclaw2d_farraybox.cpp:57 *)
Definition snan : Z := 9218868437227405313.

Section Boxes.
  (** FCLAW_DEBUG *)
  Variable debug : bool.
  (** names of FArrayBox objects *)
  Variable I : Type.
  Variable I_dec : forall a b : I, {a = b} + {a <> b}.

  Record state := mkS { s_heap : heap; s_fab : I -> option fab }.
  Definition init : state := mkS (mkH 0 (fun _ => None)) (fun _ => None).

  Definition upd (s : state) (h : heap) (i : I) (f : option fab) : state :=
    mkS h (fun j => if I_dec j i then f else s_fab s j).

  (** fclaw2d_farraybox.cpp:74-80 default constructor *)
  Definition construct (s : state) (i : I) : option state :=
    match s_fab s i with
    | Some _ => None
    | None => Some (upd s (s_heap s) i (Some (mkFab Null 0 [] 0)))
    end.

  (** fclaw2d_farraybox.cpp:82-89 destructor *)
  Definition destruct_ (s : state) (i : I) : option state :=
    bind (s_fab s i) (fun f =>
    match f_data f with
    | Null => Some (upd s (s_heap s) i None)
    | p => bind (hdelete (s_heap s) p) (fun h => Some (upd s h i None))
    end).

  (** fclaw2d_farraybox.cpp:100-143 set_dataPtr: heap and new m_data *)
  Definition set_dataPtr (h : heap) (data : ptr) (m_size a_size : Z) : option (heap * ptr) :=
    if a_size <? 0 then None
    else if a_size =? 0 then
      match data with
      | Null => Some (h, Null)
      | Wild => None
      | p => bind (hdelete h p) (fun h => Some (h, Null))
      end
    else
      bind (if negb (m_size =? a_size)
            then bind (match data with Null => Some h | p => hdelete h p end) (fun h =>
                 Some (hnew h (Z.to_nat a_size)))
            else Some (h, data)) (fun '(h, data) =>
      if debug
      then bind (hfill h data 0 (Z.to_nat a_size) (fun _ _ => Some (Some snan)))
                (fun h => Some (h, data))
      else Some (h, data)).

  (** fclaw2d_farraybox.cpp:145-167 define *)
  Definition define (s : state) (i : I) (box : list (Z * Z)) (fields : Z) : option state :=
    bind (s_fab s i) (fun f =>
    let box_size := fold_left (fun a r => a * (snd r - fst r + 1)) box 1 in
    if box_size <? 0 then None else
    bind (set_dataPtr (s_heap s) (f_data f) (f_size f) (box_size * fields)) (fun '(h, p) =>
    Some (upd s h i (Some (mkFab p (box_size * fields) box fields))))).

  (** fclaw2d_farraybox.cpp:225-239 operator= *)
  Definition assign (s : state) (i j : I) : option state :=
    bind (s_fab s i) (fun f => bind (s_fab s j) (fun g =>
    bind (set_dataPtr (s_heap s) (f_data f) (f_size f) (f_size g)) (fun '(h, p) =>
    (* when both are the same object its m_data is now p *)
    let src := if I_dec i j then p else f_data g in
    bind (hfill h p 0 (Z.to_nat (f_size g)) (fun h k => hload h src k)) (fun h =>
    Some (upd s h i (Some (mkFab p (f_size g) (f_box g) (f_fields g)))))))).

  (** dataPtr ()[k] = v, fclaw2d_farraybox.cpp:241-244 *)
  Definition write (s : state) (i : I) (k : nat) (v : Z) : option state :=
    bind (s_fab s i) (fun f => bind (hstore (s_heap s) (f_data f) k (Some v)) (fun h =>
    Some (mkS h (s_fab s)))).

  (** fclaw2d_farraybox.cpp:191-198 set_to_value *)
  Definition set_to_value (s : state) (i : I) (v : Z) : option state :=
    bind (s_fab s i) (fun f =>
    bind (hfill (s_heap s) (f_data f) 0 (Z.to_nat (f_size f)) (fun _ _ => Some (Some v))) (fun h =>
    Some (mkS h (s_fab s)))).

  (** fclaw2d_farraybox.cpp:180-189 copyFromMemory, from a separate array *)
  Definition copyFrom (s : state) (i : I) (data : list Z) : option state :=
    bind (s_fab s i) (fun f =>
    bind (hfill (s_heap s) (f_data f) 0 (Z.to_nat (f_size f))
                (fun _ k => option_map Some (nth_error data k))) (fun h =>
    Some (mkS h (s_fab s)))).

  (** fclaw2d_farraybox.cpp:169-178 copyToMemory: the values copied out *)
  Definition copyTo (s : state) (i : I) : option (list (option Z)) :=
    bind (s_fab s i) (fun f =>
    (fix go (k n : nat) := match n with
       | O => Some []
       | S n => bind (hload (s_heap s) (f_data f) k) (fun v =>
                bind (go (S k) n) (fun l => Some (v :: l)))
       end) O (Z.to_nat (f_size f))).

  (** fclaw2d_farraybox.cpp:91-98 copy constructor: m_data is not initialised when
      set_dataPtr looks at it, and m_size already is the new size. *)
  Definition copy_construct (s : state) (i j : I) : option state :=
    match s_fab s i with
    | Some _ => None
    | None =>
        bind (s_fab s j) (fun g =>
        bind (set_dataPtr (s_heap s) Wild (f_size g) (f_size g)) (fun '(h, p) =>
        Some (upd s h i (Some (mkFab p (f_size g) (f_box g) (f_fields g))))))
    end.

  Inductive op :=
  | Construct (i : I) | Destroy (i : I) | Define (i : I) (box : list (Z * Z)) (fields : Z)
  | Assign (i j : I) | Write (i : I) (k : nat) (v : Z) | SetValue (i : I) (v : Z)
  | CopyFrom (i : I) (data : list Z).

  Definition step (s : state) (o : op) : option state :=
    match o with
    | Construct i => construct s i
    | Destroy i => destruct_ s i
    | Define i b n => define s i b n
    | Assign i j => assign s i j
    | Write i k v => write s i k v
    | SetValue i v => set_to_value s i v
    | CopyFrom i d => copyFrom s i d
    end.

  Fixpoint run (s : state) (l : list op) : option state :=
    match l with [] => Some s | o :: tl => bind (step s o) (fun s => run s tl) end.
End Boxes.

Arguments Construct {I}. Arguments Destroy {I}. Arguments Define {I}. Arguments Assign {I}.
Arguments Write {I}. Arguments SetValue {I}. Arguments CopyFrom {I}.
Arguments mkS {I}. Arguments s_heap {I}. Arguments s_fab {I}. Arguments init {I}.

(* ------------------------------------------------------- boxes of a clawpatch *)

(** fclaw2d_clawpatch.hpp:42-94, the FArrayBox members *)
Inductive member := griddata | griddata_last | griddata_save | griddata_time_interpolated
  | griderror | exactsolution | rhs | elliptic_error | elliptic_soln | aux | aux_save.

Definition members : list member :=
  [griddata; griddata_last; griddata_save; griddata_time_interpolated; griderror;
   exactsolution; rhs; elliptic_error; elliptic_soln; aux; aux_save].

Definition member_dec (a b : member) : {a = b} + {a <> b}.
Proof. decide equality. Defined.

(** patch number and member *)
Definition name : Type := (nat * member)%type.
Definition name_dec (a b : name) : {a = b} + {a <> b}.
Proof. decide equality; [apply member_dec|apply Nat.eq_dec]. Defined.

(** options that decide what is allocated *)
Record cp_opts := mkO { o_mx : Z; o_my : Z; o_mbc : Z; o_meqn : Z; o_maux : Z; o_rhs_fields : Z;
  o_subcycle : bool; o_compute_error : bool; o_save_aux : bool }.

(** Operations on the patches of a process.  [PWrite] is any assignment through a
    pointer obtained from the patch: the solution, last solution, interpolated
    solution, errors, right hand side and aux arrays are handed out by
    fclaw2d_clawpatch.cpp:147-154, 505-507, 1622-1696; the two saved arrays are not. *)
Inductive cp_op :=
| PNew (p : nat) | PBuild (p : nat) (for_update : bool) | PDelete (p : nat)
| PSave (p : nat) | PRestore (p : nat) | PSaveCurrent (p : nat)
| PWrite (p : nat) (m : member) (k : nat) (v : Z)
| PUnpack (p : nat) (data : list Z).

Section Patches.
  Variable o : cp_opts.

  (** fclaw2d_clawpatch.cpp:305-317 *)
  Definition cp_box : list (Z * Z) :=
    [(1 - o_mbc o, o_mx o + o_mbc o); (1 - o_mbc o, o_my o + o_mbc o)].

  (** the FArrayBox operations each patch operation performs, in order *)
  Definition compile (x : cp_op) : list (op name) :=
    match x with
    | PNew p => (* fclaw2d_clawpatch.cpp:167-175 clawpatch_new *)
        map (fun m => Construct (p, m)) members
    | PDelete p => (* fclaw2d_clawpatch.cpp:178-189 clawpatch_delete *)
        map (fun m => Destroy (p, m)) members
    | PBuild p for_update => (* fclaw2d_clawpatch.cpp:320-381, in clawpatch_define *)
        [Define (p, griddata) cp_box (o_meqn o)]
        ++ (if o_subcycle o then [Define (p, griddata_time_interpolated) cp_box (o_meqn o)] else [])
        ++ (if o_compute_error o then [Define (p, griderror) cp_box (o_meqn o);
                                       Define (p, exactsolution) cp_box (o_meqn o)] else [])
        ++ (if o_maux o >? 0 then
              [Define (p, aux) cp_box (o_maux o)]
              ++ (if o_save_aux o then [Define (p, aux_save) cp_box (o_maux o)] else [])
            else [])
        ++ (if o_rhs_fields o >? 0 then
              [Define (p, rhs) cp_box (o_rhs_fields o)]
              ++ (if o_compute_error o then [Define (p, elliptic_error) cp_box (o_rhs_fields o);
                                             Define (p, elliptic_soln) cp_box (o_rhs_fields o)] else [])
            else [])
        ++ (if for_update then [Define (p, griddata_last) cp_box (o_meqn o);
                                Define (p, griddata_save) cp_box (o_meqn o)] else [])
    | PSave p => (* fclaw2d_clawpatch.cpp:446-457 clawpatch_save_step *)
        [Assign (p, griddata_save) (p, griddata)]
        ++ (if o_save_aux o then [Assign (p, aux_save) (p, aux)] else [])
    | PRestore p => (* fclaw2d_clawpatch.cpp:461-471 clawpatch_restore_step *)
        [Assign (p, griddata) (p, griddata_save)]
        ++ (if o_save_aux o then [Assign (p, aux) (p, aux_save)] else [])
    | PSaveCurrent p => (* fclaw2d_clawpatch.cpp:1546-1551 save_current_step *)
        [Assign (p, griddata_last) (p, griddata)]
    | PWrite p m k v => [Write (p, m) k v]
    | PUnpack p data => (* fclaw2d_clawpatch.cpp:1298-1312 clawpatch_partition_unpack *)
        [CopyFrom (p, griddata) data]
    end.

  Definition cp_ops (l : list cp_op) : list (op name) := flat_map compile l.
End Patches.
