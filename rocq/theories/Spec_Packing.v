(** What "packed values are read back unchanged" means. *)
From Coq Require Import String ZArith List Lia Bool.
From Verif Require Import Base_Mem Model_Packing.
Import ListNotations.
Local Open Scope string_scope.
Local Open Scope list_scope.
Local Open Scope Z_scope.

(** [write] always succeeds and stores exactly [size] bytes at the buffer address,
    touching nothing else; and [read], applied to *any* memory that holds the
    same bytes at that address, consumes exactly [size] bytes and yields [res]. *)
Definition round_trip {A} (write : mem -> Z -> option (mem * Z))
  (read : mem -> Z -> option (A * Z)) (size : Z) (res : A) : Prop :=
  forall m a, exists m',
    write m a = Some (m', size) /\
    (forall x, x < a \/ a + size <= x -> m' x = m x) /\
    (forall m2, (forall x, a <= x < a + size -> m2 x = m' x) ->
       read m2 a = Some (res, size)).

(** A text: characters that are not zero. *)
Definition text (cs : list Z) : Prop :=
  Forall (fun c => 0 < c < 256) cs /\ Z.of_nat (length cs) + 1 < 2 ^ 64.

(** The block [bs] holds the C string with characters [cs]; whatever follows the
    terminating zero is irrelevant. *)
Definition holds_text (bs cs : list Z) : Prop := exists junk, bs = cs ++ 0 :: junk.

(** The text a [char *] with value [a] denotes in heap [h]: [Some None] for
    NULL, [Some (Some cs)] for a string, [None] if [a] does not point to a
    string. *)
Definition text_at (h : heap) (a : Z) : option (option (list Z)) :=
  if a =? 0 then Some None
  else match h_cell h a with
       | Some (OStr bs) =>
           match cstring bs with Some cs => Some (Some cs) | None => None end
       | _ => None
       end.

(** A field holds a usable string (or NULL). *)
Definition good_string (h : heap) (a : Z) : Prop :=
  a = 0 \/
  exists bs cs, h_cell h a = Some (OStr bs) /\ holds_text bs cs /\ text cs.

(** Values of the plain fields fit their C types; pointers are 64 bit. *)
Definition good_scalars (l : layout) (f : struct) : Prop :=
  forall n k, In (n, k) l ->
    match k with
    | KInt => - 2 ^ 31 <= f n < 2 ^ 31
    | _ => 0 <= f n < 2 ^ 64
    end.

(** [k] initialised doubles / ints behind a pointer. *)
Definition good_doubles (h : heap) (a : Z) (k : nat) : Prop :=
  forall i, (i < k)%nat -> exists v, elem_at h a i = Some v /\ 0 <= v < 2 ^ 64.
Definition good_ints (h : heap) (a : Z) (k : nat) : Prop :=
  forall i, (i < k)%nat -> exists v, elem_at h a i = Some v /\ - 2 ^ 31 <= v < 2 ^ 31.

(** The heap of the receiving process: nothing allocated beyond its limit. *)
Definition good_heap (h : heap) : Prop :=
  1 <= h_next h /\ forall a, h_next h <= a -> h_cell h a = None.

(** Fields that are plain numbers. *)
Definition plain (l : layout) (n : string) : Prop :=
  exists k, In (n, k) l /\ k <> KPtr.

(** The strings and arrays among the fields of fclaw_options_t, except the two
    pointers named in [lost]. *)
Definition option_strings : list string :=
  ["run_directory"; "scale_string"; "shift_string"; "tikz_figsize_string";
   "tikz_plot_prefix"; "tikz_plot_suffix"; "prefix"; "logging_prefix"].
Definition option_arrays : list (string * nat) :=
  [("scale", 3%nat); ("shift", 3%nat); ("tikz_figsize", 2%nat)].

Definition good_options (h : heap) (f : struct) : Prop :=
  good_scalars options_layout f /\
  (forall n, In n option_strings -> good_string h (f n)) /\
  (forall n k, In (n, k) option_arrays -> good_doubles h (f n) k).

(** [f'] on a process with heap [h'] says the same as [f] with heap [h]. *)
Definition same_options (h : heap) (f : struct) (h' : heap) (f' : struct) : Prop :=
  (forall n, plain options_layout n -> n <> "is_unpacked" -> f' n = f n) /\
  f' "is_unpacked" = 1 /\
  (forall n, In n option_strings -> text_at h' (f' n) = text_at h (f n)) /\
  (forall n k i, In (n, k) option_arrays -> (i < k)%nat ->
     elem_at h' (f' n) i = elem_at h (f n) i) /\
  h_cell h' (f' "kv_timing_verbosity") = Some (OKv kv_timing).

Definition good_clawpatch (h : heap) (f : struct) : Prop :=
  good_scalars clawpatch_layout f.
Definition same_clawpatch (h : heap) (f : struct) (h' : heap) (f' : struct) : Prop :=
  (forall n, plain clawpatch_layout n -> f' n = f n) /\
  h_cell h' (f' "kv_refinement_criteria") = Some (OKv kv_refinement).

Definition clawpack46_strings : list string :=
  ["order_string"; "mthlim_string"; "mthbc_string"].
Definition clawpack46_arrays (f : struct) : list (string * nat) :=
  [("order", 2%nat); ("mthlim", Z.to_nat (f "mwaves")); ("mthbc", 4%nat)].
Definition good_clawpack46 (h : heap) (f : struct) : Prop :=
  good_scalars clawpack46_layout f /\ 0 <= f "mwaves" /\
  (forall n, In n clawpack46_strings -> good_string h (f n)) /\
  (forall n k, In (n, k) (clawpack46_arrays f) -> good_ints h (f n) k).
Definition same_clawpack46 (h : heap) (f : struct) (h' : heap) (f' : struct) : Prop :=
  (forall n, plain clawpack46_layout n -> n <> "is_unpacked" -> f' n = f n) /\
  f' "is_unpacked" = 1 /\
  (forall n, In n clawpack46_strings -> text_at h' (f' n) = text_at h (f n)) /\
  (forall n k i, In (n, k) (clawpack46_arrays f) -> (i < k)%nat ->
     elem_at h' (f' n) i = elem_at h (f n) i).

(** The contract of one options package: packing [f] (living in heap [h]) writes
    exactly the announced number of bytes and nothing else; unpacking the bytes
    anywhere, on any process, reproduces [f] without touching what that process
    had allocated; destroying the result gives every byte of heap back. *)
Definition package_ok
  (packsize : heap -> struct -> option Z)
  (pack : heap -> struct -> mem -> Z -> option (mem * Z))
  (unpack : mem -> Z -> heap -> option (heap * Z * struct * Z))
  (destroy : heap -> Z -> struct -> option heap)
  (same : heap -> struct -> heap -> struct -> Prop) (h : heap) (f : struct) : Prop :=
  exists size, packsize h f = Some size /\
  forall m a, exists m',
    pack h f m a = Some (m', size) /\
    (forall x, x < a \/ a + size <= x -> m' x = m x) /\
    forall m2 h2, (forall x, a <= x < a + size -> m2 x = m' x) -> good_heap h2 ->
    exists h2' opts f',
      unpack m2 a h2 = Some (h2', opts, f', size) /\
      same h f h2' f' /\
      (forall x, x < h_next h2 -> h_cell h2' x = h_cell h2 x) /\
      exists h3, destroy h2' opts f' = Some h3 /\
                 forall x, h_cell h3 x = h_cell h2 x.

(** Contract of an external packing vtable for the value [v]: [v] is read back as
    some [v'] with [eqv v v']. *)
Definition vtable_ok {V D} (eqv : V -> V -> Prop) (vt : vtable V D) (v : V) : Prop :=
  exists size v', vt_size vt v = Some size /\ 0 <= size /\ eqv v v' /\
    round_trip (vt_pack vt v) (vt_unpack vt) size v'.
