(** Packing of scalars, strings, option structs and the global state.

    src/fclaw_packing.c, src/fclaw_packing.h, src/fclaw_options.c:412-548,
    src/patches/clawpatch/fclaw2d_clawpatch_options.c:165-222,
    src/solvers/fc2d_clawpack4.6/fc2d_clawpack46_options.c:105-213,
    src/fclaw2d_global.c:132-222.

    A function that packs takes the memory and the address the buffer pointer
    points to, and returns the changed memory and the number of bytes written.
    [None] is undefined behaviour or an abort. *)
From Coq Require Import String ZArith List Lia Bool.
From Verif Require Import Base_Mem.
Import ListNotations.
Local Open Scope Z_scope.

Definition bind {A B} (x : option A) (f : A -> option B) : option B :=
  match x with Some a => f a | None => None end.

(* ---------------------------------------------------------------- scalars *)

(** fclaw_packing.h:39-43 FCLAW_PACK of a scalar whose bytes are [bs]. *)
Definition pack_bytes (bs : list Z) (m : mem) (a : Z) : mem * Z :=
  (mstore m a bs, Z.of_nat (length bs)).

(** fclaw_packing.c:62-64 fclaw_pack_int; sizeof(int) = 4. *)
Definition pack_int (v : Z) (m : mem) (a : Z) : mem * Z :=
  pack_bytes (le_bytes 4 v) m a.

(** fclaw_packing.c:66-68 fclaw_unpack_int: value and bytes read. *)
Definition unpack_int (m : mem) (a : Z) : Z * Z :=
  (to_int32 (le_val (mload m a 4)), 4).

(** fclaw_packing.c:70-72 fclaw_pack_size_t; sizeof(size_t) = 8. *)
Definition pack_size_t (v : Z) (m : mem) (a : Z) : mem * Z :=
  pack_bytes (le_bytes 8 v) m a.

(** fclaw_packing.c:74-76 fclaw_unpack_size_t. *)
Definition unpack_size_t (m : mem) (a : Z) : Z * Z := (le_val (mload m a 8), 8).

(** fclaw_packing.c:78-80 fclaw_pack_double, on the bit pattern. *)
Definition pack_double (v : Z) (m : mem) (a : Z) : mem * Z :=
  pack_bytes (le_bytes 8 v) m a.

(** fclaw_packing.c:82-84 fclaw_unpack_double. *)
Definition unpack_double (m : mem) (a : Z) : Z * Z := (le_val (mload m a 8), 8).

(* ---------------------------------------------------------------- strings *)

(** A [char *] is NULL ([None]) or points to a block of bytes.  strlen: position
    of the first zero byte; no zero byte in the block is undefined behaviour. *)
Fixpoint strlen (s : list Z) : option nat :=
  match s with
  | [] => None
  | b :: tl => if b =? 0 then Some O
               else match strlen tl with Some n => Some (S n) | None => None end
  end.

(** fclaw_packing.c:30-32 fclaw_packsize_string. *)
Definition packsize_string (s : option (list Z)) : option Z :=
  match s with
  | None => Some (8 + 0)
  | Some bs => bind (strlen bs) (fun n => Some (8 + (Z.of_nat n + 1)))
  end.

(** fclaw_packing.c:34-45 fclaw_pack_string. *)
Definition pack_string (s : option (list Z)) (m : mem) (a : Z) : option (mem * Z) :=
  match s with
  | None => let '(m, k) := pack_size_t 0 m a in Some (m, k)
  | Some bs =>
      bind (strlen bs) (fun n =>
      let length := Z.of_nat n + 1 in
      let '(m, k) := pack_size_t length m a in
      let m := mstore m (a + k) (firstn (S n) bs) in
      Some (m, k + length))
  end.

(** fclaw_packing.c:47-60 fclaw_unpack_string: the pointer stored in *string
    (NULL or a new block) and the bytes read. *)
Definition unpack_string (m : mem) (a : Z) : option (list Z) * Z :=
  let '(length, k) := unpack_size_t m a in
  if length =? 0 then (None, k)
  else (Some (mload m (a + k) (Z.to_nat length)), k + length).

(* ---------------------------------------------------------- heap, structs *)

(** Objects a pointer inside an option struct can point to: a char block, an
    array of int or double (entries may be uninitialised), a key-value table,
    the option struct itself. *)
Inductive obj :=
| OStr (bs : list Z)
| OArr (l : list (option Z))
| OKv (l : list (string * Z))
| OStruct.

(** Heap of one process.  Address 0 is NULL; malloc returns the next address.
    (Simplification: addresses are not reused, blocks have no size in bytes.) *)
Record heap := mkH { h_next : Z; h_cell : Z -> option obj }.

Definition halloc (h : heap) (o : obj) : heap * Z :=
  (mkH (h_next h + 1) (fun x => if x =? h_next h then Some o else h_cell h x), h_next h).

Definition hset (h : heap) (a : Z) (o : obj) : heap :=
  mkH (h_next h) (fun x => if x =? a then Some o else h_cell h x).

(** FCLAW_FREE: free(NULL) is a no-op, freeing a non-allocated address is
    undefined. *)
Definition hfree (h : heap) (a : Z) : option heap :=
  if a =? 0 then Some h
  else match h_cell h a with
       | None => None
       | Some _ => Some (mkH (h_next h) (fun x => if x =? a then None else h_cell h x))
       end.

(** Field kinds, a struct layout, and the values of the fields of one struct
    (ints as signed numbers, doubles as bit patterns, pointers as addresses). *)
Inductive kind := KInt | KDbl | KPtr.
Definition layout := list (string * kind).
Definition struct := string -> Z.

Definition ksize (k : kind) : nat := match k with KInt => 4 | _ => 8 end.

Definition setf (f : struct) (n : string) (v : Z) : struct :=
  fun x => if String.eqb x n then v else f x.

(** Padding inserted before a field of alignment [k] at offset [off]. *)
Definition pad (off : nat) (k : kind) : nat :=
  ((ksize k - off mod ksize k) mod ksize k)%nat.

(** Bytes of the struct, in order of declaration, with the alignment padding
    (whose content is arbitrary in C; zero here). *)
Fixpoint struct_bytes (l : layout) (off : nat) (f : struct) : list Z :=
  match l with
  | [] => repeat 0 ((8 - off mod 8) mod 8)
  | (n, k) :: tl =>
      repeat 0 (pad off k) ++ le_bytes (ksize k) (f n)
      ++ struct_bytes tl (off + pad off k + ksize k) f
  end.

(** sizeof(struct) *)
Fixpoint struct_size (l : layout) (off : nat) : nat :=
  match l with
  | [] => off + (8 - off mod 8) mod 8
  | (n, k) :: tl => struct_size tl (off + pad off k + ksize k)
  end.

(** Read the struct stored at [a]. *)
Fixpoint read_struct (m : mem) (a : Z) (l : layout) (off : nat) (f : struct) : struct :=
  match l with
  | [] => f
  | (n, k) :: tl =>
      let v := le_val (mload m (a + Z.of_nat (off + pad off k)) (ksize k)) in
      let v := match k with KInt => to_int32 v | _ => v end in
      read_struct m a tl (off + pad off k + ksize k) (setf f n v)
  end.

(** The straight-line code of the pack and unpack routines, as instructions:
    one string field; element [i] of a double array field; element [i] of an
    int array field; (unpack only) allocate an array for a field. *)
Inductive ins :=
| IStr (n : string)
| IDbl (n : string) (i : nat)
| IInt (n : string) (i : nat)
| IAlloc (n : string) (k : nat).

(** What a [char *] field points to. *)
Definition str_at (h : heap) (a : Z) : option (option (list Z)) :=
  if a =? 0 then Some None
  else match h_cell h a with Some (OStr bs) => Some (Some bs) | _ => None end.

(** Element [i] of the array at address [a]; reading outside the array or an
    uninitialised element is undefined. *)
Definition elem_at (h : heap) (a : Z) (i : nat) : option Z :=
  match h_cell h a with Some (OArr l) => nth i l None | _ => None end.

(** One "buffer += fclaw_pack_...(opts->field, buffer)" statement. *)
Definition pack_ins (h : heap) (f : struct) (x : ins) (m : mem) (p : Z)
  : option (mem * Z) :=
  match x with
  | IStr n => bind (str_at h (f n)) (fun s =>
              bind (pack_string s m p) (fun '(m, k) => Some (m, p + k)))
  | IDbl n i => bind (elem_at h (f n) i) (fun v =>
                let '(m, k) := pack_double v m p in Some (m, p + k))
  | IInt n i => bind (elem_at h (f n) i) (fun v =>
                let '(m, k) := pack_int v m p in Some (m, p + k))
  | IAlloc _ _ => Some (m, p)
  end.

Fixpoint pack_prog (h : heap) (f : struct) (l : list ins) (m : mem) (p : Z)
  : option (mem * Z) :=
  match l with
  | [] => Some (m, p)
  | x :: tl => bind (pack_ins h f x m p) (fun '(m, p) => pack_prog h f tl m p)
  end.

Fixpoint upd_nth {A} (l : list A) (i : nat) (x : A) : list A :=
  match l, i with
  | [], _ => []
  | _ :: tl, O => x :: tl
  | y :: tl, S j => y :: upd_nth tl j x
  end.

(** Store element [i] of the array at [a]; outside is undefined. *)
Definition set_elem (h : heap) (a : Z) (i : nat) (v : Z) : option heap :=
  match h_cell h a with
  | Some (OArr l) =>
      if (i <? length l)%nat then Some (hset h a (OArr (upd_nth l i (Some v)))) else None
  | _ => None
  end.

(** One "buffer += fclaw_unpack_...(buffer, &opts->field)" statement. *)
Definition unpack_ins (m : mem) (x : ins) (st : heap * struct * Z)
  : option (heap * struct * Z) :=
  let '(h, f, p) := st in
  match x with
  | IStr n =>
      let '(s, k) := unpack_string m p in
      match s with
      | None => Some (h, setf f n 0, p + k)
      | Some bs => let '(h, a) := halloc h (OStr bs) in Some (h, setf f n a, p + k)
      end
  | IDbl n i => let '(v, k) := unpack_double m p in
                bind (set_elem h (f n) i v) (fun h => Some (h, f, p + k))
  | IInt n i => let '(v, k) := unpack_int m p in
                bind (set_elem h (f n) i v) (fun h => Some (h, f, p + k))
  | IAlloc n k => let '(h, a) := halloc h (OArr (repeat None k)) in
                  Some (h, setf f n a, p)
  end.

Fixpoint unpack_prog (m : mem) (l : list ins) (st : heap * struct * Z)
  : option (heap * struct * Z) :=
  match l with
  | [] => Some st
  | x :: tl => bind (unpack_ins m x st) (unpack_prog m tl)
  end.

(* -------------------------------------------------------- fclaw_options_t *)

Local Open Scope string_scope.
Local Open Scope list_scope.
Local Open Scope Z_scope.

(** fclaw_options.h:125-238 struct fclaw_options *)
Definition options_layout : layout :=
  [("dim", KInt); ("run_directory", KPtr);
   ("initial_dt", KDbl); ("tfinal", KDbl); ("outstyle", KInt); ("nout", KInt);
   ("nstep", KInt); ("subcycle", KInt); ("use_fixed_dt", KInt); ("max_cfl", KDbl);
   ("desired_cfl", KDbl); ("reduce_cfl", KInt); ("tout", KPtr);
   ("refratio", KInt); ("minlevel", KInt); ("maxlevel", KInt);
   ("regrid_interval", KInt); ("smooth_refine", KInt); ("smooth_level", KInt);
   ("refine_threshold", KDbl); ("time_sync", KInt);
   ("output_gauges", KInt); ("gauge_buffer_length", KInt); ("output_rays", KInt);
   ("manifold", KInt); ("mi", KInt); ("mj", KInt); ("periodic_x", KInt);
   ("periodic_y", KInt); ("flux_correction", KInt); ("fluctuation_correction", KInt);
   ("coarsen_delay", KInt); ("coarsen_threshold", KDbl); ("init_ghostcell", KInt);
   ("advance_one_step", KInt); ("outstyle_uses_maxlevel", KInt);
   ("timeinterp2fillghost", KInt);
   ("scale_string", KPtr); ("scale", KPtr); ("shift_string", KPtr); ("shift", KPtr);
   ("theta", KDbl); ("phi", KDbl); ("ax", KDbl); ("bx", KDbl); ("ay", KDbl);
   ("by", KDbl); ("az", KDbl); ("bz", KDbl);
   ("run_user_diagnostics", KInt); ("compute_error", KInt);
   ("conservation_check", KInt); ("trapfpe", KInt); ("report_timing", KInt);
   ("report_timing_verbosity", KInt); ("kv_timing_verbosity", KPtr);
   ("mpi_debug", KInt); ("ghost_patch_pack_area", KInt);
   ("ghost_patch_pack_extra", KInt); ("ghost_patch_pack_numextrafields", KInt);
   ("verbosity", KInt); ("output", KInt); ("tikz_out", KInt);
   ("tikz_figsize_string", KPtr); ("tikz_figsize", KPtr); ("tikz_plot_fig", KInt);
   ("tikz_plot_prefix", KPtr); ("tikz_plot_suffix", KPtr); ("tikz_mesh_only", KInt);
   ("prefix", KPtr); ("vtkspace", KDbl); ("weighted_partition", KInt);
   ("is_registered", KInt); ("is_unpacked", KInt); ("logging_prefix", KPtr);
   ("regression_check", KPtr)].

(** fclaw_options.c:478-492, the statements of options_pack after the struct. *)
Definition options_pack_prog : list ins :=
  [IStr "run_directory"; IStr "scale_string"; IStr "shift_string"]
  ++ flat_map (fun i => [IDbl "scale" i; IDbl "shift" i]) (seq 0 3)
  ++ [IStr "tikz_figsize_string"; IDbl "tikz_figsize" 0; IDbl "tikz_figsize" 1;
      IStr "tikz_plot_prefix"; IStr "tikz_plot_suffix"; IStr "prefix";
      IStr "logging_prefix"].

(** fclaw_options.c:506-522, the statements of options_unpack. *)
Definition options_unpack_prog : list ins :=
  [IStr "run_directory"; IStr "scale_string"; IStr "shift_string";
   IAlloc "scale" 3; IAlloc "shift" 3]
  ++ flat_map (fun i => [IDbl "scale" i; IDbl "shift" i]) (seq 0 3)
  ++ [IStr "tikz_figsize_string"; IAlloc "tikz_figsize" 2;
      IDbl "tikz_figsize" 0; IDbl "tikz_figsize" 1;
      IStr "tikz_plot_prefix"; IStr "tikz_plot_suffix"; IStr "prefix";
      IStr "logging_prefix"].

(** fclaw_timer.h:107-114 FCLAW_TIMER_PRIORITY_ constants, as stored by
    fclaw_options.c:243-250 and 524-531. *)
Definition kv_timing : list (string * Z) :=
  [("wall", 7); ("summary", 6); ("exclusive", 5); ("counters", 4); ("details", 1);
   ("extra", 0); ("all", 0)].

(** Adding sizes that may be undefined. *)
Definition osum (l : list (option Z)) : option Z :=
  fold_right (fun x acc => bind x (fun a => bind acc (fun b => Some (a + b)))) (Some 0) l.

Definition size_str (h : heap) (f : struct) (n : string) : option Z :=
  bind (str_at h (f n)) packsize_string.

(** fclaw_options.c:451-468 options_packsize *)
Definition options_packsize (h : heap) (f : struct) : option Z :=
  osum [Some (Z.of_nat (struct_size options_layout 0));
        size_str h f "run_directory"; size_str h f "scale_string";
        size_str h f "shift_string"; Some (3 * 8); Some (3 * 8);
        size_str h f "tikz_figsize_string"; Some (2 * 8);
        size_str h f "tikz_plot_prefix"; size_str h f "tikz_plot_suffix";
        size_str h f "prefix"; size_str h f "logging_prefix"].

(** fclaw_options.c:470-495 options_pack *)
Definition options_pack (h : heap) (f : struct) (m : mem) (a : Z) : option (mem * Z) :=
  let '(m, k) := pack_bytes (struct_bytes options_layout 0 f) m a in
  bind (pack_prog h f options_pack_prog m (a + k)) (fun '(m, p) => Some (m, p - a)).

(** fclaw_options.c:497-536 options_unpack.  Returns the heap, the address of
    the new struct, its fields and the number of bytes read.  The key-value
    table is created by sc_keyvalue_new and filled in. *)
Definition options_unpack (m : mem) (a : Z) (h : heap)
  : option (heap * Z * struct * Z) :=
  let '(h, opts) := halloc h OStruct in
  let f := read_struct m a options_layout 0 (fun _ => 0) in
  bind (unpack_prog m options_unpack_prog
          (h, f, a + Z.of_nat (struct_size options_layout 0))) (fun '(h, f, p) =>
  let '(h, kv) := halloc h (OKv kv_timing) in
  let f := setf f "kv_timing_verbosity" kv in
  let f := setf f "is_unpacked" 1 in
  Some (h, opts, f, p - a)).

Fixpoint hfrees (h : heap) (l : list Z) : option heap :=
  match l with
  | [] => Some h
  | a :: tl => bind (hfree h a) (fun h => hfrees h tl)
  end.

(** fclaw_options.c:415-438 fclaw_options_destroy *)
Definition options_destroy (h : heap) (opts : Z) (f : struct) : option heap :=
  bind (hfrees h (map f ["scale"; "shift"; "tikz_figsize"])) (fun h =>
  if f "kv_timing_verbosity" =? 0 then None else
  bind (hfrees h [f "kv_timing_verbosity"]) (fun h =>
  bind (if f "is_unpacked" =? 0 then Some h else
        hfrees h (map f ["run_directory"; "scale_string"; "shift_string";
                         "tikz_figsize_string"; "tikz_plot_prefix";
                         "tikz_plot_suffix"; "prefix"; "logging_prefix"])) (fun h =>
  hfrees h [opts]))).

(* ------------------------------------------------ fclaw2d_clawpatch_options *)

(** fclaw2d_clawpatch_options.h:66-88 *)
Definition clawpatch_layout : layout :=
  [("mx", KInt); ("my", KInt); ("maux", KInt); ("mbc", KInt); ("meqn", KInt);
   ("rhs_fields", KInt); ("refinement_criteria", KInt);
   ("kv_refinement_criteria", KPtr); ("threshold_variable", KInt);
   ("interp_stencil_width", KInt); ("ghost_patch_pack_aux", KInt);
   ("save_aux", KInt); ("is_registered", KInt)].

(** fclaw2d_clawpatch_options.c:52-64 kv_refinement_criterea_new *)
Definition kv_refinement : list (string * Z) :=
  [("value", 0); ("difference", 1); ("minmax", 2); ("gradient", 3); ("user", 4)].

(** fclaw2d_clawpatch_options.c:178-182 options_packsize *)
Definition clawpatch_packsize (h : heap) (f : struct) : option Z :=
  Some (Z.of_nat (struct_size clawpatch_layout 0)).

(** fclaw2d_clawpatch_options.c:184-191 options_pack *)
Definition clawpatch_pack (h : heap) (f : struct) (m : mem) (a : Z) : option (mem * Z) :=
  Some (pack_bytes (struct_bytes clawpatch_layout 0 f) m a).

(** fclaw2d_clawpatch_options.c:193-209 options_unpack *)
Definition clawpatch_unpack (m : mem) (a : Z) (h : heap)
  : option (heap * Z * struct * Z) :=
  let '(h, opts) := halloc h OStruct in
  let f := read_struct m a clawpatch_layout 0 (fun _ => 0) in
  let '(h, kv) := halloc h (OKv kv_refinement) in
  let f := setf f "kv_refinement_criteria" kv in
  Some (h, opts, f, Z.of_nat (struct_size clawpatch_layout 0)).

(** fclaw2d_clawpatch_options.c:165-176 clawpatch_destroy *)
Definition clawpatch_destroy (h : heap) (opts : Z) (f : struct) : option heap :=
  if f "kv_refinement_criteria" =? 0 then None else
  bind (hfrees h [f "kv_refinement_criteria"]) (fun h => hfrees h [opts]).

(* -------------------------------------------------- fc2d_clawpack46_options *)

(** fc2d_clawpack46_options.h:44-69.  [method] is an int[7] inside the struct. *)
Definition clawpack46_layout : layout :=
  [("mwaves", KInt); ("order_string", KPtr); ("order", KPtr); ("mthlim", KPtr);
   ("mthlim_string", KPtr); ("mthbc", KPtr); ("mthbc_string", KPtr);
   ("method0", KInt); ("method1", KInt); ("method2", KInt); ("method3", KInt);
   ("method4", KInt); ("method5", KInt); ("method6", KInt); ("mcapa", KInt);
   ("src_term", KInt); ("use_fwaves", KInt); ("ascii_out", KInt); ("vtk_out", KInt);
   ("is_registered", KInt); ("is_unpacked", KInt)].

(** fc2d_clawpack46_options.c:156-168; the loop bound mwaves is read from the
    struct. *)
Definition clawpack46_pack_prog (mwaves : nat) : list ins :=
  [IStr "order_string"; IInt "order" 0; IInt "order" 1]
  ++ map (IInt "mthlim") (seq 0 mwaves)
  ++ [IStr "mthlim_string"] ++ map (IInt "mthbc") (seq 0 4) ++ [IStr "mthbc_string"].

(** fc2d_clawpack46_options.c:185-200 *)
Definition clawpack46_unpack_prog (mwaves : nat) : list ins :=
  [IStr "order_string"; IAlloc "order" 2; IInt "order" 0; IInt "order" 1;
   IAlloc "mthlim" mwaves]
  ++ map (IInt "mthlim") (seq 0 mwaves)
  ++ [IStr "mthlim_string"; IAlloc "mthbc" 4] ++ map (IInt "mthbc") (seq 0 4)
  ++ [IStr "mthbc_string"].

(** fc2d_clawpack46_options.c:129-143 options_packsize *)
Definition clawpack46_packsize (h : heap) (f : struct) : option Z :=
  if f "mwaves" <? 0 then None else
  osum [Some (Z.of_nat (struct_size clawpack46_layout 0));
        size_str h f "order_string"; Some (2 * 4); Some (f "mwaves" * 4);
        size_str h f "mthlim_string"; Some (4 * 4); size_str h f "mthbc_string"].

(** fc2d_clawpack46_options.c:145-171 options_pack.  A negative mwaves is
    converted to a huge size_t loop bound: undefined. *)
Definition clawpack46_pack (h : heap) (f : struct) (m : mem) (a : Z)
  : option (mem * Z) :=
  let '(m, k) := pack_bytes (struct_bytes clawpack46_layout 0 f) m a in
  if f "mwaves" <? 0 then None else
  bind (pack_prog h f (clawpack46_pack_prog (Z.to_nat (f "mwaves"))) m (a + k))
       (fun '(m, p) => Some (m, p - a)).

(** fc2d_clawpack46_options.c:173-205 options_unpack *)
Definition clawpack46_unpack (m : mem) (a : Z) (h : heap)
  : option (heap * Z * struct * Z) :=
  let '(h, opts) := halloc h OStruct in
  let f := read_struct m a clawpack46_layout 0 (fun _ => 0) in
  if f "mwaves" <? 0 then None else
  bind (unpack_prog m (clawpack46_unpack_prog (Z.to_nat (f "mwaves")))
          (h, f, a + Z.of_nat (struct_size clawpack46_layout 0))) (fun '(h, f, p) =>
  Some (h, opts, setf f "is_unpacked" 1, p - a)).

(** fc2d_clawpack46_options.c:105-121 clawpack46_destroy *)
Definition clawpack46_destroy (h : heap) (opts : Z) (f : struct) : option heap :=
  bind (hfrees h (map f ["mthbc"; "order"; "mthlim"])) (fun h =>
  bind (if f "is_unpacked" =? 0 then Some h else
        hfrees h (map f ["order_string"; "mthlim_string"; "mthbc_string"])) (fun h =>
  hfrees h [opts])).

(* -------------------------------------------------------------- global *)

Section Global.
  (** A value stored under a key of the options map, and a pointer to a
      destroy function. *)
  Variable V D : Type.

  (** fclaw_packing.h:78-84 struct fclaw_packing_vtable; external functions. *)
  Record vtable := mkVT {
    vt_pack : V -> mem -> Z -> option (mem * Z);
    vt_unpack : mem -> Z -> option (V * Z);
    vt_size : V -> option Z;
    vt_destroy : D }.

  (** fclaw_base.c:940-946 fclaw_app_get_options_packing_vtable *)
  Variable registry : list Z -> option vtable.

  (** The fields of fclaw2d_global_t that are packed.  [g_options] is the
      pointer map, listed in the order in which the iterator visits it; a key
      is the list of its characters.  A value comes with its destroy function
      ([None] is NULL). *)
  Record glob := mkG {
    g_curr_time : Z; g_curr_dt : Z;
    g_options : list (list Z * (V * option D)) }.

  (** fclaw2d_global.c:144-157 pack_iterator_callback under
      fclaw_pointer_map_iterate *)
  Fixpoint pack_options (l : list (list Z * (V * option D))) (m : mem) (p : Z)
    : option (mem * Z) :=
    match l with
    | [] => Some (m, p)
    | (key, (v, _)) :: tl =>
        bind (pack_string (Some (key ++ [0])) m p) (fun '(m, k) =>
        bind (registry key) (fun vt =>
        bind (vt_pack vt v m (p + k)) (fun '(m, k') =>
        pack_options tl m (p + k + k'))))
    end.

  (** fclaw2d_global.c:159-172 fclaw2d_global_pack *)
  Definition global_pack (g : glob) (m : mem) (a : Z) : option (mem * Z) :=
    let '(m, k1) := pack_double (g_curr_time g) m a in
    let '(m, k2) := pack_double (g_curr_dt g) m (a + k1) in
    let '(m, k3) := pack_size_t (Z.of_nat (length (g_options g))) m (a + k1 + k2) in
    bind (pack_options (g_options g) m (a + k1 + k2 + k3)) (fun '(m, p) =>
    Some (m, p - a)).

  (** fclaw2d_global.c:174-189 packsize_iterator_callback, fclaw2d_global_packsize *)
  Definition global_packsize (g : glob) : option Z :=
    bind (fold_left (fun acc '(key, (v, _)) =>
            bind acc (fun s =>
            bind (registry key) (fun vt =>
            bind (packsize_string (Some (key ++ [0]))) (fun a =>
            bind (vt_size vt v) (fun b => Some (s + (a + b)))))))
          (g_options g) (Some 8)) (fun options_size =>
    Some (2 * 8 + options_size)).

  (** fclaw_pointer_map.c:70-97 fclaw_pointer_map_insert on an association
      list: an existing value is overwritten in place, a new key is added.
      (Where a new entry appears in iteration order is up to the hash table; it
      is appended here.  Destroying the old value has no effect on the list.) *)
  Fixpoint map_insert (l : list (list Z * (V * option D))) (key : list Z)
           (v : V * option D) : list (list Z * (V * option D)) :=
    match l with
    | [] => [(key, v)]
    | (k, w) :: tl =>
        if list_eq_dec Z.eq_dec k key then (k, v) :: tl
        else (k, w) :: map_insert tl key v
    end.

  (** characters of a C string up to the terminating zero *)
  Definition cstring (bs : list Z) : option (list Z) :=
    bind (strlen bs) (fun n => Some (firstn n bs)).

  (** fclaw2d_global.c:204-214, the loop of fclaw2d_global_unpack *)
  Fixpoint unpack_options (n : nat) (m : mem) (p : Z)
           (acc : list (list Z * (V * option D)))
    : option (list (list Z * (V * option D)) * Z) :=
    match n with
    | O => Some (acc, p)
    | S n =>
        let '(key, k) := unpack_string m p in
        bind key (fun key => bind (cstring key) (fun key =>
        bind (registry key) (fun vt =>
        bind (vt_unpack vt m (p + k)) (fun '(v, k') =>
        unpack_options n m (p + k + k')
          (map_insert acc key (v, Some (vt_destroy vt)))))))
    end.

  (** fclaw2d_global.c:191-218 fclaw2d_global_unpack *)
  Definition global_unpack (m : mem) (a : Z) : option (glob * Z) :=
    let '(t, k1) := unpack_double m a in
    let '(dt, k2) := unpack_double m (a + k1) in
    let '(num, k3) := unpack_size_t m (a + k1 + k2) in
    bind (unpack_options (Z.to_nat num) m (a + k1 + k2 + k3) []) (fun '(l, p) =>
    Some (mkG t dt l, p - a)).
End Global.

Arguments mkVT {V D}. Arguments vt_pack {V D}. Arguments vt_unpack {V D}.
Arguments vt_size {V D}. Arguments vt_destroy {V D}.
Arguments mkG {V D}. Arguments g_curr_time {V D}. Arguments g_curr_dt {V D}.
Arguments g_options {V D}.
