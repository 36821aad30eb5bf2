(** Error codes and collective error handling of data files: src/fclaw2d_file.c, src/fclaw2d_file.h:52-80.

    The outcome of every I/O call is an input.  MPI error classes are integers given by the MPI library. *)
From Coq Require Import ZArith String List Bool.
Import ListNotations.
Open Scope Z_scope.

(** Error classes of the MPI library (sc_mpi.h) *)
Record mpi := mkMpi {
  m_file : Z; m_not_same : Z; m_amode : Z; m_no_such_file : Z; m_file_exists : Z; m_bad_file : Z; m_access : Z; m_no_space : Z;
  m_quota : Z; m_read_only : Z; m_in_use : Z; m_unknown : Z; m_datarep : Z; m_operation : Z; m_dup : Z; m_conversion : Z; m_lastcode : Z }.
Definition MPI_SUCCESS := 0.

Section Codes.
  Variable m : mpi.

  (** fclaw2d_file.c:134-163 fclaw2d_file_error_v1 *)
  Definition V1_SUCCESS := m_lastcode m.
  Definition V1 (n : Z) := m_lastcode m + n.
  Definition V1_FILE := V1 1. Definition V1_NOT_SAME := V1 2. Definition V1_AMODE := V1 3. Definition V1_NO_SUCH_FILE := V1 4.
  Definition V1_FILE_EXIST := V1 5. Definition V1_BAD_FILE := V1 6. Definition V1_ACCESS := V1 7. Definition V1_NO_SPACE := V1 8.
  Definition V1_QUOTA := V1 9. Definition V1_READ_ONLY := V1 10. Definition V1_IN_USE := V1 11. Definition V1_IO := V1 12.
  Definition V1_FORMAT := V1 13. Definition V1_SECTION_TYPE := V1 14. Definition V1_CONN := V1 15. Definition V1_P4EST := V1 16.
  Definition V1_IN_DATA := V1 17. Definition V1_COUNT := V1 18. Definition V1_UNKNOWN := V1 19. Definition V1_LASTCODE := V1 20.

  (** fclaw2d_file.h:52-80 fclaw2d_file_error *)
  Definition ERR_SUCCESS := 0.
  Definition ERR (n : Z) := m_lastcode m + n.
  Definition ERR_FILE := ERR 0. Definition ERR_NOT_SAME := ERR 1. Definition ERR_AMODE := ERR 2. Definition ERR_NO_SUCH_FILE := ERR 3.
  Definition ERR_FILE_EXIST := ERR 4. Definition ERR_BAD_FILE := ERR 5. Definition ERR_ACCESS := ERR 6. Definition ERR_NO_SPACE := ERR 7.
  Definition ERR_QUOTA := ERR 8. Definition ERR_READ_ONLY := ERR 9. Definition ERR_IN_USE := ERR 10. Definition ERR_IO := ERR 11.
  Definition ERR_FORMAT := ERR 12. Definition ERR_SECTION_TYPE := ERR 13. Definition ERR_CONN := ERR 14. Definition ERR_P4EST := ERR 15.
  Definition ERR_IN_DATA := ERR 16. Definition ERR_COUNT := ERR 17. Definition ERR_NOT_IMPLEMENTED := ERR 18. Definition ERR_UNKNOWN := ERR 19.
  Definition ERR_LASTCODE := ERR 20.

  (** a switch statement: the first matching case *)
  Fixpoint switch {A} (n : Z) (cases : list (Z * A)) (default : A) : A :=
    match cases with
    | [] => default
    | (k, a) :: tl => if n =? k then a else switch n tl default
    end.

  (** fclaw2d_file.c:2183-2258 fclaw2d_file_error_code_v1 *)
  Definition error_code (errcode : Z) : option Z :=
    if negb (((MPI_SUCCESS <=? errcode) && (errcode <? m_lastcode m)) || ((V1_SUCCESS <=? errcode) && (errcode <? V1_LASTCODE))) then None else
    if (V1_SUCCESS <=? errcode) && (errcode <? V1_LASTCODE) then Some errcode else
    Some (switch errcode
      [ (MPI_SUCCESS, V1_SUCCESS); (m_file m, V1_FILE); (m_not_same m, V1_NOT_SAME); (m_amode m, V1_AMODE); (m_no_such_file m, V1_NO_SUCH_FILE);
        (m_file_exists m, V1_FILE_EXIST); (m_bad_file m, V1_BAD_FILE); (m_access m, V1_ACCESS); (m_no_space m, V1_NO_SPACE); (m_quota m, V1_QUOTA);
        (m_read_only m, V1_READ_ONLY); (m_in_use m, V1_IN_USE); (m_unknown m, V1_UNKNOWN);
        (m_datarep m, V1_IO); (m_operation m, V1_IO); (m_dup m, V1_IO); (m_conversion m, V1_IO) ] V1_UNKNOWN).

  (** fclaw2d_file.c:2270-2366 fclaw2d_file_error_string_v1; [None] is SC_ABORT_NOT_REACHED or the assertion; [inr c] is the message
      of sc_MPI_Error_string for class [c] *)
  Definition error_string (errclass : Z) : option (string + Z) :=
    if negb ((V1_SUCCESS <=? errclass) && (errclass <? V1_LASTCODE)) then None else
    switch errclass
      [ (V1_SUCCESS, Some (inl "No fclaw2d file error"%string)); (V1_FORMAT, Some (inl "Wrong file format"%string));
        (V1_SECTION_TYPE, Some (inl "Valid non-matching section type"%string)); (V1_CONN, Some (inl "Invalid serialized connectivity data"%string));
        (V1_P4EST, Some (inl "Invalid p4est data"%string)); (V1_IN_DATA, Some (inl "Invalid input data"%string));
        (V1_COUNT, Some (inl "Read or write count error that is not classified as an other error"%string));
        (V1_FILE, Some (inr (m_file m))); (V1_NOT_SAME, Some (inr (m_not_same m))); (V1_AMODE, Some (inr (m_amode m)));
        (V1_NO_SUCH_FILE, Some (inr (m_no_such_file m))); (V1_FILE_EXIST, Some (inr (m_file_exists m))); (V1_BAD_FILE, Some (inr (m_bad_file m)));
        (V1_ACCESS, Some (inr (m_access m))); (V1_NO_SPACE, Some (inr (m_no_space m))); (V1_QUOTA, Some (inr (m_quota m)));
        (V1_READ_ONLY, Some (inr (m_read_only m))); (V1_IN_USE, Some (inr (m_in_use m))); (V1_UNKNOWN, Some (inr (m_unknown m))) ] None.

  (** fclaw2d_file.c:3000-3074 fclaw2d_file_translate_error_code_v1 *)
  Definition translate (c : Z) : Z :=
    switch c
      [ (V1_SUCCESS, ERR_SUCCESS); (V1_FILE, ERR_FILE); (V1_NOT_SAME, ERR_NOT_SAME); (V1_AMODE, ERR_AMODE); (V1_NO_SUCH_FILE, ERR_NO_SUCH_FILE);
        (V1_FILE_EXIST, ERR_FILE_EXIST); (V1_BAD_FILE, ERR_BAD_FILE); (V1_ACCESS, ERR_ACCESS); (V1_NO_SPACE, ERR_NO_SPACE); (V1_QUOTA, ERR_QUOTA);
        (V1_READ_ONLY, ERR_READ_ONLY); (V1_IN_USE, ERR_IN_USE); (V1_IO, ERR_IO); (V1_FORMAT, ERR_FORMAT); (V1_SECTION_TYPE, ERR_SECTION_TYPE);
        (V1_CONN, ERR_CONN); (V1_P4EST, ERR_P4EST); (V1_IN_DATA, ERR_IN_DATA); (V1_COUNT, ERR_COUNT); (V1_UNKNOWN, ERR_UNKNOWN); (V1_LASTCODE, ERR_LASTCODE) ]
      ERR_UNKNOWN.

  (** fclaw2d_file.c:3250-3279 fclaw2d_file_error_string: the return value and the message *)
  Definition public_error_string (errcode : Z) : Z * option string :=
    if errcode =? ERR_NOT_IMPLEMENTED then (0, Some "The functionality must be still implemented.
"%string) else (-1, None).

  (** * Processes *)
  (** What a process does next: finish, abort the program, or take part in a collective call.  A broadcast comes from rank 0. *)
  Inductive collective := SetSize | WriteAll | Open | Close.
  Inductive proc (A : Type) :=
  | Ret (a : A) | Abort | Bcast (v : Z) (k : Z -> proc A) | Lor (b : bool) (k : bool -> proc A) | Coll (c : collective) (k : proc A).
  Arguments Ret {A} a. Arguments Abort {A}. Arguments Bcast {A} v k. Arguments Lor {A} b k. Arguments Coll {A} c k.

  Fixpoint pbind {A B} (p : proc A) (f : A -> proc B) : proc B :=
    match p with
    | Ret a => f a
    | Abort => Abort
    | Bcast v k => Bcast v (fun x => pbind (k x) f)
    | Lor b k => Lor b (fun x => pbind (k x) f)
    | Coll c k => Coll c (pbind k f)
    end.

  Fixpoint all_some {A} (l : list (option A)) : option (list A) :=
    match l with
    | [] => Some []
    | Some a :: tl => match all_some tl with Some r => Some (a :: r) | None => None end
    | None :: _ => None
    end.
  Definition is_ret {A} (p : proc A) := match p with Ret a => Some a | _ => None end.
  Definition is_bcast {A} (p : proc A) := match p with Bcast _ k => Some k | _ => None end.
  Definition is_lor {A} (p : proc A) := match p with Lor b k => Some (b, k) | _ => None end.
  Definition coll_eqb (a b : collective) := match a, b with SetSize, SetSize | WriteAll, WriteAll | Open, Open | Close, Close => true | _, _ => false end.
  Definition is_coll {A} (c : collective) (p : proc A) := match p with Coll c' k => if coll_eqb c c' then Some k else None | _ => None end.

  (** The execution of rank 0 and the other processes: all return, or they are stuck because they do not wait for the same
      collective call (or one of them aborts) *)
  Inductive outcome (A : Type) := Finished (l : list A) | Stuck (p0 : proc A) (ps : list (proc A)).
  Arguments Finished {A} l. Arguments Stuck {A} p0 ps.
  Fixpoint run {A} (p0 : proc A) (ps : list (proc A)) : outcome A :=
    match p0 with
    | Ret a => match all_some (map is_ret ps) with Some l => Finished (a :: l) | None => Stuck p0 ps end
    | Abort => Stuck p0 ps
    | Bcast v k => match all_some (map is_bcast ps) with Some ks => run (k v) (map (fun k => k v) ks) | None => Stuck p0 ps end
    | Lor b k => match all_some (map is_lor ps) with
                 | Some ks => let g := b || existsb fst ks in run (k g) (map (fun x => snd x g) ks)
                 | None => Stuck p0 ps
                 end
    | Coll c k => match all_some (map (is_coll c) ps) with Some ks => run k ks | None => Stuck p0 ps end
    end.

  (** * The macros.  A call returns a context (here: whether it is not NULL) and the error code. *)
  Definition result := (bool * Z)%type.
  (** FCLAW2D_FILE_IS_SUCCESS_V1 *)
  Definition is_success (c : Z) : bool := (c =? MPI_SUCCESS) || (c =? V1_SUCCESS).
  (** fclaw2d_file_error_code_v1 (c, cperrcode); return NULL *)
  Definition null (c : Z) : proc result := match error_code c with Some e => Ret (false, e) | None => Abort end.
  (** FCLAW2D_FILE_CHECK_VERBOSE_V1 for an error: the code is replaced by its translation and a message is made *)
  Definition verbose (c : Z) (k : Z -> proc result) : proc result :=
    match error_code c with
    | Some e => match error_string e with Some _ => k e | None => Abort end
    | None => Abort
    end.
  (** FCLAW2D_FILE_CHECK_NULL_V1, FCLAW2D_FILE_CHECK_OPEN_V1 *)
  Definition check_null (c : Z) (k : proc result) : proc result := if is_success c then k else verbose c (fun e => Coll Close (null e)).
  (** FCLAW2D_FILE_CHECK_OPEN_V1: the file is not open, nothing to close *)
  Definition check_open (c : Z) (k : proc result) : proc result := if is_success c then k else verbose c null.
  (** FCLAW2D_HANDLE_MPI_ERROR_V1, from the label fclaw2d_read_write_error on *)
  Definition handle_mpi (mpiret : Z) (k : proc result) : proc result := Bcast mpiret (fun r => if is_success r then k else Coll Close (null r)).
  (** FCLAW2D_HANDLE_MPI_COUNT_ERROR_V1, from the label fclaw2d_write_count_error on *)
  Definition handle_count (count_error : Z) (k : proc result) : proc result := Bcast count_error (fun r => if r =? 0 then k else Coll Close (Ret (false, V1_COUNT))).
  (** FCLAW2D_FILE_CHECK_COUNT_V1 *)
  Definition check_count (short : bool) (k : proc result) : proc result :=
    Lor short (fun any => if any then Coll Close (Ret (false, if short then V1_COUNT else MPI_SUCCESS)) else k).
  (** the end of each function: *errcode is MPI_SUCCESS here *)
  Definition done : proc result := match error_code MPI_SUCCESS with Some e => Ret (true, e) | None => Abort end.

  (** outcome of one I/O call: error class and whether fewer bytes were written than asked for *)
  Record io := mkIo { io_err : Z; io_short : bool }.
  (** outcomes of the calls of one section: set_size and data on each process, header and padding on rank 0 *)
  Record faults := mkFaults { f_set_size : nat -> Z; f_header : io; f_data : nat -> io; f_pad : io }.

  (** an I/O call on rank 0 with FCLAW2D_FILE_CHECK_MPI_V1 and FCLAW2D_FILE_CHECK_COUNT_SERIAL_V1; [on_err] and [on_count] are the code at the labels *)
  Definition serial_write (i : io) (on_err : Z -> proc result) (on_count : proc result) (k : proc result) : proc result :=
    if is_success (io_err i) then (if io_short i then on_count else k) else verbose (io_err i) on_err.

  (** fclaw2d_file.c:929-1054 fclaw2d_file_write_block_v1 on process [rank]; [input_ok] tells whether string and size are accepted.
      After the data or padding failed on rank 0 the code jumps back to the labels; the continuation [k] of the handler is not
      reached then, as the value broadcast is an error. *)
  Definition write_block (mpiio : bool) (input_ok : bool) (f : faults) (rank : nat) : proc result :=
    if negb input_ok then verbose V1_IN_DATA (fun e => Coll Close (null e)) else
    let set_size k := if mpiio then Coll SetSize (check_null (f_set_size f rank) k) else k in
    set_size
      (if Nat.eqb rank 0 then
         let second := serial_write (f_data f 0%nat) (fun e => handle_mpi e Abort) (handle_count 1 Abort)
                         (serial_write (f_pad f) (fun e => handle_mpi e Abort) (handle_count 1 Abort) done) in
         serial_write (f_header f) (fun e => handle_mpi e Abort) (handle_count 1 Abort) (handle_mpi MPI_SUCCESS (handle_count 0 second))
       else handle_mpi MPI_SUCCESS (handle_count 0 done)).

  (** fclaw2d_file.c:1464-1603 fclaw2d_file_write_field_v1 on process [rank] *)
  Definition write_field (mpiio : bool) (input_ok : bool) (f : faults) (rank : nat) : proc result :=
    if negb input_ok then verbose V1_IN_DATA (fun e => Coll Close (null e)) else
    let set_size k := if mpiio then Coll SetSize (check_null (f_set_size f rank) k) else k in
    let data k := Coll WriteAll (check_null (io_err (f_data f rank)) (check_count (io_short (f_data f rank)) k)) in
    set_size
      (if Nat.eqb rank 0 then
         serial_write (f_header f) (fun e => handle_mpi e Abort) (handle_count 1 Abort)
           (handle_mpi MPI_SUCCESS (handle_count 0 (data (serial_write (f_pad f) (fun e => handle_mpi e Abort) (handle_count 1 Abort) done))))
       else handle_mpi MPI_SUCCESS (handle_count 0 (data done))).

  (** fclaw2d_file.c:626-717 fclaw2d_file_open_create_v1.  If the header is short, rank 0 jumps to the count handler before
      file_context->mpicomm is set and broadcasts on an uninitialised communicator. *)
  Definition open_create (input_ok : bool) (open_err : nat -> Z) (header : io) (rank : nat) : proc result :=
    if negb input_ok then verbose V1_IN_DATA (fun e => Ret (false, e)) else
    Coll Open (check_open (open_err rank)
      (if Nat.eqb rank 0 then serial_write header (fun e => handle_mpi e Abort) Abort (handle_mpi MPI_SUCCESS (handle_count 0 done))
       else handle_mpi MPI_SUCCESS (handle_count 0 done))).

  (** fclaw2d_file.c:2815-2853 fclaw2d_file_write_connectivity_v1: two blocks *)
  Definition write_connectivity (mpiio : bool) (f1 f2 : faults) (rank : nat) : proc result :=
    pbind (write_block mpiio true f1 rank) (fun '(fc, e) =>
    if e =? V1_SUCCESS then write_block mpiio true f2 rank
    else if fc then Abort else Ret (false, e)).

  (** fclaw2d_file.c:2406-2505 fclaw2d_file_write_p4est_v1 with save_data = 0: counts, quadrants, the flag.  After an error of the first
      block the assertion demands fc != NULL.  After the next errors an uninitialised pointer is destroyed. *)
  Definition write_p4est (mpiio : bool) (f1 f2 f3 : faults) (rank : nat) : proc result :=
    pbind (write_block mpiio true f1 rank) (fun '(fc, e) =>
    if negb (e =? V1_SUCCESS) then (if fc then Ret (false, e) else Abort) else
    pbind (write_field mpiio true f2 rank) (fun '(fc, e) =>
    if negb (e =? V1_SUCCESS) then Abort else
    pbind (write_block mpiio true f3 rank) (fun '(fc, e) =>
    if negb (e =? V1_SUCCESS) then Abort else Ret (fc, e)))).

  (** fclaw2d_file.c:3076-3139 fclaw2d_file_open_write: whether a context is returned, and the public code *)
  Definition open_write (mpiio input_ok : bool) (open_err : nat -> Z) (header : io) (f1 f2 f3 f4 f5 : faults) (rank : nat) : proc result :=
    let stop fc e (k : proc result) := if translate e =? ERR_SUCCESS then k else if (fc : bool) then Abort else Ret (false, translate e) in
    pbind (open_create input_ok open_err header rank) (fun '(fc, e) => stop fc e (
    pbind (write_connectivity mpiio f1 f2 rank) (fun '(fc, e) => stop fc e (
    pbind (write_p4est mpiio f3 f4 f5 rank) (fun '(fc, e) => stop fc e (
    Ret (true, translate e))))))).

  (** fclaw2d_file.c:2960-2979, 3229-3248: closing *)
  Definition close_file (close_err : nat -> Z) (rank : nat) : proc result :=
    Coll Close (if is_success (close_err rank) then match error_code (close_err rank) with Some e => Ret (true, translate e) | None => Abort end
                else verbose (close_err rank) (fun e => match error_code e with Some e' => Ret (false, translate e') | None => Abort end)).
End Codes.
Arguments Ret {A} a. Arguments Abort {A}. Arguments Bcast {A} v k. Arguments Lor {A} b k. Arguments Coll {A} c k.
Arguments Finished {A} l. Arguments Stuck {A} p0 ps.
