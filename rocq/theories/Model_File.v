(** The bytes of ForestClaw data files: src/fclaw2d_file.c (legacy functions "v1", which fclaw2d_file_open_write uses).

    Every I/O call succeeds here (errors are in Model_FileError).  Offsets, sizes and counts are natural numbers.  The
    reading functions of the source are inside [#if 0] and therefore not modelled. *)
From Coq Require Import ZArith String Ascii List Bool.
Import ListNotations.
Open Scope nat_scope.

Notation byte := ascii.
Definition NUL : byte := Ascii.zero.
Definition newline : byte := "010"%char.
Definition space : byte := " "%char.

(** Result of a call: done, refused with FCLAW2D_FILE_ERR_IN_DATA_V1, or a failed assertion / undefined behaviour *)
Inductive res (A : Type) := Fine (a : A) | Refused | Undefined.
Arguments Fine {A} a. Arguments Refused {A}. Arguments Undefined {A}.
Definition rbind {A B} (r : res A) (k : A -> res B) : res B := match r with Fine a => k a | Refused => Refused | Undefined => Undefined end.

(** * Files: contract of sc_io_write_at, MPI_File_set_size.  Bytes never written read as NUL. *)
Notation file := (list byte).
(** [n] bytes from [buffer] at [offset]; writing nothing does not extend the file *)
Definition write_at (f : file) (offset : nat) (d : list byte) : file :=
  match d with
  | [] => f
  | _ => firstn offset f ++ repeat NUL (offset - length f) ++ d ++ skipn (offset + length d) f
  end.
Definition set_size (f : file) (n : nat) : file := firstn n f ++ repeat NUL (n - length f).

(** fclaw2d_file.c:101-122 *)
Definition METADATA_BYTES := 96.
Definition BYTE_DIV := 16.
Definition MAX_NUM_PAD_BYTES := BYTE_DIV + 1.
Definition USER_STRING_BYTES := 48.
Definition FIELD_HEADER_BYTES := 2 + 14 + USER_STRING_BYTES.
Definition MAX_BLOCK_SIZE := 9999999999999%Z.
Definition MAX_FIELD_ENTRY_SIZE := 9999999999999%Z.
Definition MAX_GLOBAL_QUAD := 9999999999999999%Z.
Definition MAGIC_NUMBER := list_ascii_of_string "p4data0".
Definition HEADER_STRING := list_ascii_of_string "p4est data file v1".

(** * printf *)
(** decimal digits of a 64 bit number, least significant first *)
Fixpoint digits_rev (fuel : nat) (n : Z) : list Z :=
  match fuel with
  | O => []
  | S k => if (n =? 0)%Z then [] else (n mod 10)%Z :: digits_rev k (n / 10)%Z
  end.
Definition digit_char (d : Z) : byte := ascii_of_nat (48 + Z.to_nat d).
(** "%.[w]llu": at least [w] digits *)
Definition print_dec (w : nat) (n : Z) : list byte :=
  let ds := digits_rev 20 n in map digit_char (rev (ds ++ repeat 0%Z (w - length ds))).
(** "%-[w]s" *)
Definition print_left (w : nat) (s : list byte) : list byte := s ++ repeat space (w - length s).
(** "%.[w]s" *)
Definition print_trunc (w : nat) (s : list byte) : list byte := firstn w s.
(** the first [n] bytes of a buffer after [snprintf (buffer, size, ...)]; bytes that were not set are undefined *)
Definition printed (size : nat) (s : list byte) (n : nat) : res (list byte) :=
  let b := firstn (size - 1) s ++ [NUL] in
  if n <=? length b then Fine (firstn n b) else Undefined.

(** fclaw2d_file.c:358-382 fcaw2d_file_get_padding_string_v1; [pad] is the size of the array or None for a NULL pointer.
    Returns the padding and its length. *)
Definition get_padding_string (num_bytes divisor : nat) (pad : option nat) : res (list byte * nat) :=
  if divisor =? 0 then Undefined else
  let n := (divisor - num_bytes mod divisor) mod divisor in
  let n := if (n =? 0) || (n =? 1) then n + divisor else n in
  if negb (1 <? n) then Undefined else
  if negb (n <=? divisor) then Undefined else
  match pad with
  | None => Fine ([], n)
  | Some size =>
      if size <? n + 1 then Undefined
      else rbind (printed (n + 1) (newline :: print_left (n - 2) [] ++ [newline]) n) (fun s => Fine (s, n))
  end.

(** fclaw2d_file.c:553-582 fclaw2d_file_check_user_string; a C string is given by its characters before the NUL *)
Definition check_user_string (s : list byte) : bool :=
  let copied := firstn (USER_STRING_BYTES - 1) s in
  if length copied <? USER_STRING_BYTES - 1 then true
  else match nth_error (s ++ [NUL]) (USER_STRING_BYTES - 1) with
       | Some c => Ascii.eqb c NUL
       | None => false
       end.

(** fclaw2d_file.c:192-208 fclaw2d_file_context_p4est_v1_t, without the communicator, the file handle and the local number of
    quadrants, which is the difference of two entries of global_first_quadrant.  Each process has its own copy. *)
Record ctx := mkCtx { c_num_quads : nat; c_first : list nat; c_calls : nat; c_accessed : nat }.

(** What one process does in a call: the writes in program order.  Collective calls separate the phases: first rank 0 writes
    the header, then every process its data, then rank 0 the padding. *)
Definition wr := (nat * list byte)%type.
Record phases := mkPh { ph_set_size : nat; ph_header : list wr; ph_data : list wr; ph_pad : list wr }.

(** fclaw2d_file.c:626-717 fclaw2d_file_open_create_v1 on process [rank] *)
Definition open_create (first : list nat) (num_quads : nat) (user_string : list byte) (rank : nat) : res (ctx * list wr) :=
  if negb (check_user_string user_string) then Refused else
  if negb (Z.of_nat num_quads <=? MAX_GLOBAL_QUAD)%Z then Refused else
  let c := mkCtx num_quads first 0 0 in
  if rank =? 0 then
    rbind (printed (METADATA_BYTES + BYTE_DIV + 1)
             (print_trunc 7 MAGIC_NUMBER ++ [newline] ++ print_left 23 HEADER_STRING ++ [newline] ++ print_left 47 user_string ++ [newline]
              ++ print_dec 16 (Z.of_nat num_quads) ++ [newline] ++ print_left 14 [] ++ [newline])
             (METADATA_BYTES + BYTE_DIV)) (fun metadata =>
    Fine (c, [(0, metadata)]))
  else Fine (c, []).

(** fclaw2d_file.c:929-1054 fclaw2d_file_write_block_v1 on process [rank]; the array has one element *)
Definition write_block (c : ctx) (block_data user_string : list byte) (rank : nat) : res (ctx * phases) :=
  let block_size := length block_data in
  if negb (check_user_string user_string) then Refused else
  if negb (Z.of_nat block_size <=? MAX_BLOCK_SIZE)%Z then Refused else
  let size := METADATA_BYTES + BYTE_DIV + block_size + FIELD_HEADER_BYTES + c_accessed c in
  rbind (if rank =? 0 then
           rbind (printed (FIELD_HEADER_BYTES + 1)
                    (["B"%char; space] ++ print_dec 13 (Z.of_nat block_size) ++ [newline] ++ print_left 47 user_string ++ [newline])
                    FIELD_HEADER_BYTES) (fun header_metadata =>
           rbind (get_padding_string block_size BYTE_DIV (Some MAX_NUM_PAD_BYTES)) (fun '(pad, n) =>
           Fine (mkPh size [(c_accessed c + METADATA_BYTES + BYTE_DIV, header_metadata)]
                  [(c_accessed c + METADATA_BYTES + BYTE_DIV + FIELD_HEADER_BYTES, block_data)]
                  [(c_accessed c + METADATA_BYTES + BYTE_DIV + FIELD_HEADER_BYTES + block_size, firstn n pad)], n)))
         else rbind (get_padding_string block_size BYTE_DIV None) (fun '(_, n) => Fine (mkPh size [] [] [], n)))
    (fun '(ph, num_pad_bytes) =>
    Fine (mkCtx (c_num_quads c) (c_first c) (S (c_calls c)) (c_accessed c + (block_size + FIELD_HEADER_BYTES + num_pad_bytes)), ph)).

(** fclaw2d_file.c:1464-1603 fclaw2d_file_write_field_v1 on process [rank] with the local elements [elems] of [size] bytes each.
    The assertion allows no elements or as many as local quadrants. *)
Definition write_field (c : ctx) (size : nat) (elems : list (list byte)) (user_string : list byte) (rank : nat) : res (ctx * phases) :=
  match nth_error (c_first c) rank, nth_error (c_first c) (S rank) with
  | Some lo, Some hi =>
      if negb ((length elems =? 0) || (length elems =? hi - lo)) then Undefined else
      if negb (forallb (fun e => length e =? size) elems) then Undefined else
      if negb (check_user_string user_string) then Refused else
      if negb (Z.of_nat size <=? MAX_FIELD_ENTRY_SIZE)%Z then Refused else
      let write_offset := METADATA_BYTES + BYTE_DIV + lo * size in
      let total := METADATA_BYTES + BYTE_DIV + c_num_quads c * size + FIELD_HEADER_BYTES + c_accessed c in
      let data := [(c_accessed c + write_offset + FIELD_HEADER_BYTES, concat elems)] in
      let array_size := c_num_quads c * size in
      rbind (if rank =? 0 then
               rbind (printed (FIELD_HEADER_BYTES + 1)
                        (["F"%char; space] ++ print_dec 13 (Z.of_nat size) ++ [newline] ++ print_left 47 user_string ++ [newline])
                        FIELD_HEADER_BYTES) (fun array_metadata =>
               rbind (get_padding_string array_size BYTE_DIV (Some MAX_NUM_PAD_BYTES)) (fun '(pad, n) =>
               Fine (mkPh total [(c_accessed c + write_offset, array_metadata)] data
                      [(c_accessed c + METADATA_BYTES + BYTE_DIV + array_size + FIELD_HEADER_BYTES, firstn n pad)], n)))
             else rbind (get_padding_string array_size BYTE_DIV None) (fun '(_, n) => Fine (mkPh total [] data [], n)))
        (fun '(ph, num_pad_bytes) =>
        Fine (mkCtx (c_num_quads c) (c_first c) (S (c_calls c)) (c_accessed c + (size * c_num_quads c + FIELD_HEADER_BYTES + num_pad_bytes)), ph))
  | _, _ => Undefined
  end.

(** * All processes together *)
(** One collective call: a block (the same on every process; only rank 0 looks at the bytes) or a field, whose elements are
    given for the whole forest; process r passes those from global_first_quadrant[r] up to global_first_quadrant[r + 1] *)
Inductive op := Block (data str : list byte) | Field (size : nat) (elems : list (list byte)) (str : list byte).
Definition local_elems (first : list nat) (elems : list (list byte)) (rank : nat) : list (list byte) :=
  let lo := nth rank first 0 in firstn (nth (S rank) first 0 - lo) (skipn lo elems).
Definition call (o : op) (c : ctx) (rank : nat) : res (ctx * phases) :=
  match o with
  | Block d s => write_block c d s rank
  | Field size es s => write_field c size (local_elems (c_first c) es rank) s rank
  end.

Fixpoint each {A} (f : nat -> res A) (ranks : list nat) : res (list A) :=
  match ranks with
  | [] => Fine []
  | r :: tl => rbind (f r) (fun a => rbind (each f tl) (fun l => Fine (a :: l)))
  end.
Definition apply_writes (f : file) (ws : list wr) : file := fold_left (fun f w => write_at f (fst w) (snd w)) ws f.

(** One collective call of [nproc] processes: all headers, then the data of the processes in the order [order] they reach the
    file in, then the paddings.  [mpiio] tells whether MPI I/O is available (P4EST_ENABLE_MPIIO). *)
Definition step (mpiio : bool) (nproc : nat) (o : op) (order : list nat) (st : list ctx * file) : res (list ctx * file) :=
  let (cs, f) := st in
  rbind (each (fun r => match nth_error cs r with Some c => call o c r | None => Undefined end) (seq 0 nproc)) (fun out =>
  let phs := map snd out in
  let f := if mpiio then fold_left (fun f p => set_size f (ph_set_size p)) (firstn 1 phs) f else f in
  let f := apply_writes f (flat_map ph_header phs) in
  let f := apply_writes f (flat_map (fun r => match nth_error phs r with Some p => ph_data p | None => [] end) order) in
  let f := apply_writes f (flat_map ph_pad phs) in
  Fine (map fst out, f)).

Fixpoint steps (mpiio : bool) (nproc : nat) (ops : list (op * list nat)) (st : list ctx * file) : res (list ctx * file) :=
  match ops with
  | [] => Fine st
  | (o, order) :: tl => rbind (step mpiio nproc o order st) (steps mpiio nproc tl)
  end.

(** The whole file: open_create on an empty file (contract of sc_io_open with SC_IO_WRITE_CREATE), then the calls *)
Definition write_file (mpiio : bool) (first : list nat) (num_quads : nat) (user_string : list byte) (ops : list (op * list nat)) : res file :=
  let nproc := length first - 1 in
  rbind (each (open_create first num_quads user_string) (seq 0 nproc)) (fun out =>
  rbind (steps mpiio nproc ops (map fst out, apply_writes [] (flat_map snd out))) (fun st => Fine (snd st))).

(** fclaw2d_file.c:2815-2853, 2406-2505, 3076-3139: the sections fclaw2d_file_open_write writes; the quadrant data is never
    saved.  [conn] is the result of p4est_connectivity_deflate, [le64] the bytes of a 64 bit number on this machine, [quads] are
    the compressed quadrants, [pertree] the cumulative counts.  P4EST_STRING is "p4est" (the 3D build has "p8est"). *)
Definition open_write_ops (le64 : nat -> list byte) (conn : list byte) (pertree : list nat) (qsize : nat) (quads : list (list byte)) : list op :=
  [ Block (le64 (length conn)) (list_ascii_of_string "p4est connectivity size");
    Block conn (list_ascii_of_string "p4est connectivity");
    Block (flat_map le64 pertree) (list_ascii_of_string "p4est count per tree");
    Field qsize quads (list_ascii_of_string "p4est quadrants");
    Block ["0"%char] (list_ascii_of_string "Write quadrant data?") ].
