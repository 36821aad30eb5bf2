(** Frames written as text: src/patches/clawpatch/fclaw2d_clawpatch_output_ascii.c,
    src/patches/clawpatch/fort_4.6/fclaw2d_clawpatch46_output_ascii.f (and the 5.x file
    fort_5.0/fclaw2d_clawpatch5_output_ascii.f, which differs in the order of the indices of q only),
    src/solvers/fc2d_geoclaw/fc2d_geoclaw_output_ascii.c and
    fclaw2d_source/fc2d_geoclaw_output_ascii_fort.f, between the calls of forestclaw2d.c:2398-2427
    that serialize the processes ([Model_Serial]).

    Simplifications: how a real number is printed under an edit descriptor Ew.d is left open, a line
    holds the descriptor and the number; integers are not negative; blanks at the end of a file name and
    the limit BUFSIZ of its length are ignored; opening and writing files succeeds. *)
From Coq Require Import String Ascii DecimalString DecimalN.
From Coq Require Import ZArith QArith Qabs List Bool.
From Verif Require Import Model_Serial.
Import ListNotations.

(** ** Text *)
(** part of a line: text, or the number x under Ew.d *)
Inductive item := Txt (s : string) | Num (w d : nat) (x : Q).
Definition line := list item.

Definition dec (n : N) : string := NilZero.string_of_uint (N.to_uint n).
Fixpoint rep (c : ascii) (k : nat) : string := match k with O => EmptyString | S k' => String c (rep c k') end.
Definition pad (c : ascii) (w : nat) (s : string) : string := (rep c (w - String.length s) ++ s)%string.
(** %04d *)
Definition d4 (n : N) : string := pad "0"%char 4 (dec n).
(** i5: right justified, stars if the number does not fit *)
Definition i5 (n : N) : string :=
  let s := dec n in if (5 <? String.length s)%nat then "*****"%string else pad " "%char 5 s.

(** a write under a format of k repeated descriptors: a new line is begun after k items *)
Fixpoint fmt (fuel k : nat) (l : list item) : list line :=
  match fuel with
  | O => []
  | S f => if (length l <=? k)%nat then [l] else firstn k l :: fmt f k (skipn k l)
  end.
Definition write_fmt (k : nat) (l : list item) : list line := fmt (S (length l)) k l.

(** ** Files *)
Definition files := string -> list line.
Inductive cmd :=
| Replace (name : string)               (* open(status='replace'), close *)
| Rewrite (name : string) (ls : list line)   (* open without position, write, close: old contents go *)
| Append (name : string) (l : line).    (* a line written after open(position='append') *)
Definition target (c : cmd) : string := match c with Replace n => n | Rewrite n _ => n | Append n _ => n end.
Definition put (fs : files) (name : string) (ls : list line) : files :=
  fun n => if String.eqb n name then ls else fs n.
Definition exec (c : cmd) (fs : files) : files :=
  match c with
  | Replace n => put fs n []
  | Rewrite n ls => put fs n ls
  | Append n l => put fs n (fs n ++ [l])
  end.

(** ** The Fortran routines *)
Definition arr := Z -> Z -> Z -> Q.   (* i, j, mq *)
Definition upd3 (q : arr) (i j m : Z) (v : Q) : arr :=
  fun i' j' m' => if ((i' =? i) && (j' =? j) && (m' =? m))%Z then v else q i' j' m'.
Definition upto (n : nat) : list Z := map Z.of_nat (seq 1 n).
(** 1d-99 *)
Definition tiny : Q := 1 # (10 ^ 99)%positive.
Definition Qlt_bool (a b : Q) : bool := negb (Qle_bool b a).

(** fclaw2d_clawpatch46_output_ascii.f:11-36 fort_header_ascii *)
Definition fort_header_ascii (matname1 matname2 : string) (time : Q) (meqn maux ngrids : N) : list cmd :=
  [ Rewrite matname2
      [ [Num 30 20 time; Txt "    time"];
        [Txt (i5 meqn ++ "                 meqn")];
        [Txt (i5 ngrids ++ "                 ngrids")];
        [Txt (i5 maux ++ "                 num_aux")];
        [Txt (i5 2 ++ "                 num_dim")] ]%string;
    Replace matname1 ].

(** fclaw2d_clawpatch46_output_ascii.f:111-138 write_grid_header; the slash at the end of format 1002
    gives an empty line *)
Definition write_grid_header (mx my : nat) (xlower ylower dx dy : Q) (patch_num level blockno mpirank : N) : list line :=
  [ [Txt (i5 patch_num ++ "                 grid_number")];
    [Txt (i5 level ++ "                 AMR_level")];
    [Txt (i5 blockno ++ "                 block_number")];
    [Txt (i5 mpirank ++ "                 mpi_rank")];
    [Txt (i5 (N.of_nat mx) ++ "                 mx")];
    [Txt (i5 (N.of_nat my) ++ "                 my")];
    [Num 24 16 xlower; Txt "    xlow"];
    [Num 24 16 ylower; Txt "    ylow"];
    [Num 24 16 dx; Txt "    dx"];
    [Num 24 16 dy; Txt "    dy"];
    [] ]%string.

(** fclaw2d_clawpatch46_output_ascii.f:82-86: numbers that need a three digit exponent become zero, in
    the array of the caller *)
Definition zero_tiny (i j : Z) (q : arr) (mq : Z) : arr :=
  if Qlt_bool (Qabs (q i j mq)) tiny then upd3 q i j mq 0 else q.
Definition out_cell (meqn : nat) (j : Z) (st : arr * list line) (i : Z) : arr * list line :=
  let q := fold_left (zero_tiny i j) (upto meqn) (fst st) in
  (q, snd st ++ write_fmt 20 (map (fun mq => Num 26 16 (q i j mq)) (upto meqn))).
(** fclaw2d_clawpatch46_output_ascii.f:80-90; the list directed write of a blank gives a line of blanks *)
Definition out_row (mx meqn : nat) (st : arr * list line) (j : Z) : arr * list line :=
  let r := fold_left (out_cell meqn j) (upto mx) st in (fst r, snd r ++ [[Txt "  "%string]]).

(** fclaw2d_clawpatch46_output_ascii.f:47-96 fort_output_ascii: what is written and the array
    afterwards; [None]: stop *)
Definition fort_output_ascii (matname1 : string) (mx my meqn : nat) (xlower ylower dx dy : Q) (q : arr)
    (patch_num level blockno mpirank : N) : option (list cmd * arr) :=
  let hd := write_grid_header mx my xlower ylower dx dy patch_num level blockno mpirank in
  if (20 <? meqn)%nat then None
  else let r := fold_left (out_row mx meqn) (upto my) (q, []) in
       Some (map (Append matname1) (hd ++ snd r), fst r).

(** ** The C routines *)
(** a patch, its solution and its bottom *)
Record apatch := mkAp { p_level : N; p_xlower : Q; p_ylower : Q; p_dx : Q; p_dy : Q; p_q : arr; p_aux : arr }.
(** the part of the domain a process owns, and what it knows of the whole *)
Record proc := mkProc { d_before : N;          (* domain->global_num_patches_before *)
                        d_global : N;          (* domain->global_num_patches *)
                        d_blocks : list (list apatch) }.
Record settings := mkSet { o_prefix : string; o_mx : nat; o_my : nat; o_meqn : nat; o_maux : nat }.

(** a name in a buffer of the given size, as snprintf or sprintf writes it; [None]: overflow *)
Definition in_buffer (size : nat) (s : string) : option string :=
  if (String.length s + 1 <=? size)%nat then Some s else None.
(** character(len=11): the Fortran routine reads that many bytes; a shorter name ends with its zero byte *)
Definition fortran_name (s : string) : string := substring 0 11 s.

(** fclaw2d_clawpatch_output_ascii.c:56-108 cb_clawpatch_output_ascii; the number of the patch is that of
    src/fclaw2d_patch.c:823-843 fclaw2d_patch_get_info *)
Definition cb_output_ascii (o : settings) (iframe : N) (rank : N) (dom : proc) (block_before : N)
    (blockno : nat) (patchno : nat) (p : apatch) : option (list cmd * arr) :=
  let local_num := (block_before + N.of_nat patchno)%N in
  let global_num := (d_before dom + local_num)%N in
  let fname := (o_prefix o ++ ".q" ++ d4 iframe)%string in
  fort_output_ascii (fortran_name fname) (o_mx o) (o_my o) (o_meqn o)
    (p_xlower p) (p_ylower p) (p_dx p) (p_dy p) (p_q p) global_num (p_level p) (N.of_nat blockno) rank.

(** fclaw2d_clawpatch_output_ascii.c:112-131 fclaw2d_clawpatch_time_header_ascii *)
Definition time_header_ascii (o : settings) (iframe : N) (time : Q) (dom : proc) : option (list cmd) :=
  match in_buffer 11 ("fort.q" ++ d4 iframe)%string, in_buffer 11 ("fort.t" ++ d4 iframe)%string with
  | Some matname1, Some matname2 =>
      Some (fort_header_ascii matname1 matname2 time (N.of_nat (o_meqn o)) (N.of_nat (o_maux o)) (d_global dom))
  | _, _ => None
  end.

(** src/forestclaw2d.c:247-263 fclaw2d_domain_iterate_patches, with what each call of the callback
    writes and leaves in the patch; [num_patches_before] of a block is the number of patches in the
    blocks before it *)
Section Iterate.
  Variable cb : N -> nat -> nat -> apatch -> option (list cmd * arr).
  Fixpoint it_patches (before : N) (blockno j : nat) (ps : list apatch) : option (list cmd * list arr) :=
    match ps with
    | [] => Some ([], [])
    | p :: ps' =>
        match cb before blockno j p with
        | None => None
        | Some (cs, q) => match it_patches before blockno (S j) ps' with
                          | None => None
                          | Some (cs', qs) => Some (cs ++ cs', q :: qs)
                          end
        end
    end.
  Fixpoint it_blocks (before : N) (blockno : nat) (bs : list (list apatch)) : option (list cmd * list (list arr)) :=
    match bs with
    | [] => Some ([], [])
    | b :: bs' =>
        match it_patches before blockno 0 b with
        | None => None
        | Some (cs, qs) => match it_blocks (before + N.of_nat (length b)) (S blockno) bs' with
                           | None => None
                           | Some (cs', qss) => Some (cs ++ cs', qs :: qss)
                           end
        end
    end.
End Iterate.

(** fclaw2d_clawpatch_output_ascii.c:139-159 fclaw2d_clawpatch_output_ascii: what one process writes
    between serialization_enter and serialization_leave, and its solution afterwards *)
Definition output_ascii (o : settings) (iframe : N) (time : Q) (rank : N) (dom : proc)
    : option (list cmd * list (list arr)) :=
  match (if (rank =? 0)%N then time_header_ascii o iframe time dom else Some []) with
  | None => None
  | Some hd => match it_blocks (cb_output_ascii o iframe rank dom) 0 0 (d_blocks dom) with
               | None => None
               | Some (cs, qss) => Some (hd ++ cs, qss)
               end
  end.

(** ** GeoClaw *)
Definition digit (n : N) : ascii := ascii_of_N (48 + n).
(** fc2d_geoclaw_output_ascii_fort.f:16-22, 67-72: the digits, from the last place *)
Fixpoint last_digits (k : nat) (nstp : N) (acc : string) : string :=
  match k with O => acc | S k' => last_digits k' (nstp / 10) (String (digit (nstp mod 10)) acc) end.
Definition geo_name (c : string) (iframe : N) : string := ("fort." ++ c ++ last_digits 4 iframe "")%string.

(** fc2d_geoclaw_output_ascii_fort.f:1-41 fort_write_header *)
Definition geo_write_header (iframe : N) (time : Q) (meqn maux ngrids : N) : list cmd :=
  fort_header_ascii (geo_name "q" iframe) (geo_name "t" iframe) time (meqn + 1) maux ngrids.

(** fc2d_geoclaw_output_ascii_fort.f:96-109 *)
Definition geo_cell (meqn : nat) (aux : arr) (j : Z) (st : arr * list line) (i : Z) : arr * list line :=
  let q := fold_left (zero_tiny i j) (upto meqn) (fst st) in
  let eta := (q i j 1%Z + aux i j 1%Z)%Q in
  let eta := if Qlt_bool (Qabs eta) tiny then 0%Q else eta in
  (q, snd st ++ write_fmt 5 (map (fun mq => Num 26 16 (q i j mq)) (upto meqn) ++ [Num 26 16 eta])).
Definition geo_row (mx meqn : nat) (aux : arr) (st : arr * list line) (j : Z) : arr * list line :=
  let r := fold_left (geo_cell meqn aux j) (upto mx) st in (fst r, snd r ++ [[Txt "  "%string]]).

(** fc2d_geoclaw_output_ascii_fort.f:43-116 fort_write_file *)
Definition geo_write_file (mx my meqn : nat) (xlower ylower dx dy : Q) (q aux : arr) (iframe : N)
    (patch_num level blockno mpirank : N) : option (list cmd * arr) :=
  let hd := write_grid_header mx my xlower ylower dx dy patch_num level blockno mpirank in
  if (5 <? meqn)%nat then None
  else let r := fold_left (geo_row mx meqn aux) (upto my) (q, []) in
       Some (map (Append (geo_name "q" iframe)) (hd ++ snd r), fst r).

(** fc2d_geoclaw_output_ascii.c:37-71 cb_geoclaw_output_ascii *)
Definition geo_cb (o : settings) (iframe : N) (rank : N) (dom : proc) (block_before : N)
    (blockno : nat) (patchno : nat) (p : apatch) : option (list cmd * arr) :=
  let local_num := (block_before + N.of_nat patchno)%N in
  let global_num := (d_before dom + local_num)%N in
  geo_write_file (o_mx o) (o_my o) (o_meqn o) (p_xlower p) (p_ylower p) (p_dx p) (p_dy p) (p_q p) (p_aux p)
    iframe global_num (p_level p) (N.of_nat blockno) rank.

(** fc2d_geoclaw_output_ascii.c:73-112 geoclaw_header_ascii and fc2d_geoclaw_output_ascii *)
Definition geo_output_ascii (o : settings) (iframe : N) (time : Q) (rank : N) (dom : proc)
    : option (list cmd * list (list arr)) :=
  let hd := if (rank =? 0)%N
            then geo_write_header iframe time (N.of_nat (o_meqn o)) (N.of_nat (o_maux o)) (d_global dom) else [] in
  match it_blocks (geo_cb o iframe rank dom) 0 0 (d_blocks dom) with
  | None => None
  | Some (cs, qss) => Some (hd ++ cs, qss)
  end.

(** ** All processes, writing one frame after the other *)
(** what a process does: communicate, or write to a file *)
Inductive aop := Com (o : op) | Write (c : cmd).
(** the lines of the call, between forestclaw2d.c:2398-2413 and 2415-2427 *)
Definition sect (size p : nat) (cs : list cmd) : list aop :=
  map Com (serialization_enter p size) ++ map Write cs ++ map Com (serialization_leave p size).
(** [acts p f]: what process p writes for the f-th frame.  Nothing else need synchronise the processes. *)
Fixpoint prog (size : nat) (acts : nat -> nat -> list cmd) (p : nat) (f n : nat) : list aop :=
  match n with O => [] | S n' => sect size p (acts p f) ++ prog size acts p (S f) n' end.

Record world := mkW { w_rest : nat -> list aop; w_chan : nat -> nat -> list nat; w_files : files }.
Definition setw (f : nat -> list aop) (p : nat) (l : list aop) : nat -> list aop := fun p' => if (p' =? p)%nat then l else f p'.

(** any process goes on; a message that is not buffered is sent and then received at once *)
Inductive astep (size : nat) : world -> world -> Prop :=
| a_write : forall w p c l, (p < size)%nat -> w_rest w p = Write c :: l ->
    astep size w (mkW (setw (w_rest w) p l) (w_chan w) (exec c (w_files w)))
| a_send : forall w p d i l, (p < size)%nat -> w_rest w p = Com (Send d i) :: l ->
    astep size w (mkW (setw (w_rest w) p l) (setc (w_chan w) p d (w_chan w p d ++ [i])) (w_files w))
| a_recv : forall w p s l ms, (p < size)%nat -> w_rest w p = Com (Recv s) :: l -> w_chan w s p = 0%nat :: ms ->
    astep size w (mkW (setw (w_rest w) p l) (setc (w_chan w) s p ms) (w_files w)).
Inductive asteps (size : nat) : world -> world -> Prop :=
| a_none : forall w, asteps size w w
| a_more : forall w w1 w2, asteps size w w1 -> astep size w1 w2 -> asteps size w w2.

(** before the first frame *)
Definition start (size : nat) (acts : nat -> nat -> list cmd) (n : nat) (fs : files) : world :=
  mkW (fun p => if (p <? size)%nat then prog size acts p 0 n else []) (fun _ _ => []) fs.

(** the frames of a run: number, time and the state of all processes.  [out] is one of the two routines
    above; what a process writes when it fails is left out *)
Record frame_in := mkFr { fr_iframe : N; fr_time : Q; fr_procs : list proc }.
Definition frame_cmds (out : N -> Q -> N -> proc -> option (list cmd * list (list arr))) (frs : list frame_in)
    (p f : nat) : list cmd :=
  match nth_error frs f with
  | None => []
  | Some fr => match nth_error (fr_procs fr) p with
               | None => []
               | Some d => match out (fr_iframe fr) (fr_time fr) (N.of_nat p) d with Some (cs, _) => cs | None => [] end
               end
  end.
