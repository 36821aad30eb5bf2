(** The TikZ picture of the mesh: src/fclaw2d_output_tikz.c:54-243.

    [rnd] rounds the result of a floating point operation.  [None]: a failed assertion, a division by zero, or an int
    that does not fit.  The figure size, the name of the file and the options that only change the preamble are left
    out: [header] and [footer] are what process 0 writes before and after the patches. *)
From Coq Require Import ZArith NArith QArith String Ascii List Bool.
From Verif Require Import Base_Float Model_Face Model_Domain Model_Search Model_Brick Model_Util Model_Ascii.
Import ListNotations.
Open Scope Z_scope.

Record topts := mkT { t_mi : Z; t_mj : Z; t_lmax : Z }.
Record rect := mkR { r_xlow : Z; r_ylow : Z; r_xup : Z; r_yup : Z }.

Section Rounded.
  Variable rnd : Q -> Q.

  (** :54-87 convert_brick *)
  Definition convert_brick (brick : option block_ll) (blockno : Z) (xl yl : Q) : option (Q * Q) :=
    match brick with
    | Some bv => c2m_nomap_brick rnd (Some bv) blockno xl yl
    | None => Some (xl, yl)
    end.

  (** int = double / double *)
  Definition int_quot (a b : Q) : option Z := if Qeq_bool b 0 then None else c_int (rnd (a / b)%Q).
  (** 1.0 / (m * mx * pow_int (2, lmax)), products of ints *)
  Definition fine_width (m mx lmax : Z) : option Q :=
    bind (int_mul m mx) (fun a => bind (pow_int 2 lmax) (fun p => bind (int_mul a p) (fun n =>
    if n =? 0 then None else Some (rnd (1 / inject_Z n)%Q)))).

  (** :110-144 cb_tikz_output, the rectangle; mx = my = 1, :176-177 *)
  Definition rectangle (o : topts) (brick : option block_ll) (blockno : Z) (p : patch_t) : option rect :=
    let mx := 1 in let my := 1 in
    let level := Model_Domain.p_level p in let lmax := t_lmax o in
    bind (pow_int 2 (lmax - level)) (fun s =>
    bind (int_mul mx s) (fun mxf => bind (int_mul my s) (fun myf =>
    bind (fine_width (t_mi o) mx lmax) (fun dxf => bind (fine_width (t_mj o) my lmax) (fun dyf =>
    bind (convert_brick brick blockno (p_xl p) (p_yl p)) (fun '(xlower, ylower) =>
    bind (int_quot xlower dxf) (fun xlow_d => bind (int_quot ylower dyf) (fun ylow_d =>
    if Model_Util.in_int (xlow_d + mxf) && Model_Util.in_int (ylow_d + myf)
    then Some (mkR xlow_d ylow_d (xlow_d + mxf) (ylow_d + myf)) else None)))))))).

  (** the rectangle of a quadrant *)
  Definition rectangle_of (o : topts) (brick : option block_ll) (blockno : Z) (q : quad) : option rect :=
    rectangle o brick blockno (set_boundary_xylower rnd D2 0 (q_level q) (q_level q) q).
End Rounded.

(** :146-153 what is printed for a patch *)
Definition d (z : Z) : string := if z <? 0 then ("-" ++ dec (Z.to_N (- z)))%string else dec (Z.to_N z).
Definition newline : string := String (ascii_of_nat 10) EmptyString.
Definition record (level : Z) (patch_num rank : N) (r : rect) : string :=
  ("    \ifthenelse{\level = " ++ d level ++ "}" ++ newline ++
   "    {" ++ newline ++
   "        % Patch number " ++ dec patch_num ++ "; rank = " ++ dec rank ++ newline ++
   "        \draw [ultra thin] (" ++ d (r_xlow r) ++ "," ++ d (r_ylow r) ++ ") rectangle (" ++ d (r_xup r) ++ "," ++ d (r_yup r) ++ ");" ++ newline ++
   "    }{}" ++ newline ++ newline)%string.

(** ** The file: :198-243

    All processes open the file for appending before the serialized section and close it after the section.  What is
    printed goes to the buffer of the process; [spill] says what is passed on to the file when something is printed
    and what stays in the buffer; closing passes on the rest.  The section: one process after the other, in rank order
    (forestclaw2d.c:2398-2427, C29): [turn] is the process whose turn it is.  After the barrier process 0 appends the
    footer.  Process 0 writes the header, and closes the file, before it enters its section, so before anything is
    printed by anyone: the runs begin there. *)
Definition bytes := list ascii.
Record tworld := mkTW { tw_turn : nat; tw_rest : nat -> list bytes; tw_buf : nat -> bytes; tw_closed : nat -> bool;
                        tw_end : bool; tw_file : bytes }.
Definition set {A} (f : nat -> A) (p : nat) (a : A) : nat -> A := fun p' => if Nat.eqb p' p then a else f p'.

Section File.
  Variable spill : bytes -> bytes * bytes.
  Variable size : nat.
  Variable footer : bytes.

  Inductive tstep : tworld -> tworld -> Prop :=
  (** fprintf of one patch, in the section *)
  | t_print : forall w r rs, (tw_turn w < size)%nat -> tw_rest w (tw_turn w) = r :: rs ->
      let p := tw_turn w in let sp := spill (tw_buf w p ++ r) in
      tstep w (mkTW p (set (tw_rest w) p rs) (set (tw_buf w) p (snd sp)) (tw_closed w) (tw_end w) (tw_file w ++ fst sp))
  (** serialization_leave *)
  | t_leave : forall w, (tw_turn w < size)%nat -> tw_rest w (tw_turn w) = [] ->
      tstep w (mkTW (S (tw_turn w)) (tw_rest w) (tw_buf w) (tw_closed w) (tw_end w) (tw_file w))
  (** fclose *)
  | t_close : forall w p, (p < size)%nat -> (p < tw_turn w)%nat -> tw_closed w p = false ->
      tstep w (mkTW (tw_turn w) (tw_rest w) (set (tw_buf w) p []) (set (tw_closed w) p true) (tw_end w) (tw_file w ++ tw_buf w p))
  (** the barrier, and the end of the file by process 0 *)
  | t_end : forall w, (forall p, (p < size)%nat -> tw_closed w p = true) -> tw_end w = false ->
      tstep w (mkTW (tw_turn w) (tw_rest w) (tw_buf w) (tw_closed w) true (tw_file w ++ footer)).
  Inductive tsteps : tworld -> tworld -> Prop :=
  | t_none : forall w, tsteps w w
  | t_more : forall w w1 w2, tsteps w w1 -> tstep w1 w2 -> tsteps w w2.
End File.
Definition tstart (header : bytes) (records : nat -> list bytes) : tworld := mkTW 0 records (fun _ => []) (fun _ => false) false header.

(** a buffer of [cap] bytes that is passed on when full (setvbuf _IOFBF, the default for files) *)
Definition full_blocks (cap : nat) (b : bytes) : bytes * bytes :=
  let n := (cap * (List.length b / cap))%nat in (firstn n b, skipn n b).
