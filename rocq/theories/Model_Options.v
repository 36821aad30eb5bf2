(** Model of option arrays, option checks and the exit status of option parsing.
    Modelled: src/fclaw_options.c lines 353-413 and 691-739; src/fclaw_base.c lines 493-531 and
    758-895; src/patches/clawpatch/fclaw2d_clawpatch_options.c lines 121-165;
    src/solvers/fc2d_clawpack4.6/fc2d_clawpack46_options.c lines 76-103.
    Simplified: real numbers are exact rationals (no rounding, no overflow to infinity); a string is
    the list of its characters up to the terminating zero; None for a null pointer. *)
From Coq Require Import ZArith QArith Qround Qabs Ascii List Bool.
Import ListNotations.
Open Scope Z_scope.

Definition str := list ascii.

(* ------------------------------------------------------------------ *)
(** C library, 7.22.1.4 and 7.22.1.3, "C" locale *)

Definition code (c : ascii) : Z := Z.of_N (N_of_ascii c).

(** isspace: blank, form feed, new line, carriage return, tabs *)
Definition is_space (c : ascii) : bool := (code c =? 32) || ((9 <=? code c) && (code c <=? 13)).
Definition is_digit (c : ascii) : bool := (48 <=? code c) && (code c <=? 57).

Fixpoint skip_spaces (s : str) : str :=
  match s with
  | c :: r => if is_space c then skip_spaces r else s
  | [] => []
  end.

(** the digits at the start of the string and what follows them *)
Fixpoint span_digits (s : str) : list Z * str :=
  match s with
  | c :: r => if is_digit c then let (d, t) := span_digits r in (code c - 48 :: d, t) else ([], s)
  | [] => ([], [])
  end.

(** optional sign: true for minus *)
Definition take_sign (s : str) : bool * str :=
  match s with
  | c :: r => if code c =? 45 then (true, r) else if code c =? 43 then (false, r) else (false, s)
  | [] => (false, [])
  end.

Definition number (d : list Z) : Z := fold_left (fun a x => 10 * a + x) d 0.

Definition LONG_MAX : Z := 2 ^ 63 - 1.
Definition LONG_MIN : Z := - 2 ^ 63.
Definition clamp (z : Z) : Z := Z.max LONG_MIN (Z.min LONG_MAX z).

(** strtol (s, &end, 10): the value and the rest of the string *)
Definition strtol (s : str) : Z * str :=
  let (neg, s1) := take_sign (skip_spaces s) in
  let (d, rest) := span_digits s1 in
  match d with
  | [] => (0, s)                                      (* no conversion: zero, end = s *)
  | _ => (clamp (if neg then - number d else number d), rest)
  end.

(** conversion of long to int on the usual machines: the low 32 bits *)
Definition to_int (z : Z) : Z := (z + 2 ^ 31) mod 2 ^ 32 - 2 ^ 31.

(** optional fraction: a point and digits *)
Definition take_fraction (s : str) : bool * list Z * str :=
  match s with
  | c :: r => if code c =? 46 then let (d, t) := span_digits r in (true, d, t) else (false, [], s)
  | [] => (false, [], [])
  end.

(** optional exponent: e or E, an optional sign and at least one digit; otherwise nothing is read *)
Definition take_exponent (s : str) : Z * str :=
  match s with
  | c :: r =>
      if (code c =? 101) || (code c =? 69)
      then let (neg, r1) := take_sign r in
           let (d, t) := span_digits r1 in
           match d with [] => (0, s) | _ => (if neg then - number d else number d, t) end
      else (0, s)
  | [] => (0, [])
  end.

(** letters that start a hexadecimal number, inf or nan: not modelled *)
Definition starts_special (d : list Z) (after : str) (s1 : str) : bool :=
  match d, after, s1 with
  | [0], c :: _, _ => (code c =? 120) || (code c =? 88)
  | [], _, c :: _ => (code c =? 105) || (code c =? 73) || (code c =? 110) || (code c =? 78)
  | _, _, _ => false
  end.

Definition pow10 (k : Z) : Q := Qpower (10 # 1) k.

(** strtod (s, &end): None for a hexadecimal number, inf and nan *)
Definition strtod (s : str) : option (Q * str) :=
  let (neg, s1) := take_sign (skip_spaces s) in
  let (d, s2) := span_digits s1 in
  if starts_special d s2 s1 then None
  else
    let '(_, f, s3) := take_fraction s2 in
    match d ++ f with
    | [] => Some (0%Q, s)                             (* no conversion *)
    | m =>
        let (e, rest) := take_exponent s3 in
        let v := (inject_Z (number m) * pow10 (e - Z.of_nat (length f)))%Q in
        Some (if neg then Qopp v else v, rest)
    end.

(* ------------------------------------------------------------------ *)
(** Arrays *)

(** fclaw_options_convert_int_array, fclaw_options.c 691-714: the array after the call *)
Fixpoint convert_ints (n : nat) (begin : option str) : list Z :=
  match n with
  | O => []
  | S n' =>
      match begin with
      | None => 0 :: convert_ints n' None
      | Some s => let (v, e) := strtol s in to_int v :: convert_ints n' (Some e)
      end
  end.
Definition convert_int_array (array_string : option str) (new_length : Z) : list Z :=
  convert_ints (Z.to_nat (Z.max new_length 0)) array_string.

(** fclaw_options_convert_double_array, fclaw_options.c 716-739 *)
Fixpoint convert_doubles (n : nat) (begin : option str) : option (list Q) :=
  match n with
  | O => Some []
  | S n' =>
      match begin with
      | None => match convert_doubles n' None with Some l => Some (0%Q :: l) | None => None end
      | Some s =>
          match strtod s with
          | None => None
          | Some (v, e) => match convert_doubles n' (Some e) with Some l => Some (v :: l) | None => None end
          end
      end
  end.
Definition convert_double_array (array_string : option str) (new_length : Z) : option (list Q) :=
  convert_doubles (Z.to_nat (Z.max new_length 0)) array_string.

(* ------------------------------------------------------------------ *)
(** Checks *)

(** fclaw_exit_type, fclaw_base.h 155-165: the order of the constants matters *)
Inductive exit_type := NOEXIT | EXIT_QUIET | EXIT_PRINT | EXIT_USAGE | EXIT_ERROR.
Definition exit_num (e : exit_type) : Z :=
  match e with NOEXIT => 0 | EXIT_QUIET => 1 | EXIT_PRINT => 2 | EXIT_USAGE => 3 | EXIT_ERROR => 4 end.
(** SC_MAX (a, b) *)
Definition exit_max (a b : exit_type) : exit_type := if exit_num b <? exit_num a then a else b.

Definition INT_MAX : Z := 2 ^ 31 - 1.
Definition INT_MIN : Z := - 2 ^ 31.
Definition is_int (z : Z) : bool := (INT_MIN <=? z) && (z <=? INT_MAX).

(** the options the check reads *)
Record options := mkOptions {
  outstyle : Z;
  use_fixed_dt : Z;
  tfinal : Q;
  nout : Z;
  initial_dt : Q;
  reduce_cfl : Z;
  manifold : Z
}.

(** C truth value of an int, and the negation operator *)
Definition truth (z : Z) : bool := negb (z =? 0).
Definition c_not (z : Z) : Z := if z =? 0 then 1 else 0.

(** fclaw_options_check, fclaw_options.c 365-413, for patches of the given dimension.
    None: the quotient has a zero denominator or the rounded quotient is no int, so that the
    conversion to int is undefined.  The debug session and the trap of floating point errors
    have no effect on the result. *)
Definition options_check (patchdim : Z) (o : options) : option exit_type :=
  let second :=
    if truth (Z.land (c_not (reduce_cfl o)) (c_not (use_fixed_dt o))) then EXIT_ERROR
    else if (patchdim =? 3) && truth (manifold o) then EXIT_ERROR
    else NOEXIT in
  if (outstyle o =? 1) && truth (use_fixed_dt o) then
    if (nout o =? 0) || Qeq_bool (initial_dt o) 0 then None
    else
      let dT_outer := (tfinal o / inject_Z (nout o))%Q in
      let dT_inner := initial_dt o in
      let nsteps := Qfloor (dT_outer / dT_inner + (1 # 2))%Q in
      if negb (is_int nsteps) then None
      else if Qle_bool (Qabs (inject_Z nsteps * dT_inner - dT_outer)) (1 # 100000000)
      then Some second
      else Some EXIT_ERROR
  else Some second.

Record clawpatch_options := mkClawpatchOptions {
  mx : Z;
  my : Z;
  mbc : Z;
  interp_stencil_width : Z;
  refinement_criteria : Z
}.

(** clawpatch_check, fclaw2d_clawpatch_options.c 128-165.  None: 2*mbc is no int.
    The test of the stencil width only prints a message. *)
Definition clawpatch_check (o : clawpatch_options) : option exit_type :=
  if negb (is_int (2 * mbc o)) then None
  else if mx o <? 2 * mbc o then Some EXIT_ERROR
  else if (refinement_criteria o <? 0) || (4 <? refinement_criteria o) then Some EXIT_ERROR
  else Some NOEXIT.

Record clawpack_options := mkClawpackOptions {
  order_string : option str;
  mthlim_string : option str;
  mthbc_string : option str;
  mwaves : Z;
  src_term : Z;
  mcapa : Z
}.
Record clawpack_arrays := mkClawpackArrays {
  order : list Z;
  mthlim : list Z;
  mthbc : list Z;
  method : list Z
}.

(** clawpack46_postprocess and clawpack46_check, fc2d_clawpack46_options.c 76-103: the arrays
    afterwards; method[6] is not set.  None: order is read outside its two entries. *)
Definition clawpack46_options (o : clawpack_options) : option (clawpack_arrays * exit_type) :=
  let bc := convert_int_array (mthbc_string o) 4 in
  let lim := convert_int_array (mthlim_string o) (mwaves o) in
  let ord := convert_int_array (order_string o) 2 in
  match ord with
  | [o0; o1] => Some (mkClawpackArrays ord lim bc [0; o0; o1; 0; src_term o; mcapa o], NOEXIT)
  | _ => None
  end.

(** options_postprocess_core, fclaw_base.c 493-531 *)
Definition core_postprocess (print_version print_options print_help : Z) : exit_type :=
  if truth print_version then EXIT_QUIET
  else if truth print_options then EXIT_PRINT
  else if truth print_help then EXIT_USAGE
  else NOEXIT.

(** fclaw_app_options_parse, fclaw_base.c 758-895: the value returned.
    loads: what sc_options_load returns for the configuration files in turn; first_arg: what
    sc_options_parse returns; packages: what post-processing and checking of the packages return
    in turn, None for a missing function; save: what sc_options_save returns. *)
Definition parse_loads (loads : list Z) : exit_type :=
  fold_left (fun v r => if 0 <? r then EXIT_ERROR else v) loads NOEXIT.
Definition parse_package (v : exit_type) (p : option exit_type * option exit_type) : exit_type :=
  let v1 := match fst p with Some e => exit_max e v | None => v end in
  match snd p with Some e => exit_max e v1 | None => v1 end.
Definition options_parse (loads : list Z) (first_arg : Z) (packages : list (option exit_type * option exit_type))
    (is_root : bool) (savefile : bool) (save : Z) : exit_type :=
  let v0 := parse_loads loads in
  let v1 := if first_arg <? 0 then EXIT_ERROR else fold_left parse_package packages v0 in
  match v1 with
  | EXIT_ERROR => EXIT_ERROR
  | _ => if is_root && savefile then (if save =? 0 then v1 else EXIT_ERROR) else v1
  end.
