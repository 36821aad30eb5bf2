(** What a ForestClaw data file is, independent of the code that writes it. *)
From Coq Require Import ZArith String Ascii List Bool Sorting.Permutation.
Import ListNotations.
Open Scope nat_scope.

Notation bytes := (list ascii).
Definition nl : ascii := "010"%char.
Definition text (s : string) : bytes := list_ascii_of_string s.
Definition blanks (n : nat) : bytes := repeat " "%char n.

(** [n] bytes of [f] from offset [o] on *)
Definition sub (f : bytes) (o n : nat) : bytes := firstn n (skipn o f).

(** value of a decimal number *)
Definition digit (c : ascii) : option Z := let n := nat_of_ascii c in if (48 <=? n) && (n <=? 57) then Some (Z.of_nat (n - 48)) else None.
Definition decimal (s : bytes) : option Z :=
  fold_left (fun acc c => match acc, digit c with Some a, Some d => Some (10 * a + d)%Z | _, _ => None end) s (Some 0%Z).

(** The sections of a file: kind 'B' with the data, kind 'F' with the data of all patches of the forest in order *)
Inductive kind := KBlock | KField.
Record section := mkSec { s_kind : kind; s_size : nat; s_string : bytes; s_data : bytes }.
Definition letter (k : kind) : ascii := match k with KBlock => "B"%char | KField => "F"%char end.

(** Padding: newline, blanks, newline *)
Definition is_padding (s : bytes) : Prop := exists n, s = nl :: blanks n ++ [nl].

(** Section [s] occupies the bytes from [o] up to [o']: 64 bytes of header, the data, at least 2 and at most 17 bytes of
    padding such that the end is a multiple of 16 *)
Definition section_at (f : bytes) (o o' : nat) (s : section) : Prop :=
  o <= o' <= length f /\ o' mod 16 = 0 /\
  o' = o + 64 + length (s_data s) + (o' - o - 64 - length (s_data s)) /\
  2 <= o' - o - 64 - length (s_data s) <= 17 /\
  sub f o 2 = [letter (s_kind s); " "%char] /\
  decimal (sub f (o + 2) 13) = Some (Z.of_nat (s_size s)) /\ sub f (o + 15) 1 = [nl] /\
  sub f (o + 16) 47 = s_string s ++ blanks (47 - length (s_string s)) /\ sub f (o + 63) 1 = [nl] /\
  sub f (o + 64) (length (s_data s)) = s_data s /\
  is_padding (sub f (o + 64 + length (s_data s)) (o' - o - 64 - length (s_data s))).

(** The sections follow each other from [o] to the end of the file without gaps *)
Fixpoint sections_from (f : bytes) (o : nat) (ss : list section) : Prop :=
  match ss with
  | [] => o = length f
  | s :: tl => exists o', section_at f o o' s /\ sections_from f o' tl
  end.

(** 112 bytes in front of the first section *)
Definition header_at (f : bytes) (num_quads : nat) (user : bytes) : Prop :=
  112 <= length f /\
  sub f 0 8 = text "p4data0" ++ [nl] /\ sub f 8 24 = text "p4est data file v1" ++ blanks 5 ++ [nl] /\
  sub f 32 48 = user ++ blanks (47 - length user) ++ [nl] /\ decimal (sub f 80 16) = Some (Z.of_nat num_quads) /\
  sub f 96 16 = nl :: blanks 14 ++ [nl].

(** A reader: knows only the bytes.  Trailing blanks of strings are dropped. *)
Fixpoint strip (s : bytes) : bytes :=
  match s with
  | [] => []
  | c :: tl => match strip tl with [] => if Ascii.eqb c " "%char then [] else [c] | t => c :: t end
  end.
Definition read_header (f : bytes) : option (nat * bytes) :=
  match decimal (sub f 80 16) with Some n => Some (Z.to_nat n, strip (sub f 32 47)) | None => None end.
Definition read_section (f : bytes) (num_quads o : nat) : option (section * nat) :=
  match sub f o 1, decimal (sub f (o + 2) 13) with
  | [c], Some n =>
      let size := Z.to_nat n in
      let str := strip (sub f (o + 16) 47) in
      let finish k len := Some (mkSec k size str (sub f (o + 64) len), o + 64 + len + (2 + (14 + 15 * len) mod 16)) in
      if Ascii.eqb c "B"%char then finish KBlock size
      else if Ascii.eqb c "F"%char then finish KField (num_quads * size) else None
  | _, _ => None
  end.
Fixpoint read_sections (fuel : nat) (f : bytes) (num_quads o : nat) : option (list section) :=
  if o =? length f then Some [] else
  match fuel with
  | O => None
  | S k => match read_section f num_quads o with
           | Some (s, o') => match read_sections k f num_quads o' with Some l => Some (s :: l) | None => None end
           | None => None
           end
  end.
Definition read_file (f : bytes) : option (bytes * list section) :=
  match read_header f with
  | Some (n, user) => match read_sections (length f) f n 112 with Some l => Some (user, l) | None => None end
  | None => None
  end.

(** A partition of [n] patches among processes: nondecreasing first patch numbers from 0 to [n], one entry per process and [n] *)
Definition partition (first : list nat) (n : nat) : Prop :=
  2 <= length first /\ nth 0 first 0 = 0 /\ nth (length first - 1) first 0 = n /\
  (forall r, S r < length first -> nth r first 0 <= nth (S r) first 0).
