(** What a user of option arrays and option checks relies on.  Nothing here reads a string. *)
From Coq Require Import ZArith QArith Qabs Ascii List Bool.
Import ListNotations.
Open Scope Z_scope.

Definition text := list ascii.

Definition char_code (c : ascii) : Z := Z.of_nat (nat_of_ascii c).
(** blank, tab, new line, vertical tab, form feed, carriage return *)
Definition blank (c : ascii) : Prop := In (char_code c) [32; 9; 10; 11; 12; 13].
Definition blanks (s : text) : Prop := Forall blank s.
Definition digit (c : ascii) : Prop := 48 <= char_code c <= 57.
Definition digit_of (c : ascii) : Z := char_code c - 48.
Definition digits (s : text) : Prop := Forall digit s /\ s <> [].

(** decimal value of a string of digits: place value, most significant first *)
Fixpoint place_value (s : text) : Z :=
  match s with
  | [] => 0
  | c :: r => digit_of c * 10 ^ Z.of_nat (length r) + place_value r
  end.

(** signs as written: nothing, plus, minus *)
Inductive sign : text -> Z -> Prop :=
| sign_none : sign [] 1
| sign_plus : sign ["+"%char] 1
| sign_minus : sign ["-"%char] (-1).

(** a decimal integer as written *)
Definition integer_text (s : text) (z : Z) : Prop :=
  exists sg d k, sign sg k /\ digits d /\ s = sg ++ d /\ z = k * place_value d.

(** a decimal number as written: 12, -3.5, .5, 7., 1e-3, +2.5E+2 *)
Inductive mantissa : text -> Q -> Prop :=
| mantissa_integer d : digits d -> mantissa d (inject_Z (place_value d))
| mantissa_point d f : Forall digit d -> Forall digit f -> d ++ f <> [] ->
    mantissa (d ++ "."%char :: f) (inject_Z (place_value d) + inject_Z (place_value f) / inject_Z (10 ^ Z.of_nat (length f))).
Inductive scale : text -> Q -> Prop :=
| scale_none : scale [] 1
| scale_up c s d : (c = "e"%char \/ c = "E"%char) -> sign s 1 -> digits d -> scale (c :: s ++ d) (inject_Z (10 ^ place_value d))
| scale_down c s d : (c = "e"%char \/ c = "E"%char) -> sign s (-1) -> digits d -> scale (c :: s ++ d) (/ inject_Z (10 ^ place_value d)).
Definition real_text (s : text) (q : Q) : Prop :=
  exists sg m e k v w, sign sg k /\ mantissa m v /\ scale e w /\ s = sg ++ m ++ e /\ (q == inject_Z k * v * w)%Q.

(** a list of numbers as written: every number is preceded by blanks, at least one except at the start *)
Inductive list_text {A} (one : text -> A -> Prop) : bool -> text -> list A -> Prop :=
| list_nil first : list_text one first [] []
| list_cons (first : bool) b t a s l :
    blanks b -> (first = false -> b <> []) -> one t a -> list_text one false s l ->
    list_text one first (b ++ t ++ s) (a :: l).

(** what follows the numbers: blanks and then nothing, or a character that cannot start a number;
    such a character may follow without blanks only when there are no numbers *)
Definition starts_no_number (c : ascii) : Prop :=
  ~ blank c /\ ~ digit c /\ ~ In c ["+"%char; "-"%char; "."%char; "i"%char; "I"%char; "n"%char; "N"%char].
Definition end_text (alone : bool) (s : text) : Prop :=
  exists b t, blanks b /\ s = b ++ t /\ (t = [] \/ ((b <> [] \/ alone = true) /\ exists c r, t = c :: r /\ starts_no_number c)).

(** the whole text of an option: numbers and what follows them *)
Definition option_text {A} (one : text -> A -> Prop) (s : text) (l : list A) : Prop :=
  exists numbers rest, s = numbers ++ rest /\ list_text one true numbers l /\
    end_text (match l with [] => true | _ => false end) rest.

(** the first n entries, filled up with zeros *)
Definition padded {A} (zero : A) (n : nat) (l : list A) : list A :=
  map (fun i => nth i l zero) (seq 0 n).

Definition int_range (z : Z) : Prop := - 2 ^ 31 <= z < 2 ^ 31.

(** some whole number of steps of size dt covers the interval up to the tolerance *)
Definition steps_cover (dt interval tolerance : Q) : Prop :=
  exists n : Z, (Qabs (inject_Z n * dt - interval) <= tolerance)%Q.

(** grid sizes the ghost exchange (C17), averaging (C19, C23) and interpolation need *)
Definition grid_usable (mx my mbc width : Z) : Prop :=
  mx = my /\ Z.even mx = true /\ 4 * mbc <= mx /\ 0 <= mbc /\ Z.quot width 2 <= mbc.

(** the severity of an outcome of option processing, in increasing order *)
Definition most_severe {E} (severity : E -> Z) (outcomes : list E) (e : E) : Prop :=
  In e outcomes /\ forall x, In x outcomes -> severity x <= severity e.
