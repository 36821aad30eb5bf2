(** Binary64 arithmetic as used by the C code of /repo, reduced to the single
    fact the code relies on ("work with doubles -- exact for integers up to 52
    bits of precision", /repo/src/forestclaw2d.c:652, 797, 1174, 1302): an
    operation whose mathematical result is a binary64 number returns that
    number.  Nothing is assumed about results that are not representable.
    Values are rationals; NaN, infinities and signed zeros are not modelled. *)
From Coq Require Import ZArith QArith Qpower Lia.
Open Scope Z_scope.

(** [x] is a finite binary64 number: m * 2^e with a 53 bit significand. *)
Definition is_b64 (x : Q) : Prop :=
  exists m e : Z, Z.abs m < 2 ^ 53 /\ -1074 <= e <= 971 /\
                  (x == inject_Z m * Qpower 2 e)%Q.

(** A rounding function that is exact on representable numbers. *)
Definition rounding (rnd : Q -> Q) : Prop :=
  forall x, is_b64 x -> (rnd x == x)%Q.

(** C conversion [(int) x]: truncation toward zero, undefined ([None]) if the
    truncated value does not fit into 32 bits (C11 6.3.1.4). *)
Definition int_min : Z := - 2 ^ 31.
Definition int_max : Z := 2 ^ 31 - 1.
Definition in_int (z : Z) : Prop := int_min <= z <= int_max.
Definition in_intb (z : Z) : bool := (int_min <=? z) && (z <=? int_max).

Definition c_int (x : Q) : option Z :=
  let z := Z.quot (Qnum x) (Zpos (Qden x)) in
  if in_intb z then Some z else None.

(** The exact rounding is an instance, so the hypothesis is satisfiable. *)
Lemma rounding_id : rounding (fun x => x).
Proof. intros x _. reflexivity. Qed.
