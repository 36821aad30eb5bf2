(** Byte-addressed memory, used for the packing buffers.

    A buffer is a piece of memory [Z -> Z] from addresses to byte values, so
    that everything around the part a function writes is part of the state.
    [memcpy] is C's memcpy between a byte list and memory.

    Scalars are stored little-endian; [int] is 32 bit two's complement and
    [size_t] 64 bit unsigned (the x86-64 / AArch64 data model).  A [double] is
    represented by its 64 bit pattern, so that "equal" below means bitwise
    equal, including signed zeros and NaN payloads. *)
From Coq Require Import ZArith List Lia Bool.
Import ListNotations.
Local Open Scope Z_scope.

Definition mem := Z -> Z.

(** memcpy (dst, src, n): store the bytes [bs] at [a], [a+1], ... *)
Fixpoint mstore (m : mem) (a : Z) (bs : list Z) : mem :=
  match bs with
  | [] => m
  | b :: tl => mstore (fun x => if x =? a then b else m x) (a + 1) tl
  end.

(** memcpy (dst, src, n) from memory: the [n] bytes at [a], [a+1], ... *)
Fixpoint mload (m : mem) (a : Z) (n : nat) : list Z :=
  match n with
  | O => []
  | S k => m a :: mload m (a + 1) k
  end.

Definition is_byte (b : Z) : Prop := 0 <= b < 256.

(** Little-endian image of an [n]-byte unsigned number. *)
Fixpoint le_bytes (n : nat) (v : Z) : list Z :=
  match n with
  | O => []
  | S k => v mod 256 :: le_bytes k (v / 256)
  end.

Fixpoint le_val (bs : list Z) : Z :=
  match bs with
  | [] => 0
  | b :: tl => b + 256 * le_val tl
  end.

(** two's complement reading of a 32 bit pattern *)
Definition to_int32 (v : Z) : Z := if v <? 2 ^ 31 then v else v - 2 ^ 32.

(* ------------------------------------------------------------------ *)

Lemma mstore_other : forall bs m a x,
  (x < a \/ a + Z.of_nat (length bs) <= x) -> mstore m a bs x = m x.
Proof.
  induction bs; intros m a0 x H; cbn [mstore length] in *; [reflexivity|].
  rewrite IHbs by lia. destruct (Z.eqb_spec x a0); [lia|reflexivity].
Qed.

Lemma mload_ext : forall n m m' a,
  (forall x, a <= x < a + Z.of_nat n -> m x = m' x) -> mload m a n = mload m' a n.
Proof.
  induction n; intros m m' a H; cbn [mload]; [reflexivity|].
  f_equal; [apply H; lia|apply IHn; intros; apply H; lia].
Qed.

Lemma mload_mstore : forall bs m a, mload (mstore m a bs) a (length bs) = bs.
Proof.
  induction bs; intros m a0; cbn [mstore mload length]; [reflexivity|].
  rewrite mstore_other by lia. rewrite Z.eqb_refl. now rewrite IHbs.
Qed.

Lemma mload_app : forall n k m a,
  mload m a (n + k) = mload m a n ++ mload m (a + Z.of_nat n) k.
Proof.
  induction n; intros k m a; cbn [mload Nat.add app].
  - f_equal; lia.
  - rewrite IHn. do 2 f_equal. f_equal. lia.
Qed.

Lemma mload_length : forall n m a, length (mload m a n) = n.
Proof. induction n; intros; cbn [mload length]; congruence. Qed.

Lemma mload_nth : forall n m a i d,
  (i < n)%nat -> nth i (mload m a n) d = m (a + Z.of_nat i).
Proof.
  induction n; intros m a i d H; [lia|].
  destruct i; cbn [mload nth]; [f_equal; lia|].
  rewrite IHn by lia. f_equal. lia.
Qed.

Lemma mstore_app : forall b1 b2 m a,
  mstore m a (b1 ++ b2) = mstore (mstore m a b1) (a + Z.of_nat (length b1)) b2.
Proof.
  induction b1; intros b2 m a0; cbn [mstore app length].
  - f_equal. lia.
  - rewrite IHb1. f_equal. lia.
Qed.

Lemma le_bytes_length : forall n v, length (le_bytes n v) = n.
Proof. induction n; intros; cbn [le_bytes length]; congruence. Qed.

Lemma le_bytes_byte : forall n v, Forall is_byte (le_bytes n v).
Proof.
  induction n; intros; cbn [le_bytes]; constructor; [|auto].
  apply Z.mod_pos_bound. lia.
Qed.

Lemma le_val_bytes : forall n v, le_val (le_bytes n v) = v mod 256 ^ Z.of_nat n.
Proof.
  induction n; intros v.
  - cbn [le_bytes le_val]. now rewrite Z.mod_1_r.
  - cbn [le_bytes le_val]. rewrite IHn.
    replace (Z.of_nat (S n)) with (1 + Z.of_nat n) by lia.
    rewrite Z.pow_add_r, Z.pow_1_r by lia.
    rewrite Z.rem_mul_r by (try apply Z.pow_pos_nonneg; lia). reflexivity.
Qed.

Lemma le_val_bytes_small : forall n v, 0 <= v < 256 ^ Z.of_nat n ->
  le_val (le_bytes n v) = v.
Proof. intros. rewrite le_val_bytes. now apply Z.mod_small. Qed.

Lemma to_int32_mod : forall v, - 2 ^ 31 <= v < 2 ^ 31 -> to_int32 (v mod 2 ^ 32) = v.
Proof.
  intros v H. unfold to_int32.
  assert (D : v mod 2 ^ 32 = v \/ v mod 2 ^ 32 = v + 2 ^ 32).
  { destruct (Z.lt_ge_cases v 0).
    - right. symmetry. apply Zmod_unique with (q := -1); lia.
    - left. apply Z.mod_small. lia. }
  destruct (Z.ltb_spec (v mod 2 ^ 32) (2 ^ 31)); lia.
Qed.
