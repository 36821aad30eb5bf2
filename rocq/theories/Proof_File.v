(** Lemmas about the bytes of data files. *)
From Coq Require Import ZArith String Ascii List Bool Lia Sorting.Permutation.
From Verif Require Import Model_File Spec_File.
Import ListNotations.
Open Scope nat_scope.

(** * Decimal numbers *)
Fixpoint val_rev (l : list Z) : Z := match l with [] => 0 | d :: tl => (d + 10 * val_rev tl)%Z end.
Definition is_digit (d : Z) := (0 <= d < 10)%Z.

Lemma digits_rev_ok fuel : forall n k, (0 <= n < 10 ^ Z.of_nat k)%Z -> k <= fuel ->
  val_rev (digits_rev fuel n) = n /\ length (digits_rev fuel n) <= k /\ Forall is_digit (digits_rev fuel n).
Proof.
  induction fuel as [|fuel IH]; intros n k B K.
  - assert (k = 0) by lia. subst k. change (10 ^ Z.of_nat 0)%Z with 1%Z in B. cbn [digits_rev val_rev length]. repeat split; [lia|lia|constructor].
  - cbn [digits_rev]. destruct (n =? 0)%Z eqn:E; [apply Z.eqb_eq in E; subst n; cbn [val_rev length]; repeat split; [lia|constructor]|].
    apply Z.eqb_neq in E. destruct k as [|k]; [change (10 ^ Z.of_nat 0)%Z with 1%Z in B; lia|].
    rewrite Nat2Z.inj_succ, Z.pow_succ_r in B by lia.
    assert (M := Z.mod_pos_bound n 10 ltac:(lia)). assert (D := Z.div_mod n 10 ltac:(lia)).
    destruct (IH (n / 10)%Z k) as (V & L & F); [split; [apply Z.div_pos; lia|apply Z.div_lt_upper_bound; lia]|lia|].
    cbn [val_rev length]. rewrite V. repeat split; [lia|lia|constructor; [exact M|exact F]].
Qed.

Lemma digit_ok d : is_digit d -> digit (digit_char d) = Some d.
Proof.
  intros (A & B). unfold digit, digit_char. rewrite nat_ascii_embedding by lia.
  assert ((48 <=? 48 + Z.to_nat d) && (48 + Z.to_nat d <=? 57) = true) as -> by (apply andb_true_intro; split; apply Nat.leb_le; lia).
  f_equal. lia.
Qed.

Lemma decimal_rev l : Forall is_digit l -> decimal (map digit_char (rev l)) = Some (val_rev l).
Proof.
  intros F. unfold decimal. rewrite map_rev, <- fold_left_rev_right, rev_involutive. induction F as [|d l D F IH]; [reflexivity|].
  cbn [map fold_right val_rev]. rewrite IH, (digit_ok d D). f_equal. lia.
Qed.

Lemma val_rev_app l k : val_rev (l ++ repeat 0%Z k) = val_rev l.
Proof. induction l as [|d l IH]; cbn [app val_rev]; [induction k as [|k IHk]; cbn [repeat val_rev]; lia|lia]. Qed.

Lemma print_dec_ok w n : (0 <= n < 10 ^ Z.of_nat w)%Z -> w <= 20 -> length (print_dec w n) = w /\ decimal (print_dec w n) = Some n.
Proof.
  intros B W. destruct (digits_rev_ok 20 n w B W) as (V & L & F). unfold print_dec. split.
  - rewrite map_length, rev_length, app_length, repeat_length. lia.
  - rewrite decimal_rev, val_rev_app, V; [reflexivity|]. apply Forall_app. split; [exact F|]. apply Forall_forall. intros x X. apply repeat_spec in X. subst x. split; lia.
Qed.

(** * Strings *)
Lemma printed_ok s n : length s = n -> printed (n + 1) s n = Fine s.
Proof.
  intros L. unfold printed. replace (n + 1 - 1) with n by lia. rewrite <- L, firstn_all, app_length. cbn [length].
  assert (length s <=? length s + 1 = true) as -> by (apply Nat.leb_le; lia). rewrite firstn_app, firstn_all, Nat.sub_diag, firstn_O, app_nil_r. reflexivity.
Qed.
Lemma print_left_length w s : length s <= w -> length (print_left w s) = w.
Proof. intros L. unfold print_left. rewrite app_length, repeat_length. lia. Qed.
Lemma strip_blanks n : strip (blanks n) = [].
Proof. induction n as [|n IH]; [reflexivity|]. unfold blanks in *. cbn [repeat strip]. rewrite IH. reflexivity. Qed.
Lemma strip_pad s n : strip (s ++ blanks n) = strip s.
Proof. induction s as [|c s IH]; [apply strip_blanks|]. cbn [app strip]. rewrite IH. reflexivity. Qed.

Definition c_string (s : bytes) : Prop := ~ In NUL s.
Lemma check_ok s : length s <= 47 -> check_user_string s = true.
Proof.
  intros L. unfold check_user_string. change (USER_STRING_BYTES - 1) with 47. rewrite firstn_length. destruct (Nat.min 47 (length s) <? 47) eqn:E; [reflexivity|].
  apply Nat.ltb_ge in E. assert (length s = 47) by lia. rewrite nth_error_app2 by lia. replace (47 - length s) with 0 by lia. reflexivity.
Qed.
Lemma check_bad s : c_string s -> 47 < length s -> check_user_string s = false.
Proof.
  intros C L. unfold check_user_string. change (USER_STRING_BYTES - 1) with 47. rewrite firstn_length.
  assert (Nat.min 47 (length s) <? 47 = false) as -> by (apply Nat.ltb_ge; lia). rewrite nth_error_app1 by lia.
  destruct (nth_error s 47) as [c|] eqn:E; [|reflexivity]. apply Ascii.eqb_neq. intros ->. apply C. eapply nth_error_In; exact E.
Qed.

(** * Padding *)
Definition pad_len (n : nat) : nat := 2 + (14 + 15 * n) mod 16.
Definition pad_bytes (n : nat) : bytes := nl :: blanks (pad_len n - 2) ++ [nl].
Lemma pad_len_bound n : 2 <= pad_len n <= 17.
Proof. unfold pad_len. pose proof (Nat.mod_upper_bound (14 + 15 * n) 16 ltac:(lia)). lia. Qed.
Lemma pad_bytes_length n : length (pad_bytes n) = pad_len n.
Proof. unfold pad_bytes, blanks. cbn [length]. rewrite app_length, repeat_length. cbn [length]. pose proof (pad_len_bound n). lia. Qed.
Lemma pad_aligned n : (n + pad_len n) mod 16 = 0.
Proof.
  unfold pad_len. pose proof (Nat.div_mod (14 + 15 * n) 16 ltac:(lia)). set (q := (14 + 15 * n) / 16) in *. set (m := (14 + 15 * n) mod 16) in *.
  assert (n + (2 + m) = (n + 1 - q) * 16) as -> by lia. apply Nat.mod_mul. lia.
Qed.
Lemma pad_cases n : n mod 16 <> 15 ->
  (let k := (16 - n mod 16) mod 16 in if (k =? 0) || (k =? 1) then k + 16 else k) = pad_len n /\ pad_len n <= 16.
Proof.
  intros H. pose proof (pad_aligned n) as A. pose proof (pad_len_bound n) as B. rewrite Nat.add_mod in A by lia.
  pose proof (Nat.mod_upper_bound n 16 ltac:(lia)) as U. remember (pad_len n) as p eqn:EP. remember (n mod 16) as m eqn:EM. clear EP EM.
  assert (p <= 16). { destruct (Nat.eq_dec p 17); [|lia]. subst p. change (17 mod 16) with 1 in A. rewrite Nat.mod_small in A by lia. lia. }
  split; [|assumption].
  do 16 (destruct m as [|m]; [do 17 (destruct p as [|p]; [first [lia|cbn in A; discriminate A|reflexivity]|]); lia|]). lia.
Qed.
Lemma pad_15 n : n mod 16 = 15 -> (let k := (16 - n mod 16) mod 16 in if (k =? 0) || (k =? 1) then k + 16 else k) = 17.
Proof. intros ->. reflexivity. Qed.

Lemma padding_ok n pad : n mod 16 <> 15 ->
  get_padding_string n BYTE_DIV (match pad with true => Some MAX_NUM_PAD_BYTES | false => None end) = Fine (if pad then pad_bytes n else [], pad_len n).
Proof.
  intros H. unfold get_padding_string. change BYTE_DIV with 16. change (16 =? 0) with false. cbv iota. destruct (pad_cases n H) as (E & L). cbv zeta in E |- *. rewrite E.
  pose proof (pad_len_bound n) as B. assert (1 <? pad_len n = true) as -> by (apply Nat.ltb_lt; lia). assert (pad_len n <=? 16 = true) as -> by (apply Nat.leb_le; lia). cbn [negb].
  destruct pad; [|reflexivity]. change MAX_NUM_PAD_BYTES with 17. assert (17 <? pad_len n + 1 = false) as -> by (apply Nat.ltb_ge; lia).
  change (newline :: print_left (pad_len n - 2) [] ++ [newline]) with (nl :: ([] ++ blanks (pad_len n - 2 - 0)) ++ [nl]). rewrite Nat.sub_0_r. change ([] ++ ?l) with l. fold (pad_bytes n).
  rewrite printed_ok by apply pad_bytes_length. reflexivity.
Qed.
Lemma padding_15 n pad : n mod 16 = 15 -> get_padding_string n BYTE_DIV pad = Undefined.
Proof. intros H. unfold get_padding_string. change BYTE_DIV with 16. change (16 =? 0) with false. cbv iota. pose proof (pad_15 n H) as E. cbv zeta in E |- *. rewrite E. reflexivity. Qed.

(** * Writes *)
Lemma sub_length f o n : o + n <= length f -> length (sub f o n) = n.
Proof. intros H. unfold sub. rewrite firstn_length, skipn_length. lia. Qed.
Lemma nth_sub f o n i d : i < n -> nth i (sub f o n) d = nth (o + i) f d.
Proof.
  intros H. unfold sub. revert o f. induction o as [|o IH]; intros f.
  - rewrite skipn_O. change (0 + i) with i. revert n f H. induction i as [|i IHi]; intros [|n] [|c f] H; try lia; cbn [firstn nth]; try reflexivity. apply IHi. lia.
  - destruct f as [|c f]; [rewrite skipn_nil, firstn_nil; destruct i, o; reflexivity|]. cbn [skipn Nat.add nth]. apply IH.
Qed.

Lemma write_length f o d : d <> [] -> length (write_at f o d) = Nat.max (length f) (o + length d).
Proof.
  intros N. unfold write_at. destruct d as [|c d]; [contradiction|]. rewrite !app_length, firstn_length, repeat_length, skipn_length. lia.
Qed.
Lemma write_nth f o d i : i < length (write_at f o d) ->
  nth i (write_at f o d) NUL = if (o <=? i) && (i <? o + length d) then nth (i - o) d NUL else nth i f NUL.
Proof.
  destruct (list_eq_dec ascii_dec d []) as [->|N].
  { intros _. cbn [length]. destruct (o <=? i) eqn:A; [|reflexivity]. apply Nat.leb_le in A. assert (i <? o + 0 = false) as -> by (apply Nat.ltb_ge; lia). reflexivity. }
  intros L. rewrite write_length in L by assumption. unfold write_at. destruct d as [|c d']; [contradiction|]. set (d := c :: d') in *.
  assert (X : length (firstn o f ++ repeat NUL (o - length f)) = o) by (rewrite app_length, firstn_length, repeat_length; lia).
  rewrite app_assoc. destruct (o <=? i) eqn:A; cbn [andb].
  - apply Nat.leb_le in A. rewrite app_nth2 by lia. rewrite X. destruct (i <? o + length d) eqn:B.
    + apply Nat.ltb_lt in B. rewrite app_nth1 by lia. reflexivity.
    + apply Nat.ltb_ge in B. rewrite app_nth2 by lia. pose proof (nth_sub f (o + length d) (length f) (i - o - length d) NUL) as S. unfold sub in S.
      rewrite firstn_all2 in S by (rewrite skipn_length; lia). destruct (Nat.lt_ge_cases (i - o - length d) (length f)) as [Y|Y]; [rewrite S by exact Y; f_equal; lia|].
      rewrite !nth_overflow; [reflexivity|lia|rewrite skipn_length; lia].
  - apply Nat.leb_gt in A. rewrite app_nth1 by lia. destruct (Nat.lt_ge_cases i (length f)) as [B|B].
    + rewrite app_nth1 by (rewrite firstn_length; lia). pose proof (nth_sub f 0 o i NUL A) as S. unfold sub in S. rewrite skipn_O in S. rewrite S. reflexivity.
    + rewrite app_nth2 by (rewrite firstn_length; lia). rewrite (nth_overflow f) by lia.
      rewrite nth_repeat. reflexivity.
Qed.

(** Writes that put the bytes of [T] where they belong, in any order, make the file [T] as soon as they cover the rest *)
Definition fits (T : bytes) (w : wr) : Prop := fst w + length (snd w) <= length T /\ snd w = sub T (fst w) (length (snd w)).
Definition covers (w : wr) (i : nat) : Prop := fst w <= i < fst w + length (snd w).

Lemma fits_write T f w : fits T w -> length f <= length T ->
  length (write_at f (fst w) (snd w)) <= length T /\ length f <= length (write_at f (fst w) (snd w)) /\
  (forall i, covers w i -> i < length (write_at f (fst w) (snd w)) /\ nth i (write_at f (fst w) (snd w)) NUL = nth i T NUL) /\
  (forall i, i < length f -> nth i f NUL = nth i T NUL -> nth i (write_at f (fst w) (snd w)) NUL = nth i T NUL).
Proof.
  destruct w as [o d]. unfold fits, covers. cbn [fst snd]. intros (L & E) LF.
  destruct (list_eq_dec ascii_dec d []) as [->|N]; [cbn [write_at length]; split; [lia|]; split; [lia|]; split; [intros i (A & B); lia|intros; assumption]|].
  assert (WL := write_length f o d N). assert (ND : forall i, o <= i < o + length d -> nth (i - o) d NUL = nth i T NUL).
  { intros i I0. rewrite E, nth_sub by lia. f_equal. lia. }
  split; [lia|]. split; [lia|]. split.
  - intros i J. split; [lia|]. rewrite write_nth by lia. assert ((o <=? i) && (i <? o + length d) = true) as -> by (apply andb_true_intro; split; [apply Nat.leb_le|apply Nat.ltb_lt]; lia). apply ND. lia.
  - intros i I0 EQ. rewrite write_nth by lia. destruct ((o <=? i) && (i <? o + length d)) eqn:B; [|exact EQ]. apply andb_prop in B. destruct B as (B1 & B2). apply Nat.leb_le in B1. apply Nat.ltb_lt in B2. apply ND. lia.
Qed.

Lemma writes_target T ws : forall f, length f <= length T -> Forall (fits T) ws ->
  (forall i, i < length T -> (i < length f /\ nth i f NUL = nth i T NUL) \/ Exists (fun w => covers w i) ws) -> apply_writes f ws = T.
Proof.
  induction ws as [|w ws IH]; intros f L F C.
  - cbn. assert (length f = length T). { destruct (Nat.eq_dec (length f) (length T)); [assumption|]. destruct (C (length f)) as [(A & _)|A]; [lia|lia|inversion A]. }
    apply (nth_ext _ _ NUL NUL); [assumption|]. intros i I0. destruct (C i) as [(_ & A)|A]; [lia|exact A|inversion A].
  - inversion F as [|? ? FW FT]; subst. cbn. destruct (fits_write T f w FW L) as (L1 & L2 & A & B). apply IH; [exact L1|exact FT|].
    intros i I0. destruct (C i I0) as [(C1 & C2)|C1]; [left; split; [lia|apply B; assumption]|]. inversion C1 as [? ? X|? ? X]; subst; [left; apply A; exact X|right; exact X].
Qed.

Lemma apply_app f a b : apply_writes f (a ++ b) = apply_writes (apply_writes f a) b.
Proof. apply fold_left_app. Qed.

Lemma set_size_facts f n : length f <= n -> length (set_size f n) = n /\ forall i, i < length f -> nth i (set_size f n) NUL = nth i f NUL.
Proof.
  intros L. unfold set_size. rewrite firstn_all2 by lia. split; [rewrite app_length, repeat_length; lia|]. intros i I0. rewrite app_nth1 by lia. reflexivity.
Qed.

(** * The target of one call *)
Definition header_bytes (letter : ascii) (size : nat) (s : bytes) : bytes := [letter; " "%char] ++ print_dec 13 (Z.of_nat size) ++ [nl] ++ print_left 47 s ++ [nl].
Definition section_bytes (k : kind) (size : nat) (s d : bytes) : bytes := header_bytes (letter k) size s ++ d ++ pad_bytes (length d).
Lemma header_length c size s : length s <= 47 -> (Z.of_nat size <= 9999999999999)%Z -> length (header_bytes c size s) = 64.
Proof.
  intros S Z. unfold header_bytes. rewrite !app_length. rewrite print_left_length by lia. destruct (print_dec_ok 13 (Z.of_nat size)) as (-> & _); [change (10 ^ Z.of_nat 13)%Z with 10000000000000%Z; lia|lia|]. reflexivity.
Qed.
Lemma section_length k size s d : length s <= 47 -> (Z.of_nat size <= 9999999999999)%Z -> length (section_bytes k size s d) = 64 + (length d + pad_len (length d)).
Proof. intros S Z. unfold section_bytes. rewrite !app_length, pad_bytes_length, header_length by assumption. reflexivity. Qed.

Lemma sub_app_at (a b c : bytes) o : o = length a -> sub (a ++ b ++ c) o (length b) = b.
Proof. intros ->. unfold sub. rewrite skipn_app, skipn_all, Nat.sub_diag. cbn [app skipn]. rewrite firstn_app, firstn_all, Nat.sub_diag, firstn_O, app_nil_r. reflexivity. Qed.
Lemma fits_at T (a b c : bytes) o : T = a ++ b ++ c -> o = length a -> fits T (o, b).
Proof. intros -> ->. unfold fits. cbn [fst snd]. split; [rewrite !app_length; lia|]. rewrite sub_app_at by reflexivity. reflexivity. Qed.
