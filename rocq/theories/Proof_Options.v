(** Proofs about option arrays. *)
From Coq Require Import ZArith QArith Qabs Qround Qpower Ascii List Bool Lia Lqa.
From Verif Require Import Model_Options Spec_Options.
Import ListNotations.
Open Scope Z_scope.

Lemma code_char c : code c = char_code c.
Proof. unfold code, char_code, nat_of_ascii. symmetry. apply N_nat_Z. Qed.
Lemma space_iff c : is_space c = true <-> blank c.
Proof.
  unfold is_space, blank. rewrite code_char. rewrite orb_true_iff, andb_true_iff, Z.eqb_eq, !Z.leb_le. cbn [In].
  split; [intros H|intros [H|[H|[H|[H|[H|[H|[]]]]]]]]; lia.
Qed.
Lemma digit_iff c : is_digit c = true <-> digit c.
Proof. unfold is_digit, digit. rewrite code_char, andb_true_iff, !Z.leb_le. reflexivity. Qed.
Lemma digit_false c : ~ digit c -> is_digit c = false.
Proof. intros H. destruct (is_digit c) eqn:E; [|reflexivity]. exfalso. apply H, digit_iff, E. Qed.
Lemma space_false c : ~ blank c -> is_space c = false.
Proof. intros H. destruct (is_space c) eqn:E; [|reflexivity]. exfalso. apply H, space_iff, E. Qed.
Lemma digit_not_blank c : digit c -> ~ blank c.
Proof. unfold digit, blank. cbn [In]. lia. Qed.
Lemma blank_not_digit c : blank c -> ~ digit c.
Proof. unfold digit, blank. cbn [In]. lia. Qed.

(** does not start with a character of the class *)
Definition no_head (P : ascii -> Prop) (s : str) : Prop := match s with [] => True | c :: _ => ~ P c end.

Lemma skip_ok b s : blanks b -> no_head blank s -> skip_spaces (b ++ s) = s.
Proof.
  intros B N. induction B as [|c b H B IH]; cbn [app skip_spaces].
  - destruct s as [|c s]; [reflexivity|]. cbn [skip_spaces]. rewrite space_false by exact N. reflexivity.
  - apply space_iff in H. rewrite H. exact IH.
Qed.
Lemma span_ok d s : Forall digit d -> no_head digit s -> span_digits (d ++ s) = (map digit_of d, s).
Proof.
  intros D N. induction D as [|c d H D IH]; cbn [app span_digits map].
  - destruct s as [|c s]; [reflexivity|]. cbn [span_digits]. rewrite digit_false by exact N. reflexivity.
  - apply digit_iff in H. rewrite H, IH. unfold digit_of. rewrite code_char. reflexivity.
Qed.
Lemma fold_value d a : fold_left (fun a x => 10 * a + x) (map digit_of d) a = a * 10 ^ Z.of_nat (length d) + place_value d.
Proof.
  revert a. induction d as [|c d IH]; intros a; cbn [map fold_left place_value length].
  - change (10 ^ Z.of_nat 0) with 1. lia.
  - rewrite IH. rewrite Nat2Z.inj_succ, Z.pow_succ_r by lia. ring.
Qed.
Lemma number_ok d : number (map digit_of d) = place_value d.
Proof. unfold number. rewrite fold_value. lia. Qed.
Lemma place_nonneg d : Forall digit d -> 0 <= place_value d.
Proof.
  intros D. induction D as [|c d H D IH]; cbn [place_value]; [lia|].
  unfold digit in H. unfold digit_of. pose proof (Z.pow_nonneg 10 (Z.of_nat (length d)) ltac:(lia)). nia.
Qed.
Lemma place_app d f : place_value (d ++ f) = place_value d * 10 ^ Z.of_nat (length f) + place_value f.
Proof.
  induction d as [|c d IH]; cbn [app place_value]; [lia|].
  rewrite IH, app_length, Nat2Z.inj_add, Z.pow_add_r by lia. ring.
Qed.

Definition signed_char (c : ascii) : Prop := c = "+"%char \/ c = "-"%char.
Lemma sign_cases sg k : sign sg k -> (sg = [] /\ k = 1) \/ (sg = ["+"%char] /\ k = 1) \/ (sg = ["-"%char] /\ k = -1).
Proof. intros []; auto. Qed.
Lemma take_sign_none s : no_head signed_char s -> take_sign s = (false, s).
Proof.
  destruct s as [|c s]; [reflexivity|]. cbn [no_head take_sign]. intros N. unfold signed_char in N.
  destruct (code c =? 45) eqn:E.
  { exfalso. apply N. right. apply Z.eqb_eq in E. rewrite code_char in E. unfold char_code in E. rewrite <- (ascii_nat_embedding c). replace (nat_of_ascii c) with 45%nat by lia. reflexivity. }
  destruct (code c =? 43) eqn:E2; [|reflexivity].
  exfalso. apply N. left. apply Z.eqb_eq in E2. rewrite code_char in E2. unfold char_code in E2. rewrite <- (ascii_nat_embedding c). replace (nat_of_ascii c) with 43%nat by lia. reflexivity.
Qed.
Lemma take_sign_ok sg k s : sign sg k -> no_head signed_char s -> exists neg, take_sign (sg ++ s) = (neg, s) /\ k = (if neg then -1 else 1).
Proof.
  intros S N. destruct (sign_cases _ _ S) as [(-> & ->) | [(-> & ->) | (-> & ->)]].
  - exists false. cbn [app]. split; [apply take_sign_none, N|reflexivity].
  - exists false. split; reflexivity.
  - exists true. split; reflexivity.
Qed.
Lemma digit_not_signed c : digit c -> ~ signed_char c.
Proof. intros D [-> | ->]; unfold digit, char_code in D; cbn in D; lia. Qed.
Lemma signed_not_blank c : signed_char c -> ~ blank c.
Proof. intros [-> | ->]; unfold blank, char_code; cbn; lia. Qed.
Lemma sign_head_blank sg k s : sign sg k -> no_head blank s -> no_head blank (sg ++ s).
Proof. intros S N. destruct S; cbn [app no_head]; [exact N|apply signed_not_blank; left; reflexivity|apply signed_not_blank; right; reflexivity]. Qed.
Lemma no_head_app (P : ascii -> Prop) s t : no_head P s -> (s = [] -> no_head P t) -> no_head P (s ++ t).
Proof. destruct s; cbn; auto. Qed.
Lemma digits_head (P : ascii -> Prop) d s : digits d -> (forall c, digit c -> ~ P c) -> no_head P (d ++ s).
Proof. intros (F & N) H. destruct d as [|c d]; [contradiction|]. cbn. apply H. inversion F. assumption. Qed.

(** the text after a number: nothing, or a blank *)
Definition stops (s : str) : Prop := match s with [] => True | c :: _ => blank c end.
Lemma stops_no_digit s : stops s -> no_head digit s.
Proof. destruct s; cbn; [auto|]. apply blank_not_digit. Qed.

Lemma clamp_small z : LONG_MIN <= z <= LONG_MAX -> clamp z = z.
Proof. unfold clamp. lia. Qed.
Lemma to_int_small z : int_range z -> to_int z = z.
Proof. unfold int_range, to_int. intros H. rewrite Z.mod_small by lia. lia. Qed.

(** value of any decimal integer of the string: saturated *)
Lemma strtol_ok b t z s : blanks b -> integer_text t z -> stops s -> strtol (b ++ t ++ s) = (clamp z, s).
Proof.
  intros B (sg & d & k & S & D & -> & ->) ST. unfold strtol.
  rewrite <- app_assoc.
  rewrite skip_ok; [|exact B|apply (sign_head_blank sg k); [exact S|]; apply digits_head; [exact D|apply digit_not_blank]].
  destruct (take_sign_ok sg k (d ++ s) S) as (neg & -> & ->); [apply digits_head; [exact D|apply digit_not_signed]|].
  destruct D as (F & N). rewrite (span_ok d s F (stops_no_digit s ST)).
  rewrite number_ok. destruct (map digit_of d) eqn:E; [destruct d; [contradiction|discriminate E]|].
  destruct neg; f_equal; f_equal; lia.
Qed.

Lemma starts_no s : (exists c r, s = c :: r /\ starts_no_number c) \/ s = [] -> no_head blank s /\ no_head signed_char s /\ no_head digit s /\ (match s with [] => True | c :: _ => starts_no_number c end).
Proof.
  intros [(c & r & -> & A & B & C) | ->]; [|repeat split; exact I]. cbn [no_head]. split; [exact A|]. split; [|split; [exact B|split; [exact A|split; [exact B|exact C]]]].
  intros [-> | ->]; apply C; cbn; auto.
Qed.
Lemma strtol_end a s : end_text a s -> strtol s = (0, s).
Proof.
  intros (b & t & B & -> & H). unfold strtol.
  destruct (starts_no t) as (X & Y & Z & _); [destruct H as [-> | (_ & c & r & H)]; [right; reflexivity|left; exists c, r; exact H]|].
  rewrite (skip_ok b t B X), (take_sign_none t Y). replace t with ([] ++ t) at 1 by reflexivity. rewrite (span_ok [] t (Forall_nil _) Z). reflexivity.
Qed.

Lemma convert_none n : convert_ints n None = repeat 0 n.
Proof. induction n as [|n IH]; [reflexivity|]. cbn [convert_ints repeat]. rewrite IH. reflexivity. Qed.
Lemma convert_stuck n s : strtol s = (0, s) -> convert_ints n (Some s) = repeat 0 n.
Proof. intros E. induction n as [|n IH]; [reflexivity|]. cbn [convert_ints repeat]. rewrite E, IH. reflexivity. Qed.
Lemma convert_length n b : length (convert_ints n b) = n.
Proof. revert b. induction n as [|n IH]; intros [s|]; [reflexivity|reflexivity| |]; cbn [convert_ints]; [destruct (strtol s)|]; cbn [length]; rewrite IH; reflexivity. Qed.

Lemma padded_nil {A} (z : A) n : padded z n [] = repeat z n.
Proof.
  unfold padded. generalize 0%nat as k. induction n as [|n IH]; intros k; [reflexivity|]. cbn [seq map repeat]. rewrite IH. destruct k; reflexivity.
Qed.
Lemma padded_cons {A} (z a : A) n l : padded z (S n) (a :: l) = a :: padded z n l.
Proof. unfold padded. cbn [seq map nth]. rewrite <- seq_shift, map_map. reflexivity. Qed.

Lemma list_stops {A} (one : text -> A -> Prop) s l rest :
  list_text one false s l -> end_text false rest -> stops (s ++ rest).
Proof.
  intros L (b & t & B & -> & H). inversion L as [f E1 E2 E3|f b' t' a s' l' B' NB O L' E1 E2 E3]; subst.
  - cbn [app]. destruct H as [-> | (H & _)].
    + rewrite app_nil_r. destruct b; [exact I|]. inversion B; subst. assumption.
    + destruct H as [H|H]; [|discriminate H]. destruct b; [contradiction|]. inversion B; subst. assumption.
  - specialize (NB eq_refl). destruct b'; [contradiction|]. inversion B'; subst. cbn [app stops]. assumption.
Qed.

Lemma end_weaken a s : end_text a s -> end_text true s.
Proof. intros (b & t & B & E & H). exists b, t. split; [exact B|]. split; [exact E|]. destruct H as [H|(H & R)]; [left; exact H|right]. split; [right; reflexivity|exact R]. Qed.

Lemma convert_list f s l : list_text integer_text f s l ->
  forall rest n, end_text (match l with [] => f | _ => false end) rest -> convert_ints n (Some (s ++ rest)) = padded 0 n (map (fun z => to_int (clamp z)) l).
Proof.
  intros L. induction L as [f|f b t a s l B NB O L IH]; intros rest n E.
  - cbn [app map]. rewrite padded_nil. apply convert_stuck, (strtol_end f), E.
  - destruct n as [|n]; [reflexivity|]. cbn [map]. rewrite padded_cons. cbn [convert_ints].
    rewrite <- !app_assoc. rewrite (strtol_ok b t a (s ++ rest) B O (list_stops _ s l rest L E)).
    rewrite IH; [reflexivity|]. destruct l; exact E.
Qed.

(* ------------------------------------------------------------------ *)
(** real numbers *)

Lemma pow10_pos k : 0 <= k -> pow10 k == inject_Z (10 ^ k).
Proof.
  intros H. unfold pow10. rewrite <- (Z2Nat.id k H). generalize (Z.to_nat k) as n. intros n. induction n as [|n IH]; [reflexivity|].
  rewrite Nat2Z.inj_succ. unfold Z.succ. rewrite Qpower_plus by (intros X; discriminate X). rewrite IH, Z.pow_add_r by lia. rewrite inject_Z_mult. reflexivity.
Qed.
Lemma pow10_neg k : 0 <= k -> pow10 (- k) == / inject_Z (10 ^ k).
Proof. intros H. unfold pow10. rewrite Qpower_opp. apply Qinv_comp. apply pow10_pos, H. Qed.
Lemma ten_nonzero k : 0 <= k -> ~ inject_Z (10 ^ k) == 0.
Proof. intros H E. change 0%Q with (inject_Z 0) in E. rewrite inject_Z_injective in E. pose proof (Z.pow_pos_nonneg 10 k). lia. Qed.

Lemma exponent_ok e w s : scale e w -> stops s -> exists k, take_exponent (e ++ s) = (k, s) /\ pow10 k == w.
Proof.
  intros E ST.
  assert (G : forall c sg kk d, (c = "e"%char \/ c = "E"%char) -> sign sg kk -> digits d -> exists k, take_exponent ((c :: sg ++ d) ++ s) = (k, s) /\ k = kk * place_value d).
  { intros c sg kk d C S D. cbn [app take_exponent]. assert ((code c =? 101) || (code c =? 69) = true) as -> by (destruct C as [-> | ->]; reflexivity).
    rewrite <- app_assoc. destruct (take_sign_ok sg kk (d ++ s) S) as (neg & -> & ->); [apply digits_head; [exact D|apply digit_not_signed]|].
    destruct D as (F & N). rewrite (span_ok d s F (stops_no_digit s ST)). rewrite number_ok.
    destruct (map digit_of d) eqn:M; [destruct d; [contradiction|discriminate M]|].
    eexists. split; [reflexivity|]. destruct neg; lia. }
  destruct E as [|c sg d C S D|c sg d C S D].
  - cbn [app]. exists 0. split; [|reflexivity]. destruct s as [|c s]; [reflexivity|]. cbn [take_exponent]. cbn [stops] in ST.
    assert (code c <> 101 /\ code c <> 69) as (N1 & N2) by (rewrite code_char; unfold blank in ST; cbn [In] in ST; lia).
    apply Z.eqb_neq in N1, N2. rewrite N1, N2. reflexivity.
  - destruct (G c sg 1 d C S D) as (k & X & ->). exists (1 * place_value d). split; [exact X|]. rewrite Z.mul_1_l. apply pow10_pos, place_nonneg, D.
  - destruct (G c sg (-1) d C S D) as (k & X & ->). exists (-1 * place_value d). split; [exact X|]. replace (-1 * place_value d) with (- place_value d) by lia. apply pow10_neg, place_nonneg, D.
Qed.

Lemma scale_head e w s : scale e w -> stops s -> no_head digit (e ++ s) /\ (match e ++ s with [] => True | c :: _ => code c <> 46 /\ code c <> 120 /\ code c <> 88 end).
Proof.
  intros E ST.
  assert (G : forall c, (c = "e"%char \/ c = "E"%char) -> ~ digit c /\ code c <> 46 /\ code c <> 120 /\ code c <> 88).
  { intros c [-> | ->]; unfold digit, char_code; cbn; repeat split; lia. }
  destruct E as [|c sg d C S D|c sg d C S D]; cbn [app no_head].
  - split; [apply stops_no_digit, ST|]. destruct s as [|c s]; [exact I|]. cbn [stops] in ST. rewrite code_char. unfold blank in ST. cbn [In] in ST. lia.
  - destruct (G c C). split; assumption.
  - destruct (G c C). split; assumption.
Qed.

Lemma strtod_ok b t q s : blanks b -> real_text t q -> stops s -> exists q', strtod (b ++ t ++ s) = Some (q', s) /\ q' == q.
Proof.
  intros B (sg & m & e & k & v & w & S & M & E & -> & Q) ST. unfold strtod.
  destruct (scale_head e w s E ST) as (HD & HC). destruct (exponent_ok e w s E ST) as (x & EX & PX).
  assert (PT : ~ digit "."%char) by (unfold digit, char_code; cbn; lia).
  assert (PB : ~ blank "."%char) by (unfold blank, char_code; cbn; lia).
  assert (PS : ~ signed_char "."%char) by (intros [X|X]; discriminate X).
  assert (HM : forall P : ascii -> Prop, (forall c, digit c -> ~ P c) -> ~ P "."%char -> no_head P (m ++ e ++ s)).
  { intros P H1 H2. destruct M as [d D|d f D F N].
    - apply digits_head; assumption.
    - rewrite <- app_assoc. destruct d as [|c d]; [exact H2|]. cbn. apply H1. inversion D. assumption. }
  rewrite <- !app_assoc. rewrite skip_ok; [|exact B|apply (sign_head_blank sg k); [exact S|]; apply HM; [apply digit_not_blank|exact PB]].
  destruct (take_sign_ok sg k (m ++ e ++ s) S) as (neg & -> & ->); [apply HM; [apply digit_not_signed|exact PS]|].
  destruct M as [d (D & N)|d f D F N].
  - rewrite (span_ok d (e ++ s) D HD).
    assert (starts_special (map digit_of d) (e ++ s) (d ++ e ++ s) = false) as ->.
    { destruct d as [|c d]; [contradiction|]. cbn [map starts_special]. destruct (digit_of c); try reflexivity. destruct (map digit_of d); [|reflexivity].
      destruct (e ++ s) as [|c' r]; [reflexivity|]. destruct HC as (_ & N1 & N2). apply Z.eqb_neq in N1, N2. rewrite N1, N2. reflexivity. }
    assert (take_fraction (e ++ s) = (false, [], e ++ s)) as ->.
    { unfold take_fraction. destruct (e ++ s) as [|c' r]; [reflexivity|]. destruct HC as (N0 & _). apply Z.eqb_neq in N0. rewrite N0. reflexivity. }
    rewrite app_nil_r, EX. destruct (map digit_of d) eqn:MD; [destruct d; [contradiction|discriminate MD]|]. rewrite <- MD, number_ok.
    eexists. split; [reflexivity|]. cbn [length]. rewrite Z.sub_0_r, Q. destruct neg; rewrite PX; [change (inject_Z (-1)) with (-1)%Q|change (inject_Z 1) with 1%Q]; ring.
  - rewrite <- app_assoc. cbn [app]. rewrite (span_ok d ("."%char :: f ++ e ++ s) D PT).
    assert (starts_special (map digit_of d) ("."%char :: f ++ e ++ s) (d ++ "."%char :: f ++ e ++ s) = false) as ->.
    { destruct d as [|c d]; [reflexivity|]. cbn [map starts_special]. destruct (digit_of c); try reflexivity. destruct (map digit_of d); reflexivity. }
    unfold take_fraction. change (code "."%char =? 46) with true. cbv iota. rewrite (span_ok f (e ++ s) F HD), EX.
    rewrite <- map_app. destruct (map digit_of (d ++ f)) eqn:MD; [destruct (d ++ f); [contradiction|discriminate MD]|]. rewrite <- MD, number_ok, map_length.
    eexists. split; [reflexivity|]. rewrite Q, place_app, inject_Z_plus, inject_Z_mult.
    unfold Z.sub. assert (pow10 (x + - Z.of_nat (length f)) == w * / inject_Z (10 ^ Z.of_nat (length f))) as PP.
    { unfold pow10. rewrite Qpower_plus by (intros X; discriminate X). fold (pow10 x). fold (pow10 (- Z.of_nat (length f))). rewrite PX, pow10_neg by lia. reflexivity. }
    pose proof (ten_nonzero (Z.of_nat (length f)) ltac:(lia)) as NZ.
    destruct neg; rewrite PP; [change (inject_Z (-1)) with (-1)%Q|change (inject_Z 1) with 1%Q]; field; exact NZ.
Qed.

Lemma strtod_end a s : end_text a s -> strtod s = Some (0%Q, s).
Proof.
  intros (b & t & B & -> & H). unfold strtod.
  destruct (starts_no t) as (X & Y & Z & N); [destruct H as [-> | (_ & c & r & H)]; [right; reflexivity|left; exists c, r; exact H]|].
  rewrite (skip_ok b t B X), (take_sign_none t Y). replace t with ([] ++ t) at 1 by reflexivity. rewrite (span_ok [] t (Forall_nil _) Z). cbn [map].
  assert (HC : forall c k, In c ["+"%char; "-"%char; "."%char; "i"%char; "I"%char; "n"%char; "N"%char] -> forall c', code c' = k -> code c = k -> c' = c).
  { intros c k _ c' E1 E2. rewrite code_char in E1, E2. unfold char_code in E1, E2. rewrite <- (ascii_nat_embedding c'), <- (ascii_nat_embedding c). f_equal. lia. }
  assert (NE : forall c c' r, t = c :: r -> In c' ["+"%char; "-"%char; "."%char; "i"%char; "I"%char; "n"%char; "N"%char] -> (code c =? code c') = false).
  { intros c c' r E I'. apply Z.eqb_neq. intros EQ. rewrite E in N. destruct N as (_ & _ & N). apply N. rewrite (HC c' (code c') I' c EQ eq_refl). exact I'. }
  assert (starts_special [] t t = false) as ->.
  { unfold starts_special. destruct t as [|c r]; [reflexivity|].
    change 105 with (code "i"%char). change 73 with (code "I"%char). change 110 with (code "n"%char). change 78 with (code "N"%char).
    rewrite !(NE c _ r eq_refl) by (cbn; tauto). reflexivity. }
  unfold take_fraction. destruct t as [|c r]; [reflexivity|]. change 46 with (code "."%char). rewrite (NE c _ r eq_refl) by (cbn; tauto). reflexivity.
Qed.

Lemma doubles_none n : convert_doubles n None = Some (repeat 0%Q n).
Proof. induction n as [|n IH]; [reflexivity|]. cbn [convert_doubles repeat]. rewrite IH. reflexivity. Qed.
Lemma doubles_stuck n s : strtod s = Some (0%Q, s) -> convert_doubles n (Some s) = Some (repeat 0%Q n).
Proof. intros E. induction n as [|n IH]; [reflexivity|]. cbn [convert_doubles repeat]. rewrite E, IH. reflexivity. Qed.
Lemma doubles_length n b l : convert_doubles n b = Some l -> length l = n.
Proof.
  revert b l. induction n as [|n IH]; intros [s|] l; cbn [convert_doubles].
  - intros [= <-]. reflexivity.
  - intros [= <-]. reflexivity.
  - destruct (strtod s) as [[v e]|]; [|discriminate]. destruct (convert_doubles n (Some e)) as [l'|] eqn:E; [|discriminate]. intros [= <-]. cbn [length]. f_equal. apply (IH _ _ E).
  - destruct (convert_doubles n None) as [l'|] eqn:E; [|discriminate]. intros [= <-]. cbn [length]. f_equal. apply (IH _ _ E).
Qed.
Lemma Forall2_refl_Q l : Forall2 Qeq l l.
Proof. induction l; constructor; [reflexivity|assumption]. Qed.
Lemma doubles_list f s l : list_text real_text f s l ->
  forall rest n, end_text (match l with [] => f | _ => false end) rest -> exists l', convert_doubles n (Some (s ++ rest)) = Some l' /\ Forall2 Qeq l' (padded 0%Q n l).
Proof.
  intros L. induction L as [f|f b t a s l B NB O L IH]; intros rest n E.
  - cbn [app]. exists (repeat 0%Q n). rewrite padded_nil. split; [apply doubles_stuck, (strtod_end f), E|apply Forall2_refl_Q].
  - destruct n as [|n]; [exists []; split; [reflexivity|constructor]|]. rewrite padded_cons. cbn [convert_doubles].
    rewrite <- !app_assoc. destruct (strtod_ok b t a (s ++ rest) B O (list_stops _ s l rest L E)) as (q' & -> & Q). cbv iota beta.
    destruct (IH rest n) as (l' & EL & F); [destruct l; exact E|]. match goal with |- context [convert_doubles n ?x] => replace (convert_doubles n x) with (Some l') by (symmetry; exact EL) end. exists (q' :: l'). split; [reflexivity|]. constructor; assumption.
Qed.

(* ------------------------------------------------------------------ *)
(** the nearest whole number of steps is the best one *)
Local Open Scope Q_scope.
Lemma nearest_covers dt D tol : ~ dt == 0 -> steps_cover dt D tol <-> Qabs (inject_Z (Qfloor (D / dt + (1 # 2))) * dt - D) <= tol.
Proof.
  intros NZ. set (n := Qfloor (D / dt + (1 # 2))). split; [|intros H; exists n; exact H]. intros (k & K).
  assert (E : forall j : Z, inject_Z j * dt - D == (inject_Z j - D / dt) * dt) by (intros j; field; exact NZ).
  rewrite E in K |- *. rewrite Qabs_Qmult in K |- *.
  apply Qle_trans with (Qabs (inject_Z k - D / dt) * Qabs dt); [|exact K].
  apply Qmult_le_compat_r; [|apply Qabs_nonneg].
  pose proof (Qfloor_le (D / dt + (1 # 2))) as F1. pose proof (Qlt_floor (D / dt + (1 # 2))) as F2. fold n in F1, F2.
  rewrite inject_Z_plus in F2. change (inject_Z 1) with 1%Q in F2.
  destruct (Z.eq_dec k n) as [-> |NK]; [apply Qle_refl|].
  assert (H1 : Qabs (inject_Z n - D / dt) <= 1 # 2) by (apply Qabs_Qle_condition; split; lra).
  apply Qle_trans with (1 # 2); [exact H1|].
  destruct (Z_lt_le_dec k n) as [LT|GE].
  - assert (inject_Z k <= inject_Z n - 1) as Hk.
    { change 1%Q with (inject_Z 1). unfold Qminus. rewrite <- inject_Z_opp, <- inject_Z_plus, <- Zle_Qle. lia. }
    apply Qle_trans with (- (inject_Z k - D / dt)); [lra|]. rewrite <- Qabs_opp. apply Qle_Qabs.
  - assert (inject_Z n + 1 <= inject_Z k) as Hk.
    { change 1%Q with (inject_Z 1). rewrite <- inject_Z_plus, <- Zle_Qle. lia. }
    apply Qle_trans with (inject_Z k - D / dt); [lra|]. apply Qle_Qabs.
Qed.

Local Close Scope Q_scope.

(* ------------------------------------------------------------------ *)
(** status of parsing *)
Lemma exit_num_inj a b : exit_num a = exit_num b -> a = b.
Proof. destruct a, b; cbn; intros; congruence. Qed.
Lemma exit_max_num a b : exit_num (exit_max a b) = Z.max (exit_num a) (exit_num b).
Proof. unfold exit_max. destruct (exit_num b <? exit_num a) eqn:E; [apply Z.ltb_lt in E|apply Z.ltb_ge in E]; lia. Qed.
