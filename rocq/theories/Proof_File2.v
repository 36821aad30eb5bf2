(** All processes together produce the file of the specification. *)
From Coq Require Import ZArith String Ascii List Bool Lia Sorting.Permutation.
From Verif Require Import Model_File Spec_File Proof_File.
Import ListNotations.
Open Scope nat_scope.

Lemma each_ok {A} (g : nat -> res A) (h : nat -> A) l : (forall r, In r l -> g r = Fine (h r)) -> each g l = Fine (map h l).
Proof. induction l as [|r l IH]; intros H; [reflexivity|]. cbn [each map]. rewrite H by now left. cbn [rbind]. rewrite IH; [reflexivity|]. intros x X. apply H. now right. Qed.
Lemma each_bad {A} (g : nat -> res A) b l : l <> [] -> (forall r, In r l -> g r = b) -> (b = Refused \/ b = Undefined) -> forall B, (rbind (each g l) (fun _ => B)) = b.
Proof. intros N H D B. destruct l as [|r l]; [contradiction|]. cbn [each]. rewrite H by now left. destruct D as [-> | ->]; reflexivity. Qed.

Lemma map_const_repeat {A B} (b : B) (l : list A) : map (fun _ => b) l = repeat b (length l).
Proof. induction l as [|a l IH]; [reflexivity|]. cbn. rewrite IH. reflexivity. Qed.

Lemma step_generic mpiio n o order c c' f S (ph : nat -> phases) m : 1 <= n -> Permutation order (seq 0 n) ->
  (forall r, r < n -> call o c r = Fine (c', ph r)) -> (forall r, r < n -> ph_set_size (ph r) = m) -> length f <= m <= length (f ++ S) ->
  (forall r w, r < n -> In w (ph_header (ph r) ++ ph_data (ph r) ++ ph_pad (ph r)) -> fits (f ++ S) w) ->
  (forall i, length f <= i < length (f ++ S) -> exists r w, r < n /\ In w (ph_header (ph r) ++ ph_data (ph r) ++ ph_pad (ph r)) /\ covers w i) ->
  step mpiio n o order (repeat c n, f) = Fine (repeat c' n, f ++ S).
Proof.
  intros N P C M LM F CV. unfold step.
  rewrite (each_ok _ (fun r => (c', ph r))).
  2:{ intros r R. apply in_seq in R. rewrite nth_error_repeat by lia. apply C. lia. }
  cbn [rbind]. rewrite !map_map. cbn [fst snd]. rewrite map_const_repeat, seq_length. f_equal. f_equal.
  rewrite <- !apply_app.
  set (f0 := if mpiio then _ else f).
  assert (G : length f <= length f0 <= length (f ++ S) /\ forall i, i < length f -> nth i f0 NUL = nth i f NUL).
  { subst f0. destruct mpiio; [|split; [lia|reflexivity]]. destruct n as [|n]; [lia|]. cbn [seq map firstn fold_left]. rewrite M by lia. destruct (set_size_facts f m) as (A & B); [lia|]. split; [lia|exact B]. }
  destruct G as (G1 & G2). apply writes_target; [lia| |].
  - rewrite Forall_forall. intros w W. apply in_app_or in W. destruct W as [W|W]; [|apply in_app_or in W; destruct W as [W|W]].
    + apply in_flat_map in W. destruct W as (p & W1 & W2). apply in_map_iff in W1. destruct W1 as (r & <- & R). apply in_seq in R. apply (F r); [lia|]. apply in_or_app. now left.
    + apply in_flat_map in W. destruct W as (r & W1 & W2). rewrite nth_error_map in W2. assert (R : In r (seq 0 n)) by (eapply Permutation_in; [exact P|exact W1]). apply in_seq in R.
      rewrite nth_error_nth' with (d := 0) in W2 by (rewrite seq_length; lia). rewrite seq_nth in W2 by lia. cbn [option_map Nat.add] in W2. apply (F r); [lia|]. apply in_or_app. right. apply in_or_app. now left.
    + apply in_flat_map in W. destruct W as (p & W1 & W2). apply in_map_iff in W1. destruct W1 as (r & <- & R). apply in_seq in R. apply (F r); [lia|]. apply in_or_app. right. apply in_or_app. now right.
  - intros i I0. destruct (Nat.lt_ge_cases i (length f)) as [Y|Y]; [left; split; [lia|]; rewrite G2 by exact Y; rewrite app_nth1 by exact Y; reflexivity|].
    right. destruct (CV i) as (r & w & R & W & X); [lia|]. apply Exists_exists. exists w. split; [|exact X].
    assert (RS : In (ph r) (map (fun x => ph x) (seq 0 n))) by (apply (in_map (fun x => ph x)); apply in_seq; lia).
    apply in_app_or in W. destruct W as [W|W]; [|apply in_app_or in W; destruct W as [W|W]].
    + apply in_or_app. left. apply in_flat_map. exists (ph r). auto.
    + apply in_or_app. right. apply in_or_app. left. apply in_flat_map. exists r. split; [eapply Permutation_in; [symmetry; exact P|apply in_seq; lia]|].
      rewrite nth_error_map, nth_error_nth' with (d := 0) by (rewrite seq_length; lia). rewrite seq_nth by lia. exact W.
    + apply in_or_app. right. apply in_or_app. right. apply in_flat_map. exists (ph r). auto.
Qed.

(** * What may be written *)
Definition ok_op (num_quads : nat) (o : op) : Prop :=
  match o with
  | Block d s => (Z.of_nat (length d) <= 9999999999999)%Z /\ length s <= 47 /\ length d mod 16 <> 15
  | Field size es s => length es = num_quads /\ Forall (fun e => length e = size) es /\ (Z.of_nat size <= 9999999999999)%Z /\ length s <= 47 /\ (num_quads * size) mod 16 <> 15
  end.
Definition section_of (o : op) : section :=
  match o with
  | Block d s => mkSec KBlock (length d) s d
  | Field size es s => mkSec KField size s (concat es)
  end.
Definition bytes_of (s : section) : bytes := section_bytes (s_kind s) (s_size s) (s_string s) (s_data s).
Definition step_ctx (c : ctx) (s : section) : ctx := mkCtx (c_num_quads c) (c_first c) (S (c_calls c)) (c_accessed c + length (bytes_of s)).

Lemma app3 {A} (f h d p : list A) : f ++ h ++ d ++ p = (f ++ h) ++ d ++ p. Proof. now rewrite !app_assoc. Qed.

Lemma block_step mpiio n order c f d s : 1 <= n -> Permutation order (seq 0 n) -> length f = 112 + c_accessed c ->
  ok_op (c_num_quads c) (Block d s) ->
  step mpiio n (Block d s) order (repeat c n, f) = Fine (repeat (step_ctx c (section_of (Block d s))) n, f ++ bytes_of (section_of (Block d s))).
Proof.
  intros N P L (Z1 & Z2 & Z3).
  pose (h := header_bytes "B"%char (length d) s).
  assert (HL : length h = 64) by (apply header_length; assumption).
  assert (SB : bytes_of (section_of (Block d s)) = h ++ d ++ pad_bytes (length d)) by reflexivity.
  assert (SL : length (bytes_of (section_of (Block d s))) = 64 + (length d + pad_len (length d))) by (apply section_length; assumption).
  pose (ph := fun r => if r =? 0 then mkPh (112 + length d + 64 + c_accessed c) [(c_accessed c + 96 + 16, h)] [(c_accessed c + 96 + 16 + 64, d)] [(c_accessed c + 96 + 16 + 64 + length d, pad_bytes (length d))]
                       else mkPh (112 + length d + 64 + c_accessed c) [] [] []).
  apply (step_generic mpiio n _ order c _ f _ ph (112 + length d + 64 + c_accessed c) N P).
  - intros r R. cbn [call]. unfold write_block. rewrite check_ok by assumption. cbn [negb].
    assert ((Z.of_nat (length d) <=? MAX_BLOCK_SIZE)%Z = true) as -> by (apply Z.leb_le; exact Z1). cbn [negb].
    destruct (r =? 0) eqn:E0.
    + change (["B"%char; space] ++ print_dec 13 (Z.of_nat (length d)) ++ [newline] ++ print_left 47 s ++ [newline]) with h.
      rewrite (printed_ok h FIELD_HEADER_BYTES HL). cbn [rbind]. rewrite (padding_ok (length d) true Z3). cbn [rbind].
      rewrite firstn_all2 by (rewrite pad_bytes_length; lia). unfold ph. rewrite E0. unfold step_ctx. rewrite SL. f_equal. f_equal. f_equal. change FIELD_HEADER_BYTES with 64. lia.
    + rewrite (padding_ok (length d) false Z3). cbn [rbind]. unfold ph. rewrite E0. unfold step_ctx. rewrite SL. f_equal. f_equal. f_equal. change FIELD_HEADER_BYTES with 64. lia.
  - intros r R. unfold ph. destruct (r =? 0); reflexivity.
  - rewrite app_length, SL. lia.
  - intros r w R W. unfold ph in W. destruct (r =? 0); cbn [ph_header ph_data ph_pad app] in W; [|contradiction]. rewrite SB.
    destruct W as [<-|[<-|[<-|[]]]].
    + apply (fits_at _ f h (d ++ pad_bytes (length d))); [reflexivity|lia].
    + apply (fits_at _ (f ++ h) d (pad_bytes (length d))); [apply app3|rewrite app_length; lia].
    + apply (fits_at _ (f ++ h ++ d) (pad_bytes (length d)) []); [rewrite app_nil_r, <- !app_assoc; reflexivity|rewrite !app_length; lia].
  - intros i I0. rewrite app_length, SL in I0. exists 0. unfold ph. cbn [Nat.eqb ph_header ph_data ph_pad app In].
    destruct (Nat.lt_ge_cases i (length f + 64)); [|destruct (Nat.lt_ge_cases i (length f + 64 + length d))]; eexists; (split; [lia|]).
    + split; [left; reflexivity|]. unfold covers. cbn [fst snd]. lia.
    + split; [right; left; reflexivity|]. unfold covers. cbn [fst snd]. lia.
    + split; [right; right; left; reflexivity|]. unfold covers. cbn [fst snd]. rewrite pad_bytes_length. lia.
Qed.

(** * Fields *)
Lemma first_le first n : partition first n -> forall r q, r <= q -> q < length first -> nth r first 0 <= nth q first 0.
Proof. intros (_ & _ & _ & M) r q RQ. induction RQ as [|q RQ IH]; intros Q; [lia|]. specialize (IH ltac:(lia)). specialize (M q Q). lia. Qed.
Lemma find_rank first n : partition first n -> forall j, j < n -> exists r, S r < length first /\ nth r first 0 <= j < nth (S r) first 0.
Proof.
  intros PT j J. destruct PT as (L & Z0 & ZN & M).
  assert (G : forall k, k < length first -> j < nth k first 0 -> exists r, S r < length first /\ nth r first 0 <= j < nth (S r) first 0).
  { induction k as [|k IH]; intros K X; [lia|]. destruct (Nat.lt_ge_cases j (nth k first 0)) as [Y|Y]; [apply IH; [lia|exact Y]|]. exists k. auto. }
  apply (G (length first - 1)); lia.
Qed.

Lemma concat_length (es : list bytes) size : Forall (fun e => length e = size) es -> length (concat es) = length es * size.
Proof. induction 1 as [|e es E F IH]; [reflexivity|]. cbn [concat length]. rewrite app_length, IH, E. lia. Qed.
Lemma forall_firstn {A} (P : A -> Prop) n l : Forall P l -> Forall P (firstn n l).
Proof. intros F. revert n. induction F; intros [|n]; cbn; constructor; auto. Qed.
Lemma forall_skipn {A} (P : A -> Prop) n l : Forall P l -> Forall P (skipn n l).
Proof. intros F. revert n. induction F; intros [|n]; cbn; try constructor; auto. Qed.

Lemma skipn_add {A} (l : list A) a b : skipn a (skipn b l) = skipn (b + a) l.
Proof. revert l. induction b as [|b IH]; intros l; [reflexivity|]. destruct l as [|x l]; [cbn [skipn]; rewrite skipn_nil; reflexivity|]. cbn [skipn Nat.add]. apply IH. Qed.

Lemma field_step mpiio first order c f size es s : let n := length first - 1 in
  c_first c = first -> partition first (c_num_quads c) -> Permutation order (seq 0 n) -> length f = 112 + c_accessed c ->
  ok_op (c_num_quads c) (Field size es s) ->
  step mpiio n (Field size es s) order (repeat c n, f) = Fine (repeat (step_ctx c (section_of (Field size es s))) n, f ++ bytes_of (section_of (Field size es s))).
Proof.
  intros n FE PT P L (LE & SZ & Z1 & Z2 & Z3). set (N := c_num_quads c) in *. pose (d := concat es).
  assert (DL : length d = N * size) by (unfold d; rewrite (concat_length es size SZ), LE; reflexivity).
  pose (h := header_bytes "F"%char size s).
  assert (HL : length h = 64) by (apply header_length; assumption).
  assert (SB : bytes_of (section_of (Field size es s)) = h ++ d ++ pad_bytes (length d)) by reflexivity.
  assert (SL : length (bytes_of (section_of (Field size es s))) = 64 + (length d + pad_len (length d))) by (apply section_length; assumption).
  assert (N1 : 1 <= n) by (destruct PT as (A & _); lia).
  pose (loc := fun r => local_elems first es r).
  pose (dat := fun r => [(c_accessed c + (96 + 16 + nth r first 0 * size) + 64, concat (loc r))]).
  pose (tot := 96 + 16 + N * size + 64 + c_accessed c).
  pose (ph := fun r => if r =? 0 then mkPh tot [(c_accessed c + (96 + 16 + nth r first 0 * size), h)] (dat r) [(c_accessed c + 96 + 16 + N * size + 64, pad_bytes (N * size))]
                       else mkPh tot [] (dat r) []).
  assert (LOC : forall r, r < n -> length (loc r) = nth (S r) first 0 - nth r first 0 /\ Forall (fun e => length e = size) (loc r) /\ nth r first 0 <= nth (S r) first 0 <= N /\
                d = concat (firstn (nth r first 0) es) ++ concat (loc r) ++ concat (skipn (nth (S r) first 0) es)).
  { intros r R. assert (A : nth r first 0 <= nth (S r) first 0) by (apply PT; lia).
    assert (B : nth (S r) first 0 <= N). { destruct PT as (P1 & P2 & P3 & P4). rewrite <- P3. apply (first_le first N); [repeat split; assumption|lia|lia]. }
    unfold loc, local_elems. repeat split; try assumption.
    - rewrite firstn_length, skipn_length. lia.
    - apply forall_firstn, forall_skipn, SZ.
    - unfold d. rewrite <- !concat_app. f_equal. set (lo := nth r first 0) in *. set (hi := nth (S r) first 0) in *.
      replace (skipn hi es) with (skipn (hi - lo) (skipn lo es)); [rewrite firstn_skipn, firstn_skipn; reflexivity|]. rewrite skipn_add. f_equal. lia. }
  apply (step_generic mpiio n _ order c _ f _ ph tot N1 P).
  - intros r R. destruct (LOC r R) as (LL & LS & LB & _). cbn [call]. rewrite FE. fold (loc r). unfold write_field. rewrite FE.
    rewrite (nth_error_nth' first 0) by lia. rewrite (nth_error_nth' first 0 (n := S r)) by lia.
    assert (length (loc r) =? nth (S r) first 0 - nth r first 0 = true) as -> by (apply Nat.eqb_eq; exact LL). rewrite orb_true_r. cbn [negb].
    assert (forallb (fun e => length e =? size) (loc r) = true) as ->.
    { apply forallb_forall. intros e IE. apply Nat.eqb_eq. rewrite Forall_forall in LS. apply LS. exact IE. }
    cbn [negb]. rewrite check_ok by assumption. cbn [negb].
    assert ((Z.of_nat size <=? MAX_FIELD_ENTRY_SIZE)%Z = true) as -> by (apply Z.leb_le; exact Z1). cbn [negb]. fold N.
    assert (AC : c_accessed c + (size * N + FIELD_HEADER_BYTES + pad_len (N * size)) = c_accessed c + length (bytes_of (section_of (Field size es s)))).
    { rewrite SL, DL. change FIELD_HEADER_BYTES with 64. lia. }
    destruct (r =? 0) eqn:E0.
    + change (["F"%char; space] ++ print_dec 13 (Z.of_nat size) ++ [newline] ++ print_left 47 s ++ [newline]) with h.
      rewrite (printed_ok h FIELD_HEADER_BYTES HL). cbn [rbind]. rewrite (padding_ok (N * size) true Z3). cbn [rbind].
      rewrite firstn_all2 by (rewrite pad_bytes_length; lia). unfold ph. rewrite E0. unfold step_ctx. rewrite FE, AC. reflexivity.
    + rewrite (padding_ok (N * size) false Z3). cbn [rbind]. unfold ph. rewrite E0. unfold step_ctx. rewrite FE, AC. reflexivity.
  - intros r R. unfold ph. destruct (r =? 0); reflexivity.
  - rewrite app_length, SL, DL. unfold tot. lia.
  - intros r w R W. rewrite SB.
    assert (W' : (r = 0 /\ (w = (c_accessed c + (96 + 16 + nth r first 0 * size), h) \/ w = (c_accessed c + 96 + 16 + N * size + 64, pad_bytes (N * size)))) \/ In w (dat r)).
    { unfold ph in W. destruct (r =? 0) eqn:E0; cbn [ph_header ph_data ph_pad app] in W.
      - apply Nat.eqb_eq in E0. destruct W as [<-|W]; [left; auto|]. apply in_app_or in W. destruct W as [W|[<-|[]]]; [right; exact W|left; auto].
      - rewrite app_nil_r in W. right. exact W. }
    destruct W' as [(-> & [-> | ->])|W'].
    + apply (fits_at _ f h (d ++ pad_bytes (length d))); [reflexivity|]. assert (nth 0 first 0 = 0) as -> by apply PT. lia.
    + rewrite <- DL. apply (fits_at _ (f ++ h ++ d) (pad_bytes (length d)) []); [rewrite app_nil_r, <- !app_assoc; reflexivity|rewrite !app_length; lia].
    + destruct W' as [<-|[]]. destruct (LOC r R) as (LL & LS & LB & LD).
      apply (fits_at _ (f ++ h ++ concat (firstn (nth r first 0) es)) (concat (loc r)) (concat (skipn (nth (S r) first 0) es) ++ pad_bytes (length d))).
      * rewrite LD at 1. rewrite <- !app_assoc. reflexivity.
      * rewrite !app_length, (concat_length _ size) by (apply forall_firstn; exact SZ). rewrite firstn_length. rewrite Nat.min_l by lia. lia.
  - intros i I0. rewrite app_length, SL, DL in I0.
    destruct (Nat.lt_ge_cases i (length f + 64)) as [Y|Y].
    { exists 0. eexists. split; [lia|]. unfold ph. cbn [Nat.eqb ph_header ph_data ph_pad app]. split; [left; reflexivity|]. unfold covers. cbn [fst snd]. assert (nth 0 first 0 = 0) as -> by apply PT. lia. }
    destruct (Nat.lt_ge_cases i (length f + 64 + N * size)) as [Y'|Y'].
    + assert (SP : 0 < size) by (destruct size; lia). pose (k := i - length f - 64).
      destruct (find_rank first N PT (k / size)) as (r & R & B1 & B2); [apply Nat.div_lt_upper_bound; [lia|unfold k; nia]|].
      exists r. eexists. split; [lia|]. split.
      { apply in_or_app. right. apply in_or_app. left. unfold ph. destruct (r =? 0); cbn [ph_data]; left; reflexivity. }
      destruct (LOC r ltac:(lia)) as (LL & LS & LB & _). unfold covers. cbn [fst snd]. rewrite (concat_length _ size LS), LL.
      pose proof (Nat.div_mod k size ltac:(lia)) as DM. pose proof (Nat.mod_upper_bound k size ltac:(lia)) as MB. set (q := k / size) in *. set (lo := nth r first 0) in *. set (hi := nth (S r) first 0) in *.
      assert (lo * size <= k) by nia. assert (k < hi * size) by nia. unfold k in *. assert ((hi - lo) * size = hi * size - lo * size) by nia. nia.
    + exists 0. eexists. split; [lia|]. unfold ph. cbn [Nat.eqb ph_header ph_data ph_pad app]. split; [right; unfold dat; cbn [app]; right; left; reflexivity|].
      unfold covers. cbn [fst snd]. rewrite pad_bytes_length. lia.
Qed.

(** * Whole files *)
Definition file_header (num_quads : nat) (user : bytes) : bytes :=
  print_trunc 7 MAGIC_NUMBER ++ [nl] ++ print_left 23 HEADER_STRING ++ [nl] ++ print_left 47 user ++ [nl]
  ++ print_dec 16 (Z.of_nat num_quads) ++ [nl] ++ print_left 14 [] ++ [nl].
Definition file_of (num_quads : nat) (user : bytes) (ss : list section) : bytes := file_header num_quads user ++ concat (map bytes_of ss).

Lemma file_header_length n user : length user <= 47 -> (Z.of_nat n <= 9999999999999999)%Z -> length (file_header n user) = 112.
Proof.
  intros U Z. unfold file_header. rewrite !app_length. rewrite !print_left_length; [|cbn; lia|exact U|vm_compute; lia].
  destruct (print_dec_ok 16 (Z.of_nat n)) as (-> & _); [change (10 ^ Z.of_nat 16)%Z with 10000000000000000%Z; lia|lia|]. reflexivity.
Qed.

Lemma steps_ok mpiio first N ops : let n := length first - 1 in partition first N -> forall c f,
  c_first c = first -> c_num_quads c = N -> length f = 112 + c_accessed c ->
  Forall (fun o => ok_op N (fst o) /\ Permutation (snd o) (seq 0 n)) ops ->
  exists c', steps mpiio n ops (repeat c n, f) = Fine (repeat c' n, f ++ concat (map bytes_of (map (fun o => section_of (fst o)) ops))).
Proof.
  intros n PT. assert (N1 : 1 <= n) by (destruct PT as (A & _); lia).
  induction ops as [|[o order] ops IH]; intros c f CF CN L F; [exists c; cbn; rewrite app_nil_r; reflexivity|].
  inversion F as [|? ? (O & P) FT]; subst. cbn [fst snd] in O, P. cbn [steps map concat fst].
  assert (ST : step mpiio n o order (repeat c n, f) = Fine (repeat (step_ctx c (section_of o)) n, f ++ bytes_of (section_of o))).
  { destruct o as [d s|size es s]; [apply block_step; assumption|apply field_step; try assumption; reflexivity]. }
  rewrite ST. cbn [rbind]. destruct (IH (step_ctx c (section_of o)) (f ++ bytes_of (section_of o))) as (c' & E); [reflexivity|reflexivity|cbn [c_accessed step_ctx]; rewrite app_length; lia|exact FT|].
  exists c'. rewrite E, <- app_assoc. reflexivity.
Qed.

Theorem write_file_ok mpiio first N user ops : partition first N -> (Z.of_nat N <= 9999999999999999)%Z -> length user <= 47 ->
  Forall (fun o => ok_op N (fst o) /\ Permutation (snd o) (seq 0 (length first - 1))) ops ->
  write_file mpiio first N user ops = Fine (file_of N user (map (fun o => section_of (fst o)) ops)).
Proof.
  intros PT Z U F. assert (N1 : 1 <= length first - 1) by (destruct PT as (A & _); lia). unfold write_file.
  rewrite (each_ok _ (fun r => (mkCtx N first 0 0, if r =? 0 then [(0, file_header N user)] else []))).
  2:{ intros r R. unfold open_create. rewrite check_ok by assumption. cbn [negb]. assert ((Z.of_nat N <=? MAX_GLOBAL_QUAD)%Z = true) as -> by (apply Z.leb_le; exact Z). cbn [negb].
      destruct (r =? 0); [|reflexivity]. change (print_trunc 7 MAGIC_NUMBER ++ [newline] ++ print_left 23 HEADER_STRING ++ [newline] ++ print_left 47 user ++ [newline] ++ print_dec 16 (Z.of_nat N) ++ [newline] ++ print_left 14 [] ++ [newline]) with (file_header N user).
      rewrite (printed_ok _ (METADATA_BYTES + BYTE_DIV) (file_header_length N user U Z)). reflexivity. }
  cbn [rbind]. rewrite map_map. cbn [fst]. rewrite map_const_repeat, seq_length.
  assert (A : apply_writes [] (flat_map snd (map (fun r => (mkCtx N first 0 0, if r =? 0 then [(0, file_header N user)] else [])) (seq 0 (length first - 1)))) = file_header N user).
  { apply writes_target; [cbn; lia| |].
    - apply Forall_forall. intros w W. apply in_flat_map in W. destruct W as (p & W1 & W2). apply in_map_iff in W1. destruct W1 as (r & <- & _). cbn [snd] in W2. destruct (r =? 0); [|contradiction]. destruct W2 as [<-|[]].
      apply (fits_at _ [] (file_header N user) []); [rewrite app_nil_r; reflexivity|reflexivity].
    - intros i I0. right. apply Exists_exists. exists (0, file_header N user). split; [|unfold covers; cbn [fst snd]; lia]. apply in_flat_map. eexists. split; [apply in_map; apply in_seq; split; [apply Nat.le_0_l|]; exact N1|]. left. reflexivity. }
  match goal with |- context [apply_writes ?a ?b] => replace (apply_writes a b) with (file_header N user) by (symmetry; exact A) end.
  destruct (steps_ok mpiio first N ops PT (mkCtx N first 0 0) (file_header N user)) as (c' & E); [reflexivity|reflexivity|cbn [c_accessed]; rewrite file_header_length by assumption; lia|exact F|].
  rewrite E. reflexivity.
Qed.
