(** C41, C42: data files. *)
From Coq Require Import ZArith String Ascii List Bool Lia Sorting.Permutation.
From Verif Require Import Model_File Spec_File Proof_File Proof_File2.
Import ListNotations.
Open Scope nat_scope.

(** * From the bytes to the layout *)
Lemma sub_piece (T a b c : bytes) o n : T = a ++ b ++ c -> o = length a -> n = length b -> sub T o n = b.
Proof. intros -> -> ->. apply sub_app_at. reflexivity. Qed.

Lemma section_layout A C s : length A mod 16 = 0 -> length (s_string s) <= 47 -> (Z.of_nat (s_size s) <= 9999999999999)%Z ->
  section_at (A ++ bytes_of s ++ C) (length A) (length A + length (bytes_of s)) s.
Proof.
  intros M S Z. assert (SL := section_length (s_kind s) (s_size s) (s_string s) (s_data s) S Z). fold (bytes_of s) in SL.
  destruct (print_dec_ok 13 (Z.of_nat (s_size s))) as (DL & DV); [change (10 ^ Z.of_nat 13)%Z with 10000000000000%Z; lia|lia|].
  assert (PL := print_left_length 47 (s_string s) S). pose proof (pad_len_bound (length (s_data s))) as PB.
  assert (HL := header_length (letter (s_kind s)) (s_size s) (s_string s) S Z).
  set (f := A ++ bytes_of s ++ C). set (d := s_data s) in *. set (num := print_dec 13 (Z.of_nat (s_size s))) in *. set (str := print_left 47 (s_string s)) in *.
  assert (FE : f = A ++ [letter (s_kind s); " "%char] ++ num ++ [nl] ++ str ++ [nl] ++ d ++ pad_bytes (length d) ++ C).
  { unfold f, bytes_of, section_bytes, header_bytes. rewrite <- !app_assoc. reflexivity. }
  unfold section_at. fold d. rewrite SL.
  replace (length A + (64 + (length d + pad_len (length d))) - length A - 64 - length d) with (pad_len (length d)) by lia.
  split; [unfold f; rewrite !app_length, SL; lia|].
  split. { replace (length A + (64 + (length d + pad_len (length d)))) with (length A + 64 + (length d + pad_len (length d))) by lia.
           rewrite Nat.add_mod, pad_aligned, (Nat.add_mod (length A)), M by lia. reflexivity. }
  split; [lia|]. split; [lia|].
  split; [apply (sub_piece _ A _ (num ++ [nl] ++ str ++ [nl] ++ d ++ pad_bytes (length d) ++ C)); [exact FE|reflexivity|reflexivity]|].
  split. { rewrite (sub_piece _ (A ++ [letter (s_kind s); " "%char]) num ([nl] ++ str ++ [nl] ++ d ++ pad_bytes (length d) ++ C)); [exact DV|rewrite FE, <- !app_assoc; reflexivity|rewrite app_length; reflexivity|lia]. }
  split; [apply (sub_piece _ (A ++ [letter (s_kind s); " "%char] ++ num) [nl] (str ++ [nl] ++ d ++ pad_bytes (length d) ++ C)); [rewrite FE, <- !app_assoc; reflexivity|rewrite !app_length, DL; reflexivity|reflexivity]|].
  split; [apply (sub_piece _ (A ++ [letter (s_kind s); " "%char] ++ num ++ [nl]) str ([nl] ++ d ++ pad_bytes (length d) ++ C)); [rewrite FE, <- !app_assoc; reflexivity|rewrite !app_length, DL; reflexivity|lia]|].
  split; [apply (sub_piece _ (A ++ [letter (s_kind s); " "%char] ++ num ++ [nl] ++ str) [nl] (d ++ pad_bytes (length d) ++ C)); [rewrite FE, <- !app_assoc; reflexivity|rewrite !app_length, DL, PL; reflexivity|reflexivity]|].
  split; [apply (sub_piece _ (A ++ [letter (s_kind s); " "%char] ++ num ++ [nl] ++ str ++ [nl]) d (pad_bytes (length d) ++ C)); [rewrite FE, <- !app_assoc; reflexivity|rewrite !app_length, DL, PL; reflexivity|reflexivity]|].
  exists (pad_len (length d) - 2). change (nl :: blanks (pad_len (length d) - 2) ++ [nl]) with (pad_bytes (length d)).
  apply (sub_piece _ (A ++ [letter (s_kind s); " "%char] ++ num ++ [nl] ++ str ++ [nl] ++ d) _ C); [rewrite FE, <- !app_assoc; reflexivity|rewrite !app_length, DL, PL; cbn [length]; lia|rewrite pad_bytes_length; reflexivity].
Qed.

Definition ok_section (N : nat) (s : section) : Prop :=
  length (s_string s) <= 47 /\ (Z.of_nat (s_size s) <= 9999999999999)%Z /\ length (s_data s) = match s_kind s with KBlock => s_size s | KField => N * s_size s end.
Lemma ok_op_section N o : ok_op N o -> ok_section N (section_of o).
Proof.
  destruct o as [d s|size es s]; cbn [ok_op section_of]; unfold ok_section; cbn [s_string s_size s_data s_kind]; [intros (A & B & C); auto|].
  intros (A & B & C & D & _). repeat split; auto. rewrite (concat_length es size B), A. reflexivity.
Qed.

Lemma sections_layout N ss : Forall (ok_section N) ss -> forall A, length A mod 16 = 0 -> sections_from (A ++ concat (map bytes_of ss)) (length A) ss.
Proof.
  induction 1 as [|s ss (S & Z & _) F IH]; intros A M; [cbn; rewrite app_nil_r; reflexivity|].
  cbn [map concat sections_from]. exists (length A + length (bytes_of s)). pose proof (section_layout A (concat (map bytes_of ss)) s M S Z) as L. split; [exact L|].
  rewrite app_assoc, <- app_length. apply IH. rewrite app_length. apply L.
Qed.

Lemma header_layout N user C : length user <= 47 -> (Z.of_nat N <= 9999999999999999)%Z -> header_at (file_header N user ++ C) N user.
Proof.
  intros U Z. unfold header_at. pose proof (file_header_length N user U Z) as HL. destruct (print_dec_ok 16 (Z.of_nat N)) as (DL & DV); [change (10 ^ Z.of_nat 16)%Z with 10000000000000000%Z; lia|lia|].
  set (num := print_dec 16 (Z.of_nat N)) in *.
  assert (FE : file_header N user ++ C = (text "p4data0" ++ [nl]) ++ (text "p4est data file v1" ++ blanks 5 ++ [nl]) ++ (user ++ blanks (47 - length user) ++ [nl]) ++ num ++ (nl :: blanks 14 ++ [nl]) ++ C).
  { unfold file_header. fold num. change (print_trunc 7 MAGIC_NUMBER) with (text "p4data0"). change (print_left 23 HEADER_STRING) with (text "p4est data file v1" ++ blanks 5).
    change (print_left 47 user) with (user ++ blanks (47 - length user)). change (print_left 14 []) with (blanks 14). rewrite <- !app_assoc. reflexivity. }
  assert (UL : length (user ++ blanks (47 - length user) ++ [nl]) = 48) by (rewrite !app_length; unfold blanks; rewrite repeat_length; cbn [length]; lia).
  set (u := user ++ blanks (47 - length user) ++ [nl]) in *.
  split; [rewrite app_length; lia|].
  split; [apply (sub_piece _ [] (text "p4data0" ++ [nl]) ((text "p4est data file v1" ++ blanks 5 ++ [nl]) ++ u ++ num ++ (nl :: blanks 14 ++ [nl]) ++ C)); [exact FE|reflexivity|reflexivity]|].
  split; [apply (sub_piece _ (text "p4data0" ++ [nl]) (text "p4est data file v1" ++ blanks 5 ++ [nl]) (u ++ num ++ (nl :: blanks 14 ++ [nl]) ++ C)); [exact FE|reflexivity|reflexivity]|].
  split; [apply (sub_piece _ ((text "p4data0" ++ [nl]) ++ (text "p4est data file v1" ++ blanks 5 ++ [nl])) u (num ++ (nl :: blanks 14 ++ [nl]) ++ C)); [rewrite FE, <- !app_assoc; reflexivity|reflexivity|lia]|].
  split. { rewrite (sub_piece _ ((text "p4data0" ++ [nl]) ++ (text "p4est data file v1" ++ blanks 5 ++ [nl]) ++ u) num ((nl :: blanks 14 ++ [nl]) ++ C)); [exact DV|rewrite FE, <- !app_assoc; reflexivity| |lia]. rewrite app_assoc, app_length, UL. reflexivity. }
  apply (sub_piece _ ((text "p4data0" ++ [nl]) ++ (text "p4est data file v1" ++ blanks 5 ++ [nl]) ++ u ++ num) (nl :: blanks 14 ++ [nl]) C); [rewrite FE, <- !app_assoc; reflexivity| |reflexivity].
  rewrite app_assoc, app_length, (app_length u), UL, DL. reflexivity.
Qed.

(** * Reading *)
Definition stripped (s : section) : section := mkSec (s_kind s) (s_size s) (strip (s_string s)) (s_data s).

Lemma sub_firstn f o n k : k <= n -> sub f o k = firstn k (sub f o n).
Proof. intros H. unfold sub. rewrite firstn_firstn, Nat.min_l by exact H. reflexivity. Qed.

Lemma read_section_ok f N o o' s : o mod 16 = 0 -> section_at f o o' s -> ok_section N s -> read_section f N o = Some (stripped s, o').
Proof.
  intros M (B1 & AL & B2 & PB & S1 & S2 & _ & S4 & _ & S6 & _) (_ & _ & DL). unfold read_section.
  rewrite (sub_firstn f o 2 1) by lia. rewrite S1, S2. cbn [firstn]. rewrite S4, strip_pad, Nat2Z.id.
  assert (P : o + 64 + length (s_data s) + (2 + (14 + 15 * length (s_data s)) mod 16) = o').
  { set (p := o' - o - 64 - length (s_data s)) in *. fold (pad_len (length (s_data s))). pose proof (pad_len_bound (length (s_data s))) as PB2. pose proof (pad_aligned (length (s_data s))) as PA.
    assert (X : (length (s_data s) + p) mod 16 = 0).
    { rewrite B2 in AL. replace (o + 64 + length (s_data s) + p) with (length (s_data s) + p + (o + 64)) in AL by lia. rewrite Nat.add_mod in AL by lia. rewrite (Nat.add_mod o), M in AL by lia. change ((0 + 64 mod 16) mod 16) with 0 in AL. rewrite Nat.add_0_r, Nat.mod_mod in AL by lia. exact AL. }
    apply Nat.mod_divides in X; [|lia]. apply Nat.mod_divides in PA; [|lia]. destruct X as (x & X), PA as (y & Y). assert (x = y) by lia. lia. }
  destruct s as [k size str d]. cbn [s_kind s_size s_string s_data letter] in *. destruct k.
  - change (Ascii.eqb "B"%char "B"%char) with true. cbv iota. rewrite <- DL, S6, P. unfold stripped. cbn. rewrite DL. reflexivity.
  - change (Ascii.eqb "F"%char "B"%char) with false. change (Ascii.eqb "F"%char "F"%char) with true. cbv iota. rewrite <- DL, S6, P. reflexivity.
Qed.

Lemma read_sections_ok f N ss : forall fuel o, o mod 16 = 0 -> sections_from f o ss -> Forall (ok_section N) ss -> length f - o <= fuel ->
  read_sections fuel f N o = Some (map stripped ss).
Proof.
  induction ss as [|s ss IH]; intros fuel o M SF F L.
  - cbn in SF. subst o. destruct fuel; cbn [read_sections]; rewrite Nat.eqb_refl; reflexivity.
  - cbn [sections_from] in SF. destruct SF as (o' & SA & SF). inversion F as [|? ? OS FT]; subst. pose proof SA as (B1 & AL & B2 & PB & _).
    destruct fuel as [|fuel]; [lia|]. cbn [read_sections]. assert (o =? length f = false) as -> by (apply Nat.eqb_neq; lia).
    rewrite (read_section_ok f N o o' s M SA OS), (IH fuel o' AL SF FT) by lia. reflexivity.
Qed.

(** * C41 *)
(** A call the interface accepts: a section string of at most 47 characters, a size of at most 13 digits, as many elements as
    patches; the number of data bytes is not 15 modulo 16. *)
Definition accepted := ok_op.
(** one entry per collective call: the call and the order in which the processes reach the file *)
Definition calls := list (op * list nat).
Definition valid (first : list nat) (num_quads : nat) (user : bytes) (cs : calls) : Prop :=
  partition first num_quads /\ (Z.of_nat num_quads <= 9999999999999999)%Z /\ length user <= 47 /\
  Forall (fun o => accepted num_quads (fst o) /\ Permutation (snd o) (seq 0 (length first - 1))) cs.
Definition contents (cs : calls) : list section := map (fun o => section_of (fst o)) cs.

Lemma valid_sections first N user cs : valid first N user cs -> Forall (ok_section N) (contents cs).
Proof. intros (_ & _ & _ & F). unfold contents. rewrite Forall_map. eapply Forall_impl; [|exact F]. intros o (A & _). apply ok_op_section. exact A. Qed.

(** Every file is a header of 112 bytes and then the sections without gaps, each with 64 bytes of header, its data and padding
    up to a multiple of 16. *)
Theorem C41_layout : forall mpiio first num_quads user cs, valid first num_quads user cs ->
  exists f, write_file mpiio first num_quads user cs = Fine f /\ header_at f num_quads user /\ sections_from f 112 (contents cs).
Proof.
  intros mpiio first N user cs V. pose proof (valid_sections _ _ _ _ V) as OS. destruct V as (PT & Z & U & F). eexists. split; [apply write_file_ok; assumption|]. unfold file_of. split; [apply header_layout; assumption|].
  rewrite <- (file_header_length N user U Z). apply (sections_layout N); [exact OS|rewrite file_header_length by assumption; reflexivity].
Qed.

(** Reading the bytes gives back the file string, and for each section its kind, size, string and data. *)
Theorem C41_read_back : forall mpiio first num_quads user cs f, valid first num_quads user cs -> write_file mpiio first num_quads user cs = Fine f ->
  read_file f = Some (strip user, map stripped (contents cs)).
Proof.
  intros mpiio first N user cs f V E. pose proof (valid_sections _ _ _ _ V) as OS. destruct (C41_layout mpiio first N user cs V) as (f' & E' & H & SF). rewrite E in E'. injection E' as <-.
  unfold read_file, read_header. destruct H as (_ & _ & _ & H3 & H4 & _). rewrite H4.
  rewrite (sub_firstn f 32 48 47) by lia. rewrite H3, app_assoc, firstn_app.
  destruct V as (_ & _ & U & _). assert (UL : length (user ++ blanks (47 - length user)) = 47) by (rewrite app_length; unfold blanks; rewrite repeat_length; lia).
  rewrite UL. change (47 - 47) with 0. rewrite firstn_O, app_nil_r, firstn_all2 by lia. rewrite strip_pad, Nat2Z.id.
  rewrite (read_sections_ok f N (contents cs) (length f) 112 eq_refl SF OS) by lia. reflexivity.
Qed.

(** Strings of 48 and more characters and sizes of 14 and more digits are refused, whatever the process. *)
Theorem C41_refused : forall c d s size es rank,
  (c_string s -> 47 < length s -> write_block c d s rank = Refused) /\
  (length s <= 47 -> (9999999999999 < Z.of_nat (length d))%Z -> write_block c d s rank = Refused) /\
  (S rank < length (c_first c) -> es = [] -> (47 < length s /\ c_string s \/ length s <= 47 /\ (9999999999999 < Z.of_nat size)%Z) -> write_field c size es s rank = Refused) /\
  (forall first n, c_string s -> 47 < length s -> open_create first n s rank = Refused).
Proof.
  intros c d s size es rank. split; [|split; [|split]].
  - intros C L. unfold write_block. rewrite check_bad by assumption. reflexivity.
  - intros L B. unfold write_block. rewrite check_ok by assumption. cbn [negb]. assert ((Z.of_nat (length d) <=? MAX_BLOCK_SIZE)%Z = false) as -> by (apply Z.leb_gt; exact B). reflexivity.
  - intros R -> D. unfold write_field. rewrite (nth_error_nth' (c_first c) 0) by lia. rewrite (nth_error_nth' (c_first c) 0 (n := S rank)) by lia. cbn [length Nat.eqb orb negb forallb].
    destruct D as [(L & C)|(L & B)]; [rewrite check_bad by assumption; reflexivity|]. rewrite check_ok by assumption. cbn [negb]. assert ((Z.of_nat size <=? MAX_FIELD_ENTRY_SIZE)%Z = false) as -> by (apply Z.leb_gt; exact B). reflexivity.
  - intros first n C L. unfold open_create. rewrite check_bad by assumption. reflexivity.
Qed.

(** The padding fails for every section whose number of data bytes is 15 modulo 16 (the assertion allows 16 bytes of padding, 17
    are needed, and the array has no room for the terminating NUL). *)
Theorem C41_padding_refuted : forall c d s rank, length s <= 47 -> (Z.of_nat (length d) <= 9999999999999)%Z -> length d mod 16 = 15 -> write_block c d s rank = Undefined.
Proof.
  intros c d s rank L B M. unfold write_block. rewrite check_ok by assumption. cbn [negb]. assert ((Z.of_nat (length d) <=? MAX_BLOCK_SIZE)%Z = true) as -> by (apply Z.leb_le; exact B). cbn [negb].
  rewrite !padding_15 by assumption. destruct (rank =? 0); [|reflexivity]. destruct (printed _ _ _) eqn:E; try reflexivity.
  exfalso. change (["B"%char; space] ++ print_dec 13 (Z.of_nat (length d)) ++ [newline] ++ print_left 47 s ++ [newline]) with (header_bytes "B"%char (length d) s) in E.
  rewrite (printed_ok _ FIELD_HEADER_BYTES) in E; [discriminate E|]. apply header_length; assumption.
Qed.

(** The sections fclaw2d_file_open_write writes are always accepted: the sizes are even (12 or 16 bytes per quadrant, 8 bytes per
    count; p4est_connectivity_deflate gives an even number of bytes) or 1. *)
Theorem C41_open_write : forall le64 conn pertree qsize quads num_quads, (forall n, length (le64 n) = 8) -> Nat.Even (length conn) -> Nat.Even qsize ->
  (Z.of_nat (length conn) <= 9999999999999)%Z -> (Z.of_nat (length pertree) <= 1000000000000)%Z -> (Z.of_nat qsize <= 9999999999999)%Z ->
  length quads = num_quads -> Forall (fun q => length q = qsize) quads ->
  Forall (accepted num_quads) (open_write_ops le64 conn pertree qsize quads).
Proof.
  intros le64 conn pertree qsize quads N L8 EC EQ BC BP BQ LQ FQ. assert (EV : forall n, Nat.Even n -> n mod 16 <> 15).
  { intros n (k & ->). intros X. pose proof (Nat.div_mod (2 * k) 16 ltac:(lia)). lia. }
  assert (PL : length (flat_map le64 pertree) = 8 * length pertree) by (clear -L8; induction pertree as [|a l IH]; [reflexivity|]; cbn [flat_map length]; rewrite app_length, IH, L8; lia).
  unfold open_write_ops, accepted. repeat (apply Forall_cons; [cbn [ok_op]; repeat apply conj|]); [| | | | | | | | | | | | | | | | |apply Forall_nil].
  - rewrite L8. lia.
  - vm_compute; lia.
  - rewrite L8. discriminate.
  - exact BC.
  - vm_compute; lia.
  - apply EV. exact EC.
  - rewrite PL. lia.
  - vm_compute; lia.
  - apply EV. exists (4 * length pertree). lia.
  - exact LQ.
  - exact FQ.
  - exact BQ.
  - vm_compute; lia.
  - apply EV. destruct EQ as (k & ->). exists (N * k). lia.
  - cbn [length]. lia.
  - vm_compute; lia.
  - discriminate.
Qed.

(** * C42 *)
(** The same calls give the same bytes for every number of processes, every partition of the patches, every order in which the
    processes reach the file, with and without MPI I/O. *)
Theorem C42_partition_independent : forall mpiio mpiio' first first' num_quads user cs cs',
  valid first num_quads user cs -> valid first' num_quads user cs' -> map fst cs = map fst cs' ->
  exists f, write_file mpiio first num_quads user cs = Fine f /\ write_file mpiio' first' num_quads user cs' = Fine f.
Proof.
  intros mpiio mpiio' first first' N user cs cs' (PT & Z & U & F) (PT' & _ & _ & F') E. eexists. split; [apply write_file_ok; assumption|]. rewrite write_file_ok by assumption. f_equal. f_equal.
  rewrite <- (map_map fst section_of cs), <- (map_map fst section_of cs'), E. reflexivity.
Qed.

(** Each process writes its own part of a field: [data_range r] is where.  The ranges follow each other and fill the data part;
    only rank 0 writes elsewhere (the section header before and the padding after the data). *)
Definition data_range (c : ctx) (size rank : nat) : nat * nat := let start := 112 + c_accessed c + 64 in (start + nth rank (c_first c) 0 * size, start + nth (S rank) (c_first c) 0 * size).
Theorem C42_own_range : forall c size es s rank c' ph, partition (c_first c) (c_num_quads c) -> accepted (c_num_quads c) (Field size es s) -> S rank < length (c_first c) ->
  call (Field size es s) c rank = Fine (c', ph) ->
  (exists d, ph_data ph = [(fst (data_range c size rank), d)] /\ length d = snd (data_range c size rank) - fst (data_range c size rank) /\
     d = firstn (length d) (skipn (nth rank (c_first c) 0 * size) (concat es))) /\
  (rank <> 0 -> ph_header ph = [] /\ ph_pad ph = []).
Proof.
  intros c size es s rank c' ph PT (LE & SZ & Z1 & Z2 & Z3) R E. cbn [call] in E. unfold write_field in E.
  rewrite (nth_error_nth' (c_first c) 0) in E by lia. rewrite (nth_error_nth' (c_first c) 0 (n := S rank)) in E by lia.
  destruct (negb (_ || _)) in E; [discriminate|]. destruct (negb (forallb _ _)) in E; [discriminate|]. destruct (negb (check_user_string s)) in E; [discriminate|]. destruct (negb (_ <=? _)%Z) in E; [discriminate|].
  set (first := c_first c) in *. set (lo := nth rank first 0) in *. set (hi := nth (S rank) first 0) in *. set (N := c_num_quads c) in *.
  assert (A : lo <= hi) by (apply PT; exact R). assert (B : hi <= N). { destruct PT as (P1 & P2 & P3 & P4). rewrite <- P3. apply (first_le first N); [repeat split; assumption|lia|lia]. }
  assert (LL : length (concat (local_elems first es rank)) = (hi - lo) * size).
  { unfold local_elems. fold lo hi. rewrite (concat_length _ size) by (apply forall_firstn, forall_skipn, SZ). rewrite firstn_length, skipn_length. rewrite Nat.min_l by lia. reflexivity. }
  assert (G : ph_data ph = [(c_accessed c + (METADATA_BYTES + BYTE_DIV + lo * size) + FIELD_HEADER_BYTES, concat (local_elems first es rank))] /\ (rank <> 0 -> ph_header ph = [] /\ ph_pad ph = [])).
  { destruct (rank =? 0) eqn:E0.
    - apply Nat.eqb_eq in E0. destruct (printed _ _ _) in E; cbn [rbind] in E; try discriminate. destruct (get_padding_string _ _ _) as [[p n]| |] in E; cbn [rbind] in E; try discriminate. injection E as _ <-. split; [reflexivity|contradiction].
    - destruct (get_padding_string _ _ _) as [[p n]| |] in E; cbn [rbind] in E; try discriminate. injection E as _ <-. split; [reflexivity|auto]. }
  destruct G as (-> & G). split; [|exact G]. exists (concat (local_elems first es rank)). unfold data_range. fold first. cbn [fst snd]. fold lo hi. rewrite LL. split; [f_equal; f_equal; change METADATA_BYTES with 96; change BYTE_DIV with 16; change FIELD_HEADER_BYTES with 64; lia|]. split; [nia|].
  assert (D : concat es = concat (firstn lo es) ++ concat (local_elems first es rank) ++ concat (skipn hi es)).
  { rewrite <- !concat_app. f_equal. unfold local_elems. fold lo hi. replace (skipn hi es) with (skipn (hi - lo) (skipn lo es)); [rewrite firstn_skipn, firstn_skipn; reflexivity|]. rewrite skipn_add. f_equal. lia. }
  symmetry. rewrite <- LL. apply (sub_piece _ _ _ _ _ _ D); [|reflexivity]. rewrite (concat_length _ size) by (apply forall_firstn; exact SZ). rewrite firstn_length, Nat.min_l by lia. reflexivity.
Qed.
Theorem C42_ranges_tile : forall c size, partition (c_first c) (c_num_quads c) ->
  fst (data_range c size 0) = 112 + c_accessed c + 64 /\
  (forall r, S (S r) < length (c_first c) -> snd (data_range c size r) = fst (data_range c size (S r))) /\
  snd (data_range c size (length (c_first c) - 2)) = 112 + c_accessed c + 64 + c_num_quads c * size.
Proof.
  intros c size (P1 & P2 & P3 & P4). unfold data_range. cbn [fst snd]. split; [rewrite P2; lia|]. split; [reflexivity|]. replace (S (length (c_first c) - 2)) with (length (c_first c) - 1) by lia. rewrite P3. reflexivity.
Qed.

(** * Instances *)
Definition bytes_n (n : nat) : bytes := map (fun i => ascii_of_nat (i mod 256)) (seq 0 n).
Definition ex_ops : list op := [Block (bytes_n 5) (text "first"); Field 3 [text "abc"; text "def"; text "ghi"; text "jkl"] (text "a field"); Block (bytes_n 14) (text "x"); Block [] []].
Definition ex_calls : calls := map (fun o => (o, [2; 0; 1])) ex_ops.
Definition ex_calls1 : calls := map (fun o => (o, [0])) ex_ops.

Ltac ok_small := cbn; repeat match goal with |- _ /\ _ => split | |- Forall _ _ => constructor | |- _ => first [reflexivity | discriminate | lia] end.
Lemma ex_valid : valid [0; 1; 1; 4] 4 (text "user") ex_calls.
Proof.
  split; [repeat split; cbn; try lia; intros [|[|[|r]]] R; cbn; lia|]. split; [lia|]. split; [cbn; lia|].
  apply Forall_forall. intros [o l] X. unfold ex_calls in X. apply in_map_iff in X. destruct X as (o' & Y & X). injection Y as <- <-. cbn [fst snd length Nat.sub seq]. split; [|apply (Permutation_trans (l' := [0; 2; 1])); [apply perm_swap|apply perm_skip, perm_swap]].
  destruct X as [<-|[<-|[<-|[<-|[]]]]]; unfold accepted; ok_small.
Qed.
Lemma ex_valid1 : valid [0; 4] 4 (text "user") ex_calls1.
Proof.
  split; [repeat split; cbn; try lia; intros [|[|r]] R; cbn; lia|]. split; [lia|]. split; [cbn; lia|].
  apply Forall_forall. intros [o l] X. unfold ex_calls1 in X. apply in_map_iff in X. destruct X as (o' & Y & X). injection Y as <- <-. cbn [fst snd length Nat.sub seq]. split; [|apply Permutation_refl].
  destruct X as [<-|[<-|[<-|[<-|[]]]]]; unfold accepted; ok_small.
Qed.
Example C41_instance : valid [0; 1; 1; 4] 4 (text "user") ex_calls /\ match write_file true [0; 1; 1; 4] 4 (text "user") ex_calls with Fine f => length f = 112 + (64 + 16) + (64 + 16) + (64 + 16) + (64 + 16) | _ => False end.
Proof. split; [apply ex_valid|]. vm_compute. reflexivity. Qed.
Example C42_instance : exists f, write_file true [0; 1; 1; 4] 4 (text "user") ex_calls = Fine f /\ write_file false [0; 4] 4 (text "user") ex_calls1 = Fine f.
Proof. apply C42_partition_independent; [apply ex_valid|apply ex_valid1|reflexivity]. Qed.

Print Assumptions C41_layout.
Print Assumptions C41_read_back.
Print Assumptions C41_refused.
Print Assumptions C41_padding_refuted.
Print Assumptions C41_open_write.
Print Assumptions C42_partition_independent.
Print Assumptions C42_own_range.
Print Assumptions C42_ranges_tile.
