(** Text frames: reading back what is written. *)
From Coq Require Import String Ascii DecimalString DecimalN.
From Coq Require Import NArith ZArith QArith Qabs List Bool Lia.
From Verif Require Import Model_Serial Model_Ascii Spec_Ascii Proof_Ascii1.
Import ListNotations.

(** ** Numbers in columns *)
Fixpoint chk (P : N -> bool) (k : nat) (a : N) : bool :=
  match k with O => P a | S k' => chk P k' a && chk P k' (a + 2 ^ N.of_nat k')%N end.
Lemma chk_spec : forall P k a, chk P k a = true -> forall n, (a <= n < a + 2 ^ N.of_nat k)%N -> P n = true.
Proof.
  intros P. induction k as [|k IH]; intros a H n Hn.
  - cbn [chk] in H. change (2 ^ N.of_nat 0)%N with 1%N in Hn. replace n with a by lia. exact H.
  - cbn [chk] in H. apply andb_prop in H. destruct H as [H1 H2].
    rewrite Nat2N.inj_succ, N.pow_succ_r' in Hn.
    destruct (N.lt_ge_cases n (a + 2 ^ N.of_nat k)) as [C|C]; [apply (IH a H1); lia|apply (IH _ H2); lia].
Qed.

Definition eqo (a : option N) (n : N) : bool := match a with Some m => (m =? n)%N | None => false end.
Lemma eqo_eq : forall a n, eqo a n = true -> a = Some n.
Proof. intros [m|] n H; [apply N.eqb_eq in H; rewrite H; reflexivity|discriminate H]. Qed.
Definition ok5 (n : N) : bool := (100000 <=? n)%N || ((String.length (i5 n) =? 5)%nat && eqo (read_number (i5 n)) n).
Lemma all5 : chk ok5 17 0 = true.
Proof. vm_compute. reflexivity. Qed.
Lemma i5_fits : forall n, fits n -> String.length (i5 n) = 5%nat /\ read_number (i5 n) = Some n.
Proof.
  intros n H. unfold fits in H. pose proof (chk_spec ok5 17 0 all5 n ltac:(change (0 + 2 ^ N.of_nat 17)%N with 131072%N; lia)) as K.
  unfold ok5 in K. apply orb_prop in K. destruct K as [K|K]; [apply N.leb_le in K; lia|].
  apply andb_prop in K. destruct K as [K1 K2]. apply Nat.eqb_eq in K1. split; [exact K1|apply eqo_eq; exact K2].
Qed.
Definition ok4 (n : N) : bool := (10000 <=? n)%N || ((String.length (d4 n) =? 4)%nat && eqo (read_number (d4 n)) n && String.eqb (last_digits 4 n "") (d4 n)).
Lemma all4 : chk ok4 14 0 = true.
Proof. vm_compute. reflexivity. Qed.
Lemma d4_ok : forall n, (n < 10000)%N -> String.length (d4 n) = 4%nat /\ read_number (d4 n) = Some n /\ last_digits 4 n "" = d4 n.
Proof.
  intros n H. pose proof (chk_spec ok4 14 0 all4 n ltac:(change (0 + 2 ^ N.of_nat 14)%N with 16384%N; lia)) as K.
  unfold ok4 in K. apply orb_prop in K. destruct K as [K|K]; [apply N.leb_le in K; lia|].
  apply andb_prop in K. destruct K as [K K3]. apply andb_prop in K. destruct K as [K1 K2].
  apply Nat.eqb_eq in K1. apply String.eqb_eq in K3. split; [exact K1|]. split; [apply eqo_eq; exact K2|exact K3].
Qed.
Lemma d4_inj : forall n m, (n < 10000)%N -> (m < 10000)%N -> d4 n = d4 m -> n = m.
Proof.
  intros n m Hn Hm H. pose proof (proj1 (proj2 (d4_ok n Hn))) as A. pose proof (proj1 (proj2 (d4_ok m Hm))) as B.
  rewrite H in A. rewrite A in B. injection B as B. exact B.
Qed.

Lemma substring_all : forall s, substring 0 (String.length s) s = s.
Proof. induction s as [|c s IH]; [reflexivity|]. cbn [String.length substring]. rewrite IH. reflexivity. Qed.
Lemma read_int_i5 : forall label n, fits n -> read_int label [Txt (i5 n ++ label)] = Some n.
Proof.
  intros label n H. destruct (i5_fits n H) as [L R]. destruct (i5 n) as [|a [|b [|c [|d [|e [|f s]]]]]]; try discriminate L.
  unfold read_int. cbn [append].
  assert (E1 : substring 5 (String.length (String a (String b (String c (String d (String e label))))) - 5)
                 (String a (String b (String c (String d (String e label))))) = label).
  { cbn [String.length]. change (substring 5 ?k (String a (String b (String c (String d (String e label)))))) with (substring 0 k label).
    replace (S (S (S (S (S (String.length label))))) - 5)%nat with (String.length label) by lia. apply substring_all. }
  rewrite E1, String.eqb_refl.
  replace (substring 0 5 (String a (String b (String c (String d (String e label)))))) with (String a (String b (String c (String d (String e EmptyString)))));
    [exact R|]. cbn [substring]. destruct label; reflexivity.
Qed.
Lemma read_real_ok : forall label w d x, read_real label [Num w d x; Txt label] = Some x.
Proof. intros. unfold read_real. rewrite String.eqb_refl. reflexivity. Qed.

(** ** The values *)
Lemma shown_shown : forall x, shown (shown x) = shown x.
Proof.
  intros x. unfold shown at 2 3. destruct (Qlt_bool (Qabs x) tiny) eqn:E; [reflexivity|]. unfold shown. rewrite E. reflexivity.
Qed.
Lemma existsb_upto : forall m n, existsb (Z.eqb m) (upto n) = ((1 <=? m) && (m <=? Z.of_nat n))%Z.
Proof.
  intros m n. apply eq_true_iff_eq. rewrite existsb_exists, andb_true_iff, !Z.leb_le. unfold upto. split.
  - intros [x [H E]]. apply Z.eqb_eq in E. subst x. apply in_map_iff in H. destruct H as [k [<- H]]. apply in_seq in H. lia.
  - intros H. exists m. split; [|apply Z.eqb_refl]. apply in_map_iff. exists (Z.to_nat m). split; [lia|]. apply in_seq. lia.
Qed.
Lemma in_existsb : forall m l, In m l -> existsb (Z.eqb m) l = true.
Proof. intros m l H. apply existsb_exists. exists m. split; [exact H|apply Z.eqb_refl]. Qed.

Lemma zero_fold : forall i j ms q i' j' m', fold_left (zero_tiny i j) ms q i' j' m' =
  if ((i' =? i) && (j' =? j))%Z && existsb (Z.eqb m') ms then shown (q i' j' m') else q i' j' m'.
Proof.
  intros i j. induction ms as [|m ms IH]; intros q i' j' m'; [cbn [fold_left existsb]; rewrite andb_false_r; reflexivity|].
  cbn [fold_left existsb]. rewrite IH.
  assert (Z1 : zero_tiny i j q m i' j' m' = if ((i' =? i) && (j' =? j) && (m' =? m))%Z then shown (q i' j' m') else q i' j' m').
  { unfold zero_tiny. destruct ((i' =? i) && (j' =? j) && (m' =? m))%Z eqn:E.
    - apply andb_prop in E. destruct E as [E E3]. apply andb_prop in E. destruct E as [E1 E2].
      apply Z.eqb_eq in E1, E2, E3. subst i' j' m'. unfold shown. destruct (Qlt_bool (Qabs (q i j m)) tiny); [|reflexivity].
      unfold upd3. rewrite !Z.eqb_refl. reflexivity.
    - destruct (Qlt_bool (Qabs (q i j m)) tiny); [|reflexivity]. unfold upd3. rewrite E. reflexivity. }
  rewrite Z1. destruct ((i' =? i) && (j' =? j))%Z; cbn [andb]; [|reflexivity].
  destruct (m' =? m)%Z; cbn [orb]; [rewrite shown_shown; destruct (existsb (Z.eqb m') ms); reflexivity|reflexivity].
Qed.

Definition shown3 (q : arr) : arr := fun i j m => shown (q i j m).

Section Print.
  (** what is printed for a cell, given the array *)
  Variable meqn : nat.
  Variable pr : arr -> Z -> Z -> list line.
  Hypothesis pr_ext : forall q1 q2 i j, (forall m, In m (upto meqn) -> q1 i j m = q2 i j m) -> pr q1 i j = pr q2 i j.

  Definition gen_cell (j : Z) (st : arr * list line) (i : Z) : arr * list line :=
    let q := fold_left (zero_tiny i j) (upto meqn) (fst st) in (q, snd st ++ pr q i j).
  Definition gen_row (mx : nat) (st : arr * list line) (j : Z) : arr * list line :=
    let r := fold_left (gen_cell j) (upto mx) st in (fst r, snd r ++ [[Txt "  "%string]]).

  Lemma cells_fold : forall j is q ls,
    snd (fold_left (gen_cell j) is (q, ls)) = ls ++ concat (map (fun i => pr (shown3 q) i j) is) /\
    forall i' j' m', fst (fold_left (gen_cell j) is (q, ls)) i' j' m' =
      if (j' =? j)%Z && existsb (Z.eqb i') is && existsb (Z.eqb m') (upto meqn) then shown (q i' j' m') else q i' j' m'.
  Proof.
    intros j. induction is as [|i is IH]; intros q ls.
    - cbn [fold_left snd fst map concat existsb]. rewrite app_nil_r. split; [reflexivity|]. intros. rewrite andb_false_r. reflexivity.
    - cbn [fold_left map concat existsb]. unfold gen_cell at 2 4. cbn [fst snd].
      set (q1 := fold_left (zero_tiny i j) (upto meqn) q).
      assert (Z1 : forall i' j' m', q1 i' j' m' = if ((i' =? i) && (j' =? j))%Z && existsb (Z.eqb m') (upto meqn) then shown (q i' j' m') else q i' j' m')
        by (intros; apply zero_fold).
      destruct (IH q1 (ls ++ pr q1 i j)) as [A B]. split.
      + rewrite A, <- app_assoc. f_equal. f_equal.
        * apply pr_ext. intros m Hm. rewrite Z1, !Z.eqb_refl, (in_existsb _ _ Hm). reflexivity.
        * apply Proof_Ascii1.concat_map_ext. intros i2 _. apply pr_ext. intros m Hm. unfold shown3. rewrite Z1.
          destruct (((i2 =? i) && (j =? j))%Z && existsb (Z.eqb m) (upto meqn)); [apply shown_shown|reflexivity].
      + intros i' j' m'. rewrite B, Z1.
        destruct (j' =? j)%Z, (i' =? i)%Z, (existsb (Z.eqb i') is), (existsb (Z.eqb m') (upto meqn)); cbn [andb orb]; try reflexivity; apply shown_shown.
  Qed.
  Lemma rows_fold : forall mx js q ls,
    snd (fold_left (gen_row mx) js (q, ls)) = ls ++ concat (map (fun j => concat (map (fun i => pr (shown3 q) i j) (upto mx)) ++ [[Txt "  "%string]]) js) /\
    forall i' j' m', fst (fold_left (gen_row mx) js (q, ls)) i' j' m' =
      if existsb (Z.eqb j') js && existsb (Z.eqb i') (upto mx) && existsb (Z.eqb m') (upto meqn) then shown (q i' j' m') else q i' j' m'.
  Proof.
    intros mx. induction js as [|j js IH]; intros q ls.
    - cbn [fold_left snd fst map concat existsb]. rewrite app_nil_r. split; [reflexivity|]. intros. reflexivity.
    - cbn [fold_left map concat existsb]. unfold gen_row at 2 4. destruct (cells_fold j (upto mx) q ls) as [A B].
      set (r := fold_left (gen_cell j) (upto mx) (q, ls)) in *.
      destruct (IH (fst r) (snd r ++ [[Txt "  "%string]])) as [C D]. split.
      + rewrite C, A, <- !app_assoc. f_equal. f_equal. f_equal. apply Proof_Ascii1.concat_map_ext. intros j2 _.
        f_equal. apply Proof_Ascii1.concat_map_ext. intros i2 _. apply pr_ext. intros m Hm. unfold shown3. rewrite B.
        destruct ((j2 =? j)%Z && existsb (Z.eqb i2) (upto mx) && existsb (Z.eqb m) (upto meqn)); [apply shown_shown|reflexivity].
      + intros i' j' m'. rewrite D, B.
        destruct (j' =? j)%Z, (existsb (Z.eqb j') js), (existsb (Z.eqb i') (upto mx)), (existsb (Z.eqb m') (upto meqn)); cbn [andb orb]; try reflexivity; apply shown_shown.
  Qed.

  (** reading the rows *)
  Variable vals : arr -> Z -> Z -> list Q.
  Hypothesis pr_one : forall q i j, exists l, pr q i j = [l] /\ read_values l = Some (vals q i j).

  Lemma read_cells_ok : forall q j is rest,
    read_cells (length is) (concat (map (fun i => pr q i j) is) ++ rest) = Some (map (fun i => vals q i j) is, rest).
  Proof.
    intros q j. induction is as [|i is IH]; intros rest; [reflexivity|]. cbn [map concat length read_cells].
    destruct (pr_one q i j) as [l [E V]]. rewrite E. cbn [app]. rewrite V, IH. reflexivity.
  Qed.
  Lemma length_upto : forall n, length (upto n) = n.
  Proof. intros n. unfold upto. rewrite map_length, seq_length. reflexivity. Qed.
  Lemma read_rows_ok : forall q mx js rest,
    read_rows (length js) mx (concat (map (fun j => concat (map (fun i => pr q i j) (upto mx)) ++ [[Txt "  "%string]]) js) ++ rest) =
      Some (map (fun j => map (fun i => vals q i j) (upto mx)) js, rest).
  Proof.
    intros q mx. induction js as [|j js IH]; intros rest; [reflexivity|]. cbn [map concat length read_rows].
    rewrite <- !app_assoc. rewrite <- (length_upto mx) at 1. rewrite read_cells_ok. cbn [app is_blank skip_blanks]. rewrite IH. reflexivity.
  Qed.

  Definition patch_lines (mx my : nat) (k level b rank : N) (p : apatch) : list line :=
    write_grid_header mx my (p_xlower p) (p_ylower p) (p_dx p) (p_dy p) k level b rank ++
    concat (map (fun j => concat (map (fun i => pr (shown3 (p_q p)) i j) (upto mx)) ++ [[Txt "  "%string]]) (upto my)).
  Lemma read_grid_ok : forall mx my k level b rank p rest,
    fits (N.of_nat mx) -> fits (N.of_nat my) -> fits k -> fits level -> fits b -> fits rank ->
    read_grid (patch_lines mx my k level b rank p ++ rest) =
      Some (mkG k level b rank (N.of_nat mx) (N.of_nat my) (p_xlower p) (p_ylower p) (p_dx p) (p_dy p)
              (map (fun j => map (fun i => vals (shown3 (p_q p)) i j) (upto mx)) (upto my)), rest).
  Proof.
    intros mx my k level b rank p rest F1 F2 F3 F4 F5 F6. unfold patch_lines, write_grid_header. cbn [app].
    unfold read_grid. rewrite !read_int_i5 by assumption. rewrite !read_real_ok. cbn [is_blank]. rewrite !Nat2N.id.
    rewrite <- (length_upto my) at 1. rewrite read_rows_ok. reflexivity.
  Qed.
End Print.

(** ** All patches *)
Definition number {A} (k : nat) (l : list A) : list (nat * A) := combine (seq k (length l)) l.
Lemma number_app : forall A (a b : list A) k, number k (a ++ b) = number k a ++ number (k + length a) b.
Proof.
  intros A. unfold number. induction a as [|x a IH]; intros b k; [cbn [app length combine seq]; rewrite Nat.add_0_r; reflexivity|].
  cbn [app length seq combine]. f_equal. rewrite IH. replace (k + S (length a))%nat with (S k + length a)%nat by lia. reflexivity.
Qed.
Lemma number_cons : forall A (x : A) l k, number k (x :: l) = (k, x) :: number (S k) l.
Proof. reflexivity. Qed.
Lemma number_length : forall A (l : list A) k, length (number k l) = length l.
Proof. intros. unfold number. rewrite combine_length, seq_length. lia. Qed.
Lemma in_number : forall A (l : list A) k n x, In (n, x) (number k l) -> (k <= n < k + length l)%nat /\ In x l.
Proof.
  intros A l k n x H. unfold number in H. split; [|exact (in_combine_r _ _ _ _ H)]. apply in_combine_l in H. apply in_seq in H. lia.
Qed.

Section Patches.
  Variable nm : string.
  Variable PL : nat * (nat * (nat * apatch)) -> list line.
  Variable after : apatch -> arr.
  Variable rank : nat.
  Variable base : nat.
  Variable cb : N -> nat -> nat -> apatch -> option (list cmd * arr).
  Hypothesis cb_ok : forall before b j p, cb (N.of_nat before) b j p =
    Some (map (Append nm) (PL ((base + (before + j))%nat, (rank, (b, p)))), after p).

  Lemma it_patches_ok : forall ps before b j, it_patches cb (N.of_nat before) b j ps =
    Some (map (Append nm) (concat (map PL (number (base + (before + j)) (map (fun p => (rank, (b, p))) ps)))), map after ps).
  Proof.
    induction ps as [|p ps IH]; intros before b j; [reflexivity|]. cbn [it_patches map]. rewrite cb_ok, IH, number_cons.
    cbn [map concat]. rewrite map_app. replace (S (base + (before + j))) with (base + (before + S j))%nat by lia. reflexivity.
  Qed.
  Lemma it_blocks_ok : forall bs before b, it_blocks cb (N.of_nat before) b bs =
    Some (map (Append nm) (concat (map PL (number (base + before)
            (concat (map (fun bb => map (fun p => (rank, (fst bb, p))) (snd bb)) (combine (seq b (length bs)) bs)))))),
          map (map after) bs).
  Proof.
    induction bs as [|ps bs IH]; intros before b; [reflexivity|]. cbn [it_blocks length seq combine map concat fst snd].
    rewrite it_patches_ok, <- Nat2N.inj_add, IH, number_app, map_app, concat_app, map_app. rewrite Nat.add_0_r.
    rewrite map_length. replace (base + before + length ps)%nat with (base + (before + length ps))%nat by lia. reflexivity.
  Qed.
End Patches.

Lemma length_blocks : forall (rank : nat) bs b,
  length (concat (map (fun bb : nat * list apatch => map (fun p => (rank, (fst bb, p))) (snd bb)) (combine (seq b (length bs)) bs))) = length (concat bs).
Proof.
  intros rank. induction bs as [|ps bs IH]; intros b; [reflexivity|]. cbn [length seq combine map concat fst snd].
  rewrite !app_length, map_length, IH. reflexivity.
Qed.
Lemma of_proc_length : forall rank d, length (of_proc rank d) = length (concat (d_blocks d)).
Proof. intros. unfold of_proc. apply length_blocks. Qed.

(** the parts of the processes make up the whole *)
Definition forest_from (r : nat) (ds : list proc) : list (nat * (nat * apatch)) :=
  concat (map (fun rd => of_proc (fst rd) (snd rd)) (combine (seq r (length ds)) ds)).
Lemma parts : forall (B : Type) (PL : nat * (nat * (nat * apatch)) -> list B) ds r k,
  concat (map PL (number k (forest_from r ds))) =
  concat (map (fun i => match nth_error ds i with
                        | None => []
                        | Some d => concat (map PL (number (k + length (concat (map (fun d => concat (d_blocks d)) (firstn i ds)))) (of_proc (r + i) d)))
                        end) (seq 0 (length ds))).
Proof.
  intros B PL. induction ds as [|d ds IH]; intros r k; [reflexivity|].
  unfold forest_from. cbn [length seq combine map concat fst snd nth_error firstn]. fold (forest_from (S r) ds).
  rewrite number_app, map_app, concat_app. cbn [length]. rewrite !Nat.add_0_r. f_equal. rewrite IH.
  rewrite <- seq_shift, map_map. apply Proof_Ascii1.concat_map_ext. intros i Hi. cbn [nth_error].
  destruct (nth_error ds i) as [d'|]; [|reflexivity]. cbn [firstn map concat]. rewrite app_length, of_proc_length.
  replace (S r + i)%nat with (r + S i)%nat by lia. f_equal. f_equal. f_equal. lia.
Qed.

(** running appends *)
Lemma run_appends : forall nm ls fs, run (map (Append nm) ls) fs nm = fs nm ++ ls.
Proof.
  intros nm. induction ls as [|l ls IH]; intros fs; [rewrite app_nil_r; reflexivity|]. unfold run. cbn [map fold_left].
  change (run (map (Append nm) ls) (exec (Append nm l) fs) nm = fs nm ++ l :: ls). rewrite IH. cbn [exec]. unfold put. rewrite String.eqb_refl.
  rewrite <- app_assoc. reflexivity.
Qed.
Lemma filter_appends : forall nm nm' ls, filter (touches nm) (map (Append nm') ls) = if String.eqb nm' nm then map (Append nm') ls else [].
Proof.
  intros nm nm'. induction ls as [|l ls IH]; [destruct (String.eqb nm' nm); reflexivity|]. cbn [map filter]. rewrite IH.
  unfold touches. cbn [target]. destruct (String.eqb nm' nm); reflexivity.
Qed.
