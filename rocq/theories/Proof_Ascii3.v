(** Text frames: the files after a run. *)
From Coq Require Import String Ascii DecimalString DecimalN.
From Coq Require Import NArith ZArith QArith Qabs List Bool Lia.
From Verif Require Import Model_Serial Model_Ascii Spec_Ascii Proof_Ascii1 Proof_Ascii2.
Import ListNotations.

Section Files.
  Variable out : N -> Q -> N -> proc -> option (list cmd * list (list arr)).
  Variables qname tname : N -> string.
  Variable hd : Q -> proc -> list line.
  Variable PL : nat * (nat * (nat * apatch)) -> list line.
  Variable after : apatch -> arr.
  Definition head (iframe : N) (time : Q) (rank : nat) (d : proc) : list cmd :=
    if (rank =? 0)%nat then [Rewrite (tname iframe) (hd time d); Replace (qname iframe)] else [].
  Hypothesis out_ok : forall iframe time rank d base, (iframe < 10000)%N -> d_before d = N.of_nat base ->
    out iframe time (N.of_nat rank) d =
      Some (head iframe time rank d ++ map (Append (qname iframe)) (concat (map PL (number base (of_proc rank d)))), map (map after) (d_blocks d)).
  Hypothesis q_inj : forall a b, (a < 10000)%N -> (b < 10000)%N -> qname a = qname b -> a = b.
  Hypothesis t_inj : forall a b, (a < 10000)%N -> (b < 10000)%N -> tname a = tname b -> a = b.
  Hypothesis q_t : forall a b, (a < 10000)%N -> (b < 10000)%N -> qname a <> tname b.

  Variable frs : list frame_in.
  Variable size : nat.
  Hypothesis size_pos : (0 < size)%nat.
  Hypothesis iframes : NoDup (map fr_iframe frs).
  Hypothesis good : forall fr, In fr frs -> (fr_iframe fr < 10000)%N /\ length (fr_procs fr) = size /\ consistent (fr_procs fr).
  Let acts := frame_cmds out frs.

  Lemma acts_eq : forall p f fr d, nth_error frs f = Some fr -> nth_error (fr_procs fr) p = Some d ->
    acts p f = head (fr_iframe fr) (fr_time fr) p d ++
      map (Append (qname (fr_iframe fr))) (concat (map PL (number (length (concat (map (fun d => concat (d_blocks d)) (firstn p (fr_procs fr))))) (of_proc p d)))).
  Proof.
    intros p f fr d Hf Hd. unfold acts, frame_cmds. rewrite Hf, Hd.
    destruct (good fr (nth_error_In _ _ Hf)) as [G1 [G2 G3]]. destruct (G3 p d Hd) as [B _].
    rewrite (out_ok _ _ _ _ _ G1 B). reflexivity.
  Qed.
  Lemma acts_targets : forall p f c fr, nth_error frs f = Some fr -> In c (acts p f) -> target c = qname (fr_iframe fr) \/ target c = tname (fr_iframe fr).
  Proof.
    intros p f c fr Hf H. destruct (nth_error (fr_procs fr) p) as [d|] eqn:Hd.
    - rewrite (acts_eq p f fr d Hf Hd) in H. apply in_app_or in H. destruct H as [H|H].
      + unfold head in H. destruct (p =? 0)%nat; [|destruct H]. destruct H as [<-|[<-|[]]]; [right; reflexivity|left; reflexivity].
      + apply in_map_iff in H. destruct H as [l [<- _]]. left. reflexivity.
    - unfold acts, frame_cmds in H. rewrite Hf, Hd in H. destruct H.
  Qed.
  Lemma acts_none : forall p f nm, (forall fr, nth_error frs f = Some fr -> nm <> qname (fr_iframe fr) /\ nm <> tname (fr_iframe fr)) ->
    filter (touches nm) (acts p f) = [].
  Proof.
    intros p f nm H. destruct (nth_error frs f) as [fr|] eqn:Hf.
    - destruct (H fr eq_refl) as [H1 H2]. assert (X : forall c, In c (acts p f) -> touches nm c = false).
      { intros c Hc. unfold touches. apply String.eqb_neq. intros E. destruct (acts_targets p f c fr Hf Hc) as [A|A]; rewrite E in A; auto. }
      induction (acts p f) as [|c cs IH]; [reflexivity|]. cbn [filter]. rewrite (X c (or_introl eq_refl)). apply IH. intros c' Hc'. apply X. right. exact Hc'.
    - unfold acts, frame_cmds. rewrite Hf. reflexivity.
  Qed.
  Lemma other_frame : forall f f' fr fr', nth_error frs f = Some fr -> nth_error frs f' = Some fr' -> f <> f' -> fr_iframe fr <> fr_iframe fr'.
  Proof.
    intros f f' fr fr' H H' N E. apply N. apply (proj1 (NoDup_nth_error (map fr_iframe frs)) iframes).
    - rewrite map_length. apply nth_error_Some. rewrite H. discriminate.
    - rewrite (map_nth_error fr_iframe f frs H), (map_nth_error fr_iframe f' frs H'). rewrite E. reflexivity.
  Qed.

  Section Frame.
    Variables (k : nat) (fr : frame_in).
    Hypothesis Hk : nth_error frs k = Some fr.
    Let i := fr_iframe fr.
    Lemma i_lt : (i < 10000)%N.
    Proof. exact (proj1 (good fr (nth_error_In _ _ Hk))). Qed.
    Lemma only_q : forall p f, f <> k -> filter (touches (qname i)) (acts p f) = [].
    Proof.
      intros p f Hf. apply acts_none. intros fr' Hfr'. pose proof (proj1 (good fr' (nth_error_In _ _ Hfr'))) as L. split.
      - intros E. apply (other_frame k f fr fr' Hk Hfr'); [intros X; apply Hf; symmetry; exact X|]. exact (q_inj _ _ i_lt L E).
      - exact (q_t _ _ i_lt L).
    Qed.
    Lemma only_t : forall p f, f <> k -> filter (touches (tname i)) (acts p f) = [].
    Proof.
      intros p f Hf. apply acts_none. intros fr' Hfr'. pose proof (proj1 (good fr' (nth_error_In _ _ Hfr'))) as L. split.
      - intros E. exact (q_t _ _ L i_lt (eq_sym E)).
      - intros E. apply (other_frame k f fr fr' Hk Hfr'); [intros X; apply Hf; symmetry; exact X|]. exact (t_inj _ _ i_lt L E).
    Qed.
    Lemma d0 : exists d, nth_error (fr_procs fr) 0 = Some d.
    Proof.
      destruct (nth_error (fr_procs fr) 0) as [d|] eqn:E; [exists d; reflexivity|]. apply nth_error_None in E.
      pose proof (proj1 (proj2 (good fr (nth_error_In _ _ Hk)))). lia.
    Qed.
    Lemma complete_q : complete size acts (qname i) k = Replace (qname i) :: map (Append (qname i)) (concat (map PL (number 0 (forest (fr_procs fr))))).
    Proof.
      unfold complete. pose proof (proj1 (proj2 (good fr (nth_error_In _ _ Hk)))) as L.
      change (forest (fr_procs fr)) with (forest_from 0 (fr_procs fr)). rewrite parts, L.
      assert (E : forall p, (p < size)%nat -> filter (touches (qname i)) (acts p k) =
                (if (p =? 0)%nat then [Replace (qname i)] else []) ++ map (Append (qname i))
                  (match nth_error (fr_procs fr) p with None => []
                   | Some d => concat (map PL (number (0 + length (concat (map (fun d => concat (d_blocks d)) (firstn p (fr_procs fr))))) (of_proc (0 + p) d))) end)).
      { intros p Hp. destruct (nth_error (fr_procs fr) p) as [d|] eqn:Hd.
        - rewrite (acts_eq p k fr d Hk Hd). rewrite filter_app, filter_appends. fold i. rewrite String.eqb_refl. f_equal.
          unfold head. destruct (p =? 0)%nat; [|reflexivity]. fold i. cbn [filter]. unfold touches. cbn [target]. rewrite String.eqb_refl.
          assert (X : String.eqb (tname i) (qname i) = false) by (apply String.eqb_neq; intros X; exact (q_t _ _ i_lt i_lt (eq_sym X))). rewrite X. reflexivity.
        - apply nth_error_None in Hd. lia. }
      rewrite (Proof_Ascii1.concat_map_ext _ _ _ _ (seq 0 size) (fun p Hp => E p (proj2 (proj1 (in_seq _ _ _) Hp)))).
      clear E. destruct size as [|s]; [lia|]. cbn [seq map concat]. cbn [Nat.eqb app]. f_equal. rewrite map_app. f_equal.
      rewrite concat_map, map_map. apply Proof_Ascii1.concat_map_ext. intros p Hp. apply in_seq in Hp.
      assert (X : (p =? 0)%nat = false) by (apply Nat.eqb_neq; lia). rewrite X. reflexivity.
    Qed.
    Lemma complete_t : exists d, nth_error (fr_procs fr) 0 = Some d /\ complete size acts (tname i) k = [Rewrite (tname i) (hd (fr_time fr) d)].
    Proof.
      destruct d0 as [d Hd]. exists d. split; [exact Hd|]. unfold complete. pose proof (proj1 (proj2 (good fr (nth_error_In _ _ Hk)))) as L.
      assert (E : forall p, (p < size)%nat -> filter (touches (tname i)) (acts p k) = if (p =? 0)%nat then [Rewrite (tname i) (hd (fr_time fr) d)] else []).
      { intros p Hp. destruct (nth_error (fr_procs fr) p) as [d'|] eqn:Hd'; [|apply nth_error_None in Hd'; lia].
        rewrite (acts_eq p k fr d' Hk Hd'), filter_app, filter_appends. fold i.
        assert (X : String.eqb (qname i) (tname i) = false) by (apply String.eqb_neq; exact (q_t _ _ i_lt i_lt)). rewrite X, app_nil_r.
        unfold head. destruct (p =? 0)%nat eqn:Z; [|reflexivity]. apply Nat.eqb_eq in Z. subst p. rewrite Hd in Hd'. injection Hd' as <-.
        fold i. cbn [filter]. unfold touches. cbn [target]. rewrite String.eqb_refl, X. reflexivity. }
      rewrite (Proof_Ascii1.concat_map_ext _ _ _ _ (seq 0 size) (fun p Hp => E p (proj2 (proj1 (in_seq _ _ _) Hp)))).
      clear E. destruct size as [|s]; [lia|]. cbn [seq map concat]. cbn [Nat.eqb app]. f_equal.
      apply Proof_Ascii1.concat_nil. intros p Hp. apply in_seq in Hp. assert (X : (p =? 0)%nat = false) by (apply Nat.eqb_neq; lia). rewrite X. reflexivity.
    Qed.
    Lemma k_lt : (k < length frs)%nat.
    Proof. apply nth_error_Some. rewrite Hk. discriminate. Qed.

    Lemma final_q : forall fs0 w, asteps size (start size acts (length frs) fs0) w -> done size w ->
      w_files w (qname i) = concat (map PL (number 0 (forest (fr_procs fr)))).
    Proof.
      intros fs0 w HS HD. rewrite (done_file size acts (length frs) fs0 w (qname i) k HS HD k_lt only_q), complete_q.
      unfold run. cbn [fold_left].
      change (run (map (Append (qname i)) (concat (map PL (number 0 (forest (fr_procs fr)))))) (exec (Replace (qname i)) fs0) (qname i) =
              concat (map PL (number 0 (forest (fr_procs fr))))).
      rewrite run_appends. cbn [exec]. unfold put. rewrite String.eqb_refl. reflexivity.
    Qed.
    Lemma final_t : forall fs0 w, asteps size (start size acts (length frs) fs0) w -> done size w ->
      exists d, nth_error (fr_procs fr) 0 = Some d /\ w_files w (tname i) = hd (fr_time fr) d.
    Proof.
      intros fs0 w HS HD. destruct complete_t as [d [Hd E]]. exists d. split; [exact Hd|].
      rewrite (done_file size acts (length frs) fs0 w (tname i) k HS HD k_lt only_t), E. unfold run. cbn [fold_left exec]. unfold put.
      rewrite String.eqb_refl. reflexivity.
    Qed.
    (** at any moment: the old file, or the first lines of the new one *)
    Lemma partial_q : forall fs0 w, asteps size (start size acts (length frs) fs0) w ->
      w_files w (qname i) = fs0 (qname i) \/ exists rest, w_files w (qname i) ++ rest = concat (map PL (number 0 (forest (fr_procs fr)))).
    Proof.
      intros fs0 w HS. destruct (any_time size acts (length frs) fs0 w (qname i) k HS k_lt only_q) as [a [b [E F]]].
      rewrite complete_q in E. destruct a as [|c a]; [left; exact F|right]. cbn [app] in E. injection E as <- E.
      apply map_eq_app in E. destruct E as [l1 [l2 [E [E1 E2]]]]. exists l2. rewrite F, <- E1, E. f_equal.
      unfold run. cbn [fold_left].
      change (run (map (Append (qname i)) l1) (exec (Replace (qname i)) fs0) (qname i) = l1).
      rewrite run_appends. cbn [exec]. unfold put. rewrite String.eqb_refl. reflexivity.
    Qed.
  End Frame.
  (** other files *)
  Lemma untouched : forall fs0 w nm, asteps size (start size acts (length frs) fs0) w ->
    (forall fr, In fr frs -> nm <> qname (fr_iframe fr) /\ nm <> tname (fr_iframe fr)) -> w_files w nm = fs0 nm.
  Proof.
    intros fs0 w nm HS H. destruct (inv_steps size acts (length frs) fs0 w HS) as [ex HI]. apply (i_out _ _ _ _ _ _ HI).
    intros p f. apply acts_none. intros fr Hfr. apply H. exact (nth_error_In _ _ Hfr).
  Qed.
End Files.

(** ** Reading the grids *)
Lemma read_grids_ok : forall (PL : nat * (nat * (nat * apatch)) -> list line) (G : nat * (nat * (nat * apatch)) -> grid) l rest,
  (forall x rest, In x l -> read_grid (PL x ++ rest) = Some (G x, rest)) ->
  read_grids (length l) (concat (map PL l) ++ rest) = Some (map G l, rest).
Proof.
  intros PL G. induction l as [|x l IH]; intros rest H; [reflexivity|]. cbn [length read_grids map concat].
  rewrite <- app_assoc, (H x _ (or_introl eq_refl)), IH; [reflexivity|]. intros y r Hy. apply H. right. exact Hy.
Qed.

(** ** The routine of the patches *)
Definition pr46 (meqn : nat) (q : arr) (i j : Z) : list line := write_fmt 20 (map (fun mq => Num 26 16 (q i j mq)) (upto meqn)).
Lemma pr46_ext : forall meqn q1 q2 i j, (forall m, In m (upto meqn) -> q1 i j m = q2 i j m) -> pr46 meqn q1 i j = pr46 meqn q2 i j.
Proof. intros meqn q1 q2 i j H. unfold pr46. f_equal. apply map_ext_in. intros m Hm. rewrite (H m Hm). reflexivity. Qed.
Lemma read_values_nums : forall w d l, read_values (map (Num w d) l) = Some l.
Proof. intros w d. induction l as [|x l IH]; [reflexivity|]. cbn [map read_values]. rewrite IH. reflexivity. Qed.
Lemma write_fmt_one : forall k l, (length l <= k)%nat -> write_fmt k l = [l].
Proof. intros k l H. unfold write_fmt. cbn [fmt]. assert (E : (length l <=? k)%nat = true) by (apply Nat.leb_le; exact H). rewrite E. reflexivity. Qed.
Lemma pr46_one : forall meqn, (meqn <= 20)%nat -> forall q i j, exists l, pr46 meqn q i j = [l] /\ read_values l = Some (map (fun m => q i j m) (upto meqn)).
Proof.
  intros meqn H q i j. exists (map (fun mq => Num 26 16 (q i j mq)) (upto meqn)). split.
  - unfold pr46. apply write_fmt_one. rewrite map_length, length_upto. exact H.
  - rewrite <- (map_map (fun m => q i j m) (Num 26 16)). apply read_values_nums.
Qed.

Definition PL46 (mx my meqn : nat) (x : nat * (nat * (nat * apatch))) : list line :=
  let (k, rbp) := x in let (rank, bp) := rbp in let (b, p) := bp in
  patch_lines (pr46 meqn) mx my (N.of_nat k) (p_level p) (N.of_nat b) (N.of_nat rank) p.
(** the solution afterwards *)
Definition zeroed (mx my meqn : nat) (q : arr) : arr := fun i j m =>
  if ((1 <=? i) && (i <=? Z.of_nat mx) && ((1 <=? j) && (j <=? Z.of_nat my)) && ((1 <=? m) && (m <=? Z.of_nat meqn)))%Z then shown (q i j m) else q i j m.
Definition after46 (mx my meqn : nat) (p : apatch) : arr := fst (fold_left (out_row mx meqn) (upto my) (p_q p, [])).
Lemma after46_eq : forall mx my meqn p i j m, after46 mx my meqn p i j m = zeroed mx my meqn (p_q p) i j m.
Proof.
  intros. unfold after46. change (out_row mx meqn) with (gen_row meqn (pr46 meqn) mx).
  rewrite (proj2 (rows_fold meqn (pr46 meqn) (pr46_ext meqn) mx (upto my) (p_q p) [])). rewrite !existsb_upto. unfold zeroed.
  destruct ((1 <=? i) && (i <=? Z.of_nat mx))%Z, ((1 <=? j) && (j <=? Z.of_nat my))%Z, ((1 <=? m) && (m <=? Z.of_nat meqn))%Z; reflexivity.
Qed.

Definition qn (i : N) : string := ("fort.q" ++ d4 i)%string.
Definition tn (i : N) : string := ("fort.t" ++ d4 i)%string.
Lemma fortran_qn : forall i, (i < 10000)%N -> fortran_name (qn i) = qn i.
Proof.
  intros i H. destruct (d4_ok i H) as [L _]. unfold qn, fortran_name. destruct (d4 i) as [|a [|b [|c [|d [|e s]]]]]; try discriminate L. reflexivity.
Qed.
Lemma buffer_n : forall c i, (i < 10000)%N -> String.length c = 6%nat -> in_buffer 11 (c ++ d4 i)%string = Some (c ++ d4 i)%string.
Proof.
  intros c i H Lc. destruct (d4_ok i H) as [L _]. unfold in_buffer.
  assert (E : String.length (c ++ d4 i)%string = 10%nat).
  { destruct c as [|c1 [|c2 [|c3 [|c4 [|c5 [|c6 [|c7 c]]]]]]]; try discriminate Lc. cbn [append String.length]. rewrite L. reflexivity. }
  rewrite E. reflexivity.
Qed.
Lemma app_inj_str : forall a s t, (a ++ s = a ++ t)%string -> s = t.
Proof. induction a as [|c a IH]; intros s t H; [exact H|]. cbn [append] in H. injection H as H. exact (IH _ _ H). Qed.
Lemma qn_inj : forall a b, (a < 10000)%N -> (b < 10000)%N -> qn a = qn b -> a = b.
Proof. intros a b Ha Hb H. apply d4_inj; [exact Ha|exact Hb|]. exact (app_inj_str _ _ _ H). Qed.
Lemma tn_inj : forall a b, (a < 10000)%N -> (b < 10000)%N -> tn a = tn b -> a = b.
Proof. intros a b Ha Hb H. apply d4_inj; [exact Ha|exact Hb|]. exact (app_inj_str _ _ _ H). Qed.
Lemma qn_tn : forall a b, (a < 10000)%N -> (b < 10000)%N -> qn a <> tn b.
Proof. intros a b _ _ H. unfold qn, tn in H. cbn [append] in H. discriminate H. Qed.

Definition hd46 (meqn maux : N) (time : Q) (d : proc) : list line :=
  [ [Num 30 20 time; Txt "    time"];
    [Txt (i5 meqn ++ "                 meqn")];
    [Txt (i5 (d_global d) ++ "                 ngrids")];
    [Txt (i5 maux ++ "                 num_aux")];
    [Txt (i5 2 ++ "                 num_dim")] ]%string.

Lemma fort_output_eq : forall nm mx my meqn p k level b rank, (meqn <= 20)%nat ->
  fort_output_ascii nm mx my meqn (p_xlower p) (p_ylower p) (p_dx p) (p_dy p) (p_q p) k level b rank =
    Some (map (Append nm) (patch_lines (pr46 meqn) mx my k level b rank p), after46 mx my meqn p).
Proof.
  intros nm mx my meqn p k level b rank H. unfold fort_output_ascii.
  assert (E : (20 <? meqn)%nat = false) by (apply Nat.ltb_ge; exact H). rewrite E. f_equal. f_equal. f_equal. unfold patch_lines. f_equal.
  change (out_row mx meqn) with (gen_row meqn (pr46 meqn) mx).
  exact (proj1 (rows_fold meqn (pr46 meqn) (pr46_ext meqn) mx (upto my) (p_q p) [])).
Qed.

Lemma out46_ok : forall o, o_prefix o = "fort"%string -> (o_meqn o <= 20)%nat ->
  forall iframe time rank d base, (iframe < 10000)%N -> d_before d = N.of_nat base ->
  output_ascii o iframe time (N.of_nat rank) d =
    Some (head qn tn (hd46 (N.of_nat (o_meqn o)) (N.of_nat (o_maux o))) iframe time rank d ++
          map (Append (qn iframe)) (concat (map (PL46 (o_mx o) (o_my o) (o_meqn o)) (number base (of_proc rank d)))),
          map (map (after46 (o_mx o) (o_my o) (o_meqn o))) (d_blocks d)).
Proof.
  intros o Hp Hm iframe time rank d base Hi Hb. unfold output_ascii.
  assert (H1 : (if (N.of_nat rank =? 0)%N then time_header_ascii o iframe time d else Some []) =
               Some (head qn tn (hd46 (N.of_nat (o_meqn o)) (N.of_nat (o_maux o))) iframe time rank d)).
  { unfold head. destruct rank as [|r]; [|reflexivity]. change (N.of_nat 0 =? 0)%N with true. cbn [Nat.eqb]. unfold time_header_ascii.
    rewrite !buffer_n by (exact Hi || reflexivity). reflexivity. }
  rewrite H1. change (it_blocks ?c 0 0 ?b) with (it_blocks c (N.of_nat 0) 0 b).
  rewrite (it_blocks_ok (qn iframe) (PL46 (o_mx o) (o_my o) (o_meqn o)) (after46 (o_mx o) (o_my o) (o_meqn o)) rank base).
  - rewrite Nat.add_0_r. reflexivity.
  - intros before b j p. unfold cb_output_ascii. rewrite Hp.
    change ("fort" ++ ".q" ++ d4 iframe)%string with (qn iframe). rewrite (fortran_qn _ Hi), (fort_output_eq _ _ _ _ _ _ _ _ _ Hm).
    rewrite Hb, <- !Nat2N.inj_add. reflexivity.
Qed.

(** ** The GeoClaw routine *)
Definition prg (meqn : nat) (aux : arr) (q : arr) (i j : Z) : list line :=
  write_fmt 5 (map (fun mq => Num 26 16 (q i j mq)) (upto meqn) ++ [Num 26 16 (shown (q i j 1%Z + aux i j 1%Z))]).
Lemma in_one : forall meqn, (1 <= meqn)%nat -> In 1%Z (upto meqn).
Proof. intros meqn H. unfold upto. apply in_map_iff. exists 1%nat. split; [reflexivity|]. apply in_seq. lia. Qed.
Lemma prg_ext : forall meqn aux, (1 <= meqn)%nat -> forall q1 q2 i j, (forall m, In m (upto meqn) -> q1 i j m = q2 i j m) -> prg meqn aux q1 i j = prg meqn aux q2 i j.
Proof.
  intros meqn aux H1 q1 q2 i j H. unfold prg. rewrite (H 1%Z (in_one _ H1)). f_equal. f_equal.
  apply map_ext_in. intros m Hm. rewrite (H m Hm). reflexivity.
Qed.
Lemma prg_one : forall meqn aux, (meqn <= 4)%nat -> forall q i j, exists l, prg meqn aux q i j = [l] /\
  read_values l = Some (map (fun m => q i j m) (upto meqn) ++ [shown (q i j 1%Z + aux i j 1%Z)]).
Proof.
  intros meqn aux H q i j. eexists. split.
  - unfold prg. apply write_fmt_one. rewrite app_length, map_length, length_upto. cbn [length]. lia.
  - rewrite <- (map_map (fun m => q i j m) (Num 26 16)).
    change [Num 26 16 (shown (q i j 1%Z + aux i j 1%Z))] with (map (Num 26 16) [shown (q i j 1%Z + aux i j 1%Z)]).
    rewrite <- map_app. apply read_values_nums.
Qed.
Definition PLg (mx my meqn : nat) (x : nat * (nat * (nat * apatch))) : list line :=
  let (k, rbp) := x in let (rank, bp) := rbp in let (b, p) := bp in
  patch_lines (prg meqn (p_aux p)) mx my (N.of_nat k) (p_level p) (N.of_nat b) (N.of_nat rank) p.
Definition afterg (mx my meqn : nat) (p : apatch) : arr := fst (fold_left (geo_row mx meqn (p_aux p)) (upto my) (p_q p, [])).
Lemma afterg_eq : forall mx my meqn p i j m, (1 <= meqn)%nat -> afterg mx my meqn p i j m = zeroed mx my meqn (p_q p) i j m.
Proof.
  intros mx my meqn p i j m H. unfold afterg. change (geo_row mx meqn (p_aux p)) with (gen_row meqn (prg meqn (p_aux p)) mx).
  rewrite (proj2 (rows_fold meqn (prg meqn (p_aux p)) (prg_ext meqn (p_aux p) H) mx (upto my) (p_q p) [])). rewrite !existsb_upto. unfold zeroed.
  destruct ((1 <=? i) && (i <=? Z.of_nat mx))%Z, ((1 <=? j) && (j <=? Z.of_nat my))%Z, ((1 <=? m) && (m <=? Z.of_nat meqn))%Z; reflexivity.
Qed.
Lemma geo_qn : forall i, (i < 10000)%N -> geo_name "q" i = qn i.
Proof. intros i H. unfold geo_name, qn. rewrite (proj2 (proj2 (d4_ok i H))). reflexivity. Qed.
Lemma geo_tn : forall i, (i < 10000)%N -> geo_name "t" i = tn i.
Proof. intros i H. unfold geo_name, tn. rewrite (proj2 (proj2 (d4_ok i H))). reflexivity. Qed.
Lemma outg_ok : forall o, (1 <= o_meqn o <= 4)%nat ->
  forall iframe time rank d base, (iframe < 10000)%N -> d_before d = N.of_nat base ->
  geo_output_ascii o iframe time (N.of_nat rank) d =
    Some (head qn tn (hd46 (N.of_nat (o_meqn o) + 1) (N.of_nat (o_maux o))) iframe time rank d ++
          map (Append (qn iframe)) (concat (map (PLg (o_mx o) (o_my o) (o_meqn o)) (number base (of_proc rank d)))),
          map (map (afterg (o_mx o) (o_my o) (o_meqn o))) (d_blocks d)).
Proof.
  intros o Hm iframe time rank d base Hi Hb. unfold geo_output_ascii.
  change (it_blocks ?c 0 0 ?b) with (it_blocks c (N.of_nat 0) 0 b).
  rewrite (it_blocks_ok (qn iframe) (PLg (o_mx o) (o_my o) (o_meqn o)) (afterg (o_mx o) (o_my o) (o_meqn o)) rank base).
  - rewrite Nat.add_0_r. f_equal. f_equal. f_equal. unfold head, geo_write_header. rewrite (geo_qn _ Hi), (geo_tn _ Hi).
    destruct rank as [|r]; reflexivity.
  - intros before b j p. unfold geo_cb, geo_write_file.
    assert (E : (5 <? o_meqn o)%nat = false) by (apply Nat.ltb_ge; lia). rewrite E. rewrite (geo_qn _ Hi), Hb, <- !Nat2N.inj_add.
    f_equal. f_equal. unfold PLg, patch_lines. f_equal. f_equal.
    change (geo_row (o_mx o) (o_meqn o) (p_aux p)) with (gen_row (o_meqn o) (prg (o_meqn o) (p_aux p)) (o_mx o)).
    exact (proj1 (rows_fold (o_meqn o) (prg (o_meqn o) (p_aux p)) (prg_ext (o_meqn o) (p_aux p) (proj1 Hm)) (o_mx o) (upto (o_my o)) (p_q p) [])).
Qed.

(** ** Reading a frame *)
Lemma in_of_proc : forall rank d r b p, In (r, (b, p)) (of_proc rank d) -> r = rank /\ (b < length (d_blocks d))%nat.
Proof.
  intros rank d r b p H. unfold of_proc in H. apply in_concat in H. destruct H as [l [H1 H2]]. apply in_map_iff in H1.
  destruct H1 as [bb [<- H1]]. apply in_map_iff in H2. destruct H2 as [p' [E _]]. injection E as <- <- <-. split; [reflexivity|].
  destruct bb as [b' ps]. apply in_combine_l in H1. apply in_seq in H1. cbn [fst]. lia.
Qed.
Lemma in_forest : forall ds r b p, In (r, (b, p)) (forest ds) -> (r < length ds)%nat /\ exists d, In d ds /\ (b < length (d_blocks d))%nat.
Proof.
  intros ds r b p H. unfold forest in H. apply in_concat in H. destruct H as [l [H1 H2]]. apply in_map_iff in H1.
  destruct H1 as [rd [<- H1]]. destruct rd as [r' d]. cbn [fst snd] in H2. apply in_of_proc in H2. destruct H2 as [-> H2].
  pose proof (in_combine_l _ _ _ _ H1) as A. apply in_seq in A. split; [lia|]. exists d. split; [exact (in_combine_r _ _ _ _ H1)|exact H2].
Qed.

Lemma read_frame_ok : forall o ds d time meqn PL values pr vals,
  all_fit o ds -> consistent ds -> nth_error ds 0 = Some d -> fits meqn ->
  (forall k rank b p, PL (k, (rank, (b, p))) = patch_lines (pr p) (o_mx o) (o_my o) (N.of_nat k) (p_level p) (N.of_nat b) (N.of_nat rank) p) ->
  (forall p q i j, exists l, pr p q i j = [l] /\ read_values l = Some (vals p q i j)) ->
  (forall p i j, vals p (shown3 (p_q p)) i j = values p i j) ->
  read_frame (hd46 meqn (N.of_nat (o_maux o)) time d) (concat (map PL (number 0 (forest ds)))) =
    Some (mkF time meqn (N.of_nat (o_maux o)) (grids_of values (o_mx o) (o_my o) ds)).
Proof.
  intros o ds d time meqn PL values pr vals [F1 [F2 [F3 [F4 [F5 [F6 [F7 F8]]]]]]] C Hd Fm HPL Hone Hval.
  destruct (C 0%nat d Hd) as [_ G]. unfold hd46, read_frame. rewrite G. rewrite !read_int_i5, read_real_ok by (assumption || (unfold fits; lia)).
  rewrite Nat2N.id. rewrite <- (number_length _ (forest ds) 0) at 1. rewrite <- (app_nil_r (concat (map PL (number 0 (forest ds))))).
  rewrite (read_grids_ok PL (fun kx => grid_of values (o_mx o) (o_my o) (fst kx) (snd kx))).
  - reflexivity.
  - intros [k [r [b p]]] rest Hx. apply in_number in Hx. destruct Hx as [Hk Hx]. pose proof (in_forest _ _ _ _ Hx) as [Hr [d' [Hd' Hb]]].
    pose proof (F7 d' Hd') as F9. pose proof (F8 _ Hx) as F10. cbn [snd] in F10.
    rewrite HPL. rewrite (read_grid_ok (pr p) (vals p) (Hone p)); try assumption; try (unfold fits in *; lia).
    cbn [fst snd]. unfold grid_of. f_equal. f_equal. f_equal. apply map_ext. intros j. apply map_ext. intros i. apply Hval.
Qed.
