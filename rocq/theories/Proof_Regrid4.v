(** Repartitioning of a whole domain. *)
From Coq Require Import ZArith List Bool Lia FinFun.
From Verif Require Import Model_Face Model_Domain Model_Iter Spec_Iter Proof_Iter Model_Regrid Spec_Regrid Proof_Regrid1 Proof_Regrid2 Proof_Regrid3.
Import ListNotations.
Open Scope Z_scope.

(** ** Blocks of a partition *)
Lemma pblocks_local (fn : nat -> Z) : forall levels i0, map (fun l => Z.of_nat (length l)) levels = map fn (seq i0 (length levels)) ->
  pblocks_from (total (map fn (seq 0 i0))) levels = map (fun i => mkPB (fn i) (total (map fn (seq 0 i)))) (seq i0 (length levels)).
Proof.
  induction levels as [|l levels IH]; intros i0 E; [reflexivity|]. cbn [length seq map pblocks_from] in *. injection E as E1 E2. rewrite E1. f_equal. rewrite <- (IH (S i0) E2). f_equal.
  rewrite seq_S, map_app, total_app. cbn [map total fold_right plus]. lia.
Qed.
Lemma owns_length sizes lo hi levels : owns sizes lo hi levels -> length levels = length sizes.
Proof. intros (_ & _ & _ & E). apply (f_equal (@length Z)) in E. rewrite !map_length, seq_length in E. exact E. Qed.
Lemma owns_pblocks sizes lo hi levels : owns sizes lo hi levels -> pblocks levels = local_blocks sizes lo hi.
Proof.
  intros H. pose proof (owns_length _ _ _ _ H) as L. destruct H as (_ & _ & _ & E). unfold pblocks, local_blocks. rewrite <- L in *.
  apply (pblocks_local (local_num sizes lo hi) levels 0 E).
Qed.
Lemma owns_block sizes lo hi levels i : owns sizes lo hi levels -> (i < length sizes)%nat -> Z.of_nat (length (nth i levels [])) = local_num sizes lo hi i.
Proof.
  intros H L. pose proof (owns_length _ _ _ _ H) as LL. destruct H as (_ & _ & _ & E). apply (f_equal (fun l => nth i l 0)) in E.
  change 0 with ((fun l : list Z => Z.of_nat (length l)) []) in E at 1. rewrite map_nth in E. rewrite E.
  rewrite (nth_indep _ 0 (local_num sizes lo hi 0%nat)) by (rewrite map_length, seq_length; exact L). rewrite (map_nth (local_num sizes lo hi)). rewrite seq_nth by exact L. reflexivity.
Qed.

(** patches named by the calls of a partition *)
Definition pnew (c : pcall) : key := (c_block c, Z.to_nat (c_new c)).
Definition pold (c : pcall) : option key := match c_old c with Some oj => Some (c_block c, Z.to_nat oj) | None => None end.

Lemma expected_In sizes o0 o1 n0 n1 c : In c (expected_calls sizes o0 o1 n0 n1) <->
  exists i nj, (i < length sizes)%nat /\ 0 <= nj < local_num sizes n0 n1 i /\ c = expected sizes o0 o1 n0 i nj.
Proof.
  unfold expected_calls. rewrite in_concat. split.
  - intros (l & L & H). apply in_map_iff in L. destruct L as (i & <- & I1). apply in_map_iff in H. destruct H as (nj & <- & J). apply zrange_In in J. apply in_seq in I1. exists i, nj. split; [lia|]. split; [lia|reflexivity].
  - intros (i & nj & I1 & J & ->). eexists. split; [apply in_map_iff; exists i; split; [reflexivity|apply in_seq; lia]|]. apply in_map_iff. exists nj. split; [reflexivity|]. apply zrange_In. lia.
Qed.
Lemma map_concat' {A B} (f : A -> B) ls : map f (concat ls) = concat (map (map f) ls).
Proof. induction ls as [|l ls IH]; [reflexivity|]. cbn [concat map]. rewrite map_app, IH. reflexivity. Qed.
Lemma pnew_keys sizes o0 o1 n0 n1 levels : owns sizes n0 n1 levels -> map pnew (expected_calls sizes o0 o1 n0 n1) = keys levels.
Proof.
  intros H. unfold expected_calls, keys. rewrite map_concat', map_map, flat_map_concat_map, (owns_length _ _ _ _ H). f_equal. apply map_ext_in. intros i I1. apply in_seq in I1.
  rewrite map_map. pose proof (owns_block _ _ _ _ i H ltac:(lia)) as E. unfold zrange. rewrite <- E, Z.sub_0_r, Nat2Z.id, map_map. apply map_ext. intros j. unfold pnew, expected. cbn [c_block c_new]. f_equal. lia.
Qed.
(** old patches are named at most once, and exist *)
Lemma pold_inj sizes o0 o1 n0 n1 levels x y k : owns sizes o0 o1 levels -> In x (expected_calls sizes o0 o1 n0 n1) -> In y (expected_calls sizes o0 o1 n0 n1) ->
  pold x = Some k -> pold y = Some k -> pnew x = pnew y.
Proof.
  intros _ X Y. apply expected_In in X, Y. destruct X as (i & a & I1 & A & ->), Y as (j & b & J1 & B & ->). unfold pold, pnew, expected. cbn [c_block c_old c_new].
  destruct ((o0 <=? local_first sizes n0 i + a) && (local_first sizes n0 i + a <? o1)) eqn:E1; [|discriminate].
  destruct ((o0 <=? local_first sizes n0 j + b) && (local_first sizes n0 j + b <? o1)) eqn:E2; [|discriminate].
  intros X Y. rewrite <- Y in X. injection X as X1 X2. subst j. f_equal. apply andb_true_iff in E1, E2. rewrite Z.leb_le, Z.ltb_lt in E1, E2. unfold local_first in *. lia.
Qed.
Lemma pold_patch sizes o0 o1 n0 n1 levels x k : owns sizes o0 o1 levels -> In x (expected_calls sizes o0 o1 n0 n1) -> pold x = Some k -> is_patch levels k.
Proof.
  intros H X. apply expected_In in X. destruct X as (i & a & I1 & A & ->). unfold pold, expected. cbn [c_block c_old].
  destruct ((o0 <=? local_first sizes n0 i + a) && (local_first sizes n0 i + a <? o1)) eqn:E1; [|discriminate]. intros X. injection X as <-.
  pose proof (owns_block _ _ _ _ i H I1) as E. unfold is_patch. cbn [fst snd]. rewrite (owns_length _ _ _ _ H). split; [exact I1|].
  apply andb_true_iff in E1. rewrite Z.leb_le, Z.ltb_lt in E1. unfold local_num, local_first in *. lia.
Qed.
(** the buffer of a patch that arrives *)
Lemma buffer_place sizes n0 n1 i nj : Forall (fun n => 0 <= n) sizes -> 0 <= n0 <= n1 -> (i < length sizes)%nat -> 0 <= nj < local_num sizes n0 n1 i ->
  nth_error (local_blocks sizes n0 n1) i = Some (mkPB (local_num sizes n0 n1 i) (local_first sizes n0 i - n0)) /\
  0 <= local_first sizes n0 i - n0 + nj < n1 - n0.
Proof.
  intros F L I1 J. unfold local_blocks. rewrite nth_error_map, (nth_error_nth' _ 0%nat) by (rewrite seq_length; exact I1). rewrite seq_nth by exact I1. cbn [option_map plus].
  rewrite before_closed by (try assumption; lia). unfold local_num, local_first in *. split; [do 2 f_equal; lia|lia].
Qed.

Section Part.
  Variable V : Type.
  Notation obj := (obj V).
  Notation amap := (tag -> option obj).
  Notation wrep := (wrep V).
  Notation aupd := (aupd V).
  Notation live := (live V).
  Notation stable := (stable V).

  Definition received (nbs : list pblock) (buf : list V) (x : pcall) : option V :=
    match nth_error nbs (c_block x) with
    | Some pb => nth_error buf (Z.to_nat (pb_before pb + c_new x))
    | None => None
    end.
  Definition arrived (nbs : list pblock) (buf : list V) (a : amap) (x : pcall) (o : option obj) : Prop :=
    match pold x with
    | Some k => o = a (TO k)
    | None => exists v, received nbs buf x = Some v /\ o = Some (mkObj V (c_block x) (Z.to_nat (c_new x)) false (Some v))
    end.

  Lemma transfer_ok f nbs buf x : forall c w a, wrep f c w a -> is_patch (f_ln f) (pnew x) -> a (TN (pnew x)) = None ->
    (forall k, pold x = Some k -> is_patch (f_lo f) k /\ exists o, a (TO k) = Some o) ->
    (pold x = None -> received nbs buf x <> None) ->
    exists w' a' c', transfer V nbs buf w x = Some w' /\ wrep f c' w' a' /\
      n_so c' = n_so c /\ n_do c' + live a' (keys (f_lo f)) = n_do c + live a (keys (f_lo f)) /\ n_sn c' = n_sn c + 1 /\ n_dn c' = n_dn c /\
      arrived nbs buf a x (a' (TN (pnew x))) /\
      (forall t, (forall k, pold x = Some k -> t <> TO k) -> t <> TN (pnew x) -> a' t = a t).
  Proof.
    intros c [[m old] new] a H P1 A1 PO PB. unfold transfer, arrived. unfold pold in *. destruct (c_old x) as [oj|].
    - destruct (PO _ eq_refl) as (P2 & o & A2). pose proof (op_move V f c m old new a _ (pnew x) o H P2 P1 A2 A1) as H1.
      eexists. eexists. eexists. split; [reflexivity|]. split; [exact H1|]. cbn [n_so n_do n_sn n_dn]. split; [reflexivity|]. split.
      { rewrite (live_remove V a (aupd (aupd a (TO (c_block x, Z.to_nat oj)) None) (TN (pnew x)) (Some o)) (c_block x, Z.to_nat oj) o (keys (f_lo f)) (keys_NoDup _)); [lia|apply keys_In, P2|exact A2| |].
        - rewrite aupd_other by discriminate. apply aupd_same.
        - intros y Y. rewrite aupd_other by discriminate. apply aupd_other. intros E. injection E as E. contradiction. }
      split; [reflexivity|]. split; [reflexivity|]. split.
      + rewrite aupd_same. symmetry. exact A2.
      + intros t T1 T2. rewrite !aupd_other; [reflexivity|apply T1; reflexivity|exact T2].
    - specialize (PB eq_refl). unfold received in *. destruct (nth_error nbs (c_block x)) as [pb|]; [|contradiction]. destruct (nth_error buf (Z.to_nat (pb_before pb + c_new x))) as [v|]; [|contradiction].
      destruct (op_build V f c m old new a (pnew x) (Some v) H P1 A1) as ([[m1 old1] new1] & E1 & H1).
      match goal with |- context [build_new V (m, old, new) ?K (Some v)] => change (build_new V (m, old, new) K (Some v)) with (build_new V (m, old, new) (pnew x) (Some v)) end.
      rewrite E1. pose proof (op_counts V f _ m1 old1 new1 _ (-1) 1 H1) as H2. cbn [n_so n_do n_sn n_dn] in H2.
      eexists. eexists. eexists. split; [reflexivity|]. split; [exact H2|]. cbn [n_so n_do n_sn n_dn]. split; [lia|]. split.
      { rewrite (live_ext V a); [reflexivity|]. intros k _. apply aupd_other. discriminate. }
      split; [reflexivity|]. split; [reflexivity|]. split.
      + exists v. split; [reflexivity|]. apply aupd_same.
      + intros t T1 T2. apply aupd_other, T2.
  Qed.

  Lemma transfer_all f nbs buf cs : forall c w a, wrep f c w a -> NoDup (map pnew cs) ->
    (forall x y k, In x cs -> In y cs -> pold x = Some k -> pold y = Some k -> pnew x = pnew y) ->
    (forall x, In x cs -> is_patch (f_ln f) (pnew x) /\ a (TN (pnew x)) = None /\
       (forall k, pold x = Some k -> is_patch (f_lo f) k /\ exists o, a (TO k) = Some o) /\ (pold x = None -> received nbs buf x <> None)) ->
    exists w' a' c', for_each (transfer V nbs buf) cs w = Some w' /\ wrep f c' w' a' /\
      n_so c' = n_so c /\ n_do c' + live a' (keys (f_lo f)) = n_do c + live a (keys (f_lo f)) /\ n_sn c' = n_sn c + Z.of_nat (length cs) /\ n_dn c' = n_dn c /\
      (forall x, In x cs -> arrived nbs buf a x (a' (TN (pnew x)))) /\
      (forall t, (forall x k, In x cs -> pold x = Some k -> t <> TO k) -> (forall x, In x cs -> t <> TN (pnew x)) -> a' t = a t).
  Proof.
    induction cs as [|x cs IH]; intros c w a H N INJ P.
    - exists w, a, c. split; [reflexivity|]. split; [exact H|]. split; [reflexivity|]. split; [reflexivity|]. split; [cbn [length]; lia|]. split; [reflexivity|]. split; [intros x []|reflexivity].
    - cbn [map] in N. inversion N as [|y l NX N']; subst. destruct (P x (or_introl eq_refl)) as (P1 & P2 & P3 & P4).
      destruct (transfer_ok f nbs buf x c w a H P1 P2 P3 P4) as (w1 & a1 & c1 & E1 & H1 & C1 & C2 & C3 & C4 & A1 & A2).
      assert (OT : forall y k, In y cs -> pold y = Some k -> a1 (TO k) = a (TO k)).
      { intros y k Y K. apply A2; [|discriminate]. intros k' K' E. injection E as <-. apply NX. apply in_map_iff. exists y. split; [|exact Y]. apply (INJ y x k (or_intror Y) (or_introl eq_refl) K K'). }
      destruct (IH c1 w1 a1 H1 N') as (w' & a' & c' & E2 & H2 & D1 & D2 & D3 & D4 & B1 & B2).
      { intros y z k Y Z. apply (INJ y z k (or_intror Y) (or_intror Z)). }
      { intros y Y. destruct (P y (or_intror Y)) as (Q1 & Q2 & Q3 & Q4). split; [exact Q1|]. split; [|split; [|exact Q4]].
        - rewrite A2; [exact Q2|intros; discriminate|]. intros E. assert (E' : pnew y = pnew x) by (apply (f_equal (fun t => match t with TN k => k | _ => pnew x end)) in E; exact E). apply NX. apply in_map_iff. exists y. auto.
        - intros k K. rewrite (OT y k Y K). apply Q3, K. }
      exists w', a', c'. cbn [for_each]. rewrite E1. split; [exact E2|]. split; [exact H2|]. split; [congruence|]. split; [lia|]. split; [cbn [length]; lia|]. split; [congruence|]. split.
      + intros y [<-|Y].
        * rewrite B2; [exact A1|intros; discriminate|]. intros z Z E. assert (E' : pnew z = pnew x) by (apply (f_equal (fun t => match t with TN k => k | _ => pnew x end)) in E; symmetry; exact E). apply NX. apply in_map_iff. exists z. auto.
        * specialize (B1 y Y). unfold arrived in *. destruct (pold y) as [k|] eqn:K; [|exact B1]. rewrite B1. apply (OT y k Y K).
      + intros t T1 T2. rewrite B2; [apply A2| |].
        * intros k K. apply (T1 x k (or_introl eq_refl) K).
        * apply (T2 x (or_introl eq_refl)).
        * intros y k Y. apply (T1 y k (or_intror Y)).
        * intros y Y. apply (T2 y (or_intror Y)).
  Qed.

  Lemma partition_stage ex m d a r sizes o0 o1 n0 n1 (p : partition V) : stable false ex m d a -> repartition sizes o0 o1 n0 n1 (d_levels d) p ->
    exists m' d' a', partition_domain V (mkState V m d r) (Some p) = Some (mkState V m' d' (r ++ [true])) /\
      stable false false m' d' a' /\ d_levels d' = p_levels V p /\
      (forall i nj, (i < length sizes)%nat -> 0 <= nj < local_num sizes n0 n1 i ->
         let g := local_first sizes n0 i + nj in
         value V (a' (TO (i, Z.to_nat nj))) =
         if (o0 <=? g) && (g <? o1) then value V (a (TO (i, Z.to_nat (g - local_first sizes o0 i)))) else nth_error (p_buf V p) (Z.to_nat (g - n0))).
  Proof.
    intros S (OW1 & OW2 & W & LB). destruct S as [WR P G NX CT]. unfold partition_domain. cbn [s_mem s_dom s_reports].
    rewrite (owns_pblocks _ _ _ _ OW1), (owns_pblocks _ _ _ _ OW2).
    pose proof OW1 as (OA & OB & SZ & _). pose proof OW2 as (NA & NB & _ & _).
    rewrite (iterate_partitioned_ok sizes SZ o0 o1 n0 n1 _ _ _ (conj OA OB) (conj NA NB) W).
    pose proof (wrep_new V (mkFrame (d_levels d) [] (d_ghost d) ex) (mkCounts (d_set d) (d_del d) 0 0) m d a (p_levels V p) WR) as W1. cbn [f_lo f_g f_ex n_so n_do] in W1.
    set (nbs := local_blocks sizes n0 n1). set (cs := expected_calls sizes o0 o1 n0 n1).
    pose proof (pnew_keys sizes o0 o1 n0 n1 _ OW2) as KN. fold cs in KN.
    assert (RC : forall i nj, (i < length sizes)%nat -> 0 <= nj < local_num sizes n0 n1 i -> received nbs (p_buf V p) (expected sizes o0 o1 n0 i nj) = nth_error (p_buf V p) (Z.to_nat (local_first sizes n0 i + nj - n0)) /\ nth_error (p_buf V p) (Z.to_nat (local_first sizes n0 i + nj - n0)) <> None).
    { intros i nj I1 J. destruct (buffer_place sizes n0 n1 i nj SZ NA I1 J) as (X1 & X2). unfold received, expected, nbs. cbn [c_block c_new]. rewrite X1. cbn [pb_before].
      replace (local_first sizes n0 i - n0 + nj) with (local_first sizes n0 i + nj - n0) by lia. split; [reflexivity|]. apply nth_error_Some. lia. }
    destruct (transfer_all _ nbs (p_buf V p) cs _ _ _ W1) as ([[m1 old] new] & a1 & c1 & E1 & H1 & C1 & C2 & C3 & C4 & A1 & A2).
    - rewrite KN. apply keys_NoDup.
    - intros x y k X Y. apply (pold_inj _ _ _ _ _ _ _ _ _ OW1 X Y).
    - intros x X. cbn [f_lo f_ln]. split; [apply keys_In; rewrite <- KN; apply in_map, X|]. split; [reflexivity|]. split.
      + intros k K. pose proof (pold_patch _ _ _ _ _ _ _ _ OW1 X K) as PK. split; [exact PK|]. destruct (P k PK) as (o & v & Q & _). exists o. exact Q.
      + intros _. unfold cs in X. apply expected_In in X. destruct X as (i & nj & I1 & J & ->). destruct (RC i nj I1 J) as (-> & Y). exact Y.
    - rewrite E1. cbn [n_so n_do n_sn n_dn f_lo] in C1, C2, C3, C4.
      assert (LF : live (fun t => match t with TN _ => None | _ => a t end) (keys (d_levels d)) = Z.of_nat (length (keys (d_levels d)))).
      { apply live_full. intros k K. apply keys_In in K. destruct (P k K) as (o & v & Q & _). rewrite Q. discriminate. }
      rewrite LF in C2.
      destruct (reset_ok V _ _ m1 old new a1 H1) as (m2 & a2 & E2 & H2 & B).
      + cbn [f_g]. intros n N. rewrite A2; [apply G, N|intros; discriminate|intros; discriminate].
      + exact NX.
      + cbn [f_lo f_g]. lia.
      + rewrite E2. pose proof H1 as H1'. unfold Proof_Regrid2.wrep in H1'. cbn [f_lo f_ln f_g f_ex] in H1'. destruct H1' as (_ & Q1 & _ & _ & _ & _ & Q2 & Q3 & Q4 & Q5 & _).
        cbn [f_ln] in H2. exists m2, new, a2. split; [reflexivity|].
        assert (AR : forall x, In x cs -> arrived nbs (p_buf V p) a x (a2 (TO (pnew x)))).
        { intros x X. rewrite B. exact (A1 x X). }
        split; [|split; [exact Q1|]].
        * constructor.
          -- rewrite Q1, Q2, Q3, Q4. exact H2.
          -- intros k K. rewrite Q1 in K. apply keys_In in K. rewrite <- KN in K. apply in_map_iff in K. destruct K as (x & <- & X). specialize (AR x X). unfold arrived in AR. destruct (pold x) as [k|] eqn:K.
             ++ rewrite AR. destruct (P k (pold_patch _ _ _ _ _ _ _ _ OW1 X K)) as (o & v & Y1 & Y2 & Y3 & Y4). exists o, v. split; [exact Y1|]. split; [exact Y2|]. split; [|exact Y4].
                unfold pold in K. destruct (c_old x); [|discriminate]. injection K as <-. exact Y3.
             ++ destruct AR as (v & _ & ->). eexists. eexists. split; [reflexivity|]. cbn [o_val o_block o_nset]. split; [reflexivity|]. split; reflexivity.
          -- intros n N. rewrite Q4 in N. cbn [length] in N. lia.
          -- intros _. exact Q4.
          -- rewrite Q1, Q2, Q3, Q4, C3, C4, <- KN, map_length. cbn [length]. lia.
        * intros i nj I1 J. set (g := local_first sizes n0 i + nj). specialize (AR (expected sizes o0 o1 n0 i nj)).
          assert (X : In (expected sizes o0 o1 n0 i nj) cs) by (apply expected_In; exists i, nj; auto). specialize (AR X).
          destruct (RC i nj I1 J) as (R1 & _).
          unfold arrived in AR. rewrite R1 in AR. unfold pold, pnew, expected in AR. cbn [c_block c_new c_old] in AR. fold g in AR.
          destruct ((o0 <=? g) && (g <? o1)); [rewrite AR; reflexivity|]. destruct AR as (v & AR1 & AR2). rewrite AR2, AR1. reflexivity.
  Qed.
End Part.
