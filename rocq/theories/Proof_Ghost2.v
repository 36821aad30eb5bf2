(** The message of a patch. *)
From Coq Require Import ZArith QArith List Lia Bool.
From Verif Require Import Model_Face Model_Grid Spec_Grid Model_Ghost Spec_Ghost Proof_Grid Proof_Ghost.
Import ListNotations.
Open Scope Z_scope.

Section Msg.
  Variable o : gopts.
  Notation d := (g_d o).
  Hypothesis HL : large_enough o.
  Hypothesis HX : extra_ok o.

  Definition q_list : list loc :=
    flat_map (fun mq => strip_list d (width_sent o) (fun i j => LQ (i, j, mq))) (zseq 1 (meqn d)).
  Definition a_list : list loc := if packarea o then strip_list d (width_sent o) LA else [].
  Definition x_list : list loc := map LX (zseq 0 (cells_sent o * packextra o - 1)).
  Definition r_list : list loc := if time_sync o then reg_list d else [].

  Lemma facts : 1 <= mbc d /\ 1 <= meqn d /\ 1 <= width_sent o /\ 0 <= packextra o /\
    2 * width_sent o <= mx d /\ 2 * width_sent o <= my d /\ 0 < cells_sent o.
  Proof.
    destruct HL as (H1 & H2 & H3 & H4 & H5 & H6). 
    assert (1 <= width_sent o) by (unfold width_sent; nia).
    repeat split; try assumption. unfold cells_sent. nia.
  Qed.

  Lemma len_q : Z.of_nat (length q_list) = cells_sent o * meqn d.
  Proof.
    destruct facts as (H1 & H2 & H3 & H4 & H5 & H6 & H7). unfold q_list.
    rewrite (flat_map_len _ _ _ _ (Z.to_nat (cells_sent o))).
    - rewrite len_zseq. nia.
    - intros mq _. apply Nat2Z.inj. rewrite len_strips by lia. rewrite Z2Nat.id by lia. reflexivity.
  Qed.
  Lemma len_a : Z.of_nat (length a_list) = cells_sent o * b2z (packarea o).
  Proof.
    destruct facts as (H1 & H2 & H3 & H4 & H5 & H6 & H7). unfold a_list.
    destruct (packarea o); cbn [b2z length]; [|lia]. rewrite len_strips by lia. unfold cells_sent. lia.
  Qed.
  Lemma len_x : Z.of_nat (length x_list) = cells_sent o * packextra o.
  Proof. destruct facts as (H1 & H2 & H3 & H4 & H5 & H6 & H7). unfold x_list. rewrite map_length, len_zseq. nia. Qed.
  Lemma len_r : Z.of_nat (length r_list) = if time_sync o then 2 * (4 * meqn d + 2) * (mx d + my d) else 0.
  Proof.
    destruct facts as (H1 & H2 & H3 & H4 & H5 & H6 & H7). unfold r_list. destruct (time_sync o); [|reflexivity].
    apply len_regs; lia.
  Qed.

  Lemma in_q_list : forall l, In l q_list <-> exists i j mq, l = LQ (i, j, mq) /\ near d (width_sent o) i j /\ 1 <= mq <= meqn d.
  Proof.
    intros l. destruct facts as (H1 & H2 & H3 & H4 & H5 & H6 & H7). unfold q_list. rewrite in_flat_map. split.
    - intros (mq & Hm & H). apply in_zseq in Hm. apply in_strips in H; try lia.
      destruct H as (i & j & Hn & ->). now exists i, j, mq.
    - intros (i & j & mq & -> & Hn & Hm). exists mq. split; [now apply in_zseq|]. apply in_strips; try lia. now exists i, j.
  Qed.

  Definition all_list : list loc := (q_list ++ a_list) ++ (x_list ++ r_list).

  Lemma all_sent : forall l, In l all_list <-> sent o l.
  Proof.
    intros l. destruct facts as (H1 & H2 & H3 & H4 & H5 & H6 & H7). unfold all_list. rewrite !in_app_iff, in_q_list.
    unfold a_list, x_list, r_list. rewrite in_map_iff. unfold sent. split.
    - intros [[H|H]|[H|H]].
      + destruct H as (i & j & mq & -> & Hn & Hm). now split.
      + destruct (packarea o); [|destruct H]. apply in_strips in H; try lia. destruct H as (i & j & Hn & ->). now split.
      + destruct H as (n & <- & Hn). apply in_zseq in Hn. lia.
      + destruct (time_sync o); [|destruct H]. apply in_regs in H; try lia.
        destruct l; try contradiction; (split; [reflexivity|exact H]).
    - intros H. destruct l as [[[i j] mq]|i j|k j|k j|k j|k j|k j|k j|k j|n];
        try (right; right; destruct H as [-> H]; apply in_regs; [lia|lia|lia|exact H]).
      + left; left. now exists i, j, mq.
      + left; right. destruct H as [-> H]. apply in_strips; try lia. now exists i, j.
      + right; left. exists n. split; [reflexivity|]. apply in_zseq. lia.
  Qed.

  Lemma sent_in_loc : forall l, sent o l -> in_loc d l = true.
  Proof.
    intros l H. destruct facts as (H1 & H2 & H3 & H4 & H5 & H6 & H7). unfold sent in H. 
    destruct l as [[[i j] mq]|i j|k j|k j|k j|k j|k j|k j|k j|n]; cbn [in_loc].
    - destruct H as [(A & B & _) C]. apply in_q_iff. lia.
    - destruct H as [_ (A & B & _)]. rewrite !andb_true_iff, !Z.leb_le. lia.
    - destruct H as [_ H]. rewrite andb_true_iff, !in_range_iff. lia.
    - destruct H as [_ H]. rewrite andb_true_iff, !in_range_iff. lia.
    - destruct H as [_ H]. rewrite andb_true_iff, !in_range_iff. lia.
    - destruct H as [_ H]. rewrite andb_true_iff, !in_range_iff. lia.
    - destruct H as [_ H]. rewrite andb_true_iff, !in_range_iff. exact H.
    - destruct H as [_ H]. rewrite andb_true_iff, !in_range_iff. lia.
    - destruct H as [_ H]. rewrite andb_true_iff, !in_range_iff. lia.
    - apply Z.leb_le. lia.
  Qed.

  Definition elems : Z := cells_sent o * (meqn d + b2z (packarea o) + packextra o)
    + (if time_sync o then 2 * (4 * meqn d + 2) * (mx d + my d) else 0).

  Lemma elems_ok : ghost_pack_elems o = Some elems.
  Proof.
    destruct facts as (H1 & H2 & H3 & H4 & H5 & H6 & H7). unfold ghost_pack_elems, elems, cells_sent, width_sent in *.
     cbv zeta. rewrite (proj2 (Z.leb_le _ _)) by nia. f_equal. f_equal. f_equal. lia.
  Qed.

  Lemma len_all : Z.of_nat (length all_list) = elems.
  Proof.
    unfold all_list, elems. rewrite !app_length, !Nat2Z.inj_add, len_q, len_a, len_x, len_r. nia.
  Qed.

  (** the two Fortran / C loops as runs *)
  Definition fpack_list : list loc := q_list ++ a_list.
  Lemma fort_run : forall cap psize unpack s, 0 <= unpack <= 1 ->
    fort_local_ghost_pack d cap (width_sent o) 0 psize (2 * b2z (packarea o) + unpack) s =
    bind (run (xfer d cap 0 psize (unpack =? 0)) fpack_list (s, 1))
         (fun st => Some (fst st, if snd st - 1 =? psize then 0 else 2)).
  Proof.
    intros cap psize unpack s Hu. unfold fort_local_ghost_pack.
    assert (B : b2z (packarea o) = 0 \/ b2z (packarea o) = 1) by (destruct (packarea o); cbn; lia).
    assert (E1 : negb (2 * b2z (packarea o) + unpack =? 0) && negb (2 * b2z (packarea o) + unpack =? 1) &&
       negb (2 * b2z (packarea o) + unpack =? 2) && negb (2 * b2z (packarea o) + unpack =? 3) = false).
    { destruct (Z.eq_dec unpack 0) as [->|]; [|assert (unpack = 1) as -> by lia]; destruct B as [-> | ->]; reflexivity. }
    rewrite E1. cbv zeta.
    assert (E2 : (2 * b2z (packarea o) + unpack =? 0) || (2 * b2z (packarea o) + unpack =? 2) = (unpack =? 0)).
    { destruct (Z.eq_dec unpack 0) as [->|]; [|assert (unpack = 1) as -> by lia]; destruct B as [-> | ->]; reflexivity. }
    rewrite E2. unfold fpack_list. rewrite run_app.
    rewrite (run_loop _ (xfer d cap 0 psize (unpack =? 0)) 1 (meqn d) _
      (fun mq => strip_list d (width_sent o) (fun i j => LQ (i, j, mq)))).
    2: { intros mq st _. apply run_strips. }
    fold q_list. destruct (run _ q_list (s, 1)) as [st|]; cbn [bind]; [|reflexivity].
    assert (E3 : negb (2 * b2z (packarea o) + unpack =? 2) && negb (2 * b2z (packarea o) + unpack =? 3) = negb (packarea o)).
    { destruct (Z.eq_dec unpack 0) as [->|]; [|assert (unpack = 1) as -> by lia]; destruct (packarea o); reflexivity. }
    rewrite E3. unfold a_list. destruct (packarea o); cbn [negb].
    - now rewrite run_strips.
    - reflexivity.
  Qed.

  Lemma reg_run : forall cap base frsize pack s,
    pack_registers d cap base frsize pack s =
    bind (run (rxfer d cap base pack) (reg_list d) (s, 0)) (fun st => Some (fst st, if snd st =? frsize then 0 else 1)).
  Proof.
    intros cap base frsize pack s. unfold pack_registers. cbv zeta.
    set (step := rxfer d cap base pack).
    assert (R : forall A (x : option A), bind x Some = x) by (intros A [a|]; reflexivity).
    assert (L4 : forall n F1 F2 F3 F4 st, loop 0 n (fun j st => bind (step (F1 j) st) (fun st => bind (step (F2 j) st) (fun st =>
        bind (step (F3 j) st) (fun st => step (F4 j) st)))) st = run step (flat_map (fun j => [F1 j; F2 j; F3 j; F4 j]) (zseq 0 n)) st).
    { intros. apply run_loop. intros j st' _. cbn [run].
      destruct (step (F1 j) st') as [s1|]; cbn [bind]; [|reflexivity].
      destruct (step (F2 j) s1) as [s2|]; cbn [bind]; [|reflexivity].
      destruct (step (F3 j) s2) as [s3|]; cbn [bind]; [|reflexivity]. now rewrite R. }
    assert (L2 : forall n F1 F2 st, loop 0 n (fun j st => bind (step (F1 j) st) (fun st => step (F2 j) st)) st
      = run step (flat_map (fun j => [F1 j; F2 j]) (zseq 0 n)) st).
    { intros. apply run_loop. intros j st' _. cbn [run].
      destruct (step (F1 j) st') as [s1|]; cbn [bind]; [|reflexivity]. now rewrite R. }
    rewrite (run_loop _ step 0 3 _ (fun k =>
      (if k <? 2 then flat_map (fun j => [LFm k j; LFp k j; LEf k j; LEf k (j + meqn d * my d)]) (zseq 0 (meqn d * my d - 1))
       else flat_map (fun j => [LGm (k - 2) j; LGp (k - 2) j; LEf k j; LEf k (j + meqn d * mx d)]) (zseq 0 (meqn d * mx d - 1)))
      ++ flat_map (fun j => [LEl k j; LAr k j]) (zseq 0 ((if k <? 2 then my d else mx d) - 1)))).
    - reflexivity.
    - intros k st Hk. rewrite run_app.
      assert (Ek : Z.quot k 2 = if k <? 2 then 0 else 1).
      { assert (k = 0 \/ k = 1 \/ k = 2 \/ k = 3) as [->|[->|[->| ->]]] by lia; reflexivity. }
      rewrite Ek. destruct (k <? 2).
      + cbn [Z.eqb]. rewrite (L4 _ (fun j => LFm k j) (fun j => LFp k j) (fun j => LEf k j) (fun j => LEf k (j + meqn d * my d))).
        destruct (run step _ st) as [st1|]; cbn [bind]; [|reflexivity].
        apply (L2 _ (fun j => LEl k j) (fun j => LAr k j)).
      + cbn [Z.eqb]. rewrite (L4 _ (fun j => LGm (k - 2) j) (fun j => LGp (k - 2) j) (fun j => LEf k j) (fun j => LEf k (j + meqn d * mx d))).
        destruct (run step _ st) as [st1|]; cbn [bind]; [|reflexivity].
        apply (L2 _ (fun j => LEl k j) (fun j => LAr k j)).
  Qed.

  (** one phase: from position [base], all locations of [ls] *)
  Definition packs (base : Z) (ls : list loc) (s s' : pst) : Prop :=
    mem s' = mem s /\ holds_list (buf s') base ls (mem s) /\
    forall n, ~ (base <= n < base + Z.of_nat (length ls)) -> buf s' n = buf s n.
  Definition unpacks (src : memory) (ls : list loc) (s s' : pst) : Prop :=
    buf s' = buf s /\ (forall l, In l ls -> mem s' l = src l) /\ (forall l, ~ In l ls -> mem s' l = mem s l).

  Lemma sub_in : forall l ls, In l ls -> (forall l, In l ls -> In l all_list) -> in_loc d l = true.
  Proof. intros l ls H1 H2. apply sent_in_loc, all_sent. now apply H2. Qed.

  Lemma fort_pack : forall s, exists s',
    fort_local_ghost_pack d elems (width_sent o) 0 (cells_sent o * (meqn d + b2z (packarea o))) (2 * b2z (packarea o)) s = Some (s', 0) /\
    packs 0 fpack_list s s'.
  Proof.
    intros s. destruct facts as (H1 & H2 & H3 & H4 & H5 & H6 & H7).
    assert (LEN : Z.of_nat (length fpack_list) = cells_sent o * (meqn d + b2z (packarea o))).
    { unfold fpack_list. rewrite app_length, Nat2Z.inj_add, len_q, len_a. lia. }
    pose proof (fort_run elems (cells_sent o * (meqn d + b2z (packarea o))) 0 s ltac:(lia)) as E. rewrite Z.add_0_r in E. rewrite E.
    pose proof len_all as LA'. unfold all_list in LA'. rewrite app_length, Nat2Z.inj_add in LA'. fold fpack_list in LA'.
    destruct (run_pack d elems (xfer d elems 0 (cells_sent o * (meqn d + b2z (packarea o))) (0 =? 0)) (-1) fpack_list s 1)
      as (b & ER & A & B).
    - intros l s' k' _ Hk. unfold xfer. rewrite (proj2 (Z.leb_le 1 k')), (proj2 (Z.leb_le k' _)) by lia.
      cbn [andb]. replace (0 + (k' - 1)) with (-1 + k') by lia. reflexivity.
    - intros l Hl. apply (sub_in l fpack_list Hl). intros x Hx. unfold all_list. apply in_app_iff. now left.
    - lia.
    - lia.
    - rewrite ER. cbn [bind fst snd]. replace (1 + Z.of_nat (length fpack_list) - 1) with (Z.of_nat (length fpack_list)) by lia.
      rewrite LEN, Z.eqb_refl. eexists. split; [reflexivity|]. split; [reflexivity|]. cbn [mem buf].
      replace (-1 + 1) with 0 in * by lia. split; [exact A|exact B].
  Qed.

  Lemma fort_unpack : forall src s, holds_list (buf s) 0 fpack_list src -> exists s',
    fort_local_ghost_pack d elems (width_sent o) 0 (cells_sent o * (meqn d + b2z (packarea o))) (2 * b2z (packarea o) + 1) s = Some (s', 0) /\
    unpacks src fpack_list s s'.
  Proof.
    intros src s HB. destruct facts as (H1 & H2 & H3 & H4 & H5 & H6 & H7).
    assert (LEN : Z.of_nat (length fpack_list) = cells_sent o * (meqn d + b2z (packarea o))).
    { unfold fpack_list. rewrite app_length, Nat2Z.inj_add, len_q, len_a. lia. }
    rewrite (fort_run elems (cells_sent o * (meqn d + b2z (packarea o))) 1 s ltac:(lia)).
    pose proof len_all as LA'. unfold all_list in LA'. rewrite app_length, Nat2Z.inj_add in LA'. fold fpack_list in LA'.
    destruct (run_unpack d elems (xfer d elems 0 (cells_sent o * (meqn d + b2z (packarea o))) (1 =? 0)) (-1) src fpack_list s 1)
      as (m & ER & A & B & _).
    - intros l s' k' _ Hk. unfold xfer. rewrite (proj2 (Z.leb_le 1 k')), (proj2 (Z.leb_le k' _)) by lia.
      cbn [andb]. replace (0 + (k' - 1)) with (-1 + k') by lia. reflexivity.
    - intros l Hl. apply (sub_in l fpack_list Hl). intros x Hx. unfold all_list. apply in_app_iff. now left.
    - lia.
    - lia.
    - exact HB.
    - rewrite ER. cbn [bind fst snd]. replace (1 + Z.of_nat (length fpack_list) - 1) with (Z.of_nat (length fpack_list)) by lia.
      rewrite LEN, Z.eqb_refl. eexists. split; [reflexivity|]. split; [reflexivity|]. cbn [mem buf]. split; assumption.
  Qed.

  Notation rbase := (cells_sent o * (meqn d + b2z (packarea o)) + cells_sent o * packextra o).
  Notation frsize := (2 * (4 * meqn d + 2) * (mx d + my d)).

  Lemma regs_pack : time_sync o = true -> forall s, exists s',
    pack_registers d elems rbase frsize true s = Some (s', 0) /\ packs rbase r_list s s'.
  Proof.
    intros T s. destruct facts as (H1 & H2 & H3 & H4 & H5 & H6 & H7).
    rewrite reg_run. pose proof len_r as LR. unfold r_list in *. rewrite T in *.
    assert (Hb : 0 <= b2z (packarea o)) by (destruct (packarea o); cbn; lia).
    assert (EL : elems = rbase + frsize) by (unfold elems; rewrite T; lia).
    destruct (run_pack d elems (rxfer d elems rbase true) rbase (reg_list d) s 0) as (b & ER & A & B).
    - intros l s' k' _ Hk. reflexivity.
    - intros l Hl. apply (sub_in l _ Hl). intros x Hx. unfold all_list, r_list. rewrite T. rewrite !in_app_iff. tauto.
    - nia.
    - lia.
    - rewrite ER. cbn [bind fst snd]. rewrite Z.add_0_l, LR. rewrite Z.eqb_refl.
      eexists. split; [reflexivity|]. rewrite Z.add_0_r in *. split; [reflexivity|]. cbn [mem buf]. split; [exact A|exact B].
  Qed.
  Lemma regs_unpack : time_sync o = true -> forall src s, holds_list (buf s) rbase r_list src -> exists s',
    pack_registers d elems rbase frsize false s = Some (s', 0) /\ unpacks src r_list s s'.
  Proof.
    intros T src s HB. destruct facts as (H1 & H2 & H3 & H4 & H5 & H6 & H7).
    rewrite reg_run. pose proof len_r as LR. unfold r_list in *. rewrite T in *.
    assert (Hb : 0 <= b2z (packarea o)) by (destruct (packarea o); cbn; lia).
    assert (EL : elems = rbase + frsize) by (unfold elems; rewrite T; lia).
    destruct (run_unpack d elems (rxfer d elems rbase false) rbase src (reg_list d) s 0) as (m & ER & A & B & _).
    - intros l s' k' _ Hk. reflexivity.
    - intros l Hl. apply (sub_in l _ Hl). intros x Hx. unfold all_list, r_list. rewrite T. rewrite !in_app_iff. tauto.
    - nia.
    - lia.
    - now rewrite Z.add_0_r.
    - rewrite ER. cbn [bind fst snd]. rewrite Z.add_0_l, LR. rewrite Z.eqb_refl.
      eexists. split; [reflexivity|]. split; [reflexivity|]. cbn [mem buf]. split; [exact A|exact B].
  Qed.

  Lemma nth_x : forall n l, nth_error x_list n = Some l -> l = LX (Z.of_nat n) /\ 0 <= Z.of_nat n < cells_sent o * packextra o.
  Proof.
    intros n l E. unfold x_list, zseq in E. rewrite map_map in E.
    assert (Hn : (n < Z.to_nat (cells_sent o * packextra o - 1 - 0 + 1))%nat).
    { assert (X : nth_error x_list n <> None) by (unfold x_list, zseq; rewrite map_map, E; discriminate).
      apply nth_error_Some in X. unfold x_list in X. rewrite map_length, len_zseq in X. exact X. }
    rewrite nth_error_map in E. rewrite (nth_error_nth' _ 0%nat) in E by (rewrite seq_length; lia).
    rewrite seq_nth in E by lia. cbn [option_map] in E. assert (l = LX (0 + Z.of_nat (0 + n))) by congruence. subst l.
    split; [f_equal; lia|lia].
  Qed.

  Definition xphase (mode : Z) (s : pst) : option (pst * Z) :=
    let extrasize := cells_sent o * packextra o in
    if packextra o =? 0 then Some (s, 0) else
        if negb (0 <? extrasize) then None else
        match aux o with
        | None => None
        | Some f => bind (f (width_sent o) (cells_sent o * (meqn d + b2z (packarea o))) extrasize mode s) (fun '(s, ierror) =>
                    if negb (ierror =? 0) then None else Some (s, extrasize))
        end.
  Lemma x_pack : forall mode s, Z.even mode = true -> exists s',
    xphase mode s = Some (s', cells_sent o * packextra o) /\ packs (cells_sent o * (meqn d + b2z (packarea o))) x_list s s'.
  Proof.
    intros mode s Hm. destruct facts as (H1 & H2 & H3 & H4 & H5 & H6 & H7). unfold xphase. pose proof len_x as LX'.
    assert (Hb : 0 <= b2z (packarea o)) by (destruct (packarea o); cbn; lia).
    destruct (Z.eqb_spec (packextra o) 0) as [E0|N0].
    - exists s. rewrite E0 in *. rewrite Z.mul_0_r in *. split; [reflexivity|].
      split; [reflexivity|]. split; [|reflexivity]. intros n l E. apply nth_x in E. lia.
    - destruct HX as [E|(f & Ef & Cf)]; [contradiction|]. rewrite (proj2 (Z.ltb_lt 0 _)) by nia. cbn [negb]. rewrite Ef.
      destruct (Cf (width_sent o) (cells_sent o * (meqn d + b2z (packarea o))) (cells_sent o * packextra o) mode s)
        as (s' & Es & C); [nia|nia|]. rewrite Hm in C. rewrite Es. cbn [bind]. change (negb (0 =? 0)) with false. cbv iota.
      destruct C as (C1 & C2 & C3). exists s'. split; [reflexivity|]. split; [exact C1|]. split.
      + intros n l E. apply nth_x in E. destruct E as [-> E]. now apply C2.
      + intros n Hn. apply C3. lia.
  Qed.
  Lemma x_unpack : forall mode src s, Z.even mode = false ->
    holds_list (buf s) (cells_sent o * (meqn d + b2z (packarea o))) x_list src -> exists s',
    xphase mode s = Some (s', cells_sent o * packextra o) /\ unpacks src x_list s s'.
  Proof.
    intros mode src s Hm HB. destruct facts as (H1 & H2 & H3 & H4 & H5 & H6 & H7). unfold xphase. pose proof len_x as LX'.
    assert (Hb : 0 <= b2z (packarea o)) by (destruct (packarea o); cbn; lia).
    assert (IN : forall l, In l x_list -> exists n, l = LX n /\ 0 <= n < cells_sent o * packextra o).
    { intros l Hl. unfold x_list in Hl. apply in_map_iff in Hl. destruct Hl as (n & <- & Hn). apply in_zseq in Hn.
      exists n. split; [reflexivity|lia]. }
    destruct (Z.eqb_spec (packextra o) 0) as [E0|N0].
    - exists s. rewrite E0 in *. rewrite Z.mul_0_r in *. split; [reflexivity|].
      split; [reflexivity|]. split; [|reflexivity]. intros l Hl. apply IN in Hl. destruct Hl as (n & _ & Hn). lia.
    - destruct HX as [E|(f & Ef & Cf)]; [contradiction|]. rewrite (proj2 (Z.ltb_lt 0 _)) by nia. cbn [negb]. rewrite Ef.
      destruct (Cf (width_sent o) (cells_sent o * (meqn d + b2z (packarea o))) (cells_sent o * packextra o) mode s)
        as (s' & Es & C); [nia|nia|]. rewrite Hm in C. rewrite Es. cbn [bind]. change (negb (0 =? 0)) with false. cbv iota.
      destruct C as (C1 & C2 & C3). exists s'. split; [reflexivity|]. split; [exact C1|]. split.
      + intros l Hl. apply IN in Hl. destruct Hl as (n & -> & Hn). rewrite (C2 n Hn).
        specialize (HB (Z.to_nat n) (LX n)). rewrite Z2Nat.id in HB by lia. apply HB.
        unfold x_list, zseq. rewrite map_map, nth_error_map, (nth_error_nth' _ 0%nat) by (rewrite seq_length; lia).
        rewrite seq_nth by lia. cbn [option_map]. f_equal. f_equal. lia.
      + intros l Hl. apply C3. intros n Hn ->. apply Hl. unfold x_list. apply in_map. apply in_zseq. lia.
  Qed.

  Lemma comm_form : forall unpack s, 0 <= unpack <= 1 ->
    ghost_comm o elems (2 * b2z (packarea o) + unpack) s =
    bind (fort_local_ghost_pack d elems (width_sent o) 0 (cells_sent o * (meqn d + b2z (packarea o))) (2 * b2z (packarea o) + unpack) s)
      (fun '(s, ierror) => if negb (ierror =? 0) then None else
       bind (xphase (2 * b2z (packarea o) + unpack) s) (fun '(s, adv) =>
       if time_sync o then
         bind (pack_registers d elems (cells_sent o * (meqn d + b2z (packarea o)) + adv) frsize (unpack =? 0) s) (fun '(s, ierror) =>
           if negb (ierror =? 0) then None else Some s)
       else Some s)).
  Proof.
    intros unpack s Hu. destruct facts as (H1 & H2 & H3 & H4 & H5 & H6 & H7). unfold ghost_comm.
    assert (Eq : Z.quot (2 * b2z (packarea o) + unpack) 2 = b2z (packarea o)).
    { destruct (Z.eq_dec unpack 0) as [->|]; [|assert (unpack = 1) as -> by lia]; destruct (packarea o); reflexivity. }
    assert (Er : (Z.rem (2 * b2z (packarea o) + unpack) 2 =? 0) = (unpack =? 0)).
    { destruct (Z.eq_dec unpack 0) as [->|]; [|assert (unpack = 1) as -> by lia]; destruct (packarea o); reflexivity. }
    cbv zeta. rewrite Eq, Er, elems_ok.
    assert (Hb : 0 <= b2z (packarea o)) by (destruct (packarea o); cbn; lia).
    replace ((2 * mbc d + mx d) * (2 * mbc d + my d) - (mx d - 2 * (refratio o * mbc d)) * (my d - 2 * (refratio o * mbc d)))
      with (cells_sent o) by (unfold cells_sent, width_sent; ring).
    change (refratio o * mbc d) with (width_sent o) in *.
    rewrite (proj2 (Z.leb_le 0 _)) by nia. cbn [negb].
    fold elems. rewrite (proj2 (Z.ltb_lt 0 elems)).
    2: { unfold elems. destruct (time_sync o); nia. }
    cbn [negb bind]. rewrite Z.eqb_refl. cbn [negb]. unfold xphase.
    destruct (fort_local_ghost_pack _ _ _ _ _ _ _) as [[s1 e1]|]; cbn [bind]; [|reflexivity].
    destruct (negb (e1 =? 0)); [reflexivity|].
    match goal with |- bind ?x _ = bind ?y _ => change y with x; destruct x as [[s2 adv]|]; cbn [bind]; [|reflexivity] end.
    destruct (time_sync o); [|reflexivity]. rewrite (proj2 (Z.ltb_lt 0 _)) by nia. reflexivity.
  Qed.

  (** the whole message *)
  Lemma comm_pack : forall m b, exists b', local_ghost_pack o m b = Some b' /\
    holds_list b' 0 all_list m /\ (forall n, ~ (0 <= n < elems) -> b' n = b n).
  Proof.
    intros m b. unfold local_ghost_pack. rewrite elems_ok. cbn [bind].
    pose proof (comm_form 0 (mkPst m b) ltac:(lia)) as E. rewrite Z.add_0_r in E. rewrite E.
    destruct (fort_pack (mkPst m b)) as (s1 & E1 & P1 & Q1 & R1). rewrite E1. cbn [bind]. change (negb (0 =? 0)) with false. cbv iota.
    destruct (x_pack (2 * b2z (packarea o)) s1) as (s2 & E2 & P2 & Q2 & R2).
    { destruct (packarea o); reflexivity. }
    rewrite E2. cbn [bind]. pose proof len_q as Lq. pose proof len_a as La. pose proof len_x as Lx. pose proof len_r as Lr.
    assert (Lf : Z.of_nat (length fpack_list) = cells_sent o * (meqn d + b2z (packarea o))).
    { unfold fpack_list. rewrite app_length, Nat2Z.inj_add, Lq, La. lia. }
    pose proof len_all as Lall. cbn [mem buf] in *.
    destruct facts as (F1 & F2 & F3 & F4 & F5 & F6 & F7).
    assert (Hb : 0 <= b2z (packarea o)) by (destruct (packarea o); cbn; lia).
    assert (G : exists s3, (if time_sync o then
         bind (pack_registers d elems (cells_sent o * (meqn d + b2z (packarea o)) + cells_sent o * packextra o) frsize (0 =? 0) s2) (fun '(s, ierror) =>
           if negb (ierror =? 0) then None else Some s)
       else Some s2) = Some s3 /\ packs rbase r_list s2 s3).
    { destruct (time_sync o) eqn:T.
      - destruct (regs_pack T s2) as (s3 & E3 & P3). exists s3. change (0 =? 0) with true. rewrite E3. cbn [bind].
        change (negb true) with false. split; [reflexivity|exact P3].
      - exists s2. split; [reflexivity|]. split; [reflexivity|]. split; [|reflexivity].
        intros n l En. unfold r_list in En. rewrite T in En. destruct n; discriminate En. }
    destruct G as (s3 & E3 & P3 & Q3 & R3). rewrite E3. cbn [bind]. exists (buf s3). split; [reflexivity|].
    assert (rbase = Z.of_nat (length fpack_list) + Z.of_nat (length x_list)) as RB by (lia).
    split.
    - unfold all_list. fold fpack_list. apply holds_list_app.
      + intros n l En. assert (Hn : (n < length fpack_list)%nat) by (apply nth_error_Some; rewrite En; discriminate).
        rewrite R3 by lia. rewrite R2 by lia. rewrite (Q1 n l En). reflexivity.
      + rewrite Z.add_0_l. apply holds_list_app.
        * intros n l En. assert (Hn : (n < length x_list)%nat) by (apply nth_error_Some; rewrite En; discriminate).
          rewrite R3 by lia. rewrite Lf. rewrite (Q2 n l En). now rewrite P1.
        * rewrite Lf, Lx. intros n l En. rewrite (Q3 n l En). now rewrite P2, P1.
    - intros n Hn. unfold all_list in Lall. rewrite !app_length, !Nat2Z.inj_add in Lall. fold fpack_list in Lall.
      unfold fpack_list in *. rewrite !app_length, !Nat2Z.inj_add in *.
      rewrite R3 by lia. rewrite R2 by lia. rewrite R1 by lia. reflexivity.
  Qed.

  Lemma holds_list_l : forall b base l1 l2 src, holds_list b base (l1 ++ l2) src -> holds_list b base l1 src.
  Proof.
    intros b base l1 l2 src H n l E. apply H. rewrite nth_error_app1; [exact E|]. apply nth_error_Some. rewrite E. discriminate.
  Qed.
  Lemma holds_list_r : forall b base l1 l2 src, holds_list b base (l1 ++ l2) src ->
    holds_list b (base + Z.of_nat (length l1)) l2 src.
  Proof.
    intros b base l1 l2 src H n l E. rewrite <- Z.add_assoc, <- Nat2Z.inj_add. apply H.
    rewrite nth_error_app2 by lia. now replace (length l1 + n - length l1)%nat with n by lia.
  Qed.

  Lemma comm_unpack : forall src m b, holds_list b 0 all_list src -> exists m', remote_ghost_unpack o m b = Some m' /\
    (forall l, sent o l -> m' l = src l) /\ (forall l, ~ sent o l -> m' l = m l).
  Proof.
    intros src m b HB. unfold remote_ghost_unpack. rewrite elems_ok. cbn [bind].
    rewrite (comm_form 1 (mkPst m b) ltac:(lia)).
    pose proof len_q as Lq. pose proof len_a as La. pose proof len_x as Lx. pose proof len_r as Lr.
    assert (Lf : Z.of_nat (length fpack_list) = cells_sent o * (meqn d + b2z (packarea o))).
    { unfold fpack_list. rewrite app_length, Nat2Z.inj_add, Lq, La. lia. }
    unfold all_list in HB. fold fpack_list in HB.
    pose proof (holds_list_l _ _ _ _ _ HB) as HB1. pose proof (holds_list_r _ _ _ _ _ HB) as HB2.
    rewrite Z.add_0_l in HB2. pose proof (holds_list_l _ _ _ _ _ HB2) as HB3. pose proof (holds_list_r _ _ _ _ _ HB2) as HB4.
    destruct (fort_unpack src (mkPst m b) HB1) as (s1 & E1 & P1 & Q1 & R1). rewrite E1. cbn [bind].
    change (negb (0 =? 0)) with false. cbv iota. cbn [mem buf] in *.
    destruct (x_unpack (2 * b2z (packarea o) + 1) src s1) as (s2 & E2 & P2 & Q2 & R2).
    { destruct (packarea o); reflexivity. } { rewrite P1, <- Lf. exact HB3. }
    rewrite E2. cbn [bind].
    assert (G : exists s3, (if time_sync o then
         bind (pack_registers d elems (cells_sent o * (meqn d + b2z (packarea o)) + cells_sent o * packextra o) frsize (1 =? 0) s2) (fun '(s, ierror) =>
           if negb (ierror =? 0) then None else Some s)
       else Some s2) = Some s3 /\ unpacks src r_list s2 s3).
    { destruct (time_sync o) eqn:T.
      - destruct (regs_unpack T src s2) as (s3 & E3 & P3).
        { rewrite P2, P1. rewrite <- Lf, <- Lx. exact HB4. }
        exists s3. change (1 =? 0) with false. rewrite E3. cbn [bind].
        change (negb true) with false. split; [reflexivity|exact P3].
      - exists s2. split; [reflexivity|]. split; [reflexivity|]. split; [|reflexivity].
        unfold r_list. rewrite T. intros l []. }
    destruct G as (s3 & E3 & P3 & Q3 & R3). rewrite E3. cbn [bind]. exists (mem s3). split; [reflexivity|].
    assert (DEC : forall (l : loc) (ls : list loc), {In l ls} + {~ In l ls}).
    { intros l ls. apply in_dec. intros a c. destruct (loc_eqb_spec a c); [now left|now right]. }
    split.
    - intros l Hl. apply all_sent in Hl. unfold all_list in Hl. fold fpack_list in Hl. rewrite !in_app_iff in Hl.
      destruct (DEC l r_list) as [Hr|Hr]; [now apply Q3|]. rewrite (R3 l Hr).
      destruct (DEC l x_list) as [Hx|Hx]; [now apply Q2|]. rewrite (R2 l Hx). apply Q1. tauto.
    - intros l Hl. rewrite <- all_sent in Hl. unfold all_list in Hl. fold fpack_list in Hl. rewrite !in_app_iff in Hl.
      rewrite R3 by tauto. rewrite R2 by tauto. apply R1. tauto.
  Qed.
End Msg.
