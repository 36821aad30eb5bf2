(** Packing as a sequence of moves. *)
From Coq Require Import ZArith QArith List Lia Bool.
From Verif Require Import Model_Face Model_Grid Spec_Grid Model_Ghost Spec_Ghost Proof_Grid.
Import ListNotations.
Open Scope Z_scope.

Definition zseq (lo hi : Z) : list Z := map (fun n => lo + Z.of_nat n) (seq 0 (Z.to_nat (hi - lo + 1))).

Lemma in_zseq : forall lo hi k, In k (zseq lo hi) <-> lo <= k <= hi.
Proof.
  intros lo hi k. unfold zseq. rewrite in_map_iff. split.
  - intros (n & <- & H). apply in_seq in H. lia.
  - intros H. exists (Z.to_nat (k - lo)). split; [lia|]. apply in_seq. lia.
Qed.
Lemma len_zseq : forall lo hi, length (zseq lo hi) = Z.to_nat (hi - lo + 1).
Proof. intros. unfold zseq. now rewrite map_length, seq_length. Qed.

Section Run.
  Variable S : Type.
  Variable step : loc -> S -> option S.

  Fixpoint run (ls : list loc) (s : S) : option S :=
    match ls with [] => Some s | l :: ls => bind (step l s) (run ls) end.

  Lemma run_app : forall a b s, run (a ++ b) s = bind (run a s) (run b).
  Proof.
    induction a as [|x a IH]; intros b s; cbn [run app bind]; [reflexivity|].
    destruct (step x s) as [s1|]; cbn [bind]; [apply IH|reflexivity].
  Qed.

  Lemma run_loop : forall lo hi f (L : Z -> list loc), (forall k s, lo <= k <= hi -> f k s = run (L k) s) ->
    forall s, loop lo hi f s = run (flat_map L (zseq lo hi)) s.
  Proof.
    intros lo hi f L. unfold loop, zseq.
    assert (G : forall n a s, (forall k s, a <= k < a + Z.of_nat n -> f k s = run (L k) s) ->
      loop_n n a f s = run (flat_map L (map (fun m => a + Z.of_nat m) (seq 0 n))) s).
    { induction n as [|n IH]; intros a s H; cbn [loop_n seq map flat_map]; [reflexivity|].
      rewrite run_app. rewrite H by lia. rewrite Z.add_0_r.
      destruct (run (L a) s) as [s1|]; cbn [bind]; [|reflexivity].
      rewrite IH by (intros; apply H; lia). f_equal. f_equal. rewrite <- seq_shift, map_map.
      apply map_ext. intros m. lia. }
    intros H s. apply G. intros k s' Hk. apply H. lia.
  Qed.
End Run.
Arguments run {S} step ls s.

Lemma flat_map_len : forall (A B : Type) (f : A -> list B) l n, (forall x, In x l -> length (f x) = n) ->
  length (flat_map f l) = (length l * n)%nat.
Proof.
  intros A B f l n. induction l as [|x l IH]; intros H; cbn [flat_map length]; [reflexivity|].
  rewrite app_length, IH by (intros; apply H; now right). rewrite (H x) by now left. reflexivity.
Qed.

(** ** lists of locations *)
Section Lists.
  Variable d : dims.

  Definition rect (il ih jl jh : Z) (F : Z -> Z -> loc) : list loc :=
    flat_map (fun j => flat_map (fun i => [F i j]) (zseq il ih)) (zseq jl jh).
  Definition strip_list (w : Z) (F : Z -> Z -> loc) : list loc :=
    rect (1 - mbc d) w (1 - mbc d) (my d - w) F ++
    (rect (w + 1) (mx d + mbc d) (1 - mbc d) w F ++
    (rect (mx d - w + 1) (mx d + mbc d) (w + 1) (my d + mbc d) F ++
     rect (1 - mbc d) (mx d - w) (my d - w + 1) (my d + mbc d) F)).

  Lemma in_rect : forall il ih jl jh F l, In l (rect il ih jl jh F) <->
    exists i j, il <= i <= ih /\ jl <= j <= jh /\ l = F i j.
  Proof.
    intros. unfold rect. rewrite in_flat_map. split.
    - intros (j & Hj & H). apply in_flat_map in H. destruct H as (i & Hi & [<-|[]]).
      apply in_zseq in Hi, Hj. now exists i, j.
    - intros (i & j & Hi & Hj & ->). exists j. split; [now apply in_zseq|]. apply in_flat_map.
      exists i. split; [now apply in_zseq|now left].
  Qed.
  Lemma len_rect : forall il ih jl jh F, il <= ih + 1 -> jl <= jh + 1 ->
    Z.of_nat (length (rect il ih jl jh F)) = (ih - il + 1) * (jh - jl + 1).
  Proof.
    intros. unfold rect. rewrite (flat_map_len _ _ _ _ (Z.to_nat (ih - il + 1))).
    - rewrite len_zseq. nia.
    - intros j _. rewrite (flat_map_len _ _ _ _ 1%nat) by reflexivity. rewrite len_zseq. lia.
  Qed.

  Lemma in_strips : forall w F l, 0 <= mbc d -> 0 <= w -> 2 * w <= mx d -> 2 * w <= my d ->
    (In l (strip_list w F) <-> exists i j, near d w i j /\ l = F i j).
  Proof.
    intros w F l Hb Hw Hx Hy. unfold strip_list. rewrite !in_app_iff, !in_rect. unfold near. split.
    - intros [H|[H|[H|H]]]; destruct H as (i & j & Hi & Hj & ->); exists i, j; (split; [lia|reflexivity]).
    - intros (i & j & (Hi & Hj & H) & ->).
      destruct (Z_le_gt_dec i w); [destruct (Z_le_gt_dec j (my d - w))|].
      + left. exists i, j. split; [lia|]. split; [lia|reflexivity].
      + right; right; right. exists i, j. split; [lia|]. split; [lia|reflexivity].
      + destruct (Z_le_gt_dec j w).
        * right; left. exists i, j. split; [lia|]. split; [lia|reflexivity].
        * destruct (Z_le_gt_dec (mx d - w + 1) i).
          -- right; right; left. exists i, j. split; [lia|]. split; [lia|reflexivity].
          -- right; right; right. exists i, j. split; [lia|]. split; [lia|reflexivity].
  Qed.

  Lemma len_strips : forall w F, 0 <= mbc d -> 0 <= w -> 2 * w <= mx d -> 2 * w <= my d ->
    Z.of_nat (length (strip_list w F)) =
    (mx d + 2 * mbc d) * (my d + 2 * mbc d) - (mx d - 2 * w) * (my d - 2 * w).
  Proof.
    intros. unfold strip_list. rewrite !app_length, !Nat2Z.inj_add, !len_rect by lia. nia.
  Qed.

  Lemma run_strips : forall S (step : loc -> S -> option S) w F s,
    strips d w (fun i j => step (F i j)) s = run step (strip_list w F) s.
  Proof.
    intros S step w F s. unfold strips, strip_list, rect. rewrite !run_app.
    assert (R : forall il ih jl jh s, loop jl jh (fun j => loop il ih (fun i => step (F i j))) s =
      run step (flat_map (fun j => flat_map (fun i => [F i j]) (zseq il ih)) (zseq jl jh)) s).
    { intros. apply run_loop. intros j s' _. apply run_loop. intros i s'' _. cbn [run].
      now destruct (step (F i j) s''). }
    rewrite R. destruct (run step _ s) as [s1|]; cbn [bind]; [|reflexivity].
    rewrite !run_app. rewrite R. destruct (run step _ s1) as [s2|]; cbn [bind]; [|reflexivity].
    rewrite !run_app. rewrite R. destruct (run step _ s2) as [s3|]; cbn [bind]; [|reflexivity].
    now rewrite R.
  Qed.

  (** registers *)
  Definition reg_list : list loc :=
    flat_map (fun k =>
      (if k <? 2 then flat_map (fun j => [LFm k j; LFp k j; LEf k j; LEf k (j + meqn d * my d)]) (zseq 0 (meqn d * my d - 1))
       else flat_map (fun j => [LGm (k - 2) j; LGp (k - 2) j; LEf k j; LEf k (j + meqn d * mx d)]) (zseq 0 (meqn d * mx d - 1)))
      ++ flat_map (fun j => [LEl k j; LAr k j]) (zseq 0 ((if k <? 2 then my d else mx d) - 1))) (zseq 0 3).

  Lemma len_regs : 0 <= mx d -> 0 <= my d -> 0 <= meqn d ->
    Z.of_nat (length reg_list) = 2 * (4 * meqn d + 2) * (mx d + my d).
  Proof.
    intros Hx Hy Hm. unfold reg_list. change (zseq 0 3) with [0; 1; 2; 3]. cbn [flat_map].
    change (0 <? 2) with true. change (1 <? 2) with true. change (2 <? 2) with false. change (3 <? 2) with false.
    cbv iota. rewrite app_nil_r, !app_length.
    rewrite !(flat_map_len _ _ (fun j => [LEl _ j; LAr _ j]) _ 2) by reflexivity.
    rewrite !(flat_map_len _ _ (fun j => [LFm _ j; LFp _ j; LEf _ j; LEf _ _]) _ 4) by reflexivity.
    rewrite !(flat_map_len _ _ (fun j => [LGm _ j; LGp _ j; LEf _ j; LEf _ _]) _ 4) by reflexivity.
    rewrite !len_zseq. nia.
  Qed.

  Lemma in_regs : forall l, 0 <= mx d -> 0 <= my d -> 0 <= meqn d ->
    (In l reg_list <-> match l with
       | LFm k j | LFp k j => 0 <= k < 2 /\ 0 <= j < my d * meqn d
       | LGm k j | LGp k j => 0 <= k < 2 /\ 0 <= j < mx d * meqn d
       | LEf k j => 0 <= k < 4 /\ 0 <= j < 2 * (if k <? 2 then my d else mx d) * meqn d
       | LEl k j | LAr k j => 0 <= k < 4 /\ 0 <= j < (if k <? 2 then my d else mx d)
       | _ => False end).
  Proof.
    intros l Hx Hy Hm. unfold reg_list. rewrite in_flat_map. split.
    - intros (k & Hk & H). apply in_zseq in Hk. apply in_app_iff in H. destruct H as [H|H].
      + destruct (Z.ltb_spec k 2); apply in_flat_map in H; destruct H as (j & Hj & H); apply in_zseq in Hj;
          cbn [In] in H; destruct H as [<-|[<-|[<-|[<-|[]]]]]; try lia; (split; [lia|]);
          destruct (Z.ltb_spec k 2); lia.
      + apply in_flat_map in H; destruct H as (j & Hj & H); apply in_zseq in Hj;
          cbn [In] in H; destruct H as [<-|[<-|[]]]; lia.
    - assert (E : forall k j, 0 <= k < 4 -> 0 <= j < 2 * (if k <? 2 then my d else mx d) * meqn d ->
        exists x, In x (zseq 0 3) /\ In (LEf k j) ((if x <? 2 then flat_map (fun j => [LFm x j; LFp x j; LEf x j; LEf x (j + meqn d * my d)]) (zseq 0 (meqn d * my d - 1))
       else flat_map (fun j => [LGm (x - 2) j; LGp (x - 2) j; LEf x j; LEf x (j + meqn d * mx d)]) (zseq 0 (meqn d * mx d - 1)))
      ++ flat_map (fun j => [LEl x j; LAr x j]) (zseq 0 ((if x <? 2 then my d else mx d) - 1)))).
      { intros k j Hk Hj. exists k. split; [apply in_zseq; lia|]. apply in_app_iff. left.
        destruct (Z.ltb_spec k 2).
        - destruct (Z_lt_ge_dec j (meqn d * my d)).
          + apply in_flat_map. exists j. split; [apply in_zseq; lia|]. cbn [In]. tauto.
          + apply in_flat_map. exists (j - meqn d * my d). split; [apply in_zseq; nia|]. cbn [In].
            rewrite Z.sub_add. tauto.
        - destruct (Z_lt_ge_dec j (meqn d * mx d)).
          + apply in_flat_map. exists j. split; [apply in_zseq; lia|]. cbn [In]. tauto.
          + apply in_flat_map. exists (j - meqn d * mx d). split; [apply in_zseq; nia|]. cbn [In].
            rewrite Z.sub_add. tauto. }
      intros H. destruct l as [c|i j|k j|k j|k j|k j|k j|k j|k j|n]; try contradiction; try (apply E; tauto).
      + exists k. split; [apply in_zseq; lia|]. apply in_app_iff. left. rewrite (proj2 (Z.ltb_lt k 2)) by lia.
        apply in_flat_map. exists j. split; [apply in_zseq; lia|]. cbn [In]. tauto.
      + exists k. split; [apply in_zseq; lia|]. apply in_app_iff. left. rewrite (proj2 (Z.ltb_lt k 2)) by lia.
        apply in_flat_map. exists j. split; [apply in_zseq; lia|]. cbn [In]. tauto.
      + exists (k + 2). split; [apply in_zseq; lia|]. apply in_app_iff. left. rewrite (proj2 (Z.ltb_ge (k + 2) 2)) by lia.
        apply in_flat_map. exists j. split; [apply in_zseq; lia|]. rewrite Z.add_simpl_r. cbn [In]. tauto.
      + exists (k + 2). split; [apply in_zseq; lia|]. apply in_app_iff. left. rewrite (proj2 (Z.ltb_ge (k + 2) 2)) by lia.
        apply in_flat_map. exists j. split; [apply in_zseq; lia|]. rewrite Z.add_simpl_r. cbn [In]. tauto.
      + exists k. split; [apply in_zseq; lia|]. apply in_app_iff. right.
        apply in_flat_map. exists j. split; [apply in_zseq; lia|]. cbn [In]. tauto.
      + exists k. split; [apply in_zseq; lia|]. apply in_app_iff. right.
        apply in_flat_map. exists j. split; [apply in_zseq; lia|]. cbn [In]. tauto.
  Qed.
End Lists.

(** ** moves *)
Lemma loc_eqb_spec : forall a b, reflect (a = b) (loc_eqb a b).
Proof.
  intros a b. destruct a, b; cbn [loc_eqb]; try (constructor; discriminate).
  - destruct (cell_eqb_spec c c0); constructor; congruence.
  - destruct (Z.eqb_spec i i0), (Z.eqb_spec j j0); cbn [andb]; constructor; congruence.
  - destruct (Z.eqb_spec k k0), (Z.eqb_spec j j0); cbn [andb]; constructor; congruence.
  - destruct (Z.eqb_spec k k0), (Z.eqb_spec j j0); cbn [andb]; constructor; congruence.
  - destruct (Z.eqb_spec k k0), (Z.eqb_spec i i0); cbn [andb]; constructor; congruence.
  - destruct (Z.eqb_spec k k0), (Z.eqb_spec i i0); cbn [andb]; constructor; congruence.
  - destruct (Z.eqb_spec k k0), (Z.eqb_spec j j0); cbn [andb]; constructor; congruence.
  - destruct (Z.eqb_spec k k0), (Z.eqb_spec j j0); cbn [andb]; constructor; congruence.
  - destruct (Z.eqb_spec k k0), (Z.eqb_spec j j0); cbn [andb]; constructor; congruence.
  - destruct (Z.eqb_spec n n0); constructor; congruence.
Qed.

Lemma in_range_iff : forall n k, in_range n k = true <-> 0 <= k < n.
Proof. intros. unfold in_range. rewrite andb_true_iff, Z.leb_le, Z.ltb_lt. lia. Qed.

Section Moves.
  Variable d : dims.
  Variable cap : Z.

  (** the message part from [base] holds the values of [src] for the listed locations *)
  Definition holds_list (b : buffer) (base : Z) (ls : list loc) (src : memory) : Prop :=
    forall n l, nth_error ls n = Some l -> b (base + Z.of_nat n) = src l.

  Lemma run_pack : forall (step : loc -> pst * Z -> option (pst * Z)) base ls s k,
    (forall l s k', In l ls -> k <= k' < k + Z.of_nat (length ls) ->
       step l (s, k') = bind (move d cap true l (base + k') s) (fun s => Some (s, k' + 1))) ->
    (forall l, In l ls -> in_loc d l = true) -> 0 <= base + k -> base + k + Z.of_nat (length ls) <= cap ->
    exists b, run step ls (s, k) = Some (mkPst (mem s) b, k + Z.of_nat (length ls)) /\
      holds_list b (base + k) ls (mem s) /\
      forall n, ~ (base + k <= n < base + k + Z.of_nat (length ls)) -> b n = buf s n.
  Proof.
    intros step base ls. induction ls as [|l ls IH]; intros s k Hs Hl H0 H1.
    - exists (buf s). cbn [run length]. split; [destruct s; f_equal; f_equal; lia|]. split; [|reflexivity].
      intros [|n] l H; discriminate H.
    - cbn [run length] in *. rewrite Hs; [|now left|lia]. unfold move.
      rewrite (Hl l) by now left. rewrite (proj2 (in_range_iff cap (base + k))) by lia. cbn [andb bind].
      destruct (IH (mkPst (mem s) (fun n => if n =? base + k then mem s l else buf s n)) (k + 1)) as (b & E & A & B).
      + intros l' s' k' Hin Hk. apply Hs; [now right|lia].
      + intros l' Hin. apply Hl. now right.
      + lia.
      + lia.
      + exists b. cbn [mem buf] in *. rewrite E. split; [f_equal; f_equal; lia|]. split.
        * intros [|n] l' H; cbn [nth_error] in H.
          -- rewrite Z.add_0_r. rewrite B by lia. rewrite Z.eqb_refl. congruence.
          -- replace (base + k + Z.of_nat (S n)) with (base + (k + 1) + Z.of_nat n) by lia. now apply A.
        * intros n Hn. rewrite B by lia. destruct (Z.eqb_spec n (base + k)); [lia|reflexivity].
  Qed.

  Lemma run_unpack : forall (step : loc -> pst * Z -> option (pst * Z)) base src ls s k,
    (forall l s k', In l ls -> k <= k' < k + Z.of_nat (length ls) ->
       step l (s, k') = bind (move d cap false l (base + k') s) (fun s => Some (s, k' + 1))) ->
    (forall l, In l ls -> in_loc d l = true) -> 0 <= base + k -> base + k + Z.of_nat (length ls) <= cap ->
    holds_list (buf s) (base + k) ls src ->
    exists m, run step ls (s, k) = Some (mkPst m (buf s), k + Z.of_nat (length ls)) /\
      (forall l, In l ls -> m l = src l) /\ (forall l, ~ In l ls -> m l = mem s l) /\
      (forall l, m l = src l \/ m l = mem s l).
  Proof.
    intros step base src ls. induction ls as [|l ls IH]; intros s k Hs Hl H0 H1 HB.
    - exists (mem s). cbn [run length]. split; [destruct s; f_equal; f_equal; lia|].
      split; [intros l []|]. split; [reflexivity|]. now right.
    - cbn [run length] in *. rewrite Hs; [|now left|lia]. unfold move.
      rewrite (Hl l) by now left. rewrite (proj2 (in_range_iff cap (base + k))) by lia. cbn [andb bind].
      destruct (IH (mkPst (fun l' => if loc_eqb l' l then buf s (base + k) else mem s l') (buf s)) (k + 1)) as (m & E & A & B & C).
      + intros l' s' k' Hin Hk. apply Hs; [now right|lia].
      + intros l' Hin. apply Hl. now right.
      + lia.
      + lia.
      + intros n l' H. cbn [buf]. replace (base + (k + 1) + Z.of_nat n) with (base + k + Z.of_nat (S n)) by lia.
        now apply HB.
      + exists m. cbn [mem buf] in *. rewrite E.
        assert (V : buf s (base + k) = src l). { rewrite <- (HB 0%nat l eq_refl). f_equal. lia. }
        split; [f_equal; f_equal; lia|]. split; [|split].
        * intros l' [<-|Hin]; [|now apply A]. destruct (C l) as [Hv|Hv]; [exact Hv|]. rewrite Hv.
          destruct (loc_eqb_spec l l); [exact V|congruence].
        * intros l' Hn. rewrite B by (intros Hin; apply Hn; now right).
          destruct (loc_eqb_spec l' l) as [->|]; [|reflexivity]. exfalso. apply Hn. now left.
        * intros l'. destruct (C l') as [Hv|Hv]; [now left|]. rewrite Hv.
          destruct (loc_eqb_spec l' l) as [Heq|]; [left; rewrite Heq; exact V|now right].
  Qed.

  Lemma holds_list_app : forall b base l1 l2 src, holds_list b base l1 src ->
    holds_list b (base + Z.of_nat (length l1)) l2 src -> holds_list b base (l1 ++ l2) src.
  Proof.
    intros b base l1 l2 src H1 H2 n l E. destruct (Nat.lt_ge_cases n (length l1)) as [Hn|Hn].
    - rewrite nth_error_app1 in E by exact Hn. now apply H1.
    - rewrite nth_error_app2 in E by exact Hn. rewrite <- (H2 _ _ E). f_equal. lia.
  Qed.
End Moves.
