From Coq Require Import ZArith QArith List Lia Bool Permutation Lqa.
From Verif Require Import Model_Util Spec_Util.
Import ListNotations.
Local Open Scope Z_scope.

Section PMap.
  Variable K P D : Type.
  Variable K_dec : forall a b : K, {a = b} + {a <> b}.
  Notation run := (pm_run K P D K_dec).
  Notation op := (pm_op K P D).
  Notation last := (last_inserted K P D K_dec).

  Lemma kv_get_overwrite : forall l k v k', kv_get K P D K_dec l k <> None ->
    kv_get K P D K_dec (kv_overwrite K P D K_dec l k v) k' =
    if K_dec k k' then Some v else kv_get K P D K_dec l k'.
  Proof.
    induction l as [|[k0 v0] tl IH]; intros k v k' H; cbn [kv_get kv_overwrite] in *; [congruence|].
    destruct (K_dec k0 k) as [->|Hne]; cbn [kv_get].
    - destruct (K_dec k k'); reflexivity.
    - destruct (K_dec k0 k') as [->|Hne'].
      + destruct (K_dec k k'); [congruence|reflexivity].
      + now apply IH.
  Qed.

  Lemma kv_get_app : forall l k v k', kv_get K P D K_dec l k = None ->
    kv_get K P D K_dec (l ++ [(k, v)]) k' =
    if K_dec k k' then Some v else kv_get K P D K_dec l k'.
  Proof.
    induction l as [|[k0 v0] tl IH]; intros k v k' H; cbn [kv_get app] in *.
    - destruct (K_dec k k'); reflexivity.
    - destruct (K_dec k0 k) as [->|Hne]; [discriminate|].
      destruct (K_dec k0 k') as [->|Hne'].
      + destruct (K_dec k k'); [congruence|reflexivity].
      + now apply IH.
  Qed.

  Lemma overwrite_keys : forall l k v, map fst (kv_overwrite K P D K_dec l k v) = map fst l.
  Proof.
    induction l as [|[k0 v0] tl IH]; intros k v; cbn [kv_overwrite map fst]; [reflexivity|].
    destruct (K_dec k0 k); cbn [map fst]; [reflexivity|now rewrite IH].
  Qed.

  Lemma get_none : forall l k, kv_get K P D K_dec l k = None <-> ~ In k (map fst l).
  Proof.
    induction l as [|[k0 v0] tl IH]; intros k; cbn [kv_get map fst In]; [tauto|].
    destruct (K_dec k0 k) as [->|Hne]; [split; [discriminate|tauto]|]. rewrite IH. tauto.
  Qed.

  Lemma run_snoc : forall h o, run (h ++ [o]) = pm_step K P D K_dec (run h) o.
  Proof. intros. unfold pm_run. now rewrite fold_left_app. Qed.

  Lemma last_snoc : forall h o k, last (h ++ [o]) k =
    match o with
    | Insert _ _ _ k' p d => if K_dec k' k then Some (p, d) else last h k
    | Get _ _ _ _ => last h k
    end.
  Proof. intros. unfold last_inserted. rewrite rev_unit. destruct o; reflexivity. Qed.

  Lemma table_ok : forall h, NoDup (map fst (pm_tab K P D (run h))) /\
    forall k, kv_get K P D K_dec (pm_tab K P D (run h)) k = last h k.
  Proof.
    induction h as [|o h [IH1 IH2]] using rev_ind.
    - split; [constructor|reflexivity].
    - rewrite run_snoc. destruct o as [k p d|k]; cbn [pm_step].
      + unfold pm_insert. destruct (kv_get K P D K_dec (pm_tab K P D (run h)) k) as [old|] eqn:E.
        * cbn [pm_tab]. rewrite overwrite_keys. split; [exact IH1|].
          intros k'. rewrite last_snoc, kv_get_overwrite by congruence. now rewrite IH2.
        * cbn [pm_tab]. split.
          -- rewrite map_app. cbn [map fst].
             apply (NoDup_Add (a := k) (l := map fst (pm_tab K P D (run h)))).
             ++ rewrite <- (app_nil_r (map fst (pm_tab K P D (run h)))) at 1. apply Add_app.
             ++ split; [exact IH1|]. now apply get_none.
          -- intros k'. rewrite last_snoc, kv_get_app by assumption. now rewrite IH2.
      + split; [exact IH1|]. intros k'. now rewrite last_snoc.
  Qed.

  Lemma get_ok : forall h k, pm_get K P D K_dec (run h) k = option_map fst (last h k).
  Proof.
    intros h k. unfold pm_get. rewrite (proj2 (table_ok h)). destruct (last h k); reflexivity.
  Qed.

  Lemma insert_log : forall h k p d,
    pm_log K P D (run (h ++ [Insert K P D k p d])) =
    pm_log K P D (run h) ++
    match last h k with Some (p', Some d') => [(d', p')] | _ => [] end.
  Proof.
    intros h k p d. rewrite run_snoc. cbn [pm_step]. unfold pm_insert.
    rewrite (proj2 (table_ok h)). destruct (last h k) as [[p' [d'|]]|]; cbn [pm_log call_destroy];
      rewrite ?app_nil_r; reflexivity.
  Qed.

  Lemma get_log : forall h k, pm_log K P D (run (h ++ [Get K P D k])) = pm_log K P D (run h).
  Proof. intros. now rewrite run_snoc. Qed.

  Notation live l := (flat_map (fun e => call_destroy P D (snd e)) l).

  Lemma live_overwrite : forall (l : list (K * value P D)) k v old, kv_get K P D K_dec l k = Some old ->
    Permutation (call_destroy P D old ++ live (kv_overwrite K P D K_dec l k v))
                (call_destroy P D v ++ live l).
  Proof.
    induction l as [|[k0 v0] tl IH]; intros k v old H; cbn [kv_get kv_overwrite] in *; [discriminate|].
    destruct (K_dec k0 k) as [->|Hne].
    - injection H as ->. cbn [flat_map snd]. rewrite !app_assoc.
      apply Permutation_app_tail. apply Permutation_app_comm.
    - cbn [flat_map snd]. specialize (IH k v old H).
      rewrite Permutation_app_swap_app, IH. apply Permutation_app_swap_app.
  Qed.

  Lemma log_live : forall h,
    Permutation (pm_log K P D (run h) ++ live (pm_tab K P D (run h))) (to_destroy K P D h).
  Proof.
    induction h as [|o h IH] using rev_ind; [constructor|].
    unfold to_destroy. rewrite flat_map_app. fold (to_destroy K P D h). cbn [flat_map].
    rewrite run_snoc. destruct o as [k p d|k]; cbn [pm_step].
    - rewrite app_nil_r.
      change (match d with Some d0 => [(d0, p)] | None => [] end) with (call_destroy P D (p, d)).
      unfold pm_insert. destruct (kv_get K P D K_dec (pm_tab K P D (run h)) k) as [old|] eqn:E;
        cbn [pm_log pm_tab].
      + rewrite <- app_assoc, (live_overwrite _ _ (p, d) _ E).
        rewrite Permutation_app_swap_app, IH. apply Permutation_app_comm.
      + rewrite flat_map_app. cbn [flat_map snd]. rewrite app_nil_r, app_assoc, IH. reflexivity.
    - rewrite app_nil_r. exact IH.
  Qed.

  Lemma perm_flat_map : forall {A B} (f : A -> list B) l l', Permutation l l' ->
    Permutation (flat_map f l) (flat_map f l').
  Proof.
    intros A B f l l' H. induction H; cbn [flat_map].
    - constructor.
    - now apply Permutation_app_head.
    - apply Permutation_app_swap_app.
    - etransitivity; eassumption.
  Qed.

  Lemma destroy_ok : forall h order, (forall l, Permutation (order l) l) ->
    Permutation (pm_destroy K P D order (run h)) (to_destroy K P D h).
  Proof.
    intros h order Ho. unfold pm_destroy.
    rewrite (perm_flat_map _ _ _ (Ho (pm_tab K P D (run h)))). apply log_live.
  Qed.

  Lemma last_some_inserted : forall h k v, last h k = Some v -> inserted K P D h k.
  Proof.
    induction h as [|o h IH] using rev_ind; intros k v; [discriminate|].
    rewrite last_snoc. destruct o as [k' p d|k'].
    - destruct (K_dec k' k) as [->|Hne].
      + intros _. exists p, d. apply in_app_iff. right. now left.
      + intros H. destruct (IH k v H) as (p' & d' & Hin). exists p', d'. apply in_app_iff. now left.
    - intros H. destruct (IH k v H) as (p' & d' & Hin). exists p', d'. apply in_app_iff. now left.
  Qed.

  Lemma inserted_last : forall h k, inserted K P D h k -> last h k <> None.
  Proof.
    induction h as [|o h IH] using rev_ind; intros k (p & d & Hin); [destruct Hin|].
    rewrite last_snoc. apply in_app_iff in Hin. destruct Hin as [Hin|[->|[]]].
    - specialize (IH k (ex_intro _ p (ex_intro _ d Hin))).
      destruct o as [k' p' d'|k']; [|exact IH]. destruct (K_dec k' k); [discriminate|exact IH].
    - destruct (K_dec k k); [discriminate|contradiction].
  Qed.

  Lemma in_get : forall (l : list (K * value P D)) k v, NoDup (map fst l) ->
    (In (k, v) l <-> kv_get K P D K_dec l k = Some v).
  Proof.
    induction l as [|[k0 v0] tl IH]; intros k v Hnd; cbn [kv_get In]; [split; [tauto|discriminate]|].
    cbn [map fst] in Hnd. apply NoDup_cons_iff in Hnd. destruct Hnd as [Hn Hnd].
    destruct (K_dec k0 k) as [->|Hne].
    - split.
      + intros [E|Hin]; [congruence|]. exfalso. apply Hn. apply in_map_iff. now exists (k, v).
      + intros E. left. congruence.
    - rewrite <- IH by assumption. split; [intros [E|Hin]; [congruence|assumption]|now right].
  Qed.

  Lemma iterate_ok : forall h order, (forall l, Permutation (order l) l) ->
    NoDup (map fst (pm_iterate K P D order (run h))) /\
    (forall k p, In (k, p) (pm_iterate K P D order (run h)) <-> option_map fst (last h k) = Some p) /\
    pm_size K P D order (run h) = Z.of_nat (length (pm_iterate K P D order (run h))).
  Proof.
    intros h order Ho. destruct (table_ok h) as [Hnd Hget].
    set (tab := pm_tab K P D (run h)) in *. unfold pm_iterate, pm_size. fold tab.
    split; [|split].
    - rewrite map_map. cbn [fst]. apply (Permutation_NoDup (l := map fst tab)); [|exact Hnd].
      apply Permutation_map. symmetry. apply Ho.
    - intros k p. rewrite in_map_iff. split.
      + intros ([k' [p' d']] & E & Hin). cbn [fst snd] in E. injection E as -> ->.
        apply (Permutation_in _ (Ho tab)) in Hin.
        apply in_get in Hin; [|exact Hnd]. rewrite <- Hget, Hin. reflexivity.
      + intros E. destruct (last h k) as [[p' d']|] eqn:El; [|discriminate].
        cbn [option_map fst] in E. injection E as ->.
        exists (k, (p, d')). split; [reflexivity|].
        apply (Permutation_in _ (Permutation_sym (Ho tab))). apply in_get; [exact Hnd|].
        now rewrite Hget.
    - rewrite map_length. generalize (order tab). intros l.
      assert (G : forall s, fold_left (fun (s : Z) (_ : K * value P D) => s + 1) l s = s + Z.of_nat (length l)).
      { induction l; intros s; cbn [fold_left length]; [lia|]. rewrite IHl. lia. }
      apply G.
  Qed.
End PMap.

(* ------------------------------------------------------------ timers *)

Lemma alternates_snoc : forall l b c, alternates b (l ++ [c]) =
  alternates b l && Bool.eqb c (if Nat.even (length l) then b else negb b).
Proof.
  induction l as [|x tl IH]; intros b c; cbn [app alternates length].
  - cbn. now rewrite andb_true_r.
  - rewrite IH, Nat.even_succ, <- Nat.negb_even. rewrite <- andb_assoc. do 2 f_equal.
    destruct (Nat.even (length tl)), b; reflexivity.
Qed.

Definition matches (t : timer) (open : option Q) : Prop :=
  match open with
  | Some s => running t = true /\ started t = s
  | None => running t = false
  end.

Lemma timer_run_ok : forall l ts open,
  (forall i, matches (ts i) (open i)) ->
  match timer_run ts l with
  | Some ts' => forall i,
      alternates (match open i with None => true | _ => false end) (calls i l) = true /\
      (cumulative (ts' i) == cumulative (ts i) + total_length (intervals i (open i) l))%Q
  | None => exists i,
      alternates (match open i with None => true | _ => false end) (calls i l) = false
  end.
Proof.
  induction l as [|o tl IH]; intros ts open HM; cbn [timer_run].
  - intros i. split; [reflexivity|]. cbn. lra.
  - destruct o as [j now|j now]; cbn [timer_step].
    + unfold timer_start. pose proof (HM j) as Hj.
      destruct (running (ts j)) eqn:R; cbn [negb].
      * exists j. cbn [calls]. rewrite Nat.eqb_refl. cbn [alternates].
        destruct (open j); [reflexivity|]. cbn in Hj. congruence.
      * assert (Ho : open j = None) by (destruct (open j); [destruct Hj; congruence|reflexivity]).
        set (ts' := set_timer ts j _).
        specialize (IH ts' (fun i => if Nat.eqb i j then Some now else open i)).
        assert (HM' : forall i, matches (ts' i) (if Nat.eqb i j then Some now else open i)).
        { intros i. unfold ts', set_timer. destruct (Nat.eqb_spec i j); [split; reflexivity|apply HM]. }
        specialize (IH HM').
        destruct (timer_run ts' tl) as [ts2|].
        -- intros i. destruct (IH i) as [A B]. cbn [calls intervals]. revert A B.
           rewrite (Nat.eqb_sym j i). destruct (Nat.eqb_spec i j) as [E|Hne]; intros A B.
           ++ subst i. rewrite Ho. cbn [alternates Bool.eqb andb negb]. split; [exact A|].
              rewrite B. unfold ts', set_timer. rewrite Nat.eqb_refl. reflexivity.
           ++ split; [exact A|]. rewrite B. unfold ts', set_timer.
              destruct (Nat.eqb_spec i j); [contradiction|]. reflexivity.
        -- destruct IH as [i A]. exists i. cbn [calls]. rewrite (Nat.eqb_sym j i). revert A.
           destruct (Nat.eqb_spec i j) as [E|Hne]; intros A; [subst i|exact A].
           rewrite Ho. exact A.
    + unfold timer_stop. pose proof (HM j) as Hj.
      destruct (running (ts j)) eqn:R.
      * assert (Ho : open j = Some (started (ts j))) by (destruct (open j); [destruct Hj; congruence|cbn in Hj; congruence]).
        set (ts' := set_timer ts j _).
        specialize (IH ts' (fun i => if Nat.eqb i j then None else open i)).
        assert (HM' : forall i, matches (ts' i) (if Nat.eqb i j then None else open i)).
        { intros i. unfold ts', set_timer. destruct (Nat.eqb_spec i j); [reflexivity|apply HM]. }
        specialize (IH HM').
        destruct (timer_run ts' tl) as [ts2|].
        -- intros i. destruct (IH i) as [A B]. cbn [calls intervals]. revert A B.
           rewrite (Nat.eqb_sym j i). destruct (Nat.eqb_spec i j) as [E|Hne]; intros A B.
           ++ subst i. rewrite Ho. cbn [alternates Bool.eqb andb negb]. split; [exact A|].
              rewrite B. unfold ts', set_timer. rewrite Nat.eqb_refl. cbn [cumulative].
              cbn [total_length fold_right fst snd].
              change (fold_right _ 0%Q (intervals j None tl)) with (total_length (intervals j None tl)).
              ring.
           ++ split; [exact A|]. rewrite B. unfold ts', set_timer.
              destruct (Nat.eqb_spec i j); [contradiction|]. reflexivity.
        -- destruct IH as [i A]. exists i. cbn [calls]. rewrite (Nat.eqb_sym j i). revert A.
           destruct (Nat.eqb_spec i j) as [E|Hne]; intros A; [subst i|exact A].
           rewrite Ho. exact A.
      * exists j. cbn [calls]. rewrite Nat.eqb_refl. cbn [alternates].
        destruct (open j); [destruct Hj; congruence|reflexivity].
Qed.

(* ------------------------------------------------------------ pow_int *)

Lemma in_int_iff : forall v, in_int v = true <-> representable v.
Proof. intros. unfold in_int, representable. rewrite andb_true_iff, Z.leb_le, Z.ltb_lt. tauto. Qed.

Lemma shiftr1 : forall e, Z.shiftr e 1 = e / 2.
Proof. intros. now rewrite Z.shiftr_div_pow2 by lia. Qed.


Lemma half_cases : forall e, 0 < e ->
  e = 2 * (e / 2) + (if Z.odd e then 1 else 0) /\ 0 <= e / 2 < e.
Proof.
  intros e He. pose proof (Z.div_mod e 2). rewrite Zmod_odd in *.
  pose proof (Z.div_pos e 2). pose proof (Z.div_lt e 2). lia.
Qed.

Lemma pow_step : forall b e, 0 < e ->
  b ^ e = (if Z.odd e then b else 1) * (b * b) ^ (e / 2).
Proof.
  intros b e He. destruct (half_cases e He) as [E Hp].
  rewrite <- Z.pow_2_r, <- Z.pow_mul_r by lia. rewrite E at 1.
  rewrite Z.pow_add_r by (destruct (Z.odd e); lia). destruct (Z.odd e).
  - rewrite Z.pow_1_r. ring.
  - rewrite Z.pow_0_r. ring.
Qed.

Definition bits (e : Z) : Z := 1 + Z.log2 e.

Lemma log2_half : forall e, 1 < e -> Z.log2 e = 1 + Z.log2 (e / 2).
Proof.
  intros e He. destruct (half_cases e) as [E Hp]; [lia|].
  assert (0 < e / 2) by (apply Z.div_str_pos; lia).
  rewrite E at 1. destruct (Z.odd e).
  - rewrite Z.log2_succ_double by lia. lia.
  - rewrite Z.add_0_r, Z.log2_double by lia. lia.
Qed.

Lemma pow_squares : forall b e, 1 < e -> b ^ (2 ^ bits e) = (b * b) ^ (2 ^ bits (e / 2)).
Proof.
  intros b e He. unfold bits. rewrite (log2_half e He).
  pose proof (Z.log2_nonneg (e / 2)).
  rewrite <- Z.pow_2_r, <- Z.pow_mul_r; [|lia|apply Z.pow_nonneg; lia].
  f_equal. rewrite (Z.pow_add_r 2 1) by lia. reflexivity.
Qed.

Lemma half_one : forall e, 0 < e -> e / 2 = 0 -> e = 1.
Proof. intros e He E. destruct (half_cases e He) as [H _]. rewrite E in H. destruct (Z.odd e); lia. Qed.

Lemma pow_loop_sound : forall fuel r b e x, 0 <= e ->
  pow_loop fuel r b e = Some x ->
  x = r * b ^ e /\ (0 < e -> representable (b ^ (2 ^ bits e))).
Proof.
  induction fuel as [|fuel IH]; intros r b e x He; cbn [pow_loop].
  - destruct (Z.eqb_spec e 0) as [->|Hne]; [|discriminate].
    intros H. assert (x = r) by congruence. split; [rewrite Z.pow_0_r; lia|lia].
  - destruct (Z.eqb_spec e 0) as [->|Hne].
    + intros H. assert (x = r) by congruence. split; [rewrite Z.pow_0_r; lia|lia].
    + assert (Hp : 0 < e) by lia. destruct (half_cases e Hp) as [E Hh].
      destruct (if Z.odd e then int_mul r b else Some r) as [r'|] eqn:Er; [|discriminate].
      assert (Er' : r' = r * (if Z.odd e then b else 1)).
      { destruct (Z.odd e); [|injection Er as <-; lia].
        unfold int_mul in Er. destruct (in_int (r * b)); [congruence|discriminate]. }
      unfold int_mul at 1. destruct (in_int (b * b)) eqn:Ebb; [|discriminate].
      rewrite shiftr1. intros H. destruct (IH _ _ _ _ (proj1 Hh) H) as [Hx Hrep]. split.
      * rewrite Hx, Er', (pow_step b e Hp). ring.
      * intros _. destruct (Z.eq_dec (e / 2) 0) as [E0|E0].
        -- assert (e = 1) by now apply half_one. subst e. unfold bits. cbn [Z.log2].
           change (2 ^ (1 + 0)) with 2. rewrite Z.pow_2_r. now apply in_int_iff.
        -- rewrite pow_squares by (destruct (Z.odd e); lia). apply Hrep. lia.
Qed.

Lemma pow_loop_complete : forall fuel r b e m, 0 <= e < 2 ^ Z.of_nat fuel ->
  1 <= m -> Z.abs b <= m -> Z.abs r * m ^ e < 2 ^ 31 ->
  (0 < e -> m ^ (2 ^ bits e) < 2 ^ 31) ->
  pow_loop fuel r b e <> None.
Proof.
  induction fuel as [|fuel IH]; intros r b e m He Hm Hb Hr Hs; cbn [pow_loop].
  - destruct (Z.eqb_spec e 0) as [->|Hne]; [discriminate|]. cbn in He. lia.
  - destruct (Z.eqb_spec e 0) as [->|Hne]; [discriminate|].
    assert (Hp : 0 < e) by lia. destruct (half_cases e Hp) as [E Hh].
    assert (Hmm : 1 <= m * m) by nia.
    assert (Hbb : Z.abs (b * b) <= m * m) by (rewrite Z.abs_mul; nia).
    assert (Hpow : 1 <= (m * m) ^ (e / 2)).
    { pose proof (Z.pow_pos_nonneg (m * m) (e / 2)). lia. }
    rewrite (pow_step m e Hp) in Hr.
    assert (Hr' : exists r', (if Z.odd e then int_mul r b else Some r) = Some r' /\
                   Z.abs r' * (m * m) ^ (e / 2) < 2 ^ 31).
    { destruct (Z.odd e).
      - assert (Hle : Z.abs (r * b) * (m * m) ^ (e / 2) <= Z.abs r * (m * (m * m) ^ (e / 2))).
        { rewrite Z.abs_mul, <- Z.mul_assoc. apply Z.mul_le_mono_nonneg_l; [lia|].
          apply Z.mul_le_mono_nonneg_r; lia. }
        assert (Hlt : Z.abs (r * b) < 2 ^ 31).
        { eapply Z.le_lt_trans; [|exact (Z.le_lt_trans _ _ _ Hle Hr)].
          rewrite <- (Z.mul_1_r (Z.abs (r * b))) at 1. apply Z.mul_le_mono_nonneg_l; lia. }
        exists (r * b). unfold int_mul.
        replace (in_int (r * b)) with true; [split; [reflexivity|lia]|].
        symmetry. apply in_int_iff. unfold representable. lia.
      - exists r. split; [reflexivity|]. rewrite Z.mul_1_l in Hr. exact Hr. }
    destruct Hr' as (r' & -> & Hr').
    assert (Hsq : m * m < 2 ^ 31).
    { specialize (Hs Hp). eapply Z.le_lt_trans; [|exact Hs].
      rewrite <- Z.pow_2_r. apply Z.pow_le_mono_r; [lia|].
      unfold bits. pose proof (Z.log2_nonneg e). rewrite Z.pow_add_r by lia.
      pose proof (Z.pow_pos_nonneg 2 (Z.log2 e)). lia. }
    unfold int_mul at 1. replace (in_int (b * b)) with true.
    + rewrite shiftr1. apply IH with (m := m * m); [|exact Hmm|exact Hbb|exact Hr'|].
      * split; [lia|]. rewrite Nat2Z.inj_succ, Z.pow_succ_r in He by lia.
        apply Z.div_lt_upper_bound; lia.
      * intros H2. rewrite <- pow_squares by (destruct (Z.odd e); lia). now apply Hs.
    + symmetry. apply in_int_iff. unfold representable. lia.
Qed.

Lemma pow_int_exact : forall b e, 0 < e < 2 ^ 31 ->
  (representable (b ^ (2 ^ bits e)) -> pow_int b e = Some (b ^ e)) /\
  (~ representable (b ^ (2 ^ bits e)) -> pow_int b e = None).
Proof.
  intros b e He. unfold pow_int. rewrite (proj2 (Z.ltb_ge e 0)) by lia.
  destruct (pow_loop 31 1 b e) as [x|] eqn:E.
  - assert (He0 : 0 <= e) by lia.
    destruct (pow_loop_sound _ _ _ _ _ He0 E) as [Hx Hr]. split.
    + intros _. f_equal. lia.
    + intros H. exfalso. apply H, Hr. lia.
  - split; [|reflexivity]. intros Hrep. exfalso.
    assert (Hb : 1 <= bits e) by (unfold bits; pose proof (Z.log2_nonneg e); lia).
    assert (Hev : exists k, 2 ^ bits e = 2 * k /\ 1 <= k).
    { exists (2 ^ (bits e - 1)). split.
      - replace (bits e) with (Z.succ (bits e - 1)) at 1 by lia. apply Z.pow_succ_r. lia.
      - pose proof (Z.pow_pos_nonneg 2 (bits e - 1)). lia. }
    destruct Hev as (k & Hk & Hk1).
    set (m := Z.max 1 (Z.abs b)).
    assert (Hm : m ^ (2 ^ bits e) < 2 ^ 31).
    { unfold m. destruct (Z.max_spec 1 (Z.abs b)) as [[_ ->]|[_ ->]].
      - rewrite <- Z.abs_pow, Z.abs_eq; [apply Hrep|].
        rewrite Hk, Z.pow_mul_r by lia. apply Z.pow_nonneg. nia.
      - rewrite Z.pow_1_l by lia. lia. }
    refine (pow_loop_complete 31 1 b e m _ _ _ _ _ E).
    + lia.
    + unfold m. lia.
    + unfold m. lia.
    + rewrite Z.mul_1_l. eapply Z.le_lt_trans; [|exact Hm].
      apply Z.pow_le_mono_r; [unfold m; lia|].
      unfold bits. rewrite Z.add_comm. apply Z.lt_le_incl. apply Z.log2_spec. lia.
    + intros _. exact Hm.
Qed.

Lemma wrap_mod : forall v, wrap v mod 2 ^ 32 = v mod 2 ^ 32.
Proof.
  intros. unfold wrap. rewrite Zminus_mod_idemp_l. f_equal. lia.
Qed.
Lemma wrap_range : forall v, representable (wrap v).
Proof. intros. unfold wrap, representable. pose proof (Z.mod_pos_bound (v + 2^31) (2^32)). lia. Qed.

Lemma pow_mod_cong : forall a b n k, 0 <= k -> a mod n = b mod n -> (a ^ k) mod n = (b ^ k) mod n.
Proof.
  intros a b n k Hk E. revert k Hk. apply natlike_ind.
  - now rewrite !Z.pow_0_r.
  - intros k Hk IH. rewrite !Z.pow_succ_r by assumption.
    rewrite (Zmult_mod a), (Zmult_mod b), E, IH. reflexivity.
Qed.

Lemma pow_loop_wrap_ok : forall fuel r b e, 0 <= e < 2 ^ Z.of_nat fuel -> representable r ->
  (pow_loop_wrap fuel r b e) mod 2 ^ 32 = (r * b ^ e) mod 2 ^ 32 /\
  representable (pow_loop_wrap fuel r b e).
Proof.
  induction fuel as [|fuel IH]; intros r b e He Hr; cbn [pow_loop_wrap].
  - destruct (Z.eqb_spec e 0) as [->|Hne]; [|cbn in He; lia].
    rewrite Z.pow_0_r, Z.mul_1_r. split; [reflexivity|exact Hr].
  - destruct (Z.eqb_spec e 0) as [->|Hne].
    + rewrite Z.pow_0_r, Z.mul_1_r. split; [reflexivity|exact Hr].
    + assert (Hp : 0 < e) by lia. destruct (half_cases e Hp) as [E Hh]. rewrite shiftr1.
      destruct (IH (if Z.odd e then wrap (r * b) else r) (wrap (b * b)) (e / 2)) as [A B].
      * split; [lia|]. rewrite Nat2Z.inj_succ, Z.pow_succ_r in He by lia.
        apply Z.div_lt_upper_bound; lia.
      * destruct (Z.odd e); [apply wrap_range|exact Hr].
      * split; [|exact B]. rewrite A, (pow_step b e Hp), Zmult_mod.
        rewrite (pow_mod_cong (wrap (b * b)) (b * b)) by (try apply wrap_mod; lia).
        rewrite <- Zmult_mod. rewrite Zmult_mod, Z.mul_assoc, (Zmult_mod (r * _)).
        f_equal. f_equal. destruct (Z.odd e); [apply wrap_mod|now rewrite Z.mul_1_r].
Qed.

Lemma representable_mod : forall a b, representable a -> representable b ->
  a mod 2 ^ 32 = b mod 2 ^ 32 -> a = b.
Proof.
  intros a b Ha Hb E. unfold representable in *.
  pose proof (Z.div_mod a (2^32) ltac:(lia)). pose proof (Z.div_mod b (2^32) ltac:(lia)).
  nia.
Qed.

Lemma pow_int_wrap_ok : forall b e, 0 <= e < 2 ^ 31 -> representable (b ^ e) ->
  pow_int_wrap b e = b ^ e.
Proof.
  intros b e He Hr. unfold pow_int_wrap.
  destruct (pow_loop_wrap_ok 31 1 b e) as [A B]; [exact He|unfold representable; lia|].
  apply representable_mod; [exact B|exact Hr|]. rewrite A. f_equal. lia.
Qed.
