From Coq Require Import String ZArith List Lia Bool.
From Verif Require Import Base_Mem Model_Packing Spec_Packing.
Import ListNotations.
Local Open Scope list_scope.
Local Open Scope Z_scope.

(* ------------------------------------------------------------ basics *)

Lemma mload_agree : forall n m m2 a bs,
  mload m a n = bs -> (forall x, a <= x < a + Z.of_nat n -> m2 x = m x) ->
  mload m2 a n = bs.
Proof. intros. rewrite <- H. apply mload_ext. intros; now apply H0. Qed.

Lemma mload_sub : forall m a bs1 bs2 n,
  mload m a n = bs1 ++ bs2 ->
  mload m a (length bs1) = bs1 /\
  mload m (a + Z.of_nat (length bs1)) (length bs2) = bs2 /\
  n = (length bs1 + length bs2)%nat.
Proof.
  intros m a bs1 bs2 n H.
  assert (L : n = (length bs1 + length bs2)%nat).
  { apply (f_equal (@length Z)) in H. now rewrite mload_length, app_length in H. }
  subst n. rewrite mload_app in H.
  assert (HH : forall (x y z w : list Z), length x = length z -> x ++ y = z ++ w -> x = z /\ y = w).
  { clear. induction x; destruct z; cbn [length app]; intros w L E; try discriminate.
    - auto.
    - injection E as E1 E2. injection L as L. destruct (IHx _ _ _ L E2). subst. auto. }
  apply HH in H; [|apply mload_length]. tauto.
Qed.

Lemma round_trip_bytes : forall {A} (bs : list Z) (read : mem -> Z -> option (A * Z)) res,
  (forall m a, mload m a (length bs) = bs ->
     read m a = Some (res, Z.of_nat (length bs))) ->
  round_trip (fun m a => Some (pack_bytes bs m a)) read (Z.of_nat (length bs)) res.
Proof.
  intros A bs read res H m a. exists (mstore m a bs). split; [reflexivity|]. split.
  - intros. now apply mstore_other.
  - intros m2 E. apply H. eapply mload_agree; [apply mload_mstore|]. eauto.
Qed.

Lemma pow_256_4 : 256 ^ Z.of_nat 4 = 2 ^ 32. Proof. reflexivity. Qed.
Lemma pow_256_8 : 256 ^ Z.of_nat 8 = 2 ^ 64. Proof. reflexivity. Qed.

Lemma unpack_int_ok : forall m a v, - 2 ^ 31 <= v < 2 ^ 31 ->
  mload m a 4 = le_bytes 4 v -> unpack_int m a = (v, 4).
Proof.
  intros m a v R H. unfold unpack_int. rewrite H, le_val_bytes, pow_256_4.
  now rewrite to_int32_mod.
Qed.

Lemma unpack_size_ok : forall m a v, 0 <= v < 2 ^ 64 ->
  mload m a 8 = le_bytes 8 v -> unpack_size_t m a = (v, 8).
Proof.
  intros m a v R H. unfold unpack_size_t. rewrite H, le_val_bytes_small by now rewrite pow_256_8.
  reflexivity.
Qed.

Lemma unpack_double_ok : forall m a v, 0 <= v < 2 ^ 64 ->
  mload m a 8 = le_bytes 8 v -> unpack_double m a = (v, 8).
Proof. exact unpack_size_ok. Qed.

(* ------------------------------------------------------------ strings *)

Lemma strlen_text : forall cs junk, Forall (fun c => 0 < c < 256) cs ->
  strlen (cs ++ 0 :: junk) = Some (length cs).
Proof.
  induction 1; cbn [strlen app length].
  - reflexivity.
  - destruct (Z.eqb_spec x 0); [lia|]. now rewrite IHForall.
Qed.

Lemma firstn_text : forall (cs junk : list Z),
  firstn (S (length cs)) (cs ++ 0 :: junk) = cs ++ [0].
Proof.
  intros. replace (cs ++ 0 :: junk) with ((cs ++ [0]) ++ junk) by now rewrite <- app_assoc.
  replace (S (length cs)) with (length (cs ++ [0])) by (rewrite app_length; cbn [length]; lia).
  rewrite firstn_app, Nat.sub_diag, firstn_O, app_nil_r. apply firstn_all.
Qed.

(** bytes that a packed string occupies *)
Definition string_bytes (s : option (list Z)) : list Z :=
  match s with
  | None => le_bytes 8 0
  | Some cs => le_bytes 8 (Z.of_nat (length cs) + 1) ++ cs ++ [0]
  end.

(** the result of unpacking *)
Definition string_res (s : option (list Z)) : option (list Z) :=
  match s with None => None | Some cs => Some (cs ++ [0]) end.

Lemma pack_string_bytes : forall bs cs m a, holds_text bs cs -> text cs ->
  pack_string (Some bs) m a = Some (pack_bytes (string_bytes (Some cs)) m a).
Proof.
  intros bs cs m a [junk ->] [T L]. unfold pack_string. rewrite strlen_text by assumption.
  cbn [bind]. unfold pack_size_t, pack_bytes. rewrite firstn_text.
  cbn [string_bytes].
  rewrite (mstore_app (le_bytes 8 (Z.of_nat (length cs) + 1)) (cs ++ [0])).
  rewrite !app_length, le_bytes_length. cbn [length].
  apply f_equal. apply f_equal. lia.
Qed.

Lemma pack_string_null : forall m a,
  pack_string None m a = Some (pack_bytes (string_bytes None) m a).
Proof. reflexivity. Qed.

Lemma unpack_string_bytes : forall s m a,
  match s with None => True | Some cs => text cs end ->
  mload m a (length (string_bytes s)) = string_bytes s ->
  unpack_string m a = (string_res s, Z.of_nat (length (string_bytes s))).
Proof.
  intros s m a T H. unfold unpack_string. destruct s as [cs|].
  - destruct T as [T L]. cbn [string_bytes] in *.
    apply mload_sub in H. destruct H as (H1 & H2 & _).
    rewrite le_bytes_length in H1, H2.
    rewrite (unpack_size_ok _ _ (Z.of_nat (length cs) + 1)) by (lia || assumption).
    destruct (Z.eqb_spec (Z.of_nat (length cs) + 1) 0); [lia|].
    replace (Z.to_nat (Z.of_nat (length cs) + 1)) with (length (cs ++ [0]))
      by (rewrite app_length; cbn [length]; lia).
    change (Z.of_nat 8) with 8 in H2. rewrite H2. cbn [string_res].
    rewrite !app_length, le_bytes_length. cbn [length]. f_equal. lia.
  - cbn [string_bytes] in *. rewrite le_bytes_length in *.
    rewrite (unpack_size_ok _ _ 0) by (lia || assumption). reflexivity.
Qed.

Lemma packsize_string_bytes : forall bs cs, holds_text bs cs -> text cs ->
  packsize_string (Some bs) = Some (Z.of_nat (length (string_bytes (Some cs)))).
Proof.
  intros bs cs [junk ->] [T L]. unfold packsize_string. rewrite strlen_text by assumption.
  cbn [bind string_bytes]. rewrite !app_length, le_bytes_length. cbn [length]. f_equal. lia.
Qed.

Lemma cstring_text : forall cs junk, Forall (fun c => 0 < c < 256) cs ->
  cstring (cs ++ 0 :: junk) = Some cs.
Proof.
  intros. unfold cstring. rewrite strlen_text by assumption. cbn [bind].
  rewrite firstn_app, Nat.sub_diag, firstn_O, app_nil_r, firstn_all. reflexivity.
Qed.

(* ------------------------------------------------------------ C33 *)

Lemma int_round_trip : forall v, - 2 ^ 31 <= v < 2 ^ 31 ->
  round_trip (fun m a => Some (pack_int v m a)) (fun m a => Some (unpack_int m a)) 4 v.
Proof.
  intros v R. apply (round_trip_bytes (le_bytes 4 v)).
  intros m a H. rewrite le_bytes_length in *. now rewrite (unpack_int_ok m a v R H).
Qed.

Lemma size_round_trip : forall v, 0 <= v < 2 ^ 64 ->
  round_trip (fun m a => Some (pack_size_t v m a)) (fun m a => Some (unpack_size_t m a)) 8 v.
Proof.
  intros v R. apply (round_trip_bytes (le_bytes 8 v)).
  intros m a H. rewrite le_bytes_length in *. now rewrite (unpack_size_ok m a v R H).
Qed.

Lemma double_round_trip : forall v, 0 <= v < 2 ^ 64 ->
  round_trip (fun m a => Some (pack_double v m a)) (fun m a => Some (unpack_double m a)) 8 v.
Proof. exact size_round_trip. Qed.

Lemma round_trip_ext : forall {A} (w w' : mem -> Z -> option (mem * Z)) (r : mem -> Z -> option (A * Z)) n v,
  (forall m a, w m a = w' m a) -> round_trip w' r n v -> round_trip w r n v.
Proof. intros A w w' r n v E H m a. rewrite E. apply H. Qed.

Lemma string_round_trip : forall bs cs, holds_text bs cs -> text cs ->
  exists size, packsize_string (Some bs) = Some size /\
    round_trip (pack_string (Some bs)) (fun m a => Some (unpack_string m a)) size
               (Some (cs ++ [0])).
Proof.
  intros bs cs Hb Ht. eexists. split; [apply packsize_string_bytes; eassumption|].
  eapply round_trip_ext; [intros; apply pack_string_bytes; eassumption|].
  apply round_trip_bytes. intros m a H.
  now rewrite (unpack_string_bytes (Some cs) m a Ht H).
Qed.

Lemma null_round_trip :
  packsize_string None = Some 8 /\
  round_trip (pack_string None) (fun m a => Some (unpack_string m a)) 8 None.
Proof.
  split; [reflexivity|].
  eapply round_trip_ext; [intros; apply pack_string_null|].
  change 8 with (Z.of_nat (length (string_bytes None))).
  apply round_trip_bytes. intros m a H.
  now rewrite (unpack_string_bytes None m a I H).
Qed.

(* ------------------------------------------------------------ C35 *)

Section Glob.
  Variable V D : Type.
  Variable registry : list Z -> option (vtable V D).
  Variable eqv : V -> V -> Prop.

  (** one entry of the options map can be packed *)
  Definition entry_ok (e : list Z * (V * option D)) : Prop :=
    let '(key, (v, _)) := e in
    text key /\ exists vt, registry key = Some vt /\ vtable_ok eqv vt v.

  (** what it becomes *)
  Definition entry_res (e e' : list Z * (V * option D)) : Prop :=
    let '(key, (v, _)) := e in
    let '(key', (v', d')) := e' in
    key' = key /\ eqv v v' /\
    exists vt, registry key = Some vt /\ d' = Some (vt_destroy vt).

  Lemma map_insert_new : forall (l : list (list Z * (V * option D))) key v,
    ~ In key (map fst l) -> map_insert V D l key v = l ++ [(key, v)].
  Proof.
    induction l as [|[k w] tl IH]; intros key v H; cbn [map_insert app]; [reflexivity|].
    cbn [map fst In] in H. destruct (list_eq_dec Z.eq_dec k key); [tauto|].
    rewrite IH; tauto.
  Qed.

  Definition size_step (acc : option Z) (e : list Z * (V * option D)) : option Z :=
    let '(key, (v, _)) := e in
    bind acc (fun s =>
    bind (registry key) (fun vt =>
    bind (packsize_string (Some (key ++ [0]))) (fun a =>
    bind (vt_size vt v) (fun b => Some (s + (a + b)))))).

  Lemma options_round_trip : forall l, Forall entry_ok l ->
    exists size l', 0 <= size /\
      (forall s, fold_left size_step l (Some s) = Some (s + size)) /\
      Forall2 entry_res l l' /\
      forall m p, exists m', pack_options V D registry l m p = Some (m', p + size) /\
        (forall x, x < p \/ p + size <= x -> m' x = m x) /\
        (forall m2, (forall x, p <= x < p + size -> m2 x = m' x) ->
         forall acc, (forall k, In k (map fst l) -> ~ In k (map fst acc)) ->
         NoDup (map fst l) ->
         unpack_options V D registry (length l) m2 p acc = Some (acc ++ l', p + size)).
  Proof.
    induction l as [|[key [v d]] tl IH]; intros HF.
    - exists 0, []. split; [lia|]. split; [intros; cbn [fold_left]; f_equal; lia|].
      split; [constructor|]. intros m p. exists m.
      rewrite Z.add_0_r. repeat split; intros; auto.
      cbn [length unpack_options]. now rewrite app_nil_r.
    - apply Forall_cons_iff in HF. destruct HF as [HE HF'].
      unfold entry_ok in HE. destruct HE as [Ht (vt & Hreg & Hvt)].
      destruct (IH HF') as (size & l' & S0 & Hsz & Hres & Hrt). clear IH.
      destruct Hvt as (vs & v' & Hvs & Hvs0 & Heq & Hvrt).
      assert (Hh : holds_text (key ++ [0]) key) by (exists []; reflexivity).
      destruct (string_round_trip (key ++ [0]) key Hh Ht) as (ks & Hks & Hkrt).
      assert (Hks0 : 0 <= ks).
      { rewrite (packsize_string_bytes _ _ Hh Ht) in Hks. injection Hks as <-. lia. }
      exists (ks + vs + size), ((key, (v', Some (vt_destroy vt))) :: l').
      split; [lia|]. split; [|split].
      + intros s. cbn [fold_left]. unfold size_step at 2. cbn [bind].
        rewrite Hreg. cbn [bind]. rewrite Hks. cbn [bind]. rewrite Hvs. cbn [bind].
        rewrite Hsz. f_equal. lia.
      + constructor; [|assumption]. cbn. repeat split; auto. exists vt. auto.
      + intros m p. destruct (Hkrt m p) as (m1 & W1 & O1 & R1).
        destruct (Hvrt m1 (p + ks)) as (m2 & W2 & O2 & R2).
        destruct (Hrt m2 (p + ks + vs)) as (m3 & W3 & O3 & R3).
        exists m3. split; [|split].
        * cbn [pack_options]. rewrite W1. cbn [bind]. rewrite Hreg. cbn [bind].
          rewrite W2. cbn [bind]. rewrite W3. do 2 f_equal. lia.
        * intros x Hx. rewrite O3, O2, O1 by lia. reflexivity.
        * intros mm Hmm acc Hacc Hnd. cbn [length unpack_options].
          assert (E1 : Some (unpack_string mm p) = Some (Some (key ++ [0]), ks)).
          { apply R1. intros x Hx. rewrite Hmm by lia. rewrite O3, O2 by lia. reflexivity. }
          injection E1 as ->. cbn [bind].
          rewrite cstring_text by apply Ht. cbn [bind]. rewrite Hreg. cbn [bind].
          rewrite (R2 mm) by (intros x Hx; rewrite Hmm, O3 by lia; reflexivity).
          cbn [bind]. cbn [map fst] in Hnd. apply NoDup_cons_iff in Hnd. destruct Hnd as [Hn1 Hn2].
          rewrite map_insert_new by (apply Hacc; now left).
          rewrite (R3 mm).
          -- rewrite <- app_assoc. cbn [app]. do 2 f_equal. lia.
          -- intros x Hx. apply Hmm. lia.
          -- intros k Hk. rewrite map_app, in_app_iff. cbn [map fst In].
             intros [Hc|[<-|[]]]; [revert Hc; apply Hacc; now right|auto].
          -- assumption.
  Qed.

  Lemma global_round_trip : forall g : glob V D,
    0 <= g_curr_time g < 2 ^ 64 -> 0 <= g_curr_dt g < 2 ^ 64 ->
    Z.of_nat (length (g_options g)) < 2 ^ 64 ->
    NoDup (map fst (g_options g)) -> Forall entry_ok (g_options g) ->
    exists size g',
      global_packsize V D registry g = Some size /\
      g_curr_time g' = g_curr_time g /\ g_curr_dt g' = g_curr_dt g /\
      Forall2 entry_res (g_options g) (g_options g') /\
      round_trip (global_pack V D registry g) (global_unpack V D registry) size g'.
  Proof.
    intros g Ht Hd Hn Hnd HF.
    destruct (options_round_trip _ HF) as (size & l' & S0 & Hsz & Hres & Hrt).
    exists (24 + size), (mkG (g_curr_time g) (g_curr_dt g) l').
    split; [|split; [|split; [|split]]]; try reflexivity; try assumption.
    - unfold global_packsize.
      change (fold_left _ (g_options g) (Some 8)) with (fold_left size_step (g_options g) (Some 8)).
      rewrite Hsz. cbn [bind]. f_equal. lia.
    - intros m a.
      destruct (double_round_trip _ Ht m a) as (m1 & W1 & O1 & R1).
      destruct (double_round_trip _ Hd m1 (a + 8)) as (m2 & W2 & O2 & R2).
      assert (Hn' : 0 <= Z.of_nat (length (g_options g)) < 2 ^ 64) by lia.
      destruct (size_round_trip _ Hn' m2 (a + 8 + 8)) as (m3 & W3 & O3 & R3).
      destruct (Hrt m3 (a + 8 + 8 + 8)) as (m4 & W4 & O4 & R4).
      exists m4. split; [|split].
      + unfold global_pack.
        assert (E1 : pack_double (g_curr_time g) m a = (m1, 8)) by congruence. rewrite E1.
        assert (E2 : pack_double (g_curr_dt g) m1 (a + 8) = (m2, 8)) by congruence. rewrite E2.
        assert (E3 : pack_size_t (Z.of_nat (length (g_options g))) m2 (a + 8 + 8) = (m3, 8))
          by congruence. rewrite E3.
        rewrite W4. cbn [bind]. do 2 f_equal. lia.
      + intros x Hx. rewrite O4, O3, O2, O1 by lia. reflexivity.
      + intros mm Hmm. unfold global_unpack.
        assert (E1 : unpack_double mm a = (g_curr_time g, 8)).
        { enough (Some (unpack_double mm a) = Some (g_curr_time g, 8)) by congruence.
          apply R1. intros x Hx. rewrite Hmm, O4, O3, O2 by lia. reflexivity. }
        rewrite E1.
        assert (E2 : unpack_double mm (a + 8) = (g_curr_dt g, 8)).
        { enough (Some (unpack_double mm (a + 8)) = Some (g_curr_dt g, 8)) by congruence.
          apply R2. intros x Hx. rewrite Hmm, O4, O3 by lia. reflexivity. }
        rewrite E2.
        assert (E3 : unpack_size_t mm (a + 8 + 8) = (Z.of_nat (length (g_options g)), 8)).
        { enough (Some (unpack_size_t mm (a + 8 + 8)) = Some (Z.of_nat (length (g_options g)), 8)) by congruence.
          apply R3. intros x Hx. rewrite Hmm, O4 by lia. reflexivity. }
        rewrite E3. rewrite Nat2Z.id.
        rewrite (R4 mm) with (acc := []);
          [|intros x Hx; apply Hmm; lia|intros k _ []|assumption].
        cbn [bind app]. do 2 f_equal. lia.
  Qed.
End Glob.
