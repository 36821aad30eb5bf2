From Coq Require Import String ZArith List Lia Bool.
From Verif Require Import Base_Mem Model_Packing Spec_Packing Proof_Packing.
Import ListNotations.
Local Open Scope string_scope.
Local Open Scope list_scope.
Local Open Scope Z_scope.

(* ------------------------------------------------------------ structs *)

Lemma ksize_pos : forall k, (0 < ksize k)%nat.
Proof. destruct k; cbn; lia. Qed.

Lemma struct_bytes_length : forall l off f,
  (length (struct_bytes l off f) + off = struct_size l off)%nat.
Proof.
  induction l as [|[n k] tl IH]; intros off f; cbn [struct_bytes struct_size].
  - rewrite repeat_length. lia.
  - rewrite !app_length, repeat_length, le_bytes_length. rewrite <- (IH _ f). lia.
Qed.

Lemma setf_same : forall f n v, setf f n v n = v.
Proof. intros. unfold setf. now rewrite String.eqb_refl. Qed.
Lemma setf_other : forall f n v x, x <> n -> setf f n v x = f x.
Proof. intros. unfold setf. destruct (String.eqb_spec x n); [contradiction|reflexivity]. Qed.

Lemma read_struct_out : forall l m a off f0 n, ~ In n (map fst l) ->
  read_struct m a l off f0 n = f0 n.
Proof.
  induction l as [|[n' k] tl IH]; intros m a off f0 n H; cbn [read_struct]; [reflexivity|].
  cbn [map fst In] in H. rewrite IH by tauto. apply setf_other. intros ->. tauto.
Qed.

Lemma read_struct_ok : forall l m a off f f0,
  NoDup (map fst l) ->
  (forall n k, In (n, k) l ->
    match k with KInt => - 2 ^ 31 <= f n < 2 ^ 31 | _ => 0 <= f n < 2 ^ 64 end) ->
  mload m (a + Z.of_nat off) (length (struct_bytes l off f)) = struct_bytes l off f ->
  forall n, In n (map fst l) -> read_struct m a l off f0 n = f n.
Proof.
  induction l as [|[n' k] tl IH]; intros m a off f f0 Hnd Hr Hm n Hn; [destruct Hn|].
  cbn [map fst] in Hnd. apply NoDup_cons_iff in Hnd. destruct Hnd as [Hn1 Hn2].
  cbn [struct_bytes] in Hm. rewrite app_assoc in Hm.
  apply mload_sub in Hm. destruct Hm as (H1 & H2 & _).
  rewrite app_length, repeat_length, le_bytes_length in H1, H2.
  cbn [read_struct].
  apply mload_sub in H1. destruct H1 as (_ & H1 & _).
  rewrite repeat_length, le_bytes_length in H1.
  replace (a + Z.of_nat off + Z.of_nat (pad off k)) with (a + Z.of_nat (off + pad off k)) in H1 by lia.
  rewrite H1.
  destruct (string_dec n n') as [->|Hne].
  - rewrite read_struct_out by assumption. rewrite setf_same.
    specialize (Hr n' k (or_introl eq_refl)).
    destruct k; rewrite le_val_bytes; cbn [ksize].
    + rewrite pow_256_4. now apply to_int32_mod.
    + rewrite pow_256_8. now apply Z.mod_small.
    + rewrite pow_256_8. now apply Z.mod_small.
  - cbn [map fst In] in Hn. destruct Hn as [Hn|Hn]; [congruence|].
    apply IH; auto.
    + intros n2 k2 Hin. apply Hr. now right.
    + rewrite <- H2 at 2. f_equal. lia.
Qed.

(* ------------------------------------------------------------ data *)

(** The bytes one instruction appends. *)
Definition data (h : heap) (f : struct) (x : ins) : option (list Z) :=
  match x with
  | IStr n => bind (str_at h (f n)) (fun s =>
      match s with
      | None => Some (le_bytes 8 0)
      | Some bs => bind (strlen bs) (fun k =>
                   Some (le_bytes 8 (Z.of_nat k + 1) ++ firstn (S k) bs))
      end)
  | IDbl n i => bind (elem_at h (f n) i) (fun v => Some (le_bytes 8 v))
  | IInt n i => bind (elem_at h (f n) i) (fun v => Some (le_bytes 4 v))
  | IAlloc _ _ => Some []
  end.

Fixpoint datas (h : heap) (f : struct) (l : list ins) : option (list Z) :=
  match l with
  | [] => Some []
  | x :: tl => bind (data h f x) (fun d => bind (datas h f tl) (fun e => Some (d ++ e)))
  end.

Lemma strlen_lt : forall bs k, strlen bs = Some k -> (k < length bs)%nat.
Proof.
  induction bs; intros k H; cbn [strlen length] in *; [discriminate|].
  destruct (a =? 0); [injection H as <-; lia|].
  destruct (strlen bs); [|discriminate]. injection H as <-. specialize (IHbs _ eq_refl). lia.
Qed.

Lemma pack_ins_data : forall h f x m p,
  pack_ins h f x m p = bind (data h f x) (fun d => Some (mstore m p d, p + Z.of_nat (length d))).
Proof.
  intros h f x m p. destruct x; cbn [pack_ins data].
  - destruct (str_at h (f n)) as [[bs|]|]; cbn [bind]; try reflexivity.
    unfold pack_string. destruct (strlen bs) eqn:E; cbn [bind]; [|reflexivity].
    unfold pack_size_t, pack_bytes. rewrite mstore_app, app_length, le_bytes_length.
    apply strlen_lt in E.
    rewrite firstn_length_le by lia. cbn [bind]. apply f_equal. apply f_equal2; [reflexivity|lia].
  - destruct (elem_at h (f n) i); reflexivity.
  - destruct (elem_at h (f n) i); reflexivity.
  - cbn [bind length mstore]. apply f_equal. apply f_equal2; [reflexivity|lia].
Qed.

Lemma pack_prog_data : forall h f l m p,
  pack_prog h f l m p = bind (datas h f l) (fun d => Some (mstore m p d, p + Z.of_nat (length d))).
Proof.
  induction l as [|x tl IH]; intros m p; cbn [pack_prog datas].
  - cbn [bind length mstore]. apply f_equal. apply f_equal2; [reflexivity|lia].
  - rewrite pack_ins_data. destruct (data h f x) as [d|]; cbn [bind]; [|reflexivity].
    rewrite IH. destruct (datas h f tl) as [e|]; cbn [bind]; [|reflexivity].
    rewrite mstore_app, app_length. apply f_equal. apply f_equal2; [reflexivity|lia].
Qed.

(** Instructions whose data is usable. *)
Definition good_ins (h : heap) (f : struct) (x : ins) : Prop :=
  match x with
  | IStr n => good_string h (f n)
  | IDbl n i => exists v, elem_at h (f n) i = Some v /\ 0 <= v < 2 ^ 64
  | IInt n i => exists v, elem_at h (f n) i = Some v /\ - 2 ^ 31 <= v < 2 ^ 31
  | IAlloc _ _ => True
  end.

(** text of a good string *)
Lemma good_string_data : forall h f n, good_string h (f n) ->
  exists s, text_at h (f n) = Some s /\
    match s with None => True | Some cs => text cs end /\
    data h f (IStr n) = Some (string_bytes s) /\
    size_str h f n = Some (Z.of_nat (length (string_bytes s))).
Proof.
  intros h f n [H|(bs & cs & Hc & Hh & Ht)].
  - exists None. unfold text_at, size_str, data, str_at. rewrite H. cbn. auto.
  - destruct (Z.eqb_spec (f n) 0) as [E|E].
    + exists None. unfold text_at, size_str, data, str_at. rewrite E. cbn. auto.
    + exists (Some cs). unfold text_at, size_str. cbn [data]. unfold str_at.
      destruct (Z.eqb_spec (f n) 0) as [E'|_]; [contradiction|].
      rewrite Hc. cbn [bind]. rewrite (packsize_string_bytes _ _ Hh Ht).
      destruct Hh as [junk ->]. rewrite strlen_text by apply Ht.
      rewrite cstring_text by apply Ht. cbn [bind]. rewrite firstn_text.
      repeat split; try reflexivity; apply Ht.
Qed.

Lemma good_data : forall h f x, good_ins h f x -> exists d, data h f x = Some d.
Proof.
  intros h f x H. destruct x.
  - destruct (good_string_data h f n H) as (s & _ & _ & E & _). eauto.
  - destruct H as (v & E & _). cbn [data]. rewrite E. cbn [bind]. eauto.
  - destruct H as (v & E & _). cbn [data]. rewrite E. cbn [bind]. eauto.
  - cbn [data]. eauto.
Qed.

Lemma good_datas : forall h f l, Forall (good_ins h f) l -> exists d, datas h f l = Some d.
Proof.
  induction 1 as [|x l H HF [e IH]]; cbn [datas]; [eauto|].
  destruct (good_data h f x H) as [d E]. rewrite E, IH. cbn [bind]. eauto.
Qed.

(* ------------------------------------------------------------ unpacking *)

(** Names allocated by a program. *)
Definition alloc1 (x : ins) : list string :=
  match x with IStr n => [n] | IAlloc n _ => [n] | _ => [] end.
Definition allocs (l : list ins) : list string := flat_map alloc1 l.

(** Scoping discipline: element accesses refer to arrays allocated before. *)
Fixpoint scoped (done l : list ins) : Prop :=
  match l with
  | [] => True
  | x :: tl =>
      (match x with
       | IStr n => ~ In n (allocs done)
       | IAlloc n _ => ~ In n (allocs done)
       | IDbl n i | IInt n i => exists k, In (IAlloc n k) done /\ (i < k)%nat
       end) /\ scoped (done ++ [x]) tl
  end.

Record Inv (h : heap) (f : struct) (h0 : heap) (f0 : struct) (done : list ins)
       (h2 : heap) (f2 : struct) : Prop := {
  I_next : h_next h0 <= h_next h2;
  I_old : forall a, a < h_next h0 -> h_cell h2 a = h_cell h0 a;
  I_fresh : forall a, h_next h2 <= a -> h_cell h2 a = None;
  I_own : forall n, In n (allocs done) ->
    f2 n = 0 \/ (h_next h0 <= f2 n < h_next h2 /\ h_cell h2 (f2 n) <> None);
  I_inj : forall n n', In n (allocs done) -> In n' (allocs done) ->
    f2 n = f2 n' -> f2 n <> 0 -> n = n';
  I_cover : forall a, h_next h0 <= a < h_next h2 ->
    exists n, In n (allocs done) /\ f2 n = a;
  I_keep : forall n, ~ In n (allocs done) -> f2 n = f0 n;
  I_str : forall n, In (IStr n) done ->
    text_at h2 (f2 n) = text_at h (f n) /\ text_at h (f n) <> None;
  I_arr : forall n k, In (IAlloc n k) done ->
    exists l, h_cell h2 (f2 n) = Some (OArr l) /\ length l = k /\ f2 n <> 0;
  I_dbl : forall n i, In (IDbl n i) done -> elem_at h2 (f2 n) i = elem_at h (f n) i;
  I_int : forall n i, In (IInt n i) done -> elem_at h2 (f2 n) i = elem_at h (f n) i }.

Lemma allocs_app : forall a b, allocs (a ++ b) = allocs a ++ allocs b.
Proof. intros. apply flat_map_app. Qed.

Lemma in_alloc_str : forall n l, In (IStr n) l -> In n (allocs l).
Proof. intros. apply in_flat_map. exists (IStr n). split; [assumption|now left]. Qed.
Lemma in_alloc_arr : forall n k l, In (IAlloc n k) l -> In n (allocs l).
Proof. intros. apply in_flat_map. exists (IAlloc n k). split; [assumption|now left]. Qed.

(** every element instruction in [done] refers to an allocated name *)
Definition closed (done : list ins) : Prop :=
  forall n i, In (IDbl n i) done \/ In (IInt n i) done -> In n (allocs done).

Lemma elem_ext : forall h h' a a' i, h_cell h a = h_cell h' a' -> elem_at h a i = elem_at h' a' i.
Proof. intros. unfold elem_at. now rewrite H. Qed.
Lemma text_ext : forall h h' a, h_cell h a = h_cell h' a -> text_at h a = text_at h' a.
Proof. intros. unfold text_at. now rewrite H. Qed.

(** Allocation of a new object for a new name keeps everything. *)
Lemma Inv_alloc : forall h f h0 f0 done h2 f2 n o x,
  good_heap h0 -> closed done ->
  Inv h f h0 f0 done h2 f2 -> ~ In n (allocs done) ->
  alloc1 x = [n] ->
  (x = IStr n -> exists bs cs, o = OStr bs /\ cstring bs = Some cs /\
     text_at h (f n) = Some (Some cs)) ->
  (forall k, x = IAlloc n k -> o = OArr (repeat None k)) ->
  (x = IStr n \/ exists k, x = IAlloc n k) ->
  let '(h3, a) := halloc h2 o in
  Inv h f h0 f0 (done ++ [x]) h3 (setf f2 n a).
Proof.
  intros h f h0 f0 done h2 f2 n o x [G1 G2] Hcl HI Hn Hx Hs Ha Hk. unfold halloc.
  destruct HI as [I1 I2 I3 I4 I5 I6 I7 I8 I9 I10 I11].
  set (h3 := mkH _ _).
  assert (C : forall a, a <> h_next h2 -> h_cell h3 a = h_cell h2 a).
  { intros a Hne. cbn. destruct (Z.eqb_spec a (h_next h2)); [contradiction|reflexivity]. }
  assert (C' : h_cell h3 (h_next h2) = Some o) by (cbn; now rewrite Z.eqb_refl).
  assert (Own : forall n', In n' (allocs done) -> f2 n' <> h_next h2).
  { intros n' Hin. destruct (I4 _ Hin) as [E|[E _]]; lia. }
  assert (Nn : forall n', In n' (allocs done) -> n' <> n) by (intros ? ? ->; contradiction).
  assert (A : allocs (done ++ [x]) = allocs done ++ [n]).
  { rewrite allocs_app. unfold allocs at 2. cbn [flat_map]. now rewrite Hx, app_nil_r. }
  constructor.
  - cbn [h_next h3]. lia.
  - intros a Hlt. rewrite C by lia. auto.
  - intros a Hle. cbn [h_next h3] in Hle. rewrite C by lia. apply I3. lia.
  - intros n'. rewrite A, in_app_iff. cbn [In]. intros [Hin|[<-|[]]].
    + rewrite setf_other by auto. destruct (I4 _ Hin) as [E|[E E']]; [now left|right].
      cbn [h_next h3]. split; [lia|]. rewrite C by lia. assumption.
    + rewrite setf_same. right. cbn [h_next h3]. split; [lia|]. rewrite C'. discriminate.
  - intros n1 n2. rewrite A, !in_app_iff. cbn [In].
    intros [H1|[<-|[]]] [H2|[<-|[]]] E E0; try reflexivity.
    + rewrite !setf_other in * by auto. auto.
    + rewrite setf_same, setf_other in E by auto. exfalso. now apply (Own n1).
    + rewrite setf_same, setf_other in E by auto. exfalso. now apply (Own n2).
  - intros a Hle. cbn [h_next h3] in Hle. rewrite A.
    destruct (Z.eq_dec a (h_next h2)) as [->|Hne].
    + exists n. rewrite in_app_iff. cbn [In]. rewrite setf_same. auto.
    + destruct (I6 a) as (n' & Hin & E); [lia|]. exists n'. rewrite in_app_iff.
      rewrite setf_other by auto. auto.
  - intros n'. rewrite A, in_app_iff. cbn [In]. intros Hno.
    rewrite setf_other by (intros ->; apply Hno; auto). apply I7. tauto.
  - intros n'. rewrite in_app_iff. cbn [In]. intros [Hin|[E|[]]].
    + pose proof (in_alloc_str _ _ Hin) as Hin'. rewrite setf_other by auto.
      destruct (I8 _ Hin) as [E1 E2]. split; [|exact E2].
      rewrite <- E1. apply text_ext. apply C. auto.
    + subst x. cbn [alloc1] in Hx. injection Hx as ->.
      destruct (Hs eq_refl) as (bs & cs & -> & Ec & Et). rewrite setf_same, Et.
      unfold text_at. destruct (Z.eqb_spec (h_next h2) 0); [lia|]. rewrite C', Ec.
      split; [reflexivity|discriminate].
  - intros n' k. rewrite in_app_iff. cbn [In]. intros [Hin|[E|[]]].
    + pose proof (in_alloc_arr _ _ _ Hin) as Hin'. rewrite setf_other by auto.
      rewrite C by auto. auto.
    + subst x. cbn [alloc1] in Hx. injection Hx as ->. rewrite setf_same, C'.
      rewrite (Ha k eq_refl). exists (repeat None k). rewrite repeat_length. repeat split. lia.
  - intros n' i. rewrite in_app_iff. cbn [In]. intros [Hin|[E|[]]].
    + assert (Hin' : In n' (allocs done)) by (eapply Hcl; eauto).
      rewrite setf_other by auto. rewrite <- (I10 _ _ Hin). apply elem_ext. apply C. auto.
    + exfalso. destruct Hk as [->|[k ->]]; discriminate.
  - intros n' i. rewrite in_app_iff. cbn [In]. intros [Hin|[E|[]]].
    + assert (Hin' : In n' (allocs done)) by (eapply Hcl; eauto).
      rewrite setf_other by auto. rewrite <- (I11 _ _ Hin). apply elem_ext. apply C. auto.
    + exfalso. destruct Hk as [->|[k ->]]; discriminate.
Qed.

Lemma Inv_null : forall h f h0 f0 done h2 f2 n,
  closed done ->
  Inv h f h0 f0 done h2 f2 -> ~ In n (allocs done) ->
  text_at h (f n) = Some None ->
  Inv h f h0 f0 (done ++ [IStr n]) h2 (setf f2 n 0).
Proof.
  intros h f h0 f0 done h2 f2 n Hcl HI Hn Ht.
  destruct HI as [I1 I2 I3 I4 I5 I6 I7 I8 I9 I10 I11].
  assert (Nn : forall n', In n' (allocs done) -> n' <> n) by (intros ? ? ->; contradiction).
  assert (A : allocs (done ++ [IStr n]) = allocs done ++ [n]) by (now rewrite allocs_app).
  constructor; auto.
  - intros n'. rewrite A, in_app_iff. cbn [In]. intros [Hin|[<-|[]]].
    + rewrite setf_other by auto. auto.
    + rewrite setf_same. auto.
  - intros n1 n2. rewrite A, !in_app_iff. cbn [In].
    intros [H1|[<-|[]]] [H2|[<-|[]]] E E0; try reflexivity.
    + rewrite !setf_other in * by auto. auto.
    + rewrite setf_same in E. contradiction.
    + rewrite setf_same in E0. contradiction.
  - intros a Hle. destruct (I6 a Hle) as (n' & Hin & E). exists n'.
    rewrite A, in_app_iff, setf_other by auto. auto.
  - intros n'. rewrite A, in_app_iff. cbn [In]. intros Hno.
    rewrite setf_other by (intros ->; apply Hno; auto). apply I7. tauto.
  - intros n'. rewrite in_app_iff. cbn [In]. intros [Hin|[E|[]]].
    + pose proof (in_alloc_str _ _ Hin). rewrite setf_other by auto. auto.
    + injection E as ->. rewrite setf_same, Ht. split; [reflexivity|discriminate].
  - intros n' k. rewrite in_app_iff. cbn [In]. intros [Hin|[E|[]]]; [|discriminate].
    pose proof (in_alloc_arr _ _ _ Hin). rewrite setf_other by auto. auto.
  - intros n' i. rewrite in_app_iff. cbn [In]. intros [Hin|[E|[]]]; [|discriminate].
    assert (In n' (allocs done)) by (eapply Hcl; eauto). rewrite setf_other by auto. auto.
  - intros n' i. rewrite in_app_iff. cbn [In]. intros [Hin|[E|[]]]; [|discriminate].
    assert (In n' (allocs done)) by (eapply Hcl; eauto). rewrite setf_other by auto. auto.
Qed.

Lemma upd_nth_length : forall {A} (l : list A) i x, length (upd_nth l i x) = length l.
Proof. induction l; destruct i; intros; cbn [upd_nth length]; congruence. Qed.
Lemma upd_nth_same : forall {A} (l : list A) i x d, (i < length l)%nat -> nth i (upd_nth l i x) d = x.
Proof.
  induction l; destruct i; intros; cbn [upd_nth length nth] in *; try lia; [reflexivity|].
  apply IHl. lia.
Qed.
Lemma upd_nth_other : forall {A} (l : list A) i j x d, i <> j -> nth j (upd_nth l i x) d = nth j l d.
Proof.
  induction l; destruct i, j; intros; cbn [upd_nth nth]; try reflexivity; try contradiction.
  apply IHl. congruence.
Qed.

Lemma Inv_elem : forall h f h0 f0 done h2 f2 n i k v x,
  closed done ->
  Inv h f h0 f0 done h2 f2 -> In (IAlloc n k) done -> (i < k)%nat ->
  elem_at h (f n) i = Some v -> (x = IDbl n i \/ x = IInt n i) ->
  exists h3, set_elem h2 (f2 n) i v = Some h3 /\
    Inv h f h0 f0 (done ++ [x]) h3 f2.
Proof.
  intros h f h0 f0 done h2 f2 n i k v x Hcl HI Hin Hi Hv Hx.
  destruct HI as [I1 I2 I3 I4 I5 I6 I7 I8 I9 I10 I11].
  destruct (I9 _ _ Hin) as (l & Hl & Hlen & Hnz).
  pose proof (in_alloc_arr _ _ _ Hin) as Hna.
  assert (R : h_next h0 <= f2 n < h_next h2) by (destruct (I4 _ Hna) as [E|[E _]]; [contradiction|exact E]).
  unfold set_elem. rewrite Hl.
  destruct (Nat.ltb_spec i (length l)); [|lia].
  eexists. split; [reflexivity|].
  set (h3 := hset _ _ _).
  assert (C : forall a, a <> f2 n -> h_cell h3 a = h_cell h2 a).
  { intros a Hne. cbn. destruct (Z.eqb_spec a (f2 n)); [contradiction|reflexivity]. }
  assert (C' : h_cell h3 (f2 n) = Some (OArr (upd_nth l i (Some v)))) by (cbn; now rewrite Z.eqb_refl).
  assert (A : allocs (done ++ [x]) = allocs done).
  { rewrite allocs_app. destruct Hx as [-> | ->]; cbn; apply app_nil_r. }
  assert (E : forall n' j, In n' (allocs done) -> elem_at h2 (f2 n') j = elem_at h (f n') j ->
     elem_at h3 (f2 n') j = elem_at h (f n') j).
  { intros n' j Hn' E. destruct (Z.eq_dec (f2 n') (f2 n)) as [En|En].
    - assert (n' = n) by (apply I5; auto; congruence). subst n'.
      rewrite <- E. unfold elem_at at 1 2. rewrite C', Hl.
      destruct (Nat.eq_dec i j) as [<-|Hij].
      + rewrite upd_nth_same by lia. rewrite <- Hv, <- E. unfold elem_at. now rewrite Hl.
      + now rewrite upd_nth_other by assumption.
    - rewrite <- E. apply elem_ext. now apply C. }
  assert (Enew : elem_at h3 (f2 n) i = elem_at h (f n) i).
  { unfold elem_at at 1. rewrite C', upd_nth_same by lia. congruence. }
  constructor; rewrite ?A; auto.
  - intros a Ha. rewrite C by lia. auto.
  - intros a Ha. rewrite C by (cbn in Ha; lia). apply I3. exact Ha.
  - intros n' Hn'. destruct (I4 _ Hn') as [E'|[E1 E2]]; [now left|right]. split; [exact E1|].
    destruct (Z.eq_dec (f2 n') (f2 n)) as [En|En]; [rewrite En, C'; discriminate|].
    rewrite C by assumption. assumption.
  - intros n'. rewrite in_app_iff. cbn [In]. intros [Hi'|[Hi'|[]]];
      [|exfalso; destruct Hx; subst; discriminate].
    destruct (I8 _ Hi') as [E1 E2]. split; [|exact E2].
    rewrite <- E1. apply text_ext. apply C.
    intros En. pose proof (in_alloc_str _ _ Hi').
    rewrite En in E1. unfold text_at in E1 at 1. rewrite Hl in E1.
    destruct (Z.eqb_spec (f2 n) 0); [contradiction|]. congruence.
  - intros n' k'. rewrite in_app_iff. cbn [In]. intros [Hi'|[Hi'|[]]];
      [|exfalso; destruct Hx; subst; discriminate].
    destruct (Z.eq_dec (f2 n') (f2 n)) as [En|En].
    + rewrite En, C'. assert (n' = n) by (apply I5; eauto using in_alloc_arr; congruence).
      subst n'. destruct (I9 _ _ Hi') as (l2 & E2 & E3 & _).
      rewrite Hl in E2. injection E2 as <-.
      exists (upd_nth l i (Some v)). rewrite upd_nth_length. auto.
    + rewrite C by assumption. auto.
  - intros n' j. rewrite in_app_iff. cbn [In]. intros [Hi'|[Hi'|[]]].
    + apply E; auto. eapply Hcl. eauto.
    + destruct Hx as [-> | ->]; [|discriminate]. injection Hi' as <- <-. exact Enew.
  - intros n' j. rewrite in_app_iff. cbn [In]. intros [Hi'|[Hi'|[]]].
    + apply E; auto. eapply Hcl. eauto.
    + destruct Hx as [-> | ->]; [discriminate|]. injection Hi' as <- <-. exact Enew.
Qed.

Lemma good_ins_unpack : forall h f h0 f0 done h2 f2 x m p d,
  good_heap h0 -> closed done -> Inv h f h0 f0 done h2 f2 ->
  (match x with
   | IStr n => ~ In n (allocs done)
   | IAlloc n _ => ~ In n (allocs done)
   | IDbl n i | IInt n i => exists k, In (IAlloc n k) done /\ (i < k)%nat
   end) ->
  good_ins h f x -> data h f x = Some d -> mload m p (length d) = d ->
  exists h3 f3, unpack_ins m x (h2, f2, p) = Some (h3, f3, p + Z.of_nat (length d)) /\
    closed (done ++ [x]) /\ Inv h f h0 f0 (done ++ [x]) h3 f3.
Proof.
  intros h f h0 f0 done h2 f2 x m p d Hh Hcl HI Hs Hg Hd Hm.
  assert (Hcl' : closed (done ++ [x])).
  { intros n i [Hin|Hin]; rewrite allocs_app, in_app_iff; rewrite in_app_iff in Hin;
      cbn [In] in Hin; destruct Hin as [Hin|[->|[]]].
    - left. eapply Hcl; eauto.
    - destruct Hs as (k & Hin & _). left. eauto using in_alloc_arr.
    - left. eapply Hcl; eauto.
    - destruct Hs as (k & Hin & _). left. eauto using in_alloc_arr. }
  destruct x.
  - destruct (good_string_data h f n Hg) as (s & Et & Ht & Ed & _).
    assert (d = string_bytes s) by congruence. clear Hd. subst d.
    cbn [unpack_ins]. rewrite (unpack_string_bytes s m p Ht Hm).
    destruct s as [cs|]; cbn [string_res].
    + pose proof (Inv_alloc h f h0 f0 done h2 f2 n (OStr (cs ++ [0])) (IStr n) Hh Hcl HI Hs eq_refl) as HA.
      destruct (halloc h2 (OStr (cs ++ [0]))) as [h3 a] eqn:E.
      do 2 eexists. split; [reflexivity|]. split; [exact Hcl'|]. apply HA.
      * intros _. exists (cs ++ [0]), cs. split; [reflexivity|]. split; [|exact Et].
        apply (cstring_text cs []). apply Ht.
      * intros k Hk. discriminate.
      * now left.
    + do 2 eexists. split; [reflexivity|]. split; [exact Hcl'|].
      apply Inv_null; auto.
  - destruct Hg as (v & Ev & Rv). cbn [data] in Hd. rewrite Ev in Hd. cbn [bind] in Hd.
    assert (d = le_bytes 8 v) by congruence. clear Hd. subst d.
    rewrite le_bytes_length in *. cbn [unpack_ins].
    rewrite (unpack_double_ok m p v Rv Hm). destruct Hs as (k & Hin & Hi).
    destruct (Inv_elem h f h0 f0 done h2 f2 n i k v (IDbl n i) Hcl HI Hin Hi Ev (or_introl eq_refl))
      as (h3 & E3 & HI3).
    rewrite E3. cbn [bind]. do 2 eexists. split; [reflexivity|]. auto.
  - destruct Hg as (v & Ev & Rv). cbn [data] in Hd. rewrite Ev in Hd. cbn [bind] in Hd.
    assert (d = le_bytes 4 v) by congruence. clear Hd. subst d.
    rewrite le_bytes_length in *. cbn [unpack_ins].
    rewrite (unpack_int_ok m p v Rv Hm). destruct Hs as (k & Hin & Hi).
    destruct (Inv_elem h f h0 f0 done h2 f2 n i k v (IInt n i) Hcl HI Hin Hi Ev (or_intror eq_refl))
      as (h3 & E3 & HI3).
    rewrite E3. cbn [bind]. do 2 eexists. split; [reflexivity|]. auto.
  - cbn [data] in Hd. injection Hd as <-. cbn [unpack_ins length].
    pose proof (Inv_alloc h f h0 f0 done h2 f2 n (OArr (repeat None k)) (IAlloc n k) Hh Hcl HI Hs eq_refl) as HA.
    destruct (halloc h2 (OArr (repeat None k))) as [h3 a] eqn:E.
    do 2 eexists. split; [rewrite Z.add_0_r; reflexivity|]. split; [exact Hcl'|]. apply HA.
    + discriminate.
    + intros k' Hk. now injection Hk as <-.
    + right. eauto.
Qed.

Lemma unpack_prog_ok : forall l h f h0 f0 done h2 f2 m p d,
  good_heap h0 -> closed done -> Inv h f h0 f0 done h2 f2 -> scoped done l ->
  Forall (good_ins h f) l -> datas h f l = Some d -> mload m p (length d) = d ->
  exists h3 f3, unpack_prog m l (h2, f2, p) = Some (h3, f3, p + Z.of_nat (length d)) /\
    Inv h f h0 f0 (done ++ l) h3 f3.
Proof.
  induction l as [|x tl IH]; intros h f h0 f0 done h2 f2 m p d Hh Hcl HI Hs Hg Hd Hm.
  - cbn [datas] in Hd. injection Hd as <-. exists h2, f2. cbn [unpack_prog length].
    rewrite Z.add_0_r, app_nil_r. auto.
  - cbn [datas] in Hd. inversion Hg as [|x' tl' Hg1 Hg2]; subst.
    destruct (data h f x) as [d1|] eqn:E1; [|discriminate]. cbn [bind] in Hd.
    destruct (datas h f tl) as [d2|] eqn:E2; [|discriminate]. cbn [bind] in Hd.
    injection Hd as <-. destruct Hs as [Hs1 Hs2].
    apply mload_sub in Hm. destruct Hm as (Hm1 & Hm2 & _).
    destruct (good_ins_unpack h f h0 f0 done h2 f2 x m p d1 Hh Hcl HI Hs1 Hg1 E1 Hm1)
      as (h3 & f3 & U & Hcl3 & HI3).
    cbn [unpack_prog]. rewrite U. cbn [bind].
    destruct (IH h f h0 f0 (done ++ [x]) h3 f3 m (p + Z.of_nat (length d1)) d2 Hh Hcl3 HI3 Hs2 Hg2 E2 Hm2)
      as (h4 & f4 & U4 & HI4).
    exists h4, f4. rewrite U4, app_length, <- app_assoc in *. cbn [app] in HI4.
    split; [|exact HI4]. apply f_equal. apply f_equal2; [reflexivity|lia].
Qed.

Lemma Inv_start : forall h f h0 f0, good_heap h0 -> Inv h f h0 f0 [] h0 f0.
Proof.
  intros h f h0 f0 [G1 G2].
  constructor; try (intros; lia); auto; try (intros * []); intros a Ha; lia.
Qed.

(* ------------------------------------------------------------ freeing *)

Lemma hfree_ok : forall h a, (a = 0 \/ h_cell h a <> None) ->
  exists h', hfree h a = Some h' /\ h_next h' = h_next h /\
    forall x, h_cell h' x = if (x =? a) && negb (a =? 0) then None else h_cell h x.
Proof.
  intros h a H. unfold hfree. destruct (Z.eqb_spec a 0) as [E|E].
  - exists h. repeat split. intros x. now rewrite andb_false_r.
  - destruct (h_cell h a) eqn:Ec; [|destruct H; [contradiction|now contradiction H]].
    eexists. repeat split. intros x. cbn. now rewrite andb_true_r.
Qed.

(** Freeing distinct allocated addresses (and NULLs). *)
Lemma hfrees_ok : forall l h,
  (forall a, In a l -> a = 0 \/ h_cell h a <> None) ->
  NoDup (filter (fun a => negb (a =? 0)) l) ->
  exists h', hfrees h l = Some h' /\
    forall x, h_cell h' x =
      if existsb (fun a => (x =? a) && negb (a =? 0)) l then None else h_cell h x.
Proof.
  induction l as [|a tl IH]; intros h Ha Hnd; cbn [hfrees existsb].
  - exists h. auto.
  - destruct (hfree_ok h a) as (h1 & E1 & _ & C1); [apply Ha; now left|].
    rewrite E1. cbn [bind]. cbn [filter] in Hnd.
    destruct (IH h1) as (h2 & E2 & C2).
    + intros b Hb. destruct (Ha b (or_intror Hb)) as [|Hc]; [now left|].
      destruct (Z.eq_dec b 0); [now left|right]. rewrite C1.
      destruct (Z.eqb_spec b a) as [->|]; [|exact Hc]. cbn [andb].
      destruct (Z.eqb_spec a 0); [contradiction|]. cbn [negb] in *.
      apply NoDup_cons_iff in Hnd. destruct Hnd as [Hn _]. exfalso. apply Hn.
      apply filter_In. split; [assumption|]. now destruct (Z.eqb_spec a 0).
    + destruct (negb (a =? 0)); [|exact Hnd]. now apply NoDup_cons_iff in Hnd.
    + exists h2. split; [exact E2|]. intros x. rewrite C2, C1.
      destruct ((x =? a) && negb (a =? 0)), (existsb _ tl); reflexivity.
Qed.

Lemma hfrees_app : forall l1 l2 h, hfrees h (l1 ++ l2) = bind (hfrees h l1) (fun h => hfrees h l2).
Proof.
  induction l1 as [|a tl IH]; intros l2 h; cbn [hfrees app bind]; [reflexivity|].
  destruct (hfree h a); cbn [bind]; [apply IH|reflexivity].
Qed.
