From Coq Require Import ZArith List Bool Lia Arith.
From Verif Require Import Model_Exchange Spec_Exchange.
Import ListNotations.
Open Scope nat_scope.

Lemma put_spec : forall A (l : list A) i v, i < length l -> put l i v = firstn i l ++ v :: skipn (S i) l.
Proof.
  induction l as [|x l IH]; intros i v H; [cbn in H; lia|]. destruct i; [reflexivity|].
  cbn [put firstn app skipn]. rewrite IH by (cbn in H; lia). reflexivity.
Qed.
Lemma nth_seq : forall n a j, j < n -> nth_error (seq a n) j = Some (a + j).
Proof.
  induction n as [|n IH]; intros a j H; [lia|]. destruct j; cbn [seq nth_error]; [f_equal; lia|].
  rewrite IH by lia. f_equal; lia.
Qed.
Lemma nth_app_r : forall A (l l' : list A) i, nth_error (l ++ l') (length l + i) = nth_error l' i.
Proof. induction l as [|x l IH]; intros l' i; [reflexivity|]. apply IH. Qed.
Lemma nth_snoc : forall A (l : list A) x k y, nth_error (l ++ [x]) k = Some y -> nth_error l k = Some y \/ (k = length l /\ y = x).
Proof.
  intros A l x k y H. destruct (Nat.lt_ge_cases k (length l)) as [L|L].
  - left. rewrite nth_error_app1 in H by exact L. exact H.
  - right. rewrite nth_error_app2 in H by exact L. destruct (k - length l) as [|m] eqn:E; [|destruct m; discriminate].
    cbn in H. split; [lia|congruence].
Qed.
Lemma nth_mono : forall A (l l' : list A) k y, nth_error l k = Some y -> nth_error (l ++ l') k = Some y.
Proof. intros A l l' k y H. rewrite nth_error_app1; [exact H|]. apply nth_error_Some. congruence. Qed.
Lemma nth_lt : forall A (l : list A) k y, nth_error l k = Some y -> k < length l.
Proof. intros A l k y H. apply nth_error_Some. congruence. Qed.
Lemma nth_ex : forall A (l : list A) k, k < length l -> exists y, nth_error l k = Some y.
Proof. intros A l k H. destruct (nth_error l k) as [y|] eqn:E; [now exists y|]. apply nth_error_None in E. lia. Qed.

Definition flagged (ps : list (Z * bool)) (np : nat) := filter (fun x => snd (fst x)) (combine ps (seq np (length ps))).
Definition cnt (ps : list (Z * bool)) := length (filter snd ps).
Lemma flagged_cons : forall l f ps np, flagged ((l, f) :: ps) np = if (f : bool) then ((l, f), np) :: flagged ps (S np) else flagged ps (S np).
Proof. intros l f ps np. unfold flagged. cbn. destruct f; reflexivity. Qed.
Lemma cnt_cons : forall l f ps, cnt ((l, f) :: ps) = if (f : bool) then S (cnt ps) else cnt ps.
Proof. intros l f ps. unfold cnt. cbn. destruct f; reflexivity. Qed.
Lemma flagged_length : forall ps np, length (flagged ps np) = cnt ps.
Proof.
  induction ps as [|[l f] ps IH]; intros np; [reflexivity|]. rewrite flagged_cons, cnt_cons.
  destruct f; cbn [length]; rewrite IH; reflexivity.
Qed.
Lemma flagged_levels : forall ps np, map (fun x => fst (fst x)) (flagged ps np) = map fst (filter snd ps).
Proof.
  induction ps as [|[l f] ps IH]; intros np; [reflexivity|]. rewrite flagged_cons.
  destruct f; cbn [filter snd map fst]; rewrite IH; reflexivity.
Qed.

Section Values.
  Variable V : Type.
  Notation heap := (heap V).

  Lemma alloc_buffers_ok : forall ps zz pd (h : heap), zz + cnt ps = length pd ->
    exists h', alloc_buffers V ps zz pd h = Done (firstn zz pd ++ map Some (seq (fresh V h) (cnt ps)), h') /\
      fresh V h' = fresh V h + cnt ps /\
      forall i, block V h' i = if (fresh V h <=? i) && (i <? fresh V h + cnt ps) then Some [None] else block V h i.
  Proof.
    induction ps as [|[l f] ps IH]; intros zz pd h H.
    - exists h. cbn [alloc_buffers cnt filter length seq map]. unfold cnt in *. cbn [filter length] in *. rewrite firstn_all2 by lia.
      cbn [seq map]. rewrite app_nil_r.
      split; [reflexivity|]. split; [lia|]. intros i.
      destruct (Nat.leb_spec (fresh V h) i); destruct (Nat.ltb_spec i (fresh V h + 0)); try reflexivity; lia.
    - rewrite cnt_cons in *. cbn [alloc_buffers]. destruct f.
      + assert (L : Nat.ltb zz (length pd) = true) by (apply Nat.ltb_lt; lia).
        unfold check. rewrite L. unfold alloc.
        assert (LP : length (put pd zz (Some (fresh V h))) = length pd).
        { rewrite put_spec by lia. rewrite app_length, firstn_length. cbn [length]. rewrite skipn_length. lia. }
        match goal with |- context [alloc_buffers V ps (S zz) ?pp ?hh] => destruct (IH (S zz) pp hh) as (h' & E & F & B); [lia|] end. exists h'. rewrite E. cbn [fresh] in *. split; [|split].
        * f_equal. f_equal. cbn [seq map]. rewrite put_spec by lia.
          assert (FP : length (firstn zz pd) = zz) by (rewrite firstn_length; lia).
          change (Some (fresh V h) :: map Some (seq (S (fresh V h)) (cnt ps))) with ([Some (fresh V h)] ++ map Some (seq (S (fresh V h)) (cnt ps))).
          rewrite app_assoc. f_equal.
          change (firstn zz pd ++ Some (fresh V h) :: skipn (S zz) pd) with (firstn zz pd ++ [Some (fresh V h)] ++ skipn (S zz) pd).
          rewrite app_assoc, firstn_app.
          assert (X : length (firstn zz pd ++ [Some (fresh V h)]) = S zz) by (rewrite app_length, FP; cbn [length]; lia).
          rewrite X, Nat.sub_diag. change (firstn 0 (skipn (S zz) pd)) with (@nil (option nat)). rewrite app_nil_r. apply firstn_all2. lia.
        * lia.
        * intros i. rewrite B. cbn [block].
          destruct (Nat.leb_spec (S (fresh V h)) i); destruct (Nat.ltb_spec i (S (fresh V h) + cnt ps));
            destruct (Nat.leb_spec (fresh V h) i); destruct (Nat.ltb_spec i (fresh V h + S (cnt ps)));
            destruct (Nat.eqb_spec i (fresh V h)); cbn; try reflexivity; lia.
      + apply IH. exact H.
  Qed.

  Lemma pack_ok : forall ps np zz mn mx ti dat b n (h : heap),
    zz + cnt ps = n -> (forall x, In x (flagged ps np) -> (fst (fst x) <= mx)%Z) ->
    (forall j, zz <= j < n -> exists v, block V h (b + 4 + j) = Some [v]) ->
    exists h', pack V ps np zz mn mx ti dat (map Some (seq (b + 4) n)) h = Done h' /\ fresh V h' = fresh V h /\
      (forall i, ~ (b + 4 + zz <= i < b + 4 + n) -> block V h' i = block V h i) /\
      forall j x, nth_error (flagged ps np) j = Some x ->
        block V h' (b + 4 + zz + j) = Some [Some (dat (snd x) (ti && (fst (fst x) =? mn - 1)%Z))].
  Proof.
    induction ps as [|[l f] ps IH]; intros np zz mn mx ti dat b n h N LV LI.
    - exists h. cbn [pack]. split; [reflexivity|]. split; [reflexivity|]. split; [reflexivity|]. intros j x H. destruct j; discriminate.
    - rewrite cnt_cons in N. rewrite flagged_cons in *. cbn [pack]. destruct f.
      + assert (L : (l <=? mx)%Z = true) by (apply Z.leb_le; exact (LV ((l, true), np) (or_introl eq_refl))).
        unfold check. rewrite L. unfold get. rewrite nth_error_map, nth_seq by lia. cbn [option_map bind].
        destruct (LI zz ltac:(lia)) as [v Ev]. unfold store. rewrite Ev. cbn [bind].
        match goal with |- context [pack V ps (S np) (S zz) mn mx ti dat _ ?hh] => set (h1 := hh) end.
        destruct (IH (S np) (S zz) mn mx ti dat b n h1) as (h' & E & F & O & D).
        * lia.
        * intros x Hx. apply LV. right. exact Hx.
        * intros j Hj. unfold h1. cbn [block]. destruct (Nat.eqb_spec (b + 4 + j) (b + 4 + zz)); [lia|]. apply LI. lia.
        * exists h'. split; [exact E|]. split; [rewrite F; reflexivity|]. split.
          -- intros i Hi. rewrite O by lia. unfold h1. cbn [block]. destruct (Nat.eqb_spec i (b + 4 + zz)); [lia|reflexivity].
          -- intros j x Hx. destruct j as [|j].
             ++ cbn in Hx. assert (Ex : x = ((l, true), np)) by congruence. rewrite Ex. rewrite O by lia. unfold h1. cbn [block].
                replace (b + 4 + zz + 0) with (b + 4 + zz) by lia. rewrite Nat.eqb_refl. reflexivity.
             ++ cbn in Hx. rewrite <- (D j x Hx). f_equal. lia.
      + apply IH; assumption.
  Qed.

  Lemma pack_not_blocked : forall ps np zz mn mx ti dat pd (h : heap), pack V ps np zz mn mx ti dat pd h <> Blocked.
  Proof.
    induction ps as [|[l f] ps IH]; intros np zz mn mx ti dat pd h; cbn [pack]; [discriminate|]. destruct f; [|apply IH].
    unfold check. destruct (l <=? mx)%Z; [|discriminate]. unfold get. destruct (nth_error pd zz) as [[i|]|]; cbn [bind]; try discriminate.
    unfold store. destruct (block V h i); cbn [bind]; [apply IH|discriminate].
  Qed.
  Lemma free_not_blocked : forall ps zz pd (h : heap), free_buffers V ps zz pd h <> Blocked.
  Proof.
    induction ps as [|[l f] ps IH]; intros zz pd h; cbn [free_buffers]; [discriminate|]. destruct f; [|apply IH].
    unfold get. destruct (nth_error pd zz) as [[i|]|]; cbn [bind]; try discriminate.
    unfold free. destruct (block V h i); cbn [bind]; [apply IH|discriminate].
  Qed.
  Lemma free_dead : forall ps zz pd (h : heap), (forall i, block V h i = None) ->
    free_buffers V ps zz pd h = Error \/ free_buffers V ps zz pd h = Done h.
  Proof.
    induction ps as [|[l f] ps IH]; intros zz pd h H; cbn [free_buffers]; [now right|]. destruct f; [|now apply IH].
    unfold get. destruct (nth_error pd zz) as [[i|]|]; cbn [bind]; try (now left). unfold free. rewrite H. now left.
  Qed.

  Lemma free_buffers_ok : forall ps zz b n (h : heap), zz + cnt ps = n ->
    (forall j, zz <= j < n -> exists v, block V h (b + 4 + j) = Some [v]) ->
    exists h', free_buffers V ps zz (map Some (seq (b + 4) n)) h = Done h' /\ fresh V h' = fresh V h /\
      forall i, block V h' i = if (b + 4 + zz <=? i) && (i <? b + 4 + n) then None else block V h i.
  Proof.
    induction ps as [|[l f] ps IH]; intros zz b n h N LI.
    - exists h. cbn [free_buffers]. unfold cnt in N. cbn in N. split; [reflexivity|]. split; [reflexivity|]. intros i.
      destruct (Nat.leb_spec (b + 4 + zz) i); destruct (Nat.ltb_spec i (b + 4 + n)); cbn; try reflexivity; lia.
    - rewrite cnt_cons in N. cbn [free_buffers]. destruct f; [|now apply IH].
      unfold get. rewrite nth_error_map, nth_seq by lia. cbn [option_map bind].
      destruct (LI zz ltac:(lia)) as [v Ev]. unfold free. rewrite Ev. cbn [bind].
      match goal with |- context [free_buffers V ps (S zz) _ ?hh] => set (h1 := hh) end.
      destruct (IH (S zz) b n h1) as (h' & E & F & B).
      + lia.
      + intros j Hj. unfold h1. cbn [block]. destruct (Nat.eqb_spec (b + 4 + j) (b + 4 + zz)); [lia|]. apply LI. lia.
      + exists h'. split; [exact E|]. split; [rewrite F; reflexivity|]. intros i. rewrite B. unfold h1. cbn [block].
        destruct (Nat.leb_spec (b + 4 + S zz) i); destruct (Nat.leb_spec (b + 4 + zz) i); destruct (Nat.ltb_spec i (b + 4 + n));
          destruct (Nat.eqb_spec i (b + 4 + zz)); cbn; try reflexivity; lia.
  Qed.

  Lemma read_mirrors_ok : forall levels mn mx (fl : list ((Z * bool) * nat)) a (h : heap) (val : (Z * bool) * nat -> V),
    (forall j x, nth_error fl j = Some x -> block V h (a + j) = Some [Some (val x)]) ->
    read_mirrors V levels mn mx (map (fun x => fst (fst x)) fl) (map Some (seq a (length fl))) h =
      Done (map (fun x => if in_range levels mn mx (fst (fst x)) then Some (val x) else None) fl).
  Proof.
    intros levels mn mx. induction fl as [|x fl IH]; intros a h val H; [reflexivity|]. cbn [map length seq read_mirrors].
    assert (E0 := H 0 x eq_refl). rewrite Nat.add_0_r in E0.
    rewrite (IH (S a) h val).
    - destruct (in_range levels mn mx (fst (fst x))); [|reflexivity]. unfold load. rewrite E0. reflexivity.
    - intros j y Hy. rewrite <- (H (S j) y Hy). f_equal. lia.
  Qed.

  Definition msg_fits (m : msg V) (levels : bool) (mn mx : Z) : Prop := m_levels V m = levels /\ m_min V m = mn /\ m_max V m = mx.
  Lemma receive_ok : forall levels mn mx k (sent : nat -> list (msg V)) gs old, length old = length gs ->
    (forall g m, In g gs -> in_range levels mn mx (glevel g) = true -> nth_error (sent (owner g)) k = Some m ->
       msg_fits m levels mn mx /\ mirror g < length (m_data V m)) ->
    (receive V levels mn mx k sent gs old = Blocked /\
       exists g, In g gs /\ in_range levels mn mx (glevel g) = true /\ nth_error (sent (owner g)) k = None) \/
    (exists vs, receive V levels mn mx k sent gs old = Done vs /\ length vs = length gs /\
       forall i g, nth_error gs i = Some g -> in_range levels mn mx (glevel g) = true ->
         exists m v, nth_error (sent (owner g)) k = Some m /\ nth_error (m_data V m) (mirror g) = Some v /\ nth_error vs i = Some v).
  Proof.
    intros levels mn mx k sent. induction gs as [|g gs IH]; intros old L H.
    - right. destruct old; [|discriminate]. exists []. cbn. split; [reflexivity|]. split; [reflexivity|]. intros i g E. destruct i; discriminate.
    - destruct old as [|o old]; [discriminate|]. cbn [receive].
      assert (IH' := IH old ltac:(cbn in L; lia) (fun g' m Hg => H g' m (or_intror Hg))).
      destruct (in_range levels mn mx (glevel g)) eqn:R.
      + destruct (nth_error (sent (owner g)) k) as [m|] eqn:M.
        * destruct (H g m (or_introl eq_refl) R M) as ((A & B & C) & D).
          assert (CK : Bool.eqb (m_levels V m) levels && (m_min V m =? mn)%Z && (m_max V m =? mx)%Z = true).
          { rewrite A, B, C, eqb_reflx, !Z.eqb_refl. reflexivity. }
          unfold check. rewrite CK. unfold get. destruct (nth_ex _ _ _ D) as [v Ev]. rewrite Ev. cbn [bind].
          destruct IH' as [(E & g' & Hg & X)|(vs & E & LV & X)].
          -- left. rewrite E. split; [reflexivity|]. exists g'. split; [now right|exact X].
          -- right. rewrite E. cbn [bind]. exists (v :: vs). split; [reflexivity|]. split; [cbn; lia|]. intros i g' Hi R'. destruct i as [|i].
             ++ cbn in Hi. assert (g' = g) by congruence. subst g'. exists m, v. cbn. auto.
             ++ exact (X i g' Hi R').
        * left. split; [reflexivity|]. exists g. split; [now left|]. auto.
      + cbn [bind]. destruct IH' as [(E & g' & Hg & X)|(vs & E & LV & X)].
        * left. rewrite E. split; [reflexivity|]. exists g'. split; [now right|exact X].
        * right. rewrite E. cbn [bind]. exists (o :: vs). split; [reflexivity|]. split; [cbn; lia|]. intros i g' Hi R'. destruct i as [|i].
          -- cbn in Hi. assert (g' = g) by congruence. subst g'. congruence.
          -- exact (X i g' Hi R').
  Qed.

  Lemma unpack_ok : forall mn mx ti gs mem rem, length mem = length gs -> length rem = length gs ->
    exists rem', unpack V gs mem mn mx ti rem = Done rem' /\ length rem' = length gs /\
      forall i g q a b, nth_error gs i = Some g -> nth_error mem i = Some q -> nth_error rem i = Some (a, b) ->
        nth_error rem' i = Some (if (mn - 1 <=? glevel g)%Z then if ti && (glevel g =? mn - 1)%Z then (a, q) else (q, b) else (a, b)).
  Proof.
    intros mn mx ti. induction gs as [|g gs IH]; intros mem rem L1 L2.
    - destruct mem; [|discriminate]. destruct rem; [|discriminate]. exists []. cbn. split; [reflexivity|]. split; [reflexivity|].
      intros i g q a b E. destruct i; discriminate.
    - destruct mem as [|q mem]; [discriminate|]. destruct rem as [|[a b] rem]; [discriminate|].
      destruct (IH mem rem) as (rem' & E & L & X); [cbn in *; lia|cbn in *; lia|]. cbn [unpack]. rewrite E. cbn [bind].
      eexists. split; [reflexivity|]. split; [cbn; lia|]. intros i g' q' a' b' H1 H2 H3. destruct i as [|i]; [|exact (X i g' q' a' b' H1 H2 H3)].
      cbn in H1, H2, H3. replace g' with g by congruence. replace q' with q by congruence. replace a' with a by congruence. replace b' with b by congruence.
      reflexivity.
  Qed.
End Values.
