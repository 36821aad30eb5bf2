From Coq Require Import ZArith List Bool Lia Arith.
From Verif Require Import Model_Exchange Spec_Exchange Proof_Exchange.
Import ListNotations.
Open Scope nat_scope.

Lemma exchanges_app : forall l l', exchanges (l ++ l') = exchanges l ++ exchanges l'.
Proof. intros l l'. unfold exchanges. apply flat_map_app. Qed.
Lemma protocol_app : forall l s l' s', protocol s (l ++ l') s' -> exists m, protocol s l m /\ protocol m l' s'.
Proof.
  induction l as [|o l IH]; intros s l' s' H; [exists s; split; [constructor|exact H]|].
  cbn in H. inversion H as [|? ? s1 ? ? N P]; subst. destruct (IH _ _ _ P) as (m & A & B). exists m. split; [econstructor; eassumption|exact B].
Qed.
Lemma protocol_det : forall l s a b, protocol s l a -> protocol s l b -> a = b.
Proof.
  induction l as [|o l IH]; intros s a b H1 H2; inversion H1 as [|? ? x ? ? N1 P1]; inversion H2 as [|? ? y ? ? N2 P2]; subst; [reflexivity|].
  assert (x = y) by congruence. subst. eapply IH; eassumption.
Qed.
Lemma protocol_snoc : forall l s m o m', protocol s l m -> next m o = Some m' -> protocol s (l ++ [o]) m'.
Proof.
  induction l as [|x l IH]; intros s m o m' H N; inversion H; subst; cbn; econstructor; try eassumption; [constructor|].
  eapply IH; eassumption.
Qed.

Section Inv.
  Variable V : Type.
  Variable lay : layout.
  Variable prog tail : list op.
  Variable sf : phase.
  Hypothesis LO : layout_ok lay.
  Hypothesis LV : levels_ok lay prog.
  Hypothesis PR : protocol Absent prog sf.
  Hypothesis TB : tail = [] \/ exists o rest, tail = o :: rest /\ forbidden sf o.

  Definition obj (p b : nat) (e : exchange) (h : heap V) : Prop :=
    e_id e = b /\ pd_id e = b + 1 /\ gd_id e = b + 2 /\ gm_id e = b + 3 /\
    patch_data e = map Some (seq (b + 4) (num_exchange lay p)) /\ b + 4 + num_exchange lay p <= fresh V h /\
    (forall i, ~ (b <= i < b + 4 + num_exchange lay p) -> block V h i = None) /\
    block V h b = Some [] /\ block V h (b + 1) = Some [] /\ block V h (b + 2) = Some [] /\
    (exists mem, block V h (b + 3) = Some mem /\ length mem = num_ghost lay p) /\
    (forall j, 0 <= j < num_exchange lay p -> exists v, block V h (b + 4 + j) = Some [v]).

  Definition lo (mn : Z) (ti : bool) : Z := if ti then (mn - 1)%Z else mn.
  Definition lev (l mx : Z) : bool := negb ((l <=? global_minlevel lay)%Z && (global_maxlevel lay <=? mx)%Z).
  Definition good_msg (p : nat) (x : Z * Z * bool) (d : nat -> bool -> V) (m : msg V) : Prop :=
    let '(mn, mx, ti) := x in
    m = mkM V (lev (lo mn ti) mx) (lo mn ti) mx
          (map (fun x => if in_range (lev (lo mn ti) mx) (lo mn ti) mx (fst (fst x))
                         then Some (d (snd x) (ti && (fst (fst x) =? mn - 1)%Z)) else None) (boundary_patches lay p)).

  Definition active (s : phase) : nat := match s with Active _ _ _ => 1 | _ => 0 end.
  Definition state (p : nat) (s : phase) (pr : proc V) (done : list op) : Prop :=
    match s with
    | Absent => forall i, block V (hp V pr) i = None
    | Idle => exists b e, ex V pr = Some e /\ async e = None /\ inside_async e = false /\ obj p b e (hp V pr) /\ length (remote V pr) = num_ghost lay p
    | Active mn mx ti => exists b e k, ex V pr = Some e /\ async e = Some k /\ S k = count V pr /\ inside_async e = true /\
        by_levels e = lev (lo mn ti) mx /\ xmin e = lo mn ti /\ xmax e = mx /\
        obj p b e (hp V pr) /\ length (remote V pr) = num_ghost lay p /\ nth_error (exchanges done) k = Some (mn, mx, ti)
    end.
  Definition local (p : nat) (pr : proc V) (se : list (msg V)) (be : list (nat -> bool -> V)) (en : list (list (option V * option V))) : Prop :=
    exists done t s, prog = done ++ t /\ todo V pr = t ++ tail /\ protocol Absent done s /\
      count V pr = length (exchanges done) /\ length se = count V pr /\ length be = count V pr /\ length en + active s = count V pr /\
      state p s pr done /\
      (forall k x d m, nth_error be k = Some d -> nth_error se k = Some m -> nth_error (exchanges prog) k = Some x -> good_msg p x d m).
  Definition inv (c : config V) : Prop :=
    (forall p, p < size lay -> local p (procs V c p) (sent V c p) (begins V c p) (ends V c p)) /\
    (forall r k rem mn mx ti, r < size lay -> nth_error (ends V c r) k = Some rem -> nth_error (exchanges prog) k = Some (mn, mx, ti) ->
       delivered lay (begins V c) r k mn ti rem).

  Lemma inv_initial : forall d0, inv (initial V (prog ++ tail) d0).
  Proof.
    intros d0. split.
    - intros p _. exists [], prog, Absent. cbn. repeat split; try constructor. intros k x d m H. destruct k; discriminate.
    - intros r k rem mn mx ti _ H. destruct k; discriminate.
  Qed.

  Lemma set_same : forall T (f : nat -> T) p x, set f p x p = x.
  Proof. intros. unfold set. now rewrite Nat.eqb_refl. Qed.
  Lemma set_other : forall T (f : nat -> T) p x q, q <> p -> set f p x q = f q.
  Proof. intros T f p x q H. unfold set. destruct (Nat.eqb_spec q p); [contradiction|reflexivity]. Qed.

  Lemma delivered_mono : forall be be' r k mn ti rem, delivered lay be r k mn ti rem ->
    (forall q y, nth_error (be q) k = Some y -> nth_error (be' q) k = Some y) -> @delivered V lay be' r k mn ti rem.
  Proof.
    intros be be' r k mn ti rem H M i g Hi Hl. destruct (H i g Hi Hl) as (dat & np & a & b & A & B & C & D).
    exists dat, np, a, b. auto.
  Qed.

  Lemma inv_update : forall c p pr se be en, p < size lay -> inv c -> local p pr se be en ->
    (forall k y, nth_error (begins V c p) k = Some y -> nth_error be k = Some y) ->
    (forall k rem mn mx ti, nth_error en k = Some rem -> nth_error (exchanges prog) k = Some (mn, mx, ti) ->
       nth_error (ends V c p) k = Some rem \/ delivered lay (begins V c) p k mn ti rem) ->
    inv (mkC V (set (procs V c) p pr) (set (sent V c) p se) (set (begins V c) p be) (set (ends V c) p en)).
  Proof.
    intros c p pr se be en P (A & B) L M E. split; cbn.
    - intros q Q. destruct (Nat.eq_dec q p) as [->|N]; [rewrite !set_same; exact L|rewrite !set_other by exact N; exact (A q Q)].
    - intros r k rem mn mx ti R H X.
      assert (MO : forall q y, nth_error (begins V c q) k = Some y -> nth_error (set (begins V c) p be q) k = Some y).
      { intros q y Y. destruct (Nat.eq_dec q p) as [->|N]; [rewrite set_same; auto|rewrite set_other by exact N; exact Y]. }
      destruct (Nat.eq_dec r p) as [->|N].
      + rewrite set_same in H. destruct (E k rem mn mx ti H X) as [O|D]; eapply delivered_mono; try exact MO; [|exact D].
        exact (B p k rem mn mx ti P O X).
      + rewrite set_other in H by exact N. eapply delivered_mono; [exact (B r k rem mn mx ti R H X)|exact MO].
  Qed.
  Lemma inv_ext : forall c c', inv c -> (forall p, procs V c' p = procs V c p) -> (forall p, sent V c' p = sent V c p) ->
    (forall p, begins V c' p = begins V c p) -> (forall p, ends V c' p = ends V c p) -> inv c'.
  Proof.
    intros c c' (A & B) E1 E2 E3 E4. split.
    - intros p P. rewrite E1, E2, E3, E4. exact (A p P).
    - intros r k rem mn mx ti R H X. rewrite E4 in H. eapply delivered_mono; [exact (B r k rem mn mx ti R H X)|].
      intros q y. now rewrite E3.
  Qed.
  Lemma set_id : forall T (f : nat -> T) p q, set f p (f p) q = f q.
  Proof. intros. unfold set. destruct (Nat.eqb_spec q p); congruence. Qed.

  (** a process with fewer exchanges begun has more left to do *)
  Lemma behind : forall p q sp sq bp bq ep eq prp prq, local p prp sp bp ep -> local q prq sq bq eq ->
    count V prq < count V prp -> length (todo V prp) < length (todo V prq).
  Proof.
    intros p q sp sq bp bq ep eq prp prq (dp & tp & s1 & A1 & A2 & _ & A3 & _) (dq & tq & s2 & B1 & B2 & _ & B3 & _) L.
    rewrite A2, B2, !app_length. enough (length tp < length tq) by lia.
    destruct (Nat.lt_ge_cases (length tp) (length tq)) as [X|X]; [exact X|exfalso].
    assert (LP : length prog = length dp + length tp) by (rewrite A1 at 1; apply app_length).
    assert (LQ : length prog = length dq + length tq) by (rewrite B1 at 1; apply app_length).
    assert (D : dp = firstn (length dp) dq).
    { assert (E : firstn (length dp) prog = dp) by (rewrite A1 at 1; rewrite firstn_app, Nat.sub_diag, firstn_all; apply app_nil_r).
      rewrite <- E at 1. rewrite B1 at 1. rewrite firstn_app. replace (length dp - length dq) with 0 by lia. apply app_nil_r. }
    assert (C : exchanges dq = exchanges dp ++ exchanges (skipn (length dp) dq)).
    { rewrite <- exchanges_app. f_equal. rewrite D at 1. symmetry. rewrite firstn_skipn. reflexivity. }
    assert (length (exchanges dq) = length (exchanges dp) + length (exchanges (skipn (length dp) dq))) by (rewrite C at 1; apply app_length). lia.
  Qed.

  Lemma setup_ok : forall p (h : heap V), (forall i, block V h i = None) ->
    exists e h', exchange_setup V lay p h = Done (e, h') /\ async e = None /\ inside_async e = false /\ obj p (fresh V h) e h'.
  Proof.
    intros p h H. unfold exchange_setup, allocate_before_exchange, alloc. cbn [patch_data].
    set (f := fresh V h).
    match goal with |- context [alloc_buffers V _ 0 ?pp ?hh] => set (h1 := hh); destruct (alloc_buffers_ok V (patches lay p) 0 pp h1) as (h' & E & F & B) end.
    { rewrite repeat_length. reflexivity. }
    rewrite E. cbn [bind]. eexists _, h'. split; [reflexivity|]. split; [reflexivity|]. split; [reflexivity|].
    assert (F1 : fresh V h1 = f + 4) by (unfold h1; cbn [fresh]; lia).
    rewrite F1 in *. change (cnt (patches lay p)) with (num_exchange lay p) in *.
    assert (BB : forall i, block V h1 i = if i =? f + 3 then Some (repeat None (num_ghost lay p)) else if i =? f + 2 then Some [] else if i =? f + 1 then Some [] else if i =? f then Some [] else None).
    { intros i. unfold h1. cbn [block fresh]. fold f. rewrite H.
      replace (S (S (S f))) with (f + 3) by lia. replace (S (S f)) with (f + 2) by lia. replace (S f) with (f + 1) by lia. reflexivity. }
    assert (NB : forall i, i < f + 4 -> block V h' i = block V h1 i).
    { intros i Hi. rewrite B. destruct (Nat.leb_spec (f + 4) i); [lia|]. reflexivity. }
    unfold obj, set_ptrs. cbn [e_id pd_id gd_id gm_id patch_data firstn app]. cbn [fresh]. fold f.
    split; [reflexivity|]. split; [lia|]. split; [lia|]. split; [lia|]. split; [reflexivity|]. split; [lia|].
    split; [|split; [|split; [|split; [|split]]]].
    - intros i Hi. rewrite B. destruct (Nat.leb_spec (f + 4) i); destruct (Nat.ltb_spec i (f + 4 + num_exchange lay p)); cbn [andb]; try lia; rewrite BB;
        repeat match goal with |- context [?a =? ?b] => destruct (Nat.eqb_spec a b); [lia|] end; reflexivity.
    - rewrite NB, BB by lia. repeat match goal with |- context [?a =? ?b] => destruct (Nat.eqb_spec a b); try lia end. reflexivity.
    - rewrite NB, BB by lia. repeat match goal with |- context [?a =? ?b] => destruct (Nat.eqb_spec a b); try lia end. reflexivity.
    - rewrite NB, BB by lia. repeat match goal with |- context [?a =? ?b] => destruct (Nat.eqb_spec a b); try lia end. reflexivity.
    - exists (repeat None (num_ghost lay p)). rewrite NB, BB by lia. rewrite Nat.eqb_refl. split; [reflexivity|apply repeat_length].
    - intros j Hj. exists None. rewrite B. destruct (Nat.leb_spec (f + 4) (f + 4 + j)); [|lia].
      destruct (Nat.ltb_spec (f + 4 + j) (f + 4 + num_exchange lay p)); [reflexivity|lia].
  Qed.

  Lemma begin_ok : forall p pr b e mn mx ti, ex V pr = Some e -> async e = None -> inside_async e = false -> obj p b e (hp V pr) ->
    (forall x, In x (boundary_patches lay p) -> (fst (fst x) <= mx)%Z) ->
    exists e' h' m, ghost_patches_begin V lay p pr mn mx ti = Done (e', h', m) /\ async e' = Some (count V pr) /\ inside_async e' = true /\
      by_levels e' = lev (lo mn ti) mx /\ xmin e' = lo mn ti /\ xmax e' = mx /\ obj p b e' h' /\ good_msg p (mn, mx, ti) (data V pr) m.
  Proof.
    intros p pr b e mn mx ti X A N (O1 & O2 & O3 & O4 & O5 & O6 & O7 & O8 & O9 & O10 & O11 & O12) L.
    unfold ghost_patches_begin. rewrite X. unfold load at 1. rewrite O1, O8. cbn [bind]. rewrite O5.
    destruct (pack_ok V (patches lay p) 0 0 mn mx ti (data V pr) b (num_exchange lay p) (hp V pr)) as (h' & E & F & U & D).
    { reflexivity. } { exact L. } { exact O12. }
    rewrite E. cbn [bind]. unfold ghost_exchange_begin, load. rewrite O1, U, O8 by lia. cbn [bind]. rewrite A, N. cbn [negb check].
    rewrite O5, map_length, seq_length, Nat.eqb_refl. unfold mirror_levels. rewrite <- (flagged_levels (patches lay p) 0). cbn [check].
    fold (lo mn ti). fold (lev (lo mn ti) mx).
    change (num_exchange lay p) with (cnt (patches lay p)). rewrite <- (flagged_length (patches lay p) 0).
    rewrite (read_mirrors_ok V _ _ _ _ (b + 4) h' (fun x => data V pr (snd x) (ti && (fst (fst x) =? mn - 1)%Z))).
    - cbn [bind]. eexists _, _, _. split; [reflexivity|]. cbn [async inside_async by_levels xmin xmax].
      split; [reflexivity|]. split; [reflexivity|]. split; [reflexivity|]. split; [reflexivity|]. split; [reflexivity|].
      split; [|reflexivity].
      unfold obj. cbn [e_id pd_id gd_id gm_id patch_data].
      split; [first [exact O1 | reflexivity]|]. split; [first [exact O2 | reflexivity]|]. split; [first [exact O3 | reflexivity]|]. split; [first [exact O4 | reflexivity]|]. split; [rewrite flagged_length; reflexivity|].
      split; [lia|]. split; [intros i Hi; rewrite U by lia; apply O7; exact Hi|].
      rewrite !U by lia. split; [first [exact O8 | reflexivity]|]. split; [first [exact O9 | reflexivity]|]. split; [first [exact O10 | reflexivity]|]. split; [first [exact O11 | reflexivity]|].
      intros j Hj. assert (Lj : j < length (flagged (patches lay p) 0)) by (rewrite flagged_length; exact (proj2 Hj)).
      destruct (nth_ex _ _ _ Lj) as [x Hx]. eexists. rewrite <- (D j x Hx). f_equal. lia.
    - intros j x Hx. rewrite <- (D j x Hx). f_equal. lia.
  Qed.

  Lemma delete_ok : forall p b e h, obj p b e h ->
    exists h', exchange_delete V lay p e h = Done h' /\ forall i, block V h' i = None.
  Proof.
    intros p b e h (O1 & O2 & O3 & O4 & O5 & O6 & O7 & O8 & O9 & O10 & (mem & O11 & _) & O12).
    unfold exchange_delete. rewrite O5.
    destruct (free_buffers_ok V (patches lay p) 0 b (num_exchange lay p) h) as (h' & E & F & B).
    { reflexivity. } { exact O12. }
    rewrite E. cbn [bind]. unfold free_after_exchange, load, free. rewrite O1, O2, O3, O4.
    assert (NB : forall i, i < b + 4 -> block V h' i = block V h i).
    { intros i Hi. rewrite B. destruct (Nat.leb_spec (b + 4 + 0) i); [lia|reflexivity]. }
    repeat (rewrite ?NB by lia; rewrite ?O8, ?O9, ?O10, ?O11; cbn [bind block fresh];
      repeat match goal with |- context [?a =? ?b] => destruct (Nat.eqb_spec a b); [lia|] end).
    eexists. split; [reflexivity|]. intros i. cbn [block].
    repeat match goal with |- context [?a =? ?b] => destruct (Nat.eqb_spec a b); [reflexivity|] end.
    rewrite B. destruct (Nat.leb_spec (b + 4 + 0) i); destruct (Nat.ltb_spec i (b + 4 + num_exchange lay p)); cbn [andb]; try reflexivity; apply O7; lia.
  Qed.

  Lemma done_nth : forall done t k x, prog = done ++ t -> nth_error (exchanges done) k = Some x -> nth_error (exchanges prog) k = Some x.
  Proof. intros done t k x E H. rewrite E, exchanges_app. apply nth_mono. exact H. Qed.

  Lemma end_ok : forall c p b e mn mx ti k, inv c -> p < size lay -> ex V (procs V c p) = Some e -> async e = Some k -> S k = count V (procs V c p) ->
    inside_async e = true -> by_levels e = lev (lo mn ti) mx -> xmin e = lo mn ti -> xmax e = mx -> obj p b e (hp V (procs V c p)) ->
    length (remote V (procs V c p)) = num_ghost lay p -> nth_error (exchanges prog) k = Some (mn, mx, ti) ->
    (ghost_patches_end V lay p (procs V c p) (sent V c) mn mx ti = Blocked /\ exists q, q < size lay /\ count V (procs V c q) < count V (procs V c p)) \/
    (exists e' h' rem, ghost_patches_end V lay p (procs V c p) (sent V c) mn mx ti = Done (e', h', rem) /\
       async e' = None /\ inside_async e' = false /\ obj p b e' h' /\ length rem = num_ghost lay p /\ delivered lay (begins V c) p k mn ti rem).
  Proof.
    intros c p b e mn mx ti k (IL & ID) P X A K N BL X1 X2 (O1 & O2 & O3 & O4 & O5 & O6 & O7 & O8 & O9 & O10 & (mem & O11 & LM) & O12) LR NX.
    unfold ghost_patches_end. rewrite X. unfold ghost_exchange_end, load. rewrite O1, O8, A, N, O4, O11, BL, X1, X2. cbn [bind check].
    assert (MS : forall g m, In g (ghosts lay p) -> nth_error (sent V c (owner g)) k = Some m ->
      owner g < size lay /\ exists np dat, nth_error (boundary_patches lay (owner g)) (mirror g) = Some ((glevel g, true), np) /\
        nth_error (begins V c (owner g)) k = Some dat /\ good_msg (owner g) (mn, mx, ti) dat m).
    { intros g m Hg Hm. destruct (LO p g P Hg) as (Q & np & Hnp). split; [exact Q|].
      destruct (IL _ Q) as (dq & tq & sq & _ & _ & _ & _ & C2 & C3 & _ & _ & C4).
      assert (L := nth_lt _ _ _ _ Hm). destruct (nth_ex _ (begins V c (owner g)) k) as [dat Hd]; [lia|].
      exists np, dat. split; [exact Hnp|]. split; [exact Hd|]. exact (C4 k _ dat m Hd Hm NX). }
    destruct (receive_ok V (lev (lo mn ti) mx) (lo mn ti) mx k (sent V c) (ghosts lay p) mem LM) as [(E & g & Hg & R & M)|(vs & E & LVs & D)].
    - intros g m Hg R Hm. destruct (MS g m Hg Hm) as (_ & np & dat & Hnp & _ & GM). unfold good_msg in GM. rewrite GM.
      split; [unfold msg_fits; cbn; auto|]. cbn [m_data]. rewrite map_length. exact (nth_lt _ _ _ _ Hnp).
    - left. rewrite E. split; [reflexivity|]. exists (owner g). destruct (LO p g P Hg) as (Q & _). split; [exact Q|].
      destruct (IL _ Q) as (dq & tq & sq & _ & _ & _ & _ & C2 & _). apply nth_error_None in M. lia.
    - right. rewrite E. cbn [bind]. unfold store. rewrite O11. cbn [bind gm_id block]. rewrite ?O4, Nat.eqb_refl. cbn [bind].
      destruct (unpack_ok V mn mx ti (ghosts lay p) vs (remote V (procs V c p))) as (rem & E2 & L2 & D2); [exact LVs|exact LR|].
      rewrite E2. cbn [bind]. eexists _, _, rem. split; [reflexivity|]. cbn [async inside_async]. split; [reflexivity|]. split; [reflexivity|].
      split; [|split; [exact L2|]].
      + unfold obj. cbn [e_id pd_id gd_id gm_id patch_data fresh block].
        split; [first [exact O1 | reflexivity]|]. split; [first [exact O2 | reflexivity]|]. split; [first [exact O3 | reflexivity]|]. split; [first [exact O4 | reflexivity]|]. split; [first [exact O5 | reflexivity]|]. split; [first [exact O6 | reflexivity]|].
        split; [intros i Hi; destruct (Nat.eqb_spec i (b + 3)); [lia|apply O7; exact Hi]|].
        repeat match goal with |- context [?a =? ?b] => destruct (Nat.eqb_spec a b); [lia|] end.
        split; [first [exact O8 | reflexivity]|]. split; [first [exact O9 | reflexivity]|]. split; [first [exact O10 | reflexivity]|]. rewrite Nat.eqb_refl. split; [exists vs; split; [reflexivity|exact LVs]|].
        intros j Hj. destruct (Nat.eqb_spec (b + 4 + j) (b + 3)); [lia|]. exact (O12 j Hj).
      + intros i g Hi Hl.
        assert (Hg : In g (ghosts lay p)) by (eapply nth_error_In; exact Hi).
        assert (Li : i < num_ghost lay p) by exact (nth_lt _ _ _ _ Hi).
        destruct (nth_ex _ (remote V (procs V c p)) i) as [[a a'] Ha]; [lia|].
        destruct (LO p g P Hg) as (Q & np0 & Hnp0).
        assert (HM : (glevel g <= mx)%Z).
        { apply (LV mn mx ti (owner g) ((glevel g, true), np0)); [eapply nth_error_In; exact NX|exact Q|eapply nth_error_In; exact Hnp0]. }
        assert (R : in_range (lev (lo mn ti) mx) (lo mn ti) mx (glevel g) = true).
        { unfold in_range. apply orb_true_iff. right. apply andb_true_iff. split; apply Z.leb_le; [exact Hl|exact HM]. }
        destruct (D i g Hi R) as (m & v & Hm & Hv & Hvs).
        destruct (MS g m Hg Hm) as (_ & np & dat & Hnp & Hd & GM).
        assert (Ev : v = Some (dat np (ti && (glevel g =? mn - 1)%Z))).
        { unfold good_msg in GM. rewrite GM in Hv. cbn [m_data] in Hv. rewrite nth_error_map, Hnp in Hv. cbn [option_map fst snd] in Hv. rewrite R in Hv. congruence. }
        assert (L1 : (mn - 1 <=? glevel g)%Z = true).
        { apply Z.leb_le. destruct ti; cbn in Hl; lia. }
        assert (F := D2 i g v a a' Hi Hvs Ha). rewrite L1 in F.
        destruct (ti && (glevel g =? mn - 1)%Z) eqn:T.
        * exists dat, np, a, v. split; [exact Hd|]. split; [exact Hnp|]. split; [exact F|]. exact Ev.
        * exists dat, np, v, a'. split; [exact Hd|]. split; [exact Hnp|]. split; [exact F|]. exact Ev.
  Qed.

  Lemma bad_call : forall c p s, state p s (procs V c p) [] \/ (exists done, state p s (procs V c p) done) -> forall o rest, forbidden s o -> todo V (procs V c p) = o :: rest -> exec V lay p c = Error.
  Proof.
    intros c p s S o rest B T. assert (S' : exists done, state p s (procs V c p) done) by (destruct S as [S|S]; [now exists []|exact S]).
    clear S. destruct S' as [done S]. unfold exec. rewrite T.
    destruct s as [| |mn mx ti]; destruct o as [|mn' mx' ti'|mn' mx' ti'|]; cbn in B; try contradiction; cbn in S.
    - unfold ghost_patches_begin. destruct (ex V (procs V c p)); [|reflexivity]. unfold load. rewrite S. reflexivity.
    - unfold ghost_patches_end, ghost_exchange_end. destruct (ex V (procs V c p)); [|reflexivity]. unfold load. rewrite S. reflexivity.
    - destruct (ex V (procs V c p)) as [e|]; [|reflexivity]. unfold exchange_delete.
      destruct (free_dead V (patches lay p) 0 (patch_data e) _ S) as [-> | ->]; [reflexivity|]. cbn [bind]. unfold free_after_exchange, load. rewrite S. reflexivity.
    - destruct S as (b & e & E & A & N & O & _). unfold ghost_patches_end. rewrite E. unfold ghost_exchange_end, load.
      destruct O as (O1 & _ & _ & _ & _ & _ & _ & O8 & _). rewrite O1, O8, A. reflexivity.
    - destruct S as (b & e & k & E & A & _ & N & _ & _ & _ & O & _). unfold ghost_patches_begin. rewrite E. unfold load at 1.
      destruct O as (O1 & _ & _ & _ & _ & _ & _ & O8 & _). rewrite O1, O8. cbn [bind].
      destruct (pack V (patches lay p) 0 0 mn' mx' ti' (data V (procs V c p)) (patch_data e) (hp V (procs V c p))) as [| |h] eqn:PK; [reflexivity|exfalso; exact (pack_not_blocked _ _ _ _ _ _ _ _ _ _ PK)|].
      cbn [bind]. unfold ghost_exchange_begin, load. destruct (block V h (e_id e)); [|reflexivity]. cbn [bind]. rewrite A. reflexivity.
  Qed.

  Lemma exec_cases : forall c p, inv c -> p < size lay ->
    (todo V (procs V c p) = [] /\ tail = [] /\ exec V lay p c = Blocked) \/
    (todo V (procs V c p) = tail /\ tail <> [] /\ exec V lay p c = Error) \/
    (exec V lay p c = Blocked /\ exists q, q < size lay /\ length (todo V (procs V c p)) < length (todo V (procs V c q))) \/
    (exists c', exec V lay p c = Done c' /\ inv c').
  Proof.
    intros c p I P. assert (IL := proj1 I p P). destruct IL as (done & t & s & A1 & A2 & A3 & A4 & A5 & A6 & A7 & A8 & A9).
    rewrite A1 in PR. destruct (protocol_app _ _ _ _ PR) as (s' & B1 & B2).
    assert (s' = s) by (eapply protocol_det; eassumption). subst s'. rewrite <- A1 in PR.
    destruct t as [|o t].
    - inversion B2; subst s0 sf. destruct TB as [TE|(o & rest & TE & TF)].
      + left. rewrite A2, TE. split; [reflexivity|]. split; [reflexivity|]. unfold exec. rewrite A2, TE. reflexivity.
      + right. left. split; [exact A2|]. split; [congruence|]. apply (bad_call c p s (or_intror (ex_intro _ done A8)) o rest TF). rewrite A2, TE. reflexivity.
    - right. right. inversion B2 as [|? ? s1 ? ? NX B3]; subst.
      assert (D1 : prog = (done ++ [o]) ++ t) by (rewrite <- app_assoc; exact A1).
      assert (P1 : protocol Absent (done ++ [o]) s1) by (eapply protocol_snoc; eassumption).
      unfold exec. rewrite A2. cbn [app].
      destruct s as [| |mn mx ti]; destruct o as [|mn' mx' ti'|mn' mx' ti'|]; try discriminate NX; cbn in A8.
      + (* setup *)
        right. destruct (setup_ok p _ A8) as (e & h' & E & F & G & O). rewrite E. cbn [bind]. eexists. split; [reflexivity|].
        cbn in NX. assert (s1 = Idle) by congruence. subst s1.
        match goal with |- inv (mkC V (set (procs V c) p ?pr) _ _ _) => eapply inv_ext; [eapply (inv_update c p pr (sent V c p) (begins V c p) (ends V c p) P I)| | | |]; cbn end.
        * exists (done ++ [Setup]), t, Idle. cbn [count todo active]. rewrite exchanges_app. cbn [exchanges flat_map app]. rewrite app_nil_r.
          split; [exact D1|]. split; [reflexivity|]. split; [exact P1|]. split; [exact A4|]. split; [exact A5|]. split; [exact A6|]. split; [cbn in A7; exact A7|].
          split; [|exact A9]. exists (fresh V (hp V (procs V c p))), e. cbn. split; [reflexivity|]. split; [exact F|]. split; [exact G|]. split; [exact O|apply repeat_length].
        * intros k y Y. exact Y.
        * intros k rem mn mx ti Y _. left. exact Y.
        * reflexivity.
        * intros q. symmetry. apply set_id.
        * intros q. symmetry. apply set_id.
        * intros q. symmetry. apply set_id.
      + (* begin *)
        right. destruct A8 as (b & e & X & AS & IN & O & LR).
        assert (NB : nth_error (exchanges prog) (count V (procs V c p)) = Some (mn', mx', ti')).
        { rewrite A1, exchanges_app. rewrite A4, <- (Nat.add_0_r (length (exchanges done))), nth_app_r. reflexivity. }
        destruct (begin_ok p (procs V c p) b e mn' mx' ti' X AS IN O) as (e' & h' & m & E & F & G & H1 & H2 & H3 & O' & GM).
        { intros x Hx. apply (LV mn' mx' ti' p x); [eapply nth_error_In; exact NB|exact P|exact Hx]. }
        rewrite E. cbn [bind]. eexists. split; [reflexivity|].
        cbn in NX. assert (s1 = Active mn' mx' ti') by congruence. subst s1.
        match goal with |- inv (mkC V (set (procs V c) p ?pr) _ _ _) => eapply inv_ext; [eapply (inv_update c p pr (sent V c p ++ [m]) (begins V c p ++ [data V (procs V c p)]) (ends V c p) P I)| | | |]; cbn end.
        * exists (done ++ [Begin mn' mx' ti']), t, (Active mn' mx' ti'). cbn [count todo active]. rewrite exchanges_app. cbn [exchanges flat_map app].
          rewrite !app_length. cbn [length].
          split; [exact D1|]. split; [reflexivity|]. split; [exact P1|]. split; [lia|]. split; [lia|]. split; [lia|]. split; [cbn in A7; lia|].
          split.
          -- exists b, e', (count V (procs V c p)). cbn. split; [reflexivity|]. split; [exact F|]. split; [reflexivity|]. split; [exact G|].
             split; [exact H1|]. split; [exact H2|]. split; [exact H3|]. split; [exact O'|]. split; [exact LR|].
             rewrite exchanges_app. rewrite A4, <- (Nat.add_0_r (length (exchanges done))), nth_app_r. reflexivity.
          -- intros k x d m' Hd Hm Hx. apply nth_snoc in Hd. apply nth_snoc in Hm.
             destruct Hd as [Hd|(Kd & ->)]; destruct Hm as [Hm|(Km & ->)].
             ++ exact (A9 k x d m' Hd Hm Hx).
             ++ apply nth_lt in Hd. lia.
             ++ apply nth_lt in Hm. lia.
             ++ assert (Ex : x = (mn', mx', ti')) by (rewrite Kd, A6 in Hx; congruence). rewrite Ex. exact GM.
        * intros k y Y. apply nth_mono. exact Y.
        * intros k rem mn mx ti Y _. left. exact Y.
        * reflexivity.
        * reflexivity.
        * reflexivity.
        * intros q. symmetry. apply set_id.
      + (* delete *)
        right. destruct A8 as (b & e & X & AS & IN & O & LR). rewrite X.
        destruct (delete_ok p b e _ O) as (h' & E & H). rewrite E. cbn [bind]. eexists. split; [reflexivity|].
        cbn in NX. assert (s1 = Absent) by congruence. subst s1.
        match goal with |- inv (mkC V (set (procs V c) p ?pr) _ _ _) => eapply inv_ext; [eapply (inv_update c p pr (sent V c p) (begins V c p) (ends V c p) P I)| | | |]; cbn end.
        * exists (done ++ [Delete]), t, Absent. cbn [count todo active]. rewrite exchanges_app. cbn [exchanges flat_map app]. rewrite app_nil_r.
          split; [exact D1|]. split; [reflexivity|]. split; [exact P1|]. split; [exact A4|]. split; [exact A5|]. split; [exact A6|]. split; [cbn in A7; exact A7|].
          split; [|exact A9]. exact H.
        * intros k y Y. exact Y.
        * intros k rem mn mx ti Y _. left. exact Y.
        * reflexivity.
        * intros q. symmetry. apply set_id.
        * intros q. symmetry. apply set_id.
        * intros q. symmetry. apply set_id.
      + (* end *)
        cbn in NX. destruct ((mn' =? mn)%Z && (mx' =? mx)%Z && Bool.eqb ti' ti) eqn:EQ; [|discriminate].
        apply andb_true_iff in EQ. destruct EQ as [EQ Q3]. apply andb_true_iff in EQ. destruct EQ as [Q1 Q2].
        apply Z.eqb_eq in Q1. apply Z.eqb_eq in Q2. apply eqb_prop in Q3. subst mn' mx' ti'.
        assert (s1 = Idle) by congruence. subst s1.
        destruct A8 as (b & e & k & X & AS & K & IN & H1 & H2 & H3 & O & LR & NK).
        destruct (end_ok c p b e mn mx ti k I P X AS K IN H1 H2 H3 O LR (done_nth _ _ _ _ A1 NK)) as [(E & q & Q & L)|(e' & h' & rem & E & F & G & O' & LR' & D)].
        * left. rewrite E. split; [reflexivity|]. exists q. split; [exact Q|].
          rewrite (app_comm_cons t tail), <- A2.
          apply (behind p q _ _ _ _ _ _ _ _ (proj1 I p P) (proj1 I q Q) L).
        * right. rewrite E. cbn [bind]. eexists. split; [reflexivity|].
          match goal with |- inv (mkC V (set (procs V c) p ?pr) _ _ _) => eapply inv_ext; [eapply (inv_update c p pr (sent V c p) (begins V c p) (ends V c p ++ [rem]) P I)| | | |]; cbn end.
          -- exists (done ++ [End mn mx ti]), t, Idle. cbn [count todo active]. rewrite exchanges_app. cbn [exchanges flat_map app]. rewrite app_nil_r.
             rewrite app_length. cbn [length].
             split; [exact D1|]. split; [reflexivity|]. split; [exact P1|]. split; [exact A4|]. split; [exact A5|]. split; [exact A6|]. split; [cbn in A7; lia|].
             split; [|exact A9]. exists b, e'. cbn. auto.
          -- intros k' y Y. exact Y.
          -- intros k' rem' mn' mx' ti' Y Z'. apply nth_snoc in Y. destruct Y as [Y|(Y1 & ->)]; [left; exact Y|right].
             assert (KK : k' = k) by (cbn in A7; lia). subst k'. rewrite KK in *.
             assert (XX := done_nth _ _ _ _ A1 NK). assert (EE : (mn', mx', ti') = (mn, mx, ti)) by congruence.
             assert (mn' = mn) by congruence. assert (ti' = ti) by congruence. subst. exact D.
          -- reflexivity.
          -- intros q. symmetry. apply set_id.
          -- intros q. symmetry. apply set_id.
          -- reflexivity.
  Qed.

  Lemma inv_step : forall c c', inv c -> step V lay c c' -> inv c'.
  Proof.
    intros c c' I S. destruct S as [c p c' P E|c p d P s].
    - destruct (exec_cases c p I P) as [(_ & _ & X)|[(_ & _ & X)|[(X & _)|(c1 & X & I1)]]]; congruence.
    - match goal with |- inv (mkC V (set (procs V c) p ?pr) _ _ _) => eapply inv_ext; [eapply (inv_update c p pr (sent V c p) (begins V c p) (ends V c p) P I)| | | |]; cbn end.
      + destruct (proj1 I p P) as (done & t & s' & A1 & A2 & A3 & A4 & A5 & A6 & A7 & A8 & A9).
        exists done, t, s'. cbn. repeat (split; [first [eassumption | destruct s'; exact A8]|]). exact A9.
      + intros k y Y. exact Y.
      + intros k rem mn mx ti Y _. left. exact Y.
      + reflexivity.
      + intros q. symmetry. apply set_id.
      + intros q. symmetry. apply set_id.
      + intros q. symmetry. apply set_id.
  Qed.
  Lemma inv_steps : forall c c', inv c -> steps V lay c c' -> inv c'.
  Proof. intros c c' I S. induction S as [|c c1 c2 S IH ST]; [exact I|]. eapply inv_step; [apply IH; exact I|exact ST]. Qed.
  Lemma reach_inv : forall d0 c, steps V lay (initial V (prog ++ tail) d0) c -> inv c.
  Proof. intros d0 c H. eapply inv_steps; [apply inv_initial|exact H]. Qed.
End Inv.
