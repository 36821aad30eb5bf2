(** Ghost patches, neighbor types, initialisation, and whole histories. *)
From Coq Require Import ZArith List Bool Lia FinFun.
From Verif Require Import Model_Face Model_Domain Model_Iter Spec_Iter Proof_Iter Model_Regrid Spec_Regrid Proof_Regrid1 Proof_Regrid2 Proof_Regrid3 Proof_Regrid4.
Import ListNotations.
Open Scope Z_scope.

Section Hist.
  Variable V : Type.
  Variable interp : V -> nat -> V.
  Variable average : list V -> V.
  Notation obj := (obj V).
  Notation amap := (tag -> option obj).
  Notation wrep := (wrep V).
  Notation aupd := (aupd V).
  Notation stable := (stable V).
  Notation outcome_of := (outcome_of V interp average).

  (** ** One more slot *)
  Lemma rep_grow (K K' : tag -> Prop) t0 s s' m a a' : rep V tag K s m a -> (forall t, K' t <-> K t \/ t = t0) ->
    (forall t, K t -> s' t = s t) -> (forall t, K t -> a' t = a t) -> s' t0 = None -> a' t0 = None -> rep V tag K' s' m a'.
  Proof.
    intros ((G1 & G2 & G3) & R) HK E1 E2 S0 A0. split; [split; [|split]|].
    - intros t id T S. apply HK in T. destruct T as [T|T]; [|subst t; congruence]. rewrite (E1 t T) in S. apply (G1 t id T S).
    - intros t t' id T T' S S'. apply HK in T, T'. destruct T as [T|T]; [|subst t; congruence]. destruct T' as [T'|T']; [|subst t'; congruence]. rewrite (E1 t T) in S. rewrite (E1 t' T') in S'. apply (G2 t t' id T T' S S').
    - intros id L. destruct (G3 id L) as (t & T & S). exists t. split; [apply HK; left; exact T|]. rewrite (E1 t T). exact S.
    - intros t T. apply HK in T. unfold look. destruct T as [T|T]; [|subst t; rewrite S0, A0; reflexivity]. rewrite (E2 t T), (E1 t T). apply (R t T).
  Qed.

  (** ** Ghost patches *)
  Lemma exchange_fold L ibs : forall c m d a, wrep (mkFrame L [] (d_ghost d) true) c (m, d, no_new) a ->
    (forall n, (n < length (d_ghost d))%nat -> a (TG n) <> None) ->
    exists m' d' a', fold_left (fun (md : mem V * dom) (ib : nat * nat) =>
                 let (m1, id) := alloc V (fst md) (snd ib) (fst ib) in
                 (m1, inc_set (with_ghost (snd md) (d_ghost (snd md) ++ [Some id])) 1)) ibs (m, d) = (m', d') /\
      wrep (mkFrame L [] (d_ghost d') true) (mkCounts (n_so c + Z.of_nat (length ibs)) (n_do c) (n_sn c) (n_dn c)) (m', d', no_new) a' /\
      (forall n, (n < length (d_ghost d'))%nat -> a' (TG n) <> None) /\ length (d_ghost d') = (length (d_ghost d) + length ibs)%nat /\ d_slot d' = d_slot d /\
      (forall k, a' (TO k) = a (TO k)).
  Proof.
    induction ibs as [|ib ibs IH]; intros c m d a H G.
    - exists m, d, a. split; [reflexivity|]. split; [|split; [exact G|split; [cbn [length]; lia|auto]]].
      cbn [length]. replace (mkCounts _ _ _ _) with c; [exact H|]. destruct c as [c1 c2 c3 c4]; cbn [n_so n_do n_sn n_dn]; f_equal; lia.
    - cbn [fold_left fst snd]. unfold alloc at 2. cbn [fst snd].
      set (o := mkObj V (snd ib) (fst ib) false None). set (m1 := mkMem V (upd_heap V (m_heap V m) (m_next V m) (Some o)) (S (m_next V m))).
      set (d1 := inc_set (with_ghost d (d_ghost d ++ [Some (m_next V m)])) 1).
      assert (LG : length (d_ghost d1) = S (length (d_ghost d))) by (unfold d1; cbn [inc_set with_ghost d_ghost]; rewrite app_length; cbn [length]; lia).
      assert (H1 : wrep (mkFrame L [] (d_ghost d1) true) (mkCounts (n_so c + 1) (n_do c) (n_sn c) (n_dn c)) (m1, d1, no_new) (aupd a (TG (length (d_ghost d))) (Some o))).
      { unfold Proof_Regrid2.wrep in H |- *. cbn [f_lo f_ln f_g f_ex n_so n_do n_sn n_dn] in *. destruct H as (H1 & H2 & H3 & H4 & H5 & H6 & H7 & H8 & H9 & H10 & R).
        split; [exact H1|]. split; [exact H2|]. split; [reflexivity|]. split; [exact H4|]. split; [unfold d1; cbn [inc_set with_ghost d_set]; lia|]. repeat (split; [assumption|]). rewrite LG.
        set (t0 := TG (length (d_ghost d))).
        assert (R' : rep V tag (domain_of L [] (S (length (d_ghost d)))) (slots d no_new) m (aupd a t0 None)).
        { apply (rep_grow _ _ t0 (slots d no_new) _ m a _ R).
          - intros [k|k|n]; cbn [domain_of]; unfold t0; [intuition discriminate|intuition discriminate|]. split; [intros X; destruct (Nat.eq_dec n (length (d_ghost d))) as [-> |D]; [right; reflexivity|left; lia]|intros [X|X]; [lia|injection X as ->; lia]].
          - reflexivity.
          - intros t T. apply aupd_other. intros ->. unfold t0 in T. cbn [domain_of] in T. lia.
          - unfold t0. cbn [slots]. apply nth_overflow. lia.
          - apply aupd_same. }
        apply (rep_alloc V tag tag_dec _ (slots d no_new) m (aupd a t0 None) _ m1 _ t0 o R').
        - unfold t0. cbn [domain_of]. lia.
        - apply aupd_same.
        - reflexivity.
        - reflexivity.
        - unfold t0. cbn [slots]. unfold d1. cbn [inc_set with_ghost d_ghost]. rewrite app_nth2, Nat.sub_diag by lia. reflexivity.
        - intros [k|k|n] T N; cbn [slots]; try reflexivity. cbn [domain_of] in T. assert (n <> length (d_ghost d)) by (intros ->; apply N; reflexivity). unfold d1. cbn [inc_set with_ghost d_ghost]. apply app_nth1. lia.
        - apply aupd_same.
        - intros t _ N. rewrite !aupd_other by exact N. reflexivity. }
      destruct (IH _ m1 d1 _ H1) as (m' & d' & a' & E & H2 & G2 & L2 & S2 & A2).
      { intros n N. rewrite LG in N. destruct (Nat.eq_dec n (length (d_ghost d))) as [-> |D]; [rewrite aupd_same; discriminate|]. rewrite aupd_other by (intros X; injection X as X; contradiction). apply G. lia. }
      exists m', d', a'. split; [exact E|]. split.
      { cbn [n_so n_do n_sn n_dn] in H2. cbn [length]. replace (n_so c + Z.of_nat (S (length ibs))) with (n_so c + 1 + Z.of_nat (length ibs)) by lia. exact H2. }
      split; [exact G2|]. split; [rewrite L2, LG; cbn [length]; lia|]. split; [rewrite S2; reflexivity|]. intros k. rewrite A2. apply aupd_other. discriminate.
  Qed.

  Lemma exchange_stage ns m d a ghosts : stable ns false m d a ->
    exists m' d' a', exchange_setup V m d ghosts = (m', d') /\ stable ns true m' d' a' /\ d_levels d' = d_levels d /\ (forall k, a' (TO k) = a (TO k)) /\ length (d_ghost d') = length ghosts.
  Proof.
    intros [W P G NX CT]. unfold exchange_setup. pose proof (NX eq_refl) as G0. rewrite G0 in *.
    set (d0 := with_exch (with_ghost d []) true).
    assert (H0 : wrep (mkFrame (d_levels d) [] (d_ghost d0) true) (mkCounts (d_set d) (d_del d) 0 0) (m, d0, no_new) a).
    { unfold Proof_Regrid2.wrep in *. cbn [f_lo f_ln f_g f_ex n_so n_do n_sn n_dn] in *. destruct W as (H1 & H2 & H3 & H4 & H5 & H6 & H7 & H8 & H9 & H10 & R). repeat (split; [first [assumption|reflexivity]|]).
      apply (rep_ext V tag _ _ _ _ _ _ R); [|reflexivity]. intros [k|k|n] T; cbn [slots]; try reflexivity. cbn [domain_of length] in T. lia. }
    destruct (exchange_fold (d_levels d) (combine (seq 0 (length ghosts)) ghosts) _ m d0 a H0) as (m' & d' & a' & E & H1 & G1 & L1 & S1 & A1).
    { intros n N. cbn in N. lia. }
    assert (LC : length (combine (seq 0 (length ghosts)) ghosts) = length ghosts) by (rewrite combine_length, seq_length; lia).
    rewrite LC in H1, L1. cbn [n_so n_do n_sn n_dn] in H1. pose proof H1 as H1'. unfold Proof_Regrid2.wrep in H1'. cbn [f_lo f_ln f_g f_ex n_so n_do n_sn n_dn] in H1'. destruct H1' as (Q1 & _ & _ & _ & Q2 & Q3 & _).
    assert (L1' : length (d_ghost d') = length ghosts) by (rewrite L1; reflexivity).
    exists m', d', a'. split; [exact E|]. split; [|split; [exact Q1|split; [exact A1|exact L1']]]. constructor.
    - rewrite Q1, Q2, Q3. exact H1.
    - intros k K. rewrite Q1 in K. rewrite A1. apply P, K.
    - exact G1.
    - discriminate.
    - rewrite Q1, Q2, Q3, L1'. cbn [length] in CT. lia.
  Qed.

  (** ** Loops over the patches of the current domain *)
  Lemma loop_patches f c old new (body : mem V -> key -> option (mem V)) (upd : key -> obj -> obj) (Q : key -> obj -> Prop) ks : NoDup ks ->
    (forall k m a o, In k ks -> wrep f c (m, old, new) a -> a (TO k) = Some o -> Q k o ->
       exists m', body m k = Some m' /\ wrep f c (m', old, new) (aupd a (TO k) (Some (upd k o)))) ->
    forall m a, wrep f c (m, old, new) a -> (forall k, In k ks -> exists o, a (TO k) = Some o /\ Q k o) ->
    exists m' a', for_each body ks m = Some m' /\ wrep f c (m', old, new) a' /\
      (forall k o, In k ks -> a (TO k) = Some o -> a' (TO k) = Some (upd k o)) /\ (forall t, (forall k, In k ks -> t <> TO k) -> a' t = a t).
  Proof.
    intros N. induction N as [|k ks NK N IH]; intros B m a H P.
    - exists m, a. split; [reflexivity|]. split; [exact H|]. split; [intros k o []|reflexivity].
    - destruct (P k (or_introl eq_refl)) as (o & A & Q1). destruct (B k m a o (or_introl eq_refl) H A Q1) as (m1 & E1 & H1).
      assert (OT : forall x, In x ks -> aupd a (TO k) (Some (upd k o)) (TO x) = a (TO x)) by (intros x X; apply aupd_other; intros E; injection E as ->; contradiction).
      destruct (IH (fun x m a o X => B x m a o (or_intror X)) m1 _ H1) as (m' & a' & E2 & H2 & A2 & A3).
      { intros x X. rewrite (OT x X). apply P. right. exact X. }
      exists m', a'. cbn [for_each]. rewrite E1. split; [exact E2|]. split; [exact H2|]. split.
      + intros x ox [<-|X] AX.
        * rewrite A3; [rewrite aupd_same; congruence|]. intros y Y E. injection E as <-. contradiction.
        * apply A2; [exact X|]. rewrite (OT x X). exact AX.
      + intros t T. rewrite A3 by (intros x X; apply T; right; exact X). apply aupd_other, T. left. reflexivity.
  Qed.

  Lemma loop_stable ns ns' ex m d a body upd (Q : key -> obj -> Prop) : stable ns ex m d a ->
    (forall k m a o, In k (keys (d_levels d)) -> wrep (mkFrame (d_levels d) [] (d_ghost d) ex) (mkCounts (d_set d) (d_del d) 0 0) (m, d, no_new) a -> a (TO k) = Some o -> Q k o ->
       exists m', body m k = Some m' /\ wrep (mkFrame (d_levels d) [] (d_ghost d) ex) (mkCounts (d_set d) (d_del d) 0 0) (m', d, no_new) (aupd a (TO k) (Some (upd k o)))) ->
    (forall k o v, o_val V o = Some v -> o_block V o = fst k -> o_nset V o = ns -> Q k o /\ (exists v', o_val V (upd k o) = Some v') /\ o_block V (upd k o) = fst k /\ o_nset V (upd k o) = ns') ->
    exists m' a', for_each body (keys (d_levels d)) m = Some m' /\ stable ns' ex m' d a' /\ (forall k o, is_patch (d_levels d) k -> a (TO k) = Some o -> a' (TO k) = Some (upd k o)).
  Proof.
    intros [W P G NX CT] B U.
    destruct (loop_patches _ _ d no_new body upd Q (keys (d_levels d)) (keys_NoDup _) B m a W) as (m' & a' & E & H & A1 & A2).
    { intros k K. apply keys_In in K. destruct (P k K) as (o & v & X1 & X2 & X3 & X4). exists o. split; [exact X1|]. apply (U k o v X2 X3 X4). }
    exists m', a'. split; [exact E|]. split.
    - constructor; [exact H| | |exact NX|exact CT].
      + intros k K. destruct (P k K) as (o & v & X1 & X2 & X3 & X4). destruct (U k o v X2 X3 X4) as (_ & (v' & Y1) & Y2 & Y3). exists (upd k o), v'. split; [apply A1; [apply keys_In, K|exact X1]|auto].
      + intros n N. rewrite A2 by (intros; discriminate). apply G, N.
    - intros k o K. apply A1, keys_In, K.
  Qed.

  (** neighbor types *)
  Definition marked (o : obj) : obj := mkObj V (o_block V o) (o_patch V o) true (o_val V o).
  Lemma neighbor_stage ex m d a : stable false ex m d a ->
    exists m' a', set_neighbor_types V m d = Some m' /\ stable true ex m' d a' /\ (forall k, is_patch (d_levels d) k -> value V (a' (TO k)) = value V (a (TO k))).
  Proof.
    intros S. destruct (loop_stable false true ex m d a (fun m k => modify V m (d_slot d k) (set_neighbors V)) (fun _ o => marked o) (fun _ o => o_nset V o = false) S) as (m' & a' & E & S' & A).
    - intros k m0 a0 o K W A Q. apply (op_modify V _ _ m0 d no_new a0 (TO k) o (marked o) (set_neighbors V) W); [apply keys_In, K|exact A|]. unfold set_neighbors. rewrite Q. reflexivity.
    - intros k o v X1 X2 X3. split; [exact X3|]. split; [exists v; exact X1|]. split; [exact X2|reflexivity].
    - exists m', a'. split; [exact E|]. split; [exact S'|]. intros k K. destruct (st_patch _ _ _ _ _ _ S k K) as (o & v & X1 & _). rewrite (A k o K X1), X1. reflexivity.
  Qed.

  (** any computation on the patches *)
  Lemma update_stage ns ex m d a (fn : key -> V -> V) : stable ns ex m d a ->
    exists m' a', for_each (fun m k => match read V m (d_slot d k) with None => None | Some v => modify V m (d_slot d k) (set_val V (fn k v)) end) (keys (d_levels d)) m = Some m' /\
      stable ns ex m' d a' /\ (forall k v, is_patch (d_levels d) k -> value V (a (TO k)) = Some v -> value V (a' (TO k)) = Some (fn k v)).
  Proof.
    intros S.
    destruct (loop_stable ns ns ex m d a (fun m k => match read V m (d_slot d k) with None => None | Some v => modify V m (d_slot d k) (set_val V (fn k v)) end)
      (fun k o => mkObj V (o_block V o) (o_patch V o) (o_nset V o) (match o_val V o with Some v => Some (fn k v) | None => None end)) (fun _ o => o_val V o <> None) S) as (m' & a' & E & S' & A).
    - intros k m0 a0 o K W A Q. pose proof (op_read V _ _ m0 d no_new a0 (TO k) W (proj1 (keys_In _ k) K)) as R. cbn [slots] in R. rewrite R, A. cbn [value]. destruct (o_val V o) as [v|] eqn:OV; [|contradiction].
      destruct (op_modify V _ _ m0 d no_new a0 (TO k) o _ (set_val V (fn k v)) W (proj1 (keys_In _ k) K) A eq_refl) as (m1 & E1 & W1). exists m1. split; [exact E1|]. exact W1.
    - intros k o v X1 X2 X3. cbn [o_val o_block o_nset]. rewrite X1. split; [discriminate|]. split; [eexists; reflexivity|]. auto.
    - exists m', a'. split; [exact E|]. split; [exact S'|]. intros k v K X. destruct (a (TO k)) as [o|] eqn:AK; [|discriminate]. cbn [value] in X. rewrite (A k o K AK). cbn [value o_val]. rewrite X. reflexivity.
  Qed.

  (** ** Initialisation *)
  Lemma init_fold L (init : key -> V) ks : NoDup ks -> forall c m d a, wrep (mkFrame L [] [] false) c (m, d, no_new) a ->
    (forall k, In k ks -> is_patch L k /\ a (TO k) = None) ->
    exists m' d' a', for_each (cb_initialize V init) ks (m, d) = Some (m', d') /\
      wrep (mkFrame L [] [] false) (mkCounts (n_so c + Z.of_nat (length ks)) (n_do c) (n_sn c) (n_dn c)) (m', d', no_new) a' /\
      (forall k, In k ks -> a' (TO k) = Some (mkObj V (fst k) (snd k) false (Some (init k)))) /\ (forall t, (forall k, In k ks -> t <> TO k) -> a' t = a t).
  Proof.
    intros N. induction N as [|k ks NK N IH]; intros c m d a H P.
    - exists m, d, a. split; [reflexivity|]. split; [|split; [intros k []|reflexivity]]. cbn [length]. replace (mkCounts _ _ _ _) with c; [exact H|]. destruct c as [c1 c2 c3 c4]; cbn [n_so n_do n_sn n_dn]; f_equal; lia.
    - cbn [for_each]. unfold cb_initialize at 1. unfold alloc. cbn [fst snd modify m_heap m_next]. unfold upd_heap at 1. rewrite Nat.eqb_refl. cbn [set_val o_block o_patch o_nset].
      set (o := mkObj V (fst k) (snd k) false (Some (init k))). destruct (P k (or_introl eq_refl)) as (P1 & A1).
      match goal with |- context [for_each _ ks (?M, ?D)] => set (m1 := M); set (d1 := D) end.
      assert (H1 : wrep (mkFrame L [] [] false) (mkCounts (n_so c + 1) (n_do c) (n_sn c) (n_dn c)) (m1, d1, no_new) (aupd a (TO k) (Some o))).
      { unfold Proof_Regrid2.wrep in *. cbn [f_lo f_ln f_g f_ex n_so n_do n_sn n_dn] in *. destruct H as (H1 & H2 & H3 & H4 & H5 & H6 & H7 & H8 & H9 & H10 & R).
        split; [exact H1|]. split; [exact H2|]. split; [exact H3|]. split; [exact H4|]. split; [unfold d1; cbn [inc_set with_slot d_set]; lia|]. repeat (split; [assumption|]).
        apply (rep_alloc V tag tag_dec _ (slots d no_new) m a _ m1 _ (TO k) o R); [exact P1|exact A1| |reflexivity| | | |].
        - intros i. unfold m1. cbn [m_heap]. unfold upd_heap. destruct (Nat.eqb i (m_next V m)); reflexivity.
        - unfold d1. cbn [slots inc_set with_slot d_slot]. apply upd_same.
        - intros [x|x|x] _ NX; cbn [slots]; try reflexivity. unfold d1. cbn [inc_set with_slot d_slot]. apply upd_other. intros ->. apply NX. reflexivity.
        - apply aupd_same.
        - intros x _ NX. apply aupd_other, NX. }
      destruct (IH _ m1 d1 _ H1) as (m' & d' & a' & E & H2 & B1 & B2).
      { intros x X. destruct (P x (or_intror X)) as (Y1 & Y2). split; [exact Y1|]. rewrite aupd_other; [exact Y2|]. intros Z. injection Z as ->. contradiction. }
      exists m', d', a'. split; [exact E|]. split.
      { cbn [n_so n_do n_sn n_dn] in H2. cbn [length]. replace (n_so c + Z.of_nat (S (length ks))) with (n_so c + 1 + Z.of_nat (length ks)) by lia. exact H2. }
      split.
      + intros x [<-|X]; [|apply B1, X]. rewrite B2; [apply aupd_same|]. intros y Y Z. injection Z as <-. contradiction.
      + intros t T. rewrite B2 by (intros x X; apply T; right; exact X). apply aupd_other, T. left. reflexivity.
  Qed.

  Lemma level_keys levels l : Forall (Forall (eq l)) levels -> keys_of_level levels l = keys levels.
  Proof.
    intros F. unfold keys_of_level. assert (H : forall k, In k (keys levels) -> (nth (snd k) (nth (fst k) levels []) (-1) =? l) = true).
    { intros k K. apply keys_In in K. destruct K as (K1 & K2). apply Z.eqb_eq. symmetry. rewrite Forall_forall in F. specialize (F _ (nth_In levels [] K1)). rewrite Forall_forall in F. apply F, nth_In, K2. }
    induction (keys levels) as [|k ks IH]; [reflexivity|]. cbn [filter]. rewrite (H k (or_introl eq_refl)). apply (f_equal (cons k)). apply IH. intros x X. apply H. right. exact X.
  Qed.

  Lemma initialize_ok init levels minlevel ghosts : Forall (Forall (eq minlevel)) levels ->
    exists st a, initialize V init levels minlevel ghosts = Some st /\ stable true true (s_mem V st) (s_dom V st) a /\ d_levels (s_dom V st) = levels /\ s_reports V st = [] /\
      (forall k, is_patch levels k -> value V (a (TO k)) = Some (init k)) /\ length (d_ghost (s_dom V st)) = length ghosts.
  Proof.
    intros F. unfold initialize. rewrite (level_keys _ _ F).
    assert (W0 : wrep (mkFrame levels [] [] false) (mkCounts 0 0 0 0) (mkMem V (fun _ => None) 0, domain_new levels, no_new) (fun _ => None)).
    { unfold Proof_Regrid2.wrep. repeat (split; [reflexivity|]). split; [split; [|split]|].
      - intros [k|k|n] id T S; cbn in S; [discriminate|discriminate|destruct n; discriminate].
      - intros [k|k|n] t' id T T' S S'; cbn in S; [discriminate|discriminate|destruct n; discriminate].
      - intros id L. cbn in L. contradiction.
      - intros [k|k|n] T; cbn; [reflexivity|reflexivity|destruct n; reflexivity]. }
    destruct (init_fold levels init (keys levels) (keys_NoDup _) _ _ _ _ W0) as (m & d & a & E & H & A1 & A2).
    { intros k K. split; [apply keys_In, K|reflexivity]. }
    rewrite E. pose proof H as H'. unfold Proof_Regrid2.wrep in H'. cbn [f_lo f_ln f_g f_ex n_so n_do n_sn n_dn] in H'. destruct H' as (Q1 & _ & Q2 & _ & Q3 & Q4 & _).
    assert (S : stable false false m d a).
    { constructor.
      - rewrite Q1, Q2, Q3, Q4. exact H.
      - intros k K. rewrite Q1 in K. eexists. eexists. split; [apply A1, keys_In, K|]. repeat split.
      - intros n N. rewrite Q2 in N. cbn in N. lia.
      - intros _. exact Q2.
      - rewrite Q1, Q2, Q3, Q4. cbn [length]. lia. }
    destruct (exchange_stage false m d a ghosts S) as (m1 & d1 & a1 & E1 & S1 & L1 & B1 & G1). rewrite E1.
    destruct (neighbor_stage true m1 d1 a1 S1) as (m2 & a2 & E2 & S2 & B2). rewrite E2.
    exists (mkState V m2 d1 []), a2. cbn [s_mem s_dom s_reports]. split; [reflexivity|]. split; [exact S2|]. split; [congruence|]. split; [reflexivity|]. split; [|exact G1].
    intros k K. rewrite B2 by (rewrite L1, Q1; exact K). rewrite B1, (A1 k) by (apply keys_In, K). reflexivity.
  Qed.

  (** ** Values *)
  Lemma stable_value ns ex m d a k : stable ns ex m d a -> is_patch (d_levels d) k -> read V m (d_slot d k) = value V (a (TO k)).
  Proof. intros S K. exact (op_read V _ _ m d no_new a (TO k) (st_wrep _ _ _ _ _ _ S) K). Qed.

  Definition avals (a : amap) (k : key) : option V := value V (a (TO k)).

  Lemma outcomes_values init oss (a a2 : amap) :
    (forall k, In k (keys (map (leaves_before D2) oss)) -> exists o v, a (TO k) = Some o /\ o_val V o = Some v) ->
    (forall x k, In x (all_reports 0 oss) -> In k (new_keys x) -> exists o', a2 (TO k) = Some o' /\ outcome_of init x (fun k => a (TO k)) k o') ->
    match init with Some g => reinitialised g oss (avals a) (avals a2) | None => regridded interp average oss (avals a) (avals a2) end.
  Proof.
    intros P H.
    assert (KEEP : forall i os n l, nth_error oss i = Some os -> nth_error os n = Some (Keep l) -> avals a2 (i, length (leaves_after D2 (firstn n os))) = avals a (i, length (leaves_before D2 (firstn n os)))).
    { intros i os n l E1 E2. pose proof (all_reports_call oss 0 i os n _ E1 E2) as X. cbn [relation_of plus] in X.
      destruct (H _ (i, length (leaves_after D2 (firstn n os))) X (or_introl eq_refl)) as (o' & Y1 & Y2). unfold outcome_of in Y2. cbn [a_rel a_block a_oj] in Y2. destruct Y2 as (_ & _ & o & Y3 & Y4 & _).
      unfold avals. rewrite Y1, Y3. cbn [value]. exact Y4. }
    destruct init as [g|].
    - intros i os n o E1 E2. cbn zeta. pose proof (all_reports_call oss 0 i os n _ E1 E2) as X. cbn [plus] in X. destruct o as [l|l|l]; [apply (KEEP i os n l E1 E2)| |]; cbn [relation_of] in X.
      + intros c C. destruct (H _ (i, (length (leaves_after D2 (firstn n os)) + c)%nat) X) as (o' & Y1 & Y2).
        { unfold new_keys. cbn [a_rel a_block a_nj]. apply (in_map (fun j => (i, (length (leaves_after D2 (firstn n os)) + j)%nat))). apply in_seq. lia. }
        unfold outcome_of in Y2. cbn [a_rel] in Y2. destruct Y2 as (_ & _ & _ & j & _ & _ & Y2). unfold avals. rewrite Y1. exact Y2.
      + destruct (H _ (i, length (leaves_after D2 (firstn n os))) X (or_introl eq_refl)) as (o' & Y1 & Y2). unfold outcome_of in Y2. cbn [a_rel] in Y2. destruct Y2 as (_ & _ & _ & Y2). unfold avals. rewrite Y1. exact Y2.
    - intros i os n o E1 E2. cbn zeta. pose proof (all_reports_call oss 0 i os n _ E1 E2) as X. cbn [plus] in X. destruct o as [l|l|l]; [apply (KEEP i os n l E1 E2)| |]; cbn [relation_of] in X.
      + assert (KO : In (i, length (leaves_before D2 (firstn n os))) (keys (map (leaves_before D2) oss))).
        { rewrite keys_from_0, <- old_keys_all. apply in_flat_map. eexists. split; [exact X|]. left. reflexivity. }
        destruct (P _ KO) as (o & v & V1 & V2). exists v. split; [unfold avals; rewrite V1; exact V2|].
        intros c C. destruct (H _ (i, (length (leaves_after D2 (firstn n os)) + c)%nat) X) as (o' & Y1 & Y2).
        { unfold new_keys. cbn [a_rel a_block a_nj]. apply (in_map (fun j => (i, (length (leaves_after D2 (firstn n os)) + j)%nat))). apply in_seq. lia. }
        unfold outcome_of in Y2. cbn [a_rel a_block a_oj a_nj] in Y2. destruct Y2 as (_ & _ & _ & j & _ & J & v' & Y2 & Y3). injection J as J. assert (j = c) as -> by lia.
        rewrite V1 in Y2. cbn [value] in Y2. rewrite V2 in Y2. injection Y2 as <-. unfold avals. rewrite Y1. exact Y3.
      + destruct (H _ (i, length (leaves_after D2 (firstn n os))) X (or_introl eq_refl)) as (o' & Y1 & Y2). unfold outcome_of in Y2. cbn [a_rel a_block a_oj] in Y2. destruct Y2 as (_ & _ & _ & vs & Y2 & Y3).
        cbn [seq] in Y2. inversion Y2 as [|? v0 ? vs0 F0 R0]; subst. inversion R0 as [|? v1 ? vs1 F1 R1]; subst. inversion R1 as [|? v2 ? vs2 F2 R2]; subst. inversion R2 as [|? v3 ? vs3 F3 R3]; subst. inversion R3; subst.
        rewrite Nat.add_0_r in F0. exists v0, v1, v2, v3. unfold avals. rewrite Y1. repeat split; assumption.
  Qed.

  (** ** Events *)
  Lemma refinement_ok init news p ghosts st a oss levels' :
    stable true true (s_mem V st) (s_dom V st) a -> adaptation oss (d_levels (s_dom V st)) news -> repartition_opt news p levels' ->
    exists st' a' mid rs, new_refinement V interp average init news p ghosts st = Some st' /\ stable true true (s_mem V st') (s_dom V st') a' /\ d_levels (s_dom V st') = levels' /\
      s_reports V st' = s_reports V st ++ rs /\ Forall (eq true) rs /\
      (match init with Some g => reinitialised g oss (avals a) mid | None => regridded interp average oss (avals a) mid end) /\
      (forall k, is_patch news k -> mid k <> None) /\
      repartitioned news p mid (avals a').
  Proof.
    intros S (AD1 & AD2) RP. unfold new_refinement. rewrite AD1, AD2, iterate_adapted_list.
    destruct (regrid_stage V interp average init true true _ _ a oss S AD1) as (m1 & old & new & m2 & a2 & E1 & E2 & S2 & L2 & O2). rewrite E1, E2.
    assert (VALS : match init with Some g => reinitialised g oss (avals a) (avals a2) | None => regridded interp average oss (avals a) (avals a2) end).
    { apply outcomes_values; [|exact O2]. intros k K. apply keys_In in K. rewrite <- AD1 in K. destruct (st_patch _ _ _ _ _ _ S k K) as (o & v & X1 & X2 & _). exists o, v. auto. }
    assert (PRES : forall k, is_patch news k -> avals a2 k <> None).
    { intros k K. rewrite AD2, <- L2 in K. destruct (st_patch _ _ _ _ _ _ S2 k K) as (o & v & X1 & X2 & _). unfold avals. rewrite X1. cbn [value]. congruence. }
    rewrite <- AD2 in L2.
    assert (PT : exists m3 d3 a3 rs, partition_domain V (mkState V m2 new (s_reports V st ++ [true])) p = Some (mkState V m3 d3 (s_reports V st ++ rs)) /\ Forall (eq true) rs /\
       stable false false m3 d3 a3 /\ d_levels d3 = levels' /\ repartitioned news p (avals a2) (avals a3)).
    { destruct p as [p|].
      - destruct RP as (-> & sizes & o0 & o1 & n0 & n1 & RP). rewrite <- L2 in RP.
        destruct (partition_stage V false m2 new a2 (s_reports V st ++ [true]) sizes o0 o1 n0 n1 p S2 RP) as (m3 & d3 & a3 & E3 & S3 & L3 & _).
        exists m3, d3, a3, [true; true]. split; [rewrite E3, <- app_assoc; reflexivity|]. split; [repeat constructor|]. split; [exact S3|]. split; [exact L3|].
        clear sizes o0 o1 n0 n1 RP. intros sizes o0 o1 n0 n1 RP. rewrite <- L2 in RP.
        destruct (partition_stage V false m2 new a2 (s_reports V st ++ [true]) sizes o0 o1 n0 n1 p S2 RP) as (m3' & d3' & a3' & E3' & S3' & L3' & V3). rewrite E3 in E3'. injection E3' as <- <-.
        intros i g (B1 & B2) NG. assert (J : 0 <= g - local_first sizes n0 i < local_num sizes n0 n1 i) by (unfold local_first, local_num; lia).
        specialize (V3 i (g - local_first sizes n0 i) B1 J). cbn zeta in V3. replace (local_first sizes n0 i + (g - local_first sizes n0 i)) with g in V3 by lia.
        unfold patch_of. unfold avals. rewrite <- V3.
        (* both representations agree on the patches of the new domain *)
        assert (PK : is_patch (d_levels d3) (i, Z.to_nat (g - local_first sizes n0 i))).
        { rewrite L3. destruct RP as (_ & OW & _). unfold is_patch. cbn [fst snd]. rewrite (owns_length _ _ _ _ OW). split; [exact B1|]. pose proof (owns_block _ _ _ _ i OW B1). lia. }
        rewrite <- (stable_value _ _ _ _ _ _ S3 PK). apply (stable_value _ _ _ _ _ _ S3' PK).
      - cbn [repartition_opt] in RP. exists m2, new, a2, [true]. split; [reflexivity|]. split; [repeat constructor|]. split; [exact S2|]. split; [congruence|]. intros k _. reflexivity. }
    destruct PT as (m3 & d3 & a3 & rs & E3 & RS & S3 & L3 & V3). rewrite E3. cbn [s_mem s_dom s_reports].
    destruct (exchange_stage false m3 d3 a3 ghosts S3) as (m4 & d4 & a4 & E4 & S4 & L4 & B4 & _). rewrite E4.
    destruct (neighbor_stage true m4 d4 a4 S4) as (m5 & a5 & E5 & S5 & B5). rewrite E5, <- AD2.
    exists (mkState V m5 d4 (s_reports V st ++ rs)), a5, (avals a2), rs. cbn [s_mem s_dom s_reports]. split; [reflexivity|]. split; [exact S5|]. split; [congruence|]. split; [reflexivity|]. split; [exact RS|]. split; [exact VALS|]. split; [exact PRES|].
    assert (B : forall k, is_patch levels' k -> avals a5 k = avals a3 k) by (intros k K; unfold avals; rewrite B5 by (rewrite L4, L3; exact K); rewrite B4; reflexivity).
    destruct p as [p|].
    - intros sizes o0 o1 n0 n1 RP' i g IB NG. rewrite B; [apply (V3 sizes o0 o1 n0 n1 RP' i g IB NG)|].
      destruct RP as (-> & _). destruct RP' as (_ & OW & _). destruct IB as (B1 & B2). unfold is_patch, patch_of. cbn [fst snd]. rewrite (owns_length _ _ _ _ OW). split; [exact B1|]. pose proof (owns_block _ _ _ _ i OW B1). unfold local_first, local_num in *. lia.
    - cbn [repartition_opt] in RP. subst levels'. intros k K. rewrite (B k K). apply (V3 k K).
  Qed.

  Lemma history_ok : forall es levels last, legal levels es last -> forall st a, stable true true (s_mem V st) (s_dom V st) a -> d_levels (s_dom V st) = levels -> Forall (eq true) (s_reports V st) ->
    exists st' a', for_each (do_event V interp average) es st = Some st' /\ stable true true (s_mem V st') (s_dom V st') a' /\ d_levels (s_dom V st') = last /\ Forall (eq true) (s_reports V st').
  Proof.
    intros es levels last H. induction H as [levels|levels init news p ghosts levels' es last oss AD RP H IH|levels news p ghosts levels' es last oss AD RP H IH|levels fn es last H IH]; intros st a S L RS.
    - exists st, a. auto.
    - rewrite <- L in AD. destruct (refinement_ok (Some init) news p ghosts st a oss levels' S AD RP) as (st1 & a1 & mid & rs & E1 & S1 & L1 & R1 & R2 & _). cbn [for_each do_event]. rewrite E1. apply (IH st1 a1 S1 L1). rewrite R1. apply Forall_app. auto.
    - rewrite <- L in AD. destruct (refinement_ok None news p ghosts st a oss levels' S AD RP) as (st1 & a1 & mid & rs & E1 & S1 & L1 & R1 & R2 & _). cbn [for_each do_event]. rewrite E1. apply (IH st1 a1 S1 L1). rewrite R1. apply Forall_app. auto.
    - destruct (update_stage true true _ _ a fn S) as (m1 & a1 & E1 & S1 & _). cbn [for_each do_event]. rewrite E1. apply (IH (mkState V m1 (s_dom V st) (s_reports V st)) a1 S1 L RS).
  Qed.

  Lemma run_ok init levels minlevel ghosts es last : Forall (Forall (eq minlevel)) levels -> legal levels es last ->
    exists st a, run V interp average init levels minlevel ghosts es = Some st /\ stable true true (s_mem V st) (s_dom V st) a /\ d_levels (s_dom V st) = last /\ Forall (eq true) (s_reports V st).
  Proof.
    intros F H. destruct (initialize_ok init levels minlevel ghosts F) as (st & a & E & S & L & R & _). unfold run. rewrite E. apply (history_ok es levels last H st a S L). rewrite R. constructor.
  Qed.

  Lemma whole_run_ok init levels minlevel ghosts es last : Forall (Forall (eq minlevel)) levels -> legal levels es last ->
    exists m rs, whole_run V interp average init levels minlevel ghosts es = Some (m, rs) /\ Forall (eq true) rs /\ forall id, m_heap V m id = None.
  Proof.
    intros F H. destruct (run_ok init levels minlevel ghosts es last F H) as (st & a & E & S & L & R). unfold whole_run. rewrite E. destruct S as [W P G NX CT].
    destruct (reset_ok V _ _ _ _ _ a W) as (m' & a' & E1 & W1 & _).
    - exact G.
    - exact NX.
    - cbn [n_so n_do f_lo f_g]. rewrite live_full; [exact CT|]. intros k K. apply keys_In in K. destruct (P k K) as (o & v & X & _). rewrite X. discriminate.
    - rewrite E1. exists m', (s_reports V st ++ [true]). split; [reflexivity|]. split; [apply Forall_app; split; [exact R|repeat constructor]|].
      intros id. destruct (m_heap V m' id) as [o|] eqn:M; [|reflexivity]. exfalso. unfold Proof_Regrid2.wrep in W1. cbn [f_lo f_ln f_g length] in W1. destruct W1 as (_ & _ & _ & _ & _ & _ & _ & _ & _ & _ & ((_ & _ & G3) & _)).
      destruct (G3 id) as (t & T & _); [congruence|]. destruct t as [k|k|n]; cbn [domain_of] in T; [destruct T as (T & _)|destruct T as (T & _)|]; cbn [length] in T; lia.
  Qed.
End Hist.
