(** The sum over all patches. *)
From Coq Require Import ZArith QArith List Lia Lqa Bool Qfield Permutation.
From Verif Require Import Base_Float Model_Face Spec_Face Proof_Face5 Model_Grid Spec_Grid Proof_Grid Proof_Grid2 Proof_Grid4 Proof_Grid5
  Model_Sync Spec_Sync Proof_Sync Proof_Sync2 Proof_Sync3 Proof_Sync4 Proof_Sync5 Proof_Sync6.
Import ListNotations.
Open Scope Z_scope.

Section Balance.
  Variable d : dims.
  Variable m : Z.
  Variable F : forest.
  Variable K : links.
  Variable all : list nat.
  Hypothesis HL : linked d m F K all.
  Variable kappa : nat -> areas.
  Variable S : state.
  Hypothesis HS : state_ok d m all kappa S.
  Variables minlevel maxlevel : Z.

  Notation R := (reg S).
  Notation delta := (delta m F K S).
  Notation A := (corrected_from F all maxlevel minlevel).
  Notation D := (cleared_from F all maxlevel minlevel minlevel).

  Lemma HA : forall p, In p all -> assigned d (R p) /\ (forall c, interior d c -> exists v, sol S p c = Some v).
  Proof. intros p Hp. destruct (HS p Hp) as ((H1 & _) & H2). tauto. Qed.

  Variable s : state.
  Hypothesis Hs : desc d m F K S all s A D.

  Lemma dims_all : forall p, In p all -> mx d = m /\ my d = m /\ 1 <= m < 2 ^ 28.
  Proof. intros p Hp. exact (dims_ok d m F K all HL p Hp). Qed.

  Lemma mass_patch : forall p mq, In p all -> 1 <= mq <= meqn d ->
    (mass d (kappa p) (sol s p) mq == mass d (kappa p) (sol S p) mq +
      qsum 0 3 (fun f => if A p f then qsum 1 m (fun t => delta p f t mq) else 0))%Q.
  Proof.
    intros p mq Hp Hmq. destruct (dims_all p Hp) as (Hx & Hy & Hm). destruct Hs as [H1 _].
    unfold mass. set (G := fun f => (if A p f then qsum 1 m (fun t => delta p f t mq) else 0)%Q).
    assert (E : (total d (fun i j => kappa p i j * val (sol s p) (i, j, mq)) ==
       total d (fun i j => kappa p i j * val (sol S p) (i, j, mq) +
         qsum 0 3 (fun f => if depth f m (i, j) =? 0 then (if A p f then delta p f (posn f (i, j)) mq else 0) else 0)))%Q).
    { apply total_ext. intros i j Hi Hj. destruct (H1 p (i, j, mq) Hp) as (v & Ev & V); [unfold interior; lia|].
      unfold val at 1. rewrite Ev, V. rewrite Qmult_plus_distr_r. apply Qplus_inj_l. rewrite <- qsum_scale. apply qsum_ext. intros f Hf.
      destruct (Z.eqb_spec (depth f m (i, j)) 0) as [ED|ED].
      - destruct (A p f); [|ring]. unfold corr. rewrite ED. cbn [Z.eqb].
        destruct (HS p Hp) as ((_ & _ & HK) & _). rewrite Hx in Hi. rewrite Hy in Hj.
        assert (Ef : 0 <= f < 4) by lia.
        assert (TT : 1 <= posn f (i, j) <= m) by (clear - Ef Hi Hj; face4 f Ef; cbn [posn fst snd]; lia).
        specialize (HK f (posn f (i, j)) ltac:(lia) TT).
        assert (EI : inner_cell f m 1 (posn f (i, j)) = (i, j)).
        { clear - Ef ED. face4 f Ef; cbn [depth posn inner_cell fst snd] in *; f_equal; lia. }
        rewrite EI in HK. destruct HK as [K1 K2]. rewrite <- K1. field. exact K2.
      - destruct (A p f); [|ring]. unfold corr. destruct (Z.eqb_spec (depth f m (i, j)) 0); [contradiction|ring]. }
    rewrite E. unfold total. 
    transitivity (qsum 1 (mx d) (fun i => qsum 1 (my d) (fun j => kappa p i j * val (sol S p) (i, j, mq)) +
      qsum 1 (my d) (fun j => qsum 0 3 (fun f => if (depth f m (i, j) =? 0)%Z then (if A p f then delta p f (posn f (i, j)) mq else 0) else 0))))%Q.
    { apply qsum_ext. intros i _. apply qsum_add. }
    rewrite qsum_add. apply Qplus_inj_l.
    transitivity (qsum 1 (mx d) (fun i => qsum 0 3 (fun f => qsum 1 (my d) (fun j => if (depth f m (i, j) =? 0)%Z then (if A p f then delta p f (posn f (i, j)) mq else 0) else 0))))%Q.
    { apply qsum_ext. intros i _. apply qsum_swap. }
    rewrite qsum_swap. apply qsum_ext. intros f Hf. unfold G.
    transitivity (qsum 1 m (fun t => if A p f then delta p f t mq else 0))%Q.
    { apply (total_edge d m Hx Hy Hm f (fun t => if A p f then delta p f t mq else 0)%Q). lia. }
    destruct (A p f); [reflexivity|]. apply qsum_zero. reflexivity.
  Qed.

  Lemma entered_patch : forall p mq, In p all -> 1 <= mq <= meqn d ->
    (entered d (reg s p) mq == entered d (R p) mq + -1 * qsum 0 3 (fun f => if D p f then through d (R p) f mq else 0))%Q.
  Proof.
    intros p mq Hp Hmq. destruct (dims_all p Hp) as (Hx & Hy & Hm). unfold entered. rewrite <- qsum_scale, <- qsum_add. apply qsum_ext. intros f Hf.
    assert (V : visible F all p) by now left.
    destruct (D p f) eqn:ED.
    - assert (Z0 : (through d (reg s p) f mq == 0)%Q).
      { apply qsum_zero. intros t Ht. rewrite (face_len_m d m Hx Hy) in Ht.
        apply (desc_cleared d m F K all HL S all (incl_refl all) s A D p f t mq Hs V ltac:(lia) Ht Hmq ED). }
      rewrite Z0. ring.
    - transitivity (through d (R p) f mq); [|ring]. apply qsum_ext. intros t _.
      rewrite (proj1 (desc_inflow d m F K S all s A D p f t mq Hs V ltac:(lia) ED)). reflexivity.
  Qed.

  Lemma consistent_patch : forall p, In p all -> consistent d (reg s p).
  Proof.
    intros p Hp f t mq Hf Ht Hmq. destruct (dims_all p Hp) as (Hx & Hy & Hm). rewrite (face_len_m d m Hx Hy) in Ht.
    assert (V : visible F all p) by now left.
    destruct (D p f) eqn:ED.
    - destruct (desc_cleared d m F K all HL S all (incl_refl all) s A D p f t mq Hs V Hf Ht Hmq ED) as [-> ->]. reflexivity.
    - destruct (desc_inflow d m F K S all s A D p f t mq Hs V Hf ED) as [-> ->].
      destruct (HS p Hp) as ((_ & HC & _) & _). apply HC; [exact Hf| |exact Hmq]. now rewrite (face_len_m d m Hx Hy).
  Qed.

  Lemma state_ok_after : state_ok d m all kappa s.
  Proof.
    intros p Hp. assert (V : visible F all p) by now left. split; [split; [|split]|].
    - apply (desc_assigned d m F K all HL S HA all (incl_refl all) s A D p Hs V).
    - now apply consistent_patch.
    - intros f t Hf Ht. rewrite (desc_AR d m F K S all s A D p f t Hs V Hf).
      destruct (HS p Hp) as ((_ & _ & HK) & _). now apply HK.
    - intros c Hc. apply (interior_own d m F K S all s A D p Hs Hp c Hc).
  Qed.

  (* ---------------------------------------------------------------- cancellation *)

  Definition faces : list (nat * Z) := list_prod all [0; 1; 2; 3].
  Lemma in_faces : forall p f, In (p, f) faces <-> In p all /\ 0 <= f < 4.
  Proof. intros p f. unfold faces. rewrite in_prod_iff. cbn [In]. intuition lia. Qed.
  Lemma nd_faces : NoDup faces.
  Proof.
    destruct HL as (N & _). apply NoDup_prod; [exact N|]. repeat constructor; cbn [In]; intuition lia.
  Qed.

  Section Equation.
  Variable mq : Z.
  Hypothesis Hmq : 1 <= mq <= meqn d.
  Definition T (x : nat * Z) : Q := through d (R (fst x)) (snd x) mq.

  Definition inr (p : nat) : bool := (minlevel <=? lev F p) && (lev F p <=? maxlevel).
  Definition b_same (x : nat * Z) : bool := is_same F (fst x) (snd x) && inr (fst x).
  Definition b_half (x : nat * Z) : bool := is_half F (fst x) (snd x) && ((minlevel <=? lev F (fst x)) && (lev F (fst x) <? maxlevel)).
  Definition b_double (x : nat * Z) : bool := is_double F (fst x) (snd x) && ((minlevel <? lev F (fst x)) && (lev F (fst x) <=? maxlevel)).
  Definition b_boundary (x : nat * Z) : bool := is_boundary F (fst x) (snd x) && inr (fst x).

  Definition partner (x : nat * Z) : nat * Z :=
    match nbr F (fst x) (snd x) with SameSize n _ => (n, nface K (fst x) (snd x)) | _ => x end.
  Definition fine (y : nat * Z * Z) : nat * Z :=
    let '(p, f, i) := y in match nbr F p f with HalfSize n _ _ => (n i, nface K p f) | _ => (p, f) end.

  Lemma linked_at : forall p f, In p all -> 0 <= f < 4 -> linked_face F K all p f /\ lev F p = level (geo K p).
  Proof. intros p f Hp Hf. destruct HL as (_ & _ & _ & _ & H). destruct (H p Hp) as (H1 & _ & H2). split; [now apply H2|exact H1]. Qed.

  Lemma same_cancel : (lsum (filter b_same faces) (fun x => T (partner x)) == lsum (filter b_same faces) T)%Q.
  Proof.
    assert (P : forall x, In x (filter b_same faces) -> In (partner x) (filter b_same faces) /\ partner (partner x) = x).
    { intros [p f] Hx. apply filter_In in Hx. destruct Hx as [Hx Hb]. apply in_faces in Hx. destruct Hx as [Hp Hf].
      unfold b_same, is_same in Hb. cbn [fst snd] in Hb. unfold partner at 1 3. cbn [fst snd].
      destruct (linked_at p f Hp Hf) as [LF LV]. unfold linked_face in LF. destruct (nbr F p f) as [|n t|n t nm|] eqn:EN; try discriminate.
      destruct LF as (Hn & (ft & _ & (LQ & _ & Hnf & _)) & (t' & EN') & NN).
      destruct (linked_at n (nface K p f) Hn Hnf) as [_ LV'].
      split.
      - apply filter_In. split; [now apply in_faces|]. unfold b_same, is_same, inr. cbn [fst snd]. rewrite EN'. rewrite LV', <- LQ, <- LV. exact Hb.
      - unfold partner. cbn [fst snd]. rewrite EN', NN. reflexivity. }
    apply (lsum_bij _ _ partner partner T); try (apply NoDup_filter, nd_faces); exact P.
  Qed.

  Lemma half_cancel : (lsum (list_prod (filter b_half faces) [0; 1]%Z) (fun y => T (fine y)) == lsum (filter b_double faces) T)%Q.
  Proof.
    apply (lsum_bij _ _ fine (fun x => coarse_face K (fst x) (snd x)) T).
    - apply NoDup_prod; [apply NoDup_filter, nd_faces|]. repeat constructor; cbn [In]; intuition lia.
    - apply NoDup_filter, nd_faces.
    - intros [[p f] i] Hy. apply in_prod_iff in Hy. destruct Hy as [Hx Hi]. assert (Hi' : 0 <= i <= 1) by (cbn [In] in Hi; intuition lia).
      apply filter_In in Hx. destruct Hx as [Hx Hb]. apply in_faces in Hx. destruct Hx as [Hp Hf].
      unfold b_half, is_half in Hb. cbn [fst snd] in Hb. unfold fine.
      destruct (linked_at p f Hp Hf) as [LF LV]. unfold linked_face in LF. destruct (nbr F p f) as [|n t|n t nm|] eqn:EN; try discriminate.
      destruct LF as (_ & LF). destruct (LF i Hi') as (Hn & (ft & _ & (LQ & _ & _ & Hnf & _)) & EN' & CF).
      destruct (linked_at (n i) (nface K p f) Hn Hnf) as [_ LV'].
      split; [|exact CF]. apply filter_In. split; [now apply in_faces|]. unfold b_double, is_double. cbn [fst snd]. rewrite EN'. cbn [andb] in Hb |- *.
      apply andb_true_iff in Hb. rewrite Z.leb_le, Z.ltb_lt in Hb. apply andb_true_iff. rewrite Z.leb_le, Z.ltb_lt. lia.
    - intros [p f] Hx. apply filter_In in Hx. destruct Hx as [Hx Hb]. apply in_faces in Hx. destruct Hx as [Hp Hf].
      unfold b_double, is_double in Hb. cbn [fst snd] in Hb |- *.
      destruct (linked_at p f Hp Hf) as [LF LV]. unfold linked_face in LF. destruct (nbr F p f) as [|n t|n t nm|] eqn:EN; try discriminate.
      destruct LF as (p' & f' & i & n & t & nm & CF & Hp' & Hf' & Hi & EN' & En & Enf). rewrite CF.
      destruct (linked_at p' f' Hp' Hf') as [LF' LV']. unfold linked_face in LF'. rewrite EN' in LF'. destruct LF' as (_ & LF').
      destruct (LF' i Hi) as (Hn & (ft & _ & (LQ & _)) & _). subst p.
      split.
      + apply in_prod_iff. split; [|cbn [In]; lia]. apply filter_In. split; [now apply in_faces|]. unfold b_half, is_half. cbn [fst snd]. rewrite EN'. cbn [andb] in Hb |- *.
        apply andb_true_iff in Hb. rewrite Z.leb_le, Z.ltb_lt in Hb. apply andb_true_iff. rewrite Z.leb_le, Z.ltb_lt. lia.
      + unfold fine. rewrite EN', Enf. reflexivity.
  Qed.

  (** the change caused by one face *)
  Definition X (x : nat * Z) : Q :=
    ((if A (fst x) (snd x) then qsum 1 m (fun t => delta (fst x) (snd x) t mq) else 0) +
     (if D (fst x) (snd x) then T x else 0))%Q.

  Lemma face_change : forall x, In x faces ->
    (X x == (if b_same x then (1 # 2) * T x + - (1 # 2) * T (partner x) else 0) +
            ((if b_half x then - (1) * lsum [0; 1]%Z (fun i => T (fine (x, i))) else 0) +
            ((if b_double x then T x else 0) + (if b_boundary x then T x else 0))))%Q.
  Proof.
    intros [p f] Hx. apply in_faces in Hx. destruct Hx as [Hp Hf]. destruct (dims_all p Hp) as (Hdx & Hdy & Hm).
    unfold X, b_same, b_half, b_double, b_boundary, is_same, is_half, is_double, is_boundary, corrected_from, cleared_from, partner, fine, inr.
    cbn [fst snd]. rewrite (proj2 (mem_in all p) Hp). cbn [andb].
    destruct (linked_at p f Hp Hf) as [LF LV]. unfold linked_face in LF. unfold Proof_Sync5.delta.
    assert (CONS : forall n, In n all -> consistent d (R n)) by (intros n Hn; destruct (HS n Hn) as ((_ & HC & _) & _); exact HC).
    destruct (nbr F p f) as [|n t|n t nm|] eqn:EN; cbn [andb].
    - rewrite !andb_false_r. rewrite (andb_comm (lev F p <=? maxlevel)). destruct ((minlevel <=? lev F p) && (lev F p <=? maxlevel)); ring.
    - rewrite (andb_comm (lev F p <=? maxlevel)). destruct ((minlevel <=? lev F p) && (lev F p <=? maxlevel)); [|ring].
      destruct LF as (Hn & (ft & _ & (_ & _ & Hnf & _)) & _).
      rewrite (same_sum d m Hdx Hdy (R p) (R n) f (nface K p f) (rev K p f) mq (CONS n Hn) Hf Hnf Hmq).
      unfold T. cbn [fst snd]. ring.
    - destruct (Z.leb_spec minlevel (lev F p)), (Z.ltb_spec (lev F p) maxlevel), (Z.leb_spec (lev F p) maxlevel); try lia; cbn [andb]; try ring.
      destruct LF as (_ & LF). pose proof HL as (_ & Hev & _).
      destruct (LF 0 ltac:(lia)) as (N0 & (ft0 & _ & (_ & P0 & _ & Hnf & _)) & _). destruct (LF 1 ltac:(lia)) as (N1 & (ft1 & _ & (_ & P1 & _)) & _).
      rewrite qsum_add.
      rewrite (half_sum d m Hdx Hdy Hm (R p) (R (n 0)) f (nface K p f) (rev K p f) _ mq Hev (CONS _ N0) Hf Hnf P0 Hmq).
      rewrite (half_sum d m Hdx Hdy Hm (R p) (R (n 1)) f (nface K p f) (rev K p f) _ mq Hev (CONS _ N1) Hf Hnf P1 Hmq).
      assert (HH : (T (p, f) == qsum (0 * (m / 2) + 1)%Z ((0 + 1) * (m / 2))%Z (fun t => inflow (R p) f t mq) +
        qsum (1 * (m / 2) + 1)%Z ((1 + 1) * (m / 2))%Z (fun t => inflow (R p) f t mq))%Q).
      { unfold T, through. cbn [fst snd]. rewrite (face_len_m d m Hdx Hdy). destruct Hev as [h Eh].
        assert (E2 : m / 2 = h) by (rewrite Eh, Z.mul_comm, Z.div_mul; lia). rewrite E2.
        replace (0 * h + 1) with 1 by lia. replace ((0 + 1) * h) with h by lia. replace (1 * h + 1) with (h + 1) by lia. replace ((1 + 1) * h) with m by lia.
        apply qsum_split. lia. }
      rewrite HH. cbn [lsum fold_right]. unfold T. cbn [fst snd]. unfold pos_of in *.
      destruct (second_first K p f); [change (1 - 0) with 1; change (1 - 1) with 0|]; ring.
    - rewrite andb_false_r. rewrite (andb_comm (lev F p <=? maxlevel)). destruct ((minlevel <? lev F p) && (lev F p <=? maxlevel)); ring.
  Qed.

  Lemma changes : (lsum faces X == lsum (filter b_boundary faces) T)%Q.
  Proof.
    rewrite (lsum_ext faces X _ face_change). rewrite !lsum_add, !lsum_filter.
    rewrite lsum_add, !lsum_scale, same_cancel.
    rewrite <- (lsum_prod (filter b_half faces) [0; 1]%Z (fun y => T (fine y))), half_cancel. ring.
  Qed.

  Lemma balance : (total_mass d all kappa s mq - total_entered d all s mq ==
    total_mass d all kappa S mq - total_entered d all S mq + boundary_inflow d F all minlevel maxlevel S mq)%Q.
  Proof.
    assert (M : (total_mass d all kappa s mq == total_mass d all kappa S mq +
      lsum faces (fun x => if A (fst x) (snd x) then qsum 1 m (fun t => delta (fst x) (snd x) t mq) else 0))%Q).
    { unfold faces. rewrite lsum_prod. unfold total_mass. rewrite <- lsum_add. apply lsum_ext. intros p Hp.
      rewrite (mass_patch p mq Hp Hmq), qsum_lsum. reflexivity. }
    assert (E : (total_entered d all s mq == total_entered d all S mq +
      -1 * lsum faces (fun x => if D (fst x) (snd x) then T x else 0))%Q).
    { unfold faces. rewrite lsum_prod. unfold total_entered. rewrite <- lsum_scale, <- lsum_add. apply lsum_ext. intros p Hp.
      rewrite (entered_patch p mq Hp Hmq), qsum_lsum. reflexivity. }
    assert (B : (boundary_inflow d F all minlevel maxlevel S mq == lsum (filter b_boundary faces) T)%Q).
    { rewrite <- lsum_filter. unfold faces. rewrite lsum_prod. unfold boundary_inflow. apply lsum_ext. intros p Hp.
      unfold b_boundary, inr, is_boundary. cbn [fst snd].
      destruct ((minlevel <=? lev F p) && (lev F p <=? maxlevel)).
      - rewrite qsum_lsum. apply lsum_ext. intros f _. unfold T. cbn [fst snd]. destruct (nbr F p f); reflexivity.
      - symmetry. apply lsum_zero. intros f _. rewrite andb_false_r. reflexivity. }
    rewrite M, E, B, <- changes. unfold X. rewrite lsum_add. ring.
  Qed.
  End Equation.
End Balance.
