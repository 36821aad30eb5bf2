(** GeoClaw averaging: the loops of the three routines. *)
From Coq Require Import ZArith QArith Qminmax Qabs List Lia Lqa Bool Qfield Permutation.
From Verif Require Import Base_Float Model_Face Spec_Face Proof_Face Proof_Face1 Proof_Face5 Model_Grid Spec_Grid
  Proof_Grid Proof_Grid2 Proof_Grid4 Proof_Grid5 Model_Corner Spec_Corner Proof_Corner1 Proof_Corner2 Proof_Corner3 Proof_Corner4
  Model_Geoclaw Spec_Geoclaw Proof_Geoclaw.
Import ListNotations.
Open Scope Z_scope.

Lemma sane_at : forall d mcapa F A p, sane d mcapa F A -> inside d p -> (0 <= water F p /\ 0 <= cap mcapa A p)%Q.
Proof. intros d mcapa F A [i j] H [Hi Hj]. now apply H. Qed.

(* ---------------------------------------------------------- average2coarse *)

Section Regrid.
  Variable d : dims.
  Hypothesis Hd : even_size d.
  Variable maux mcapa : Z.
  Variable tol : Q.
  Hypothesis Heq : 3 <= meqn d.
  Hypothesis Hcap : 0 <= mcapa <= maux.
  Hypothesis Hmaux : 1 <= maux.
  Hypothesis Hb : 0 <= mbc d.
  Hypothesis Htol : (0 <= tol)%Q.
  Variable qf af : Z -> arr.
  Variable ac : arr.
  Variable F A : Z -> data.
  Variable C : data.
  Hypothesis HF : forall g, 0 <= g < 4 -> holds d (qf g) (F g).
  Hypothesis HA : forall g, 0 <= g < 4 -> holds_all (with_entries d maux) (af g) (A g).
  Hypothesis HC : holds_all (with_entries d maux) ac C.
  Hypothesis Hsane : forall g, 0 <= g < 4 -> sane d mcapa (F g) (A g).
  Hypothesis HCpos : forall i j, 1 <= i <= mx d -> 1 <= j <= my d -> (0 < cap mcapa C (i, j))%Q.

  Definition fsub (g i j a b : Z) : Z * Z := (sub (off_x d g) i a, sub (off_y d g) j b).
  Definition rtot (g i j : Z) : sums :=
    tot mcapa tol (F g) (A g) (fsub g i j 0 0) (fsub g i j 1 0) (fsub g i j 0 1) (fsub g i j 1 1).
  Definition rarr : arr := fun c => let '(i, j, mq) := c in
    Some (stored (rtot (cover_of d i j) i j) (bottom C (i, j)) (cap mcapa C (i, j)) mq).

  Lemma fsub_inside : forall g i j a b, covers d g i j -> 0 <= a <= 1 -> 0 <= b <= 1 -> inside d (fsub g i j a b).
  Proof.
    intros g i j a b (Hg & Hi & Hj) Ha Hb'.
    destruct (grid_facts d g Hd Hg) as (_ & _ & _ & _ & E1 & E2 & _).
    unfold inside, fsub, sub. cbn [fst snd]. lia.
  Qed.

  Lemma four_good : forall g i j, covers d g i j -> forall p,
    In p [fsub g i j 0 0; fsub g i j 1 0; fsub g i j 0 1; fsub g i j 1 1] ->
    (0 <= water (F g) p /\ 0 <= cap mcapa (A g) p)%Q.
  Proof.
    intros g i j HV p Hp. apply (sane_at d); [apply Hsane; exact (proj1 HV)|].
    cbn [In] in Hp. destruct Hp as [<-|[<-|[<-|[<-|[]]]]]; apply fsub_inside; (exact HV || lia).
  Qed.

  Lemma regrid_cell_ok : forall g i j s0, 0 <= g < 4 -> 1 <= i <= mx d / 2 -> 1 <= j <= my d / 2 ->
    writes none s0 (geo_average_cell d maux tol mcapa (qf g) ac (af g)
        (fun m => ((i - 1) * 2 + (Z.rem m 2 + 1), (j - 1) * 2 + (Z.quot m 2 + 1))) (i + off_x d g) (j + off_y d g))
      (fun x => exists mq, 1 <= mq <= 3 /\ x = (i + off_x d g, j + off_y d g, mq)) rarr.
  Proof.
    intros g i j s0 Hg Hi Hj.
    destruct (grid_facts d g Hd Hg) as (_ & _ & _ & _ & E1 & E2 & _ & _ & _ & _ & Ox & Oy).
    set (I := i + off_x d g). set (J := j + off_y d g).
    assert (HV : covers d g I J) by (unfold I, J; split; [exact Hg|lia]).
    assert (Hcov : cover_of d I J = g) by (symmetry; apply covers_iff; [exact Hd|unfold I; lia|unfold J; lia|exact HV]).
    assert (EP : forall a b, ((i - 1) * 2 + (a + 1), (j - 1) * 2 + (b + 1)) = fsub g I J a b).
    { intros a b. unfold fsub, sub, I, J. f_equal; lia. }
    apply (cell_ok d maux mcapa tol Heq Hcap Hmaux Hb (qf g) (af g) ac (F g) (A g) C (HF g Hg) (HA g Hg) HC _
      (fsub g I J 0 0) (fsub g I J 1 0) (fsub g I J 0 1) (fsub g I J 1 1)).
    1-4: rewrite <- EP; reflexivity.
    1-4: apply fsub_inside; (exact HV || lia).
    - unfold I. lia.
    - unfold J. lia.
    - apply (tot_pos maux mcapa tol Hcap (F g) (A g) Htol). now apply four_good.
    - assert (X : (0 < cap mcapa C (I, J))%Q) by (apply HCpos; unfold I, J; lia). lra.
    - intros mq Hq. unfold rarr. rewrite Hcov. reflexivity.
  Qed.

  Lemma regrid_one_ok : forall g s0, 0 <= g < 4 ->
    writes none s0 (geo_average2coarse_one d maux tol mcapa (qf g) ac (af g) g)
      (fun c => let '(i, j, mq) := c in covers d g i j /\ 1 <= mq <= 3) rarr.
  Proof.
    intros g s0 Hg.
    destruct (grid_facts d g Hd Hg) as (G1 & G2 & G3 & G4 & E1 & E2 & G5 & G6 & _ & _ & Ox & Oy).
    unfold geo_average2coarse_one. rewrite G2, G1, G3, G4, G5, G6.
    eapply writes_weaken.
    - apply (writes_loop0 s0 (fun j c => exists i, 1 <= i <= mx d / 2 /\ exists mq, 1 <= mq <= 3 /\ c = (i + off_x d g, j + off_y d g, mq))).
      intros j Hj.
      apply (writes_loop0 s0 (fun i c => exists mq, 1 <= mq <= 3 /\ c = (i + off_x d g, j + off_y d g, mq))). intros i Hi.
      now apply regrid_cell_ok.
    - intros c [].
    - intros [[i j] mq]. unfold covers. split.
      + intros (j' & Hj & i' & Hi & m & Hm & E). injection E as -> -> ->. lia.
      + intros ((_ & Hi & Hj) & Hm). exists (j - off_y d g). split; [lia|].
        exists (i - off_x d g). split; [lia|]. exists mq. split; [exact Hm|]. now rewrite !Z.sub_add.
  Qed.

  Lemma regrid_ok : forall s0,
    writes none s0 (geo_average2coarse d maux tol mcapa qf af ac)
      (fun c => let '(i, j, mq) := c in 1 <= i <= mx d /\ 1 <= j <= my d /\ 1 <= mq <= 3) rarr.
  Proof.
    intros s0. unfold geo_average2coarse. eapply writes_weaken.
    - apply (writes_loop0 s0 (fun g c => let '(i, j, mq) := c in covers d g i j /\ 1 <= mq <= 3)).
      intros g Hg. apply regrid_one_ok. lia.
    - intros c [].
    - intros [[i j] mq]. split.
      + intros (g & Hg & (Hg' & Hx & Hy) & Hm).
        destruct (grid_facts d g Hd Hg') as (_ & _ & _ & _ & E1 & E2 & _ & _ & _ & _ & Ox & Oy). lia.
      + intros (Hi & Hj & Hm). exists (cover_of d i j).
        assert (V : covers d (cover_of d i j) i j) by now apply covers_iff.
        split; [destruct V; lia|]. now split.
  Qed.

  Lemma regrid_coarsened : forall g i j, covers d g i j ->
    coarsened (fun v => four d g i j (fun x y => v (x, y))) tol (cap mcapa (A g)) (F g) (A g) (bottom C (i, j)) (cap mcapa C (i, j))
      (stored (rtot g i j) (bottom C (i, j)) (cap mcapa C (i, j)) 1)
      (stored (rtot g i j) (bottom C (i, j)) (cap mcapa C (i, j)) 2)
      (stored (rtot g i j) (bottom C (i, j)) (cap mcapa C (i, j)) 3).
  Proof.
    intros g i j HV. unfold rtot. apply (stored_coarsened maux mcapa tol Hcap (F g) (A g) Htol).
    - now apply four_good.
    - destruct HV as (Hg & Hi & Hj).
      destruct (grid_facts d g Hd Hg) as (_ & _ & _ & _ & E1 & E2 & _ & _ & _ & _ & Ox & Oy). apply HCpos; lia.
    - intros v. unfold four, sum4p, fsub. reflexivity.
  Qed.
End Regrid.

(* ------------------------------------------------------------------- faces *)

Section Face.
  Variable rnd : Q -> Q.
  Hypothesis Hrnd : rounding rnd.
  Variable d : dims.
  Variable m : Z.
  Variable f nf : Z.
  Variable o : bool.
  Variable pos : Z.
  Hypothesis Hsz : mx d = m /\ my d = m.
  Hypothesis Hev : Z.Even m.
  Variable maux mcapa : Z.
  Variable tol : Q.
  Hypothesis Heq : 3 <= meqn d.
  Hypothesis Hcap : 0 <= mcapa <= maux.
  Hypothesis Hmaux : 1 <= maux.
  Hypothesis Hb0 : 0 <= mbc d.
  Hypothesis Hb : 2 * mbc d <= m.
  Hypothesis Htol : (0 <= tol)%Q.
  Variable qf af ac : arr.
  Variable F A C : data.
  Hypothesis HF : holds d qf F.
  Hypothesis HA : holds_all (with_entries d maux) af A.
  Hypothesis HC : holds_all (with_entries d maux) ac C.
  Hypothesis Hsane : sane d mcapa F A.
  Hypothesis HCpos : forall i j, (0 < cap mcapa C (i, j))%Q.

  Definition ftot (pos : Z) (p : Z * Z) : sums :=
    let c := fimage f nf o pos m p in tot mcapa tol F A (c 0 0) (c 1 0) (c 0 1) (c 1 1).
  Definition farr (pos : Z) : arr := fun c => let '(i, j, mq) := c in
    Some (stored (ftot pos (i, j)) (bottom C (i, j)) (cap mcapa C (i, j)) mq).

  Definition ghost2 (p : Z * Z) : Prop := 1 <= depth f m p <= mbc d /\ 1 <= posn f p <= m.

  Lemma geo_ghost_ok : forall ip op ft i j s0, half_size f nf o pos ip op ft -> square d m (level op) -> ghost2 (i, j) ->
    writes none s0 (geo_average_ghost rnd d maux tol mcapa qf ac af (mkT ip op ft) i j)
      (fun c => (exists mq, 1 <= mq <= 3 /\ c = (i, j, mq)) /\ mine m pos (posn f (i, j))) (farr pos).
  Proof.
    intros ip op ft i j s0 HS HQ (G1 & G2).
    pose proof HS as (_ & Hp & Hff & Hn & _). pose proof HQ as (Hx & Hy & Hm & _).
    destruct (t_half_ok rnd Hrnd d m ip op f nf o pos ft i j HS HQ ltac:(lia) ltac:(lia)) as (ij & E & HI).
    unfold geo_average_ghost. rewrite E. cbn [bind].
    assert (I0 : ij 0 = Some (fimage f nf o pos m (i, j) 0 0)) by (apply (HI 0 0); lia).
    assert (I1 : ij 1 = Some (fimage f nf o pos m (i, j) 1 0)) by (apply (HI 1 0); lia).
    assert (I2 : ij 2 = Some (fimage f nf o pos m (i, j) 0 1)) by (apply (HI 0 1); lia).
    assert (I3 : ij 3 = Some (fimage f nf o pos m (i, j) 1 1)) by (apply (HI 1 1); lia).
    rewrite I0, I1, I2, I3. cbn [bind]. clear I0 I1 I2 I3 HI E.
    set (c := fimage f nf o pos m (i, j)).
    assert (VAL : forall sx sy, 0 <= sx <= 1 -> 0 <= sy <= 1 ->
      (is_valid_average d (fst (c sx sy)) (snd (c sx sy)) = true <-> mine m pos (posn f (i, j)))).
    { intros sx sy Hsx Hsy. unfold c, fimage. rewrite (inner_valid d m Hsz).
      - unfold mine, flip. destruct Hev as [h Eh]. assert (Eh2 : m / 2 = h) by (rewrite Eh, Z.mul_comm, Z.div_mul; lia).
        rewrite Eh2.
        assert (Hs : 0 <= tchild f sx sy <= 1) by (clear - Hff Hsx Hsy; face4 f Hff; cbn [tchild]; lia).
        assert (Ep : pos = 0 \/ pos = 1) by lia. destruct Ep as [->| ->]; destruct o; lia.
      - exact Hn.
      - assert (Hs : 0 <= nchild f sx sy <= 1) by (clear - Hff Hsx Hsy; face4 f Hff; cbn [nchild]; lia).
        unfold fdepth. destruct (Z.odd f); lia. }
    destruct (is_valid_average d (fst (c 0 0)) (snd (c 0 0))) eqn:V0.
    - assert (M : mine m pos (posn f (i, j))) by (apply (VAL 0 0); [lia|lia|exact V0]).
      assert (V : forall sx sy, 0 <= sx <= 1 -> 0 <= sy <= 1 ->
        is_valid_average d (fst (c sx sy)) (snd (c sx sy)) = true) by (intros; now apply VAL).
      rewrite (V 1 0), (V 0 1), (V 1 1) by lia. cbn [andb].
      assert (IN : forall sx sy, 0 <= sx <= 1 -> 0 <= sy <= 1 -> inside d (c sx sy)).
      { intros sx sy Hsx Hsy. pose proof (V sx sy Hsx Hsy) as VV. unfold is_valid_average in VV.
        rewrite !andb_true_iff, !Z.leb_le in VV. unfold inside. lia. }
      assert (Hin : 1 - mbc d <= i <= mx d + mbc d /\ 1 - mbc d <= j <= my d + mbc d).
      { rewrite Hx, Hy. clear - Hff G1 G2 Hb Hb0. face4 f Hff; cbn [depth posn fst snd] in *; lia. }
      apply writes_weaken with (R := none) (W := fun c => exists mq, 1 <= mq <= 3 /\ c = (i, j, mq));
        [|intros x [] |intros x; tauto].
      apply (cell_ok d maux mcapa tol Heq Hcap Hmaux Hb0 qf af ac F A C HF HA HC _ (c 0 0) (c 1 0) (c 0 1) (c 1 1));
        try reflexivity; try (apply IN; lia); try lia.
      + apply (tot_pos maux mcapa tol Hcap F A Htol). intros p Hp'. apply (sane_at d); [exact Hsane|].
        cbn [In] in Hp'. destruct Hp' as [<-|[<-|[<-|[<-|[]]]]]; apply IN; lia.
      + pose proof (HCpos i j). lra.
    - cbn [andb].
      assert (NM : ~ mine m pos (posn f (i, j))).
      { intros M. assert (E : is_valid_average d (fst (c 0 0)) (snd (c 0 0)) = true) by (apply VAL; [lia|lia|exact M]).
        congruence. }
      eapply writes_weaken; [apply (writes_skip none)|intros x []|]. intros x. unfold none. tauto.
  Qed.

  Lemma geo_average_face_ok : forall ip op ft s0, half_size f nf o pos ip op ft -> square d m (level op) ->
    writes none s0 (fun q => geo_average_face rnd d maux tol mcapa q qf ac af (f / 2) f (mkT ip op ft))
      (fun c => ghost2 (fst c) /\ 1 <= snd c <= 3 /\ mine m pos (posn f (fst c))) (farr pos).
  Proof.
    intros ip op ft s0 HS HQ. pose proof HS as (_ & Hp & Hff & Hn & _). pose proof HQ as (Hx & Hy & Hm & _).
    assert (AG := fun i j => geo_ghost_ok ip op ft i j s0 HS HQ).
    set (body := geo_average_ghost rnd d maux tol mcapa qf ac af (mkT ip op ft)) in *.
    set (W := fun (i j : Z) (c : cell) => (exists mq, 1 <= mq <= 3 /\ c = (i, j, mq)) /\ mine m pos (posn f (i, j))) in *.
    unfold geo_average_face. fold body.
    assert (FIN : forall g, writes none s0 g (fun c => exists i j, ghost2 (i, j) /\ W i j c) (farr pos) ->
      writes none s0 g (fun c => ghost2 (fst c) /\ 1 <= snd c <= 3 /\ mine m pos (posn f (fst c))) (farr pos)).
    { intros g H. eapply writes_weaken; [exact H|intros c []|]. intros [[i j] mq]. cbn [fst snd]. split.
      - intros (i' & j' & HG & (mq' & Hq & E) & M). injection E as -> -> ->. tauto.
      - intros (HG & Hq & M). exists i, j. split; [exact HG|]. split; [exists mq; tauto|exact M]. }
    assert (L0 : forall (ic : Z -> Z) l2 h2 (sw : bool),
      (forall b t, 1 <= b <= mbc d -> l2 <= t <= h2 -> ghost2 (if sw then (t, ic b) else (ic b, t))) ->
      (forall i j, ghost2 (i, j) -> exists b t, 1 <= b <= mbc d /\ l2 <= t <= h2 /\
         (i, j) = if sw then (t, ic b) else (ic b, t)) ->
      writes none s0
        (if sw then loop 1 (mbc d) (fun b => loop l2 h2 (fun t => body t (ic b)))
         else loop l2 h2 (fun t => loop 1 (mbc d) (fun b => body (ic b) t)))
        (fun c => exists i j, ghost2 (i, j) /\ W i j c) (farr pos)).
    { intros ic l2 h2 sw HG HG'. destruct sw.
      - eapply writes_weaken.
        + apply (writes_loop0 s0 (fun b c => exists t, l2 <= t <= h2 /\ W t (ic b) c)). intros b Hbb.
          apply (writes_loop0 s0 (fun t c => W t (ic b) c)). intros t Ht. apply AG, HG; assumption.
        + intros c [].
        + intros c. split.
          * intros (b & H2 & t & H3 & H4). exists t, (ic b). split; [now apply HG|exact H4].
          * intros (i & j & H1 & H2). destruct (HG' i j H1) as (b & t & Hb1 & Ht & E). injection E as -> ->.
            exists b. split; [exact Hb1|]. exists t. now split.
      - eapply writes_weaken.
        + apply (writes_loop0 s0 (fun t c => exists b, 1 <= b <= mbc d /\ W (ic b) t c)). intros t Ht.
          apply (writes_loop0 s0 (fun b c => W (ic b) t c)). intros b Hbb. apply AG, HG; assumption.
        + intros c [].
        + intros c. split.
          * intros (t & H2 & b & H3 & H4). exists (ic b), t. split; [now apply HG|exact H4].
          * intros (i & j & H1 & H2). destruct (HG' i j H1) as (b & t & Hb1 & Ht & E). injection E as -> ->.
            exists t. split; [exact Ht|]. exists b. now split. }
    apply FIN. clear AG FIN HS. rewrite Hx, Hy. revert L0. unfold ghost2.
    assert (C4 : f = 0 \/ f = 1 \/ f = 2 \/ f = 3) by lia.
    destruct C4 as [E|[E|[E|E]]]; rewrite E; cbn [depth posn fst snd]; intros L0;
      [change (0 / 2 =? 0) with true; change (0 =? 0) with true
      |change (1 / 2 =? 0) with true; change (1 =? 0) with false; change (1 =? 1) with true
      |change (2 / 2 =? 0) with false; change (2 =? 2) with true
      |change (3 / 2 =? 0) with false; change (3 =? 2) with false; change (3 =? 3) with true]; cbv iota; cbn [bind].
    - apply (L0 (fun b => 1 - b) 1 m false); [intros; cbn [fst snd]; lia|].
      intros i j (H1 & H2). exists (1 - i), j. split; [lia|]. split; [lia|]. f_equal; lia.
    - apply (L0 (fun b => m + b) 1 m false); [intros; cbn [fst snd]; lia|].
      intros i j (H1 & H2). exists (i - m), j. split; [lia|]. split; [lia|]. f_equal; lia.
    - apply (L0 (fun b => 1 - b) 1 m true); [intros; cbn [fst snd]; lia|].
      intros i j (H1 & H2). exists (1 - j), i. split; [lia|]. split; [lia|]. f_equal; lia.
    - apply (L0 (fun b => m + b) 1 m true); [intros; cbn [fst snd]; lia|].
      intros i j (H1 & H2). exists (j - m), i. split; [lia|]. split; [lia|]. f_equal; lia.
  Qed.

  (* ----------------------------------------------------------------- corners *)

  Section CornerAvg.
    Hypothesis Hm : 1 <= m < 2 ^ 28.
    Variable u : bool.
    Variable ip op : patch.
    Variable c : cdata.
    Hypothesis HT : touches_corner f nf o u ip op c.
    Hypothesis Hff : 0 <= f < 4.
    Hypothesis Hnn : 0 <= nf < 4.
    Hypothesis HL : level op = level ip + 1.
    Hypothesis HR : 2 ^ level op * m <= 2 ^ 49.

    Lemma corner_in : forall a b, 1 <= a <= mbc d -> 1 <= b <= mbc d ->
      forall sx sy, 0 <= sx <= 1 -> 0 <= sy <= 1 -> inside d (fimage f nf o (ends2 u) m (ghost_cell f m a (past u m b)) sx sy).
    Proof.
      intros a b Ha Hb' sx sy Hsx Hsy. destruct (depth_at m f u Hff a b) as [D1 D2].
      unfold inside, fimage. rewrite D1, D2. destruct Hsz as [-> ->].
      assert (B1 : 0 <= nchild f sx sy <= 1) by (clear - Hff Hsx Hsy; face4 f Hff; cbn [nchild]; lia).
      assert (B2 : 0 <= tchild f sx sy <= 1) by (clear - Hff Hsx Hsy; face4 f Hff; cbn [tchild]; lia).
      assert (B3 : 1 <= fdepth f a (nchild f sx sy) <= m) by (unfold fdepth; destruct (Z.odd f); lia).
      assert (B4 : 1 <= flip o m (2 * past u m b - 1 + tchild f sx sy - ends2 u * m) <= m).
      { unfold flip, past, ends2. destruct o, u; lia. }
      revert B3 B4. generalize (fdepth f a (nchild f sx sy)) (flip o m (2 * past u m b - 1 + tchild f sx sy - ends2 u * m)).
      intros dd tt B3 B4. clear - Hnn B3 B4. face4 nf Hnn; cbn [inner_cell fst snd]; lia.
    Qed.

    Definition corner3 (z : cell) : Prop :=
      exists a b mq, 1 <= a <= mbc d /\ 1 <= b <= mbc d /\ 1 <= mq <= 3 /\ z = at3 (ghost_cell f m a (past u m b)) mq.

    Lemma geo_average_corner_ok : forall s0,
      writes none s0 (fun q => geo_average_corner rnd d maux tol mcapa q qf ac af (corner_on f u) c) corner3 (farr (ends2 u)).
    Proof.
      intros s0.
      set (body := fun (p : Z * Z) (q : arr) => bind (t_corner_half rnd d c (fst p) (snd p)) (fun ij =>
          bind (ij 0) (fun c0 => bind (ij 1) (fun c1 => bind (ij 2) (fun c2 => bind (ij 3) (fun c3 =>
          geo_average_cell d maux tol mcapa qf ac af (fun k => if k =? 0 then c0 else if k =? 1 then c1 else if k =? 2 then c2 else c3)
            (fst p) (snd p) q)))))).
      assert (ONE : forall x y, 1 <= x <= mbc d -> 1 <= y <= mbc d ->
        writes none s0 (body (cpos (corner_on f u) m x y))
          (fun z => exists mq, 1 <= mq <= 3 /\ z = at3 (cpos (corner_on f u) m x y) mq) (farr (ends2 u))).
      { intros x y Hx Hy. rewrite (cpos_ghost f u m x y Hff).
        set (a := fst_of f x y). set (b := fst_of f y x).
        assert (Ha : 1 <= a <= mbc d) by (apply (fst_of_range f _ _ (fun z => 1 <= z <= mbc d)); assumption).
        assert (Hbb : 1 <= b <= mbc d) by (apply (fst_of_range f _ _ (fun z => 1 <= z <= mbc d)); assumption).
        destruct (depth_at m f u Hff a b) as [D1 D2].
        pose proof (corner_in a b Ha Hbb) as IN. set (p := ghost_cell f m a (past u m b)) in *.
        destruct (t_corner_half_ok rnd Hrnd d m Hsz Hm f nf o u ip op c HT HL HR (fst p) (snd p)) as (ij & E & HI).
        { rewrite <- surjective_pairing, D1. lia. }
        { rewrite <- surjective_pairing, D2. unfold past, ends2. destruct u; lia. }
        rewrite <- surjective_pairing in HI.
        assert (I0 := HI 0 0 ltac:(lia) ltac:(lia)). assert (I1 := HI 1 0 ltac:(lia) ltac:(lia)).
        assert (I2 := HI 0 1 ltac:(lia) ltac:(lia)). assert (I3 := HI 1 1 ltac:(lia) ltac:(lia)).
        change (2 * 0 + 0) with 0 in I0. change (2 * 0 + 1) with 1 in I1.
        change (2 * 1 + 0) with 2 in I2. change (2 * 1 + 1) with 3 in I3.
        unfold body. rewrite E. cbn [bind]. rewrite I0, I1, I2, I3. cbn [bind].
        set (k := fimage f nf o (ends2 u) m p) in *.
        assert (PR : 1 - mbc d <= fst p <= mx d + mbc d /\ 1 - mbc d <= snd p <= my d + mbc d).
        { destruct Hsz as [-> ->]. assert (PB : 1 - mbc d <= past u m b <= m + mbc d) by (unfold past; destruct u; lia).
          revert PB. unfold p. generalize (past u m b). intros t Ht. clear - Hff Ha Ht Hm Hb0.
          face4 f Hff; cbn [ghost_cell fst snd]; lia. }
        apply (cell_ok d maux mcapa tol Heq Hcap Hmaux Hb0 qf af ac F A C HF HA HC _ (k 0 0) (k 1 0) (k 0 1) (k 1 1));
          try reflexivity; try (apply IN; lia); try lia.
        - apply (tot_pos maux mcapa tol Hcap F A Htol). intros r Hp'. apply (sane_at d); [exact Hsane|].
          cbn [In] in Hp'. destruct Hp' as [<-|[<-|[<-|[<-|[]]]]]; apply IN; lia.
        - pose proof (HCpos (fst p) (snd p)). lra. }
      assert (ALL : writes none s0 (loop 1 (mbc d) (fun x => loop 1 (mbc d) (fun y => body (cpos (corner_on f u) m x y))))
        corner3 (farr (ends2 u))).
      { eapply writes_weaken.
        - apply (writes_loop0 s0 (fun x z => exists y, 1 <= y <= mbc d /\ exists mq, 1 <= mq <= 3 /\ z = at3 (cpos (corner_on f u) m x y) mq)).
          intros x Hx. apply (writes_loop0 s0 (fun y z => exists mq, 1 <= mq <= 3 /\ z = at3 (cpos (corner_on f u) m x y) mq)).
          intros y Hy. now apply ONE.
        - intros z [].
        - intros z. split.
          + intros (x & Hx & y & Hy & mq & Hq & E). exists (fst_of f x y), (fst_of f y x), mq.
            split; [apply (fst_of_range f _ _ (fun z => 1 <= z <= mbc d)); assumption|].
            split; [apply (fst_of_range f _ _ (fun z => 1 <= z <= mbc d)); assumption|].
            split; [exact Hq|]. rewrite <- (cpos_ghost f u m x y Hff). exact E.
          + intros (a & b & mq & Ha & Hb' & Hq & E).
            exists (fst_of f a b). split; [apply (fst_of_range f _ _ (fun z => 1 <= z <= mbc d)); assumption|].
            exists (fst_of f b a). split; [apply (fst_of_range f _ _ (fun z => 1 <= z <= mbc d)); assumption|].
            exists mq. split; [exact Hq|].
            rewrite (cpos_ghost f u m _ _ Hff). rewrite E. f_equal. f_equal; [|f_equal]; unfold fst_of; destruct (f / 2 =? 0); reflexivity. }
      eapply writes_ext; [|exact ALL]. intros s. unfold geo_average_corner. destruct Hsz as [-> ->].
      apply loop_ext; intros x q _; apply loop_ext; intros y q' _.
      pose proof (corner_on_range f u Hff) as HK. unfold body. revert HK. generalize (corner_on f u). intros k HK.
      assert (K : k = 0 \/ k = 1 \/ k = 2 \/ k = 3) by lia.
      destruct K as [->|[->|[->| ->]]]; unfold cpos; cbn [Z.eqb Pos.eqb orb fst snd bind]; reflexivity.
    Qed.
  End CornerAvg.

  Lemma face_coarsened : forall q p S, (forall sx sy, 0 <= sx <= 1 -> 0 <= sy <= 1 -> inside d (fimage f nf o q m p sx sy)) ->
    (forall v, S v == let c := fimage f nf o q m p in v (c 0%Z 0%Z) + v (c 1%Z 0%Z) + v (c 0%Z 1%Z) + v (c 1%Z 1%Z))%Q ->
    coarsened S tol (cap mcapa A) F A (bottom C p) (cap mcapa C p)
      (stored (ftot q p) (bottom C p) (cap mcapa C p) 1) (stored (ftot q p) (bottom C p) (cap mcapa C p) 2)
      (stored (ftot q p) (bottom C p) (cap mcapa C p) 3).
  Proof.
    intros q p S IN HS. unfold ftot. cbv zeta. apply (stored_coarsened maux mcapa tol Hcap F A Htol).
    - intros r Hr. apply (sane_at d); [exact Hsane|].
      cbn [In] in Hr. destruct Hr as [<-|[<-|[<-|[<-|[]]]]]; apply IN; lia.
    - rewrite (surjective_pairing p). apply HCpos.
    - exact HS.
  Qed.
End Face.
