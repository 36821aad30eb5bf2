(** Proofs about the bathymetry of patches. *)
From Coq Require Import ZArith QArith Qround Qminmax List Bool Lia Lqa.
From Verif Require Import Model_Topo Model_SetAux Spec_SetAux Proof_Topo2 Proof_Topo3.
Import ListNotations.
Open Scope Q_scope.

Lemma upd_same a i j v : upd a i j v i j = v.
Proof. unfold upd. now rewrite !Z.eqb_refl. Qed.
Lemma upd_other a i j v i' j' : (i', j') <> (i, j) -> upd a i j v i' j' = a i' j'.
Proof.
  intros H. unfold upd. destruct (Z.eqb_spec i' i) as [->|]; [|reflexivity]. destruct (Z.eqb_spec j' j) as [->|]; [congruence|reflexivity].
Qed.
Lemma pos_dec (p q : Z * Z) : {p = q} + {p <> q}.
Proof. decide equality; apply Z.eq_dec. Qed.

Lemma by_rows_in g i j : In (i, j) (by_rows g) <-> in_array g i j.
Proof.
  unfold by_rows, in_array. rewrite in_flat_map. split.
  - intros (y & Hy & H). apply in_map_iff in H. destruct H as (x & E & Hx). injection E as -> ->. apply range_in in Hx, Hy. lia.
  - intros H. exists j. rewrite range_in. split; [lia|]. apply in_map_iff. exists i. rewrite range_in. split; [reflexivity|lia].
Qed.
Lemma by_columns_in g i j : In (i, j) (by_columns g) <-> in_array g i j.
Proof.
  unfold by_columns, in_array. rewrite in_flat_map. split.
  - intros (y & Hy & H). apply in_map_iff in H. destruct H as (x & E & Hx). injection E as -> ->. apply range_in in Hx, Hy. lia.
  - intros H. exists i. rewrite range_in. split; [lia|]. apply in_map_iff. exists j. rewrite range_in. split; [reflexivity|lia].
Qed.

(** * Copies *)
Lemma copies (P : Z * Z -> bool) (src : Z * Z -> Z * Z) l a :
  (forall p, P p = true -> P (src p) = false) ->
  let step := fun (a : auxarr) (p : Z * Z) => if P p then upd a (fst p) (snd p) (a (fst (src p)) (snd (src p))) else a in
  forall i j, fold_left step l a i j =
    if P (i, j) then if in_dec pos_dec (i, j) l then a (fst (src (i, j))) (snd (src (i, j))) else a i j else a i j.
Proof.
  intros HP step i j. revert a. induction l as [|p l IH]; intros a.
  - cbn [fold_left]. destruct (P (i, j)); [|reflexivity]. destruct (in_dec _ _ _) as [[]|_]. reflexivity.
  - cbn [fold_left]. rewrite IH.
    assert (Keep : forall q, P q = false -> step a p (fst q) (snd q) = a (fst q) (snd q)).
    { intros q Hq. unfold step. destruct (P p) eqn:Pp; [|reflexivity]. apply upd_other. intros E.
      rewrite <- !surjective_pairing in E. congruence. }
    destruct (P (i, j)) eqn:Pij.
    + pose proof (Keep (src (i, j)) (HP _ Pij)) as K.
      destruct (in_dec pos_dec (i, j) l) as [I|N].
      * destruct (in_dec pos_dec (i, j) (p :: l)) as [_|N']; [exact K|exfalso; apply N'; now right].
      * destruct (in_dec pos_dec (i, j) (p :: l)) as [[->|I]|N'].
        -- unfold step. rewrite Pij. cbn [fst snd]. apply upd_same.
        -- contradiction.
        -- unfold step. destruct (P p) eqn:Pp; [|reflexivity]. apply upd_other. intros E.
           rewrite <- surjective_pairing in E. apply N'. now left.
    + apply (Keep (i, j) Pij).
Qed.

(** * The cells of a placed patch *)
Section Placed.
  Variables (g : grid) (nx ny a b : Z).
  Hypothesis (H : placed g nx ny a b).

  Lemma floor_off low lower d n : 0 < d -> low == lower + inject_Z n * d ->
    Qfloor ((low - lower + (5 # 100) * d) / d) = n.
  Proof.
    intros Hd E. assert (X : (low - lower + (5 # 100) * d) / d == inject_Z n + (5 # 100)) by (rewrite E; field; lra).
    rewrite (Qfloor_comp _ _ X).
    pose proof (Qfloor_le (inject_Z n + (5 # 100))) as A. pose proof (Qlt_floor (inject_Z n + (5 # 100))) as B.
    set (k := Qfloor (inject_Z n + (5 # 100))) in *. clearbody k.
    destruct (Z_lt_le_dec k n) as [L|L]; [|destruct (Z_lt_le_dec n k) as [M|M]; [|lia]].
    - exfalso. assert (inject_Z (k + 1) <= inject_Z n) by (rewrite <- Zle_Qle; lia). lra.
    - exfalso. assert (inject_Z (n + 1) <= inject_Z k) by (rewrite <- Zle_Qle; lia). rewrite inject_Z_plus in H0. change (inject_Z 1) with 1 in H0. lra.
  Qed.
  Lemma ilo_eq : ilo g = a.
  Proof. destruct H. unfold ilo. now apply floor_off. Qed.
  Lemma jlo_eq : jlo g = b.
  Proof. destruct H. unfold jlo. now apply floor_off. Qed.

  Lemma half_pos d k : 0 < d -> (0 < (inject_Z k - (1 # 2)) * d <-> (1 <= k)%Z).
  Proof.
    intros Hd. split; intros X.
    - destruct (Z_lt_le_dec k 1) as [L|L]; [|assumption]. exfalso.
      assert (inject_Z k <= 0) by (change 0 with (inject_Z 0); rewrite <- Zle_Qle; lia).
      assert ((inject_Z k - (1 # 2)) * d < 0 * d) by (apply Qmult_lt_r; [assumption|lra]). lra.
    - assert (1 <= inject_Z k) by (change 1 with (inject_Z 1); rewrite <- Zle_Qle; lia).
      apply Qmult_lt_0_compat; lra.
  Qed.
  Lemma centre_low lower d k : 0 < d -> qltb (lower + (inject_Z k - (1 # 2)) * d) lower = (k <? 1)%Z.
  Proof.
    intros Hd. apply eq_true_iff_eq. rewrite qltb_iff, Z.ltb_lt. pose proof (half_pos d k Hd) as P.
    pose proof (half_pos d (1 - k) Hd) as N. unfold Zminus in N. rewrite inject_Z_plus, inject_Z_opp in N. change (inject_Z 1) with 1 in N.
    assert (E : (1 + - inject_Z k - (1 # 2)) * d == - ((inject_Z k - (1 # 2)) * d)) by ring. rewrite E in N. clear E.
    set (z := (inject_Z k - (1 # 2)) * d) in *. clearbody z. split; intros X.
    - assert (0 < - z) by lra. apply N in H0. lia.
    - assert (1 <= 1 + - k)%Z by lia. apply N in H0. lra.
  Qed.
  Lemma centre_high lower upper d n k : 0 < d -> upper == lower + inject_Z n * d ->
    qltb upper (lower + (inject_Z k - (1 # 2)) * d) = (n <? k)%Z.
  Proof.
    intros Hd E. apply eq_true_iff_eq. rewrite qltb_iff, Z.ltb_lt. pose proof (half_pos d (k - n) Hd) as P.
    unfold Zminus in P. rewrite inject_Z_plus, inject_Z_opp in P. rewrite E.
    assert (F : (inject_Z k + - inject_Z n - (1 # 2)) * d == (inject_Z k - (1 # 2)) * d - inject_Z n * d) by ring.
    rewrite F in P. clear F. set (z := (inject_Z k - (1 # 2)) * d) in *. set (w := inject_Z n * d) in *. clearbody z w. split; intros X.
    - assert (0 < z - w) by lra. apply P in H0. lia.
    - assert (1 <= k + - n)%Z by lia. apply P in H0. lra.
  Qed.
  Lemma ceil_half k : Qceiling (inject_Z k - (1 # 2)) = k.
  Proof.
    pose proof (Qle_ceiling (inject_Z k - (1 # 2))) as A. pose proof (Qceiling_lt (inject_Z k - (1 # 2))) as B.
    set (c := Qceiling (inject_Z k - (1 # 2))) in *. clearbody c.
    destruct (Z_lt_le_dec c k) as [L|L]; [|destruct (Z_lt_le_dec k c) as [M|M]; [|lia]]; exfalso.
    - assert (inject_Z (c + 1) <= inject_Z k) by (rewrite <- Zle_Qle; lia). rewrite inject_Z_plus in H0. change (inject_Z 1) with 1 in H0. lra.
    - assert (inject_Z k <= inject_Z (c - 1)) by (rewrite <- Zle_Qle; lia). lra.
  Qed.
  Lemma ceil_low lower d k : 0 < d -> Qceiling ((lower - (lower + (inject_Z k - (1 # 2)) * d)) / d) = (1 - k)%Z.
  Proof.
    intros Hd. rewrite <- (ceil_half (1 - k)). apply Qceiling_comp. unfold Zminus. rewrite inject_Z_plus, inject_Z_opp.
    change (inject_Z 1) with 1. field. lra.
  Qed.
  Lemma ceil_high lower upper d n k : 0 < d -> upper == lower + inject_Z n * d ->
    Qceiling ((lower + (inject_Z k - (1 # 2)) * d - upper) / d) = (k - n)%Z.
  Proof.
    intros Hd E. rewrite <- (ceil_half (k - n)). apply Qceiling_comp. unfold Zminus. rewrite inject_Z_plus, inject_Z_opp.
    rewrite E. field. lra.
  Qed.

  Lemma iint_eq i : iint g i = (nearest nx (a + i) - a)%Z.
  Proof.
    destruct H. unfold iint, xc. rewrite ilo_eq, ceil_low, (ceil_high _ _ _ nx) by assumption. unfold nearest.
    destruct (Z.ltb_spec (a + i) 1); [lia|]. destruct (Z.ltb_spec nx (a + i)); lia.
  Qed.
  Lemma jint_eq j : jint g j = (nearest ny (b + j) - b)%Z.
  Proof.
    destruct H. unfold jint, yc. rewrite jlo_eq, ceil_low, (ceil_high _ _ _ ny) by assumption. unfold nearest.
    destruct (Z.ltb_spec (b + j) 1); [lia|]. destruct (Z.ltb_spec ny (b + j)); lia.
  Qed.
  Definition outx (i : Z) : bool := ((a + i <? 1) || (nx <? a + i))%Z.
  Definition outy (j : Z) : bool := ((b + j <? 1) || (ny <? b + j))%Z.
  Lemma row_cond j : qltb (yc g j) (g_ylower g) || qltb (g_yupper g) (yc g j) = outy j.
  Proof. destruct H. unfold yc, outy. rewrite jlo_eq, centre_low, (centre_high _ _ _ ny) by assumption. reflexivity. Qed.
  Lemma column_cond i : qltb (xc g i) (g_xlower g) || qltb (g_xupper g) (xc g i) = outx i.
  Proof. destruct H. unfold xc, outx. rewrite ilo_eq, centre_low, (centre_high _ _ _ nx) by assumption. reflexivity. Qed.

  Lemma qltb_comp x x' y y' : x == x' -> y == y' -> qltb x y = qltb x' y'.
  Proof. intros E F. apply eq_true_iff_eq. rewrite !qltb_iff, E, F. reflexivity. Qed.
  Lemma mid_centre lower d k : (1 # 2) * (lower + inject_Z (k - 1) * d + (lower + inject_Z k * d)) == lower + (inject_Z k - (1 # 2)) * d.
  Proof. unfold Zminus. rewrite inject_Z_plus. change (inject_Z (-(1))) with (-1). ring. Qed.

  Lemma skip_false i j : in_array g i j -> (skip g i j = false <-> held g i j).
  Proof.
    intros I. destruct H. unfold in_array in I. unfold skip, ghost_invalid, held. destruct (g_ghost g); cbn [andb]; [|intuition congruence].
    assert (O : ((i <? 1 - g_mbc g) || (g_mx g + g_mbc g <? i) || (j <? 1 - g_mbc g) || (g_my g + g_mbc g <? j))%Z = false).
    { rewrite !orb_false_iff, !Z.ltb_ge. lia. }
    rewrite O, orb_false_r. rewrite !andb_false_iff, !Z.ltb_ge. split; [intros X _; lia|intros X; specialize (X eq_refl); lia].
  Qed.

  Variable fs : list topofile.
  Lemma set_cell_eq st i j : set_cell fs g (Some st) (i, j) =
    if skip g i j then Some st else if outx i || outy j then Some st
    else match cell_bathymetry fs (gridcell g (a + i) (b + j)) with Some v => Some (upd st i j (Some v)) | None => None end.
  Proof.
    unfold set_cell. rewrite ilo_eq, jlo_eq.
    rewrite (qltb_comp (g_yupper g) (g_yupper g) _ _ (Qeq_refl _) (mid_centre (g_ylower g) (g_dy g) (b + j))).
    rewrite (qltb_comp _ _ (g_ylower g) (g_ylower g) (mid_centre (g_ylower g) (g_dy g) (b + j)) (Qeq_refl _)).
    rewrite (qltb_comp (g_xupper g) (g_xupper g) _ _ (Qeq_refl _) (mid_centre (g_xlower g) (g_dx g) (a + i))).
    rewrite (qltb_comp _ _ (g_xlower g) (g_xlower g) (mid_centre (g_xlower g) (g_dx g) (a + i)) (Qeq_refl _)).
    destruct H. rewrite !centre_low, (centre_high _ _ _ ny), (centre_high _ _ _ nx) by assumption.
    unfold gridcell. replace (match skip g i j with true => Some st | false => _ end) with
      (if skip g i j then Some st else if outx i || outy j then Some st else
       match cell_bathymetry fs (mkRect (g_xlower g + inject_Z (a + i - 1) * g_dx g) (g_xlower g + inject_Z (a + i) * g_dx g)
          (g_ylower g + inject_Z (b + j - 1) * g_dy g) (g_ylower g + inject_Z (b + j) * g_dy g)) with Some v => Some (upd st i j (Some v)) | None => None end); [reflexivity|].
    destruct (skip g i j); [reflexivity|]. unfold outx, outy.
    destruct (a + i <? 1)%Z, (nx <? a + i)%Z, (b + j <? 1)%Z, (ny <? b + j)%Z; reflexivity.
  Qed.

  (** the first loop *)
  Lemma first_pass l st st' : fold_left (set_cell fs g) l (Some st) = Some st' ->
    forall i j, if in_dec pos_dec (i, j) l then
       if skip g i j then st' i j = st i j else if outx i || outy j then st' i j = st i j
       else exists v, cell_bathymetry fs (gridcell g (a + i) (b + j)) = Some v /\ st' i j = Some v
     else st' i j = st i j.
  Proof.
    revert st. induction l as [|[i0 j0] l IH]; intros st E i j.
    - cbn in E. injection E as <-. destruct (in_dec _ _ _) as [[]|_]. reflexivity.
    - cbn [fold_left] in E. rewrite set_cell_eq in E.
      assert (None_fold : forall l, fold_left (set_cell fs g) l None = None) by (intros l'; induction l' as [|? ? IHl]; [reflexivity|exact IHl]).
      destruct (skip g i0 j0) eqn:S0; [|destruct (outx i0 || outy j0) eqn:O0; [|destruct (cell_bathymetry fs (gridcell g (a + i0) (b + j0))) as [v|] eqn:C0; [|rewrite None_fold in E; discriminate]]];
      specialize (IH _ E i j); destruct (in_dec pos_dec (i, j) l) as [I|N].
      1, 3, 5: destruct (in_dec pos_dec (i, j) ((i0, j0) :: l)) as [_|X]; [|exfalso; apply X; now right].
      + exact IH.
      + exact IH.
      + destruct (pos_dec (i, j) (i0, j0)) as [Q|Q].
        * injection Q as -> ->. rewrite S0, O0 in *. exact IH.
        * rewrite upd_other in IH by assumption. exact IH.
      + destruct (in_dec pos_dec (i, j) ((i0, j0) :: l)) as [[Q|X]|X]; [|contradiction|exact IH]. injection Q as -> ->. now rewrite S0.
      + destruct (in_dec pos_dec (i, j) ((i0, j0) :: l)) as [[Q|X]|X]; [|contradiction|exact IH]. injection Q as -> ->. now rewrite S0, O0.
      + destruct (in_dec pos_dec (i, j) ((i0, j0) :: l)) as [[Q|X]|X]; [|contradiction|].
        * injection Q as -> ->. rewrite S0, O0. rewrite upd_same in IH. now exists v.
        * rewrite upd_other in IH; [exact IH|]. intros Q. apply X. left. congruence.
  Qed.
  (** it fails only at a cell without data *)
  Lemma first_pass_ok l st : (forall i j, In (i, j) l -> skip g i j = false -> outx i || outy j = false ->
      cell_bathymetry fs (gridcell g (a + i) (b + j)) <> None) ->
    exists st', fold_left (set_cell fs g) l (Some st) = Some st'.
  Proof.
    revert st. induction l as [|[i0 j0] l IH]; intros st HC; [now exists st|].
    cbn [fold_left]. rewrite set_cell_eq.
    assert (HC' : forall i j, In (i, j) l -> skip g i j = false -> outx i || outy j = false ->
      cell_bathymetry fs (gridcell g (a + i) (b + j)) <> None) by (intros; apply HC; auto; now right).
    destruct (skip g i0 j0) eqn:S0; [now apply IH|]. destruct (outx i0 || outy j0) eqn:O0; [now apply IH|].
    destruct (cell_bathymetry fs (gridcell g (a + i0) (b + j0))) as [v|] eqn:C0; [now apply IH|].
    exfalso. now apply (HC i0 j0 (or_introl eq_refl) S0 O0).
  Qed.

  Lemma near_in n k : (1 <= n)%Z -> (1 <= nearest n k <= n)%Z.
  Proof. intros. unfold nearest. destruct (Z.ltb_spec k 1); [lia|]. destruct (Z.ltb_spec n k); lia. Qed.
  Lemma near_out n k : (1 <= n)%Z -> ((k <? 1) || (n <? k))%Z = false -> nearest n k = k.
  Proof. intros. unfold nearest. destruct (k <? 1)%Z; [discriminate|]. destruct (n <? k)%Z; [discriminate|reflexivity]. Qed.
  Lemma src_x i : outx (iint g i) = false.
  Proof.
    rewrite iint_eq. unfold outx. pose proof (near_in nx (a + i)) as N. destruct H.
    destruct (Z.ltb_spec (a + (nearest nx (a + i) - a)) 1); [lia|]. destruct (Z.ltb_spec nx (a + (nearest nx (a + i) - a))); [lia|reflexivity].
  Qed.
  Lemma src_y j : outy (jint g j) = false.
  Proof.
    rewrite jint_eq. unfold outy. pose proof (near_in ny (b + j)) as N. destruct H.
    destruct (Z.ltb_spec (b + (nearest ny (b + j) - b)) 1); [lia|]. destruct (Z.ltb_spec ny (b + (nearest ny (b + j) - b))); [lia|reflexivity].
  Qed.
  (** the cell copied is in the array and is one that the patch holds *)
  Lemma src_held i j : in_array g i j -> held g i j -> in_array g (iint g i) (jint g j) /\ (outx i || outy j = true -> held g (iint g i) (jint g j)).
  Proof.
    intros I Hh. rewrite iint_eq, jint_eq. unfold in_array, held, outx, outy, nearest in *. destruct H.
    destruct (Z.ltb_spec (a + i) 1), (Z.ltb_spec nx (a + i)), (Z.ltb_spec (b + j) 1), (Z.ltb_spec ny (b + j)); cbn [orb];
    (split; [lia|intros O G; try discriminate; try specialize (Hh G); lia]).
  Qed.

  Lemma rows_eq l st i j :
    fold_left (copy_row g) l st i j =
    if outy j && negb (skip g i j) then if in_dec pos_dec (i, j) l then st (iint g i) (jint g j) else st i j else st i j.
  Proof.
    pose (P := fun p : Z * Z => outy (snd p) && negb (skip g (fst p) (snd p))).
    pose (src := fun p : Z * Z => (iint g (fst p), jint g (snd p))).
    assert (HP : forall p, P p = true -> P (src p) = false) by (intros p _; unfold P, src; cbn [fst snd]; now rewrite src_y).
    pose proof (copies P src l st HP i j) as C. cbv zeta in C. unfold P, src in C. cbn [fst snd] in C. rewrite <- C.
    match goal with |- fold_left ?f l st i j = fold_left ?h l st i j => assert (X : fold_left f l st = fold_left h l st); [|now rewrite X] end.
    clear C. revert st. induction l as [|[x y] l IH]; intros st; [reflexivity|]. cbn [fold_left]. rewrite IH. f_equal.
    unfold copy_row. cbn [fst snd]. rewrite row_cond. destruct (outy y), (skip g x y); reflexivity.
  Qed.
  Lemma columns_eq l st i j :
    fold_left (copy_column g) l st i j =
    if outx i && negb (skip g i j) then if in_dec pos_dec (i, j) l then st (iint g i) (jint g j) else st i j else st i j.
  Proof.
    pose (P := fun p : Z * Z => outx (fst p) && negb (skip g (fst p) (snd p))).
    pose (src := fun p : Z * Z => (iint g (fst p), jint g (snd p))).
    assert (HP : forall p, P p = true -> P (src p) = false) by (intros p _; unfold P, src; cbn [fst snd]; now rewrite src_x).
    pose proof (copies P src l st HP i j) as C. cbv zeta in C. unfold P, src in C. cbn [fst snd] in C. rewrite <- C.
    match goal with |- fold_left ?f l st i j = fold_left ?h l st i j => assert (X : fold_left f l st = fold_left h l st); [|now rewrite X] end.
    clear C. revert st. induction l as [|[x y] l IH]; intros st; [reflexivity|]. cbn [fold_left]. rewrite IH. f_equal.
    unfold copy_column. cbn [fst snd]. rewrite column_cond. destruct (outx x), (skip g x y); reflexivity.
  Qed.

  Lemma setaux_held st st' : setaux fs g st = Some st' -> forall i j, in_array g i j -> held g i j ->
    exists v, cell_bathymetry fs (gridcell g (nearest nx (a + i)) (nearest ny (b + j))) = Some v /\ st' i j = Some v.
  Proof.
    unfold setaux. destruct (fold_left (set_cell fs g) (by_rows g) (Some st)) as [a1|] eqn:E; [|discriminate]. intros X. injection X as <-.
    pose proof (first_pass (by_rows g) st a1 E) as F1. intros i j I Hh.
    assert (Sk : skip g i j = false) by now apply skip_false.
    assert (In1 : forall x y, in_array g x y -> held g x y -> outx x || outy y = false ->
      exists v, cell_bathymetry fs (gridcell g (nearest nx (a + x)) (nearest ny (b + y))) = Some v /\ a1 x y = Some v).
    { intros x y Ix Hx O. specialize (F1 x y). destruct (in_dec pos_dec (x, y) (by_rows g)) as [_|N]; [|exfalso; apply N; now apply by_rows_in].
      rewrite (proj2 (skip_false x y Ix) Hx), O in F1. apply orb_false_iff in O. destruct O as [Ox Oy]. destruct H.
      rewrite (near_out nx (a + x)), (near_out ny (b + y)); auto; lia. }
    rewrite columns_eq, !rows_eq. rewrite Sk. cbn [negb]. rewrite !andb_true_r.
    destruct (in_dec pos_dec (i, j) (by_columns g)) as [_|N]; [|exfalso; apply N; now apply by_columns_in].
    destruct (in_dec pos_dec (i, j) (by_rows g)) as [_|N]; [|exfalso; apply N; now apply by_rows_in].
    rewrite src_y. cbn [andb].
    destruct (src_held i j I Hh) as [Is Hs].
    destruct (outx i) eqn:Ox; [|destruct (outy j) eqn:Oy].
    - destruct (In1 _ _ Is (Hs eq_refl)) as (v & C & V); [now rewrite src_x, src_y|]. exists v. split; [|exact V].
      rewrite <- C. rewrite iint_eq, jint_eq. f_equal. f_equal.
      + pose proof (near_in nx (a + i)) as N. unfold nearest at 1 2 in N. destruct H. symmetry.
        replace (a + (nearest nx (a + i) - a))%Z with (nearest nx (a + i)) by lia. apply near_out; [lia|].
        pose proof (near_in nx (a + i) ltac:(lia)). destruct (Z.ltb_spec (nearest nx (a + i)) 1); [lia|]. destruct (Z.ltb_spec nx (nearest nx (a + i))); [lia|reflexivity].
      + destruct H. symmetry. replace (b + (nearest ny (b + j) - b))%Z with (nearest ny (b + j)) by lia. apply near_out; [lia|].
        pose proof (near_in ny (b + j) ltac:(lia)). destruct (Z.ltb_spec (nearest ny (b + j)) 1); [lia|]. destruct (Z.ltb_spec ny (nearest ny (b + j))); [lia|reflexivity].
    - destruct (In1 _ _ Is (Hs eq_refl)) as (v & C & V); [now rewrite src_x, src_y|]. exists v. split; [|exact V].
      rewrite <- C. rewrite iint_eq, jint_eq. f_equal. f_equal.
      + destruct H. symmetry. replace (a + (nearest nx (a + i) - a))%Z with (nearest nx (a + i)) by lia. apply near_out; [lia|].
        pose proof (near_in nx (a + i) ltac:(lia)). destruct (Z.ltb_spec (nearest nx (a + i)) 1); [lia|]. destruct (Z.ltb_spec nx (nearest nx (a + i))); [lia|reflexivity].
      + destruct H. symmetry. replace (b + (nearest ny (b + j) - b))%Z with (nearest ny (b + j)) by lia. apply near_out; [lia|].
        pose proof (near_in ny (b + j) ltac:(lia)). destruct (Z.ltb_spec (nearest ny (b + j)) 1); [lia|]. destruct (Z.ltb_spec ny (nearest ny (b + j))); [lia|reflexivity].
    - apply In1; auto. now rewrite Ox, Oy.
  Qed.
  Lemma setaux_rest st st' : setaux fs g st = Some st' -> forall i j, ~ (in_array g i j /\ held g i j) -> st' i j = st i j.
  Proof.
    unfold setaux. destruct (fold_left (set_cell fs g) (by_rows g) (Some st)) as [a1|] eqn:E; [|discriminate]. intros X. injection X as <-.
    pose proof (first_pass (by_rows g) st a1 E) as F1. intros i j N. specialize (F1 i j).
    rewrite columns_eq, !rows_eq.
    assert (A1 : a1 i j = st i j).
    { destruct (in_dec pos_dec (i, j) (by_rows g)) as [I|_]; [|exact F1]. apply by_rows_in in I.
      destruct (skip g i j) eqn:S; [exact F1|]. exfalso. apply N. split; [assumption|]. now apply skip_false. }
    destruct (skip g i j) eqn:S; cbn [negb]; rewrite ?andb_false_r; [exact A1|].
    destruct (in_dec pos_dec (i, j) (by_columns g)) as [I|_]; [exfalso; apply by_columns_in in I; apply N; split; [assumption|now apply skip_false]|].
    destruct (in_dec pos_dec (i, j) (by_rows g)) as [I|_]; [exfalso; apply by_rows_in in I; apply N; split; [assumption|now apply skip_false]|].
    rewrite andb_true_r. destruct (outx i), (outy j); cbn [andb]; exact A1.
  Qed.
  Lemma setaux_stop st : setaux fs g st = None -> exists i j, in_array g i j /\
    (1 <= a + i <= nx)%Z /\ (1 <= b + j <= ny)%Z /\ cell_bathymetry fs (gridcell g (a + i) (b + j)) = None.
  Proof.
    unfold setaux. destruct (fold_left (set_cell fs g) (by_rows g) (Some st)) as [a1|] eqn:E; [discriminate|]. intros _.
    destruct (existsb (fun p => negb (outx (fst p) || outy (snd p)) && match cell_bathymetry fs (gridcell g (a + fst p) (b + snd p)) with None => true | _ => false end) (by_rows g)) eqn:X.
    - apply existsb_exists in X. destruct X as ([i j] & I & C). cbn [fst snd] in C. apply by_rows_in in I. exists i, j. split; [assumption|].
      apply andb_true_iff in C. destruct C as [O C]. unfold outx, outy in O.
      destruct (Z.ltb_spec (a + i) 1), (Z.ltb_spec nx (a + i)), (Z.ltb_spec (b + j) 1), (Z.ltb_spec ny (b + j)); try discriminate.
      split; [lia|]. split; [lia|]. now destruct (cell_bathymetry _ _).
    - exfalso. destruct (first_pass_ok (by_rows g) st) as [st' F]; [|congruence]. intros i j I S O C.
      assert (Y : existsb (fun p => negb (outx (fst p) || outy (snd p)) && match cell_bathymetry fs (gridcell g (a + fst p) (b + snd p)) with None => true | _ => false end) (by_rows g) = true).
      { apply existsb_exists. exists (i, j). split; [assumption|]. cbn [fst snd]. now rewrite O, C. }
      congruence.
  Qed.
End Placed.
