(** C78: the bathymetry of a patch depends only on where its cells are. *)
From Coq Require Import ZArith QArith Qround Qminmax List Bool Lia Lqa Sorted.
From Verif Require Import Model_Topo Model_SetAux Spec_Topo Spec_SetAux Proof_Topo Proof_Topo2 Proof_Topo3 Prop_Topo Proof_SetAux.
Import ListNotations.
Open Scope Q_scope.

(** Every cell of a patch, ghost cells included, gets the bathymetry of the cell of the domain
    nearest to it, whatever was in the array. *)
Theorem C78_values : forall fs g nx ny a b st st',
  placed g nx ny a b -> setaux fs g st = Some st' ->
  forall i j, in_array g i j -> held g i j ->
  exists v, cell_bathymetry fs (gridcell g (nearest nx (a + i)) (nearest ny (b + j))) = Some v /\ st' i j = Some v.
Proof. exact (fun fs g nx ny a b st st' P => setaux_held g nx ny a b P fs st st'). Qed.
Print Assumptions C78_values.

(** Nothing else is changed. *)
Theorem C78_untouched : forall fs g nx ny a b st st',
  placed g nx ny a b -> setaux fs g st = Some st' ->
  forall i j, ~ (in_array g i j /\ held g i j) -> st' i j = st i j.
Proof. exact (fun fs g nx ny a b st st' P => setaux_rest g nx ny a b P fs st st'). Qed.
Print Assumptions C78_untouched.

(** The program stops only at a cell of the domain without data. *)
Theorem C78_stop : forall fs g nx ny a b st,
  placed g nx ny a b -> setaux fs g st = None ->
  exists i j, in_array g i j /\ (1 <= a + i <= nx)%Z /\ (1 <= b + j <= ny)%Z /\
              cell_bathymetry fs (gridcell g (a + i) (b + j)) = None.
Proof. exact (fun fs g nx ny a b st P => setaux_stop g nx ny a b P fs st). Qed.
Print Assumptions C78_stop.

(** Two patches of the same level agree on every cell they both hold: a ghost cell has the
    bathymetry that the neighbour has there, without any exchange, also on copies of patches of
    other processes. *)
Theorem C78_neighbours : forall fs g h nx ny a b a' b' s t s' t',
  placed g nx ny a b -> placed h nx ny a' b' ->
  g_dx h = g_dx g -> g_dy h = g_dy g -> g_xlower h = g_xlower g -> g_ylower h = g_ylower g ->
  setaux fs g s = Some s' -> setaux fs h t = Some t' ->
  forall i j i' j', in_array g i j -> held g i j -> in_array h i' j' -> held h i' j' ->
    (a + i = a' + i')%Z -> (b + j = b' + j')%Z -> s' i j = t' i' j'.
Proof.
  intros fs g h nx ny a b a' b' s t s' t' P Q E1 E2 E3 E4 S T i j i' j' I1 H1 I2 H2 X Y.
  destruct (setaux_held g nx ny a b P fs s s' S i j I1 H1) as (v & C & ->).
  destruct (setaux_held h nx ny a' b' Q fs t t' T i' j' I2 H2) as (w & D & ->).
  rewrite X, Y in C. unfold gridcell in *. rewrite E1, E2, E3, E4 in D. congruence.
Qed.
Print Assumptions C78_neighbours.

(** The bathymetry of equal cells is the same. *)
Lemma bathymetry_eq fs r r' v v' : (forall f, In f fs -> valid f) -> proper r ->
  r_x1 r == r_x1 r' -> r_x2 r == r_x2 r' -> r_y1 r == r_y1 r' -> r_y2 r == r_y2 r' ->
  cellgridintegrate fs r = Some v -> cellgridintegrate fs r' = Some v' -> v == v'.
Proof.
  intros V [Px Py] E1 E2 E3 E4 C C'. destruct (fine_exists fs r) as (xs & ys & F).
  rewrite (cgi_sum fs r xs ys v V (conj Px Py) F C).
  assert (P' : proper r') by (split; lra).
  assert (F' : fine fs r' xs ys).
  { destruct F as (S1 & S2 & (x1 & I1 & Q1) & (x2 & I2 & Q2) & (y1 & I3 & Q3) & (y2 & I4 & Q4) & FF).
    split; [assumption|]. split; [assumption|].
    split; [exists x1; split; [assumption|lra]|]. split; [exists x2; split; [assumption|lra]|].
    split; [exists y1; split; [assumption|lra]|]. split; [exists y2; split; [assumption|lra]|assumption]. }
  rewrite (cgi_sum fs r' xs ys v' V P' F' C'). apply riemann_ext. intros p q _ _. unfold over.
  assert (X : inside r (mid p) (mid q) = inside r' (mid p) (mid q)).
  { unfold inside. apply eq_true_iff_eq. rewrite !andb_true_iff, !Qle_bool_iff, E1, E2, E3, E4. reflexivity. }
  now rewrite X.
Qed.
Lemma cgi_some_eq fs r r' v : r_x1 r == r_x1 r' -> r_x2 r == r_x2 r' -> r_y1 r == r_y1 r' -> r_y2 r == r_y2 r' ->
  cellgridintegrate fs r = Some v -> exists v', cellgridintegrate fs r' = Some v'.
Proof.
  intros E1 E2 E3 E4 C. destruct (cellgridintegrate fs r') as [w|] eqn:D; [now exists w|exfalso].
  assert (N : cellgridintegrate fs r = None); [|congruence]. apply cgi_none. intros f Hf X.
  apply (proj1 (cgi_none fs r') D f Hf). rewrite isect_eq in *. unfold proper in *. cbn [r_x1 r_x2 r_y1 r_y2] in *.
  rewrite <- E1, <- E2, <- E3, <- E4. exact X.
Qed.

(** Where a patch covers four cells of a finer patch, its bathymetry is the average of theirs. *)
Theorem C78_levels : forall fs g h nx ny a b a' b' s t s' t',
  (forall f, In f fs -> valid f) ->
  placed g nx ny a b -> placed h (2 * nx) (2 * ny) a' b' ->
  g_dx g == 2 * g_dx h -> g_dy g == 2 * g_dy h -> g_xlower h == g_xlower g -> g_ylower h == g_ylower g ->
  setaux fs g s = Some s' -> setaux fs h t = Some t' ->
  forall i j i' j', in_array g i j -> held g i j ->
    (1 <= a + i <= nx)%Z -> (1 <= b + j <= ny)%Z ->
    (a' + i' = 2 * (a + i) - 1)%Z -> (b' + j' = 2 * (b + j) - 1)%Z ->
    (forall k l, (0 <= k <= 1)%Z -> (0 <= l <= 1)%Z -> in_array h (i' + k) (j' + l) /\ held h (i' + k) (j' + l)) ->
    exists z z11 z21 z12 z22, s' i j = Some z /\
      t' i' j' = Some z11 /\ t' (i' + 1)%Z j' = Some z21 /\ t' i' (j' + 1)%Z = Some z12 /\ t' (i' + 1)%Z (j' + 1)%Z = Some z22 /\
      z == (1 # 4) * (z11 + z21 + z12 + z22).
Proof.
  intros fs g h nx ny a b a' b' s t s' t' V P Q E1 E2 E3 E4 S T i j i' j' I Hh Ri Rj X Y HF.
  destruct (setaux_held g nx ny a b P fs s s' S i j I Hh) as (z & C & Sz).
  pose proof (p_dx _ _ _ _ _ Q) as Dx. pose proof (p_dy _ _ _ _ _ Q) as Dy.
  assert (NI : forall n k, (1 <= k <= n)%Z -> nearest n k = k).
  { intros n k ?. unfold nearest. destruct (Z.ltb_spec k 1); [lia|]. destruct (Z.ltb_spec n k); [lia|reflexivity]. }
  rewrite (NI nx), (NI ny) in C by lia.
  assert (F : forall k l, (0 <= k <= 1)%Z -> (0 <= l <= 1)%Z ->
     exists w, cell_bathymetry fs (gridcell h (2 * (a + i) - 1 + k) (2 * (b + j) - 1 + l)) = Some w /\ t' (i' + k)%Z (j' + l)%Z = Some w).
  { intros k l Hk Hl. destruct (HF k l Hk Hl) as [I2 H2].
    destruct (setaux_held h (2 * nx) (2 * ny) a' b' Q fs t t' T _ _ I2 H2) as (w & D & Tw). exists w. split; [|exact Tw].
    rewrite <- D, (NI (2 * nx)%Z), (NI (2 * ny)%Z) by lia. f_equal. f_equal; lia. }
  destruct (F 0 0)%Z as (z11 & D11 & T11); try lia. destruct (F 1 0)%Z as (z21 & D21 & T21); try lia.
  destruct (F 0 1)%Z as (z12 & D12 & T12); try lia. destruct (F 1 1)%Z as (z22 & D22 & T22); try lia.
  rewrite !Z.add_0_r in *. exists z, z11, z21, z12, z22. repeat (split; [assumption|]).
  replace (2 * (a + i) - 1 + 1)%Z with (2 * (a + i))%Z in * by lia. replace (2 * (b + j) - 1 + 1)%Z with (2 * (b + j))%Z in * by lia.
  unfold cell_bathymetry in C, D11, D21, D12, D22.
  destruct (cellgridintegrate fs (gridcell g (a + i) (b + j))) as [v|] eqn:G0; [|discriminate].
  destruct (cellgridintegrate fs (gridcell h (2 * (a + i) - 1) (2 * (b + j) - 1))) as [v11|] eqn:G11; [|discriminate].
  destruct (cellgridintegrate fs (gridcell h (2 * (a + i)) (2 * (b + j) - 1))) as [v21|] eqn:G21; [|discriminate].
  destruct (cellgridintegrate fs (gridcell h (2 * (a + i) - 1) (2 * (b + j)))) as [v12|] eqn:G12; [|discriminate].
  destruct (cellgridintegrate fs (gridcell h (2 * (a + i)) (2 * (b + j)))) as [v22|] eqn:G22; [|discriminate].
  set (m := (a + i)%Z) in *. set (n := (b + j)%Z) in *.
  set (x0 := g_xlower h + inject_Z (2 * m - 1 - 1) * g_dx h) in *. set (x1 := g_xlower h + inject_Z (2 * m - 1) * g_dx h) in *.
  set (x2 := g_xlower h + inject_Z (2 * m) * g_dx h) in *.
  set (y0 := g_ylower h + inject_Z (2 * n - 1 - 1) * g_dy h) in *. set (y1 := g_ylower h + inject_Z (2 * n - 1) * g_dy h) in *.
  set (y2 := g_ylower h + inject_Z (2 * n) * g_dy h) in *.
  assert (X01 : x1 == x0 + g_dx h) by (unfold x0, x1; unfold Zminus; rewrite !inject_Z_plus; change (inject_Z (-(1))) with (-1); ring).
  assert (X12 : x2 == x1 + g_dx h) by (unfold x2, x1; unfold Zminus; rewrite !inject_Z_plus; change (inject_Z (-(1))) with (-1); ring).
  assert (Y01 : y1 == y0 + g_dy h) by (unfold y0, y1; unfold Zminus; rewrite !inject_Z_plus; change (inject_Z (-(1))) with (-1); ring).
  assert (Y12 : y2 == y1 + g_dy h) by (unfold y2, y1; unfold Zminus; rewrite !inject_Z_plus; change (inject_Z (-(1))) with (-1); ring).
  assert (A1 : r_x1 (gridcell g m n) == x0) by (unfold gridcell, x0; cbn [r_x1]; rewrite E1, E3; unfold Zminus; rewrite !inject_Z_plus, inject_Z_mult; change (inject_Z (-(1))) with (-1); change (inject_Z 2) with 2; ring).
  assert (A2 : r_x2 (gridcell g m n) == x2) by (unfold gridcell, x2; cbn [r_x2]; rewrite E1, E3, inject_Z_mult; change (inject_Z 2) with 2; ring).
  assert (A3 : r_y1 (gridcell g m n) == y0) by (unfold gridcell, y0; cbn [r_y1]; rewrite E2, E4; unfold Zminus; rewrite !inject_Z_plus, inject_Z_mult; change (inject_Z (-(1))) with (-1); change (inject_Z 2) with 2; ring).
  assert (A4 : r_y2 (gridcell g m n) == y2) by (unfold gridcell, y2; cbn [r_y2]; rewrite E2, E4, inject_Z_mult; change (inject_Z 2) with 2; ring).
  change (gridcell h (2 * m - 1) (2 * n - 1)) with (mkRect x0 x1 y0 y1) in *.
  change (gridcell h (2 * m) (2 * n - 1)) with (mkRect x1 x2 y0 y1) in *.
  change (gridcell h (2 * m - 1) (2 * n)) with (mkRect x0 x1 y1 y2) in *.
  change (gridcell h (2 * m) (2 * n)) with (mkRect x1 x2 y1 y2) in *.
  cbn [r_x1 r_x2 r_y1 r_y2] in D11, D21, D12, D22.
  destruct (cgi_some_eq fs (gridcell g m n) (mkRect x0 x2 y0 y2) v A1 A2 A3 A4 G0) as (w & Gw).
  assert (Pg : proper (gridcell g m n)) by (split; lra).
  pose proof (bathymetry_eq fs (gridcell g m n) (mkRect x0 x2 y0 y2) v w V Pg A1 A2 A3 A4 G0 Gw) as Evw.
  pose proof (C77_children fs x0 x1 x2 y0 y1 y2 w v11 v21 v12 v22 V ltac:(lra) ltac:(lra) ltac:(lra) ltac:(lra) Gw G11 G21 G12 G22) as Sum.
  injection C as <-. injection D11 as <-. injection D21 as <-. injection D12 as <-. injection D22 as <-.
  rewrite Evw, Sum, A1, A2, A3, A4, X12, X01, Y12, Y01. field. split; lra.
Qed.
Print Assumptions C78_levels.

(** Refuted: "a ghost cell has the bathymetry of the cell across a periodic boundary". *)
Definition ramp : topofile := mkTopo 0 0 8 8 2 2 (fun i _ => inject_Z (80 * i)).
Definition west (mbc : Z) (copy : bool) : grid := mkGrid 4 4 mbc 0 0 1 1 0 8 0 8 copy.
Definition east (mbc : Z) (copy : bool) : grid := mkGrid 4 4 mbc 4 0 1 1 0 8 0 8 copy.
Theorem C78_periodic_refuted : exists fs g nx ny a b st st' v w,
  (forall f, In f fs -> valid f) /\ placed g nx ny a b /\ setaux fs g st = Some st' /\
  (a + 0 = 0)%Z /\ st' 0%Z 1%Z = Some v /\
  cell_bathymetry fs (gridcell g (a + 0 + nx) (b + 1)) = Some w /\ ~ v == w.
Proof.
  exists [ramp], (west 2 false), 8%Z, 8%Z, 0%Z, 0%Z, (fun _ _ => None).
  eexists. eexists. eexists. split; [intros f [<-|[]]; unfold valid; cbn; repeat split; lia|].
  split; [constructor; cbn; try lia; reflexivity|]. split; [vm_compute; reflexivity|].
  split; [reflexivity|]. split; [vm_compute; reflexivity|]. split; [vm_compute; reflexivity|]. vm_compute. discriminate.
Qed.
Print Assumptions C78_periodic_refuted.

(** Instance: two neighbours, one of them a copy, and a finer patch. *)
Definition finer : grid := mkGrid 4 4 2 4 0 (1 # 2) (1 # 2) 0 8 0 8 false.
Definition red (o : option Q) : option Q := match o with Some q => Some (Qred q) | None => None end.
Example C78_instance :
  placed (west 2 false) 8 8 0 0 /\ placed (east 2 true) 8 8 4 0 /\ placed finer 16 16 8 0 /\
  (exists s t u, setaux [ramp] (west 2 false) (fun _ _ => None) = Some s /\ setaux [ramp] (east 2 true) (fun _ _ => None) = Some t /\
     setaux [ramp] finer (fun _ _ => None) = Some u /\
     red (s 5%Z 1%Z) = Some (125 # 1) /\ red (t 1%Z 1%Z) = Some (125 # 1) /\ red (s (-1)%Z (-1)%Z) = Some (85 # 1) /\
     red (t 6%Z 6%Z) = Some (155 # 1) /\ red (u 1%Z 1%Z) = Some (245 # 2) /\ red (u 2%Z 2%Z) = Some (255 # 2)) /\
  in_array (west 2 false) 5 1 /\ held (west 2 false) 5 1 /\ in_array (east 2 true) 1 1 /\ held (east 2 true) 1 1 /\
  setaux [ex_fine] (west 2 false) (fun _ _ => None) = None.
Proof.
  split; [constructor; cbn; try lia; reflexivity|]. split; [constructor; cbn; try lia; reflexivity|].
  split; [constructor; cbn; try lia; reflexivity|].
  split; [do 3 eexists; do 3 (split; [vm_compute; reflexivity|]); repeat split; vm_compute; reflexivity|].
  unfold in_array, held. cbn. repeat split; try lia; try (intros; lia).
Qed.
