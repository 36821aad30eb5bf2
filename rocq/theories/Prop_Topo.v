(** C77: the bathymetry of a cell is the average of the finest topography over it. *)
From Coq Require Import ZArith QArith Qround Qminmax List Bool Lia Lqa Sorted Setoid Field.
From Verif Require Import Model_Topo Spec_Topo Proof_Topo Proof_Topo2 Proof_Topo3.
Import ListNotations.
Open Scope Q_scope.

(** What a cell gets is the integral of the interpolated surface that uses, at every point, the
    finest file with data there: on every partition with the grid lines of the files among its
    lines, however fine, the midpoint Riemann sums of that surface equal it. *)
Theorem C77_integral : forall fs r xs ys v,
  (forall f, In f fs -> valid f) -> proper r -> fine fs r xs ys ->
  cellgridintegrate fs r = Some v -> v == riemann xs ys (over r (surface fs)).
Proof. exact (fun fs r xs ys v V P F H => cgi_sum fs r xs ys v V P F H). Qed.
Print Assumptions C77_integral.

(** There are always such partitions. *)
Theorem C77_partition : forall fs r, exists xs ys, fine fs r xs ys.
Proof. exact fine_exists. Qed.
Print Assumptions C77_partition.

(** The bathymetry of a cell lies between bounds of the surface over the cell; over flat data
    it is the height of the data. *)
Theorem C77_bounds : forall fs r b lo hi,
  (forall f, In f fs -> valid f) -> proper r -> cell_bathymetry fs r = Some b ->
  (forall x y, inside r x y = true -> lo <= surface fs x y <= hi) -> lo <= b <= hi.
Proof.
  intros fs r b lo hi V P H B. unfold cell_bathymetry in H.
  destruct (cellgridintegrate fs r) as [v|] eqn:C; [|discriminate]. injection H as <-.
  destruct (fine_exists fs r) as (xs & ys & F). pose proof (cgi_sum fs r xs ys v V P F C) as E.
  destruct (fine_parts _ _ _ _ F) as (Sx & Sy & (E1 & E2 & E3 & E4) & _). destruct P as [Px Py].
  pose proof (area_sum xs ys r Sx Sy E1 E2 E3 E4 ltac:(lra) ltac:(lra)) as A.
  assert (L : forall c, riemann xs ys (over r (fun _ _ => c)) == c * ((r_x2 r - r_x1 r) * (r_y2 r - r_y1 r))).
  { intros c. rewrite <- A, <- riemann_scal. apply riemann_ext. intros. unfold over. destruct (inside _ _ _); ring. }
  assert (D : 0 < (r_x2 r - r_x1 r) * (r_y2 r - r_y1 r)) by (apply Qmult_lt_0_compat; lra).
  split.
  - apply Qle_shift_div_l; [assumption|]. rewrite <- L, E. apply riemann_le; auto.
    intros p q _ _. unfold over. destruct (inside r (mid p) (mid q)) eqn:I; [apply B; assumption|apply Qle_refl].
  - apply Qle_shift_div_r; [assumption|]. rewrite <- L, E. apply riemann_le; auto.
    intros p q _ _. unfold over. destruct (inside r (mid p) (mid q)) eqn:I; [apply B; assumption|apply Qle_refl].
Qed.
Print Assumptions C77_bounds.

Lemma fine_app_l fs gs r xs ys : fine (fs ++ gs) r xs ys -> fine fs r xs ys.
Proof.
  intros (S1 & S2 & E1 & E2 & E3 & E4 & F). repeat split; auto; apply F; apply in_or_app; now left.
Qed.
Lemma fine_app_r fs gs r xs ys : fine (fs ++ gs) r xs ys -> fine gs r xs ys.
Proof.
  intros (S1 & S2 & E1 & E2 & E3 & E4 & F). repeat split; auto; apply F; apply in_or_app; now right.
Qed.

(** Nothing but the surface over the cell matters: not how it is spread over files, not coarse
    data under finer data, not data elsewhere. *)
Theorem C77_surface_only : forall fs gs r b c,
  (forall f, In f fs -> valid f) -> (forall f, In f gs -> valid f) -> proper r ->
  cell_bathymetry fs r = Some b -> cell_bathymetry gs r = Some c ->
  (forall x y, inside r x y = true -> surface fs x y == surface gs x y) -> b == c.
Proof.
  intros fs gs r b c V W P Hb Hc S. unfold cell_bathymetry in *.
  destruct (cellgridintegrate fs r) as [v|] eqn:C1; [|discriminate]. injection Hb as <-.
  destruct (cellgridintegrate gs r) as [w|] eqn:C2; [|discriminate]. injection Hc as <-.
  destruct (fine_exists (fs ++ gs) r) as (xs & ys & F).
  assert (E : v == w); [|rewrite E; reflexivity].
  rewrite (cgi_sum fs r xs ys v V P (fine_app_l _ _ _ _ _ F) C1), (cgi_sum gs r xs ys w W P (fine_app_r _ _ _ _ _ F) C2).
  apply riemann_ext. intros p q _ _. unfold over. destruct (inside r (mid p) (mid q)) eqn:I; [now apply S|reflexivity].
Qed.
Print Assumptions C77_surface_only.

(** The integrals over the parts of a divided cell add up to the integral over the cell, so the
    average bathymetry is the same at every level of refinement. *)
Theorem C77_children : forall fs x1 xm x2 y1 ym y2 v v11 v21 v12 v22,
  (forall f, In f fs -> valid f) -> x1 < xm -> xm < x2 -> y1 < ym -> ym < y2 ->
  cellgridintegrate fs (mkRect x1 x2 y1 y2) = Some v ->
  cellgridintegrate fs (mkRect x1 xm y1 ym) = Some v11 ->
  cellgridintegrate fs (mkRect xm x2 y1 ym) = Some v21 ->
  cellgridintegrate fs (mkRect x1 xm ym y2) = Some v12 ->
  cellgridintegrate fs (mkRect xm x2 ym y2) = Some v22 ->
  v == v11 + v21 + v12 + v22.
Proof.
  intros fs x1 xm x2 y1 ym y2 v v11 v21 v12 v22 V L1 L2 L3 L4 H0 H1 H2 H3 H4.
  set (xs := sortq (x1 :: xm :: x2 :: flat_map (fun f => map (xline f) (range 1 (t_mx f))) fs)).
  set (ys := sortq (y1 :: ym :: y2 :: flat_map (fun f => map (yline f) (range 1 (t_my f))) fs)).
  assert (X1 : has xs x1) by (apply sortq_has; now left). assert (Xm : has xs xm) by (apply sortq_has; right; now left).
  assert (X2 : has xs x2) by (apply sortq_has; do 2 right; now left). assert (Y1 : has ys y1) by (apply sortq_has; now left).
  assert (Ym : has ys ym) by (apply sortq_has; right; now left). assert (Y2 : has ys y2) by (apply sortq_has; do 2 right; now left).
  assert (Sx : StronglySorted Qlt xs) by apply sortq_sorted. assert (Sy : StronglySorted Qlt ys) by apply sortq_sorted.
  assert (F : forall f, In f fs -> fits f xs ys).
  { intros f Hf. split; intros i Hi; apply sortq_has; do 3 right; apply in_flat_map; exists f; (split; [assumption|]);
    apply in_map; now apply range_in. }
  assert (G : forall a b c d, has xs a -> has xs b -> has ys c -> has ys d -> fine fs (mkRect a b c d) xs ys).
  { intros. unfold fine. cbn [r_x1 r_x2 r_y1 r_y2]. repeat (split; [assumption|]). exact F. }
  assert (Pr : forall a b c d, a < b -> c < d -> proper (mkRect a b c d)) by (intros; split; assumption).
  rewrite (cgi_sum fs _ xs ys v V (Pr x1 x2 y1 y2 ltac:(lra) ltac:(lra)) (G x1 x2 y1 y2 X1 X2 Y1 Y2) H0).
  rewrite (cgi_sum fs _ xs ys v11 V (Pr x1 xm y1 ym L1 L3) (G x1 xm y1 ym X1 Xm Y1 Ym) H1).
  rewrite (cgi_sum fs _ xs ys v21 V (Pr xm x2 y1 ym L2 L3) (G xm x2 y1 ym Xm X2 Y1 Ym) H2).
  rewrite (cgi_sum fs _ xs ys v12 V (Pr x1 xm ym y2 L1 L4) (G x1 xm ym y2 X1 Xm Ym Y2) H3).
  rewrite (cgi_sum fs _ xs ys v22 V (Pr xm x2 ym y2 L2 L4) (G xm x2 ym y2 Xm X2 Ym Y2) H4).
  rewrite <- !riemann_plus. apply riemann_ext. intros p q Hp Hq.
  pose proof (mid_strict xs xm p Sx Xm Hp) as Mp. pose proof (mid_strict ys ym q Sy Ym Hq) as Mq.
  unfold over, inside. cbn [r_x1 r_x2 r_y1 r_y2]. generalize dependent (mid p). generalize dependent (mid q).
  intros y My x Mx. destruct Mx, My; qcase x1 x; qcase x xm; qcase xm x; qcase x x2; try (exfalso; lra);
  qcase y1 y; qcase y ym; qcase ym y; qcase y y2; cbn [andb]; try ring; exfalso; lra.
Qed.
Print Assumptions C77_children.

(** The program stops exactly for a cell without any data in its interior. *)
Theorem C77_stop : forall fs r, proper r -> (forall f, In f fs -> valid f) ->
  (cell_bathymetry fs r = None <->
   forall f, In f fs -> r_x2 r <= t_xlow f \/ t_xhi f <= r_x1 r \/ r_y2 r <= t_ylow f \/ t_yhi f <= r_y1 r).
Proof.
  intros fs r [Px Py] V.
  assert (N : cell_bathymetry fs r = None <-> cellgridintegrate fs r = None)
    by (unfold cell_bathymetry; destruct (cellgridintegrate fs r); split; congruence).
  rewrite N, cgi_none.
  assert (X : forall f, In f fs -> t_xlow f < t_xhi f /\ t_ylow f < t_yhi f).
  { intros f Hf. destruct (V f Hf) as (Dx & Dy & Mx & My). unfold t_xhi, t_yhi.
    assert (0 < inject_Z (t_mx f - 1)) by (change 0 with (inject_Z 0); rewrite <- Zlt_Qlt; lia).
    assert (0 < inject_Z (t_my f - 1)) by (change 0 with (inject_Z 0); rewrite <- Zlt_Qlt; lia).
    pose proof (Qmult_lt_0_compat _ _ H Dx). pose proof (Qmult_lt_0_compat _ _ H0 Dy). lra. }
  split; intros H f Hf; destruct (X f Hf) as [Xx Xy]; specialize (H f Hf); rewrite isect_eq in *; unfold proper in *; cbn [r_x1 r_x2 r_y1 r_y2] in *.
  - destruct (Qlt_le_dec (t_xlow f) (r_x2 r)); [|now left]. destruct (Qlt_le_dec (r_x1 r) (t_xhi f)); [|right; now left].
    destruct (Qlt_le_dec (t_ylow f) (r_y2 r)); [|right; right; now left]. destruct (Qlt_le_dec (r_y1 r) (t_yhi f)); [|right; right; now right].
    exfalso. apply H. split; apply Q.max_lub_lt; apply Q.min_glb_lt; assumption.
  - intros [A B]. apply Q.max_lub_lt_iff in A, B. destruct A as [A1 A2], B as [B1 B2].
    apply Q.min_glb_lt_iff in A1, A2, B1, B2. lra.
Qed.
Print Assumptions C77_stop.

(** The area that the start-up check compares with the domain is the area covered by at least
    one file; it is the area of the domain exactly if every point has data. *)
Theorem C77_area : forall fs r xs ys, (forall f, In f fs -> valid f) -> fine fs r xs ys ->
  topoarea fs r == riemann xs ys (over r (covered fs)).
Proof. exact topoarea_sum. Qed.
Print Assumptions C77_area.
Theorem C77_full_cover : forall fs r, (forall f, In f fs -> valid f) -> proper r ->
  (topoarea fs r == (r_x2 r - r_x1 r) * (r_y2 r - r_y1 r) <->
   forall x y, inside r x y = true -> exists f, In f fs /\ inside (extent f) x y = true).
Proof. exact full_cover. Qed.
Print Assumptions C77_full_cover.

(** A single file integrates over the part of a rectangle that it covers, also if the rectangle
    sticks out of it. *)
Theorem C77_one_file : forall f r xs ys, valid f -> proper r ->
  r_x1 r < t_xhi f -> t_xlow f < r_x2 r -> r_y1 r < t_yhi f -> t_ylow f < r_y2 r -> fine [f] r xs ys ->
  topointegral f r == riemann xs ys (over r (fun x y => if inside (extent f) x y then height f x y else 0)).
Proof.
  intros f r xs ys V [Px Py] H1 H2 H3 H4 F. apply topointegral_clip; auto. apply overlap_iff. rewrite isect_eq.
  destruct V as (Dx & Dy & Mx & My).
  assert (A : 0 < inject_Z (t_mx f - 1)) by (change 0 with (inject_Z 0); rewrite <- Zlt_Qlt; lia).
  assert (B : 0 < inject_Z (t_my f - 1)) by (change 0 with (inject_Z 0); rewrite <- Zlt_Qlt; lia).
  pose proof (Qmult_lt_0_compat _ _ A Dx). pose proof (Qmult_lt_0_compat _ _ B Dy).
  assert (t_xlow f < t_xhi f) by (unfold t_xhi; lra). assert (t_ylow f < t_yhi f) by (unfold t_yhi; lra).
  split; cbn [r_x1 r_x2 r_y1 r_y2]; apply Q.max_lub_lt; apply Q.min_glb_lt; assumption.
Qed.
Print Assumptions C77_one_file.

(** The arrays are read within their bounds. *)
Theorem C77_in_bounds : forall f r ii jj, valid f -> proper r -> within r f ->
  In ii (range (iistart f r) (iiend f r - 1)) -> In jj (range (jjstart f r) (jjend f r - 1)) ->
  (1 <= ii /\ ii + 1 <= t_mx f /\ 1 <= t_my f - jj + 1 - 1 /\ t_my f - jj + 1 <= t_my f)%Z.
Proof.
  intros f r ii jj (Dx & Dy & Mx & My) [Px Py] (W1 & W2 & W3 & W4) Hi Hj. apply range_in in Hi, Hj.
  destruct (loop_range (t_xlow f) (t_dx f) (t_mx f) Dx (r_x1 r) (r_x2 r) ii W1 Px W2 Hi) as [Ri _].
  destruct (loop_range (t_ylow f) (t_dy f) (t_my f) Dy (r_y1 r) (r_y2 r) jj W3 Py W4 Hj) as [Rj _]. lia.
Qed.
Print Assumptions C77_in_bounds.

Definition flat (x y dx dy : Q) (mx my : Z) (h : Q) : topofile := mkTopo x y dx dy mx my (fun _ _ => h).

(** Refuted: "a run passes the start-up check only if every cell of the domain gets a height of
    the data".  With less than 1% of the domain uncovered the run goes on; a cell without data
    then stops it, and a cell with data over a part gets an average with 0 in the rest. *)
Theorem C77_check_refuted : exists fs dom half none,
  (forall f, In f fs -> valid f) /\ proper dom /\ proper half /\ proper none /\
  (forall f i j, In f fs -> t_zz f i j = -1000) /\
  check_cover fs dom = Warning /\
  (r_x1 dom <= r_x1 half /\ r_x2 half <= r_x2 dom /\ r_y1 dom <= r_y1 half /\ r_y2 half <= r_y2 dom) /\
  (r_x1 dom <= r_x1 none /\ r_x2 none <= r_x2 dom /\ r_y1 dom <= r_y1 none /\ r_y2 none <= r_y2 dom) /\
  (exists b, cell_bathymetry fs half = Some b /\ b == -500) /\ cell_bathymetry fs none = None.
Proof.
  exists [flat 0 0 (199 # 2) 1 11 2 (-1000)], (mkRect 0 1000 0 1), (mkRect 990 1000 0 1), (mkRect 995 1000 0 1).
  split; [intros f [<-|[]]; unfold valid; cbn; repeat split; lia|].
  split; [split; reflexivity|]. split; [split; reflexivity|]. split; [split; reflexivity|].
  split; [intros f i j [<-|[]]; reflexivity|]. split; [vm_compute; reflexivity|].
  split; [cbn; repeat split; discriminate|]. split; [cbn; repeat split; discriminate|].
  split; [|vm_compute; reflexivity]. eexists. split; [vm_compute; reflexivity|reflexivity].
Qed.
Print Assumptions C77_check_refuted.

(** Instance: a fine tilted file inside a coarse flat one, and a cell across its edge. *)
Definition ex_fine : topofile := mkTopo 1 0 (1 # 2) (1 # 2) 5 5 (fun i j => inject_Z (i * j)).
Definition ex_coarse : topofile := flat 0 0 4 4 2 2 (-10).
Definition ex_files := [ex_fine; ex_coarse].
Definition ex_cell := mkRect (1 # 2) 2 (1 # 4) (5 # 4).
Example C77_instance :
  (forall f, In f ex_files -> valid f) /\ proper ex_cell /\
  (exists xs ys, fine ex_files ex_cell xs ys) /\
  (exists v, cellgridintegrate ex_files ex_cell = Some v /\ v == 2) /\
  surface ex_files (3 # 4) 1 == -10 /\ surface ex_files (3 # 2) 1 == 6 /\
  (exists v a b c d, cellgridintegrate ex_files ex_cell = Some v /\
     cellgridintegrate ex_files (mkRect (1 # 2) (5 # 4) (1 # 4) (3 # 4)) = Some a /\
     cellgridintegrate ex_files (mkRect (5 # 4) 2 (1 # 4) (3 # 4)) = Some b /\
     cellgridintegrate ex_files (mkRect (1 # 2) (5 # 4) (3 # 4) (5 # 4)) = Some c /\
     cellgridintegrate ex_files (mkRect (5 # 4) 2 (3 # 4) (5 # 4)) = Some d /\
     Qred v = Qred (a + b + c + d)) /\
  topoarea ex_files (mkRect 0 4 0 4) == 16 /\ check_cover ex_files (mkRect 0 4 0 4) = Covered /\
  cell_bathymetry ex_files (mkRect 4 5 0 1) = None.
Proof.
  split; [intros f [<-|[<-|[]]]; unfold valid; cbn; repeat split; lia|].
  split; [split; reflexivity|]. split; [apply fine_exists|].
  split; [eexists; split; [vm_compute; reflexivity|reflexivity]|].
  split; [vm_compute; reflexivity|]. split; [vm_compute; reflexivity|].
  split; [do 5 eexists; repeat (split; [vm_compute; reflexivity|]); vm_compute; reflexivity|].
  split; [vm_compute; reflexivity|]. split; vm_compute; reflexivity.
Qed.
Example C77_instance_one_file :
  valid ex_fine /\ proper ex_cell /\ r_x1 ex_cell < t_xhi ex_fine /\ t_xlow ex_fine < r_x2 ex_cell /\
  r_y1 ex_cell < t_yhi ex_fine /\ t_ylow ex_fine < r_y2 ex_cell /\ r_x1 ex_cell < t_xlow ex_fine /\
  (exists xs ys, fine [ex_fine] ex_cell xs ys) /\ topointegral ex_fine ex_cell == 7.
Proof.
  split; [unfold valid; cbn; repeat split; lia|]. split; [split; reflexivity|].
  do 5 (split; [reflexivity|]). split; [apply fine_exists|vm_compute; reflexivity].
Qed.
