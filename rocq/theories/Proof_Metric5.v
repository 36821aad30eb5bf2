(** Surface normals and curvature. *)
From Coq Require Import ZArith Reals List Bool Lia Lra.
From Verif Require Import Model_Map Model_Grid Spec_Map Model_Metric Spec_Metric Proof_Metric1 Proof_Metric2 Proof_Metric4.
Import ListNotations.
Open Scope R_scope.

Section Surf.
  Variable isflat : bool.
  Variable p : mpatch.
  Variable xn yn : grid (option point).
  Variable l1 l2 area : grid R.
  Variable X Y : Z -> Z -> option point.
  Variable L1 L2 A : Z -> Z -> R.
  Hypothesis HX : forall i j, x_face p i j -> xn (i, j) = Some (X i j).
  Hypothesis HY : forall i j, y_face p i j -> yn (i, j) = Some (Y i j).
  Hypothesis H1 : forall i j, node_index p i j -> (j <= pmy p + pmbc p + 1)%Z -> l1 (i, j) = Some (L1 i j).
  Hypothesis H2 : forall i j, node_index p i j -> (i <= pmx p + pmbc p + 1)%Z -> l2 (i, j) = Some (L2 i j).
  Hypothesis HA : forall i j, cell_index p i j -> area (i, j) = Some (A i j).

  Definition surf (i j : Z) : option point * option R :=
    if isflat then flat_normal (X i j) (Y i j)
    else curved_normal (L1 (i + 1) j) (L1 i j) (L2 i (j + 1)) (L2 i j) (X (i + 1) j) (X i j) (Y i (j + 1)) (Y i j) (A i j).
  Definition sview (s : grid (option point) * grid (option R)) (i j : Z) : option (option point) * option (option R) := (fst s (i, j), snd s (i, j)).
  Lemma surf_ok : forall s0, exists s, compute_surf_normals isflat p xn yn l1 l2 area s0 = Some s /\ forall i j, data_cell p i j ->
    fst s (i, j) = Some (fst (surf i j)) /\ snd s (i, j) = Some (snd (surf i j)).
  Proof.
    intros s0. unfold compute_surf_normals.
    run_fill sview (fun i j => (Some (fst (surf i j)), Some (snd (surf i j)))) (fun _ _ : Z => false) s V.
    - intros i j s Hi Hj. unfold surf. destruct isflat.
      + rewrite !get_d by (unfold node_index; lia). rewrite HX, HY by (unfold x_face, y_face; lia). cbn [bind].
        rewrite !put_ok by (apply in_p_ok; unfold cell_index; lia). cbn [bind]. eexists. split; [reflexivity|]. intros x y. unfold sview. cbn [fst snd negb]. rewrite same_pair, andb_true_r.
        destruct ((x =? i)%Z && (y =? j)%Z); reflexivity.
      + rewrite !get_d by (unfold node_index; lia). rewrite !get_p by (unfold cell_index; lia). rewrite !HX, !HY by (unfold x_face, y_face; lia).
        rewrite !H1, !H2 by (unfold node_index; lia). rewrite HA by (unfold cell_index; lia). cbn [bind].
        rewrite !put_ok by (apply in_p_ok; unfold cell_index; lia). cbn [bind]. eexists. split; [reflexivity|]. intros x y. unfold sview. cbn [fst snd negb]. rewrite same_pair, andb_true_r.
        destruct ((x =? i)%Z && (y =? j)%Z); reflexivity.
    - exists s. split; [reflexivity|]. intros i j H. unfold data_cell in H. specialize (V i j).
      destruct (Z.leb_spec (1 - pmbc p) i), (Z.leb_spec i (pmx p + pmbc p)), (Z.leb_spec (1 - pmbc p) j), (Z.leb_spec j (pmy p + pmbc p)); try lia. cbn [andb negb] in V. unfold sview in V. injection V as V1 V2. split; assumption.
  Qed.
End Surf.

(** ** Faces in a plane with unit normal e *)
Lemma cross_product_cross : forall u v, cross_product u v = cross u v.
Proof. intros. coords. unfold cross_product. apply pt_eq; ring. Qed.
Lemma dot_sub_r : forall u v w, dot u (sub v w) = dot u v - dot u w. Proof. intros. coords. ring. Qed.
Lemma in_plane_cross : forall e u v, dot e e = 1 -> dot u e = 0 -> dot v e = 0 -> cross u v = scale (dot (cross u v) e) e.
Proof.
  intros e u v E U V. set (w := cross u v).
  assert (P : cross w e = zero).
  { transitivity (sub (scale (dot u e) v) (scale (dot v e) u)).
    - unfold w. clear. coords. apply pt_eq; ring.
    - rewrite U, V. clear. coords. apply pt_eq; ring. }
  assert (Q : dot (sub w (scale (dot w e) e)) (sub w (scale (dot w e) e)) = 0).
  { rewrite dot_sub_l, !dot_sub_r, !dot_scale_l, (dot_comm w (scale _ _)), (dot_comm e (scale _ _)), !dot_scale_l, E, (dot_comm e w).
    pose proof (lagrange w e) as G. rewrite P in G. rewrite E, (dot_comm e w) in G. unfold zero at 1 2, dot at 4 in G. lra. }
  apply dot_zero in Q. clear -Q. revert Q. generalize (scale (dot w e) e). intros z Q. coords. injection Q as Q1 Q2 Q3. apply pt_eq; lra.
Qed.
Lemma wv_cross : forall e t, wv e t = cross e (cross t e).
Proof. intros. unfold wv. coords. apply pt_eq; ring. Qed.
Lemma cross_scale_r : forall s u v, cross u (scale s v) = scale s (cross u v).
Proof. intros. coords. apply pt_eq; ring. Qed.
Lemma cross_in_plane_norm : forall e x, dot e e = 1 -> dot x e = 0 -> dot (cross x e) (cross x e) = dot x x.
Proof. intros e x E X. rewrite <- lagrange, E, (dot_comm e x), X. ring. Qed.

Lemma plane_face : forall e x t, dot e e = 1 -> dot x e = 0 -> dot t e = 0 -> dot (cross t x) e <> 0 ->
  exists k, get_normal x t = Some (scale k (cross x e)) /\ k * k * dot x x = 1 /\ 0 < k * dot (cross t x) e.
Proof.
  intros e x t E X T C. set (c := dot (cross t x) e) in *.
  assert (W : wv x t = scale c (cross x e)). { rewrite wv_cross, (in_plane_cross e t x E T X), cross_scale_r. reflexivity. }
  assert (XX : dot x x <> 0).
  { intros Z. apply dot_zero in Z. apply C. unfold c. rewrite Z. clear. coords. ring. }
  assert (WW : dot (wv x t) (wv x t) = c * c * dot x x).
  { rewrite W, dot_scale_l, dot_comm, dot_scale_l, (cross_in_plane_norm e x E X). ring. }
  assert (NW : 0 < norm (wv x t)). { apply norm_pos. rewrite WW. assert (c * c <> 0) by nra. apply Rmult_integral_contrapositive_currified; assumption. }
  exists (/ norm (wv x t) * c). split; [|split].
  - rewrite get_normal_wv, over_some by lra. rewrite W at 2. rewrite scale_scale. reflexivity.
  - replace (/ norm (wv x t) * c * (/ norm (wv x t) * c) * dot x x) with (c * c * dot x x / (norm (wv x t) * norm (wv x t))) by (field; lra). rewrite norm_sq, WW. field. split; assumption.
  - replace (/ norm (wv x t) * c * c) with (/ norm (wv x t) * (c * c)) by ring. apply Rmult_lt_0_compat; [apply Rinv_0_lt_compat; exact NW|]. nra.
Qed.
(** the cross product of the two normals *)
Lemma plane_cross : forall e x y k m, dot e e = 1 -> dot x e = 0 -> dot y e = 0 ->
  cross (scale k (cross x e)) (scale m (cross y e)) = scale (k * m * dot (cross x y) e) e.
Proof.
  intros e x y k m E X Y. assert (G : cross (cross x e) (cross y e) = scale (dot (cross x y) e) e) by (clear; coords; apply pt_eq; ring).
  transitivity (scale (k * m) (cross (cross x e) (cross y e))); [clear; coords; apply pt_eq; ring|]. rewrite G, scale_scale. reflexivity.
Qed.
Lemma over_unit : forall e d, dot e e = 1 -> d <> 0 -> over (scale d e) (norm (scale d e)) = Some (scale (if Rle_dec 0 d then 1 else -1) e).
Proof.
  intros e d E D. assert (N : norm (scale d e) = Rabs d).
  { unfold norm. rewrite dot_scale_l, dot_comm, dot_scale_l, E, Rmult_1_r. apply sqrt_Rsqr_abs. }
  assert (A : Rabs d <> 0) by (apply Rabs_no_R0; exact D). rewrite N, over_some by exact A. rewrite scale_scale. f_equal. f_equal.
  destruct (Rle_dec 0 d) as [L|L]; [rewrite Rabs_right by lra|rewrite Rabs_left by lra]; field; lra.
Qed.

Lemma flat_plane : forall e x tx y ty, dot e e = 1 -> dot x e = 0 -> dot tx e = 0 -> dot y e = 0 -> dot ty e = 0 ->
  dot (cross tx x) e <> 0 -> dot (cross y ty) e <> 0 -> dot (cross y x) e <> 0 ->
  exists s, (s = 1 \/ s = -1) /\ flat_normal (get_normal x tx) (get_normal y ty) = (Some (scale s e), Some 0) /\
    (0 < dot (cross tx x) e * dot (cross y ty) e * dot (cross y x) e -> s = 1).
Proof.
  intros e x tx y ty E X TX Y TY CX CY CXY.
  assert (CY' : dot (cross ty y) e = - dot (cross y ty) e) by (clear; coords; ring).
  assert (CXY' : dot (cross x y) e = - dot (cross y x) e) by (clear; coords; ring).
  destruct (plane_face e x tx E X TX CX) as (k & -> & K1 & K2). destruct (plane_face e y ty E Y TY ltac:(lra)) as (m & -> & M1 & M2).
  unfold flat_normal. cbn [bind]. cbv zeta. rewrite inner_dot, cross_product_cross, (plane_cross e x y k m E X Y), CXY'. rewrite CY' in M2.
  assert (K : k <> 0) by (intros ->; lra). assert (MM : m <> 0) by (intros ->; lra).
  set (d := k * m * - dot (cross y x) e). assert (D : d <> 0). { unfold d. repeat apply Rmult_integral_contrapositive_currified; try assumption. lra. }
  fold (norm (scale d e)). rewrite over_unit by assumption. exists (if Rle_dec 0 d then 1 else -1). split; [destruct (Rle_dec 0 d); lra|]. split; [reflexivity|]. intros S. destruct (Rle_dec 0 d) as [_|N]; [reflexivity|exfalso]. apply N. unfold d.
  set (a := dot (cross tx x) e) in *. set (b := dot (cross y ty) e) in *. set (c := dot (cross y x) e) in *.
  assert (G : 0 < (k * a) * (m * - b)) by (apply Rmult_lt_0_compat; assumption).
  assert (G2 : 0 < (k * a) * (m * - b) * (a * b * c)) by (apply Rmult_lt_0_compat; assumption).
  assert (AB : 0 < (a * b) * (a * b)) by nra.
  replace ((k * a) * (m * - b) * (a * b * c)) with (k * m * - c * ((a * b) * (a * b))) in G2 by ring.
  destruct (Rle_dec 0 (k * m * - c)) as [R|R]; [exact R|]. exfalso. assert (k * m * - c < 0) by lra. nra.
Qed.

(** a plane cell that is treated as curved: the edges cancel *)
Lemma plane_edge : forall e x t, dot e e = 1 -> dot x e = 0 -> dot t e = 0 -> 0 < dot (cross t x) e ->
  exists n, get_normal x t = Some n /\ scale (norm x) n = cross x e.
Proof.
  intros e x t E X T C. destruct (plane_face e x t E X T ltac:(lra)) as (k & -> & K1 & K2). eexists. split; [reflexivity|].
  assert (K : 0 < k) by nra. rewrite scale_scale. replace (norm x * k) with 1; [apply scale_one|].
  assert (S : (norm x * k) * (norm x * k) = 1). { replace (norm x * k * (norm x * k)) with (k * k * (norm x * norm x)) by ring. rewrite norm_sq. exact K1. }
  assert (P : 0 <= norm x) by apply sqrt_pos. assert (0 <= norm x * k) by nra. nra.
Qed.
Lemma plane_curved : forall e x1 t1 x0 t0 y1 u1 y0 u0 a, dot e e = 1 ->
  dot x1 e = 0 -> dot t1 e = 0 -> dot x0 e = 0 -> dot t0 e = 0 -> dot y1 e = 0 -> dot u1 e = 0 -> dot y0 e = 0 -> dot u0 e = 0 ->
  0 < dot (cross t1 x1) e -> 0 < dot (cross t0 x0) e -> 0 < dot (cross y1 u1) e -> 0 < dot (cross y0 u0) e -> sub x1 x0 = sub y1 y0 -> a <> 0 ->
  curved_normal (norm x1) (norm x0) (norm y1) (norm y0) (get_normal x1 t1) (get_normal x0 t0) (get_normal y1 u1) (get_normal y0 u0) a = (None, Some 0).
Proof.
  intros e x1 t1 x0 t0 y1 u1 y0 u0 a E X1 T1 X0 T0 Y1 U1 Y0 U0 C1 C0 D1 D0 CL HA.
  destruct (plane_edge e x1 t1 E X1 T1 C1) as (n1 & -> & N1). destruct (plane_edge e x0 t0 E X0 T0 C0) as (n0 & -> & N0).
  set (f := scale (-1) e). assert (EF : dot f f = 1) by (unfold f; rewrite dot_scale_l, dot_comm, dot_scale_l; lra).
  assert (OF : forall v, dot v e = 0 -> dot v f = 0) by (intros v Hv; unfold f; rewrite dot_comm, dot_scale_l, dot_comm, Hv; ring).
  assert (DF : forall u v, dot (cross u v) f = dot (cross v u) e) by (intros u v; unfold f; clear; coords; ring).
  destruct (plane_edge f y1 u1 EF (OF _ Y1) (OF _ U1)) as (m1 & -> & M1); [rewrite DF; exact D1|]. destruct (plane_edge f y0 u0 EF (OF _ Y0) (OF _ U0)) as (m0 & -> & M0); [rewrite DF; exact D0|].
  unfold curved_normal. cbn [bind]. cbv zeta. change minus with sub; change plus with add; change times with scale. rewrite N1, N0, M1, M0.
  assert (Z : sub (add (sub (cross x1 e) (cross x0 e)) (cross y1 f)) (cross y0 f) = zero).
  { transitivity (cross (sub (sub x1 x0) (sub y1 y0)) e); [unfold f; clear; coords; apply pt_eq; ring|]. rewrite CL. clear. coords. apply pt_eq; ring. }
  rewrite Z, !inner_dot. unfold zero, dot. replace (0 * 0 + 0 * 0 + 0 * 0) with 0 by ring. rewrite sqrt_0, over_none. destruct (Req_EM_T a 0) as [Q|_]; [contradiction|]. f_equal. f_equal. field. exact HA.
Qed.
