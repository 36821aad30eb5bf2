(** C71: the grids of the patches tile the domain. *)
From Coq Require Import ZArith QArith Qround Qfield Qpower List Bool Lia Lqa.
From Verif Require Import Base_Float Model_Face Model_Domain Model_Search Model_Brick Spec_Brick Prop_Brick Model_Geom Spec_Geom Proof_Geom.
Import ListNotations.
Open Scope Z_scope.

Lemma grid_brick rnd o mi mj vs b i j q : brick_vertices mi mj vs -> o_manifold o = false -> 1 <= o_mx o -> 1 <= o_my o -> position vs b i j ->
  let X c := scale rnd (o_ax o) (o_bx o) (rnd (rnd (inject_Z i + coord rnd D2 c) / inject_Z mi))%Q in
  let Y c := scale rnd (o_ay o) (o_by o) (rnd (rnd (inject_Z j + coord rnd D2 c) / inject_Z mj))%Q in
  exists g, grid_of rnd o (Some (map_new_brick vs mi mj)) b q = Some g /\
    c_xlower g = X (q_x q) /\ c_xupper g = X (q_x q + side q) /\ c_ylower g = Y (q_y q) /\ c_yupper g = Y (q_y q + side q) /\
    c_dx g = rnd (rnd (c_xupper g - c_xlower g) / inject_Z (o_mx o))%Q /\ c_dy g = rnd (rnd (c_yupper g - c_ylower g) / inject_Z (o_my o))%Q.
Proof.
  intros BV HM Mx My HP X Y. unfold grid_of, clawpatch_define. rewrite HM. unfold set_boundary_xylower. cbn [p_xl p_xu p_yl p_yu].
  unfold c2m_nomap_brick, brick2c. rewrite !(c2m mi mj vs BV rnd b i j _ _ HP). cbn [bind fst snd]. rewrite widths_some by assumption.
  eexists. split; [reflexivity|]. repeat split.
Qed.
Lemma grid_single rnd o b q : o_manifold o = false -> 1 <= o_mx o -> 1 <= o_my o ->
  let X c := scale rnd (o_ax o) (o_bx o) (coord rnd D2 c) in
  let Y c := scale rnd (o_ay o) (o_by o) (coord rnd D2 c) in
  exists g, grid_of rnd o None b q = Some g /\
    c_xlower g = X (q_x q) /\ c_xupper g = X (q_x q + side q) /\ c_ylower g = Y (q_y q) /\ c_yupper g = Y (q_y q + side q) /\
    c_dx g = rnd (rnd (c_xupper g - c_xlower g) / inject_Z (o_mx o))%Q /\ c_dy g = rnd (rnd (c_yupper g - c_ylower g) / inject_Z (o_my o))%Q.
Proof.
  intros HM Mx My X Y. unfold grid_of, clawpatch_define. rewrite HM. unfold set_boundary_xylower. cbn [p_xl p_xu p_yl p_yu bind]. rewrite widths_some by assumption.
  eexists. split; [reflexivity|]. repeat split.
Qed.
Lemma grid_manifold rnd o brick b q : o_manifold o = true -> 1 <= o_mx o -> 1 <= o_my o ->
  let X := coord rnd D2 in
  exists g, grid_of rnd o brick b q = Some g /\
    c_xlower g = X (q_x q) /\ c_xupper g = X (q_x q + side q) /\ c_ylower g = X (q_y q) /\ c_yupper g = X (q_y q + side q) /\
    c_dx g = rnd (rnd (c_xupper g - c_xlower g) / inject_Z (o_mx o))%Q /\ c_dy g = rnd (rnd (c_yupper g - c_ylower g) / inject_Z (o_my o))%Q.
Proof.
  intros HM Mx My X. unfold grid_of, clawpatch_define. rewrite HM. unfold set_boundary_xylower. cbn [p_xl p_xu p_yl p_yu]. rewrite widths_some by assumption.
  eexists. split; [reflexivity|]. repeat split.
Qed.

Lemma brick_at o mi mj vs b i j q : brick_vertices mi mj vs -> o_manifold o = false -> options_ok o -> position vs b i j ->
  exists g, grid_of exact o (Some (map_new_brick vs mi mj)) b q = Some g /\ geom_at o (o_ax o) (o_bx o) (o_ay o) (o_by o) mi mj i j q g.
Proof.
  intros BV HM (_ & _ & Mx & My) HP. destruct (grid_brick exact o mi mj vs b i j q BV HM Mx My HP) as (g & G & E1 & E2 & E3 & E4 & E5 & E6).
  exists g. split; [exact G|]. pose proof (zpos root root_pos). destruct BV as ((M1 & _) & (M2 & _) & _). pose proof (zpos mi M1). pose proof (zpos mj M2).
  assert (S : forall a b' I c m, (0 < inject_Z m)%Q -> (scale exact a b' (exact (exact (inject_Z I + coord exact D2 c) / inject_Z m)) == edge a b' m I c)%Q).
  { intros a b' I c m Hm. unfold scale, edge. unfold exact at 1 2 3 4 5. rewrite (coord_exact c). reflexivity. }
  unfold geom_at. rewrite E1, E2, E3, E4, !S by assumption. repeat split; [rewrite E5 | rewrite E6]; unfold exact at 1 2; rewrite ?E1, ?E2, ?E3, ?E4, !S by assumption; reflexivity.
Qed.
Lemma single_at o b q : o_manifold o = false -> options_ok o ->
  exists g, grid_of exact o None b q = Some g /\ geom_at o (o_ax o) (o_bx o) (o_ay o) (o_by o) 1 1 0 0 q g.
Proof.
  intros HM (_ & _ & Mx & My). destruct (grid_single exact o b q HM Mx My) as (g & G & E1 & E2 & E3 & E4 & E5 & E6).
  exists g. split; [exact G|]. pose proof (zpos root root_pos).
  assert (S : forall a b' c, (scale exact a b' (coord exact D2 c) == edge a b' 1 0 c)%Q).
  { intros a b' c. unfold scale, edge. unfold exact at 1 2 3. rewrite (coord_exact c). change (inject_Z 0) with 0%Q. change (inject_Z 1) with 1%Q. field. lra. }
  unfold geom_at. rewrite E1, E2, E3, E4, !S. repeat split; [rewrite E5 | rewrite E6]; unfold exact at 1 2; rewrite ?E1, ?E2, ?E3, ?E4, !S; reflexivity.
Qed.
Lemma manifold_at o brick b q : o_manifold o = true -> 1 <= o_mx o -> 1 <= o_my o ->
  exists g, grid_of exact o brick b q = Some g /\ geom_at o 0 1 0 1 1 1 0 0 q g.
Proof.
  intros HM Mx My. destruct (grid_manifold exact o brick b q HM Mx My) as (g & G & E1 & E2 & E3 & E4 & E5 & E6).
  exists g. split; [exact G|]. pose proof (zpos root root_pos).
  assert (S : forall c, (coord exact D2 c == edge 0 1 1 0 c)%Q).
  { intros c. rewrite (coord_exact c). unfold edge. change (inject_Z 0) with 0%Q. change (inject_Z 1) with 1%Q. field. lra. }
  unfold geom_at. rewrite E1, E2, E3, E4, !S. repeat split; [rewrite E5 | rewrite E6]; unfold exact at 1 2; rewrite ?E1, ?E2, ?E3, ?E4, !S; reflexivity.
Qed.

(** In exact arithmetic: on a brick of blocks every point of the domain lies in exactly one cell of one patch. *)
Theorem C71_brick : forall o mi mj vs M, options_ok o -> o_manifold o = false -> brick_vertices mi mj vs -> mesh_ok (Z.of_nat (length vs)) M ->
  forall x y, (o_ax o <= x)%Q -> (x < o_bx o)%Q -> (o_ay o <= y)%Q -> (y < o_by o)%Q ->
  exactly_one (cell_at (grid_of exact o (Some (map_new_brick vs mi mj))) o M x y).
Proof.
  intros o mi mj vs M OK HM BV (MO & MT). pose proof OK as (Hx & Hy & Mx & My). pose proof BV as ((M1 & _) & (M2 & _) & _).
  assert (PL : forall b i j, position vs b i j -> 0 <= b < Z.of_nat (length vs)).
  { intros b i j (B & E). assert (Z.to_nat b < length vs)%nat by (apply nth_error_Some; congruence). lia. }
  apply (tile o _ _ _ _ mi mj _ (position vs) M Hx Hy); try tauto.
  - apply (pos_ex mi mj vs BV).
  - apply (pos_inj mi mj vs BV).
  - intros b q Hin. destruct (pos_of mi mj vs BV b (proj1 (MO b q Hin))) as (i & j & HP). exists i, j. split; [exact HP | apply (pos_range mi mj vs BV b i j HP)].
  - intros b q Hin. apply (MO b q Hin).
  - intros b q i j Hin HP. now apply brick_at.
  - intros b i j X Y HP. apply MT. eapply PL; exact HP.
Qed.
Print Assumptions C71_brick.

(** One block. *)
Theorem C71_single : forall o M, options_ok o -> o_manifold o = false -> mesh_ok 1 M ->
  forall x y, (o_ax o <= x)%Q -> (x < o_bx o)%Q -> (o_ay o <= y)%Q -> (y < o_by o)%Q ->
  exactly_one (cell_at (grid_of exact o None) o M x y).
Proof.
  intros o M OK HM (MO & MT). pose proof OK as (Hx & Hy & Mx & My).
  apply (tile o _ _ _ _ 1 1 _ (fun b i j => b = 0 /\ i = 0 /\ j = 0) M Hx Hy); try tauto; try lia.
  - intros I J HI HJ. exists 0. lia.
  - intros b q Hin. destruct (MO b q Hin) as (B & _). exists 0, 0. lia.
  - intros b q Hin. apply (MO b q Hin).
  - intros b q i j Hin (-> & -> & ->). now apply single_at.
  - intros b i j X Y (-> & -> & ->). apply MT. lia.
Qed.
Print Assumptions C71_single.

(** With a mapping ("manifold"): the patches of every block tile the unit square. *)
Theorem C71_manifold : forall o brick nblocks M, o_manifold o = true -> 1 <= o_mx o -> 1 <= o_my o -> mesh_ok nblocks M ->
  forall b x y, 0 <= b < nblocks -> (0 <= x < 1)%Q -> (0 <= y < 1)%Q ->
  exactly_one (fun k i j => (exists q, nth_error M k = Some (b, q)) /\ cell_at (grid_of exact o brick) o M x y k i j).
Proof.
  intros o brick nb M HM Mx My (MO & MT) b x y Hb Hx Hy.
  pose proof (manifold_at o brick) as At.
  assert (Hx01 : (0 < 1)%Q) by lra.
  pose proof root_pos as Rp.
  set (X := Qfloor (scaled 0 1 1 x)). set (Y := Qfloor (scaled 0 1 1 y)).
  assert (RX : 0 <= X < 1 * root) by (apply scaled_range; [lra | lia | tauto | tauto]).
  assert (RY : 0 <= Y < 1 * root) by (apply scaled_range; [lra | lia | tauto | tauto]).
  assert (Iff : forall q g, geom_at o 0 1 0 1 1 1 0 0 q g ->
    ((c_xlower g <= x /\ x < c_xupper g) /\ (c_ylower g <= y /\ y < c_yupper g))%Q <-> holds q X Y).
  { intros q g (G1 & G2 & G3 & G4 & _). rewrite G1, G2, G3, G4. rewrite !edge_le, !edge_gt by (lra || lia). fold X. fold Y. unfold holds. lia. }
  destruct (MT b X Y Hb ltac:(lia) ltac:(lia)) as (k & (q & Nk & Hold) & Uk).
  destruct (At b q HM Mx My) as (g & Gr & GA). pose proof (proj2 (Iff q g GA) Hold) as Box.
  pose proof GA as (G1 & G2 & G3 & G4 & G5 & G6).
  destruct (cell_ex (c_xlower g) (c_xupper g) (c_dx g) (o_mx o) x Mx G5 (proj1 (proj1 Box)) (proj2 (proj1 Box))) as (i & Hi & Ci).
  destruct (cell_ex (c_ylower g) (c_yupper g) (c_dy g) (o_my o) y My G6 (proj1 (proj2 Box)) (proj2 (proj2 Box))) as (j & Hj & Cj).
  exists k, i, j. split; [split; [exists q; exact Nk | exists b, q, g; unfold in_cell; tauto]|].
  intros k' i' j' ((q0 & Nk0) & b' & q' & g' & Nk' & Gr' & Hi' & Hj' & Cx' & Cy'). rewrite Nk0 in Nk'. injection Nk' as <- <-.
  destruct (At b q0 HM Mx My) as (g'' & Gr'' & GA'). rewrite Gr' in Gr''. injection Gr'' as <-. pose proof GA' as (H1 & H2 & H3 & H4 & H5 & H6).
  assert (Hq : quad_ok q0) by (apply (MO b q0); eapply nth_error_In; exact Nk0). pose proof (side_pos q0 Hq) as Sp.
  assert (W : forall c, (edge 0 1 1 0 c < edge 0 1 1 0 (c + side q0))%Q).
  { intro c. apply Qnot_le_lt. intro C. apply edge_le in C; [|lra|lia]. rewrite (Qfloor_comp _ _ (scaled_edge 0 1 1 0 c Hx01 ltac:(lia))), Qfloor_Z in C. lia. }
  assert (Wx : (c_xlower g' < c_xupper g')%Q) by (rewrite H1, H2; apply W). assert (Wy : (c_ylower g' < c_yupper g')%Q) by (rewrite H3, H4; apply W).
  assert (Box' : ((c_xlower g' <= x /\ x < c_xupper g') /\ (c_ylower g' <= y /\ y < c_yupper g'))%Q).
  { split; [apply (cell_in _ _ (c_dx g') (o_mx o) x i'); tauto | apply (cell_in _ _ (c_dy g') (o_my o) y j'); tauto]. }
  apply (Iff q0 g' GA') in Box'. assert (k' = k) by (eapply Uk; eassumption). subst k'. rewrite Nk in Nk0. injection Nk0 as <-. rewrite Gr in Gr'. injection Gr' as <-.
  assert (Dx : (0 < c_dx g)%Q) by (rewrite H5; apply Qlt_shift_div_l; [now apply zpos | lra]).
  assert (Dy : (0 < c_dy g)%Q) by (rewrite H6; apply Qlt_shift_div_l; [now apply zpos | lra]).
  split; [reflexivity|]. split; [apply (cell_unique (c_xlower g) (c_dx g) x); tauto | apply (cell_unique (c_ylower g) (c_dy g) y); tauto].
Qed.
Print Assumptions C71_manifold.

(** The size of the cells: the domain is mi * mx * 2^level cells wide, and refinement halves the cells in place. *)
Theorem C71_sizes : forall o mi mj vs b i j q, options_ok o -> o_manifold o = false -> brick_vertices mi mj vs -> position vs b i j -> quad_ok q ->
  exists g, grid_of exact o (Some (map_new_brick vs mi mj)) b q = Some g /\
    (c_dx g == (o_bx o - o_ax o) / inject_Z (mi * o_mx o * 2 ^ q_level q) /\ c_dy g == (o_by o - o_ay o) / inject_Z (mj * o_my o * 2 ^ q_level q))%Q /\
    (c_xupper g == c_xlower g + inject_Z (o_mx o) * c_dx g /\ c_yupper g == c_ylower g + inject_Z (o_my o) * c_dy g)%Q /\
    forall c kx ky, quad_ok c -> child_quad q c kx ky -> exists gc, grid_of exact o (Some (map_new_brick vs mi mj)) b c = Some gc /\
      (c_dx gc == c_dx g / 2 /\ c_dy gc == c_dy g / 2 /\
       c_xlower gc == c_xlower g + inject_Z (kx * o_mx o) * c_dx gc /\ c_ylower gc == c_ylower g + inject_Z (ky * o_my o) * c_dy gc)%Q.
Proof.
  intros o mi mj vs b i j q OK HM BV HP Hq. pose proof OK as (Hx & Hy & Mx & My). pose proof BV as ((M1 & _) & (M2 & _) & _).
  pose proof (zpos _ Mx) as Px. pose proof (zpos _ My) as Py. pose proof (zpos _ M1) as P1. pose proof (zpos _ M2) as P2. pose proof (zpos _ root_pos) as PR.
  destruct (brick_at o mi mj vs b i j q BV HM OK HP) as (g & G & E1 & E2 & E3 & E4 & E5 & E6).
  assert (SL : forall q', quad_ok q' -> inject_Z root = inject_Z (side q' * 2 ^ q_level q')).
  { intros q' ((L0 & L1) & _). f_equal. unfold root, root_len, side, quadrant_len, maxlevel_of. rewrite <- Z.pow_add_r by lia. f_equal. lia. }
  assert (W : forall q' a b' m n I c, quad_ok q' -> (0 < inject_Z m)%Q -> (0 < inject_Z n)%Q ->
    ((edge a b' m I (c + side q') - edge a b' m I c) / inject_Z n == (b' - a) / inject_Z (m * n * 2 ^ q_level q'))%Q).
  { intros q' a b' m n I c Hq' Pm Pn. unfold edge. rewrite (SL q' Hq'), !inject_Z_mult, inject_Z_plus.
    assert (0 < inject_Z (2 ^ q_level q'))%Q by (apply zpos; destruct Hq' as ((L0 & _) & _); pose proof (Z.pow_pos_nonneg 2 (q_level q') ltac:(lia) L0); lia).
    pose proof (zpos _ (side_pos q' Hq')). field. repeat split; lra. }
  assert (DX : (c_dx g == (o_bx o - o_ax o) / inject_Z (mi * o_mx o * 2 ^ q_level q))%Q) by (rewrite E5, E1, E2; now apply W).
  assert (DY : (c_dy g == (o_by o - o_ay o) / inject_Z (mj * o_my o * 2 ^ q_level q))%Q) by (rewrite E6, E3, E4; now apply W).
  exists g. split; [exact G|]. split; [split; assumption|]. split; [split; [rewrite E5 | rewrite E6]; field; lra|].
  intros c kx ky Hc (CL & CX & CY). destruct (brick_at o mi mj vs b i j c BV HM OK HP) as (gc & Gc & F1 & F2 & F3 & F4 & F5 & F6).
  assert (EX : (c_dx gc == (o_bx o - o_ax o) / inject_Z (mi * o_mx o * 2 ^ q_level c))%Q) by (rewrite F5, F1, F2; now apply W).
  assert (EY : (c_dy gc == (o_by o - o_ay o) / inject_Z (mj * o_my o * 2 ^ q_level c))%Q) by (rewrite F6, F3, F4; now apply W).
  assert (L0 : 0 <= q_level q) by (destruct Hq as ((L0 & _) & _); exact L0). assert (PL := Z.pow_pos_nonneg 2 (q_level q) ltac:(lia) L0).
  assert (P2L : (0 < inject_Z (2 ^ q_level q))%Q) by (apply zpos; lia).
  exists gc. split; [exact Gc|]. split; [|split; [|split]].
  - rewrite EX, DX, CL, Z.pow_add_r, !inject_Z_mult by lia. change (inject_Z (2 ^ 1)) with 2%Q. field. repeat split; lra.
  - rewrite EY, DY, CL, Z.pow_add_r, !inject_Z_mult by lia. change (inject_Z (2 ^ 1)) with 2%Q. field. repeat split; lra.
  - rewrite F1, E1, F5, F1, F2, CX. unfold edge. rewrite !inject_Z_plus, !inject_Z_mult. field. repeat split; lra.
  - rewrite F3, E3, F6, F3, F4, CY. unfold edge. rewrite !inject_Z_plus, !inject_Z_mult. field. repeat split; lra.
Qed.
Print Assumptions C71_sizes.

Lemma b64_frac c : Z.abs c < 2 ^ 53 -> is_b64 (inject_Z c / inject_Z root)%Q.
Proof. intros H. exists c, (-30). split; [exact H|]. split; [lia|]. reflexivity. Qed.
Lemma coord_rounded rnd c : rounding rnd -> monotone rnd -> 0 <= c <= root -> (coord rnd D2 c == inject_Z c / inject_Z root)%Q.
Proof.
  intros R M H. assert (RT : root = 2 ^ 30) by reflexivity. unfold coord, smallest_h, fmul, dbl. fold root.
  assert (A : (rnd (inject_Z c) == inject_Z c)%Q) by (apply R, int_b64; lia).
  assert (B : (rnd (inject_Z root) == inject_Z root)%Q) by (apply R, int_b64; lia).
  assert (C : (rnd (1 / rnd (inject_Z root)) == 1 / inject_Z root)%Q).
  { rewrite (mono_eq rnd (1 / rnd (inject_Z root))%Q (1 / inject_Z root)%Q M) by (rewrite B; reflexivity). apply R. apply (b64_frac 1). lia. }
  rewrite (mono_eq rnd _ (inject_Z c / inject_Z root) M); [apply R, b64_frac; lia|]. rewrite A, C. field. pose proof (zpos _ root_pos). lra.
Qed.

Lemma scale_eq rnd a b u v : monotone rnd -> (u == v)%Q -> (scale rnd a b u == scale rnd a b v)%Q.
Proof. intros M E. unfold scale. apply mono_eq; [exact M|]. assert (rnd (rnd (b - a) * u) == rnd (rnd (b - a) * v))%Q by (apply mono_eq; [exact M | rewrite E; reflexivity]). lra. Qed.
Definition line (rnd : Q -> Q) (a b : Q) (m Z0 : Z) : Q := scale rnd a b (rnd (rnd (inject_Z Z0 / inject_Z root) / inject_Z m))%Q.
Lemma line_mono rnd a b m z z' : rounding rnd -> monotone rnd -> (a < b)%Q -> 1 <= m -> z <= z' -> (line rnd a b m z <= line rnd a b m z')%Q.
Proof.
  intros R M AB Hm H. unfold line, scale. apply M. apply Qplus_le_r. apply M.
  assert (Z0 : (rnd 0 == 0)%Q) by (apply (round_int rnd 0%Q 0 R M); [lia | reflexivity]).
  assert (P : (0 <= rnd (b - a))%Q) by (rewrite <- Z0; apply M; lra).
  assert (L : (rnd (rnd (inject_Z z / inject_Z root) / inject_Z m) <= rnd (rnd (inject_Z z' / inject_Z root) / inject_Z m))%Q).
  { apply M. apply div_le; [exact Hm|]. apply M. apply div_le; [apply root_pos|]. rewrite <- Zle_Qle. exact H. }
  rewrite !(Qmult_comm (rnd (b - a)%Q)). apply Qmult_le_compat_r; assumption.
Qed.
Lemma line_zero rnd a b m : rounding rnd -> monotone rnd -> 1 <= m -> is_b64 a -> (line rnd a b m 0 == a)%Q.
Proof.
  intros R M Hm Ha. pose proof (zpos _ Hm). pose proof (zpos _ root_pos). unfold line.
  assert (A : (rnd (inject_Z 0 / inject_Z root) == 0)%Q) by (apply (round_int rnd _ 0 R M); [lia|]; change (inject_Z 0) with 0%Q; field; lra).
  assert (B : (rnd (rnd (inject_Z 0 / inject_Z root) / inject_Z m) == 0)%Q) by (apply (round_int rnd _ 0 R M); [lia|]; rewrite A; change (inject_Z 0) with 0%Q; field; lra).
  rewrite (scale_eq rnd a b _ 0 M B). unfold scale. assert (C : (rnd (rnd (b - a) * 0) == 0)%Q) by (apply (round_int rnd _ 0 R M); [lia|]; change (inject_Z 0) with 0%Q; ring).
  rewrite (mono_eq rnd (a + rnd (rnd (b - a) * 0))%Q a M) by lra. apply R, Ha.
Qed.
Lemma line_one rnd a b m : rounding rnd -> monotone rnd -> 1 <= m < 2 ^ 31 -> is_b64 (b - a) -> is_b64 b -> (line rnd a b m (m * root) == b)%Q.
Proof.
  intros R M Hm Hd Hb. pose proof (zpos m ltac:(lia)). pose proof (zpos _ root_pos). unfold line.
  assert (A : (rnd (inject_Z (m * root) / inject_Z root) == inject_Z m)%Q) by (apply (round_int rnd _ m R M); [lia|]; rewrite inject_Z_mult; field; lra).
  assert (B : (rnd (rnd (inject_Z (m * root) / inject_Z root) / inject_Z m) == 1)%Q) by (apply (round_int rnd _ 1 R M); [lia|]; rewrite A; change (inject_Z 1) with 1%Q; field; lra).
  rewrite (scale_eq rnd a b _ 1 M B). unfold scale. pose proof (R _ Hd) as D.
  assert (C : (rnd (rnd (b - a) * 1) == b - a)%Q) by (rewrite (mono_eq rnd (rnd (b - a) * 1)%Q (b - a)%Q M) by (rewrite D; ring); exact D).
  rewrite (mono_eq rnd (a + rnd (rnd (b - a) * 1))%Q b M) by lra. apply R, Hb.
Qed.

(** In floating point: all patches of all blocks of a brick take their edges from one table of lines, in order.  So
    patches that meet, also across blocks and levels, agree on the common line. *)
Theorem C71_edges : forall rnd o mi mj vs, rounding rnd -> monotone rnd -> options_ok o -> o_manifold o = false -> brick_vertices mi mj vs ->
  exists EX EY : Z -> Q,
    (forall z z', z <= z' -> (EX z <= EX z' /\ EY z <= EY z')%Q) /\
    (is_b64 (o_ax o) -> (EX 0%Z == o_ax o)%Q) /\ (is_b64 (o_ay o) -> (EY 0%Z == o_ay o)%Q) /\
    (is_b64 (o_bx o - o_ax o) -> is_b64 (o_bx o) -> (EX (mi * root)%Z == o_bx o)%Q) /\
    (is_b64 (o_by o - o_ay o) -> is_b64 (o_by o) -> (EY (mj * root)%Z == o_by o)%Q) /\
    forall b i j q, position vs b i j -> quad_ok q -> exists g, grid_of rnd o (Some (map_new_brick vs mi mj)) b q = Some g /\
      (c_xlower g == EX (i * root + q_x q)%Z /\ c_xupper g == EX (i * root + (q_x q + side q))%Z /\
       c_ylower g == EY (j * root + q_y q)%Z /\ c_yupper g == EY (j * root + (q_y q + side q))%Z)%Q.
Proof.
  intros rnd o mi mj vs R M OK HM BV. pose proof OK as (Hx & Hy & Mx & My). pose proof BV as ((M1 & M1') & (M2 & M2') & _). pose proof (zpos _ root_pos) as PR.
  exists (line rnd (o_ax o) (o_bx o) mi), (line rnd (o_ay o) (o_by o) mj).
  split; [intros z z' H; split; now apply line_mono|]. split; [now apply line_zero|]. split; [now apply line_zero|].
  split; [apply line_one; auto|]. split; [apply line_one; auto|].
  intros b i j q HP Hq. destruct (grid_brick rnd o mi mj vs b i j q BV HM Mx My HP) as (g & G & E1 & E2 & E3 & E4 & _).
  exists g. split; [exact G|]. rewrite E1, E2, E3, E4. pose proof (side_pos q Hq) as Sp. destruct Hq as (_ & A1 & A2 & A3 & A4).
  assert (S : forall a b' m I c, 0 <= c <= root -> 1 <= m ->
    (scale rnd a b' (rnd (rnd (inject_Z I + coord rnd D2 c) / inject_Z m)) == line rnd a b' m (I * root + c))%Q).
  { intros a b' m I c Hc Hm. unfold line. apply scale_eq; [exact M|]. apply mono_eq; [exact M|].
    assert (E : (rnd (inject_Z I + coord rnd D2 c) == rnd (inject_Z (I * root + c) / inject_Z root))%Q).
    { apply mono_eq; [exact M|]. rewrite (coord_rounded rnd c R M Hc), inject_Z_plus, inject_Z_mult. field. lra. }
    rewrite E. reflexivity. }
  repeat split; apply S; lia.
Qed.
Print Assumptions C71_edges.

(** The upper edge of the domain: when bx - ax is not a double the last patch does not end at bx. *)
Definition wide : gopts := mkO false (-1) (1 # 2 ^ 60) 0 1 8 8.
Definition whole : quad := mkQuad 0 0 0 0.
Lemma pow_down e : e <= -53 -> (Qpower 2 e <= Qpower 2 (-53))%Q.
Proof.
  intros H. replace (-53) with (e + (-53 - e)) by lia. rewrite Qpower_plus by discriminate. assert (Pe : (0 < Qpower 2 e)%Q) by (apply Qpower_0_lt; reflexivity).
  change 2%Q with (inject_Z 2) at 3. rewrite <- Zpower_Qpower by lia. assert (G : 1 <= 2 ^ (-53 - e)) by (pose proof (Z.pow_pos_nonneg 2 (-53 - e) ltac:(lia) ltac:(lia)); lia).
  assert (Gq : (1 <= inject_Z (2 ^ (-53 - e)))%Q) by (change 1%Q with (inject_Z 1); rewrite <- Zle_Qle; exact G). set (w := inject_Z (2 ^ (-53 - e))) in *. clearbody w. nra.
Qed.
Lemma b64_scaled x : is_b64 x -> (1 <= x)%Q -> exists n, (x * inject_Z (2 ^ 52) == inject_Z n)%Q.
Proof.
  intros (m & e & Hm & He & E) L.
  assert (Le : -52 <= e).
  { apply Znot_gt_le. intro C. pose proof (pow_down e ltac:(lia)) as D.
    assert (Pm : (inject_Z m <= inject_Z (2 ^ 53 - 1))%Q) by (rewrite <- Zle_Qle; lia). assert (Pe : (0 < Qpower 2 e)%Q) by (apply Qpower_0_lt; reflexivity).
    assert (X : (inject_Z m * Qpower 2 e <= inject_Z (2 ^ 53 - 1) * Qpower 2 (-53))%Q).
    { apply Qle_trans with (inject_Z (2 ^ 53 - 1) * Qpower 2 e)%Q; [apply Qmult_le_compat_r; lra|]. rewrite !(Qmult_comm (inject_Z (2 ^ 53 - 1))). apply Qmult_le_compat_r; [exact D | discriminate]. }
    assert (Y : (inject_Z (2 ^ 53 - 1) * Qpower 2 (-53) < 1)%Q) by reflexivity. lra. }
  exists (m * 2 ^ (e + 52)). rewrite E, inject_Z_mult, <- Qmult_assoc. apply Qmult_comp; [reflexivity|]. rewrite !Zpower_Qpower by lia. change (inject_Z 2) with 2%Q. rewrite <- Qpower_plus by discriminate. reflexivity.
Qed.
Lemma b64_between x : is_b64 x -> (1 <= x)%Q -> (x <= 1 + (1 # 2 ^ 52))%Q -> (x == 1 \/ x == 1 + (1 # 2 ^ 52))%Q.
Proof.
  intros B L U. destruct (b64_scaled x B L) as (n & I).
  assert (P52 : (0 < inject_Z (2 ^ 52))%Q) by reflexivity.
  assert (N0 : (inject_Z (2 ^ 52) <= inject_Z n)%Q) by (rewrite <- I; rewrite <- (Qmult_1_l (inject_Z (2 ^ 52))) at 1; apply Qmult_le_compat_r; lra).
  assert (N1 : (inject_Z n <= inject_Z (2 ^ 52 + 1))%Q).
  { rewrite <- I. assert (T : ((1 + (1 # 2 ^ 52)) * inject_Z (2 ^ 52) == inject_Z (2 ^ 52 + 1))%Q) by reflexivity. rewrite <- T. apply Qmult_le_compat_r; lra. }
  rewrite <- Zle_Qle in N0, N1.
  assert (D : forall w, (w * inject_Z (2 ^ 52) == x * inject_Z (2 ^ 52))%Q -> (x == w)%Q) by (intros w Hw; apply Qmult_inj_r with (inject_Z (2 ^ 52)); [lra | rewrite Hw; reflexivity]).
  destruct (Z.eq_dec n (2 ^ 52)) as [-> | N]; [left | right]; apply D; rewrite I; [reflexivity|]. replace n with (2 ^ 52 + 1) by lia. reflexivity.
Qed.
Theorem C71_upper_edge_refuted : forall rnd, rounding rnd -> monotone rnd -> (forall x, (1 <= x < 2)%Q -> is_b64 (rnd x)) ->
  options_ok wide /\ is_b64 (o_ax wide) /\ is_b64 (o_bx wide) /\
  exists g, grid_of rnd wide None 0 whole = Some g /\ (c_xlower g == o_ax wide)%Q /\ ~ (c_xupper g == o_bx wide)%Q.
Proof.
  intros rnd R M F. split; [repeat split; first [lia | reflexivity | discriminate]|]. split; [exists (-1), 0; repeat split; first [lia | reflexivity | discriminate]|].
  split; [exists 1, (-60); repeat split; first [lia | reflexivity | discriminate]|].
  destruct (grid_single rnd wide 0 whole eq_refl ltac:(cbn; lia) ltac:(cbn; lia)) as (g & G & E1 & E2 & _). exists g. split; [exact G|]. rewrite E1, E2. clear G E1 E2.
  assert (Z0 : (rnd 0 == 0)%Q) by (apply (round_int rnd _ 0 R M); [lia|reflexivity]).
  assert (B1 : is_b64 (-1)) by (exists (-1), 0; repeat split; first [lia | reflexivity | discriminate]).
  pose proof root_pos as Rp.
  assert (K0 : (coord rnd D2 0 == 0)%Q) by (rewrite (coord_rounded rnd 0 R M) by lia; reflexivity).
  assert (K1 : (coord rnd D2 root == 1)%Q) by (rewrite (coord_rounded rnd root R M) by lia; reflexivity).
  cbn [o_ax o_bx wide q_x whole]. change (0 + side whole) with root. split.
  - rewrite (scale_eq rnd _ _ _ 0 M K0). unfold scale.
    assert (C : (rnd (rnd ((1 # 2 ^ 60) - -1) * 0) == 0)%Q) by (apply (round_int rnd _ 0 R M); [lia|]; change (inject_Z 0) with 0%Q; ring).
    rewrite (mono_eq rnd _ (-1) M) by lra. apply R, B1.
  - rewrite (scale_eq rnd _ _ _ 1 M K1). unfold scale.
    set (w := rnd ((1 # 2 ^ 60) - -1)%Q).
    assert (Bw : is_b64 w) by (apply F; split; [discriminate | reflexivity]).
    assert (One : is_b64 1) by (apply (int_b64 1); lia).
    assert (Nx : is_b64 (1 + (1 # 2 ^ 52))) by (exists (2 ^ 52 + 1), (-52); repeat split; first [lia | reflexivity | discriminate]).
    assert (W1 : (1 <= w)%Q) by (rewrite <- (R _ One); apply M; discriminate).
    assert (W2 : (w <= 1 + (1 # 2 ^ 52))%Q) by (rewrite <- (R _ Nx); apply M; discriminate).
    assert (V : (rnd (w * 1) == w)%Q) by (rewrite (mono_eq rnd (w * 1)%Q w M) by ring; apply R, Bw).
    assert (T52 : is_b64 (1 # 2 ^ 52)) by (exists 1, (-52); repeat split; first [lia | reflexivity | discriminate]).
    destruct (b64_between w Bw W1 W2) as [W | W].
    + rewrite (mono_eq rnd (-1 + rnd (w * 1))%Q 0%Q M) by lra. rewrite Z0. intro X. discriminate X.
    + rewrite (mono_eq rnd (-1 + rnd (w * 1))%Q (1 # 2 ^ 52)%Q M) by lra. rewrite (R _ T52). intro X. vm_compute in X. discriminate X.
Qed.
Print Assumptions C71_upper_edge_refuted.

(** Two blocks, the second one refined once. *)
Definition ex_vertices : list (Q * Q) := map (fun p => (inject_Z (fst p), inject_Z (snd p))) [(0, 0); (1, 0)].
Definition half : Z := 2 ^ 29.
Definition ex_mesh : mesh :=
  [(0, whole); (1, mkQuad 1 0 0 0); (1, mkQuad 1 half 0 0); (1, mkQuad 1 0 half 0); (1, mkQuad 1 half half 0)].
Definition ex_opts : gopts := mkO false (-1) 3 0 1 8 4.
Lemma ex_brick : brick_vertices 2 1 ex_vertices.
Proof.
  split; [lia|]. split; [lia|]. exists [(0, 0); (1, 0)]. split; [reflexivity|]. split.
  - constructor; [cbn; intros [H | []]; discriminate H|]. constructor; [intros []|constructor].
  - intros i j. cbn [In]. split.
    + intros [H | [H | []]]; injection H as <- <-; lia.
    + intros (Hi & Hj). assert (j = 0) by lia. assert (i = 0 \/ i = 1) as [-> | ->] by lia; subst j; auto.
Qed.
Lemma ex_ok : mesh_ok 2 ex_mesh.
Proof.
  assert (S0 : side whole = 2 ^ 30) by reflexivity. assert (S1 : forall x y, side (mkQuad 1 x y 0) = half) by reflexivity.
  assert (RT : root = 2 ^ 30) by reflexivity. assert (Hh : half = 2 ^ 29) by reflexivity.
  split.
  - intros b q H. unfold ex_mesh in H. cbn [In] in H. unfold quad_ok.
    destruct H as [H | [H | [H | [H | [H | []]]]]]; injection H as <- <-; rewrite ?S0, ?S1; cbn [q_level q_x q_y whole]; lia.
  - intros b X Y Hb HX HY. unfold holds.
    assert (U : forall k q, nth_error ex_mesh k = Some (b, q) ->
      (k = 0%nat /\ b = 0 /\ q = whole) \/ (k = 1%nat /\ b = 1 /\ q = mkQuad 1 0 0 0) \/ (k = 2%nat /\ b = 1 /\ q = mkQuad 1 half 0 0) \/
      (k = 3%nat /\ b = 1 /\ q = mkQuad 1 0 half 0) \/ (k = 4%nat /\ b = 1 /\ q = mkQuad 1 half half 0)).
    { intros k q H. destruct k as [|[|[|[|[|k]]]]]; cbn [nth_error ex_mesh] in H; [injection H as <- <-; auto 10 .. |]. now destruct k. }
    assert (F : forall k q, nth_error ex_mesh k = Some (b, q) -> (q_x q <= X < q_x q + side q /\ q_y q <= Y < q_y q + side q) ->
      k = if b =? 0 then 0%nat else if X <? half then (if Y <? half then 1%nat else 3%nat) else if Y <? half then 2%nat else 4%nat).
    { intros k q H. destruct (U k q H) as [(-> & -> & ->) | [(-> & -> & ->) | [(-> & -> & ->) | [(-> & -> & ->) | (-> & -> & ->)]]]]; rewrite ?S0, ?S1; cbn [q_x q_y whole];
      destruct (Z.ltb_spec X half); destruct (Z.ltb_spec Y half); try reflexivity; lia. }
    eexists. split; [|intros k' q' H1 H2; exact (F k' q' H1 H2)].
    assert (b = 0 \/ b = 1) as [-> | ->] by lia.
    + exists whole. split; [reflexivity|]. rewrite S0. cbn [q_x q_y whole]. lia.
    + cbn [Z.eqb]. destruct (Z.ltb_spec X half); destruct (Z.ltb_spec Y half); eexists; (split; [reflexivity|]); rewrite S1; cbn [q_x q_y]; lia.
Qed.
Example C71_instance : options_ok ex_opts /\ brick_vertices 2 1 ex_vertices /\ mesh_ok (Z.of_nat (length ex_vertices)) ex_mesh /\ position ex_vertices 1 1 0 /\
  quad_ok (mkQuad 1 half 0 0) /\ child_quad whole (mkQuad 1 half 0 0) 1 0 /\ quad_ok whole /\
  (exists g, grid_of exact ex_opts (Some (map_new_brick ex_vertices 2 1)) 1 (mkQuad 1 half 0 0) = Some g /\
     c_xlower g == 2 /\ c_xupper g == 3 /\ c_ylower g == 0 /\ c_yupper g == 1 # 2 /\ c_dx g == 1 # 8 /\ c_dy g == 1 # 8)%Q /\
  cell_at (grid_of exact ex_opts (Some (map_new_brick ex_vertices 2 1))) ex_opts ex_mesh (21 # 8) (1 # 5) 2 6 2 /\
  rounding exact /\ monotone exact.
Proof.
  split; [repeat split; first [lia | reflexivity | discriminate]|]. split; [exact ex_brick|]. split; [exact ex_ok|]. split; [split; [lia | reflexivity]|].
  split; [vm_compute; repeat split; discriminate|]. split; [repeat split|]. split; [vm_compute; repeat split; discriminate|].
  split; [eexists; split; [reflexivity|]; repeat split; vm_compute; reflexivity|]. split; [|split; [apply rounding_id | intros x y H; exact H]].
  exists 1, (mkQuad 1 half 0 0). eexists. split; [reflexivity|]. split; [reflexivity|]. split; [cbn; lia|]. split; [cbn; lia|].
  vm_compute. repeat split; discriminate.
Qed.

(** a rounding for the last theorem *)
Definition chop (x : Q) : Q := if Qle_bool 1 x && negb (Qle_bool 2 x) then (inject_Z (Qfloor (x * inject_Z (2 ^ 52))) / inject_Z (2 ^ 52))%Q else x.
Lemma chop_in x : (1 <= x < 2)%Q -> chop x = (inject_Z (Qfloor (x * inject_Z (2 ^ 52))) / inject_Z (2 ^ 52))%Q.
Proof. intros (A & B). unfold chop. apply Qle_bool_iff in A. rewrite A. destruct (Qle_bool 2 x) eqn:C; [apply Qle_bool_iff in C; lra | reflexivity]. Qed.
Lemma chop_out x : ~ (1 <= x < 2)%Q -> chop x = x.
Proof. intros H. unfold chop. destruct (Qle_bool 1 x) eqn:A; destruct (Qle_bool 2 x) eqn:B; try reflexivity. apply Qle_bool_iff in A. exfalso. apply H. split; [exact A|]. apply Qnot_le_lt. intro C. apply Qle_bool_iff in C. congruence. Qed.
Lemma chop_bounds x : (1 <= x < 2)%Q -> (1 <= chop x <= x)%Q.
Proof.
  intros H. rewrite (chop_in x H). set (n := Qfloor (x * inject_Z (2 ^ 52))). assert (P : (0 < inject_Z (2 ^ 52))%Q) by reflexivity. split.
  - apply Qle_shift_div_l; [exact P|]. rewrite Qmult_1_l, <- Zle_Qle. unfold n. apply floor_le. nra.
  - apply Qle_shift_div_r; [exact P|]. apply Qfloor_le.
Qed.
Example C71_instance_chop : rounding chop /\ monotone chop /\ (forall x, (1 <= x < 2)%Q -> is_b64 (chop x)).
Proof.
  assert (P : (0 < inject_Z (2 ^ 52))%Q) by reflexivity.
  assert (D : forall x, (1 <= x < 2)%Q \/ ~ (1 <= x < 2)%Q) by (intro x; destruct (Qlt_le_dec x 1); destruct (Qlt_le_dec x 2); try (right; lra); left; lra).
  split; [|split].
  - intros x B. destruct (D x) as [H | H]; [|rewrite (chop_out x H); reflexivity]. rewrite (chop_in x H).
    destruct (b64_scaled x B (proj1 H)) as (n & I).
    rewrite (Qfloor_comp _ _ I), Qfloor_Z, <- I. field. lra.
  - intros x y H. destruct (D x) as [Hx | Hx]; destruct (D y) as [Hy | Hy].
    + rewrite (chop_in x Hx), (chop_in y Hy). apply div_le; [lia|]. rewrite <- Zle_Qle. apply Qfloor_resp_le. nra.
    + rewrite (chop_out y Hy). pose proof (chop_bounds x Hx). lra.
    + rewrite (chop_out x Hx). pose proof (chop_bounds y Hy). lra.
    + rewrite (chop_out x Hx), (chop_out y Hy). exact H.
  - intros x H. pose proof (chop_bounds x H) as (B1 & B2). rewrite (chop_in x H) in *. set (n := Qfloor (x * inject_Z (2 ^ 52))) in *.
    exists n, (-52). split; [|split; [lia | reflexivity]].
    assert (N1 : n < 2 ^ 53).
    { unfold n. apply floor_lt. change (inject_Z (2 ^ 53)) with (2 * inject_Z (2 ^ 52))%Q. apply Qmult_lt_r; [reflexivity | lra]. }
    assert (N0 : 0 <= n) by (unfold n; apply floor_le; change (inject_Z 0) with 0%Q; nra). lia.
Qed.
