(** C72: the picture of the mesh. *)
From Coq Require Import ZArith QArith Qround Qfield Qpower Ascii String List Bool Permutation Lia Lqa Arith.
From Verif Require Import Base_Float Model_Face Model_Domain Model_Search Model_Brick Spec_Brick Prop_Brick Model_Util Spec_Geom Proof_Geom Prop_Geom Model_Tikz Spec_Tikz Proof_Tikz.
Import ListNotations.
Open Scope Z_scope.

Lemma pow2 e : 0 <= e <= 15 -> pow_int 2 e = Some (2 ^ e).
Proof.
  intros H. assert (e = 0 \/ e = 1 \/ e = 2 \/ e = 3 \/ e = 4 \/ e = 5 \/ e = 6 \/ e = 7 \/ e = 8 \/ e = 9 \/ e = 10 \/ e = 11 \/ e = 12 \/ e = 13 \/ e = 14 \/ e = 15) as X by lia.
  repeat (destruct X as [-> | X]; [vm_compute; reflexivity|]). subst e. vm_compute. reflexivity.
Qed.
Lemma mul_ok a b : - 2 ^ 31 <= a * b < 2 ^ 31 -> int_mul a b = Some (a * b).
Proof. intros H. unfold int_mul, Model_Util.in_int. destruct (Z.leb_spec (- 2 ^ 31) (a * b)); [|lia]. destruct (Z.ltb_spec (a * b) (2 ^ 31)); [|lia]. reflexivity. Qed.
Lemma c_int_eq x z : (x == inject_Z z)%Q -> - 2 ^ 31 <= z < 2 ^ 31 -> c_int x = Some z.
Proof.
  intros E H. unfold c_int. unfold Qeq in E. cbn [inject_Z Qnum Qden] in E. rewrite Z.mul_1_r in E. rewrite E, Z.quot_mul by discriminate.
  unfold in_intb, int_min, int_max. destruct (Z.leb_spec (- 2 ^ 31) z); [|lia]. destruct (Z.leb_spec z (2 ^ 31 - 1)); [|lia]. reflexivity.
Qed.
Lemma unit_root lmax : 0 <= lmax <= 15 -> root = 2 ^ lmax * unit_len lmax.
Proof. intros H. unfold unit_len, root, root_len, maxlevel_of. rewrite <- Z.pow_add_r by lia. f_equal. lia. Qed.
Lemma unit_pos lmax : 0 <= lmax <= 15 -> 1 <= unit_len lmax.
Proof. intros H. unfold unit_len. pose proof (Z.pow_pos_nonneg 2 (30 - lmax) ltac:(lia) ltac:(lia)). lia. Qed.
Lemma unit_side lmax q : 0 <= lmax <= 15 -> quad_ok q -> q_level q <= lmax -> side q = 2 ^ (lmax - q_level q) * unit_len lmax.
Proof. intros H (L & _) HL. unfold side, quadrant_len, maxlevel_of, unit_len. rewrite <- Z.pow_add_r by lia. f_equal. lia. Qed.

(** one coordinate *)
Lemma width_ok rnd m lmax : 1 <= m -> 0 <= lmax <= 15 -> m * 2 ^ lmax < 2 ^ 31 -> fine_width rnd m 1 lmax = Some (rnd (1 / inject_Z (m * 2 ^ lmax))%Q).
Proof.
  intros Hm Hl Hs. pose proof (Z.pow_pos_nonneg 2 lmax ltac:(lia) ltac:(lia)) as P. unfold fine_width.
  rewrite (mul_ok m 1) by nia. cbn [bind]. rewrite (pow2 lmax Hl). cbn [bind]. rewrite Z.mul_1_r, (mul_ok m) by nia. cbn [bind].
  destruct (Z.eqb_spec (m * 2 ^ lmax) 0); [nia | reflexivity].
Qed.
Lemma quot_ok rnd m lmax z x : 1 <= m -> 0 <= lmax <= 15 -> m * 2 ^ lmax < 2 ^ 31 ->
  (forall u v, (u == v)%Q -> (rnd u == rnd v)%Q) -> (rnd (1 / inject_Z (m * 2 ^ lmax)) == 1 / inject_Z (m * 2 ^ lmax))%Q ->
  (rnd (inject_Z z) == inject_Z z)%Q -> 0 <= z < 2 ^ 31 -> (x == inject_Z z / inject_Z (m * 2 ^ lmax))%Q ->
  int_quot rnd x (rnd (1 / inject_Z (m * 2 ^ lmax))%Q) = Some z.
Proof.
  intros Hm Hl Hs Re Hd Hz Rz Hx. pose proof (Z.pow_pos_nonneg 2 lmax ltac:(lia) ltac:(lia)) as P. pose proof (zpos (m * 2 ^ lmax) ltac:(nia)) as N.
  unfold int_quot. destruct (Qeq_bool (rnd (1 / inject_Z (m * 2 ^ lmax))%Q) 0) eqn:E.
  - apply Qeq_bool_iff in E. rewrite Hd in E. assert (1 == 0)%Q by (rewrite <- (Qmult_inv_r (inject_Z (m * 2 ^ lmax))) by lra; unfold Qdiv in E; rewrite Qmult_1_l in E; rewrite E; ring). discriminate.
  - apply c_int_eq; [|lia]. rewrite (Re _ (inject_Z z)); [exact Hz|]. rewrite Hd, Hx. field. lra.
Qed.

Lemma acc_comp rnd mi mj u v : accurate rnd mi mj -> (u == v)%Q -> (rnd u == rnd v)%Q.
Proof. intros [-> | (_ & M & _)] E; [exact E | now apply mono_eq]. Qed.
Lemma acc_coord rnd mi mj c : accurate rnd mi mj -> 0 <= c <= root -> (coord rnd D2 c == inject_Z c / inject_Z root)%Q.
Proof. intros [-> | (R & M & _)] H; [apply coord_exact | now apply coord_rounded]. Qed.
Lemma acc_int rnd mi mj z : accurate rnd mi mj -> 0 <= z <= 2 ^ 31 -> (rnd (inject_Z z) == inject_Z z)%Q.
Proof. intros [-> | (R & M & _)] H; [reflexivity | apply R, int_b64, H]. Qed.
Lemma acc_swap rnd mi mj : accurate rnd mi mj -> accurate rnd mj mi.
Proof. intros [-> | (R & M & a & b & Ha & Hb & E1 & E2)]; [left; reflexivity | right; split; [exact R|]; split; [exact M|]; exists b, a; auto]. Qed.
Lemma pow_frac z k : 0 <= k -> (inject_Z z / inject_Z (2 ^ k) == inject_Z z * Qpower 2 (- k))%Q.
Proof. intros H. rewrite Zpower_Qpower by exact H. rewrite Qpower_opp. reflexivity. Qed.
Lemma b64_frac2 rnd z k : rounding rnd -> Z.abs z < 2 ^ 53 -> 0 <= k <= 100 -> (rnd (inject_Z z / inject_Z (2 ^ k)) == inject_Z z / inject_Z (2 ^ k))%Q.
Proof. intros R Hz Hk. apply R. exists z, (- k). split; [exact Hz|]. split; [lia|]. apply pow_frac. lia. Qed.

Lemma place rnd mi mj lmax i c : accurate rnd mi mj -> 1 <= mi < 2 ^ 31 -> 0 <= lmax <= 15 -> 0 <= i < mi -> 0 <= c <= root ->
  (rnd (rnd (inject_Z i + coord rnd D2 c) / inject_Z mi) == inject_Z (i * root + c) / inject_Z (mi * root))%Q /\
  (rnd (1 / inject_Z (mi * 2 ^ lmax)) == 1 / inject_Z (mi * 2 ^ lmax))%Q.
Proof.
  intros A Hm Hl Hi Hc. pose proof (zpos mi ltac:(lia)) as Pm. pose proof (zpos _ root_pos) as PR. pose proof (acc_coord rnd mi mj c A Hc) as C.
  assert (E0 : (inject_Z i + coord rnd D2 c == inject_Z (i * root + c) / inject_Z root)%Q) by (rewrite C, inject_Z_plus, inject_Z_mult; field; lra).
  assert (E2 : (inject_Z (i * root + c) / inject_Z root / inject_Z mi == inject_Z (i * root + c) / inject_Z (mi * root))%Q) by (rewrite (inject_Z_mult mi); field; lra).
  assert (RT : root = 2 ^ 30) by reflexivity.
  pose proof A as [-> | (R & M & a & b & Ha & Hb & Ea & Eb)].
  - split; [|reflexivity]. unfold exact. rewrite E0. exact E2.
  - assert (Bz : Z.abs (i * root + c) < 2 ^ 53).
    { rewrite RT in *. assert (mi <= 2 ^ 22) by (rewrite Ea; apply Z.pow_le_mono_r; lia). change (2 ^ 53) with (2 ^ 23 * 2 ^ 30). nia. }
    assert (F1 : (rnd (inject_Z (i * root + c) / inject_Z root) == inject_Z (i * root + c) / inject_Z root)%Q) by (rewrite RT at 1 3; rewrite RT in Bz |- *; apply (b64_frac2 rnd _ 30); auto; lia).
    assert (MR : mi * root = 2 ^ (a + 30)) by (rewrite Ea, RT, <- Z.pow_add_r by lia; reflexivity).
    assert (F2 : (rnd (inject_Z (i * root + c) / inject_Z (mi * root)) == inject_Z (i * root + c) / inject_Z (mi * root))%Q) by (rewrite MR; apply (b64_frac2 rnd _ (a + 30)); auto; lia).
    split.
    + rewrite (acc_comp rnd mi mj _ (inject_Z (i * root + c) / inject_Z (mi * root))%Q A); [exact F2|]. rewrite (acc_comp rnd mi mj _ _ A E0), F1. exact E2.
    + assert (ML : mi * 2 ^ lmax = 2 ^ (a + lmax)) by (rewrite Ea, <- Z.pow_add_r by lia; reflexivity). rewrite ML. change 1%Q with (inject_Z 1). apply (b64_frac2 rnd 1 (a + lmax)); auto; lia.
Qed.
Lemma on_grid lmax i c : 0 <= lmax <= 15 -> (unit_len lmax | c) -> exists z, z * unit_len lmax = i * root + c.
Proof. intros Hl (k & ->). exists (i * 2 ^ lmax + k). rewrite (unit_root lmax Hl). ring. Qed.
Lemma low_ok rnd mi mj lmax i c z : accurate rnd mi mj -> 1 <= mi -> 0 <= lmax <= 15 -> mi * 2 ^ lmax < 2 ^ 31 -> 0 <= i < mi -> 0 <= c <= root -> z * unit_len lmax = i * root + c ->
  int_quot rnd (rnd (rnd (inject_Z i + coord rnd D2 c) / inject_Z mi))%Q (rnd (1 / inject_Z (mi * 2 ^ lmax))%Q) = Some z /\ 0 <= z <= mi * 2 ^ lmax.
Proof.
  intros A Hm Hl Hs Hi Hc Hz. pose proof (Z.pow_pos_nonneg 2 lmax ltac:(lia) ltac:(lia)) as P. pose proof (unit_pos lmax Hl) as U. pose proof (unit_root lmax Hl) as UR.
  destruct (place rnd mi mj lmax i c A ltac:(nia) Hl Hi Hc) as (E & D).
  assert (Rz : 0 <= z <= mi * 2 ^ lmax) by (split; nia). split; [|exact Rz].
  apply quot_ok; try assumption; [intros u v; apply (acc_comp rnd mi mj u v A) | apply (acc_int rnd mi mj z A); lia | lia |].
  rewrite E, <- Hz. rewrite UR, !inject_Z_mult. pose proof (zpos mi Hm). pose proof (zpos _ U). pose proof (zpos (2 ^ lmax) ltac:(lia)). field. repeat split; lra.
Qed.

(** The rectangle drawn for a patch is the place of its quadrant, in units of the finest level. *)
Theorem C72_rectangle : forall rnd o vs, accurate rnd (t_mi o) (t_mj o) -> brick_vertices (t_mi o) (t_mj o) vs -> small o ->
  forall b i j q, position vs b i j -> fits (t_lmax o) q ->
  exists r, rectangle_of rnd o (Some (map_new_brick vs (t_mi o) (t_mj o))) b q = Some r /\ drawn_at (t_lmax o) i j q r.
Proof.
  intros rnd o vs A BV (S1 & S2 & S3 & S4 & S5) b i j q HP (Hq & HL & (kx & Dx) & (ky & Dy)).
  set (mi := t_mi o) in *. set (mj := t_mj o) in *. set (lmax := t_lmax o) in *.
  destruct (pos_range mi mj vs BV b i j HP) as (Hi & Hj). pose proof (side_pos q Hq) as Sp. pose proof (unit_side lmax q S3 Hq HL) as US. pose proof Hq as (Lq & Q1 & Q2 & Q3 & Q4).
  destruct (on_grid lmax i (q_x q) S3) as (zx & Zx); [rewrite Dx, US; exists (kx * 2 ^ (lmax - q_level q)); ring|].
  destruct (on_grid lmax j (q_y q) S3) as (zy & Zy); [rewrite Dy, US; exists (ky * 2 ^ (lmax - q_level q)); ring|].
  destruct (low_ok rnd mi mj lmax i (q_x q) zx A S1 S3 S4 Hi ltac:(lia) Zx) as (Lx & Rx).
  destruct (low_ok rnd mj mi lmax j (q_y q) zy (acc_swap _ _ _ A) S2 S3 S5 Hj ltac:(lia) Zy) as (Ly & Ry).
  pose proof (unit_pos lmax S3) as U. pose proof (unit_root lmax S3) as UR. pose proof (Z.pow_pos_nonneg 2 (lmax - q_level q) ltac:(lia) ltac:(lia)) as P.
  assert (Ux : zx + 2 ^ (lmax - q_level q) <= mi * 2 ^ lmax) by nia. assert (Uy : zy + 2 ^ (lmax - q_level q) <= mj * 2 ^ lmax) by nia.
  unfold rectangle_of, rectangle, set_boundary_xylower. cbn [Model_Domain.p_level p_xl p_yl]. fold mi mj lmax.
  rewrite (pow2 (lmax - q_level q)) by lia. cbn [bind]. rewrite !(mul_ok 1) by lia. cbn [bind]. rewrite !width_ok by assumption. cbn [bind].
  unfold convert_brick, c2m_nomap_brick, brick2c. rewrite (c2m mi mj vs BV rnd b i j _ _ HP). cbn [bind]. rewrite Lx. cbn [bind]. rewrite Ly. cbn [bind].
  rewrite Z.mul_1_l. unfold Model_Util.in_int.
  destruct (Z.leb_spec (- 2 ^ 31) (zx + 2 ^ (lmax - q_level q))); [|lia]. destruct (Z.ltb_spec (zx + 2 ^ (lmax - q_level q)) (2 ^ 31)); [|lia].
  destruct (Z.leb_spec (- 2 ^ 31) (zy + 2 ^ (lmax - q_level q))); [|lia]. destruct (Z.ltb_spec (zy + 2 ^ (lmax - q_level q)) (2 ^ 31)); [|lia].
  cbn [andb]. eexists. split; [reflexivity|]. unfold drawn_at. cbn [r_xlow r_xup r_ylow r_yup]. rewrite !Z.mul_add_distr_r. lia.
Qed.
Print Assumptions C72_rectangle.

(** One block, any order preserving rounding. *)
Theorem C72_rectangle_single : forall rnd o, (rnd = exact \/ rounding rnd /\ monotone rnd) -> t_mi o = 1 -> t_mj o = 1 -> small o ->
  forall b q, fits (t_lmax o) q -> exists r, rectangle_of rnd o None b q = Some r /\ drawn_at (t_lmax o) 0 0 q r.
Proof.
  intros rnd o A0 E1 E2 (S1 & S2 & S3 & S4 & S5) b q (Hq & HL & (kx & Dx) & (ky & Dy)).
  assert (A : accurate rnd 1 1) by (destruct A0 as [-> | (R & M)]; [left; reflexivity | right; split; [exact R|]; split; [exact M|]; exists 0, 0; repeat split; lia]).
  rewrite E1 in S4. rewrite E2 in S5. set (lmax := t_lmax o) in *.
  pose proof (side_pos q Hq) as Sp. pose proof (unit_side lmax q S3 Hq HL) as US. pose proof Hq as (Lq & Q1 & Q2 & Q3 & Q4).
  destruct (on_grid lmax 0 (q_x q) S3) as (zx & Zx); [rewrite Dx, US; exists (kx * 2 ^ (lmax - q_level q)); ring|].
  destruct (on_grid lmax 0 (q_y q) S3) as (zy & Zy); [rewrite Dy, US; exists (ky * 2 ^ (lmax - q_level q)); ring|].
  pose proof (unit_pos lmax S3) as U. pose proof (unit_root lmax S3) as UR. pose proof (Z.pow_pos_nonneg 2 (lmax - q_level q) ltac:(lia) ltac:(lia)) as P. pose proof (Z.pow_pos_nonneg 2 lmax ltac:(lia) ltac:(lia)) as P'.
  assert (Ux : 0 <= zx /\ zx + 2 ^ (lmax - q_level q) <= 2 ^ lmax) by (split; nia). assert (Uy : 0 <= zy /\ zy + 2 ^ (lmax - q_level q) <= 2 ^ lmax) by (split; nia).
  assert (D1 : (rnd (1 / inject_Z (1 * 2 ^ lmax)) == 1 / inject_Z (1 * 2 ^ lmax))%Q) by (apply (place rnd 1 1 lmax 0 0 A); pose proof root_pos; lia).
  assert (Low : forall c z, 0 <= c <= root -> z * unit_len lmax = 0 * root + c -> 0 <= z <= 2 ^ lmax -> int_quot rnd (coord rnd D2 c) (rnd (1 / inject_Z (1 * 2 ^ lmax))%Q) = Some z).
  { intros c z Hc Hz Rz. apply quot_ok; try assumption; try lia; [intros u v; apply (acc_comp rnd 1 1 u v A) | apply (acc_int rnd 1 1 z A); lia |].
    rewrite (acc_coord rnd 1 1 c A Hc). rewrite Z.mul_0_l, Z.add_0_l in Hz. rewrite <- Hz, UR, !inject_Z_mult. change (inject_Z 1) with 1%Q.
    pose proof (zpos _ U). pose proof (zpos (2 ^ lmax) ltac:(lia)). field. repeat split; lra. }
  unfold rectangle_of, rectangle, set_boundary_xylower. cbn [Model_Domain.p_level p_xl p_yl]. rewrite E1, E2. fold lmax.
  rewrite (pow2 (lmax - q_level q)) by lia. cbn [bind]. rewrite !(mul_ok 1) by lia. cbn [bind]. rewrite !width_ok by (assumption || lia). cbn [bind convert_brick].
  rewrite (Low (q_x q) zx) by lia. cbn [bind]. rewrite (Low (q_y q) zy) by lia. cbn [bind].
  rewrite Z.mul_1_l. unfold Model_Util.in_int.
  destruct (Z.leb_spec (- 2 ^ 31) (zx + 2 ^ (lmax - q_level q))); [|lia]. destruct (Z.ltb_spec (zx + 2 ^ (lmax - q_level q)) (2 ^ 31)); [|lia].
  destruct (Z.leb_spec (- 2 ^ 31) (zy + 2 ^ (lmax - q_level q))); [|lia]. destruct (Z.ltb_spec (zy + 2 ^ (lmax - q_level q)) (2 ^ 31)); [|lia].
  cbn [andb]. eexists. split; [reflexivity|]. unfold drawn_at. cbn [r_xlow r_xup r_ylow r_yup]. rewrite !Z.mul_add_distr_r. lia.
Qed.
Print Assumptions C72_rectangle_single.

(** The rectangles cover the picture once. *)
Theorem C72_tiles : forall rnd o vs M, accurate rnd (t_mi o) (t_mj o) -> brick_vertices (t_mi o) (t_mj o) vs -> small o ->
  mesh_ok (Z.of_nat (List.length vs)) M -> (forall b q, In (b, q) M -> fits (t_lmax o) q) ->
  let drawn k X Y := exists b q r, nth_error M k = Some (b, q) /\ rectangle_of rnd o (Some (map_new_brick vs (t_mi o) (t_mj o))) b q = Some r /\ covers r X Y in
  forall X Y, 0 <= X < t_mi o * 2 ^ t_lmax o -> 0 <= Y < t_mj o * 2 ^ t_lmax o -> exists k, drawn k X Y /\ forall k', drawn k' X Y -> k' = k.
Proof.
  intros rnd o vs M A BV Sm (MO & MT) HF drawn X Y HX HY. pose proof Sm as (S1 & S2 & S3 & S4 & S5).
  set (lmax := t_lmax o) in *. pose proof (unit_pos lmax S3) as U. pose proof (unit_root lmax S3) as UR. pose proof (Z.pow_pos_nonneg 2 lmax ltac:(lia) ltac:(lia)) as P.
  set (u := unit_len lmax) in *. set (n := 2 ^ lmax) in *.
  pose proof (Z.mod_pos_bound X n ltac:(lia)) as MX. pose proof (Z.mod_pos_bound Y n ltac:(lia)) as MY.
  pose proof (Z.div_mod X n ltac:(lia)) as DX. pose proof (Z.div_mod Y n ltac:(lia)) as DY.
  assert (QX : 0 <= X / n < t_mi o) by (split; [apply Z.div_pos; lia | apply Z.div_lt_upper_bound; lia]).
  assert (QY : 0 <= Y / n < t_mj o) by (split; [apply Z.div_pos; lia | apply Z.div_lt_upper_bound; lia]).
  assert (Iff : forall i j q r, quad_ok q -> drawn_at lmax i j q r -> covers r X Y <-> i = X / n /\ j = Y / n /\ holds q (X mod n * u) (Y mod n * u)).
  { intros i j q r (_ & A1 & A2 & A3 & A4) (D1 & D2 & D3 & D4). fold u in D1, D2, D3, D4. unfold covers, holds. rewrite UR in *.
    assert (Cm : forall a b, a <= b <-> a * u <= b * u) by (intros; apply Z.mul_le_mono_pos_r; lia).
    assert (Cl : forall a b, a < b <-> a * u < b * u) by (intros; apply Z.mul_lt_mono_pos_r; lia).
    rewrite (Cm (r_xlow r)), (Cm (r_ylow r)), (Cl X), (Cl Y), D1, D2, D3, D4.
    assert (EX : X * u = X / n * (n * u) + X mod n * u) by (rewrite DX at 1; ring). assert (EY : Y * u = Y / n * (n * u) + Y mod n * u) by (rewrite DY at 1; ring).
    assert (BX : 0 <= X mod n * u < n * u) by nia. assert (BY : 0 <= Y mod n * u < n * u) by nia.
    split.
    - intros ((B1 & B2) & (B3 & B4)).
      assert (i = X / n) by (assert (i * (n * u) + 0 <= X * u < i * (n * u) + n * u) by lia; assert (0 < n * u) by nia; nia).
      assert (j = Y / n) by (assert (j * (n * u) + 0 <= Y * u < j * (n * u) + n * u) by lia; assert (0 < n * u) by nia; nia). subst i j. lia.
    - intros (-> & -> & B1 & B2). lia. }
  destruct (pos_ex _ _ vs BV (X / n) (Y / n) QX QY) as (b & HP).
  assert (Bb : 0 <= b < Z.of_nat (List.length vs)). { destruct HP as (B & E). assert (Z.to_nat b < List.length vs)%nat by (apply nth_error_Some; congruence). lia. }
  destruct (MT b (X mod n * u) (Y mod n * u) Bb ltac:(rewrite UR; nia) ltac:(rewrite UR; nia)) as (k & (q & Nk & Hold) & Uk).
  assert (Hin : In (b, q) M) by (eapply nth_error_In; exact Nk).
  destruct (C72_rectangle rnd o vs A BV Sm b _ _ q HP (HF b q Hin)) as (r & Rr & Dr).
  exists k. split.
  - exists b, q, r. split; [exact Nk|]. split; [exact Rr|]. apply (Iff _ _ q r (proj2 (MO b q Hin)) Dr). auto.
  - intros k' (b' & q' & r' & Nk' & Rr' & Cv). assert (Hin' : In (b', q') M) by (eapply nth_error_In; exact Nk').
    destruct (pos_of _ _ vs BV b' (proj1 (MO b' q' Hin'))) as (i' & j' & HP').
    destruct (C72_rectangle rnd o vs A BV Sm b' _ _ q' HP' (HF b' q' Hin')) as (r'' & Rr'' & Dr'). rewrite Rr' in Rr''. injection Rr'' as <-.
    apply (Iff _ _ q' r' (proj2 (MO b' q' Hin')) Dr') in Cv. destruct Cv as (-> & -> & Hold').
    assert (b' = b) by (eapply (pos_inj _ _ vs BV); eassumption). subst b'. eapply Uk; eassumption.
Qed.
Print Assumptions C72_tiles.

(** In double precision the rectangle can be wrong: with five blocks in a row, the fourth is drawn on the third. *)
Definition five : list (Q * Q) := map (fun p => (inject_Z (fst p), inject_Z (snd p))) [(0, 0); (1, 0); (2, 0); (3, 0); (4, 0)].
Definition five_opts : topts := mkT 5 1 0.
Theorem C72_rectangle_refuted :
  brick_vertices 5 1 five /\ small five_opts /\ fits 0 whole /\ position five 3 3 0 /\
  exists r, rectangle_of nearest64 five_opts (Some (map_new_brick five 5 1)) 3 whole = Some r /\ ~ drawn_at 0 3 0 whole r /\
    rectangle_of nearest64 five_opts (Some (map_new_brick five 5 1)) 2 whole = Some r.
Proof.
  split.
  { split; [lia|]. split; [lia|]. exists [(0, 0); (1, 0); (2, 0); (3, 0); (4, 0)]. split; [reflexivity|]. split.
    - repeat constructor; cbn; intuition discriminate.
    - intros i j. cbn [In]. split.
      + intros H. repeat destruct H as [H | H]; try (injection H as <- <-; lia). contradiction.
      + intros (Hi & Hj). assert (j = 0) by lia. assert (i = 0 \/ i = 1 \/ i = 2 \/ i = 3 \/ i = 4) as X by lia. subst j. intuition (subst; auto 10). }
  split; [unfold small; cbn; lia|]. split; [split; [vm_compute; repeat split; discriminate|]; split; [cbn; lia|]; split; exists 0; reflexivity|].
  split; [split; [lia | reflexivity]|].
  exists (mkR 2 0 3 1). split; [vm_compute; reflexivity|]. split; [|vm_compute; reflexivity].
  intros (D & _). vm_compute in D. discriminate D.
Qed.
Print Assumptions C72_rectangle_refuted.

(** ** The file *)
(** Nothing is lost or duplicated: the file is the header, the texts of the processes, possibly interleaved, and the
    footer; and the processes always get there. *)
Theorem C72_complete : forall spill size header footer records w, sound spill ->
  tsteps spill size footer (tstart header records) w ->
  (finished w -> exists body, tw_file w = header ++ body ++ footer /\ made_of size (fun p => concat (records p)) body)%list /\
  (finished w \/ exists w', tstep spill size footer w w').
Proof.
  intros spill size header footer records w So H. split.
  - intro F. exact (whole_file spill size header footer records So w H F).
  - exact (progress spill size header footer records So w H).
Qed.
Print Assumptions C72_complete.

(** On one process the patches are printed in order. *)
Theorem C72_one_process : forall spill header footer records w, sound spill ->
  tsteps spill 1 footer (tstart header records) w -> finished w -> (tw_file w = header ++ concat (records 0%nat) ++ footer)%list.
Proof.
  intros spill header footer records w So H F. destruct (whole_file spill 1 header footer records So w H F) as (body & E & pieces & B & R & T).
  rewrite E, B. f_equal. f_equal. pose proof (T 0%nat ltac:(lia)) as T0. unfold text in T0. rewrite <- T0. f_equal. f_equal. clear -R.
  induction pieces as [|x l IH]; [reflexivity|]. inversion R; subst. cbn [filter]. destruct (Nat.eqb_spec (fst x) 0); [|lia]. now rewrite <- IH.
Qed.
Print Assumptions C72_one_process.

(** If what a process prints is shorter than its buffer, the text of each process is in one piece, though the processes
    need not come in order. *)
Theorem C72_short : forall cap size header footer records w, (forall p, (p < size)%nat -> (List.length (concat (records p)) < cap)%nat) ->
  tsteps (full_blocks cap) size footer (tstart header records) w -> finished w ->
  exists order, Permutation order (seq 0 size) /\ (tw_file w = header ++ concat (map (fun p => concat (records p)) order) ++ footer)%list.
Proof.
  intros cap size header footer records w Hs H F. apply (held (full_blocks cap) size header footer records (blocks_sound cap)); try assumption.
  intros p r rs done Hp E. apply blocks_keep. specialize (Hs p Hp). rewrite E, concat_app in Hs. cbn [concat] in Hs. rewrite !app_length in *. lia.
Qed.
Print Assumptions C72_short.

(** The serialized section does not order the file, and cuts the text of a process anywhere: whatever two processes print,
    process 1 less than a buffer, there is a run after which the text of process 1 stands behind the last full buffer
    of process 0, in the middle of a patch or not. *)
Theorem C72_order_refuted : forall cap header footer r0 r1, (1 <= cap)%nat -> (List.length (concat r1) < cap)%nat ->
  let records := fun p => match p with 0%nat => r0 | 1%nat => r1 | _ => [] end in
  let k := (cap * (List.length (concat r0) / cap))%nat in
  exists w, tsteps (full_blocks cap) 2 footer (tstart header records) w /\ finished w /\
    (tw_file w = header ++ firstn k (concat r0) ++ concat r1 ++ skipn k (concat r0) ++ footer)%list.
Proof.
  intros cap header footer r0 r1 Hc Hs records k. set (w0 := tstart header records).
  destruct (blocks_run cap 2 footer w0 r0 Hc ltac:(cbn; lia) eq_refl ltac:(cbn; lia)) as (w1 & R1 & T1 & E1 & B1 & F1 & O1 & C1 & N1).
  cbn [w0 tw_turn tw_buf tstart app tw_file tw_closed tw_end] in *.
  pose proof (R1 w0 (t_none _ _ _ w0)) as S1. clear R1.
  pose proof (t_leave (full_blocks cap) 2 footer w1 ltac:(rewrite T1; lia) ltac:(rewrite T1; exact E1)) as S2. match type of S2 with tstep _ _ _ _ ?x => set (w2 := x) in S2 end.
  destruct (O1 1%nat ltac:(lia)) as (P1 & P2).
  destruct (blocks_run cap 2 footer w2 r1 Hc ltac:(unfold w2; cbn; rewrite T1; lia) ltac:(unfold w2; cbn [tw_rest tw_turn]; rewrite T1, P1; reflexivity) ltac:(unfold w2; cbn [tw_buf tw_turn]; rewrite T1, P2; cbn; lia)) as (w3 & R3 & T3 & E3 & B3 & F3 & O3 & C3 & N3).
  unfold w2 in T3, E3, B3, F3, O3, C3, N3. cbn [tw_turn tw_rest tw_buf tw_closed tw_end tw_file] in *. rewrite T1 in *. rewrite P2 in *. cbn [app] in *.
  pose proof (R3 w0 (t_more _ _ _ _ _ _ S1 S2)) as S3. clear R3.
  pose proof (t_leave (full_blocks cap) 2 footer w3 ltac:(rewrite T3; lia) ltac:(rewrite T3; exact E3)) as S4. match type of S4 with tstep _ _ _ _ ?x => set (w4 := x) in S4 end.
  assert (K1 : fst ((full_blocks cap) (concat r1)) = [] /\ snd ((full_blocks cap) (concat r1)) = concat r1).
  { pose proof (blocks_keep cap (concat r1) Hs) as K. split; [exact K|]. pose proof (blocks_sound cap (concat r1)) as So. rewrite K in So. exact So. }
  destruct K1 as (K1 & K2). rewrite K1, app_nil_r in F3. rewrite K2 in B3.
  destruct (O3 0%nat ltac:(lia)) as (_ & P3). rewrite B1 in P3.
  pose proof (t_close (full_blocks cap) 2 footer w4 1 ltac:(lia) ltac:(unfold w4; cbn; rewrite T3; lia) ltac:(unfold w4; cbn [tw_closed]; rewrite C3, C1; reflexivity)) as S5. match type of S5 with tstep _ _ _ _ ?x => set (w5 := x) in S5 end.
  pose proof (t_close (full_blocks cap) 2 footer w5 0 ltac:(lia) ltac:(unfold w5, w4; cbn; rewrite T3; lia) ltac:(unfold w5, w4; cbn [tw_closed]; rewrite set_other by lia; rewrite C3, C1; reflexivity)) as S6. match type of S6 with tstep _ _ _ _ ?x => set (w6 := x) in S6 end.
  assert (AC : forall p, (p < 2)%nat -> tw_closed w6 p = true).
  { intros p Hp. unfold w6, w5. cbn [tw_closed]. destruct (Nat.eq_dec p 0) as [->|]; [apply set_same|]. rewrite set_other by assumption. assert (p = 1%nat) by lia. subst p. apply set_same. }
  pose proof (t_end (full_blocks cap) 2 footer w6 AC ltac:(unfold w6, w5, w4; cbn [tw_end]; rewrite N3, N1; reflexivity)) as S7. match type of S7 with tstep _ _ _ _ ?x => set (w7 := x) in S7 end.
  exists w7. split; [|split; [reflexivity|]].
  - eapply t_more; [eapply t_more; [eapply t_more; [eapply t_more; [exact S3 | exact S4] | exact S5] | exact S6] | exact S7].
  - unfold w7, w6, w5, w4. cbn [tw_file tw_buf]. rewrite set_other by lia. rewrite F3, B3, P3, F1. unfold full_blocks. cbn [fst snd]. fold k. rewrite <- !app_assoc. reflexivity.
Qed.
Print Assumptions C72_order_refuted.

(** For example a patch of process 0, printed over the boundary of a buffer, has a patch of process 1 in the middle of
    its numbers. *)
Definition txt (s : string) : bytes := list_ascii_of_string s.
Definition rec0 : string := record 0 0 0 (mkR 0 0 1 1).
Definition rec1 : string := record 0 1 1 (mkR 1 0 2 1).
Theorem C72_record_refuted : exists cap w, (List.length (txt rec1) < cap)%nat /\
  tsteps (full_blocks cap) 2 [] (tstart [] (fun p => match p with 0%nat => [txt rec0; txt rec0] | 1%nat => [txt rec1] | _ => [] end)) w /\ finished w /\
  forall l, (forall r, In r l -> r = txt rec0 \/ r = txt rec1) -> tw_file w <> concat l.
Proof.
  exists 150%nat. destruct (C72_order_refuted 150 [] [] [txt rec0; txt rec0] [txt rec1] ltac:(lia) ltac:(vm_compute; lia)) as (w & S & F & E).
  exists w. split; [vm_compute; lia|]. split; [exact S|]. split; [exact F|]. rewrite E. clear.
  intros l Hl Eq. cbn [app] in Eq. rewrite app_nil_r in Eq.
  assert (Ln : forall r, In r l -> List.length r = List.length (txt rec0)) by (intros r Hr; destruct (Hl r Hr) as [-> | ->]; vm_compute; reflexivity).
  assert (LC : List.length (concat l) = (List.length l * List.length (txt rec0))%nat).
  { clear -Ln. induction l as [|a l IH]; [reflexivity|]. cbn [concat List.length]. rewrite app_length, IH by (intros r Hr; apply Ln; now right). rewrite (Ln a) by now left. lia. }
  rewrite <- Eq in LC. vm_compute in LC.
  destruct l as [|a [|b [|c [|d l]]]]; try (vm_compute in LC; discriminate LC).
  - destruct (Hl a) as [-> | ->]; [now left|..]; destruct (Hl b) as [-> | ->]; try (right; now left); destruct (Hl c) as [-> | ->]; try (right; right; now left); vm_compute in Eq; discriminate Eq.
Qed.
Print Assumptions C72_record_refuted.

(** ** The hypotheses are met *)
Example C72_instance : accurate exact 2 1 /\ accurate chop 2 1 /\ small (mkT 2 1 3) /\ (forall b q, In (b, q) ex_mesh -> fits 3 q) /\
  rectangle_of exact (mkT 2 1 3) (Some (map_new_brick ex_vertices 2 1)) 1 (mkQuad 1 half 0 0) = Some (mkR 12 0 16 4) /\
  sound (full_blocks 4096) /\ sound (fun b => (b, [])) /\
  rec0 = ("    \ifthenelse{\level = 0}
    {
        % Patch number 0; rank = 0
        \draw [ultra thin] (0,0) rectangle (1,1);
    }{}

")%string.
Proof.
  destruct C71_instance_chop as (R & M & _).
  assert (P : exists a b, 0 <= a <= 22 /\ 0 <= b <= 22 /\ 2 = 2 ^ a /\ 1 = 2 ^ b) by (exists 1, 0; repeat split; lia).
  split; [left; reflexivity|]. split; [right; auto|]. split; [unfold small; cbn; lia|]. split.
  - intros b q H. split; [apply (proj1 ex_ok b q H)|]. unfold ex_mesh in H. cbn [In] in H.
    destruct H as [H | [H | [H | [H | [H | []]]]]]; injection H as <- <-; (split; [cbn; lia|]); (split; [apply Z.mod_divide; [discriminate | reflexivity] | apply Z.mod_divide; [discriminate | reflexivity]]).
  - split; [vm_compute; reflexivity|]. split; [apply blocks_sound|]. split; [intro b; cbn; apply app_nil_r | vm_compute; reflexivity].
Qed.
