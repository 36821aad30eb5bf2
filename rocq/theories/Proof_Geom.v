(** Grids of patches: lemmas. *)
From Coq Require Import ZArith QArith Qround Qfield List Bool Lia Lqa.
From Verif Require Import Base_Float Model_Face Model_Domain Model_Search Model_Brick Spec_Brick Model_Geom Spec_Geom.
Import ListNotations.
Open Scope Z_scope.

Lemma zpos : forall m, 1 <= m -> (0 < inject_Z m)%Q.
Proof. intros m H. change 0%Q with (inject_Z 0). rewrite <- Zlt_Qlt. lia. Qed.
Lemma root_pos : 1 <= root.
Proof. vm_compute. discriminate. Qed.
Lemma side_pos : forall q, quad_ok q -> 1 <= side q.
Proof. intros q (L & _). unfold side, quadrant_len, maxlevel_of. pose proof (Z.pow_pos_nonneg 2 (30 - q_level q) ltac:(lia) ltac:(lia)). lia. Qed.
Lemma floor_le : forall n x, (inject_Z n <= x)%Q <-> n <= Qfloor x.
Proof.
  intros n x. split; intro H.
  - rewrite <- (Qfloor_Z n). now apply Qfloor_resp_le.
  - apply Qle_trans with (inject_Z (Qfloor x)); [rewrite <- Zle_Qle; exact H | apply Qfloor_le].
Qed.
Lemma floor_lt : forall n x, (x < inject_Z n)%Q <-> Qfloor x < n.
Proof.
  intros n x. destruct (Z.lt_ge_cases (Qfloor x) n) as [A | A].
  - split; [tauto|]. intros _. apply Qnot_le_lt. intro C. apply floor_le in C. lia.
  - split; [|lia]. intro H. exfalso. assert (inject_Z n <= x)%Q by (apply floor_le; lia). lra.
Qed.

(** the position of an edge *)
Definition edge (a b : Q) (mi I c : Z) : Q := (a + (b - a) * ((inject_Z I + inject_Z c / inject_Z root) / inject_Z mi))%Q.
Definition scaled (a b : Q) (mi : Z) (x : Q) : Q := ((x - a) / (b - a) * inject_Z mi * inject_Z root)%Q.
Lemma scaled_le : forall a b mi u v, (a < b)%Q -> 1 <= mi -> (u <= v)%Q <-> (scaled a b mi u <= scaled a b mi v)%Q.
Proof.
  intros a b mi u v H M. pose proof (zpos mi M) as P1. pose proof (zpos root root_pos) as P2.
  assert (W : (0 < b - a)%Q) by lra. assert (IW : (0 < / (b - a))%Q) by (apply Qinv_lt_0_compat; exact W).
  unfold scaled, Qdiv. set (s := (/ (b - a) * inject_Z mi * inject_Z root)%Q).
  assert (S : (0 < s)%Q) by (unfold s; apply Qmult_lt_0_compat; [apply Qmult_lt_0_compat|]; assumption).
  assert (E1 : ((u - a) * / (b - a) * inject_Z mi * inject_Z root == (u - a) * s)%Q) by (unfold s; ring).
  assert (E2 : ((v - a) * / (b - a) * inject_Z mi * inject_Z root == (v - a) * s)%Q) by (unfold s; ring).
  rewrite E1, E2, Qmult_le_r by exact S. split; lra.
Qed.
Lemma scaled_edge : forall a b mi I c, (a < b)%Q -> 1 <= mi -> (scaled a b mi (edge a b mi I c) == inject_Z (I * root + c))%Q.
Proof.
  intros a b mi I c H M. pose proof (zpos mi M). pose proof (zpos root root_pos). unfold scaled, edge. rewrite inject_Z_plus, inject_Z_mult. field. repeat split; lra.
Qed.
Lemma edge_le : forall a b mi I c x, (a < b)%Q -> 1 <= mi -> (edge a b mi I c <= x)%Q <-> I * root + c <= Qfloor (scaled a b mi x).
Proof. intros a b mi I c x H M. rewrite (scaled_le a b mi _ _ H M), scaled_edge, floor_le by assumption. reflexivity. Qed.
Lemma edge_gt : forall a b mi I c x, (a < b)%Q -> 1 <= mi -> (x < edge a b mi I c)%Q <-> Qfloor (scaled a b mi x) < I * root + c.
Proof.
  intros a b mi I c x H M. pose proof (edge_le a b mi I c x H M) as E. destruct (Qlt_le_dec x (edge a b mi I c)) as [A | A].
  - split; [|tauto]. intros _. assert (~ (edge a b mi I c <= x)%Q) by lra. rewrite E in H0. lia.
  - split; [intro; lra|]. apply E in A. lia.
Qed.
(** the coordinates in range *)
Lemma scaled_range : forall a b mi x, (a < b)%Q -> 1 <= mi -> (a <= x)%Q -> (x < b)%Q -> 0 <= Qfloor (scaled a b mi x) < mi * root.
Proof.
  intros a b mi x H M A B. pose proof (zpos mi M). pose proof (zpos root root_pos).
  assert (E0 : (edge a b mi 0 0 == a)%Q) by (unfold edge; change (inject_Z 0) with 0%Q; field; split; lra).
  assert (E1 : (edge a b mi mi 0 == b)%Q) by (unfold edge; change (inject_Z 0) with 0%Q; field; split; lra).
  split.
  - assert (X : (edge a b mi 0 0 <= x)%Q) by (rewrite E0; exact A). apply edge_le in X; [lia | assumption | assumption].
  - assert (X : (x < edge a b mi mi 0)%Q) by (rewrite E1; exact B). apply edge_gt in X; [lia | assumption | assumption].
Qed.

(** cells in one direction *)
Lemma cell_ex : forall xl xu dx mx x, 1 <= mx -> (dx == (xu - xl) / inject_Z mx)%Q -> (xl <= x)%Q -> (x < xu)%Q ->
  exists i, 1 <= i <= mx /\ (xl + inject_Z (i - 1) * dx <= x /\ x < xl + inject_Z i * dx)%Q.
Proof.
  intros xl xu dx mx x M D A B. pose proof (zpos mx M) as P.
  assert (X : (inject_Z mx * dx == xu - xl)%Q) by (rewrite D; field; lra).
  assert (Dp : (0 < dx)%Q). { apply Qnot_le_lt. intro C. assert (inject_Z mx * dx <= 0)%Q by nra. lra. }
  exists (Qfloor ((x - xl) / dx) + 1).
  set (f := Qfloor ((x - xl) / dx)).
  assert (F1 : (inject_Z f <= (x - xl) / dx)%Q) by apply Qfloor_le.
  assert (F2 : ((x - xl) / dx < inject_Z (f + 1))%Q) by apply Qlt_floor.
  assert (Q1 : (x - xl == (x - xl) / dx * dx)%Q) by (field; lra).
  assert (G1 : (inject_Z f * dx <= x - xl)%Q) by (rewrite Q1; apply Qmult_le_compat_r; lra).
  assert (G2 : (x - xl < inject_Z (f + 1) * dx)%Q) by (rewrite Q1; apply Qmult_lt_r; lra).
  split.
  - split.
    + assert (0 <= f); [|lia]. unfold f. apply floor_le. change (inject_Z 0) with 0%Q. apply Qle_shift_div_l; lra.
    + assert (f < mx); [|lia]. unfold f. apply floor_lt. apply Qlt_shift_div_r; [exact Dp|]. rewrite X. lra.
  - replace (f + 1 - 1) with f by lia. lra.
Qed.
Lemma cell_in : forall xl xu dx mx x i, 1 <= mx -> (dx == (xu - xl) / inject_Z mx)%Q -> (xl < xu)%Q -> 1 <= i <= mx ->
  (xl + inject_Z (i - 1) * dx <= x)%Q -> (x < xl + inject_Z i * dx)%Q -> (xl <= x /\ x < xu)%Q.
Proof.
  intros xl xu dx mx x i M D W Hi A B. pose proof (zpos mx M) as P.
  assert (X : (inject_Z mx * dx == xu - xl)%Q) by (rewrite D; field; lra).
  assert (Dp : (0 < dx)%Q). { apply Qnot_le_lt. intro C. assert (inject_Z mx * dx <= 0)%Q by nra. lra. }
  assert (I0 : (0 <= inject_Z (i - 1))%Q) by (change 0%Q with (inject_Z 0); rewrite <- Zle_Qle; lia).
  assert (I1 : (inject_Z i <= inject_Z mx)%Q) by (rewrite <- Zle_Qle; lia). split; nra.
Qed.
Lemma cell_unique : forall xl dx x i i', (0 < dx)%Q ->
  (xl + inject_Z (i - 1) * dx <= x)%Q -> (x < xl + inject_Z i * dx)%Q -> (xl + inject_Z (i' - 1) * dx <= x)%Q -> (x < xl + inject_Z i' * dx)%Q -> i = i'.
Proof.
  intros xl dx x i i' D A B A' B'.
  assert (L : forall n m, (inject_Z n * dx < inject_Z m * dx)%Q -> n < m) by (intros n m H; apply Qmult_lt_r in H; [|exact D]; rewrite <- Zlt_Qlt in H; exact H).
  assert (i - 1 < i') by (apply L; lra). assert (i' - 1 < i) by (apply L; lra). lia.
Qed.

(** ** The general tiling *)
Definition geom_at (o : gopts) (ax bx ay by_ : Q) (mi mj I J : Z) (q : quad) (g : geom) : Prop :=
  (c_xlower g == edge ax bx mi I (q_x q))%Q /\ (c_xupper g == edge ax bx mi I (q_x q + side q))%Q /\
  (c_ylower g == edge ay by_ mj J (q_y q))%Q /\ (c_yupper g == edge ay by_ mj J (q_y q + side q))%Q /\
  (c_dx g == (c_xupper g - c_xlower g) / inject_Z (o_mx o))%Q /\ (c_dy g == (c_yupper g - c_ylower g) / inject_Z (o_my o))%Q.

Section Tile.
  Variables (o : gopts) (ax bx ay by_ : Q) (mi mj : Z) (grid : Z -> quad -> option geom) (P : Z -> Z -> Z -> Prop) (M : mesh).
  Hypothesis Hx : (ax < bx)%Q.
  Hypothesis Hy : (ay < by_)%Q.
  Hypothesis Hm : 1 <= o_mx o /\ 1 <= o_my o /\ 1 <= mi /\ 1 <= mj.
  Hypothesis Pex : forall I J, 0 <= I < mi -> 0 <= J < mj -> exists b, P b I J.
  Hypothesis Pinj : forall b b' I J, P b I J -> P b' I J -> b = b'.
  Hypothesis Pfun : forall b q, In (b, q) M -> exists I J, P b I J /\ 0 <= I < mi /\ 0 <= J < mj.
  Hypothesis Hq : forall b q, In (b, q) M -> quad_ok q.
  Hypothesis Hgrid : forall b q I J, In (b, q) M -> P b I J -> exists g, grid b q = Some g /\ geom_at o ax bx ay by_ mi mj I J q g.
  Hypothesis Htile : forall b I J X Y, P b I J -> 0 <= X < root -> 0 <= Y < root ->
     exists k, (exists q, nth_error M k = Some (b, q) /\ holds q X Y) /\ forall k' q', nth_error M k' = Some (b, q') -> holds q' X Y -> k' = k.

  Lemma tile : forall x y, (ax <= x)%Q -> (x < bx)%Q -> (ay <= y)%Q -> (y < by_)%Q -> exactly_one (cell_at grid o M x y).
  Proof.
    intros x y X0 X1 Y0 Y1. destruct Hm as (Mx & My & Mi & Mj). pose proof root_pos as Rp.
    set (X := Qfloor (scaled ax bx mi x)). set (Y := Qfloor (scaled ay by_ mj y)).
    assert (RX : 0 <= X < mi * root) by (apply scaled_range; assumption). assert (RY : 0 <= Y < mj * root) by (apply scaled_range; assumption).
    pose proof (Z.mod_pos_bound X root ltac:(lia)) as MX. pose proof (Z.mod_pos_bound Y root ltac:(lia)) as MY.
    pose proof (Z.div_mod X root ltac:(lia)) as DX. pose proof (Z.div_mod Y root ltac:(lia)) as DY.
    assert (QX : 0 <= X / root < mi) by (split; [apply Z.div_pos; lia | apply Z.div_lt_upper_bound; lia]).
    assert (QY : 0 <= Y / root < mj) by (split; [apply Z.div_pos; lia | apply Z.div_lt_upper_bound; lia]).
    (* a patch of a block at (I, J) has the point iff it holds the scaled point *)
    assert (Iff : forall b q I J g, In (b, q) M -> P b I J -> 0 <= I < mi -> 0 <= J < mj -> geom_at o ax bx ay by_ mi mj I J q g ->
      ((c_xlower g <= x /\ x < c_xupper g) /\ (c_ylower g <= y /\ y < c_yupper g))%Q <-> I = X / root /\ J = Y / root /\ holds q (X mod root) (Y mod root)).
    { intros b q I J g Hin HP HI HJ (G1 & G2 & G3 & G4 & _). rewrite G1, G2, G3, G4.
      rewrite !(edge_le ax bx), !(edge_gt ax bx), !(edge_le ay by_), !(edge_gt ay by_) by assumption. fold X. fold Y.
      destruct (Hq b q Hin) as (_ & A1 & A2 & A3 & A4). unfold holds. split.
      - intros ((B1 & B2) & (B3 & B4)).
        assert (EI : I = X / root) by (apply Z.div_unique_pos with (r := X - I * root); lia).
        assert (EJ : J = Y / root) by (apply Z.div_unique_pos with (r := Y - J * root); lia). subst I J. lia.
      - intros (-> & -> & B1 & B2). lia. }
    destruct (Pex (X / root) (Y / root) QX QY) as (b & HP).
    destruct (Htile b _ _ (X mod root) (Y mod root) HP MX MY) as (k & (q & Nk & Hold) & Uk).
    assert (Hin : In (b, q) M) by (eapply nth_error_In; exact Nk).
    destruct (Hgrid b q _ _ Hin HP) as (g & Gr & GA).
    assert (Box : ((c_xlower g <= x /\ x < c_xupper g) /\ (c_ylower g <= y /\ y < c_yupper g))%Q) by (apply (Iff b q _ _ g Hin HP QX QY GA); tauto).
    destruct GA as (G1 & G2 & G3 & G4 & G5 & G6).
    destruct (cell_ex (c_xlower g) (c_xupper g) (c_dx g) (o_mx o) x Mx G5 (proj1 (proj1 Box)) (proj2 (proj1 Box))) as (i & Hi & Ci).
    destruct (cell_ex (c_ylower g) (c_yupper g) (c_dy g) (o_my o) y My G6 (proj1 (proj2 Box)) (proj2 (proj2 Box))) as (j & Hj & Cj).
    exists k, i, j. split; [exists b, q, g; unfold in_cell; tauto|].
    intros k' i' j' (b' & q' & g' & Nk' & Gr' & Hi' & Hj' & Cx' & Cy').
    assert (Hin' : In (b', q') M) by (eapply nth_error_In; exact Nk').
    destruct (Pfun b' q' Hin') as (I' & J' & HP' & HI' & HJ').
    destruct (Hgrid b' q' _ _ Hin' HP') as (g'' & Gr'' & GA'). rewrite Gr' in Gr''. injection Gr'' as <-.
    pose proof GA' as (H1 & H2 & H3 & H4 & H5 & H6).
    assert (Wx : (c_xlower g' < c_xupper g')%Q).
    { apply Qnot_le_lt. rewrite H1, H2. intro C. apply edge_le in C; try assumption.
      assert (E : Qfloor (scaled ax bx mi (edge ax bx mi I' (q_x q'))) = I' * root + q_x q') by (rewrite (Qfloor_comp _ _ (scaled_edge ax bx mi I' (q_x q') Hx Mi)); apply Qfloor_Z).
      pose proof (side_pos q' (Hq b' q' Hin')). lia. }
    assert (Wy : (c_ylower g' < c_yupper g')%Q).
    { apply Qnot_le_lt. rewrite H3, H4. intro C. apply edge_le in C; try assumption.
      assert (E : Qfloor (scaled ay by_ mj (edge ay by_ mj J' (q_y q'))) = J' * root + q_y q') by (rewrite (Qfloor_comp _ _ (scaled_edge ay by_ mj J' (q_y q') Hy Mj)); apply Qfloor_Z).
      pose proof (side_pos q' (Hq b' q' Hin')). lia. }
    assert (Box' : ((c_xlower g' <= x /\ x < c_xupper g') /\ (c_ylower g' <= y /\ y < c_yupper g'))%Q).
    { split; [apply (cell_in _ _ (c_dx g') (o_mx o) x i'); tauto | apply (cell_in _ _ (c_dy g') (o_my o) y j'); tauto]. }
    apply (Iff b' q' I' J' g' Hin' HP' HI' HJ' GA') in Box'. destruct Box' as (EI & EJ & Hold'). subst I' J'.
    assert (b' = b) by (eapply Pinj; eassumption). subst b'.
    assert (k' = k) by (eapply Uk; eassumption). subst k'. rewrite Nk in Nk'. injection Nk' as <-. rewrite Gr in Gr'. injection Gr' as <-.
    assert (Dx : (0 < c_dx g)%Q) by (rewrite H5; apply Qlt_shift_div_l; [now apply zpos | lra]).
    assert (Dy : (0 < c_dy g)%Q) by (rewrite H6; apply Qlt_shift_div_l; [now apply zpos | lra]).
    split; [reflexivity|]. split; [apply (cell_unique (c_xlower g) (c_dx g) x); tauto | apply (cell_unique (c_ylower g) (c_dy g) y); tauto].
  Qed.
End Tile.

(** ** The grids are of this form *)
Lemma coord_exact : forall z, (coord exact D2 z == inject_Z z / inject_Z root)%Q.
Proof. intro z. unfold coord, smallest_h, fmul, dbl, exact. fold root. pose proof (zpos root root_pos). field. lra. Qed.
Lemma widths_some : forall rnd o xl xu yl yu, 1 <= o_mx o -> 1 <= o_my o ->
  widths rnd o xl xu yl yu = Some (mkG xl xu yl yu (rnd (rnd (xu - xl) / inject_Z (o_mx o))%Q) (rnd (rnd (yu - yl) / inject_Z (o_my o))%Q)).
Proof. intros. unfold widths. destruct (Z.eqb_spec (o_mx o) 0); [lia|]. destruct (Z.eqb_spec (o_my o) 0); [lia|]. reflexivity. Qed.
