(** Lemmas about the numbering of patches, sizes and offsets. *)
From Coq Require Import ZArith List Bool Lia.
From Verif Require Import Base_Mem Model_Mesh Proof_Mesh Model_Vtk Spec_Vtk Proof_Vtk1.
Import ListNotations.
Open Scope Z_scope.

(** *** Patches of a process *)
Definition sum_num (l : list (Z * Z)) : Z := fold_right (fun x a => fst x + a) 0 l.
Lemma sum_num_pos : forall l c, counts_ok c l -> 0 <= sum_num l.
Proof. induction l as [|[num bef] l IH]; intros c H; [cbn; lia|]. destruct H as (H1 & H2 & H3). specialize (IH _ H3). cbn [sum_num fold_right fst]. fold (sum_num l). lia. Qed.
Lemma from_get : forall l b0 c t b n, counts_ok c l -> zget (patches_from b0 l) t = Some (b, n) ->
  exists num, zget l (b - b0) = Some (num, c + t - n) /\ 0 <= n < num.
Proof.
  induction l as [|[num bef] l IH]; intros b0 c t b n HC H.
  - cbn [patches_from] in H. apply zget_dom in H. cbn in H. lia.
  - destruct HC as (H1 & H2 & H3). cbn [patches_from] in H. pose proof (zget_dom _ _ _ H) as D.
    assert (L : len (map (fun n => (b0, n)) (zrange 0 num)) = num) by (rewrite map_length, range_len by lia; lia).
    destruct (Z_lt_ge_dec t num) as [Ht|Ht].
    + rewrite zget_app1 in H by lia. rewrite zget_map, zget_range in H by lia. cbn [option_map] in H. injection H as <- <-.
      exists num. rewrite zget_cons, Z.sub_diag, Z.eqb_refl. split; [f_equal; f_equal; lia|lia].
    + rewrite zget_app2 in H by lia. rewrite L in H. destruct (IH _ _ _ _ _ H3 H) as (num' & E & Hn). exists num'. split; [|exact Hn].
      pose proof (zget_dom _ _ _ E). rewrite zget_cons. destruct (Z.eqb_spec (b - b0) 0); [lia|]. replace (b - b0 - 1) with (b - (b0 + 1)) by lia. rewrite E. f_equal. f_equal. lia.
Qed.
Lemma get_from : forall l b0 c b num bef n, counts_ok c l -> zget l (b - b0) = Some (num, bef) -> 0 <= n < num ->
  zget (patches_from b0 l) (bef - c + n) = Some (b, n) /\ c <= bef /\ bef + num <= c + sum_num l.
Proof.
  induction l as [|[num0 bef0] l IH]; intros b0 c b num bef n HC H Hn.
  - apply zget_dom in H. cbn in H. lia.
  - destruct HC as (H1 & H2 & H3). cbn [patches_from]. assert (L : len (map (fun n => (b0, n)) (zrange 0 num0)) = num0) by (rewrite map_length, range_len by lia; lia).
    pose proof (sum_num_pos _ _ H3). cbn [sum_num fold_right fst]. fold (sum_num l).
    pose proof (zget_dom _ _ _ H) as D. rewrite zget_cons in H. destruct (Z.eqb_spec (b - b0) 0).
    + injection H as -> ->. assert (b = b0) by lia. subst b bef. rewrite zget_app1 by lia. rewrite zget_map, zget_range by lia. cbn [option_map]. split; [f_equal; f_equal; lia|lia].
    + replace (b - b0 - 1) with (b - (b0 + 1)) in H by lia. destruct (IH _ _ _ _ _ n H3 H Hn) as (E & B1 & B2). split; [|lia].
      rewrite zget_app2 by lia. rewrite L. rewrite <- E. f_equal. lia.
Qed.
Lemma from_len : forall l b0 c, counts_ok c l -> len (patches_from b0 l) = sum_num l.
Proof.
  induction l as [|[num bef] l IH]; intros b0 c H; [reflexivity|]. destruct H as (H1 & H2 & H3). cbn [patches_from sum_num fold_right fst]. fold (sum_num l).
  rewrite app_length, map_length, Nat2Z.inj_add, (IH _ _ H3), range_len by lia. lia.
Qed.

(** *** Patches of all processes *)
Definition sum_dom (l : list dom) : Z := fold_right (fun D a => local_num D + a) 0 l.
Lemma local_num_pos : forall D, counts_ok 0 (blocks D) -> 0 <= local_num D.
Proof. intros D H. exact (sum_num_pos _ _ H). Qed.
Lemma sum_dom_pos : forall Ds r b, ranks_ok r b Ds -> 0 <= sum_dom Ds.
Proof.
  induction Ds as [|D Ds IH]; intros r b H; [cbn; lia|]. destruct H as (_ & _ & H1 & H2). specialize (IH _ _ H2). pose proof (local_num_pos D H1).
  cbn [sum_dom fold_right]. fold (sum_dom Ds). lia.
Qed.
Lemma rank_get : forall Ds r0 b0 r D, ranks_ok r0 b0 Ds -> zget Ds (r - r0) = Some D ->
  mpirank D = r /\ counts_ok 0 (blocks D) /\ b0 <= global_num_patches_before D /\ global_num_patches_before D + local_num D <= b0 + sum_dom Ds.
Proof.
  induction Ds as [|D0 Ds IH]; intros r0 b0 r D H E; [apply zget_dom in E; cbn in E; lia|]. pose proof (zget_dom _ _ _ E) as X. destruct H as (H1 & H2 & H3 & H4).
  pose proof (sum_dom_pos _ _ _ H4). pose proof (local_num_pos D0 H3). cbn [sum_dom fold_right]. fold (sum_dom Ds). rewrite zget_cons in E. destruct (Z.eqb_spec (r - r0) 0).
  - injection E as <-. split; [lia|]. split; [exact H3|]. lia.
  - replace (r - r0 - 1) with (r - (r0 + 1)) in E by lia. destruct (IH _ _ _ _ H4 E) as (A1 & A2 & A3 & A4). split; [exact A1|]. split; [exact A2|]. lia.
Qed.
Lemma rank_order : forall Ds r0 b0 r r' D D', ranks_ok r0 b0 Ds -> zget Ds (r - r0) = Some D -> zget Ds (r' - r0) = Some D' -> r < r' ->
  global_num_patches_before D + local_num D <= global_num_patches_before D'.
Proof.
  induction Ds as [|D0 Ds IH]; intros r0 b0 r r' D D' H E E' L; [apply zget_dom in E; cbn in E; lia|]. pose proof (zget_dom _ _ _ E) as X. destruct H as (H1 & H2 & H3 & H4).
  rewrite zget_cons in E, E'. destruct (Z.eqb_spec (r' - r0) 0); [lia|]. replace (r' - r0 - 1) with (r' - (r0 + 1)) in E' by lia. destruct (Z.eqb_spec (r - r0) 0).
  - injection E as <-. destruct (rank_get _ _ _ _ _ H4 E') as (_ & _ & A & _). lia.
  - replace (r - r0 - 1) with (r - (r0 + 1)) in E by lia. exact (IH _ _ _ _ _ _ H4 E E' L).
Qed.
Lemma block_order : forall l c i j num bef num' bef', counts_ok c l -> zget l i = Some (num, bef) -> zget l j = Some (num', bef') -> i < j -> bef + num <= bef'.
Proof.
  induction l as [|[n0 b0] l IH]; intros c i j num bef num' bef' H E E' L; [apply zget_dom in E; cbn in E; lia|]. pose proof (zget_dom _ _ _ E) as X. destruct H as (H1 & H2 & H3).
  rewrite zget_cons in E, E'. destruct (Z.eqb_spec j 0); [lia|]. destruct (Z.eqb_spec i 0).
  - injection E as -> ->. subst. clear - H3 E'. remember (j - 1) as k eqn:Ek. clear Ek. revert c num k H3 E'.
    induction l as [|[n0 b0] l IH]; intros c num k H3 E'; [apply zget_dom in E'; cbn in E'; lia|]. destruct H3 as (H1 & H2 & H3). rewrite zget_cons in E'. destruct (k =? 0).
    + injection E' as -> ->. lia.
    + specialize (IH (c + num) n0 (k - 1) H3 E'). lia.
  - exact (IH _ _ _ _ _ _ _ H3 E E' ltac:(lia)).
Qed.
Lemma number_fun : forall n Ds g r b p r' b' p', domains_ok n Ds -> is_number Ds g r b p -> is_number Ds g r' b' p' -> r = r' /\ b = b' /\ p = p'.
Proof.
  intros n Ds g r b p r' b' p' (_ & OK & _) (D & num & bef & E1 & E2 & E3 & E4) (D' & num' & bef' & F1 & F2 & F3 & F4).
  pose proof (rank_get Ds 0 0 r D OK ltac:(rewrite Z.sub_0_r; exact E1)) as (_ & C & _ & _). pose proof (rank_get Ds 0 0 r' D' OK ltac:(rewrite Z.sub_0_r; exact F1)) as (_ & C' & _ & _).
  destruct (get_from (blocks D) 0 0 b num bef p C ltac:(rewrite Z.sub_0_r; exact E2) E3) as (_ & B1 & B2).
  destruct (get_from (blocks D') 0 0 b' num' bef' p' C' ltac:(rewrite Z.sub_0_r; exact F2) F3) as (_ & B3 & B4).
  change (sum_num (blocks D)) with (local_num D) in B2. change (sum_num (blocks D')) with (local_num D') in B4.
  assert (r = r').
  { destruct (Z.lt_trichotomy r r') as [L|[L|L]]; [|exact L|].
    - pose proof (rank_order Ds 0 0 r r' D D' OK ltac:(rewrite Z.sub_0_r; exact E1) ltac:(rewrite Z.sub_0_r; exact F1) L). lia.
    - pose proof (rank_order Ds 0 0 r' r D' D OK ltac:(rewrite Z.sub_0_r; exact F1) ltac:(rewrite Z.sub_0_r; exact E1) L). lia. }
  subst r'. assert (D' = D) by congruence. subst D'. split; [reflexivity|].
  destruct (Z.lt_trichotomy b b') as [L|[L|L]].
  - pose proof (block_order _ _ _ _ _ _ _ _ C E2 F2 L). lia.
  - subst b'. rewrite E2 in F2. injection F2 as <- <-. lia.
  - pose proof (block_order _ _ _ _ _ _ _ _ C F2 E2 L). lia.
Qed.
Lemma number_bounds : forall n Ds g r b p, domains_ok n Ds -> is_number Ds g r b p -> 0 <= g < n.
Proof.
  intros n Ds g r b p (_ & OK & _ & ->) (D & num & bef & E1 & E2 & E3 & E4).
  pose proof (rank_get Ds 0 0 r D OK ltac:(rewrite Z.sub_0_r; exact E1)) as (_ & C & B1 & B2).
  destruct (get_from (blocks D) 0 0 b num bef p C ltac:(rewrite Z.sub_0_r; exact E2) E3) as (_ & B3 & B4).
  change (sum_num (blocks D)) with (local_num D) in B4. change (fold_right (fun D a => local_num D + a) 0 Ds) with (sum_dom Ds). lia.
Qed.
Lemma number_exists : forall n Ds g, domains_ok n Ds -> 0 <= g < n -> exists r b p, is_number Ds g r b p.
Proof.
  intros n Ds g (_ & OK & _ & ->) Hg. change (fold_right (fun D a => local_num D + a) 0 Ds) with (sum_dom Ds) in Hg.
  assert (X : forall Ds r0 b0, ranks_ok r0 b0 Ds -> b0 <= g < b0 + sum_dom Ds -> exists r D, zget Ds (r - r0) = Some D /\ counts_ok 0 (blocks D) /\ global_num_patches_before D <= g < global_num_patches_before D + local_num D).
  { clear. induction Ds as [|D Ds IH]; intros r0 b0 H Hg; [cbn in Hg; lia|]. destruct H as (H1 & H2 & H3 & H4). cbn [sum_dom fold_right] in Hg. fold (sum_dom Ds) in Hg.
    destruct (Z_lt_ge_dec g (b0 + local_num D)).
    - exists r0, D. rewrite Z.sub_diag. split; [reflexivity|]. split; [exact H3|]. lia.
    - destruct (IH _ _ H4 ltac:(lia)) as (r & D' & E & A). exists r, D'. split; [|exact A]. pose proof (zget_dom _ _ _ E). rewrite zget_cons. destruct (Z.eqb_spec (r - r0) 0); [lia|].
      rewrite <- E. f_equal. lia. }
  destruct (X Ds 0 0 OK ltac:(lia)) as (r & D & E & C & B). rewrite Z.sub_0_r in E.
  assert (L : len (local_patches D) = local_num D) by exact (from_len _ _ _ C).
  destruct (zget_lt (local_patches D) (g - global_num_patches_before D) ltac:(lia)) as ([b p] & E').
  destruct (from_get _ _ _ _ _ _ C E') as (num & E2 & E3). rewrite Z.sub_0_r in E2. exists r, b, p, D, num, (0 + (g - global_num_patches_before D) - p). split; [exact E|]. split; [exact E2|]. split; [exact E3|lia].
Qed.

(** *** Sizes and offsets *)
Lemma int32_ok : forall x, - INT_MAX - 1 <= x <= INT_MAX -> int32 x = Some x.
Proof. intros x H. unfold int32. destruct (Z.leb_spec (- INT_MAX - 1) x), (Z.leb_spec x INT_MAX); try lia. reflexivity. Qed.
Lemma int64_ok : forall x, - 9223372036854775808 <= x <= 9223372036854775807 -> int64 x = Some x.
Proof. intros x H. unfold int64. destruct (Z.leb_spec (- 9223372036854775808) x), (Z.leb_spec x 9223372036854775807); try lia. reflexivity. Qed.

Definition isz (s : state) : Z := if fits32 s then 4 else 8.
Definition size_of (d : grid) (w : Z) (f : field) : Z :=
  match f with Position => 24 * points d | Connectivity => corners d * cells d * w | Offsets => cells d * w | Types => cells d | Mpirank => 4 * cells d
             | Blockno => 4 * cells d | Patchno => cells d * w | Meqn => 4 * meqn d * cells d end.
Definition chain (s : state) (n : Z) : Prop :=
  offset s Position = 0 /\ offset s Connectivity = 8 + offset s Position + psize s Position * n /\ offset s Offsets = 8 + offset s Connectivity + psize s Connectivity * n /\
  offset s Types = 8 + offset s Offsets + psize s Offsets * n /\ offset s Mpirank = 8 + offset s Types + psize s Types * n /\
  offset s Blockno = 8 + offset s Mpirank + psize s Mpirank * n /\ offset s Patchno = 8 + offset s Blockno + psize s Blockno * n /\
  offset s Meqn = 8 + offset s Patchno + psize s Patchno * n /\ offset_end s = 8 + offset s Meqn + psize s Meqn * n.
Record made (d : grid) (n : Z) (s : state) : Prop := mkMade {
  m_grid : s_grid s = d; m_points : points_per_patch s = points d; m_cells : cells_per_patch s = cells d;
  m_np : global_num_points s = n * points d; m_nc : global_num_cells s = n * cells d;
  m_fits : fits32 s = true -> n * points d <= INT_MAX /\ corners d * (n * cells d + 1) <= INT_MAX;
  m_psize : forall f, psize s f = size_of d (isz s) f; m_chain : chain s n }.

Lemma grid_pos : forall d n, sizes_ok d n -> 4 <= points d /\ 1 <= cells d /\ 1 <= layers d.
Proof.
  intros d n (H1 & H2 & H3 & _). unfold points, cells, layers. destruct (cube d).
  - split; [|split]; [|nia|lia]. assert (4 <= (mx d + 1) * (my d + 1)) by nia. nia.
  - split; [|split]; [|nia|lia]. nia.
Qed.
Lemma made_ok : forall d n, sizes_ok d n -> exists s, set_up d n = Some s /\ made d n s.
Proof.
  intros d n H. pose proof (grid_pos d n H) as (P & C & LY). destruct H as (H1 & H2 & H3 & H4 & H5 & H6 & H7 & H8 & H9). unfold INT_MAX in *.
  assert (K : corners d = PATCH_CHILDREN d) by reflexivity. assert (KV : corners d = 4 \/ corners d = 8) by (unfold corners; destruct (cube d); lia).
  assert (P2 : 0 < (mx d + 1) * (my d + 1) <= points d) by (unfold points; destruct (cube d); nia).
  assert (C2 : 0 < mx d * my d <= cells d) by (unfold cells, layers; destruct (cube d); nia).
  assert (X1 : mx d + 1 <= (mx d + 1) * (my d + 1)) by nia. assert (X2 : my d + 1 <= (mx d + 1) * (my d + 1)) by nia.
  unfold set_up. rewrite (int32_ok (mx d + 1)), (int32_ok (my d + 1)) by (unfold INT_MAX; lia). cbn [bind]. rewrite (int32_ok ((mx d + 1) * (my d + 1))), (int32_ok (mx d * my d)) by (unfold INT_MAX; lia). cbn [bind].
  replace (if cube d then bind (int32 (mz d + 1)) (fun pz : Z => int32 ((mx d + 1) * (my d + 1) * pz)) else Some ((mx d + 1) * (my d + 1))) with (Some (points d)).
  2:{ unfold points in *. destruct (cube d); [|now rewrite Z.mul_1_r]. assert (mz d + 1 <= (mx d + 1) * (my d + 1) * (mz d + 1)) by nia. rewrite int32_ok by (unfold INT_MAX; lia). cbn [bind]. rewrite int32_ok by (unfold INT_MAX; lia). reflexivity. }
  replace (if cube d then int32 (mx d * my d * mz d) else Some (mx d * my d)) with (Some (cells d)).
  2:{ unfold cells, layers in *. destruct (cube d); [|now rewrite Z.mul_1_r]. rewrite int32_ok by (unfold INT_MAX; lia). reflexivity. }
  cbn [bind].
  assert (N1 : 0 <= n * (24 * points d)) by nia. assert (N2 : 0 <= n * (96 * cells d)) by nia. assert (N3 : 0 <= n * (4 * meqn d * cells d)) by nia.
  replace (n * (24 * points d + 96 * cells d + 4 * meqn d * cells d)) with (n * (24 * points d) + n * (96 * cells d) + n * (4 * meqn d * cells d)) in H9 by ring.
  change (2 ^ 62) with 4611686018427387904 in H9.
  rewrite (int64_ok (points d * n)) by nia. cbn [bind]. rewrite (int64_ok (cells d * n)) by nia. cbn [bind]. rewrite <- K. rewrite (int64_ok (corners d * (cells d * n + 1))) by nia. cbn [bind]. cbv zeta.
  set (fits := ((points d * n <=? INT_MAX) && (corners d * (cells d * n + 1) <=? INT_MAX))).
  set (w := if fits then 4 else 8). assert (W : w = 4 \/ w = 8) by (unfold w; destruct fits; lia).
  assert (CW : 0 < cells d * corners d * w <= 64 * cells d) by (destruct W as [-> | ->], KV as [-> | ->]; lia).
  rewrite (int32_ok (points d * 3)) by (unfold INT_MAX; lia). cbn [bind]. rewrite (int32_ok (cells d * corners d)) by (unfold INT_MAX; destruct KV as [-> | ->]; lia). cbn [bind].
  rewrite (int32_ok (cells d * corners d * w)) by (unfold INT_MAX; lia). cbn [bind]. rewrite (int32_ok (cells d * w)) by (unfold INT_MAX; destruct W as [-> | ->]; lia). cbn [bind].
  rewrite (int32_ok (cells d * 4)) by (unfold INT_MAX; lia). cbn [bind]. rewrite (int32_ok (cells d * meqn d)) by (unfold INT_MAX; nia). cbn [bind].
  unfold ndsize.
  assert (E : 0 <= cells d * corners d * w * n <= n * (64 * cells d)) by nia. assert (E2 : 0 <= cells d * w * n <= n * (8 * cells d)) by (destruct W as [-> | ->]; nia).
  rewrite int64_ok by nia. cbn [bind]. eexists. split; [reflexivity|]. split; cbn [s_grid points_per_patch cells_per_patch global_num_points global_num_cells fits32 psize]; try reflexivity; try ring.
  - intros F. unfold fits in F. apply andb_prop in F. destruct F as [F1 F2]. apply Z.leb_le in F1, F2. split; [rewrite Z.mul_comm; exact F1|]. rewrite (Z.mul_comm n). exact F2.
  - intros f. unfold isz. cbn [fits32]. fold w. destruct f; cbn [size_of]; ring.
  - unfold chain. cbn [offset psize offset_end]. repeat split; ring.
Qed.
