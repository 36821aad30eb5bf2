(** Lemmas about the data of a patch. *)
From Coq Require Import ZArith List Bool Lia.
From Verif Require Import Base_Mem Model_Mesh Proof_Mesh Model_Vtk Spec_Vtk Proof_Vtk1 Proof_Vtk2.
Import ListNotations.
Open Scope Z_scope.

(** three loops *)
Section Loops.
  Variable A : Type.
  Variable f : Z -> Z -> Z -> list A.
  Variable w nx ny nz : Z.
  Hypothesis W : forall i j k, 0 <= i < nx -> 0 <= j < ny -> 0 <= k < nz -> len (f i j k) = w.
  Definition loops : list A := flat_map (fun k => flat_map (fun j => flat_map (fun i => f i j k) (zrange 0 nx)) (zrange 0 ny)) (zrange 0 nz).
  Hypothesis N : 0 <= nx /\ 0 <= ny /\ 0 <= nz.
  Lemma loops_len : len loops = w * (nx * ny * nz).
  Proof.
    unfold loops. rewrite (flat_len _ (ny * (nx * w))); [ring|lia|]. intros k Hk. rewrite (flat_len _ (nx * w)); [ring|lia|]. intros j Hj. rewrite (flat_len _ w); [ring|lia|]. intros i Hi. now apply W.
  Qed.
  Lemma loops_get : forall i j k t, 0 <= i < nx -> 0 <= j < ny -> 0 <= k < nz -> 0 <= t < w -> zget loops (w * (i + nx * (j + ny * k)) + t) = zget (f i j k) t.
  Proof.
    intros i j k t Hi Hj Hk Ht. unfold loops.
    replace (w * (i + nx * (j + ny * k)) + t) with (k * (ny * (nx * w)) + (j * (nx * w) + (i * w + t))) by ring.
    rewrite (flat_get _ (ny * (nx * w)) nz k).
    - rewrite (flat_get _ (nx * w) ny j).
      + rewrite (flat_get _ w nx i); [reflexivity| |lia|lia]. intros i' Hi'. now apply W.
      + intros j' Hj'. rewrite (flat_len _ w); [ring|lia|]. intros i' Hi'. now apply W.
      + lia.
      + nia.
    - intros k' Hk'. rewrite (flat_len _ (nx * w)); [ring|lia|]. intros j' Hj'. rewrite (flat_len _ w); [ring|lia|]. intros i' Hi'. now apply W.
    - lia.
    - assert (0 <= i * w + t < nx * w) by nia. assert (0 <= j * (nx * w)) by nia. split; [lia|].
      apply Z.lt_le_trans with (j * (nx * w) + nx * w); [lia|]. replace (j * (nx * w) + nx * w) with ((j + 1) * (nx * w)) by ring. apply Z.mul_le_mono_nonneg_r; [nia|lia].
  Qed.
End Loops.

Definition corner_point (d : grid) (i j k v : Z) : Z := let '(di, dj, dk) := corner v in point_index d (i + di) (j + dj) (k + dk).
Definition cell_corners (d : grid) (pb i j k : Z) : list Z := map (fun v => pb + corner_point d i j k v) (zrange 0 (corners d)).
Lemma corners_len : forall d pb i j k, len (cell_corners d pb i j k) = corners d.
Proof. intros d pb i j k. unfold cell_corners. rewrite map_length, range_len; unfold corners; destruct (cube d); lia. Qed.
Lemma conn_cells : forall d pb, connectivity d pb = loops Z (fun i j k => cell_corners d pb i j k) (mx d) (my d) (layers d).
Proof.
  assert (FE : forall {A} (f g : Z -> list A) lo hi, (forall x, lo <= x < hi -> f x = g x) -> flat_map f (zrange lo hi) = flat_map g (zrange lo hi)).
  { intros A f g lo hi H. rewrite !flat_map_concat_map. f_equal. apply map_ext_in. intros x Hx. apply in_range in Hx. now apply H. }
  intros d pb. unfold connectivity, loops. apply FE. intros k Hk. apply FE. intros j Hj. apply FE. intros i Hi.
  unfold cell_corners, corners, layers in *. destruct (cube d).
  - change (zrange 0 8) with [0; 1; 2; 3; 4; 5; 6; 7]. unfold corner_point, corner, point_index. cbn [map app].
    change (0 mod 4) with 0. change (1 mod 4) with 1. change (2 mod 4) with 2. change (3 mod 4) with 3. change (4 mod 4) with 0. change (5 mod 4) with 1. change (6 mod 4) with 2. change (7 mod 4) with 3.
    change (0 / 4) with 0. change (1 / 4) with 0. change (2 / 4) with 0. change (3 / 4) with 0. change (4 / 4) with 1. change (5 / 4) with 1. change (6 / 4) with 1. change (7 / 4) with 1. cbv iota beta.
    repeat (f_equal; [ring|]). f_equal. ring.
  - change (zrange 0 4) with [0; 1; 2; 3]. unfold corner_point, corner, point_index. cbn [map app].
    change (0 mod 4) with 0. change (1 mod 4) with 1. change (2 mod 4) with 2. change (3 mod 4) with 3.
    change (0 / 4) with 0. change (1 / 4) with 0. change (2 / 4) with 0. change (3 / 4) with 0. cbv iota beta. assert (k = 0) by lia. subst k.
    repeat (f_equal; [ring|]). f_equal. ring.
Qed.

Lemma cell_index_range : forall d i j k, in_grid d i j k -> 0 <= cell_index d i j k < cells d.
Proof.
  intros d i j k (Hi & Hj & Hk). unfold cell_index, cells. assert (0 <= j + my d * k) by nia. assert (j + my d * k + 1 <= my d * layers d) by nia. split; [nia|].
  apply Z.lt_le_trans with (mx d * (j + my d * k + 1)); [lia|]. rewrite <- Z.mul_assoc. apply Z.mul_le_mono_nonneg_l; lia.
Qed.
Lemma point_range : forall d i j k, 0 <= i <= mx d -> 0 <= j <= my d -> 0 <= k < (if cube d then mz d + 1 else 1) -> 0 <= point_index d i j k < points d.
Proof.
  intros d i j k Hi Hj Hk. unfold point_index, points. set (nz := if cube d then mz d + 1 else 1) in *. assert (0 <= j + (my d + 1) * k) by nia.
  assert (j + (my d + 1) * k + 1 <= (my d + 1) * nz) by nia. split; [nia|].
  apply Z.lt_le_trans with ((mx d + 1) * (j + (my d + 1) * k + 1)); [lia|]. rewrite <- Z.mul_assoc. apply Z.mul_le_mono_nonneg_l; lia.
Qed.
Lemma corner_range : forall d v di dj dk, 0 <= v < corners d -> corner v = (di, dj, dk) -> 0 <= di <= 1 /\ 0 <= dj <= 1 /\ 0 <= dk <= 1 /\ (cube d = false -> dk = 0).
Proof.
  intros d v di dj dk Hv E. unfold corner in E. injection E as <- <- <-. pose proof (Z.mod_pos_bound v 4 ltac:(lia)).
  assert (CM : v mod 4 = 0 \/ v mod 4 = 1 \/ v mod 4 = 2 \/ v mod 4 = 3) by lia.
  assert (V : 0 <= v / 4 <= 1) by (unfold corners in Hv; destruct (cube d); split; try (apply Z.div_pos; lia); pose proof (Z.div_le_mono v 7 4 ltac:(lia) ltac:(lia)) as X; change (7 / 4) with 1 in X; lia).
  repeat split; try lia.
  1-4: destruct CM as [-> | [-> | [-> | ->]]]; lia.
  intros C. unfold corners in Hv. rewrite C in Hv. apply Z.div_small. lia.
Qed.
Lemma corner_point_range : forall d i j k v, in_grid d i j k -> 0 <= v < corners d -> 0 <= corner_point d i j k v < points d.
Proof.
  intros d i j k v (Hi & Hj & Hk) Hv. unfold corner_point. destruct (corner v) as [[di dj] dk] eqn:E. destruct (corner_range d v di dj dk Hv E) as (D1 & D2 & D3 & D4).
  apply point_range; try lia. unfold layers in Hk. destruct (cube d); [lia|]. specialize (D4 eq_refl). lia.
Qed.
Lemma conn_len : forall d n pb, sizes_ok d n -> len (connectivity d pb) = corners d * cells d.
Proof.
  intros d n pb H. pose proof (grid_pos d n H) as (_ & _ & L). destruct H as (H1 & H2 & _). rewrite conn_cells. rewrite (loops_len Z (fun i j k => cell_corners d pb i j k) (corners d)); [reflexivity| |lia].
  intros. apply corners_len.
Qed.
Lemma conn_get : forall d n pb i j k v, sizes_ok d n -> in_grid d i j k -> 0 <= v < corners d ->
  zget (connectivity d pb) (corners d * cell_index d i j k + v) = Some (pb + corner_point d i j k v).
Proof.
  intros d n pb i j k v H (Hi & Hj & Hk) Hv. pose proof (grid_pos d n H) as (_ & _ & L). destruct H as (H1 & H2 & _). rewrite conn_cells. unfold cell_index.
  rewrite (loops_get Z (fun i j k => cell_corners d pb i j k) (corners d) (mx d) (my d) (layers d)); try lia.
  - unfold cell_corners. rewrite zget_map, zget_range by lia. reflexivity.
  - intros. apply corners_len.
Qed.
Lemma conn_in : forall d n pb x, sizes_ok d n -> In x (connectivity d pb) -> pb <= x < pb + points d.
Proof.
  intros d n pb x H Hx. rewrite conn_cells in Hx. unfold loops in Hx. apply in_flat_map in Hx. destruct Hx as (k & Hk & Hx). apply in_flat_map in Hx. destruct Hx as (j & Hj & Hx).
  apply in_flat_map in Hx. destruct Hx as (i & Hi & Hx). apply in_range in Hi, Hj, Hk. unfold cell_corners in Hx. apply in_map_iff in Hx. destruct Hx as (v & <- & Hv). apply in_range in Hv.
  pose proof (corner_point_range d i j k v (conj Hi (conj Hj Hk)) Hv). lia.
Qed.

(** what the callbacks put into the buffer *)
Definition enc (s : state) : list Z -> list Z := flat_map (le_bytes (if fits32 s then 4 else 8)).
Definition content (d : grid) (s : state) (coordinates data : Z -> Z -> Z -> list Z) (f : field) (g r b p : Z) : list Z :=
  match f with
  | Position => coordinates r b p
  | Connectivity => enc s (connectivity d (points d * g))
  | Offsets => enc s (map (fun c => corners d * (cells d * g + 1) + corners d * c) (zrange 0 (cells d)))
  | Types => map (fun _ => cell_type d) (zrange 0 (cells d))
  | Mpirank => ints (map (fun _ => r) (zrange 0 (cells d)))
  | Blockno => ints (map (fun _ => b) (zrange 0 (cells d)))
  | Patchno => enc s (map (fun _ => g) (zrange 0 (cells d)))
  | Meqn => data r b p
  end.
Lemma enc_len : forall s l, len (enc s l) = len l * isz s.
Proof. intros s l. unfold enc, isz. rewrite (flat_list_len _ (if fits32 s then 4 else 8)); [reflexivity|]. intros x _. rewrite le_bytes_length. destruct (fits32 s); reflexivity. Qed.
Lemma ints_len : forall l, len (ints l) = 4 * len l.
Proof. intros l. unfold ints. rewrite (flat_list_len _ 4); [ring|]. intros x _. rewrite le_bytes_length. reflexivity. Qed.
Lemma integers_ok : forall d n s l, sizes_ok d n -> made d n s -> (forall x, In x l -> 0 <= x <= Z.max (n * points d) (corners d * (n * cells d + 1))) -> integers s l = Some (enc s l).
Proof.
  intros d n s l H M B. unfold integers. replace (forallb _ l) with true; [reflexivity|]. symmetry. apply forallb_forall. intros x Hx. specialize (B x Hx).
  destruct (fits32 s) eqn:E.
  - destruct (m_fits d n s M E). rewrite int32_ok by (unfold INT_MAX in *; lia). reflexivity.
  - pose proof (grid_pos d n H) as (P & C & _). destruct H as (_ & _ & _ & H4 & H5 & _ & H7 & _ & H9). change (2 ^ 62) with 4611686018427387904 in H9.
    assert (0 <= n * points d) by nia. assert (0 <= n * cells d) by nia. assert (0 <= n * (4 * meqn d * cells d)) by nia.
    replace (n * (24 * points d + 96 * cells d + 4 * meqn d * cells d)) with (24 * (n * points d) + 96 * (n * cells d) + n * (4 * meqn d * cells d)) in H9 by ring.
    assert (0 <= corners d * (n * cells d + 1) <= 8 * (n * cells d) + 8) by (unfold corners; destruct (cube d); lia).
    rewrite int64_ok by lia. reflexivity.
Qed.

Section Callback.
  Variable d : grid.
  Variable n : Z.
  Variable s : state.
  Variable Ds : list dom.
  Variable coordinates data : Z -> Z -> Z -> list Z.
  Variable cc vc : Z -> Z -> Z -> option (list Z).
  Hypothesis SZ : sizes_ok d n.
  Hypothesis MD : made d n s.
  Hypothesis DO : domains_ok n Ds.
  Hypothesis RS : right_sizes d Ds coordinates data.
  Hypothesis CC : forall g r b p, is_number Ds g r b p -> cc r b p = Some (coordinates r b p) /\ vc r b p = Some (data r b p).
  Notation content := (content d s coordinates data).

  Lemma content_len : forall f g r b p, is_number Ds g r b p -> len (content f g r b p) = psize s f.
  Proof.
    intros f g r b p H. pose proof (grid_pos d n SZ) as (_ & C & _). rewrite (m_psize d n s MD). destruct (RS g r b p H) as [R1 R2]. destruct f; cbn [Proof_Vtk3.content size_of].
    - exact R1.
    - rewrite enc_len, (conn_len d n) by exact SZ. reflexivity.
    - rewrite enc_len, map_length, range_len by lia. ring.
    - rewrite map_length, range_len by lia. ring.
    - rewrite ints_len, map_length, range_len by lia. ring.
    - rewrite ints_len, map_length, range_len by lia. ring.
    - rewrite enc_len, map_length, range_len by lia. ring.
    - exact R2.
  Qed.

  Lemma callback_ok : forall f g r b p D, is_number Ds g r b p -> zget Ds r = Some D -> callback s D (cc (mpirank D)) (vc (mpirank D)) f b p = Some (content f g r b p).
  Proof.
    intros f g r b p D H ED. pose proof (number_bounds _ _ _ _ _ _ DO H) as G. destruct (CC g r b p H) as [C1 C2].
    pose proof H as (D' & num & bef & E1 & E2 & E3 & E4). assert (D' = D) by congruence. subst D'.
    pose proof DO as (_ & OK & _ & _). pose proof (rank_get Ds 0 0 r D OK ltac:(rewrite Z.sub_0_r; exact E1)) as (R & _).
    pose proof (grid_pos d n SZ) as (P & C & _). pose proof SZ as (_ & _ & _ & H4 & _ & _ & _ & _ & H9). change (2 ^ 62) with 4611686018427387904 in H9.
    assert (0 <= n * points d) by nia. assert (0 <= n * cells d) by nia. assert (0 <= n * (4 * meqn d * cells d)) by nia.
    replace (n * (24 * points d + 96 * cells d + 4 * meqn d * cells d)) with (24 * (n * points d) + 96 * (n * cells d) + n * (4 * meqn d * cells d)) in H9 by ring.
    assert (GP : 0 <= points d * g /\ points d * g + points d <= n * points d) by nia. assert (GC : 0 <= cells d * g /\ cells d * g + cells d <= n * cells d) by nia.
    assert (GB : g <= n * points d) by nia. assert (KP : 0 < corners d) by (unfold corners; destruct (cube d); lia). assert (KE : PATCH_CHILDREN d = corners d) by reflexivity.
    destruct f; cbn [callback Proof_Vtk3.content]; unfold before_block; rewrite ?E2; cbn [option_map bind snd]; rewrite ?(m_points d n s MD), ?(m_cells d n s MD), ?(m_grid d n s MD), ?KE;
    replace (global_num_patches_before D + bef + p) with g by lia.
    - rewrite R. exact C1.
    - rewrite int64_ok by lia. cbn [bind]. apply (integers_ok d n); try assumption. intros x Hx. apply (conn_in d n) in Hx; [lia|assumption].
    - rewrite int64_ok by lia. cbn [bind].
      rewrite (integers_ok d n); try assumption.
      2:{ intros x [<-|[]]. split; [apply Z.mul_nonneg_nonneg; lia|]. apply Z.le_trans with (corners d * (n * cells d + 1)); [apply Z.mul_le_mono_nonneg_l; lia|lia]. }
      cbn [bind]. apply (integers_ok d n); try assumption. intros x Hx. apply in_map_iff in Hx. destruct Hx as (c & <- & Hc). apply in_range in Hc.
      replace (corners d * (cells d * g + 1) + corners d * c) with (corners d * (cells d * g + 1 + c)) by ring. split; [apply Z.mul_nonneg_nonneg; lia|].
      apply Z.le_trans with (corners d * (n * cells d + 1)); [apply Z.mul_le_mono_nonneg_l; lia|lia].
    - reflexivity.
    - rewrite R. reflexivity.
    - reflexivity.
    - rewrite int64_ok by lia. cbn [bind]. apply (integers_ok d n); try assumption. intros x Hx. apply in_map_iff in Hx. destruct Hx as (c & <- & Hc). split; [lia|].
      apply Z.le_trans with (n * points d); [nia|lia].
    - rewrite R. exact C2.
  Qed.
End Callback.
