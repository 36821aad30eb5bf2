(** Reading the file back. *)
From Coq Require Import String.
From Coq Require Import ZArith List Bool Lia.
From Verif Require Import Base_Mem Model_Mesh Proof_Mesh Model_Vtk Spec_Vtk Proof_Vtk1 Proof_Vtk2 Proof_Vtk3 Proof_Vtk4.
Import ListNotations.
Open Scope Z_scope.

Lemma shuffle_in : forall {A} (ls : list (list A)) t, shuffle ls t -> forall x, In x t <-> exists l, In l ls /\ In x l.
Proof.
  intros A ls t H. induction H as [ls F|a y l b t H IH]; intros x.
  - rewrite Forall_forall in F. split; [intros []|]. intros (l & Hl & Hx). rewrite <- (F l Hl) in Hx. exact Hx.
  - cbn [In]. rewrite IH. split.
    + intros [<-|(l' & Hl & Hx)].
      * exists (y :: l). split; [apply in_or_app; right; now left|now left].
      * apply in_app_or in Hl. destruct Hl as [Hl|[<-|Hl]].
        -- exists l'. split; [apply in_or_app; now left|exact Hx].
        -- exists (y :: l). split; [apply in_or_app; right; now left|now right].
        -- exists l'. split; [apply in_or_app; right; now right|exact Hx].
    + intros (l' & Hl & Hx). apply in_app_or in Hl. destruct Hl as [Hl|[<-|Hl]].
      * right. exists l'. split; [apply in_or_app; now left|exact Hx].
      * destruct Hx as [Hx|Hx]; [now left|]. right. exists l. split; [apply in_or_app; right; now left|exact Hx].
      * right. exists l'. split; [apply in_or_app; right; now right|exact Hx].
Qed.

Definition covers (w : Z * list Z) (o : Z) : Prop := fst w <= o < fst w + len (snd w).
Lemma write_at_in : forall F w o, covers w o -> bytes (write_at F w) o = zget (snd w) (o - fst w).
Proof. intros F w o [H1 H2]. cbn [write_at bytes]. destruct (Z.leb_spec (fst w) o), (Z.ltb_spec o (fst w + len (snd w))); try lia. reflexivity. Qed.
Lemma write_at_out : forall F w o, ~ covers w o -> bytes (write_at F w) o = bytes F o.
Proof. intros F w o H. unfold covers in H. cbn [write_at bytes]. destruct (Z.leb_spec (fst w) o), (Z.ltb_spec o (fst w + len (snd w))); try lia; reflexivity. Qed.
Lemma covers_dec : forall w o, covers w o \/ ~ covers w o.
Proof. intros w o. unfold covers. lia. Qed.
Lemma write_all_keep : forall ws F o x, (forall w, In w ws -> covers w o -> zget (snd w) (o - fst w) = x) -> bytes F o = x -> bytes (write_all F ws) o = x.
Proof.
  induction ws as [|w ws IH]; intros F o x H E; [exact E|]. cbn [write_all fold_left]. apply IH; [intros w' Hw; apply H; now right|].
  destruct (covers_dec w o) as [C|C]; [rewrite write_at_in by exact C; apply H; [now left|exact C]|now rewrite write_at_out].
Qed.
Lemma write_all_in : forall ws F o x, (forall w, In w ws -> covers w o -> zget (snd w) (o - fst w) = x) -> (exists w, In w ws /\ covers w o) -> bytes (write_all F ws) o = x.
Proof.
  induction ws as [|w ws IH]; intros F o x H (w' & I & C); [destruct I|]. cbn [write_all fold_left]. fold (write_all (write_at F w) ws). destruct I as [->|I].
  - apply write_all_keep; [intros w Hw; apply H; now right|]. rewrite write_at_in by exact C. apply H; [now left|exact C].
  - apply IH; [intros w2 Hw; apply H; now right|]. exists w'. now split.
Qed.
Lemma write_all_out : forall ws F o, (forall w, In w ws -> ~ covers w o) -> bytes (write_all F ws) o = bytes F o.
Proof. intros ws F o H. apply write_all_keep; [|reflexivity]. intros w Hw C. exfalso. exact (H w Hw C). Qed.
Lemma write_all_size : forall ws F e, (forall w, In w ws -> 0 < len (snd w) /\ fst w + len (snd w) <= e) -> size F <= e ->
  size F <= size (write_all F ws) <= e /\ forall w, In w ws -> fst w + len (snd w) <= size (write_all F ws).
Proof.
  induction ws as [|w ws IH]; intros F e H E; [cbn; split; [lia|intros _ []]|]. cbn [write_all fold_left]. fold (write_all (write_at F w) ws).
  destruct (H w (or_introl eq_refl)) as [L B].
  assert (S1 : size (write_at F w) = Z.max (size F) (fst w + len (snd w))) by (cbn [write_at size]; destruct (Z.ltb_spec 0 (len (snd w))); [reflexivity|lia]).
  destruct (IH (write_at F w) e) as (X & Y); [intros w' Hw; apply H; now right|lia|]. split; [lia|]. intros w' [<-|Hw]; [lia|now apply Y].
Qed.

(** *** The header *)
Definition part (f : field) : string := match f with Position => "Points" | Connectivity | Offsets | Types => "Cells" | _ => "CellData" end.
Definition name (f : field) : string :=
  match f with Position => "Position" | Connectivity => "connectivity" | Offsets => "offsets" | Types => "types" | Mpirank => "mpirank"
             | Blockno => "blockno" | Patchno => "patchno" | Meqn => "meqn" end.
Definition type (s : state) (f : field) : string :=
  match f with Position => "Float64" | Connectivity | Offsets | Patchno => inttype s | Types => "UInt8" | Mpirank | Blockno => "Int32" | Meqn => "Float32" end.
Definition components (s : state) (f : field) : Z := match f with Position => 3 | Meqn => meqn (s_grid s) | _ => 1 end.
Lemma tag_ok : forall s f, array_tag (header s) (part f) (name f) = Some (type s f, components s f, offset s f).
Proof.
  intros s f. unfold header. destruct (Z.eqb_spec (meqn (s_grid s)) 1) as [E|E]; destruct f; try reflexivity.
  cbn [components]. rewrite E. reflexivity.
Qed.
Lemma piece_ok : forall s, piece (header s) "NumberOfPoints" = Some (global_num_points s) /\ piece (header s) "NumberOfCells" = Some (global_num_cells s).
Proof. intros s. split; reflexivity. Qed.
Definition wid (s : state) (f : field) : Z := match f with Position => 8 | Connectivity | Offsets | Patchno => isz s | Types => 1 | Mpirank | Blockno | Meqn => 4 end.
Lemma width_ok : forall s f, width (type s f) = wid s f.
Proof. intros s f. destruct f; cbn [type wid]; try reflexivity; unfold inttype, isz; destruct (fits32 s); reflexivity. Qed.

Ltac vals V f := let E := fresh in pose proof (V f) as E; cbn [part name] in E; rewrite E; clear E.

Section Read.
  Variable d : grid.
  Variable n : Z.
  Variable s : state.
  Variable Ds : list dom.
  Variable coordinates data : Z -> Z -> Z -> list Z.
  Hypothesis SZ : sizes_ok d n.
  Hypothesis MD : made d n s.
  Hypothesis DO : domains_ok n Ds.
  Hypothesis RS : right_sizes d Ds coordinates data.
  Variable begin : Z.
  Variable F : file.
  Notation kpos := (kpos s begin).
  Notation kbytes := (kbytes d n s coordinates data).
  Notation content := (content d s coordinates data).
  (** the pieces are in the file *)
  Hypothesis IN : forall k, is_key Ds k -> forall t, 0 <= t < len (kbytes k) -> bytes F (kpos k + t) = zget (kbytes k) t.
  Notation value := (value (header s) F begin).
  Notation values := (values (header s) F begin).
  Notation whole := (whole (header s) F begin).

  Lemma wid_pos : forall f, 0 < wid s f.
  Proof. intros f. unfold wid, isz. destruct f, (fits32 s); lia. Qed.
  Lemma count_at : forall f, bytes_at F (begin + offset s f) 8 = Some (le_bytes 8 (psize s f * n)).
  Proof. intros f. unfold bytes_at. exact (mapM_known (bytes F) (le_bytes 8 (psize s f * n)) (begin + offset s f) (IN (KCount f) Logic.I)). Qed.
  Lemma count_val : forall f, le_val (le_bytes 8 (psize s f * n)) = psize s f * n.
  Proof.
    intros f. apply le_val_bytes_small. pose proof (total_pos d n s SZ MD f). split; [lia|]. change (256 ^ Z.of_nat 8) with 18446744073709551616. rewrite (m_psize d n s MD).
    pose proof (grid_pos d n SZ) as (P & C & _). pose proof SZ as (_ & _ & _ & H4 & H5 & _ & _ & _ & H9). change (2 ^ 62) with 4611686018427387904 in H9.
    assert (0 <= n * points d) by nia. assert (0 <= n * cells d) by nia. assert (0 <= n * (4 * meqn d * cells d)) by nia.
    replace (n * (24 * points d + 96 * cells d + 4 * meqn d * cells d)) with (24 * (n * points d) + 96 * (n * cells d) + n * (4 * meqn d * cells d)) in H9 by ring.
    assert (W : isz s = 4 \/ isz s = 8) by (unfold isz; destruct (fits32 s); lia). assert (K : corners d = 4 \/ corners d = 8) by (unfold corners; destruct (cube d); lia).
    destruct f; cbn [size_of]; try lia; try (destruct W as [-> | ->]; lia); destruct W as [-> | ->], K as [-> | ->]; lia.
  Qed.
  Lemma values_ok : forall f, values (part f) (name f) = Some (psize s f * n / wid s f).
  Proof. intros f. unfold Spec_Vtk.values. rewrite tag_ok. cbn [bind]. rewrite count_at. cbn [bind]. now rewrite count_val, width_ok. Qed.
  Lemma value_ok : forall f g r b p i x, is_number Ds g r b p -> 0 <= i -> (i + 1) * wid s f <= psize s f -> x * wid s f = g * psize s f + i * wid s f ->
    value (part f) (name f) x = slice (content f g r b p) (wid s f) i.
  Proof.
    intros f g r b p i x H Hi Hw Hx. unfold Spec_Vtk.value. rewrite tag_ok. cbn [bind]. rewrite count_at. cbn [bind]. rewrite count_val, width_ok.
    pose proof (number_bounds _ _ _ _ _ _ DO H) as G. pose proof (wid_pos f) as W. pose proof (psize_pos d n s SZ MD f) as PP.
    assert (PG : 0 <= g * psize s f /\ g * psize s f + psize s f <= psize s f * n) by nia.
    assert (X0 : 0 <= x) by nia.
    destruct (Z.leb_spec 0 x); [|lia]. destruct (Z.leb_spec ((x + 1) * wid s f) (psize s f * n)); [|nia]. cbn [andb check].
    unfold bytes_at, slice. apply mapM_sub; [lia|]. intros t Ht.
    pose proof (content_len d n s Ds coordinates data SZ MD RS f g r b p H) as L.
    replace (begin + offset s f + 8 + x * wid s f + t) with (kpos (KPatch f g r b p) + (i * wid s f + t)) by (cbn [Proof_Vtk4.kpos]; rewrite Hx; ring).
    apply (IN (KPatch f g r b p) H). cbn [Proof_Vtk4.kbytes]. rewrite L. nia.
  Qed.
  Lemma whole_enc : forall f l g r b p i x v, is_number Ds g r b p -> content f g r b p = enc s l -> wid s f = isz s -> psize s f = len l * isz s ->
    zget l i = Some v -> x = g * len l + i -> 0 <= v < 256 ^ isz s -> whole (part f) (name f) x = Some v.
  Proof.
    intros f l g r b p i x v H E W P G X V. pose proof (zget_dom _ _ _ G) as D. unfold Spec_Vtk.whole.
    rewrite (value_ok f g r b p i x H ltac:(lia)); [|rewrite W, P; pose proof (wid_pos f); nia|rewrite W, P, X; ring].
    rewrite E, W. unfold enc, isz in *. rewrite (slice_flat _ _ l i v); [|intros y; rewrite le_bytes_length; destruct (fits32 s); reflexivity|exact G]. cbn [option_map]. f_equal. apply le_val_bytes_small.
    destruct (fits32 s); exact V.
  Qed.
  Lemma whole_int : forall f l g r b p i x v, is_number Ds g r b p -> content f g r b p = ints l -> wid s f = 4 -> psize s f = 4 * len l ->
    zget l i = Some v -> x = g * len l + i -> 0 <= v < 256 ^ 4 -> whole (part f) (name f) x = Some v.
  Proof.
    intros f l g r b p i x v H E W P G X V. pose proof (zget_dom _ _ _ G) as D. unfold Spec_Vtk.whole.
    rewrite (value_ok f g r b p i x H ltac:(lia)); [|rewrite W, P; nia|rewrite W, P, X; ring].
    rewrite E, W. unfold ints. rewrite (slice_flat _ _ l i v); [|intros y; rewrite le_bytes_length; reflexivity|exact G]. cbn [option_map]. f_equal. apply le_val_bytes_small. exact V.
  Qed.
  Lemma pow_isz : 2 ^ 32 <= 256 ^ isz s /\ (fits32 s = false -> 256 ^ isz s = 2 ^ 64).
  Proof. unfold isz. destruct (fits32 s); split; vm_compute; congruence. Qed.
  Lemma fits_enc : forall v, 0 <= v <= Z.max (n * points d) (corners d * (n * cells d + 1)) -> 0 <= v < 256 ^ isz s.
  Proof.
    intros v B. split; [lia|]. destruct pow_isz as [P1 P2]. destruct (fits32 s) eqn:E.
    - destruct (m_fits d n s MD E). unfold INT_MAX in *. lia.
    - rewrite P2 by reflexivity. change (2 ^ 64) with 18446744073709551616. pose proof (grid_pos d n SZ) as (P & C & _). destruct SZ as (_ & _ & _ & H4 & H5 & _ & H7 & _ & H9). change (2 ^ 62) with 4611686018427387904 in H9.
      assert (0 <= n * points d) by nia. assert (0 <= n * cells d) by nia. assert (0 <= n * (4 * meqn d * cells d)) by nia.
      replace (n * (24 * points d + 96 * cells d + 4 * meqn d * cells d)) with (24 * (n * points d) + 96 * (n * cells d) + n * (4 * meqn d * cells d)) in H9 by ring.
      assert (0 <= corners d * (n * cells d + 1) <= 8 * (n * cells d) + 8) by (unfold corners; destruct (cube d); lia). lia.
  Qed.

  Hypothesis RANKS : len Ds <= INT_MAX.
  Hypothesis BLOCKS : forall D, In D Ds -> len (blocks D) <= INT_MAX.

  Theorem reads : holds d n coordinates data Ds (header s) F begin.
  Proof.
    pose proof (grid_pos d n SZ) as (P & C & LY). pose proof (piece_ok s) as (PP & PC).
    assert (W : isz s <> 0) by (unfold isz; destruct (fits32 s); lia). assert (K : 0 < corners d) by (unfold corners; destruct (cube d); lia).
    unfold holds. cbv zeta.
    assert (V : forall f, Spec_Vtk.values (header s) F begin (part f) (name f) = Some (psize s f * n / wid s f)) by exact values_ok.
    pose proof (m_psize d n s MD) as PS.
    split; [now rewrite PP, (m_np d n s MD)|]. split; [now rewrite PC, (m_nc d n s MD)|].
    split; [exists (offset s Position); exact (tag_ok s Position)|].
    split; [vals V Position; rewrite PS; cbn [size_of wid]; f_equal; replace (24 * points d * n) with (3 * (n * points d) * 8) by ring; now apply Z.div_mul|].
    split; [vals V Connectivity; rewrite PS; cbn [size_of wid]; f_equal; replace (corners d * cells d * isz s * n) with (corners d * (n * cells d) * isz s) by ring; now apply Z.div_mul|].
    split; [vals V Offsets; rewrite PS; cbn [size_of wid]; f_equal; replace (cells d * isz s * n) with (n * cells d * isz s) by ring; now apply Z.div_mul|].
    split; [vals V Types; rewrite PS; cbn [size_of wid]; f_equal; rewrite Z.div_1_r; ring|].
    split; [vals V Mpirank; rewrite PS; cbn [size_of wid]; f_equal; replace (4 * cells d * n) with (n * cells d * 4) by ring; now apply Z.div_mul|].
    split; [vals V Blockno; rewrite PS; cbn [size_of wid]; f_equal; replace (4 * cells d * n) with (n * cells d * 4) by ring; now apply Z.div_mul|].
    split; [vals V Patchno; rewrite PS; cbn [size_of wid]; f_equal; replace (cells d * isz s * n) with (n * cells d * isz s) by ring; now apply Z.div_mul|].
    split; [exists (offset s Meqn); rewrite <- (m_grid d n s MD); exact (tag_ok s Meqn)|].
    split; [vals V Meqn; rewrite PS; cbn [size_of wid]; f_equal; replace (4 * meqn d * cells d * n) with (meqn d * (n * cells d) * 4) by ring; now apply Z.div_mul|].
    intros g r b p H i j k IG. pose proof (number_bounds _ _ _ _ _ _ DO H) as G. pose proof (cell_index_range d i j k IG) as CI.
    set (ci := cell_index d i j k) in *. assert (LC : len (zrange 0 (cells d)) = cells d) by (rewrite range_len; lia).
    assert (GC : 0 <= g * cells d /\ g * cells d + cells d <= n * cells d) by nia. assert (GP : 0 <= g * points d /\ g * points d + points d <= n * points d) by nia.
    assert (RB : 0 <= r < 256 ^ 4 /\ 0 <= b < 256 ^ 4).
    { destruct H as (D & num & bef & E1 & E2 & _). pose proof (zget_dom _ _ _ E1). pose proof (zget_dom _ _ _ E2). specialize (BLOCKS D (zget_some_in _ _ _ E1)). change (256 ^ 4) with 4294967296. unfold INT_MAX in *. lia. }
    split; [|split; [|split; [|split; [|split; [|split]]]]].
    - unfold Spec_Vtk.whole. change "Cells"%string with (part Types). change "types"%string with (name Types).
      rewrite (value_ok Types g r b p ci _ H ltac:(lia)); [|rewrite PS; cbn [size_of wid]; lia|rewrite PS; cbn [size_of wid]; ring].
      cbn [Proof_Vtk3.content wid]. unfold slice. rewrite Z.mul_1_r. rewrite (range_cons ci (ci + 1)) by lia. rewrite (range_nil (ci + 1) (ci + 1)) by lia. cbn [mapM]. rewrite zget_map, zget_range by lia. cbn [option_map bind le_val].
      f_equal. unfold cell_type. destruct (cube d); reflexivity.
    - apply (whole_enc Offsets (map (fun c => corners d * (cells d * g + 1) + corners d * c) (zrange 0 (cells d))) g r b p ci); try reflexivity; try assumption.
      + rewrite PS, map_length, LC. reflexivity.
      + rewrite zget_map, zget_range by lia. cbn [option_map]. f_equal. ring.
      + rewrite map_length, LC. reflexivity.
      + apply fits_enc. split; [nia|]. apply Z.le_trans with (corners d * (n * cells d + 1)); [|lia]. apply Z.mul_le_mono_nonneg_l; lia.
    - apply (whole_int Mpirank (map (fun _ => r) (zrange 0 (cells d))) g r b p ci); try reflexivity; try assumption; try apply RB.
      + rewrite PS, map_length, LC. reflexivity.
      + rewrite zget_map, zget_range by lia. reflexivity.
      + rewrite map_length, LC. reflexivity.
    - apply (whole_int Blockno (map (fun _ => b) (zrange 0 (cells d))) g r b p ci); try reflexivity; try assumption; try apply RB.
      + rewrite PS, map_length, LC. reflexivity.
      + rewrite zget_map, zget_range by lia. reflexivity.
      + rewrite map_length, LC. reflexivity.
    - apply (whole_enc Patchno (map (fun _ => g) (zrange 0 (cells d))) g r b p ci); try reflexivity; try assumption.
      + rewrite PS, map_length, LC. reflexivity.
      + rewrite zget_map, zget_range by lia. reflexivity.
      + rewrite map_length, LC. reflexivity.
      + apply fits_enc. split; [lia|]. apply Z.le_trans with (n * points d); [nia|lia].
    - intros m Hm. destruct (RS g r b p H) as [_ RD].
      assert (MB : 0 <= meqn d * ci + m < meqn d * cells d) by (split; [nia|]; apply Z.lt_le_trans with (meqn d * (ci + 1)); [lia|apply Z.mul_le_mono_nonneg_l; lia]).
      destruct (slice_some (data r b p) 4 (meqn d * ci + m) ltac:(lia) ltac:(lia) ltac:(lia)) as (v & E). exists v. split; [exact E|]. rewrite <- E.
      change "CellData"%string with (part Meqn). change "meqn"%string with (name Meqn).
      apply (value_ok Meqn g r b p); [exact H|lia| |]; rewrite PS; cbn [size_of wid]; [lia|ring].
    - intros v Hv. exists (points d * g + corner_point d i j k v). pose proof (corner_point_range d i j k v IG Hv) as CP. split; [|split].
      + apply (whole_enc Connectivity (connectivity d (points d * g)) g r b p (corners d * ci + v)); try reflexivity; try assumption.
        * rewrite PS, (conn_len d n) by exact SZ. reflexivity.
        * apply (conn_get d n); assumption.
        * rewrite (conn_len d n) by exact SZ. ring.
        * apply fits_enc. lia.
      + lia.
      + intros a Ha. unfold corner_point in *. destruct (corner v) as [[di dj] dk] eqn:EC. set (pi := point_index d (i + di) (j + dj) (k + dk)) in *.
        destruct (RS g r b p H) as [RC _]. destruct (slice_some (coordinates r b p) 8 (3 * pi + a) ltac:(lia) ltac:(lia) ltac:(lia)) as (x & E). exists x. split; [exact E|]. rewrite <- E.
        change "Points"%string with (part Position). change "Position"%string with (name Position).
        apply (value_ok Position g r b p); [exact H|lia| |]; rewrite PS; cbn [size_of wid]; [lia|ring].
  Qed.
End Read.
