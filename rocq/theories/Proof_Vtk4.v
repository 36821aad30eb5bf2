(** Lemmas about what is written and where. *)
From Coq Require Import ZArith List Bool Lia.
From Verif Require Import Base_Mem Model_Mesh Proof_Mesh Model_Vtk Spec_Vtk Proof_Vtk1 Proof_Vtk2 Proof_Vtk3.
Import ListNotations.
Open Scope Z_scope.

Section Writes.
  Variable d : grid.
  Variable n : Z.
  Variable s : state.
  Variable Ds : list dom.
  Variable coordinates data : Z -> Z -> Z -> list Z.
  Variable cc vc : Z -> Z -> Z -> option (list Z).
  Hypothesis SZ : sizes_ok d n.
  Hypothesis MD : made d n s.
  Hypothesis DO : domains_ok n Ds.
  Hypothesis RS : right_sizes d Ds coordinates data.
  Hypothesis CC : forall g r b p, is_number Ds g r b p -> cc r b p = Some (coordinates r b p) /\ vc r b p = Some (data r b p).
  Variable begin : Z.
  Notation content := (content d s coordinates data).

  (** the pieces of the file *)
  Inductive key := KCount (f : field) | KPatch (f : field) (g r b p : Z).
  Definition kfield (k : key) : field := match k with KCount f | KPatch f _ _ _ _ => f end.
  Definition kpos (k : key) : Z := match k with KCount f => begin + offset s f | KPatch f g _ _ _ => begin + offset s f + 8 + psize s f * g end.
  Definition kbytes (k : key) : list Z := match k with KCount f => le_bytes 8 (psize s f * n) | KPatch f g r b p => content f g r b p end.
  Definition is_key (k : key) : Prop := match k with KCount _ => True | KPatch _ g r b p => is_number Ds g r b p end.
  Definition kwrite (k : key) : Z * list Z := (kpos k, kbytes k).
  Definition klen (k : key) : Z := match k with KCount _ => 8 | KPatch f _ _ _ _ => psize s f end.

  Lemma klen_ok : forall k, is_key k -> len (kbytes k) = klen k.
  Proof. intros [f|f g r b p] H; [reflexivity|]. exact (content_len d n s Ds coordinates data SZ MD RS f g r b p H). Qed.
  Lemma psize_pos : forall f, 1 <= psize s f <= INT_MAX.
  Proof.
    intros f. rewrite (m_psize d n s MD). pose proof (grid_pos d n SZ) as (P & C & _). destruct SZ as (_ & _ & _ & H4 & _ & H6 & H7 & H8 & _). unfold INT_MAX in *.
    assert (W : isz s = 4 \/ isz s = 8) by (unfold isz; destruct (fits32 s); lia). assert (K : corners d = 4 \/ corners d = 8) by (unfold corners; destruct (cube d); lia).
    destruct f; cbn [size_of]; try lia; try (destruct W as [-> | ->]; lia); try (destruct W as [-> | ->], K as [-> | ->]; lia).
  Qed.
  Definition fnum (f : field) : Z := match f with Position => 0 | Connectivity => 1 | Offsets => 2 | Types => 3 | Mpirank => 4 | Blockno => 5 | Patchno => 6 | Meqn => 7 end.
  Lemma n_pos : 0 <= n. Proof. apply SZ. Qed.
  Lemma total_pos : forall f, 0 <= psize s f * n.
  Proof. intros f. pose proof (psize_pos f). pose proof n_pos. nia. Qed.
  Lemma offset_order : forall f f', fnum f < fnum f' -> offset s f + 8 + psize s f * n <= offset s f'.
  Proof.
    intros f f' H. destruct (m_chain d n s MD) as (C0 & C1 & C2 & C3 & C4 & C5 & C6 & C7 & _).
    pose proof (total_pos Position). pose proof (total_pos Connectivity). pose proof (total_pos Offsets). pose proof (total_pos Types).
    pose proof (total_pos Mpirank). pose proof (total_pos Blockno). pose proof (total_pos Patchno). pose proof (total_pos Meqn).
    destruct f, f'; cbn [fnum] in H; lia.
  Qed.
  Lemma offset_bounds : forall f, 0 <= offset s f /\ offset s f + 8 + psize s f * n <= offset_end s.
  Proof.
    intros f. destruct (m_chain d n s MD) as (C0 & C1 & C2 & C3 & C4 & C5 & C6 & C7 & C8).
    pose proof (total_pos Position). pose proof (total_pos Connectivity). pose proof (total_pos Offsets). pose proof (total_pos Types).
    pose proof (total_pos Mpirank). pose proof (total_pos Blockno). pose proof (total_pos Patchno). pose proof (total_pos Meqn).
    destruct f; lia.
  Qed.
  (** a piece lies in its array *)
  Lemma key_in : forall k, is_key k -> begin + offset s (kfield k) <= kpos k /\ kpos k + klen k <= begin + offset s (kfield k) + 8 + psize s (kfield k) * n.
  Proof.
    intros [f|f g r b p] H; cbn [kfield kpos klen].
    - pose proof (total_pos f). lia.
    - pose proof (number_bounds _ _ _ _ _ _ DO H). pose proof (psize_pos f). nia.
  Qed.
  Lemma fnum_inj : forall f f', fnum f = fnum f' -> f = f'.
  Proof. intros f f' H. destruct f, f'; cbn in H; first [reflexivity|lia]. Qed.
  (** no two pieces share a byte *)
  Lemma key_disjoint : forall k k' o, is_key k -> is_key k' -> kpos k <= o < kpos k + klen k -> kpos k' <= o < kpos k' + klen k' -> k = k'.
  Proof.
    intros k k' o H H' B B'. pose proof (key_in k H) as (I1 & I2). pose proof (key_in k' H') as (J1 & J2).
    destruct (Z.lt_trichotomy (fnum (kfield k)) (fnum (kfield k'))) as [L|[L|L]].
    - pose proof (offset_order _ _ L). lia.
    - apply fnum_inj in L. destruct k as [f|f g r b p], k' as [f'|f' g' r' b' p']; cbn [kfield kpos klen is_key] in *; subst f'; [reflexivity| | |].
      + exfalso. pose proof (number_bounds _ _ _ _ _ _ DO H'). pose proof (psize_pos f). nia.
      + exfalso. pose proof (number_bounds _ _ _ _ _ _ DO H). pose proof (psize_pos f). nia.
      + assert (g = g') by (pose proof (psize_pos f); nia). subst g'. destruct (number_fun _ _ _ _ _ _ _ _ _ DO H H') as (-> & -> & ->). reflexivity.
    - pose proof (offset_order _ _ L). lia.
  Qed.

  (** *** The writes of a process *)
  Variable mpiio : bool.
  Variable junk : field -> Z -> Z.
  Section Proc.
    Variable r : Z.
    Variable D : dom.
    Hypothesis ED : zget Ds r = Some D.
    Hypothesis MODE : mpiio = true \/ Ds = [D].
    Let G0 := global_num_patches_before D.

    Lemma rank_ok : mpirank D = r /\ 0 <= r /\ counts_ok 0 (blocks D) /\ 0 <= G0 /\ global_num_patches D = n /\ (Ds = [D] -> G0 = 0 /\ local_num D = n).
    Proof.
      pose proof DO as (_ & OK & GN & TN). destruct (rank_get Ds 0 0 r D OK ltac:(rewrite Z.sub_0_r; exact ED)) as (A & B & C & E). pose proof (zget_dom _ _ _ ED).
      repeat split; try assumption; try lia.
      - apply GN. exact (zget_some_in _ _ _ ED).
      - rewrite H0 in OK. destruct OK as (_ & X & _). exact X.
      - rewrite H0 in TN. cbn [fold_right] in TN. lia.
    Qed.
    Lemma write_patches_ok : forall f l t0 pos, (forall t b p, zget l t = Some (b, p) -> is_number Ds (G0 + t0 + t) r b p) -> pos = begin + offset s f + 8 + psize s f * (G0 + t0) ->
      exists ws, write_patches s D (cc (mpirank D)) (vc (mpirank D)) mpiio (junk f) f l pos = Some (ws, pos + psize s f * len l) /\
        forall w, In w ws <-> exists t b p, zget l t = Some (b, p) /\ w = kwrite (KPatch f (G0 + t0 + t) r b p).
    Proof.
      intros f l. destruct rank_ok as (RK & R0 & _ & _ & _ & SER). induction l as [|[b p] l IH]; intros t0 pos H EP.
      - exists []. split; [cbn [write_patches length]; f_equal; f_equal; lia|]. intros w. split; [intros []|]. intros (t & b & p & E & _). apply zget_dom in E. cbn in E. lia.
      - cbn [write_patches]. assert (H0 : is_number Ds (G0 + t0 + 0) r b p) by (apply H; reflexivity).
        rewrite (callback_ok d n s Ds coordinates data cc vc SZ MD DO CC f _ r b p D H0 ED). cbn [bind].
        pose proof (content_len d n s Ds coordinates data SZ MD RS f _ r b p H0) as L. pose proof (psize_pos f) as PP.
        unfold buffer. rewrite L, Z.leb_refl. cbn [check bind]. rewrite range_nil by lia. cbn [map]. rewrite app_nil_r.
        unfold write_buffer. rewrite L. replace (if mpiio then psize s f <=? INT_MAX else (mpirank D =? 0) && (0 <? psize s f)) with true.
        2:{ destruct mpiio eqn:EM; [symmetry; apply Z.leb_le; lia|]. destruct MODE as [X|X]; [discriminate|]. pose proof (zget_dom _ _ _ ED) as B. rewrite X in B. cbn in B. replace (mpirank D) with 0 by lia.
            symmetry. apply andb_true_intro. split; [reflexivity|]. apply Z.ltb_lt. lia. }
        cbn [check bind].
        destruct (IH (t0 + 1) (pos + psize s f)) as (ws & E & M).
        { intros t b' p' E. replace (G0 + (t0 + 1) + t) with (G0 + t0 + (t + 1)) by lia. apply H. pose proof (zget_dom _ _ _ E). rewrite zget_cons. destruct (Z.eqb_spec (t + 1) 0); [lia|]. replace (t + 1 - 1) with t by lia. exact E. }
        { rewrite EP. ring. }
        rewrite E. cbn [bind]. eexists. split; [f_equal; f_equal; cbn [length]; lia|]. intros w. split.
        + intros [<-|Hw].
          * exists 0, b, p. split; [reflexivity|]. unfold kwrite. cbn [kpos kbytes]. rewrite Z.add_0_r. rewrite EP. reflexivity.
          * apply M in Hw. destruct Hw as (t & b' & p' & E' & ->). exists (t + 1), b', p'. pose proof (zget_dom _ _ _ E'). rewrite zget_cons. destruct (Z.eqb_spec (t + 1) 0); [lia|]. replace (t + 1 - 1) with t by lia.
            split; [exact E'|]. do 2 f_equal. lia.
        + intros (t & b' & p' & E' & ->). rewrite zget_cons in E'. destruct (Z.eqb_spec t 0) as [->|N].
          * injection E' as <- <-. left. unfold kwrite. cbn [kpos kbytes]. rewrite Z.add_0_r. rewrite EP. reflexivity.
          * right. apply M. exists (t - 1), b', p'. split; [exact E'|]. do 2 f_equal. lia.
    Qed.
    Lemma local_number : forall t b p, zget (local_patches D) t = Some (b, p) <-> is_number Ds (G0 + t) r b p.
    Proof.
      intros t b p. destruct rank_ok as (RK & R0 & C & _). split.
      - intros E. destruct (from_get _ _ _ _ _ _ C E) as (num & E2 & E3). rewrite Z.sub_0_r in E2. exists D, num, (0 + t - p). split; [exact ED|]. split; [exact E2|]. split; [exact E3|]. fold G0. lia.
      - intros (D' & num & bef & E1 & E2 & E3 & E4). assert (D' = D) by congruence. subst D'. destruct (get_from (blocks D) 0 0 b num bef p C ltac:(rewrite Z.sub_0_r; exact E2) E3) as (X & _).
        unfold local_patches. rewrite <- X. f_equal. fold G0 in E4. lia.
    Qed.
    Definition end_pos (f : field) : Z := begin + offset s f + 8 + psize s f * (G0 + local_num D).
    Lemma write_field_ok : forall f pos, mpiio = true \/ pos = begin + offset s f ->
      exists ws, write_field s D (cc (mpirank D)) (vc (mpirank D)) mpiio junk begin f pos = Some (ws, end_pos f) /\
        forall w, In w ws <-> (r = 0 /\ w = kwrite (KCount f)) \/ exists g b p, is_number Ds g r b p /\ w = kwrite (KPatch f g r b p).
    Proof.
      intros f pos HP. destruct rank_ok as (RK & R0 & C & GP & GT & SER). unfold write_field.
      set (p1 := if mpiio then begin + offset s f + (if 0 <? mpirank D then ndsize + psize s f * global_num_patches_before D else 0) else pos).
      assert (G00 : r = 0 -> G0 = 0).
      { intros ->. pose proof DO as (_ & OK & _ & _). destruct Ds as [|D0 l]; [discriminate ED|]. cbn in ED. injection ED as ->. destruct OK as (_ & X & _). exact X. }
      assert (E1 : (if mpirank D =? 0 then p1 + ndsize else p1) = begin + offset s f + 8 + psize s f * (G0 + 0)).
      { unfold p1, ndsize. rewrite RK, Z.add_0_r. fold G0. destruct (Z.eqb_spec r 0) as [Er|Er].
        - rewrite (G00 Er), Er. change (0 <? 0) with false. cbv iota. destruct mpiio eqn:EM; [lia|]. destruct HP as [X|X]; [discriminate|lia].
        - destruct mpiio eqn:EM; [|exfalso; destruct MODE as [X|X]; [discriminate|]; pose proof (zget_dom _ _ _ ED) as B; rewrite X in B; cbn in B; lia].
          destruct (Z.ltb_spec 0 r); [lia|]. lia. }
      rewrite E1. destruct (write_patches_ok f (local_patches D) 0 _ ltac:(intros t b p E; apply local_number in E; now rewrite Z.add_0_r) eq_refl) as (ws & E & M).
      rewrite E. cbn [bind]. assert (L : len (local_patches D) = local_num D) by exact (from_len _ _ _ C). rewrite L.
      assert (P0 : r = 0 -> p1 = begin + offset s f).
      { intros Er. rewrite RK, Er in E1. change (0 =? 0) with true in E1. cbv iota in E1. unfold ndsize in E1. rewrite (G00 Er) in E1. lia. }
      eexists. split; [f_equal; f_equal; unfold end_pos; lia|]. intros w. rewrite in_app_iff. rewrite M. rewrite RK.
      assert (PQ : (exists t b p, zget (local_patches D) t = Some (b, p) /\ w = kwrite (KPatch f (G0 + 0 + t) r b p)) <-> exists g b p, is_number Ds g r b p /\ w = kwrite (KPatch f g r b p)).
      { split.
        - intros (t & b & p & X & ->). exists (G0 + t), b, p. split; [now apply local_number|]. now rewrite Z.add_0_r.
        - intros (g & b & p & X & ->). exists (g - G0), b, p. split; [apply local_number; replace (G0 + (g - G0)) with g by lia; exact X|]. do 2 f_equal. lia. }
      rewrite PQ. destruct (Z.eqb_spec r 0) as [Er|Er].
      - split; (intros [X|X]; [left|right; exact X]).
        + destruct X as [<-|[]]. split; [exact Er|]. unfold kwrite. cbn [kpos kbytes]. now rewrite (P0 Er), GT.
        + destruct X as (_ & ->). left. unfold kwrite. cbn [kpos kbytes]. now rewrite (P0 Er), GT.
      - split; [intros [[]|X]; now right|]. intros [[X _]|X]; [lia|now right].
    Qed.
    Lemma write_data_ok : exists ws, write_data s D (cc (mpirank D)) (vc (mpirank D)) mpiio junk begin = Some ws /\
        forall w, In w ws <-> exists k, is_key k /\ w = kwrite k /\ (match k with KCount _ => r = 0 | KPatch _ _ r' _ _ => r' = r end).
    Proof.
      destruct rank_ok as (RK & R0 & C & GP & GT & SER). destruct (m_chain d n s MD) as (C0 & C1 & C2 & C3 & C4 & C5 & C6 & C7 & _).
      assert (NX : forall f f', offset s f' = 8 + offset s f + psize s f * n -> mpiio = true \/ end_pos f = begin + offset s f').
      { intros f f' E. destruct MODE as [X|X]; [left; exact X|right]. destruct (SER X) as (S1 & S2). unfold end_pos. rewrite S1, S2, E. change (0 + n) with n. lia. }
      destruct (write_field_ok Position begin ltac:(right; lia)) as (w0 & E0 & M0).
      destruct (write_field_ok Connectivity _ (NX _ _ C1)) as (w1 & E1 & M1). destruct (write_field_ok Offsets _ (NX _ _ C2)) as (w2 & E2 & M2).
      destruct (write_field_ok Types _ (NX _ _ C3)) as (w3 & E3 & M3). destruct (write_field_ok Mpirank _ (NX _ _ C4)) as (w4 & E4 & M4).
      destruct (write_field_ok Blockno _ (NX _ _ C5)) as (w5 & E5 & M5). destruct (write_field_ok Patchno _ (NX _ _ C6)) as (w6 & E6 & M6).
      destruct (write_field_ok Meqn _ (NX _ _ C7)) as (w7 & E7 & M7).
      unfold write_data, fields. cbn [write_fields]. rewrite E0. cbn [bind]. rewrite E1. cbn [bind]. rewrite E2. cbn [bind]. rewrite E3. cbn [bind]. rewrite E4. cbn [bind].
      rewrite E5. cbn [bind]. rewrite E6. cbn [bind]. rewrite E7. cbn [bind]. eexists. split; [reflexivity|]. intros w. rewrite !in_app_iff, M0, M1, M2, M3, M4, M5, M6, M7. split.
      - intros X. assert (Y : exists f, (r = 0 /\ w = kwrite (KCount f)) \/ exists g b p, is_number Ds g r b p /\ w = kwrite (KPatch f g r b p)).
        { repeat (destruct X as [X|X]; [eexists; exact X|]). destruct X. }
        destruct Y as (f & [(Y1 & ->)|(g & b & p & Y1 & ->)]); eexists; (split; [|split; [reflexivity|]]); cbn [is_key]; try exact Logic.I; try assumption; reflexivity.
      - intros ([f|f g r' b p] & K & -> & X).
        + assert (Y : forall f', f = f' -> (r = 0 /\ kwrite (KCount f) = kwrite (KCount f')) \/ exists g b p, is_number Ds g r b p /\ kwrite (KCount f) = kwrite (KPatch f' g r b p)) by (intros f' <-; left; split; [exact X|reflexivity]).
          destruct f; specialize (Y _ eq_refl); tauto.
        + subst r'. assert (Y : forall f', f = f' -> (r = 0 /\ kwrite (KPatch f g r b p) = kwrite (KCount f')) \/ exists g' b' p', is_number Ds g' r b' p' /\ kwrite (KPatch f g r b p) = kwrite (KPatch f' g' r b' p')).
          { intros f' <-. right. exists g, b, p. split; [exact K|reflexivity]. }
          destruct f; specialize (Y _ eq_refl); tauto.
    Qed.
  End Proc.
End Writes.
