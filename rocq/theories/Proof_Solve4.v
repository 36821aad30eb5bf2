(** The calls at corners and at the boundary of the domain. *)
From Coq Require Import ZArith QArith List Bool Lia.
From Verif Require Import Base_Float Model_Face Spec_Face Model_Mesh Spec_Mesh Model_Fill Model_FillExec Spec_Fill Proof_Fill1 Proof_Fill8 Model_Solve Spec_Solve Proof_Solve1 Proof_Solve2 Proof_Solve3.
From Verif Require Model_Grid Spec_Grid Prop_Grid Spec_Bc Model_Bc Prop_Bc Model_Corner Spec_Corner Prop_Corner Model_Ghost Spec_Ghost Model_Step Prop_Step.
Import ListNotations.
Open Scope Z_scope.

Section Calls.
  Variable w : world.
  Variable geo : geometry.
  Variable L : layout.
  Variable U : setup.
  Variables dx dy : Q.
  Variable X : field.
  Hypothesis LAID : laid_out w geo L.
  Hypothesis SETUP : setup_ok w L U dx dy X.
  Variable u : field.
  Notation d := (Model_Ghost.g_d (s_opts U)).
  Notation m := (Model_Grid.mx (Model_Ghost.g_d (s_opts U))).
  Notation mbc := (Model_Grid.mbc (Model_Ghost.g_d (s_opts U))).
  Notation rq := (rq L).
  Notation value := (value_at L m (s_mthbc U) u).
  Notation is_value := (is_value w geo rq).
  Notation wide := (Spec_Ghost.width_sent (s_opts U)).
  Notation right := (right L U u).
  Notation conf := (conf w geo L U u).
  Notation sizes := (sizes w L U dx dy X SETUP).
  Notation in_q_spec := (in_q_spec w L U dx dy X SETUP).

  Lemma range4 : forall f, 0 <= f < 4 -> negb ((0 <=? f) && (f <? 4)) = false.
  Proof. intros f Hf. destruct (Z.leb_spec 0 f), (Z.ltb_spec f 4); try reflexivity; lia. Qed.
  Lemma not4 : forall f, negb ((0 <=? f) && (f <? 4)) = false -> 0 <= f < 4.
  Proof. intros f H. destruct (Z.leb_spec 0 f), (Z.ltb_spec f 4); try discriminate; lia. Qed.

  Lemma same_of : forall x f, is_patch w x -> 0 <= f < 4 -> edge w x f = false -> exists y, face_of w x f = Same y (Spec_Grid.other_side f).
  Proof.
    intros x f Hx Hf E. destruct LAID as (_ & _ & _ & H). destruct (H x Hx) as (_ & _ & _ & HF & _). destruct (HF f Hf) as (_ & K). cbv zeta in K.
    destruct (exists_at L _); [destruct K as (y & _ & E' & _); exists y; exact E'|]. unfold edge in E. rewrite K in E. discriminate.
  Qed.
  Lemma at_face : forall x f, is_patch w x -> 0 <= f < 4 -> bface geo x f = at_block_face L x f.
  Proof. intros x f Hx Hf. destruct LAID as (_ & _ & _ & H). destruct (H x Hx) as (_ & _ & _ & HF & _). apply (HF f Hf). Qed.
  Lemma cf4 : forall c, 0 <= c < 4 -> 0 <= cfx c < 4 /\ 0 <= cfy c < 4. Proof. intros c Hc. four c; cbn; lia. Qed.

  Lemma corner_exists : forall x c, is_patch w x -> 0 <= c < 4 -> physical_corner w x c = false ->
    exists y, is_patch w y /\ diag w x c = Some (y, 3 - c) /\ pos L y = wrapped L (beside L (pos L x) (corner_step c)).
  Proof.
    intros x c Hx Hc P. pose proof (edges w geo L LAID x Hx) as (E0 & E1 & E2 & E3). unfold physical_corner in P. apply orb_false_iff in P. destruct P as [P1 P2].
    destruct LAID as (_ & _ & _ & H). destruct (H x Hx) as (_ & BX & BY & _ & HC). apply (HC c Hc). unfold exists_at, beside, moved.
    apply andb_true_iff.
    four c; cbn [corner_step fst snd Z.odd]; [change (cfx 0) with 0 in P1; change (cfy 0) with 2 in P2; change (0 / 2 =? 1) with false
    |change (cfx 1) with 1 in P1; change (cfy 1) with 2 in P2; change (1 / 2 =? 1) with false|change (cfx 2) with 0 in P1; change (cfy 2) with 3 in P2; change (2 / 2 =? 1) with true
    |change (cfx 3) with 1 in P1; change (cfy 3) with 3 in P2; change (3 / 2 =? 1) with true]; rewrite ?E0, ?E1 in P1; rewrite ?E2, ?E3 in P2; cbv iota;
    (split; [clear P2|clear P1]); (destruct (per_x L) || destruct (per_y L)); try reflexivity; try (destruct (per_y L)); try reflexivity; cbn [orb negb andb] in *; unfold inside;
    match goal with P : (_ =? _) = false |- _ => apply Z.eqb_neq in P end; apply andb_true_iff; rewrite Z.leb_le, Z.ltb_lt; lia.
  Qed.

  (** ** Copying across a corner *)
  Lemma run_one : forall (K : routine) p q c s,
    (forall x g, x <> p -> run [mkA (p, false, RCorner c) K [(q, false, RInt)]] s (x, false, g) = s (x, false, g)) /\
    (forall g, run [mkA (p, false, RCorner c) K [(q, false, RInt)]] s (p, false, g) =
       match g with RCorner c' => if c =? c' then App K [s (q, false, RInt)] else s (p, false, g) | _ => s (p, false, g) end).
  Proof.
    intros K p q c s. split.
    - intros x g N. rewrite run_other; [reflexivity|]. cbn. intros [E|[]]; congruence.
    - intros g. unfold run. cbn [map fold_left]. unfold step. cbn [target with_routine sources map]. rewrite key_same.
      destruct g as [|f' h|c']; reflexivity.
  Qed.

  Lemma copy_corner_sim : forall r s D px pq b1 b2 isb c ti t l, right_call w geo rq r (CopyCorner px pq b1 b2 isb c ti t) ->
    assigns w (place geo) r (CopyCorner px pq b1 b2 isb c ti t) = Some l -> conf r s D ->
    exists D', do_op w U r D (CopyCorner px pq b1 b2 isb c ti t) = Some D' /\ conf r (run l s) D'.
  Proof.
    intros r s D px pq b1 b2 isb c ti t l RC E C. destruct RC as (p & y & c' & G1 & G2 & Hp & Hc & PC & DG & LV0 & -> & -> & ->).
    destruct (corner_exists p c Hp Hc PC) as (y' & Hy & DG' & PY). rewrite DG in DG'. injection DG' as -> ->. pose proof (cf4 c Hc) as [C4 C5]. rewrite buf_false in *.
    assert (EI : corner_iface geo p c = iface L p c) by (unfold corner_iface, iface, block_corner; rewrite !at_face by assumption; reflexivity).
    assert (ET : ftrans_of (corner_trans w geo p c) = Some (trans_of (iface L p c) (0 <=? iface L p c))).
    { unfold corner_trans. rewrite EI. cbv zeta. destruct (Z.ltb_spec (iface L p c) 0) as [N|N], (Z.leb_spec 0 (iface L p c)) as [N'|N']; try lia; [reflexivity|]. cbn [ftrans_of trans_of]. do 2 f_equal.
      assert (iface L p c = cfx c \/ iface L p c = cfy c) as EI2.
      { clear - N. unfold iface in *. cbv zeta in *. destruct (at_block_face L p (cfx c)), (at_block_face L p (cfy c)); cbn [andb] in *; auto; lia. }
      unfold physical_corner in PC. apply orb_false_iff in PC. destruct PC as [P1 P2]. unfold rface.
      destruct EI2 as [-> | ->]; [destruct (same_of p (cfx c) Hp C4 P1) as (z & ->)|destruct (same_of p (cfy c) Hp C5 P2) as (z & ->)]; reflexivity. }
    cbn [assigns] in E. cbn [t_icorner t_block_corner t_block_iface t_trans] in E. match type of E with check ?b _ = _ => destruct b; cbn [check] in E; [|discriminate] end.
    unfold with_patches in E. rewrite G1 in E. cbn [bind] in E. rewrite G2 in E. cbn [bind] in E. injection E as <-.
    cbn [do_op]. unfold with_patches. rewrite G1. cbn [bind]. rewrite G2. cbn [bind]. unfold data_of. cbn [t_this t_nbr t_trans t_block_iface t_icorner t_block_corner]. rewrite G1. cbn [bind]. rewrite G2. cbn [bind].
    rewrite ET. cbn [bind]. unfold fill_ghost. rewrite orb_true_r.
    pose proof (corner_ok w geo L LAID p y' c _ _ Hc PY (geom w L U dx dy X SETUP p Hp) (geom w L U dx dy X SETUP y' Hy)) as TC. pose proof (geom w L U dx dy X SETUP p Hp) as (LV & _). pose proof (geom w L U dx dy X SETUP y' Hy) as (LV' & _).
    pose proof (via_ok L p c Hc) as (W1 & W2 & W3).
    destruct SETUP as (RN & SQ & _). pose proof sizes as (SY & S1 & S2 & S3 & S4). pose proof C as [C1 C2].
    assert (BC : block_corner geo p c = at_block_face L p (cfx c) && at_block_face L p (cfy c)) by (unfold block_corner; rewrite !at_face by assumption; reflexivity). rewrite EI, BC.
    destruct (Prop_Corner.C54_copy_corner _ RN d m _ _ _ _ _ _ _ (D y' false) (contents (D y' false)) (D p false) TC ltac:(congruence) ltac:(rewrite LV; exact SQ) ltac:(lia) (contents_hold w L U dx dy X SETUP _ (C2 y' Hy))) as (q' & EQ & V1 & V2).
    rewrite W3 in EQ. rewrite EQ. cbn [store bind]. eexists. split; [reflexivity|].
    pose proof (fun m a b => corner_cells L p c m a b Hc) as CC. cbv zeta in CC. set (f := via L p c) in *. clearbody f.
    match goal with |- conf r (run [mkA _ ?K _] s) _ => destruct (run_one K p y' c s) as [R1 R2] end.
    assert (V3 : forall i j k, Model_Grid.in_q d (i, j, k) = true -> ~ diagonal m c i j -> q' (i, j, k) = D p false (i, j, k)).
    { intros i j k _ N. apply V2. intros a b mq Ha Hb _ E. apply N. unfold Spec_Grid.at3 in E. injection E as -> -> _. apply (cell_diagonal m f c a b Hc W2); lia. }
    apply (conf_put w geo L U u r s _ D p q' C Hp).
    - intros [[i j] k] HI. pose proof HI as HI'. apply in_q_spec in HI'. destruct HI' as (Hi & Hj & Hk).
      assert (diagonal m c i j \/ ~ diagonal m c i j) as [N|N] by (unfold diagonal; destruct (Z.odd c), (c / 2 =? 1); lia).
      + destruct (diagonal_cell m mbc f c i j Hc W2 Hi Hj N) as (a & b & Ha & Hb & E1 & E2). cbv zeta in E1, E2. rewrite E1, E2.
        specialize (V1 a b k Ha Hb Hk). cbv zeta in V1. unfold Spec_Grid.at3 in V1. rewrite V1. discriminate.
      + rewrite V3 by assumption. apply C2; assumption.
    - exact R1.
    - intros g V. rewrite R2 in V.
      assert (UN : (forall i j, cell_in m g i j -> ~ diagonal m c i j) -> is_value p g (s (p, false, g)) -> right r p g q').
      { intros N V' i j k HI HC HN. rewrite V3; [apply (C1 p g Hp V'); assumption|exact HI|apply N, HC]. }
      destruct g as [|f' h|c'].
      + apply UN; [|exact V]. intros i j [Hi Hj]. clear - Hc Hi Hj. unfold diagonal. destruct (Z.odd c), (c / 2 =? 1); lia.
      + apply UN; [|exact V]. intros i j [HN _]. clear - HN S1. unfold diagonal.
        destruct (Z.eq_dec f' 0) as [->|N0]; [|destruct (Z.eq_dec f' 1) as [->|N1]; [|destruct (Z.eq_dec f' 2) as [->|N2]]];
          [cbn [next] in HN|cbn [next] in HN|cbn [next] in HN|]; try (destruct (Z.odd c), (c / 2 =? 1); lia).
        assert (1 <= i <= m /\ m < j) by (unfold next in HN; destruct f' as [|[ | |]|]; try exact HN; try (destruct p; [exact HN|exact HN|]); try congruence; try exact HN).
        destruct (Z.odd c), (c / 2 =? 1); lia.
      + destruct (Z.eqb_spec c c') as [EC|N]; [subst c'|].
        * apply value_args in V. destruct V as (l & RU & F2). cbn [Spec_Fill.rule] in RU. rewrite (range4 c Hc) in RU.
          unfold physical_corner in PC. apply orb_false_iff in PC. destruct PC as [P1 P2]. rewrite P1, P2 in RU.
          assert (l = [(y', RInt)]) as ->.
          { destruct (hanging_face w geo p c) as [f0|].
            - unfold face_interp in RU. destruct (face_of w p f0); try discriminate. destruct (_ <? _); discriminate.
            - rewrite DG, LV0, Z.eqb_refl in RU. inversion RU. reflexivity. }
          inversion F2 as [|? ? ? ? VY _]; subst. cbn [fst snd] in VY.
          intros i j k HI HN _. apply in_q_spec in HI. destruct HI as (Hi & Hj & Hk).
          destruct (diagonal_cell m mbc f c i j Hc W2 Hi Hj HN) as (a & b & Ha & Hb & E1 & E2). cbv zeta in E1, E2.
          specialize (V1 a b k Ha Hb Hk). cbv zeta in V1. unfold Spec_Grid.at3 in V1. rewrite <- E1, <- E2 in V1. rewrite V1.
          cbn [Spec_Grid.flip] in *. 
          destruct (inner_near w L U dx dy X SETUP (Spec_Grid.other_side f) a (Spec_Corner.from_end (negb (up f c)) m b) ltac:(clear - W1; four f; cbn; lia) Ha ltac:(unfold Spec_Corner.from_end; destruct (negb _); lia)) as ((B1 & B2) & B3). cbv zeta in B1, B2, B3.
          unfold contents. rewrite (near_int w L U dx dy X SETUP u r y' _ _ _ k (C1 y' RInt Hy VY) B1 B2 Hk B3). f_equal.
          rewrite (value_around w geo L LAID m S1 _ u p y' _ _ _ _ k PY). destruct (CC m a b) as [<- <-]. rewrite <- E1, <- E2. reflexivity.
        * apply UN; [|exact V]. inversion V as [|? ? k l vs RU F2 EV]; subst. cbn [Spec_Fill.rule] in RU.
          destruct (negb ((0 <=? c') && (c' <? 4))) eqn:Q; [discriminate|]. apply not4 in Q.
          intros i j HN HN'. clear - HN HN' Hc Q N S1. unfold cell_in, diagonal in *. four c; four c'; try lia; cbn in HN, HN'; lia.
  Qed.

  (** ** The boundary of the domain *)
  Lemma plist_others : forall x t s,
    run (plist w x t) s (x, t, RInt) = s (x, t, RInt) /\
    (forall f h, 0 <= f < 4 -> run (plist w x t) s (x, t, RFace f h) = if edge w x f then App (KPhysFace f h) [s (x, t, RInt)] else s (x, t, RFace f h)) /\
    (forall c, 0 <= c < 4 -> physical_corner w x c = false -> run (plist w x t) s (x, t, RCorner c) = s (x, t, RCorner c)).
  Proof.
    intros x t s. rewrite plist_lift.
    assert (filter (edge w x) (zrange 0 4) = (if edge w x 0 then [0] else []) ++ (if edge w x 1 then [1] else []) ++ (if edge w x 2 then [2] else []) ++ (if edge w x 3 then [3] else [])) as ->.
    { change (zrange 0 4) with [0; 1; 2; 3]. cbn [filter]. destruct (edge w x 0), (edge w x 1), (edge w x 2), (edge w x 3); reflexivity. }
    split; [|split].
    - rewrite run_lift. destruct (edge w x 0), (edge w x 1), (edge w x 2), (edge w x 3); reflexivity.
    - intros f h Hf. rewrite run_lift. four f; destruct h, (edge w x 0), (edge w x 1), (edge w x 2), (edge w x 3); reflexivity.
    - intros c Hc P. rewrite run_lift. unfold physical_corner in P. apply orb_false_iff in P. destruct P as [P1 P2].
      four c; [change (cfx 0) with 0 in P1; change (cfy 0) with 2 in P2|change (cfx 1) with 1 in P1; change (cfy 1) with 2 in P2
      |change (cfx 2) with 0 in P1; change (cfy 2) with 3 in P2|change (cfx 3) with 1 in P1; change (cfy 3) with 3 in P2]; rewrite P1, P2;
      repeat match goal with |- context [edge w x ?n] => destruct (edge w x n) end; reflexivity.
  Qed.

  (** images of cells *)
  Notation sd x := (Spec_Bc.side_of (s_mthbc U) (edge w x)).
  Lemma image_in : forall lo hi i, 1 - mbc <= i <= m + mbc ->
    let i' := Spec_Bc.image lo hi m i in
    (1 <= i <= m -> i' = i) /\
    (i < 1 -> match lo with Spec_Bc.Continues => i' = i | _ => 1 <= i' <= mbc end) /\
    (m < i -> match hi with Spec_Bc.Continues => i' = i | _ => m + 1 - mbc <= i' <= m end).
  Proof.
    intros lo hi i Hi. cbv zeta. pose proof sizes as (_ & S1 & S2 & S3 & _). unfold Spec_Bc.image.
    repeat split; intros; destruct (Z.ltb_spec i 1), (Z.ltb_spec m i); try lia; destruct lo, hi; lia.
  Qed.
  Lemma sd_edge : forall x f, sd x f = Spec_Bc.Continues <-> edge w x f = false.
  Proof. intros x f. unfold Spec_Bc.side_of. destruct (edge w x f); [|split; reflexivity]. destruct (s_mthbc U f =? 3); split; discriminate. Qed.

  Lemma physical_data : forall p q, is_patch w p -> assigned U q ->
    exists q', Model_Bc.clawpack46_bc2 d (s_mthbc U) (map (edge w p) (zrange 0 4)) q = Some q' /\ assigned U q' /\
      forall i j k, Model_Grid.in_q d (i, j, k) = true ->
        let i' := Spec_Bc.image (sd p 0) (sd p 1) m i in let j' := Spec_Bc.image (sd p 2) (sd p 3) m j in
        (q (i', j', k) = Some (value p i' j' k) -> q' (i, j, k) = Some (value p i j k)) /\
        (i' = i -> j' = j -> q' (i, j, k) = q (i, j, k)).
  Proof.
    intros p q Hp HA. pose proof sizes as (SY & S1 & S2 & S3 & S4).
    assert (LI : forall f, 0 <= f < 4 -> Prop_Bc.listed (map (edge w p) (zrange 0 4)) f = edge w p f) by (intros f Hf; four f; reflexivity).
    assert (UB : Spec_Bc.usable d (s_mthbc U) (Prop_Bc.listed (map (edge w p) (zrange 0 4)))).
    { intros f Hf E. rewrite LI in E by exact Hf. destruct SETUP as (_ & _ & _ & _ & _ & HB & _). apply (HB f Hf). pose proof (edges w geo L LAID p Hp) as (E0 & E1 & E2 & E3).
      four f; cbn; rewrite ?E0, ?E1, ?E2, ?E3 in E; apply andb_true_iff in E; destruct E as [E _]; apply negb_true_iff in E; exact E. }
    destruct (Prop_Bc.C55_values d (s_mthbc U) (map (edge w p) (zrange 0 4)) q ltac:(lia) ltac:(lia) ltac:(lia) UB) as (q' & E & V & _).
    assert (SL : forall f, 0 <= f < 4 -> Spec_Bc.side_of (s_mthbc U) (Prop_Bc.listed (map (edge w p) (zrange 0 4))) f = sd p f) by (intros f Hf; unfold Spec_Bc.side_of; rewrite LI by exact Hf; reflexivity).
    exists q'. split; [exact E|]. unfold Spec_Bc.bc_value in V. cbv zeta in V. rewrite !SL in V by lia. rewrite SY in V.
    assert (IM : forall i j k, Model_Grid.in_q d (i, j, k) = true -> Model_Grid.in_q d (Spec_Bc.image (sd p 0) (sd p 1) m i, Spec_Bc.image (sd p 2) (sd p 3) m j, k) = true).
    { intros i j k HI. rewrite in_q_spec in HI. apply in_q_spec. destruct HI as (Hi & Hj & Hk).
      destruct (image_in (sd p 0) (sd p 1) i Hi) as (A1 & A2 & A3). destruct (image_in (sd p 2) (sd p 3) j Hj) as (B1 & B2 & B3).
      set (i' := Spec_Bc.image (sd p 0) (sd p 1) m i) in *. set (j' := Spec_Bc.image (sd p 2) (sd p 3) m j) in *.
      split; [|split; [|exact Hk]].
      - destruct (Z_lt_dec i 1) as [Q|Q]; [specialize (A2 Q); destruct (sd p 0); lia|]. destruct (Z_lt_dec m i) as [Q'|Q']; [specialize (A3 Q'); destruct (sd p 1); lia|lia].
      - destruct (Z_lt_dec j 1) as [Q|Q]; [specialize (B2 Q); destruct (sd p 2); lia|]. destruct (Z_lt_dec m j) as [Q'|Q']; [specialize (B3 Q'); destruct (sd p 3); lia|lia]. }
    split.
    - intros [[i j] k] HI. rewrite (V i j k HI). pose proof (HA _ (IM i j k HI)) as HN.
      destruct (_ || _); [|exact HN]. destruct (q _); [discriminate|congruence].
    - intros i j k HI. pose proof HI as HI'. rewrite in_q_spec in HI'. destruct HI' as (Hi & Hj & Hk). cbv zeta. split.
      + intros HV. rewrite (V i j k HI), HV. pose proof (value_image w geo L LAID m S1 (s_mthbc U) u p i j k Hp ltac:(lia) ltac:(lia)) as VI. cbv zeta in VI. rewrite VI.
        destruct (_ || _); reflexivity.
      + intros EI EJ. rewrite (V i j k HI), EI, EJ.
        assert (MI : Spec_Bc.mirrored (sd p 0) (sd p 1) m i = false).
        { unfold Spec_Bc.image in EI. unfold Spec_Bc.mirrored. destruct (Z.ltb_spec i 1), (Z.ltb_spec m i); destruct (sd p 0), (sd p 1); try reflexivity; lia. }
        assert (MJ : Spec_Bc.mirrored (sd p 2) (sd p 3) m j = false).
        { unfold Spec_Bc.image in EJ. unfold Spec_Bc.mirrored. destruct (Z.ltb_spec j 1), (Z.ltb_spec m j); destruct (sd p 2), (sd p 3); try reflexivity; lia. }
        rewrite MI, MJ. reflexivity.
  Qed.

  Lemma physical_sim : forall r s D px t dt faces ti l, right_call w geo rq r (Physical px t dt faces ti) -> assigns w (place geo) r (Physical px t dt faces ti) = Some l -> conf r s D ->
    exists D', do_op w U r D (Physical px t dt faces ti) = Some D' /\ conf r (run l s) D'.
  Proof.
    intros r s D px t dt faces ti l RC E C. destruct RC as (p & G1 & Hp & -> & ET). rewrite (ET eq_refl) in *. clear ET ti.
    cbn [assigns] in E. rewrite G1 in E. cbn [bind] in E.
    assert (l = plist w p false) as ->.
    { injection E as <-. reflexivity. }
    clear E. cbn [do_op]. rewrite G1. cbn [bind]. pose proof C as [C1 C2]. pose proof sizes as (SY & S1 & S2 & S3 & S4).
    destruct (physical_data p (D p false) Hp (C2 p Hp)) as (q' & EQ & AQ & V). rewrite EQ. cbn [store bind]. eexists. split; [reflexivity|].
    destruct (plist_others p false s) as (R0 & R1 & R2). pose proof (plist_corners w p false s) as RC.
    apply (conf_put w geo L U u r s _ D p q' C Hp AQ).
    - intros x g N. apply run_other. intros T. apply plist_targets in T. cbn [fst] in T. congruence.
    - intros g HV.
      assert (INT : is_value p RInt (s (p, false, RInt)) -> right r p RInt (D p false)) by (intros H; apply (C1 p RInt Hp H)).
      destruct g as [|f h|c].
      + rewrite R0 in HV. intros i j k HI HC HN. destruct (V i j k HI) as [_ VI]. cbn [cell_in] in HC. pose proof HI as HI'. rewrite in_q_spec in HI'. destruct HI' as (Hi & Hj & Hk). rewrite VI.
        * apply (INT HV); assumption.
        * apply (image_in (sd p 0) (sd p 1) i Hi); lia.
        * apply (image_in (sd p 2) (sd p 3) j Hj); lia.
      + assert (0 <= f < 4) as Hf.
        { inversion HV as [|? ? k l vs RU F2 EV]; subst. cbn [Spec_Fill.rule] in RU. destruct (negb ((0 <=? f) && (f <? 4))) eqn:Q; [discriminate|]. apply not4, Q. }
        rewrite (R1 f h Hf) in HV. intros i j k HI [HN HH] _. destruct (V i j k HI) as [VI VS]. pose proof HI as HI'. rewrite in_q_spec in HI'. destruct HI' as (Hi & Hj & Hk).
        destruct (image_in (sd p 0) (sd p 1) i Hi) as (A1 & A2 & A3). destruct (image_in (sd p 2) (sd p 3) j Hj) as (B1 & B2 & B3). cbv zeta in *.
        pose proof (sd_edge p f) as SE. destruct (edge w p f) eqn:EE.
        * apply value_args in HV. destruct HV as (l & RU & F2). cbn [Spec_Fill.rule] in RU. rewrite (range4 f Hf) in RU.
          assert (face_of w p f = Edge) as EF by (unfold edge in EE; destruct (face_of w p f); try discriminate; reflexivity). rewrite EF in RU. assert (l = [(p, RInt)]) as -> by (inversion RU; reflexivity).
          inversion F2 as [|? ? ? ? VP _]; subst. cbn [fst snd] in VP. specialize (INT VP).
          assert (SE' : sd p f <> Spec_Bc.Continues) by (rewrite SE; discriminate).
          apply VI. set (i' := Spec_Bc.image (sd p 0) (sd p 1) m i) in *. set (j' := Spec_Bc.image (sd p 2) (sd p 3) m j) in *. clearbody i' j'.
          assert (1 <= i' <= m /\ 1 <= j' <= m /\ (i' <= mbc \/ m - mbc < i' \/ j' <= mbc \/ m - mbc < j')) as (I1 & J1 & NR).
          { clear - HN SE' A1 A2 A3 B1 B2 B3 S1 S2 S3 Hf.
            four f; cbn [next] in HN.
            - specialize (A2 ltac:(lia)). specialize (B1 ltac:(lia)). destruct (sd p 0); [congruence|lia|lia].
            - specialize (A3 ltac:(lia)). specialize (B1 ltac:(lia)). destruct (sd p 1); [congruence|lia|lia].
            - specialize (B2 ltac:(lia)). specialize (A1 ltac:(lia)). destruct (sd p 2); [congruence|lia|lia].
            - specialize (B3 ltac:(lia)). specialize (A1 ltac:(lia)). destruct (sd p 3); [congruence|lia|lia]. }
          apply (near_int w L U dx dy X SETUP u r p _ _ _ k INT I1 J1 Hk). unfold Spec_Ghost.near. rewrite SY. lia.
        * assert (Spec_Bc.image (sd p 0) (sd p 1) m i = i /\ Spec_Bc.image (sd p 2) (sd p 3) m j = j) as [EI EJ].
          { assert (SE' : sd p f = Spec_Bc.Continues) by (apply SE; reflexivity).
            clear - HN SE' A1 A2 A3 B1 B2 B3 S1 Hf. four f; cbn [next] in HN; rewrite SE' in *; split; auto; try (apply A1; lia); try (apply A2; lia); try (apply A3; lia); try (apply B1; lia); try (apply B2; lia); try (apply B3; lia). }
          rewrite (VS EI EJ). apply (C1 p (RFace f h) Hp HV); [exact HI|split; assumption|discriminate].
      + assert (0 <= c < 4) as Hc.
        { inversion HV as [|? ? k l vs RU F2 EV]; subst. cbn [Spec_Fill.rule] in RU. destruct (negb ((0 <=? c) && (c <? 4))) eqn:Q; [discriminate|]. apply not4, Q. }
        pose proof (cf4 c Hc) as [C4 C5]. destruct (RC c Hc) as [RC1 RC2]. cbv beta in RC1, RC2.
        intros i j k HI HD _. destruct (V i j k HI) as [VI VS]. pose proof HI as HI'. rewrite in_q_spec in HI'. destruct HI' as (Hi & Hj & Hk).
        destruct (image_in (sd p 0) (sd p 1) i Hi) as (A1 & A2 & A3). destruct (image_in (sd p 2) (sd p 3) j Hj) as (B1 & B2 & B3). cbv zeta in *.
        pose proof (sd_edge p (cfx c)) as SX. pose proof (sd_edge p (cfy c)) as SY'.
        set (i' := Spec_Bc.image (sd p 0) (sd p 1) m i) in *. set (j' := Spec_Bc.image (sd p 2) (sd p 3) m j) in *.
        assert (XX : if edge w p (cfx c) then (if Z.odd c then m + 1 - mbc <= i' <= m else 1 <= i' <= mbc) else i' = i).
        { clear - HD SX A2 A3 Hc S1. clearbody i'. destruct HD as [HD _]. four c; cbn [Z.odd] in *;
          [change (cfx 0) with 0 in *|change (cfx 1) with 1 in *|change (cfx 2) with 0 in *|change (cfx 3) with 1 in *];
          ((specialize (A2 HD); clear A3) || (specialize (A3 HD); clear A2)); match goal with |- if edge w p ?n then _ else _ => destruct (edge w p n), (sd p n) end; try assumption;
          destruct SX as [SX1 SX2]; try (specialize (SX1 eq_refl)); try (specialize (SX2 eq_refl)); discriminate. }
        assert (YY : if edge w p (cfy c) then (if c / 2 =? 1 then m + 1 - mbc <= j' <= m else 1 <= j' <= mbc) else j' = j).
        { clear - HD SY' B2 B3 Hc S1. clearbody j'. destruct HD as [_ HD]. four c;
          [change (cfy 0) with 2 in *; change (0 / 2 =? 1) with false in *|change (cfy 1) with 2 in *; change (1 / 2 =? 1) with false in *|change (cfy 2) with 3 in *; change (2 / 2 =? 1) with true in *|change (cfy 3) with 3 in *; change (3 / 2 =? 1) with true in *]; cbv iota in HD;
          ((specialize (B2 HD); clear B3) || (specialize (B3 HD); clear B2)); match goal with |- if edge w p ?n then _ else _ => destruct (edge w p n), (sd p n) end; try assumption;
          destruct SY' as [SX1 SX2]; try (specialize (SX1 eq_refl)); try (specialize (SX2 eq_refl)); discriminate. }
        clearbody i' j'. destruct HD as [HDX HDY].
        destruct (edge w p (cfy c)) eqn:EY.
        * rewrite (RC1 eq_refl) in HV. apply value_args in HV. destruct HV as (l & RU & F2). cbn [Spec_Fill.rule] in RU. rewrite (range4 c Hc), EY in RU. assert (l = [(p, RFace (cfx c) (nearx c))]) as -> by (inversion RU; reflexivity).
          inversion F2 as [|? ? ? ? VP _]; subst. cbn [fst snd] in VP. rewrite (R1 _ _ C4) in VP. apply VI. destruct (edge w p (cfx c)) eqn:EX.
          -- apply value_args in VP. destruct VP as (l' & RU' & F2'). cbn [Spec_Fill.rule] in RU'. rewrite (range4 _ C4) in RU'.
             assert (face_of w p (cfx c) = Edge) as EF by (unfold edge in EX; destruct (face_of w p (cfx c)); try discriminate; reflexivity). rewrite EF in RU'. assert (l' = [(p, RInt)]) as -> by (inversion RU'; reflexivity).
             inversion F2' as [|? ? ? ? VQ _]; subst. cbn [fst snd] in VQ. specialize (INT VQ).
             apply (near_int w L U dx dy X SETUP u r p _ _ _ k INT).
             ++ destruct (Z.odd c); lia.
             ++ destruct (c / 2 =? 1); lia.
             ++ exact Hk.
             ++ unfold Spec_Ghost.near. rewrite SY. destruct (Z.odd c), (c / 2 =? 1); lia.
          -- subst i'. apply (C1 p _ Hp VP); [apply in_q_spec; split; [exact Hi|]; split; [destruct (c / 2 =? 1); lia|exact Hk]| |discriminate].
             split; [clear - HDX YY Hc S1 S2 S3; four c; cbn in HDX; [change (0 / 2 =? 1) with false in *|change (1 / 2 =? 1) with false in *|change (2 / 2 =? 1) with true in *|change (3 / 2 =? 1) with true in *]; cbv iota in YY; cbn; lia|].
             unfold half. replace (cfx c <? 2) with true by (clear - Hc; four c; reflexivity). cbv zeta. replace (nearx c) with (c / 2 =? 1) by (clear - Hc; four c; reflexivity). destruct (c / 2 =? 1); lia.
        * destruct (edge w p (cfx c)) eqn:EX.
          -- rewrite (RC2 eq_refl eq_refl) in HV. apply value_args in HV. destruct HV as (l & RU & F2). cbn [Spec_Fill.rule] in RU. rewrite (range4 c Hc), EY, EX in RU. assert (l = [(p, RFace (cfy c) (neary c))]) as -> by (inversion RU; reflexivity).
             inversion F2 as [|? ? ? ? VP _]; subst. cbn [fst snd] in VP. rewrite (R1 _ _ C5), EY in VP. apply VI.
             apply (C1 p _ Hp VP); [apply in_q_spec; split; [destruct (Z.odd c); lia|]; split; [exact Hj|exact Hk]| |discriminate].
             split; [clear - HDY XX Hc S1 S2 S3; four c; cbn in XX; [change (0 / 2 =? 1) with false in *|change (1 / 2 =? 1) with false in *|change (2 / 2 =? 1) with true in *|change (3 / 2 =? 1) with true in *]; cbv iota in HDY; cbn; lia|].
             unfold half. replace (cfy c <? 2) with false by (clear - Hc; four c; reflexivity). cbv zeta. unfold neary. destruct (Z.odd c); lia.
          -- subst i' j'. rewrite VS by reflexivity. rewrite (R2 c Hc) in HV by (unfold physical_corner; rewrite EX, EY; reflexivity).
             apply (C1 p _ Hp HV); [exact HI|split; assumption|discriminate].
  Qed.
End Calls.
