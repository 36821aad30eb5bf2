(** Copying and averaging across faces. *)
From Coq Require Import ZArith QArith Qminmax Qabs List Lia Lqa Bool Qfield Permutation.
From Verif Require Import Base_Float Model_Face Spec_Face Proof_Face Proof_Face1 Proof_Face2 Proof_Face3
  Proof_Face4 Proof_Face5 Model_Grid Spec_Grid Proof_Grid Proof_Grid2.
Import ListNotations.
Open Scope Z_scope.

Lemma index_coord_inj : forall lw lev m b i i', 0 <= lev -> 1 <= m ->
  (index_coord lw lev m b i == index_coord lw lev m b i')%Q -> i = i'.
Proof.
  intros lw lev m b i i' Hl Hm E. pose proof (pow2_pos lev Hl). unfold index_coord in E.
  assert (E' : (inject_Z i / inject_Z (m * 2 ^ lev) == inject_Z i' / inject_Z (m * 2 ^ lev))%Q).
  { rewrite inject_Z_mult.
    transitivity (lw + (inject_Z i - inject_Z b / 2) / (inject_Z m * inject_Z (2 ^ lev))
        - (lw - (inject_Z b / 2) / (inject_Z m * inject_Z (2 ^ lev))))%Q; [field; split; apply inject_Z_nz; lia|].
    rewrite E. field; split; apply inject_Z_nz; lia. }
  apply frac_eq in E'; [exact E'|nia].
Qed.

Lemma cell_coord_inj : forall lw lev m b i i', 0 <= lev -> 1 <= m ->
  (cell_coord lw lev m b i == cell_coord lw lev m b i')%Q -> i = i'.
Proof.
  intros lw lev m b i i' Hl Hm E. pose proof (pow2_pos lev Hl). unfold cell_coord in E.
  assert (E' : (inject_Z (i - b) / inject_Z (m * 2 ^ lev) == inject_Z (i' - b) / inject_Z (m * 2 ^ lev))%Q).
  { rewrite inject_Z_mult.
    transitivity (lw + (inject_Z (i - b) + (1 # 2)) / (inject_Z m * inject_Z (2 ^ lev))
        - (lw + (1 # 2) / (inject_Z m * inject_Z (2 ^ lev))))%Q; [field; split; apply inject_Z_nz; lia|].
    rewrite E. field; split; apply inject_Z_nz; lia. }
  apply frac_eq in E'; [lia|nia].
Qed.

(** depth and position of an index pair beyond face f *)
Definition depth (f m : Z) (p : Z * Z) : Z :=
  match f with 0 => 1 - fst p | 1 => fst p - m | 2 => 1 - snd p | _ => snd p - m end.
Definition posn (f : Z) (p : Z * Z) : Z := match f with 0 | 1 => snd p | _ => fst p end.
Lemma ghost_depth : forall f m p, 0 <= f < 4 -> ghost_cell f m (depth f m p) (posn f p) = p.
Proof.
  intros f m [i j] Hf. face4 f Hf; cbn [ghost_cell depth posn fst snd]; f_equal; lia.
Qed.
Lemma depth_ghost : forall f m dep t, 0 <= f < 4 ->
  depth f m (ghost_cell f m dep t) = dep /\ posn f (ghost_cell f m dep t) = t.
Proof. intros f m dep t Hf. face4 f Hf; cbn [ghost_cell depth posn fst snd]; lia. Qed.

Definition image (f nf : Z) (o : bool) (m : Z) (p : Z * Z) : Z * Z :=
  inner_cell nf m (depth f m p) (flip o m (posn f p)).

Section Face.
  Variable rnd : Q -> Q.
  Hypothesis Hrnd : rounding rnd.

  (** as [ghost_layer_ok], for the indices near the patch that the code probes *)
  Lemma across_ok : forall ip op f nf (o : bool) m dep t i j i' j',
    quadrant D2 ip -> quadrant D2 op -> level ip = level op ->
    0 <= f < 4 -> 0 <= nf < 4 ->
    touches_face f ip -> touches_face nf op ->
    (along nf op == if o then 1 - along f ip - width ip else along f ip)%Q ->
    1 <= m < 2 ^ 30 -> 2 ^ level ip * m <= 2 ^ 49 ->
    - m <= dep <= m + 1 -> 0 <= t <= m + 1 ->
    ghost_cell f m dep t = (i, j) ->
    inner_cell nf m dep (if o then m + 1 - t else t) = (i', j') ->
    transform_face rnd D2 ip op (expand_face_transform_2d f (b2z o * 4 + nf)) m m 0 1 i j 0
      = Some (i', j', 0).
  Proof.
    intros ip op f nf o m dep t i j i' j' Hi Ho Hl Hf Hn T1 T2 AL Hm HR Hd Ht Gc Ic.
    assert (Hlev : 0 <= level ip) by (destruct Hi as (? & _); lia).
    pose proof (pow2_pos (level ip) Hlev) as PP.
    apply (transform_face_rel rnd Hrnd D2 ip op (glue2d f nf o)); try assumption; try lia; try discriminate.
    - apply expand_describes; assumption.
    - split.
      + face4 f Hf; face4 nf Hn; reflexivity.
      + intros ma tb rev [E|[]]. injection E as <- <- <-. face4 f Hf; face4 nf Hn; reflexivity.
    - split; [split; lia|]. split; [split; lia|discriminate].
    - unfold in_int, int_min, int_max. face4 f Hf; (cbv beta iota delta [ghost_cell] in Gc; apply pair_equal_spec in Gc; destruct Gc as [<- <-]); lia.
    - unfold in_int, int_min, int_max. face4 f Hf; (cbv beta iota delta [ghost_cell] in Gc; apply pair_equal_spec in Gc; destruct Gc as [<- <-]); lia.
    - unfold in_int, int_min, int_max. destruct o; face4 nf Hn; (cbv beta iota delta [inner_cell] in Ic; apply pair_equal_spec in Ic; destruct Ic as [<- <-]); lia.
    - unfold in_int, int_min, int_max. destruct o; face4 nf Hn; (cbv beta iota delta [inner_cell] in Ic; apply pair_equal_spec in Ic; destruct Ic as [<- <-]); lia.
    - unfold touches_face, width in *. rewrite <- Hl in T2.
      split; [|intros ma tb rev [E|[]]; injection E as <- <- <-];
      destruct o; face4 f Hf; face4 nf Hn;
        (cbv beta iota delta [ghost_cell] in Gc; apply pair_equal_spec in Gc; destruct Gc as [Gi Gj]);
        (cbv beta iota delta [inner_cell] in Ic; apply pair_equal_spec in Ic; destruct Ic as [Fi Fj]);
        cbn [along across] in T1, T2, AL;
        unfold beyond, glue2d, face2d, index_point, pt; cbn -[inject_Z index_coord Qminus];
        unfold index_coord; rewrite <- Hl, <- ?Gi, <- ?Gj, <- ?Fi, <- ?Fj, ?T1, ?T2, ?AL; injs;
        change (inject_Z 1) with 1%Q; field; split; apply inject_Z_nz; lia.
  Qed.

  (** within a block *)
  Lemma intra_ok : forall ip op f m i j, quadrant D2 ip -> quadrant D2 op -> level ip = level op ->
    0 <= f < 4 -> 1 <= m < 2 ^ 30 -> 2 ^ level ip * m <= 2 ^ 49 ->
    (along f op == along f ip)%Q ->
    (across f op == if Z.odd f then across f ip + width ip else across f ip - width op)%Q ->
    transform_face rnd D2 ip op face_transformation_intra m m 0 1 i j 0 =
      Some (fst (image f (other_side f) false m (i, j)), snd (image f (other_side f) false m (i, j)), 0).
  Proof.
    intros ip op f m i j Hi Ho Hl Hf Hm HR AL AC.
    assert (Hlev : 0 <= level ip) by (destruct Hi as (? & _); lia).
    pose proof (pow2_pos (level ip) Hlev) as PP.
    destruct (transform_face_same_block_ok rnd Hrnd D2 ip op face_transformation_intra m m 0 1 i j 0)
      as (i' & j' & k' & Hk & TR & RUN); try assumption; try reflexivity; try lia.
    { split; [split; lia|]. split; [split; lia|discriminate]. }
    pose proof (TR 0 ltac:(unfold axis; lia)) as TX. pose proof (TR 1 ltac:(unfold axis; lia)) as TY.
    unfold no_move, index_point, pt in TX, TY. change (inject_Z 0) with 0%Q in TX, TY.
    assert (SX : forall lo lo' s a a', (lo' == lo + inject_Z s * width ip)%Q ->
       (index_coord lo' (level op) m 1 a' == index_coord lo (level ip) m 1 a + 0)%Q -> a' = a - s * m).
    { intros lo lo' s a a' EL EQ. apply (index_coord_inj lo' (level op) m 1); [lia|lia|].
      rewrite EQ. unfold index_coord. rewrite EL, <- Hl. unfold width.
      unfold Z.sub. injs. field. split; apply inject_Z_nz; lia. }
    assert (Hk0 : k' = 0) by now apply Hk. subst k'.
    assert (W : (width op == width ip)%Q) by (unfold width; now rewrite Hl).
    assert (G : i' = fst (image f (other_side f) false m (i, j)) /\ j' = snd (image f (other_side f) false m (i, j))).
    { unfold image. face4 f Hf; cbn [along across other_side Z.odd] in *;
        cbn [depth posn inner_cell fst snd flip].
      - pose proof (SX (xlower ip) (xlower op) (-1) i i' ltac:(rewrite AC, W; change (inject_Z (-1)) with (-1)%Q; ring) TX).
        pose proof (SX (ylower ip) (ylower op) 0 j j' ltac:(rewrite AL; change (inject_Z 0) with 0%Q; ring) TY). lia.
      - pose proof (SX (xlower ip) (xlower op) 1 i i' ltac:(rewrite AC; change (inject_Z 1) with 1%Q; ring) TX).
        pose proof (SX (ylower ip) (ylower op) 0 j j' ltac:(rewrite AL; change (inject_Z 0) with 0%Q; ring) TY). lia.
      - pose proof (SX (ylower ip) (ylower op) (-1) j j' ltac:(rewrite AC, W; change (inject_Z (-1)) with (-1)%Q; ring) TY).
        pose proof (SX (xlower ip) (xlower op) 0 i i' ltac:(rewrite AL; change (inject_Z 0) with 0%Q; ring) TX). lia.
      - pose proof (SX (ylower ip) (ylower op) 1 j j' ltac:(rewrite AC; change (inject_Z 1) with 1%Q; ring) TY).
        pose proof (SX (xlower ip) (xlower op) 0 i i' ltac:(rewrite AL; change (inject_Z 0) with 0%Q; ring) TX). lia. }
    destruct G as [Gi Gj]. rewrite <- Gi, <- Gj. apply RUN; [| |discriminate].
    - unfold in_int, int_min, int_max. unfold image in Gi.
      face4 f Hf; cbn [other_side depth posn inner_cell fst snd flip] in Gi; lia.
    - unfold in_int, int_min, int_max. unfold image in Gj.
      face4 f Hf; cbn [other_side depth posn inner_cell fst snd flip] in Gj; lia.
  Qed.

  Variable d : dims.
  Variable m : Z.

  Lemma t_face_ok : forall ip op f nf o ft i j, same_size f nf o ip op ft -> square d m (level ip) ->
    - m <= depth f m (i, j) <= m + 1 -> 0 <= posn f (i, j) <= m + 1 ->
    t_face rnd d (mkT ip op ft) i j = Some (image f nf o m (i, j)).
  Proof.
    intros ip op f nf o ft i j (Hl & Hf & Hn & Hi & Ho & Hor) (Hx & Hy & Hm & HR) Hd Ht.
    unfold t_face. cbn [this_patch neighbor_patch transform]. rewrite Hx, Hy.
    destruct Hor as [(T1 & T2 & -> & AL)|(-> & -> & -> & AL & AC)].
    - destruct (image f nf o m (i, j)) as [i' j'] eqn:EI.
      rewrite (across_ok ip op f nf o m (depth f m (i, j)) (posn f (i, j)) i j i' j'); try assumption; try lia.
      + reflexivity.
      + rewrite AL. unfold width. rewrite Hl. reflexivity.
      + now apply ghost_depth.
    - rewrite (intra_ok ip op f) by (assumption || lia). cbn [bind]. now destruct (image f (other_side f) false m (i, j)).
  Qed.

  (** the affine map the code builds *)
  Definition amap (A : Z * Z * Z * Z * Z * Z) (p : Z * Z) : Z * Z :=
    let '(a11, a12, a21, a22, f1, f2) := A in
    (a11 * fst p + a12 * snd p + f1, a21 * fst p + a22 * snd p + f2).

  Lemma build_transform_same_ok : forall ip op f nf o ft, same_size f nf o ip op ft -> square d m (level ip) ->
    exists A, build_transform_same rnd d (mkT ip op ft) = Some A /\ forall p, amap A p = image f nf o m p.
  Proof.
    intros ip op f nf o ft HS HQ. pose proof HS as (_ & Hf & Hn & _). pose proof HQ as (_ & _ & Hm & _).
    unfold build_transform_same.
    assert (D : forall i j, 0 <= i <= 1 -> 0 <= j <= 1 ->
      - m <= depth f m (i, j) <= m + 1 /\ 0 <= posn f (i, j) <= m + 1).
    { intros i j Hi Hj. clear - Hf Hm Hi Hj. face4 f Hf; cbn [depth posn fst snd]; lia. }
    rewrite (t_face_ok ip op f nf o ft 0 0) by (try assumption; apply D; lia).
    rewrite (t_face_ok ip op f nf o ft 1 0) by (try assumption; apply D; lia).
    rewrite (t_face_ok ip op f nf o ft 0 1) by (try assumption; apply D; lia).
    destruct (image f nf o m (0, 0)) as [f1 f2] eqn:E0. destruct (image f nf o m (1, 0)) as [p1 p2] eqn:E1.
    destruct (image f nf o m (0, 1)) as [q1 q2] eqn:E2. cbn [bind].
    eexists. split; [reflexivity|]. intros [i j]. unfold amap. cbn [fst snd]. unfold image in *.
    clear - E0 E1 E2 Hf Hn.
    face4 f Hf; face4 nf Hn; destruct o; cbn [depth posn inner_cell fst snd flip] in *;
      apply pair_equal_spec in E0, E1, E2; destruct E0 as [<- <-], E1 as [<- <-], E2 as [<- <-];
      f_equal; ring.
  Qed.

  (** ghost cells beyond a face *)
  Definition ghosts (f : Z) (c : cell) : Prop := let '(i, j, mq) := c in
    1 <= depth f m (i, j) <= mbc d /\ 1 <= posn f (i, j) <= m /\ 1 <= mq <= meqn d.

  Definition copy_arr (f nf : Z) (o : bool) (fn : data) : arr := fun c => let '(i, j, mq) := c in
    Some (fn (fst (image f nf o m (i, j))) (snd (image f nf o m (i, j))) mq).

  Lemma image_inside : forall f nf o i j, 0 <= f < 4 -> 0 <= nf < 4 ->
    1 <= depth f m (i, j) <= m -> 1 <= posn f (i, j) <= m ->
    1 <= fst (image f nf o m (i, j)) <= m /\ 1 <= snd (image f nf o m (i, j)) <= m.
  Proof.
    intros f nf o i j Hf Hn Hd Ht. unfold image, flip. generalize dependent (depth f m (i, j)).
    generalize dependent (posn f (i, j)). intros t Ht dep Hd.
    face4 nf Hn; destruct o; cbn [inner_cell fst snd]; lia.
  Qed.

  (** the four loop nests of the face routines *)
  Lemma face_loops : forall f (body : Z -> Z -> Z -> arr -> option arr) s0 W V, 0 <= f < 4 -> mx d = m -> my d = m ->
    (forall i j mq, ghosts f (i, j, mq) -> writes none s0 (body i j mq) (W i j mq) V) ->
    writes none s0
      (if f =? 0 then loop 1 (meqn d) (fun mq => loop 1 (my d) (fun j => loop (1 - mbc d) 0 (fun i => body i j mq)))
       else if f =? 1 then loop 1 (meqn d) (fun mq => loop 1 (my d) (fun j => loop (mx d + 1) (mx d + mbc d) (fun i => body i j mq)))
       else if f =? 2 then loop 1 (meqn d) (fun mq => loop (1 - mbc d) 0 (fun j => loop 1 (mx d) (fun i => body i j mq)))
       else loop 1 (meqn d) (fun mq => loop (my d + 1) (my d + mbc d) (fun j => loop 1 (mx d) (fun i => body i j mq))))
      (fun c => exists i j mq, ghosts f (i, j, mq) /\ W i j mq c) V.
  Proof.
    intros f body s0 W V Hf Hx Hy HB.
    assert (L : forall l1 h1 l2 h2,
      (forall i j mq, l1 <= i <= h1 /\ l2 <= j <= h2 /\ 1 <= mq <= meqn d <-> ghosts f (i, j, mq)) ->
      writes none s0 (loop 1 (meqn d) (fun mq => loop l2 h2 (fun j => loop l1 h1 (fun i => body i j mq))))
        (fun c => exists i j mq, ghosts f (i, j, mq) /\ W i j mq c) V).
    { intros l1 h1 l2 h2 HG. eapply writes_weaken.
      - apply (writes_loop0 s0 (fun mq c => exists j, l2 <= j <= h2 /\ exists i, l1 <= i <= h1 /\ W i j mq c)).
        intros mq Hmq. apply (writes_loop0 s0 (fun j c => exists i, l1 <= i <= h1 /\ W i j mq c)). intros j Hj.
        apply (writes_loop0 s0 (fun i c => W i j mq c)). intros i Hi. apply HB, HG. lia.
      - intros c [].
      - intros c. split.
        + intros (mq & H1 & j & H2 & i & H3 & H4). exists i, j, mq. split; [apply HG; lia|exact H4].
        + intros (i & j & mq & H1 & H2). apply HG in H1. exists mq. split; [lia|]. exists j. split; [lia|].
          exists i. split; [lia|exact H2]. }
    face4 f Hf; cbn [Z.eqb Pos.eqb]; apply L; intros i j mq; unfold ghosts; cbn [depth posn fst snd]; lia.
  Qed.

  Lemma copy_face_ok : forall ip op f nf o ft qn fn s0, same_size f nf o ip op ft -> square d m (level ip) ->
    0 <= mbc d <= m -> holds d qn fn ->
    writes none s0 (fun q => copy_face rnd d q qn f (mkT ip op ft)) (ghosts f) (copy_arr f nf o fn).
  Proof.
    intros ip op f nf o ft qn fn s0 HS HQ Hb Hh.
    pose proof HS as (_ & Hf & Hn & _). pose proof HQ as (Hx & Hy & Hm & _).
    destruct (build_transform_same_ok ip op f nf o ft HS HQ) as (A & EA & HA).
    unfold copy_face. rewrite EA. cbn [bind].
    assert (CC : forall i j mq, ghosts f (i, j, mq) ->
      writes none s0 (copy_cell d A qn i j mq) (fun c => c = (i, j, mq)) (copy_arr f nf o fn)).
    { intros i j mq HG. pose proof HG as (G1 & G2 & G3). pose proof (HA (i, j)) as HP.
      destruct (image_inside f nf o i j Hf Hn ltac:(lia) G2) as [I1 I2].
      destruct A as [[[[[a11 a12] a21] a22] f1] f2]. unfold amap in HP. cbn [fst snd] in HP. unfold copy_cell.
      assert (P1 := f_equal fst HP). assert (P2 := f_equal snd HP). cbn [fst snd] in P1, P2. rewrite P1, P2.
      rewrite rd_some with (v := fn (fst (image f nf o m (i, j))) (snd (image f nf o m (i, j))) mq).
      - cbn [bind]. apply writes_cell; [|reflexivity]. apply in_q_iff. rewrite Hx, Hy.
        clear - G1 G2 G3 Hf Hb Hm. face4 f Hf; cbn [depth posn fst snd] in *; lia.
      - apply in_q_iff. rewrite Hx, Hy. lia.
      - apply Hh. unfold interior. rewrite Hx, Hy. lia. }
    eapply writes_weaken; [| intros c H; exact H |].
    - eapply writes_ext; [|apply (face_loops f (copy_cell d A qn) s0 (fun i j mq c => c = (i, j, mq))); assumption].
      intros s. clear - Hf. face4 f Hf; reflexivity.
    - intros [[i j] mq]. split.
      + intros (i' & j' & mq' & HG & E). injection E as -> -> ->. exact HG.
      + intros HG. exists i, j, mq. now split.
  Qed.
End Face.
