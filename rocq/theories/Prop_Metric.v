(** C61: the metric terms of patches on mapped grids. *)
From Coq Require Import ZArith Reals List Bool Lia Lra.
From Verif Require Import Model_Map Model_Grid Spec_Map Model_Metric Spec_Metric Proof_Metric1 Proof_Metric2 Proof_Metric3 Proof_Metric4 Proof_Metric5 Proof_Metric6.
Import ListNotations.
Open Scope R_scope.

Section C61.
  (** the mapping; isaffine and isflat are the answers of the map context *)
  Variable c2m : Z -> R -> R -> point.
  Variable isaffine isflat : bool.
  Variable maxlevel : Z.
  Notation M p := (c2m (pblock p)).
  Notation built := (built c2m isaffine isflat maxlevel).
  Notation honest p := (isaffine = true -> affine (M p)).

  (** Metric terms can be built from scratch for every patch, and from any four finer patches. *)
  Theorem C61_build : forall p, usable maxlevel p -> honest p ->
    (exists g, patch_build c2m isaffine isflat maxlevel p = Some g) /\
    (forall fine, (plevel p < maxlevel)%Z -> (forall k, (0 <= k < 4)%Z -> built (child p k) (fine k)) ->
       exists g, patch_build_from_fine c2m isaffine isflat maxlevel p (fun k => m_area (fine k)) = Some g).
  Proof.
    intros p U A. split.
    - destruct (build_ok c2m isaffine isflat maxlevel p U A) as (g & E & _). exists g. exact E.
    - intros fine L F. destruct (from_fine_right c2m isaffine isflat maxlevel p fine U L A) as (g & E & _); [|exists g; exact E].
      intros k Hk. apply (built_right c2m isaffine isflat maxlevel); [apply F; exact Hk|apply usable_child; assumption|exact A].
  Qed.

  (** The mesh holds the images of the corners and of the centres of all cells. *)
  Theorem C61_mesh : forall p g, built p g -> usable maxlevel p -> honest p ->
    (forall i j, node_index p i j -> m_xd g (i, j) = Some (M p (xlower p + (IZR i - 1) * pdx p) (ylower p + (IZR j - 1) * pdy p))) /\
    (forall i j, cell_index p i j -> m_xp g (i, j) = Some (M p (xlower p + (IZR i - 1 / 2) * pdx p) (ylower p + (IZR j - 1 / 2) * pdy p))).
  Proof. intros p g B U A. pose proof (built_right c2m isaffine isflat maxlevel p g B U A) as R. split; intros i j H; [apply (r_xd _ _ _ _ _ R)|apply (r_xp _ _ _ _ _ R)]; exact H. Qed.

  (** The area of a cell is the sum of the areas of its parts on the finest level, however the patch came into being. *)
  Theorem C61_area : forall p g, built p g -> usable maxlevel p -> honest p -> forall i j, cell_index p i j ->
    m_area g (i, j) = Some (cell_area (M p) maxlevel p i j).
  Proof. intros p g B U A i j H. apply (r_area _ _ _ _ _ (built_right c2m isaffine isflat maxlevel p g B U A)). exact H. Qed.
  (** ... so the areas of a patch do not depend on its history, *)
  Theorem C61_history : forall p g g', built p g -> built p g' -> usable maxlevel p -> honest p -> forall i j, cell_index p i j -> m_area g (i, j) = m_area g' (i, j).
  Proof. intros p g g' B B' U A i j H. rewrite (C61_area p g B U A i j H), (C61_area p g' B' U A i j H). reflexivity. Qed.
  (** ... the area of a coarse cell is the sum of the areas of the four fine cells that cover it, *)
  Theorem C61_conservation : forall p g k gk, built p g -> built (child p k) gk -> usable maxlevel p -> honest p -> (0 <= k < 4)%Z ->
    forall i j, (0 <= i <= pmx p / 2 + 1)%Z -> (0 <= j <= pmy p / 2 + 1)%Z ->
    exists a00 a10 a01 a11, m_area gk (2 * i - 1, 2 * j - 1)%Z = Some a00 /\ m_area gk (2 * i, 2 * j - 1)%Z = Some a10 /\
      m_area gk (2 * i - 1, 2 * j)%Z = Some a01 /\ m_area gk (2 * i, 2 * j)%Z = Some a11 /\
      m_area g (i + k mod 2 * (pmx p / 2), j + k / 2 * (pmy p / 2))%Z = Some (a00 + a10 + a01 + a11).
  Proof.
    intros p g k gk B BK U A Hk i j Hi Hj. pose proof U as (U1 & U2 & U3 & U4 & U5). destruct (even_half _ U2) as [h Hh].
    assert (L : (plevel p < maxlevel)%Z). { pose proof (built_level _ _ _ _ _ _ BK) as BL. unfold child in BL. cbn [plevel] in BL. lia. }
    pose proof (usable_child maxlevel p k U L) as UK. assert (Hh' : pmy p = (2 * h)%Z) by lia. assert (D : (pmx p / 2 = h)%Z) by (rewrite Hh, Z.mul_comm; apply Z.div_mul; lia). assert (D' : (pmy p / 2 = h)%Z) by (rewrite <- U1; exact D).
    rewrite D in *. rewrite D' in *.
    assert (KM : (0 <= k mod 2 <= 1)%Z) by (pose proof (Z.mod_pos_bound k 2 ltac:(lia)); lia). assert (KD : (0 <= k / 2 <= 1)%Z) by (split; [apply Z.div_pos; lia|apply Z.lt_succ_r, Z.div_lt_upper_bound; lia]).
    assert (CK : forall a b, (-1 <= a <= 2 * h + 2)%Z -> (-1 <= b <= 2 * h + 2)%Z -> m_area gk (a, b) = Some (cell_area (M p) maxlevel (child p k) a b)).
    { intros a b Ha Hb. apply (C61_area (child p k) gk BK UK A). unfold cell_index, child. cbn [pmx pmy pmbc]. lia. }
    exists (cell_area (M p) maxlevel (child p k) (2 * i - 1) (2 * j - 1)), (cell_area (M p) maxlevel (child p k) (2 * i) (2 * j - 1)), (cell_area (M p) maxlevel (child p k) (2 * i - 1) (2 * j)), (cell_area (M p) maxlevel (child p k) (2 * i) (2 * j)).
    split; [apply CK; lia|]. split; [apply CK; lia|]. split; [apply CK; lia|]. split; [apply CK; lia|].
    rewrite (C61_area p g B U A) by (unfold cell_index; nia). f_equal. rewrite (cell_four (M p) maxlevel p _ _ L). cbv beta zeta.
    rewrite <- (child_cell (M p) maxlevel p k h h (i + k mod 2 * h) (j + k / 2 * h) 0 0 Hh Hh'), <- (child_cell (M p) maxlevel p k h h (i + k mod 2 * h) (j + k / 2 * h) 1 0 Hh Hh'),
            <- (child_cell (M p) maxlevel p k h h (i + k mod 2 * h) (j + k / 2 * h) 0 1 Hh Hh'), <- (child_cell (M p) maxlevel p k h h (i + k mod 2 * h) (j + k / 2 * h) 1 1 Hh Hh').
    replace (i + k mod 2 * h - k mod 2 * h)%Z with i by ring. replace (j + k / 2 * h - k / 2 * h)%Z with j by ring.
    rewrite !Z.add_0_r. replace (2 * i - 1 + 1)%Z with (2 * i)%Z by ring. replace (2 * j - 1 + 1)%Z with (2 * j)%Z by ring. reflexivity.
  Qed.
  (** ... and the total area does not depend on the mesh. *)
  Theorem C61_total_area : forall p t t' s s', mesh_area c2m isaffine isflat maxlevel p t s -> mesh_area c2m isaffine isflat maxlevel p t' s' -> usable maxlevel p -> honest p -> s = s'.
  Proof. intros p t t' s s' H H' U A. rewrite (mesh_area_total c2m isaffine isflat maxlevel p t s H U A), (mesh_area_total c2m isaffine isflat maxlevel p t' s' H' U A). reflexivity. Qed.
  (** If the mapping is affine, the area of a cell is dx dy times that of the image of the unit square. *)
  Theorem C61_affine_area : forall p g, built p g -> usable maxlevel p -> affine (M p) -> forall i j, cell_index p i j ->
    m_area g (i, j) = Some (quad_area (M p 0 0) (M p 1 0) (M p 1 1) (M p 0 1) * Rabs (pdx p * pdy p)).
  Proof.
    intros p g B U A i j H. rewrite (C61_area p g B U (fun _ => A) i j H). f_equal. unfold cell_area. destruct U as (_ & _ & _ & _ & U5).
    rewrite affine_divided; [|exact A|pose proof (Z.pow_pos_nonneg 2 (maxlevel - plevel p) ltac:(lia) ltac:(lia)); lia].
    destruct (affine_rectangle (M p) A) as (k & _ & E). rewrite E. pose proof (E 0 0 1 1) as E1. unfold rectangle_area in E1. rewrite !Rplus_0_l in E1. rewrite E1. rewrite Rmult_1_l, (Rabs_right 1) by lra. ring.
  Qed.

  (** Face normals: unit vectors, orthogonal to the face, tangent to the surface, pointing to the cell with the larger index.  There is
      only one such vector.  It is not a number exactly if the face and the line between the centres are parallel. *)
  Theorem C61_normals : forall p g, built p g -> usable maxlevel p -> honest p ->
    (forall i j, x_face p i j ->
       let face := sub (node (M p) p i (j + 1)) (node (M p) p i j) in
       let across := sub (centre (M p) p i j) (centre (M p) p (i - 1) j) in
       (~ parallel face across -> exists n, m_xn g (i, j) = Some (Some n) /\ face_normal face across n /\ forall n', face_normal face across n' -> n' = n) /\
       (parallel face across -> m_xn g (i, j) = Some None)) /\
    (forall i j, y_face p i j ->
       let face := sub (node (M p) p (i + 1) j) (node (M p) p i j) in
       let across := sub (centre (M p) p i j) (centre (M p) p i (j - 1)) in
       (~ parallel face across -> exists n, m_yn g (i, j) = Some (Some n) /\ face_normal face across n /\ forall n', face_normal face across n' -> n' = n) /\
       (parallel face across -> m_yn g (i, j) = Some None)).
  Proof.
    intros p g B U A. pose proof (built_right c2m isaffine isflat maxlevel p g B U A) as R.
    assert (G : forall e t, (~ parallel e t -> exists n, get_normal e t = Some n /\ face_normal e t n /\ forall n', face_normal e t n' -> n' = n) /\ (parallel e t -> get_normal e t = None)).
    { intros e t. split; [|apply normal_parallel]. intros NP. destruct (normal_ok e t NP) as (n & E & F). exists n. split; [exact E|]. split; [exact F|]. intros n' F'. pose proof (normal_unique e t NP n' F') as E'. congruence. }
    split; intros i j H; cbv zeta.
    - rewrite (r_xn _ _ _ _ _ R i j H). destruct (G (x_edge c2m p i j) (x_across c2m p i j)) as [G1 G2]. split.
      + intros NP. destruct (G1 NP) as (n & E & F). exists n. rewrite E. split; [reflexivity|exact F].
      + intros P. rewrite (G2 P). reflexivity.
    - rewrite (r_yn _ _ _ _ _ R i j H). destruct (G (y_edge c2m p i j) (y_across c2m p i j)) as [G1 G2]. split.
      + intros NP. destruct (G1 NP) as (n & E & F). exists n. rewrite E. split; [reflexivity|exact F].
      + intros P. rewrite (G2 P). reflexivity.
  Qed.

  (** Tangents go from one corner of the face to the other (they are not unit vectors); edge lengths are distances of corners. *)
  Theorem C61_edges : forall p g, built p g -> usable maxlevel p -> honest p -> forall i j, node_index p i j ->
    ((j <= pmy p + pmbc p + 1)%Z -> m_xt g (i, j) = Some (sub (node (M p) p i (j + 1)) (node (M p) p i j)) /\ m_xlen g (i, j) = Some (norm (sub (node (M p) p i (j + 1)) (node (M p) p i j)))) /\
    ((i <= pmx p + pmbc p + 1)%Z -> m_yt g (i, j) = Some (sub (node (M p) p (i + 1) j) (node (M p) p i j)) /\ m_ylen g (i, j) = Some (norm (sub (node (M p) p (i + 1) j) (node (M p) p i j)))).
  Proof. intros p g B U A i j H. pose proof (built_right c2m isaffine isflat maxlevel p g B U A) as R. split; intros L; [apply (r_xt _ _ _ _ _ R)|apply (r_yt _ _ _ _ _ R)]; assumption. Qed.

  (** A mapping into a plane with unit normal e.  [turn u v] is positive if u is turned to v counterclockwise, seen from the tip of e. *)
  Section Plane.
    Variable p : mpatch.
    Variable g : metric.
    Variable e : point.
    Hypothesis B : built p g.
    Hypothesis U : usable maxlevel p.
    Hypothesis A : honest p.
    Hypothesis P : in_plane (M p) e.
    Let turn (u v : point) : R := dot (cross u v) e.
    Let left i j := sub (node (M p) p i (j + 1)) (node (M p) p i j).
    Let lower i j := sub (node (M p) p (i + 1) j) (node (M p) p i j).
    Let rightward i j := sub (centre (M p) p i j) (centre (M p) p (i - 1) j).
    Let upward i j := sub (centre (M p) p i j) (centre (M p) p i (j - 1)).

    (** The surface normal of a cell with proper faces is e or -e, and e for a mapping that keeps the orientation; the curvature is zero. *)
    Theorem C61_flat : isflat = true -> forall i j, data_cell p i j -> turn (rightward i j) (left i j) <> 0 -> turn (lower i j) (upward i j) <> 0 -> turn (lower i j) (left i j) <> 0 ->
      m_curv g (i, j) = Some (Some 0) /\
      exists n, m_surf g (i, j) = Some (Some n) /\ (n = e \/ n = scale (-1) e) /\
        (0 < turn (rightward i j) (left i j) -> 0 < turn (lower i j) (upward i j) -> 0 < turn (lower i j) (left i j) -> n = e).
    Proof.
      intros F i j H T1 T2 T3. destruct P as [N O]. apply norm_unit in N. pose proof (built_right c2m isaffine isflat maxlevel p g B U A) as R. destruct (r_surf _ _ _ _ _ R i j H) as [S1 S2]. rewrite S1, S2. unfold surf. rewrite F.
      destruct (flat_plane e (left i j) (rightward i j) (lower i j) (upward i j) N) as (s & S & E & Q); try apply O; try assumption.
      change (x_edge c2m p i j) with (left i j). change (y_edge c2m p i j) with (lower i j). change (x_across c2m p i j) with (rightward i j). change (y_across c2m p i j) with (upward i j). rewrite E. cbn [fst snd].
      split; [reflexivity|]. exists (scale s e). split; [reflexivity|]. split.
      - destruct S as [-> | ->]; [left; apply scale_one|right; reflexivity].
      - intros P1 P2 P3. rewrite Q; [apply scale_one|]. unfold turn in P1, P2, P3. repeat apply Rmult_lt_0_compat; assumption.
    Qed.
    (** If the context does not say that the mapping is flat, the curvature is still zero, but the surface normal is not a number. *)
    Theorem C61_plane_not_declared_flat : isflat = false -> forall i j, data_cell p i j ->
      0 < turn (rightward i j) (left i j) -> 0 < turn (rightward (i + 1) j) (left (i + 1) j) -> 0 < turn (lower i j) (upward i j) -> 0 < turn (lower i (j + 1)) (upward i (j + 1)) ->
      m_area g (i, j) <> Some 0 -> m_surf g (i, j) = Some None /\ m_curv g (i, j) = Some (Some 0).
    Proof.
      intros F i j H T0 T1 T2 T3 AR. destruct P as [N O]. apply norm_unit in N. pose proof (built_right c2m isaffine isflat maxlevel p g B U A) as R. destruct (r_surf _ _ _ _ _ R i j H) as [S1 S2]. rewrite S1, S2. unfold surf. rewrite F.
      rewrite (r_area _ _ _ _ _ R) in AR by (unfold cell_index, data_cell in *; lia).
      match goal with |- context [curved_normal ?a ?b ?c ?d ?x ?y ?z ?w ?v] => replace (curved_normal a b c d x y z w v) with (@None point, Some 0); [split; reflexivity|symmetry] end.
      apply (plane_curved e); try apply O; try assumption.
      - unfold x_edge, y_edge. generalize (node (M p) p (i + 1) (j + 1)), (node (M p) p (i + 1) j), (node (M p) p i (j + 1)), (node (M p) p i j). intros a b c d. clear. coords. apply pt_eq; ring.
      - intros E. apply AR. rewrite E. reflexivity.
    Qed.
  End Plane.

  (** Surface normal and curvature of a cell on a surface that is not flat: let K be the sum of the outer normals of the faces, each times
      the length of its face.  The surface normal has the direction of K, and the curvature is |K| / (2 area). *)
  Theorem C61_curved : forall p g, built p g -> usable maxlevel p -> honest p -> isflat = false -> forall i j, data_cell p i j ->
    let vertical a := sub (node (M p) p a (j + 1)) (node (M p) p a j) in
    let horizontal b := sub (node (M p) p (i + 1) b) (node (M p) p i b) in
    let rightward a := sub (centre (M p) p a j) (centre (M p) p (a - 1) j) in
    let upward b := sub (centre (M p) p i b) (centre (M p) p i (b - 1)) in
    ~ parallel (vertical i) (rightward i) -> ~ parallel (vertical (i + 1)%Z) (rightward (i + 1)%Z) -> ~ parallel (horizontal j) (upward j) -> ~ parallel (horizontal (j + 1)%Z) (upward (j + 1)%Z) ->
    forall nl nr nd nu, face_normal (vertical i) (rightward i) nl -> face_normal (vertical (i + 1)%Z) (rightward (i + 1)%Z) nr ->
      face_normal (horizontal j) (upward j) nd -> face_normal (horizontal (j + 1)%Z) (upward (j + 1)%Z) nu ->
    let K := add (sub (scale (norm (vertical (i + 1)%Z)) nr) (scale (norm (vertical i)) nl)) (sub (scale (norm (horizontal (j + 1)%Z)) nu) (scale (norm (horizontal j)) nd)) in
    (K <> zero -> m_surf g (i, j) = Some (Some (scale (/ norm K) K))) /\
    (forall area, m_area g (i, j) = Some area -> area <> 0 -> m_curv g (i, j) = Some (Some (norm K / (2 * area)))).
  Proof.
    intros p g B U A F i j H. cbv beta zeta. intros P1 P2 P3 P4 nl nr nd nu N1 N2 N3 N4. pose proof (built_right c2m isaffine isflat maxlevel p g B U A) as R. destruct (r_surf _ _ _ _ _ R i j H) as [S1 S2]. rewrite S1, S2. unfold surf. rewrite F.
    pose proof (normal_unique _ _ P1 _ N1) as G1. pose proof (normal_unique _ _ P2 _ N2) as G2. pose proof (normal_unique _ _ P3 _ N3) as G3. pose proof (normal_unique _ _ P4 _ N4) as G4.
    unfold x_edge, x_across, y_edge, y_across. rewrite G1, G2, G3, G4. unfold curved_normal. cbn [bind fst snd].
    match goal with |- (?K <> zero -> _) /\ _ => set (k := K) end.
    match goal with |- context [over ?v _] => replace v with k end.
    2:{ subst k. change minus with sub. change plus with add. change times with scale. match goal with |- add (sub ?a ?b) (sub ?c ?d) = _ => generalize a, b, c, d end. clear. intros a b c d. coords. apply pt_eq; ring. }
    change (sqrt (inner k k)) with (norm k). split.
    - intros NZ. rewrite over_some; [reflexivity|]. intros E. apply NZ. clear - E. unfold norm in E. assert (D : dot k k = 0) by (apply sqrt_eq_0; [apply dot_self|exact E]). clear E. destruct k as [[a b] c]. unfold dot in D. unfold zero. apply pt_eq; nra.
    - intros area EA NA. rewrite (r_area _ _ _ _ _ R) in EA by (unfold cell_index, data_cell in *; lia). injection EA as <-. destruct (Req_EM_T (cell_area (M p) maxlevel p i j) 0) as [E|_]; [contradiction|]. do 2 f_equal. field. exact NA.
  Qed.

  (** Neighbouring patches on one level have the same metric terms where they overlap, ghost cells included. *)
  Theorem C61_neighbours : forall p q a b g g', aligned p q a b -> built p g -> built q g' -> usable maxlevel p -> usable maxlevel q -> honest p ->
    (forall i j, cell_index q i j -> cell_index p (i + a) (j + b) -> m_area g' (i, j) = m_area g (i + a, j + b)%Z /\ m_xp g' (i, j) = m_xp g (i + a, j + b)%Z) /\
    (forall i j, node_index q i j -> node_index p (i + a) (j + b) -> m_xd g' (i, j) = m_xd g (i + a, j + b)%Z) /\
    (forall i j, x_face q i j -> x_face p (i + a) (j + b) -> m_xn g' (i, j) = m_xn g (i + a, j + b)%Z /\ m_xlen g' (i, j) = m_xlen g (i + a, j + b)%Z) /\
    (forall i j, y_face q i j -> y_face p (i + a) (j + b) -> m_yn g' (i, j) = m_yn g (i + a, j + b)%Z /\ m_ylen g' (i, j) = m_ylen g (i + a, j + b)%Z) /\
    (forall i j, data_cell q i j -> data_cell p (i + a) (j + b) -> m_surf g' (i, j) = m_surf g (i + a, j + b)%Z /\ m_curv g' (i, j) = m_curv g (i + a, j + b)%Z).
  Proof.
    intros p q a b g g' AL B B' U U' A. assert (A' : honest q) by (destruct AL as (-> & _); exact A).
    pose proof (built_right c2m isaffine isflat maxlevel p g B U A) as R. pose proof (built_right c2m isaffine isflat maxlevel q g' B' U' A') as R'.
    repeat split.
    - rewrite (r_area _ _ _ _ _ R') by assumption. rewrite (r_area _ _ _ _ _ R) by assumption. f_equal. apply al_area. exact AL.
    - rewrite (r_xp _ _ _ _ _ R') by assumption. rewrite (r_xp _ _ _ _ _ R) by assumption. f_equal. apply al_centre. exact AL.
    - intros i j H H'. rewrite (r_xd _ _ _ _ _ R') by assumption. rewrite (r_xd _ _ _ _ _ R) by assumption. f_equal. apply al_node. exact AL.
    - rewrite (r_xn _ _ _ _ _ R') by assumption. rewrite (r_xn _ _ _ _ _ R) by assumption. rewrite (al_xe c2m p q a b AL), (al_xa c2m p q a b AL). reflexivity.
    - unfold x_face in H, H0. destruct (r_xt _ _ _ _ _ R' i j ltac:(unfold node_index; lia) ltac:(lia)) as [_ ->]. destruct (r_xt _ _ _ _ _ R (i + a)%Z (j + b)%Z ltac:(unfold node_index; lia) ltac:(lia)) as [_ ->].
      rewrite (al_xe c2m p q a b AL). reflexivity.
    - rewrite (r_yn _ _ _ _ _ R') by assumption. rewrite (r_yn _ _ _ _ _ R) by assumption. rewrite (al_ye c2m p q a b AL), (al_ya c2m p q a b AL). reflexivity.
    - unfold y_face in H, H0. destruct (r_yt _ _ _ _ _ R' i j ltac:(unfold node_index; lia) ltac:(lia)) as [_ ->]. destruct (r_yt _ _ _ _ _ R (i + a)%Z (j + b)%Z ltac:(unfold node_index; lia) ltac:(lia)) as [_ ->].
      rewrite (al_ye c2m p q a b AL). reflexivity.
    - destruct (r_surf _ _ _ _ _ R' i j H) as [-> _]. destruct (r_surf _ _ _ _ _ R _ _ H0) as [-> _]. unfold surf.
      rewrite !(al_xe c2m p q a b AL), !(al_xa c2m p q a b AL), !(al_ye c2m p q a b AL), !(al_ya c2m p q a b AL), (al_area c2m maxlevel p q a b AL).
      replace (i + 1 + a)%Z with (i + a + 1)%Z by ring. replace (j + 1 + b)%Z with (j + b + 1)%Z by ring. reflexivity.
    - destruct (r_surf _ _ _ _ _ R' i j H) as [_ ->]. destruct (r_surf _ _ _ _ _ R _ _ H0) as [_ ->]. unfold surf.
      rewrite !(al_xe c2m p q a b AL), !(al_xa c2m p q a b AL), !(al_ye c2m p q a b AL), !(al_ya c2m p q a b AL), (al_area c2m maxlevel p q a b AL).
      replace (i + 1 + a)%Z with (i + a + 1)%Z by ring. replace (j + 1 + b)%Z with (j + b + 1)%Z by ring. reflexivity.
  Qed.

  (** Patches that are not square: average_area takes mx for my.  A patch that is wide enough is written out of bounds when it is built
      from finer patches, whatever these are. *)
  Theorem C61_not_square_refuted : forall p fine, Z.even (pmx p) = true -> Z.even (pmy p) = true -> (0 < pmy p)%Z -> (1 <= pmbc p)%Z -> (pmy p + 2 * pmbc p < pmx p)%Z ->
    patch_build_from_fine c2m isaffine isflat maxlevel p fine = None.
  Proof.
    intros p fine EX EY HY HB H. destruct (even_half _ EX) as [h Hh]. destruct (even_half _ EY) as [h' Hh']. apply (from_fine_outside c2m isaffine isflat maxlevel p fine h h'); lia.
  Qed.
End C61.
Print Assumptions C61_build. Print Assumptions C61_mesh. Print Assumptions C61_area. Print Assumptions C61_history. Print Assumptions C61_conservation.
Print Assumptions C61_total_area. Print Assumptions C61_affine_area. Print Assumptions C61_normals. Print Assumptions C61_edges. Print Assumptions C61_flat.
Print Assumptions C61_plane_not_declared_flat. Print Assumptions C61_curved. Print Assumptions C61_neighbours. Print Assumptions C61_not_square_refuted.

(** Concrete cases. *)
Module Inst.
  (** the annulus, which is not affine, and a patch of 8 by 8 cells on level 1 of at most 3 *)
  Definition annulus (b : Z) : R -> R -> point := mapc2m_annulus (4 / 10) 0 1.
  Definition pa : mpatch := mkPatch 8 8 2 0 0 (1 / 16) (1 / 16) 0 1.
  Example C61_instance_annulus : usable 3 pa /\
    (exists g, built annulus false true 3 pa g) /\
    (exists fine g, (forall k, (0 <= k < 4)%Z -> built annulus false true 3 (child pa k) (fine k)) /\ patch_build_from_fine annulus false true 3 pa (fun k => m_area (fine k)) = Some g) /\
    (exists s s', mesh_area annulus false true 3 pa Leaf s /\ mesh_area annulus false true 3 pa (Node Leaf Leaf Leaf Leaf) s').
  Proof.
    assert (U : usable 3 pa) by (unfold usable, pa; cbn; repeat split; lia). assert (H : forall p, false = true -> affine (annulus (pblock p))) by (intros p D; discriminate D).
    assert (UK : forall k, usable 3 (child pa k)) by (intros k; apply usable_child; [exact U|unfold pa; cbn; lia]).
    assert (AR : forall p g, built annulus false true 3 p g -> usable 3 p -> mesh_area annulus false true 3 p Leaf (patch_area p (cell_area (annulus (pblock p)) 3 p))).
    { intros p g B Up. apply (One_patch annulus false true 3 p g); [exact B|]. intros i j Hi Hj. apply (C61_area annulus false true 3 p g B Up (H p)). destruct Up as (_ & _ & _ & U4 & _). unfold cell_index. lia. }
    split; [exact U|]. split; [|split].
    - destruct (C61_build annulus false true 3 pa U (H pa)) as [(g & E) _]. exists g. apply From_scratch. exact E.
    - destruct (C61_build annulus false true 3 (child pa 0) (UK 0%Z) (H _)) as [(g0 & E0) _]. destruct (C61_build annulus false true 3 (child pa 1) (UK 1%Z) (H _)) as [(g1 & E1) _].
      destruct (C61_build annulus false true 3 (child pa 2) (UK 2%Z) (H _)) as [(g2 & E2) _]. destruct (C61_build annulus false true 3 (child pa 3) (UK 3%Z) (H _)) as [(g3 & E3) _].
      pose (fine := fun k : Z => match k with 0%Z => g0 | 1%Z => g1 | 2%Z => g2 | _ => g3 end).
      assert (F : forall k, (0 <= k < 4)%Z -> built annulus false true 3 (child pa k) (fine k)).
      { intros k Hk. assert (k = 0 \/ k = 1 \/ k = 2 \/ k = 3)%Z as [-> | [-> | [-> | ->]]] by lia; apply From_scratch; assumption. }
      destruct (C61_build annulus false true 3 pa U (H pa)) as [_ G]. destruct (G fine ltac:(unfold pa; cbn; lia) F) as (g & E). exists fine, g. split; assumption.
    - assert (BB : forall p, usable 3 p -> exists g, built annulus false true 3 p g) by (intros p Up; destruct (C61_build annulus false true 3 p Up (H p)) as [(g & E) _]; exists g; apply From_scratch; exact E).
      destruct (BB pa U) as [g B]. destruct (BB _ (UK 0%Z)) as [g0 B0]. destruct (BB _ (UK 1%Z)) as [g1 B1]. destruct (BB _ (UK 2%Z)) as [g2 B2]. destruct (BB _ (UK 3%Z)) as [g3 B3].
      eexists. eexists. split; [exact (AR _ _ B U)|]. apply Four_patches; [exact (AR _ _ B0 (UK 0%Z))|exact (AR _ _ B1 (UK 1%Z))|exact (AR _ _ B2 (UK 2%Z))|exact (AR _ _ B3 (UK 3%Z))].
  Qed.
  (** a sheared square, affine and flat: the hypotheses on the faces hold for every cell *)
  Definition shear (b : Z) (x y : R) : point := (x + y / 2, y, 0).
  Example C61_instance_plane : affine (shear 0) /\ in_plane (shear 0) (0, 0, 1) /\
    forall i j, 0 < dot (cross (sub (centre (shear 0) pa i j) (centre (shear 0) pa (i - 1) j)) (sub (node (shear 0) pa i (j + 1)) (node (shear 0) pa i j))) (0, 0, 1) /\
      ~ parallel (sub (node (shear 0) pa i (j + 1)) (node (shear 0) pa i j)) (sub (centre (shear 0) pa i j) (centre (shear 0) pa (i - 1) j)).
  Proof.
    split; [|split].
    - exists (0, 0, 0), (1, 0, 0), (1 / 2, 1, 0). intros x y. unfold shear, add, scale. apply pt_eq; field.
    - split; [unfold norm, dot; replace (0 * 0 + 0 * 0 + 1 * 1) with 1 by ring; apply sqrt_1|]. intros x y x' y'. unfold shear, sub, dot. ring.
    - intros i j. unfold parallel, shear, centre, node, centre_x, centre_y, corner_x, corner_y, pa, sub, cross, dot, zero. cbn [xlower ylower pdx pdy]. rewrite !minus_IZR, !plus_IZR. split.
      + lra.
      + intros E. injection E as _ _ E. lra.
  Qed.
  (** a surface that is not flat: the faces of every cell are proper *)
  Definition bent (b : Z) (x y : R) : point := (x, y, x * x).
  Example C61_instance_curved : forall i j,
    ~ parallel (sub (node (bent 0) pa i (j + 1)) (node (bent 0) pa i j)) (sub (centre (bent 0) pa i j) (centre (bent 0) pa (i - 1) j)) /\
    ~ parallel (sub (node (bent 0) pa (i + 1) j) (node (bent 0) pa i j)) (sub (centre (bent 0) pa i j) (centre (bent 0) pa i (j - 1))).
  Proof.
    intros i j. unfold parallel, bent, centre, node, centre_x, centre_y, corner_x, corner_y, pa, sub, cross, zero. cbn [xlower ylower pdx pdy]. rewrite !minus_IZR, !plus_IZR.
    split; intros E; injection E as _ _ E; lra.
  Qed.
  (** two neighbours, and a patch that is not square *)
  Example C61_instance_neighbours : aligned pa (mkPatch 8 8 2 (1 / 2) 0 (1 / 16) (1 / 16) 0 1) 8 0.
  Proof. unfold aligned, pa. cbn. repeat split; lra. Qed.
  Example C61_instance_not_square : let p := mkPatch 16 4 2 0 0 (1 / 16) (1 / 4) 0 1 in
    Z.even (pmx p) = true /\ Z.even (pmy p) = true /\ (0 < pmy p)%Z /\ (1 <= pmbc p)%Z /\ (pmy p + 2 * pmbc p < pmx p)%Z.
  Proof. cbn. repeat split; lia. Qed.
End Inst.
