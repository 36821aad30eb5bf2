(** GeoClaw tagging: lemmas. *)
From Coq Require Import ZArith QArith Qabs List Bool Lia Lqa.
From Verif Require Import Model_GeoTag Spec_GeoTag.
Import ListNotations.
Open Scope Z_scope.

Lemma Qltb_true : forall a b, Qltb a b = true <-> (a < b)%Q.
Proof.
  intros a b. unfold Qltb. rewrite negb_true_iff. split; intro H.
  - apply Qnot_le_lt. intro C. apply Qle_bool_iff in C. congruence.
  - destruct (Qle_bool b a) eqn:E; [|reflexivity]. apply Qle_bool_iff in E. lra.
Qed.
Lemma Qltb_false : forall a b, Qltb a b = false <-> (b <= a)%Q.
Proof. intros a b. unfold Qltb. rewrite negb_false_iff. apply Qle_bool_iff. Qed.

Lemma in_upto : forall n i, In i (upto n) <-> 1 <= i <= n.
Proof.
  intros n i. unfold upto. rewrite in_map_iff. split.
  - intros (k & <- & Hk). apply in_seq in Hk. lia.
  - intro H. exists (Z.to_nat i). split; [lia|]. apply in_seq. lia.
Qed.
Lemma in_cells : forall mx my i j, In (i, j) (cells mx my) <-> 1 <= i <= mx /\ 1 <= j <= my.
Proof.
  intros. unfold cells. rewrite in_concat. split.
  - intros (l & Hl & Hi). apply in_map_iff in Hl. destruct Hl as (j' & <- & Hj).
    apply in_map_iff in Hi. destruct Hi as (i' & E & Hi). inversion E; subst.
    apply in_upto in Hj. apply in_upto in Hi. lia.
  - intros [Hi Hj]. exists (map (fun i => (i, j)) (upto mx)). split.
    + apply in_map_iff. exists j. split; [reflexivity|]. now apply in_upto.
    + apply in_map_iff. exists i. split; [reflexivity|]. now apply in_upto.
Qed.

(** ** Intersection *)
Lemma common_point : forall a b c d, (a <= b)%Q -> (c <= d)%Q -> (c <= b)%Q -> (a <= d)%Q -> exists x, (a <= x <= b)%Q /\ (c <= x <= d)%Q.
Proof.
  intros a b c d H1 H2 H3 H4. destruct (Qlt_le_dec a c) as [L | L].
  - exists c. lra.
  - exists a. lra.
Qed.
Lemma intersects_iff : forall xl yl xu yu t r, (xl <= xu)%Q -> (yl <= yu)%Q -> proper r ->
  P_intersects_R xl yl xu yu t r = true <-> meets xl yl xu yu t r.
Proof.
  intros xl yl xu yu t r Hx Hy [Px Py]. unfold P_intersects_R, meets. split.
  - destruct (Qltb t (t_low r)) eqn:E1; [discriminate|]. destruct (Qltb (t_hi r) t) eqn:E2; [discriminate|].
    destruct (Qltb xu (x_low r)) eqn:E3; [discriminate|]. destruct (Qltb (x_hi r) xl) eqn:E4; [discriminate|].
    destruct (Qltb yu (y_low r)) eqn:E5; [discriminate|]. destruct (Qltb (y_hi r) yl) eqn:E6; [discriminate|].
    rewrite Qltb_false in E1, E2, E3, E4, E5, E6. intros _. split; [lra|].
    destruct (common_point xl xu (x_low r) (x_hi r)) as (x & X1 & X2); try assumption.
    destruct (common_point yl yu (y_low r) (y_hi r)) as (y & Y1 & Y2); try assumption.
    exists x, y. tauto.
  - intros (T & x & y & X1 & Y1 & X2 & Y2).
    rewrite (proj2 (Qltb_false t (t_low r))) by lra. rewrite (proj2 (Qltb_false (t_hi r) t)) by lra.
    rewrite (proj2 (Qltb_false xu (x_low r))) by lra. rewrite (proj2 (Qltb_false (x_hi r) xl)) by lra.
    rewrite (proj2 (Qltb_false yu (y_low r))) by lra. rewrite (proj2 (Qltb_false (y_hi r) yl)) by lra.
    reflexivity.
Qed.
Lemma meets_eq : forall xl yl xu yu xl' yl' xu' yu' t r, (xl == xl')%Q -> (yl == yl')%Q -> (xu == xu')%Q -> (yu == yu')%Q ->
  meets xl yl xu yu t r <-> meets xl' yl' xu' yu' t r.
Proof.
  intros. unfold meets. split; intros (T & x & y & X1 & Y1 & X2 & Y2); (split; [exact T|]); exists x, y; repeat split; lra.
Qed.

(** ** The level range *)
Definition mm_step (mm : Z * Z) (rb : region * bool) : Z * Z :=
  if snd rb then (Z.min (fst mm) (min_level (fst rb)), Z.max (snd mm) (max_level (fst rb))) else mm.
Lemma minmax_spec : forall (f : region -> bool) rs a b,
  let mm := fold_left mm_step (combine rs (map f rs)) (a, b) in
  (forall l, l < fst mm <-> l < a /\ forall r, In r rs -> f r = true -> l < min_level r) /\
  (forall l, snd mm <= l <-> b <= l /\ forall r, In r rs -> f r = true -> max_level r <= l).
Proof.
  intros f rs. induction rs as [|r rs IH]; intros a b; cbn [map combine fold_left].
  - cbn. split; intro l; (split; [intro H; split; [exact H | intros ? []] | tauto]).
  - unfold mm_step at 2. unfold mm_step at 3. cbn [fst snd]. destruct (f r) eqn:E.
    + destruct (IH (Z.min a (min_level r)) (Z.max b (max_level r))) as [I1 I2]. split; intro l.
      * rewrite I1. split.
        -- intros [A B]. split; [lia|]. intros r' [<- | Hin] F; [lia | now apply B].
        -- intros [A B]. split; [pose proof (B r (or_introl eq_refl) E); lia|]. intros r' Hin F. apply B; [now right | exact F].
      * rewrite I2. split.
        -- intros [A B]. split; [lia|]. intros r' [<- | Hin] F; [lia | now apply B].
        -- intros [A B]. split; [pose proof (B r (or_introl eq_refl) E); lia|]. intros r' Hin F. apply B; [now right | exact F].
    + destruct (IH a b) as [I1 I2]. split; intro l.
      * rewrite I1. split; intros [A B]; (split; [exact A|]).
        -- intros r' [<- | Hin] F; [congruence | now apply B].
        -- intros r' Hin F. apply B; [now right | exact F].
      * rewrite I2. split; intros [A B]; (split; [exact A|]).
        -- intros r' [<- | Hin] F; [congruence | now apply B].
        -- intros r' Hin F. apply B; [now right | exact F].
Qed.

Definition agree (f : region -> bool) (rs : list region) (P : region -> Prop) : Prop :=
  (exists r, In r rs /\ f r = true) /\ forall r, In r rs -> f r = true -> P r.
Lemma test_regions_spec : forall rs level xl yl xu yu t, Forall sane rs ->
  let f := P_intersects_R xl yl xu yu t in
  (test_regions rs level xl yl xu yu t true = 1 <-> agree f rs (fun r => level < min_level r)) /\
  (test_regions rs level xl yl xu yu t true = 0 <->
     ~ agree f rs (fun r => level < min_level r) /\ agree f rs (fun r => max_level r <= level)) /\
  (test_regions rs level xl yl xu yu t false = 0 <-> agree f rs (fun r => level <= min_level r)) /\
  (test_regions rs level xl yl xu yu t false = 1 <->
     ~ agree f rs (fun r => level <= min_level r) /\ agree f rs (fun r => max_level r < level)) /\
  (forall b, -1 <= test_regions rs level xl yl xu yu t b <= 1).
Proof.
  intros rs level xl yl xu yu t Hs f. unfold test_regions. fold f.
  change (fun (mm : Z * Z) (rb : region * bool) => if snd rb then (Z.min (fst mm) (min_level (fst rb)), Z.max (snd mm) (max_level (fst rb))) else mm) with mm_step.
  destruct (minmax_spec f rs 100 0) as [Mn Mx]. set (mm := fold_left mm_step (combine rs (map f rs)) (100, 0)) in *.
  rewrite Forall_forall in Hs.
  destruct (existsb (fun b => b) (map f rs)) eqn:E.
  - assert (W : exists r, In r rs /\ f r = true).
    { apply existsb_exists in E. destruct E as (b & Hb & ->). apply in_map_iff in Hb. destruct Hb as (r & F & Hr). now exists r. }
    assert (A1 : level < fst mm <-> agree f rs (fun r => level < min_level r)).
    { rewrite Mn. unfold agree. split; [intros [_ B]; tauto|]. intros [_ B]. split; [|exact B].
      destruct W as (r & Hr & F). specialize (B r Hr F). destruct (Hs r Hr). lia. }
    assert (A2 : snd mm <= level <-> agree f rs (fun r => max_level r <= level)).
    { rewrite Mx. unfold agree. split; [intros [_ B]; tauto|]. intros [_ B]. split; [|exact B].
      destruct W as (r & Hr & F). specialize (B r Hr F). destruct (Hs r Hr). lia. }
    assert (A3 : level <= fst mm <-> agree f rs (fun r => level <= min_level r)).
    { assert (X : level <= fst mm <-> level - 1 < fst mm) by lia. rewrite X, Mn. unfold agree. split.
      - intros [_ B]. split; [exact W|]. intros r Hr F. specialize (B r Hr F). lia.
      - intros [_ B]. split.
        + destruct W as (r & Hr & F). specialize (B r Hr F). destruct (Hs r Hr). lia.
        + intros r Hr F. specialize (B r Hr F). lia. }
    assert (A4 : snd mm < level <-> agree f rs (fun r => max_level r < level)).
    { assert (X : snd mm < level <-> snd mm <= level - 1) by lia. rewrite X, Mx. unfold agree. split.
      - intros [_ B]. split; [exact W|]. intros r Hr F. specialize (B r Hr F). lia.
      - intros [_ B]. split.
        + destruct W as (r & Hr & F). specialize (B r Hr F). destruct (Hs r Hr). lia.
        + intros r Hr F. specialize (B r Hr F). lia. }
    cbn [negb]. rewrite <- A1, <- A2, <- A3, <- A4.
    destruct (Z.ltb_spec level (fst mm)); destruct (Z.leb_spec (snd mm) level);
      destruct (Z.leb_spec level (fst mm)); destruct (Z.ltb_spec (snd mm) level); repeat split; intros; try lia; destruct b; lia.
  - assert (NW : forall P, ~ agree f rs P).
    { intros P [(r & Hr & F) _]. assert (existsb (fun b => b) (map f rs) = true).
      { apply existsb_exists. exists true. split; [|reflexivity]. rewrite <- F. now apply in_map. } congruence. }
    cbn [negb]. repeat split; try lia; intros; try discriminate; try (exfalso; eapply NW; eassumption);
      try (destruct H as [_ H]; exfalso; eapply NW; eassumption).
Qed.

(** ** Cells *)
Lemma any_flag_spec : forall flag cs, (forall c, In c cs -> exists f, flag c = Some f) ->
  exists b, any_flag flag cs = Some b /\ (b = true <-> exists c f, In c cs /\ flag c = Some f /\ 0 < f).
Proof.
  intros flag cs. induction cs as [|c cs IH]; intro H.
  - exists false. split; [reflexivity|]. split; [discriminate|]. intros (c & f & [] & _).
  - destruct (H c (or_introl eq_refl)) as [f F]. cbn [any_flag]. rewrite F. cbn [bind].
    destruct (Z.ltb_spec 0 f).
    + exists true. split; [reflexivity|]. split; [|reflexivity]. intros _. exists c, f. split; [now left|]. tauto.
    + destruct IH as (b & B1 & B2); [intros c' Hc; apply H; now right|]. exists b. split; [exact B1|]. rewrite B2. split.
      * intros (c' & f' & A & B & C). exists c', f'. split; [now right|]. tauto.
      * intros (c' & f' & [<- | A] & B & C); [rewrite F in B; inversion B; lia|]. now exists c', f'.
Qed.

Lemma sqrt_gt_iff : forall x y, sqrt_gt x y = true <-> (y < 0 \/ y * y < x)%Q.
Proof. intros. unfold sqrt_gt. rewrite orb_true_iff, !Qltb_true. reflexivity. Qed.

Lemma flag_spec : forall g p t level maxlevel init co i j, (0 <= dry_tolerance g)%Q ->
  exists f, flag_cell g p t level maxlevel init co (i, j) = Some f /\
    (0 < f <-> ~ (init <> 0 /\ co = true) /\ allowed g t level p i j /\ exceeds g (if co then (1 # 2) else 1)%Q level maxlevel p i j).
Proof.
  intros g p t level maxlevel init co i j Hd. unfold flag_cell, flag2refine, allowed, exceeds.
  destruct (negb (init =? 0) && co) eqn:E0.
  { exists 0. split; [reflexivity|]. apply andb_true_iff in E0. destruct E0 as [E0 ->]. apply negb_true_iff, Z.eqb_neq in E0.
    split; [lia|]. intros [C _]. exfalso. now apply C. }
  assert (N0 : ~ (init <> 0 /\ co = true)).
  { intros [A ->]. apply Z.eqb_neq in A. rewrite A in E0. discriminate. }
  set (al := allowflag g _ _ t level). destruct al; cbn [negb].
  2: { exists (-1). split; [reflexivity|]. split; [lia|]. intros (_ & C & _). discriminate. }
  set (fac := if co then (1 # 2)%Q else 1%Q). set (h := g_q p 1 i j).
  destruct (Qltb (dry_tolerance g) h) eqn:E1.
  2: { exists 0. split; [reflexivity|]. split; [lia|]. intros (_ & _ & C & _). apply Qltb_true in C. congruence. }
  apply Qltb_true in E1.
  destruct (Qltb (fac * wave_tolerance g) (Qabs (h + g_aux p 1 i j - sea_level g))) eqn:E2.
  { apply Qltb_true in E2. exists 1. split; [reflexivity|]. split; [|lia]. intros _. split; [exact N0|]. split; [reflexivity|].
    split; [exact E1|]. left. exact E2. }
  assert (E2' : ~ (fac * wave_tolerance g < Qabs (h + g_aux p 1%Z i j - sea_level g))%Q).
  { intro C. apply Qltb_true in C. congruence. }
  assert (E3 : Qle_bool h 0 = false).
  { destruct (Qle_bool h 0) eqn:E; [|reflexivity]. apply Qle_bool_iff in E. lra. }
  rewrite E3. eexists. split; [reflexivity|].
  match goal with |- 0 < (if ?b then 1 else 0) <-> _ => assert (X : 0 < (if b then 1 else 0) <-> b = true) by (destruct b; split; try lia; try discriminate; reflexivity) end.
  rewrite X, existsb_exists. clear X. split.
  - intros (m & Hm & B). apply in_upto in Hm. apply andb_true_iff in B. destruct B as [B1 B2]. apply sqrt_gt_iff in B1.
    apply Z.leb_le in B2. split; [exact N0|]. split; [reflexivity|]. split; [exact E1|]. right.
    exists m, (nth (Z.to_nat (m - 1)) (speed_tolerance g) 0%Q). split; [lia|]. split; [exact B2|]. split; [|exact B1].
    apply nth_error_nth'. lia.
  - intros (_ & _ & _ & [C | (m & tol & Hm & Hl & Hn & B)]); [contradiction|].
    exists m. assert (Hlen : (Z.to_nat (m - 1) < length (speed_tolerance g))%nat) by (apply nth_error_Some; congruence).
    split; [apply in_upto; lia|]. apply andb_true_iff. split; [|now apply Z.leb_le]. apply sqrt_gt_iff.
    rewrite (nth_error_nth _ _ 0%Q Hn). exact B.
Qed.

Lemma patch_flags : forall g p t level maxlevel init co, (0 <= dry_tolerance g)%Q ->
  exists b, any_flag (flag_cell g p t level maxlevel init co) (cells (g_mx p) (g_my p)) = Some b /\
    (b = true <-> ~ (init <> 0 /\ co = true) /\
       some_cell p (fun i j => allowed g t level p i j /\ exceeds g (if co then (1 # 2) else 1)%Q level maxlevel p i j)).
Proof.
  intros g p t level maxlevel init co Hd.
  destruct (any_flag_spec (flag_cell g p t level maxlevel init co) (cells (g_mx p) (g_my p))) as (b & B1 & B2).
  { intros [i j] _. destruct (flag_spec g p t level maxlevel init co i j Hd) as (f & F & _). now exists f. }
  exists b. split; [exact B1|]. rewrite B2. split.
  - intros ([i j] & f & Hin & F & Pos). apply in_cells in Hin.
    destruct (flag_spec g p t level maxlevel init co i j Hd) as (f' & F' & S). rewrite F in F'. inversion F'; subst f'.
    apply S in Pos. destruct Pos as (A & B & C). split; [exact A|]. exists i, j. tauto.
  - intros (A & i & j & Hi & Hj & B & C). destruct (flag_spec g p t level maxlevel init co i j Hd) as (f & F & S).
    exists (i, j), f. split; [now apply in_cells|]. split; [exact F|]. apply S. tauto.
Qed.

Definition kept_by (g : geodata) (t : Q) (level maxlevel init : Z) (p : tpatch) : Prop :=
  ~ (init <> 0 /\ true = true) /\ some_cell p (fun i j => allowed g t level p i j /\ exceeds g (1 # 2)%Q level maxlevel p i j).
Lemma coarsen_flags : forall g p0 p1 p2 p3 t level maxlevel init, (0 <= dry_tolerance g)%Q ->
  exists tag, fort_tag4coarsening g p0 p1 p2 p3 t level maxlevel init = Some tag /\ (tag = 0 \/ tag = 1) /\
    (tag = 1 <-> ~ (exists p, In p [p0; p1; p2; p3] /\ kept_by g t level maxlevel init p)).
Proof.
  intros g p0 p1 p2 p3 t level maxlevel init Hd.
  assert (T : forall p, exists tag, test_coarsen g p t level maxlevel init = Some tag /\ (tag = 0 \/ tag = 1) /\ (tag = 0 <-> kept_by g t level maxlevel init p)).
  { intro p. unfold test_coarsen. destruct (patch_flags g p t level maxlevel init true Hd) as (b & B1 & B2). rewrite B1. cbn [bind].
    exists (if b then 0 else 1). split; [reflexivity|]. split; [destruct b; tauto|]. unfold kept_by. rewrite <- B2.
    destruct b; split; intro; try reflexivity; try discriminate. }
  unfold fort_tag4coarsening.
  destruct (T p0) as (t0 & E0 & O0 & K0). destruct (T p1) as (t1 & E1 & O1 & K1).
  destruct (T p2) as (t2 & E2 & O2 & K2). destruct (T p3) as (t3 & E3 & O3 & K3).
  rewrite E0. cbn [bind]. destruct (Z.eqb_spec t0 0) as [Z0 | Z0].
  { exists 0. split; [reflexivity|]. split; [tauto|]. split; [discriminate|]. intro C. exfalso. apply C. exists p0. cbn. tauto. }
  rewrite E1. cbn [bind]. destruct (Z.eqb_spec t1 0) as [Z1 | Z1].
  { exists 0. split; [reflexivity|]. split; [tauto|]. split; [discriminate|]. intro C. exfalso. apply C. exists p1. cbn. tauto. }
  rewrite E2. cbn [bind]. destruct (Z.eqb_spec t2 0) as [Z2 | Z2].
  { exists 0. split; [reflexivity|]. split; [tauto|]. split; [discriminate|]. intro C. exfalso. apply C. exists p2. cbn. tauto. }
  rewrite E3. exists t3. split; [reflexivity|]. split; [exact O3|]. split.
  - intros -> (p & Hin & K). cbn in Hin. destruct Hin as [<- | [<- | [<- | [<- | []]]]]; [apply K0 in K | apply K1 in K | apply K2 in K | apply K3 in K]; lia.
  - intro C. destruct O3 as [O | O]; [|exact O]. exfalso. apply C. exists p3. cbn. apply K3 in O. tauto.
Qed.

(** ** Geometry *)
Lemma box_le : forall p, patch_ok p -> (g_xlower p <= xupper_of p)%Q /\ (g_ylower p <= yupper_of p)%Q.
Proof.
  intros p (A & B & C & D). unfold xupper_of, yupper_of.
  assert (X : (0 <= inject_Z (g_mx p))%Q) by (change 0%Q with (inject_Z 0); rewrite <- Zle_Qle; lia).
  assert (Y : (0 <= inject_Z (g_my p))%Q) by (change 0%Q with (inject_Z 0); rewrite <- Zle_Qle; lia).
  split; nra.
Qed.
Lemma agree_iff : forall g t p P, patch_ok p -> Forall proper (regions_of g) ->
  agree (P_intersects_R (g_xlower p) (g_ylower p) (xupper_of p) (yupper_of p) t) (regions_of g) P <-> all_say g t p P.
Proof.
  intros g t p P Hp Hr. destruct (box_le p Hp) as [X Y]. rewrite Forall_forall in Hr.
  assert (I : forall r, In r (regions_of g) -> P_intersects_R (g_xlower p) (g_ylower p) (xupper_of p) (yupper_of p) t r = true <-> patch_meets t p r).
  { intros r Hin. apply intersects_iff; auto. }
  unfold agree, all_say. split; intros [(r & A & B) C].
  - split; [exists r; split; [exact A | now apply I]|]. intros r' Hin M. apply C; [exact Hin | now apply I].
  - split; [exists r; split; [exact A | now apply I]|]. intros r' Hin M. apply C; [exact Hin | now apply I].
Qed.

(** the box used for a family is that of the parent *)
Lemma intersects_eq : forall xl yl xu yu xl' yl' xu' yu' t r, (xl == xl')%Q -> (yl == yl')%Q -> (xu == xu')%Q -> (yu == yu')%Q ->
  P_intersects_R xl yl xu yu t r = P_intersects_R xl' yl' xu' yu' t r.
Proof.
  intros. unfold P_intersects_R, Qltb.
  assert (C : forall a b a' b', (a == a')%Q -> (b == b')%Q -> Qle_bool a b = Qle_bool a' b') by (intros a b a' b' A B; now rewrite A, B).
  rewrite (C (x_low r) xu (x_low r) xu'), (C xl (x_hi r) xl' (x_hi r)), (C (y_low r) yu (y_low r) yu'), (C yl (y_hi r) yl' (y_hi r)); try assumption; reflexivity.
Qed.
Lemma test_regions_eq : forall rs level xl yl xu yu xl' yl' xu' yu' t b, (xl == xl')%Q -> (yl == yl')%Q -> (xu == xu')%Q -> (yu == yu')%Q ->
  test_regions rs level xl yl xu yu t b = test_regions rs level xl' yl' xu' yu' t b.
Proof.
  intros. unfold test_regions.
  replace (map (P_intersects_R xl yl xu yu t) rs) with (map (P_intersects_R xl' yl' xu' yu' t) rs); [reflexivity|].
  apply map_ext. intro r. now apply intersects_eq.
Qed.
Lemma family_box : forall p p0 p1 p2 p3, family p p0 p1 p2 p3 ->
  (g_xlower p0 == g_xlower p)%Q /\ (g_ylower p0 == g_ylower p)%Q /\
  (g_xlower p1 + inject_Z (g_mx p3) * g_dx p3 == xupper_of p)%Q /\ (g_ylower p2 + inject_Z (g_my p3) * g_dy p3 == yupper_of p)%Q.
Proof.
  intros p p0 p1 p2 p3 (A0 & A1 & A2 & A3). destruct A0 as (_ & _ & _ & _ & _ & X0 & Y0).
  destruct A1 as (_ & _ & _ & D1 & _ & X1 & _). destruct A2 as (_ & _ & _ & _ & D2 & _ & Y2).
  destruct A3 as (_ & M3 & N3 & D3 & E3 & _ & _). unfold xupper_of, yupper_of.
  change (inject_Z 0) with 0%Q in *. change (inject_Z 1) with 1%Q in *.
  repeat split.
  - rewrite X0. ring.
  - rewrite Y0. ring.
  - rewrite X1, D1, M3, D3. field.
  - rewrite Y2, D2, N3, E3. field.
Qed.
