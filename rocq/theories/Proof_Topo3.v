(** More proofs about the bathymetry of grid cells: several files. *)
From Coq Require Import ZArith QArith Qround Qminmax List Bool Lia Lqa Sorted Setoid Morphisms Field.
From Verif Require Import Model_Topo Spec_Topo Proof_Topo Proof_Topo2.
Import ListNotations.
Open Scope Q_scope.

(** * Intersections *)
Definition isect (r : rect) (f : topofile) : rect := snd (intersection r (extent f)).
Lemma isect_eq r f : isect r f = mkRect (Qmax (r_x1 r) (t_xlow f)) (Qmin (r_x2 r) (t_xhi f))
                                        (Qmax (r_y1 r) (t_ylow f)) (Qmin (r_y2 r) (t_yhi f)).
Proof. unfold isect, intersection, extent. cbn [r_x1 r_x2 r_y1 r_y2]. now destruct (_ && _). Qed.
Definition overlap (r : rect) (f : topofile) : bool := fst (fst (intersection r (extent f))).
Lemma qltb_iff a b : qltb a b = true <-> a < b.
Proof.
  unfold qltb. rewrite negb_true_iff. split; intros H.
  - apply Qnot_le_lt. intros L. apply Qle_bool_iff in L. congruence.
  - destruct (Qle_bool b a) eqn:E; [|reflexivity]. apply Qle_bool_iff in E. lra.
Qed.
Lemma overlap_iff r f : overlap r f = true <-> proper (isect r f).
Proof.
  rewrite isect_eq. unfold overlap, intersection, extent, proper. cbn [r_x1 r_x2 r_y1 r_y2].
  destruct (qltb (Qmax (r_x1 r) (t_xlow f)) (Qmin (r_x2 r) (t_xhi f))) eqn:E1;
  destruct (qltb (Qmax (r_y1 r) (t_ylow f)) (Qmin (r_y2 r) (t_yhi f))) eqn:E2; cbn [andb fst];
  rewrite <- !qltb_iff, ?E1, ?E2; intuition congruence.
Qed.
Lemma intersection_eq r f : intersection r (extent f) =
  (overlap r f, (if overlap r f then (r_x2 (isect r f) - r_x1 (isect r f)) * (r_y2 (isect r f) - r_y1 (isect r f)) else 0), isect r f).
Proof.
  unfold overlap, isect, intersection. destruct (_ && _); reflexivity.
Qed.
Lemma isect_within r f : within (isect r f) f.
Proof.
  rewrite isect_eq. unfold within. cbn [r_x1 r_x2 r_y1 r_y2].
  repeat split; auto using Q.le_max_r, Q.le_min_r.
Qed.
Lemma isect_inside r f x y : inside (isect r f) x y = inside r x y && inside (extent f) x y.
Proof.
  rewrite isect_eq. unfold inside, extent. cbn [r_x1 r_x2 r_y1 r_y2].
  apply eq_true_iff_eq. rewrite !andb_true_iff, !Qle_bool_iff, !Q.max_lub_iff, !Q.min_glb_iff. tauto.
Qed.
Lemma isect_edges r f xs ys : valid f -> edges r xs ys -> fits f xs ys -> edges (isect r f) xs ys.
Proof.
  intros (Dx & Dy & Mx & My) (E1 & E2 & E3 & E4) [Fx Fy].
  assert (L : has xs (t_xlow f)) by (destruct (Fx 1%Z ltac:(lia)) as (x & Hx & Ex); exists x; split; [assumption|]; rewrite Ex; unfold xline; change (inject_Z (1 - 1)) with 0; ring).
  assert (B : has ys (t_ylow f)) by (destruct (Fy 1%Z ltac:(lia)) as (x & Hx & Ex); exists x; split; [assumption|]; rewrite Ex; unfold yline; change (inject_Z (1 - 1)) with 0; ring).
  assert (R : has xs (t_xhi f)) by (apply (Fx (t_mx f)); lia).
  assert (T : has ys (t_yhi f)) by (apply (Fy (t_my f)); lia).
  rewrite isect_eq. unfold edges. cbn [r_x1 r_x2 r_y1 r_y2]. auto using has_max, has_min.
Qed.

Lemma mid_strict xs c p : StronglySorted Qlt xs -> has xs c -> In p (pairs xs) -> mid p < c \/ c < mid p.
Proof.
  intros S H Hp. pose proof (pairs_lt xs p S Hp). destruct (pairs_nocross xs c p S H Hp); unfold mid; [right|left]; lra.
Qed.

Lemma empty_outside r f xs ys p q : valid f -> edges r xs ys -> fits f xs ys ->
  StronglySorted Qlt xs -> StronglySorted Qlt ys -> In p (pairs xs) -> In q (pairs ys) ->
  overlap r f = false -> inside (isect r f) (mid p) (mid q) = false.
Proof.
  intros V E F Sx Sy Hp Hq O. destruct (inside (isect r f) (mid p) (mid q)) eqn:I; [|reflexivity]. exfalso.
  destruct (isect_edges r f xs ys V E F) as (E1 & E2 & E3 & E4).
  unfold inside in I. rewrite !andb_true_iff, !Qle_bool_iff in I. destruct I as [[I1 I2] [I3 I4]].
  assert (X : proper (isect r f)); [|apply overlap_iff in X; congruence].
  destruct (mid_strict xs _ p Sx E1 Hp), (mid_strict ys _ q Sy E3 Hq); split; lra.
Qed.

(** * The recursion, for any quantity that is known for single files *)
Section Rec.
  Variables (leaf : topofile -> rect -> Q) (h : topofile -> Q -> Q -> Q) (xs ys : list Q).
  Fixpoint recint (fs : list topofile) (r : rect) : Q :=
    match fs with
    | [] => 0
    | f :: rest =>
      match rest with
      | [] => if overlap r f then leaf f (isect r f) else 0
      | _ => if overlap r f then recint rest r - recint rest (isect r f) + leaf f (isect r f) else recint rest r
      end
    end.
  Fixpoint first (fs : list topofile) (x y : Q) : Q :=
    match fs with [] => 0 | f :: rest => if inside (extent f) x y then h f x y else first rest x y end.
  Hypothesis (Sx : StronglySorted Qlt xs) (Sy : StronglySorted Qlt ys).

  Lemma recint_sum fs r :
    (forall f i, In f fs -> proper i -> within i f -> edges i xs ys -> leaf f i == riemann xs ys (over i (h f))) ->
    (forall f, In f fs -> valid f /\ fits f xs ys) -> edges r xs ys ->
    recint fs r == riemann xs ys (over r (first fs)).
  Proof.
    revert r. induction fs as [|f rest IH]; intros r HL HF HE.
    - cbn [recint first]. symmetry. rewrite <- (riemann_zero xs ys). apply riemann_ext. intros. unfold over. now destruct (inside _ _ _).
    - destruct (HF f (or_introl eq_refl)) as [V F].
      pose proof (isect_edges r f xs ys V HE F) as HI.
      assert (IH' : forall s, edges s xs ys -> recint rest s == riemann xs ys (over s (first rest))).
      { intros s Hs. apply IH; auto. intros g i Hg. apply HL. now right. intros g Hg. apply HF. now right. }
      assert (Step : (if overlap r f then recint rest r - recint rest (isect r f) + leaf f (isect r f) else recint rest r)
                     == riemann xs ys (over r (first (f :: rest)))).
      { destruct (overlap r f) eqn:O.
        - rewrite (IH' r HE), (IH' _ HI).
          rewrite (HL f (isect r f) (or_introl eq_refl) (proj1 (overlap_iff r f) O) (isect_within r f) HI).
          transitivity (riemann xs ys (fun x y => (over r (first rest) x y + (-1) * over (isect r f) (first rest) x y) + over (isect r f) (h f) x y)).
          + rewrite riemann_plus. rewrite (riemann_plus xs ys (over r (first rest)) (fun x y => (-1) * over (isect r f) (first rest) x y)).
            rewrite riemann_scal. ring.
          + apply riemann_ext. intros p q Hp Hq. unfold over. rewrite isect_inside. cbn [first].
            destruct (inside r (mid p) (mid q)); cbn [andb]; [|ring].
            destruct (inside (extent f) (mid p) (mid q)); ring.
        - rewrite (IH' r HE). apply riemann_ext. intros p q Hp Hq.
          pose proof (empty_outside r f xs ys p q V HE F Sx Sy Hp Hq O) as N. rewrite isect_inside in N.
          unfold over. cbn [first]. destruct (inside r (mid p) (mid q)); [|reflexivity]. cbn [andb] in N. now rewrite N. }
      destruct rest as [|g rest].
      + rewrite <- Step. cbn [recint]. destruct (overlap r f); [ring|reflexivity].
      + rewrite <- Step. reflexivity.
  Qed.
End Rec.

Lemma rectintegral_rec fs r : rectintegral fs r = recint topointegral fs r.
Proof.
  revert r. induction fs as [|f rest IH]; intros r; [reflexivity|]. cbn [rectintegral recint]. rewrite intersection_eq.
  destruct rest as [|g rest]; [reflexivity|].
  assert (A : qltb 0 (if overlap r f then (r_x2 (isect r f) - r_x1 (isect r f)) * (r_y2 (isect r f) - r_y1 (isect r f)) else 0) = overlap r f).
  { destruct (overlap r f) eqn:O; [|reflexivity]. apply overlap_iff in O. destruct O. apply qltb_iff. apply Qmult_lt_0_compat; lra. }
  rewrite A, !IH. reflexivity.
Qed.
Definition area_of (f : topofile) (r : rect) : Q := (r_x2 r - r_x1 r) * (r_y2 r - r_y1 r).
Lemma topoarea_rec fs r : topoarea fs r = recint area_of fs r.
Proof.
  revert r. induction fs as [|f rest IH]; intros r; [reflexivity|]. cbn [topoarea recint]. rewrite intersection_eq.
  destruct rest as [|g rest]; [reflexivity|].
  assert (A : qltb 0 (if overlap r f then (r_x2 (isect r f) - r_x1 (isect r f)) * (r_y2 (isect r f) - r_y1 (isect r f)) else 0) = overlap r f).
  { destruct (overlap r f) eqn:O; [|reflexivity]. apply overlap_iff in O. destruct O. apply qltb_iff. apply Qmult_lt_0_compat; lra. }
  rewrite A, !IH. destruct (overlap r f); reflexivity.
Qed.

Lemma fine_parts fs r xs ys : fine fs r xs ys ->
  StronglySorted Qlt xs /\ StronglySorted Qlt ys /\ edges r xs ys /\ (forall f, In f fs -> fits f xs ys).
Proof. intros (S1 & S2 & E1 & E2 & E3 & E4 & F). unfold edges. auto 8. Qed.

Lemma rectintegral_sum fs r xs ys : (forall f, In f fs -> valid f) -> fine fs r xs ys ->
  rectintegral fs r == riemann xs ys (over r (surface fs)).
Proof.
  intros V F. destruct (fine_parts _ _ _ _ F) as (Sx & Sy & E & Fi). rewrite rectintegral_rec.
  rewrite (recint_sum topointegral height xs ys Sx Sy fs r).
  - apply riemann_ext. intros. unfold over. destruct (inside r _ _); [|reflexivity].
    clear. induction fs as [|f fs IH]; [reflexivity|]. cbn [first surface]. destruct (inside _ _ _); [reflexivity|apply IH].
  - intros f i Hf Pi Wi Ei. apply topointegral_sum; auto.
  - auto.
  - exact E.
Qed.
Lemma topoarea_sum fs r xs ys : (forall f, In f fs -> valid f) -> fine fs r xs ys ->
  topoarea fs r == riemann xs ys (over r (covered fs)).
Proof.
  intros V F. destruct (fine_parts _ _ _ _ F) as (Sx & Sy & E & Fi). rewrite topoarea_rec.
  rewrite (recint_sum area_of (fun _ _ _ => 1) xs ys Sx Sy fs r).
  - apply riemann_ext. intros. unfold over. destruct (inside r _ _); [|reflexivity].
    clear. induction fs as [|f fs IH]; [reflexivity|]. cbn [first covered]. destruct (inside _ _ _); [reflexivity|apply IH].
  - intros f i Hf [Px Py] Wi (E1 & E2 & E3 & E4). unfold area_of. symmetry. apply area_sum; auto; lra.
  - auto.
  - exact E.
Qed.

Lemma same_area r f : proper r -> overlap r f = true ->
  (r_x2 (isect r f) - r_x1 (isect r f)) * (r_y2 (isect r f) - r_y1 (isect r f)) == (r_x2 r - r_x1 r) * (r_y2 r - r_y1 r) ->
  within r f.
Proof.
  intros [Px Py] O. apply overlap_iff in O. destruct O as [Ox Oy]. rewrite isect_eq in *. cbn [r_x1 r_x2 r_y1 r_y2] in *.
  pose proof (Q.le_max_l (r_x1 r) (t_xlow f)). pose proof (Q.le_max_r (r_x1 r) (t_xlow f)).
  pose proof (Q.le_min_l (r_x2 r) (t_xhi f)). pose proof (Q.le_min_r (r_x2 r) (t_xhi f)).
  pose proof (Q.le_max_l (r_y1 r) (t_ylow f)). pose proof (Q.le_max_r (r_y1 r) (t_ylow f)).
  pose proof (Q.le_min_l (r_y2 r) (t_yhi f)). pose proof (Q.le_min_r (r_y2 r) (t_yhi f)).
  unfold within.
  intros A. set (a := Qmax (r_x1 r) (t_xlow f)) in *. set (b := Qmin (r_x2 r) (t_xhi f)) in *.
  set (c := Qmax (r_y1 r) (t_ylow f)) in *. set (d := Qmin (r_y2 r) (t_yhi f)) in *. clearbody a b c d.
  assert (X : b - a == r_x2 r - r_x1 r /\ d - c == r_y2 r - r_y1 r).
  { set (w := r_x2 r - r_x1 r) in *. set (l := r_y2 r - r_y1 r) in *. set (w' := b - a) in *. set (l' := d - c) in *.
    assert (w' <= w) by (unfold w, w'; lra). assert (l' <= l) by (unfold l, l'; lra).
    assert (0 < w') by (unfold w'; lra). assert (0 < l') by (unfold l'; lra).
    clearbody w l w' l'. split.
    - destruct (Qlt_le_dec w' w) as [L|L]; [exfalso; nra|lra].
    - destruct (Qlt_le_dec l' l) as [L|L]; [exfalso; nra|lra]. }
  destruct X. repeat split; lra.
Qed.

Lemma cgi_sum fs r xs ys v : (forall f, In f fs -> valid f) -> proper r -> fine fs r xs ys ->
  cellgridintegrate fs r = Some v -> v == riemann xs ys (over r (surface fs)).
Proof.
  induction fs as [|f rest IH]; intros V P F H; [discriminate|].
  destruct (fine_parts _ _ _ _ F) as (Sx & Sy & E & Fi).
  cbn [cellgridintegrate] in H. rewrite intersection_eq in H.
  destruct (overlap r f) eqn:O.
  - destruct (Qeq_bool _ _) eqn:A.
    + apply Qeq_bool_iff in A. pose proof (same_area r f P O A) as W.
      injection H as <-.
      assert (Vf : valid f) by (apply V; now left). assert (Ff : fits f xs ys) by (apply Fi; now left).
      rewrite (topointegral_sum f (isect r f) xs ys Vf (proj1 (overlap_iff r f) O) (isect_within r f) Sx Sy Ff (isect_edges r f xs ys Vf E Ff)).
      rewrite Qplus_0_l. apply riemann_ext. intros p q _ _. unfold over. rewrite isect_inside.
      destruct (inside r (mid p) (mid q)) eqn:I; [|reflexivity]. cbn [andb surface].
      assert (J : inside (extent f) (mid p) (mid q) = true).
      { destruct W as (W1 & W2 & W3 & W4). unfold inside, extent in *. cbn [r_x1 r_x2 r_y1 r_y2] in *.
        rewrite !andb_true_iff, !Qle_bool_iff in *. destruct I as [[I1 I2] [I3 I4]]. repeat split; lra. }
      rewrite J. reflexivity.
    + assert (G := f_equal (fun o => match o with Some w => w | None => 0 end) H). cbv beta iota in G. rewrite <- G.
      exact (rectintegral_sum (f :: rest) r xs ys V F).
  - assert (F' : fine rest r xs ys).
    { destruct F as (S1 & S2 & E1 & E2 & E3 & E4 & FF). repeat split; auto; apply FF; now right. }
    rewrite (IH (fun g Hg => V g (or_intror Hg)) P F' H).
    apply riemann_ext. intros p q Hp Hq.
    pose proof (empty_outside r f xs ys p q (V f (or_introl eq_refl)) E (Fi f (or_introl eq_refl)) Sx Sy Hp Hq O) as N.
    rewrite isect_inside in N. unfold over. cbn [surface].
    destruct (inside r (mid p) (mid q)); [|reflexivity]. cbn [andb] in N. now rewrite N.
Qed.

Lemma cgi_none fs r : cellgridintegrate fs r = None <-> forall f, In f fs -> ~ proper (isect r f).
Proof.
  induction fs as [|f rest IH]; [split; [intros _ f []|reflexivity]|].
  cbn [cellgridintegrate]. rewrite intersection_eq. destruct (overlap r f) eqn:O.
  - split.
    + destruct (Qeq_bool _ _); discriminate.
    + intros H. exfalso. apply (H f (or_introl eq_refl)). now apply overlap_iff.
  - rewrite IH. split.
    + intros H g [<-|Hg]; [|now apply H]. intros X. apply overlap_iff in X. congruence.
    + intros H g Hg. apply H. now right.
Qed.

(** * There are always such partitions *)
Fixpoint ins (c : Q) (l : list Q) : list Q :=
  match l with
  | [] => [c]
  | x :: t => match Qcompare c x with Lt => c :: l | Eq => l | Gt => x :: ins c t end
  end.
Lemma ins_in c l x : In x (ins c l) -> x = c \/ In x l.
Proof.
  induction l as [|y t IH]; cbn [ins]; [intros [<-|[]]; now left|].
  destruct (Qcompare c y); [now right|intros [<-|H]; [now left|now right]|].
  intros [<-|H]; [right; now left|]. destruct (IH H); [now left|right; now right].
Qed.
Lemma ins_sorted c l : StronglySorted Qlt l -> StronglySorted Qlt (ins c l).
Proof.
  intros S; induction S as [|x t S IH F]; cbn [ins]; [repeat constructor|].
  destruct (Qcompare c x) eqn:E.
  - constructor; assumption.
  - apply Qlt_alt in E. constructor; [constructor; assumption|]. constructor; [assumption|].
    rewrite Forall_forall in *. intros y Hy. apply Qlt_trans with x; auto.
  - apply Qgt_alt in E. constructor; [assumption|]. rewrite Forall_forall in *. intros y Hy.
    apply ins_in in Hy. destruct Hy as [->|Hy]; auto.
Qed.
Lemma ins_has c l d : (d == c \/ has l d) -> has (ins c l) d.
Proof.
  induction l as [|x t IH]; cbn [ins]; intros H.
  - exists c. split; [now left|]. destruct H as [H|(y & [] & _)]. now symmetry.
  - destruct (Qcompare c x) eqn:E.
    + apply Qeq_alt in E. destruct H as [H|H]; [|assumption]. exists x. split; [now left|]. rewrite H. now symmetry.
    + destruct H as [H|(y & Hy & Ey)]; [exists c; split; [now left|now symmetry]|exists y; split; [now right|assumption]].
    + destruct H as [H|(y & [<-|Hy] & Ey)].
      * destruct (IH (or_introl H)) as (z & Hz & Ez). exists z. split; [now right|assumption].
      * exists x. split; [now left|assumption].
      * destruct (IH (or_intror (ex_intro _ y (conj Hy Ey)))) as (z & Hz & Ez). exists z. split; [now right|assumption].
Qed.
Definition sortq (l : list Q) : list Q := fold_right ins [] l.
Lemma sortq_sorted l : StronglySorted Qlt (sortq l).
Proof. unfold sortq. induction l as [|c l IH]; cbn [fold_right]; [constructor|now apply ins_sorted]. Qed.
Lemma sortq_has l d : In d l -> has (sortq l) d.
Proof.
  unfold sortq. induction l as [|c l IH]; cbn [fold_right]; [intros []|]. intros [->|H]; apply ins_has; [left; reflexivity|right; auto].
Qed.
Lemma fine_exists fs r : exists xs ys, fine fs r xs ys.
Proof.
  exists (sortq (r_x1 r :: r_x2 r :: flat_map (fun f => map (xline f) (range 1 (t_mx f))) fs)).
  exists (sortq (r_y1 r :: r_y2 r :: flat_map (fun f => map (yline f) (range 1 (t_my f))) fs)).
  split; [apply sortq_sorted|]. split; [apply sortq_sorted|].
  split; [apply sortq_has; now left|]. split; [apply sortq_has; right; now left|].
  split; [apply sortq_has; now left|]. split; [apply sortq_has; right; now left|].
  intros f Hf. split; intros i Hi; apply sortq_has; right; right; apply in_flat_map; exists f; (split; [assumption|]);
  apply in_map; now apply range_in.
Qed.

(** * Consequences *)
Lemma riemann_le xs ys g h : StronglySorted Qlt xs -> StronglySorted Qlt ys ->
  (forall p q, In p (pairs xs) -> In q (pairs ys) -> g (mid p) (mid q) <= h (mid p) (mid q)) ->
  riemann xs ys g <= riemann xs ys h.
Proof.
  intros Sx Sy H. rewrite !riemann_unfold.
  assert (M : forall A (l : list A) a b, (forall k, In k l -> a k <= b k) -> qsum (map a l) <= qsum (map b l)).
  { intros A l a b. unfold qsum. induction l as [|k l IH]; cbn [map fold_right]; intros X; [apply Qle_refl|].
    apply Qplus_le_compat; [apply X; now left|apply IH; intros; apply X; now right]. }
  apply M. intros p Hp. apply M. intros q Hq.
  pose proof (pairs_lt xs p Sx Hp). pose proof (pairs_lt ys q Sy Hq). pose proof (H p q Hp Hq).
  assert (0 < width p * width q) by (apply Qmult_lt_0_compat; unfold width; lra).
  setoid_rewrite (Qmult_comm (width p * width q)). apply Qmult_le_compat_r; [assumption|lra].
Qed.

Lemma qsum_nonneg_zero {A} (f : A -> Q) l : (forall a, In a l -> 0 <= f a) -> qsum (map f l) == 0 ->
  forall a, In a l -> f a == 0.
Proof.
  assert (P : forall l, (forall a, In a l -> 0 <= f a) -> 0 <= qsum (map f l)).
  { clear. unfold qsum. induction l as [|b l IH]; cbn [map fold_right]; intros H; [apply Qle_refl|].
    pose proof (H b (or_introl eq_refl)). pose proof (IH (fun a Ha => H a (or_intror Ha))). lra. }
  induction l as [|b l IH]; intros H E a Ha; [destruct Ha|]. rewrite qsum_cons in E.
  pose proof (H b (or_introl eq_refl)). pose proof (P l (fun a Ha => H a (or_intror Ha))).
  destruct Ha as [<-|Ha]; [lra|]. apply IH; auto; [intros; apply H; now right|lra].
Qed.
Lemma riemann_zero_points xs ys g : StronglySorted Qlt xs -> StronglySorted Qlt ys ->
  (forall x y, 0 <= g x y) -> riemann xs ys g == 0 ->
  forall p q, In p (pairs xs) -> In q (pairs ys) -> g (mid p) (mid q) == 0.
Proof.
  intros Sx Sy G E p q Hp Hq. rewrite riemann_unfold in E.
  assert (N : forall p q, In p (pairs xs) -> In q (pairs ys) -> 0 < width p * width q).
  { intros p' q' Hp' Hq'. pose proof (pairs_lt xs p' Sx Hp'). pose proof (pairs_lt ys q' Sy Hq').
    apply Qmult_lt_0_compat; unfold width; lra. }
  assert (N2 : forall p q, In p (pairs xs) -> In q (pairs ys) -> 0 <= width p * width q * g (mid p) (mid q)).
  { intros p' q' Hp' Hq'. apply Qmult_le_0_compat; [apply Qlt_le_weak; auto|apply G]. }
  assert (E1 : qsum (map (fun q => width p * width q * g (mid p) (mid q)) (pairs ys)) == 0).
  { apply (qsum_nonneg_zero (fun p => qsum (map (fun q => width p * width q * g (mid p) (mid q)) (pairs ys))) (pairs xs)); auto.
    intros p' Hp'. generalize (fun q => N2 p' q Hp'). generalize (pairs ys). intros l. unfold qsum.
    induction l as [|b l IH]; cbn [map fold_right]; intros H; [apply Qle_refl|].
    pose proof (H b (or_introl eq_refl)). pose proof (IH (fun a Ha => H a (or_intror Ha))). lra. }
  pose proof (qsum_nonneg_zero (fun q => width p * width q * g (mid p) (mid q)) (pairs ys) (fun q Hq => N2 p q Hp Hq) E1 q Hq) as Z.
  cbv beta in Z. apply Qmult_integral in Z. destruct Z as [Z|Z]; [|assumption]. pose proof (N p q Hp Hq). lra.
Qed.

Lemma pair_at l a b x : StronglySorted Qlt l -> has l a -> has l b -> a < b -> a <= x <= b ->
  exists p, In p (pairs l) /\ a <= fst p /\ fst p <= x /\ x <= snd p /\ snd p <= b.
Proof.
  intros S. revert a. induction S as [|u t S IH F]; intros a (a' & Ha & Ea) (b' & Hb & Eb) Lab Lx; [destruct Ha|].
  destruct t as [|v t].
  { destruct Ha as [<-|[]], Hb as [<-|[]]. exfalso. lra. }
  rewrite Forall_forall in F.
  assert (Vmin : forall z, In z (v :: t) -> v <= z).
  { intros z [<-|Hz]; [apply Qle_refl|]. inversion S as [|? ? ? F']; subst. rewrite Forall_forall in F'. apply Qlt_le_weak. now apply F'. }
  assert (Umin : forall z, In z (u :: v :: t) -> u <= z).
  { intros z [<-|Hz]; [apply Qle_refl|]. apply Qlt_le_weak. now apply F. }
  pose proof (Umin a' Ha) as Ua.
  assert (Hb' : In b' (v :: t)) by (destruct Hb as [<-|Hb]; [exfalso; lra|assumption]).
  pose proof (Vmin b' Hb') as Vb.
  change (pairs (u :: v :: t)) with ((u, v) :: pairs (v :: t)).
  destruct (Qlt_le_dec v x) as [L|L].
  - destruct Ha as [<-|Ha].
    + destruct (IH v) as (p & Hp & P1 & P2); [exists v; split; [now left|reflexivity]|now exists b'|lra|lra|].
      exists p. split; [now right|]. pose proof (F v (or_introl eq_refl)). split; [lra|assumption].
    + destruct (IH a) as (p & Hp & P); [now exists a'|now exists b'|lra|lra|]. exists p. split; [now right|assumption].
  - destruct Ha as [<-|Ha].
    + exists (u, v). split; [now left|]. cbn [fst snd]. repeat split; lra.
    + destruct (IH a) as (p & Hp & P); [now exists a'|now exists b'|lra|lra|]. exists p. split; [now right|assumption].
Qed.

Lemma covered_01 fs x y : covered fs x y == 1 /\ (exists f, In f fs /\ inside (extent f) x y = true) \/
  covered fs x y == 0 /\ (forall f, In f fs -> inside (extent f) x y = false).
Proof.
  induction fs as [|f fs IH]; cbn [covered]; [right; split; [reflexivity|intros f []]|].
  destruct (inside (extent f) x y) eqn:E.
  - left. split; [reflexivity|]. exists f. split; [now left|assumption].
  - destruct IH as [[C (g & Hg & Eg)]|[C N]]; [left|right]; (split; [assumption|]).
    + exists g. split; [now right|assumption].
    + intros g [<-|Hg]; auto.
Qed.

Lemma full_cover fs r : (forall f, In f fs -> valid f) -> proper r ->
  (topoarea fs r == (r_x2 r - r_x1 r) * (r_y2 r - r_y1 r) <->
   forall x y, inside r x y = true -> exists f, In f fs /\ inside (extent f) x y = true).
Proof.
  intros V P. destruct (fine_exists fs r) as (xs & ys & F). pose proof (topoarea_sum fs r xs ys V F) as T.
  destruct (fine_parts _ _ _ _ F) as (Sx & Sy & (E1 & E2 & E3 & E4) & Fi).
  pose proof (area_sum xs ys r Sx Sy E1 E2 E3 E4 ltac:(destruct P; lra) ltac:(destruct P; lra)) as A.
  split.
  - intros E x y I.
    assert (Z : riemann xs ys (fun x y => over r (fun _ _ => 1) x y + (-1) * over r (covered fs) x y) == 0).
    { rewrite riemann_plus, riemann_scal, A, <- T, E. ring. }
    unfold inside in I. rewrite !andb_true_iff, !Qle_bool_iff in I. destruct I as [I1 I2], P as [Px Py].
    destruct (pair_at xs _ _ x Sx E1 E2 Px I1) as (p & Hp & P1 & P2 & P3 & P4).
    destruct (pair_at ys _ _ y Sy E3 E4 Py I2) as (q & Hq & Q1 & Q2 & Q3 & Q4).
    assert (C : over r (fun _ _ => 1) (mid p) (mid q) + (-1) * over r (covered fs) (mid p) (mid q) == 0).
    { apply (riemann_zero_points xs ys (fun x y => over r (fun _ _ => 1) x y + (-1) * over r (covered fs) x y) Sx Sy); auto.
      intros a b. unfold over. destruct (inside r a b); [|lra]. destruct (covered_01 fs a b) as [[-> _]|[-> _]]; lra. }
    pose proof (pairs_lt xs p Sx Hp) as Lp. pose proof (pairs_lt ys q Sy Hq) as Lq.
    assert (Mp : fst p < mid p /\ mid p < snd p) by (unfold mid; lra).
    assert (Mq : fst q < mid q /\ mid q < snd q) by (unfold mid; lra).
    assert (J : inside r (mid p) (mid q) = true).
    { unfold inside. rewrite !andb_true_iff, !Qle_bool_iff. repeat split; lra. }
    unfold over in C. rewrite J in C.
    destruct (covered_01 fs (mid p) (mid q)) as [[_ (f & Hf & If)]|[C0 _]]; [|rewrite C0 in C; lra].
    exists f. split; [assumption|].
    destruct (Fi f Hf) as [Fx Fy], (V f Hf) as (_ & _ & Mx & My).
    pose proof (pairs_nocross xs _ p Sx (Fx 1%Z ltac:(lia)) Hp) as N1.
    pose proof (pairs_nocross xs _ p Sx (Fx (t_mx f) ltac:(lia)) Hp) as N2.
    pose proof (pairs_nocross ys _ q Sy (Fy 1%Z ltac:(lia)) Hq) as N3.
    pose proof (pairs_nocross ys _ q Sy (Fy (t_my f) ltac:(lia)) Hq) as N4.
    assert (X1 : xline f 1 == t_xlow f) by (unfold xline; change (inject_Z (1 - 1)) with 0; ring).
    assert (Y1 : yline f 1 == t_ylow f) by (unfold yline; change (inject_Z (1 - 1)) with 0; ring).
    change (xline f (t_mx f)) with (t_xhi f) in N2. change (yline f (t_my f)) with (t_yhi f) in N4.
    unfold nocross in *. unfold inside, extent in *. cbn [r_x1 r_x2 r_y1 r_y2] in *.
    rewrite !andb_true_iff, !Qle_bool_iff in *. destruct If as [[K1 K2] [K3 K4]].
    destruct N1, N2, N3, N4; repeat split; lra.
  - intros H. rewrite T, <- A. apply riemann_ext. intros p q _ _. unfold over.
    destruct (inside r (mid p) (mid q)) eqn:I; [|reflexivity].
    destruct (covered_01 fs (mid p) (mid q)) as [[C _]|[_ N]]; [assumption|].
    destruct (H _ _ I) as (f & Hf & If). rewrite (N f Hf) in If. discriminate.
Qed.

(** * A rectangle that sticks out of the file *)
Lemma clip_eq f r : valid f -> overlap r f = true ->
  r_x1 (clip f r) == r_x1 (isect r f) /\ r_x2 (clip f r) == r_x2 (isect r f) /\
  r_y1 (clip f r) == r_y1 (isect r f) /\ r_y2 (clip f r) == r_y2 (isect r f).
Proof.
  intros V O. rewrite isect_eq. unfold clip. cbn [r_x1 r_x2 r_y1 r_y2].
  destruct (qltb (r_x1 r - t_xlow f) 0 || qltb 0 (r_x2 r - t_xhi f)) eqn:X;
  destruct (qltb (r_y1 r - t_ylow f) 0 || qltb 0 (r_y2 r - t_yhi f)) eqn:Y;
  rewrite ?(Q.max_comm (t_xlow f)), ?(Q.min_comm (t_xhi f)), ?(Q.max_comm (t_ylow f)), ?(Q.min_comm (t_yhi f));
  try (apply orb_false_iff in X; destruct X as [X1 X2]; unfold qltb in X1, X2; apply negb_false_iff in X1, X2; qb);
  try (apply orb_false_iff in Y; destruct Y as [Y1 Y2]; unfold qltb in Y1, Y2; apply negb_false_iff in Y1, Y2; qb);
  repeat split; try reflexivity; symmetry; first [apply Q.max_l; lra | apply Q.min_l; lra].
Qed.
Lemma topointegral_clip f r xs ys : valid f -> overlap r f = true -> fine [f] r xs ys ->
  topointegral f r == riemann xs ys (over r (fun x y => if inside (extent f) x y then height f x y else 0)).
Proof.
  intros V O F. destruct (fine_parts _ _ _ _ F) as (Sx & Sy & E & Fi). pose proof (Fi f (or_introl eq_refl)) as Ff.
  destruct (clip_eq f r V O) as (C1 & C2 & C3 & C4). pose proof (proj1 (overlap_iff r f) O) as [Px Py].
  pose proof (isect_within r f) as (W1 & W2 & W3 & W4). destruct (isect_edges r f xs ys V E Ff) as ((x1 & H1 & G1) & (x2 & H2 & G2) & (x3 & H3 & G3) & (x4 & H4 & G4)).
  assert (W : within (clip f r) f) by (unfold within; repeat split; lra).
  assert (T : topointegral f r = topointegral f (clip f r)) by (unfold topointegral; rewrite (clip_within f _ W); reflexivity).
  rewrite T, (topointegral_sum f (clip f r) xs ys V); auto.
  - apply riemann_ext. intros p q _ _. unfold over.
    assert (X : inside (clip f r) (mid p) (mid q) = inside (isect r f) (mid p) (mid q)).
    { unfold inside. apply eq_true_iff_eq. rewrite !andb_true_iff, !Qle_bool_iff, C1, C2, C3, C4. reflexivity. }
    rewrite X, isect_inside. now destruct (inside r (mid p) (mid q)).
  - split; lra.
  - repeat split; [exists x1|exists x2|exists x3|exists x4]; (split; [assumption|lra]).
Qed.
