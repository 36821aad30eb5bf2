(** Proofs about the initial state. *)
From Coq Require Import ZArith QArith Qround Qminmax List Bool Lia Lqa Sorted.
From Verif Require Import Model_Topo Model_Qinit Spec_Topo Spec_Qinit Proof_Topo Proof_Topo2 Proof_Topo3.
Import ListNotations.
Open Scope Q_scope.

Definition rect_eq (r s : rect) : Prop := r_x1 r == r_x1 s /\ r_x2 r == r_x2 s /\ r_y1 r == r_y1 s /\ r_y2 r == r_y2 s.
Lemma icell_cell p i j r : cell_of p i j r -> rect_eq (icell p i j) r.
Proof.
  intros (E1 & E2 & E3 & E4). unfold rect_eq, icell. cbn [r_x1 r_x2 r_y1 r_y2]. rewrite E1, E2, E3, E4.
  unfold Zminus. rewrite !inject_Z_plus. change (inject_Z (-(1))) with (-1). repeat split; ring.
Qed.
Lemma inside_eq r s x y : rect_eq r s -> inside r x y = inside s x y.
Proof.
  intros (E1 & E2 & E3 & E4). unfold inside. apply eq_true_iff_eq. rewrite !andb_true_iff, !Qle_bool_iff, E1, E2, E3, E4. reflexivity.
Qed.
Lemma has_eq l c d : c == d -> has l c -> has l d.
Proof. intros E (x & I & X). exists x. split; [assumption|]. now rewrite X. Qed.
Lemma fine_eq fs r s xs ys : rect_eq r s -> fine fs r xs ys -> fine fs s xs ys.
Proof.
  intros (E1 & E2 & E3 & E4) (S1 & S2 & H1 & H2 & H3 & H4 & F).
  repeat (split; [first [assumption | eapply has_eq; eassumption]|]). exact F.
Qed.
Lemma rect_eq_sym r s : rect_eq r s -> rect_eq s r.
Proof. intros (E1 & E2 & E3 & E4). repeat split; now symmetry. Qed.
Lemma average_eq f r s v : rect_eq r s -> average_on f r v -> average_on f s v.
Proof.
  intros E A xs ys F. destruct (A xs ys (fine_eq _ _ _ _ _ (rect_eq_sym _ _ E) F)) as [A1 A2].
  assert (X : forall g, riemann xs ys (over r g) == riemann xs ys (over s g))
    by (intros g; apply riemann_ext; intros; unfold over; now rewrite (inside_eq r s _ _ E)).
  now rewrite <- !X.
Qed.
Lemma meets_bool f r : valid f ->
  qltb (t_xlow f) (r_x2 r) && qltb (r_x1 r) (t_xhi f) && (qltb (t_ylow f) (r_y2 r) && qltb (r_y1 r) (t_yhi f)) = true <-> meets r f.
Proof. intros V. rewrite !andb_true_iff, !qltb_iff. unfold meets. tauto. Qed.
Lemma meets_overlap f r : valid f -> proper r -> meets r f -> proper (isect r f).
Proof.
  intros (Dx & Dy & Mx & My) [Px Py] (M1 & M2 & M3 & M4). rewrite isect_eq.
  assert (A : 0 < inject_Z (t_mx f - 1)) by (change 0 with (inject_Z 0); rewrite <- Zlt_Qlt; lia).
  assert (B : 0 < inject_Z (t_my f - 1)) by (change 0 with (inject_Z 0); rewrite <- Zlt_Qlt; lia).
  pose proof (Qmult_lt_0_compat _ _ A Dx). pose proof (Qmult_lt_0_compat _ _ B Dy).
  assert (t_xlow f < t_xhi f) by (unfold t_xhi; lra). assert (t_ylow f < t_yhi f) by (unfold t_yhi; lra).
  split; cbn [r_x1 r_x2 r_y1 r_y2]; apply Q.max_lub_lt; apply Q.min_glb_lt; assumption.
Qed.
Definition dq (f : topofile) (r : rect) : Q :=
  topointegral f (isect r f) / ((r_x2 (isect r f) - r_x1 (isect r f)) * (r_y2 (isect r f) - r_y1 (isect r f))).
Lemma dq_average f r : valid f -> proper r -> meets r f -> average_on f r (dq f r).
Proof.
  intros V P M xs ys F. pose proof (meets_overlap f r V P M) as [Ix Iy].
  destruct (fine_parts _ _ _ _ F) as (Sx & Sy & E & Fi). pose proof (Fi f (or_introl eq_refl)) as Ff.
  pose proof (isect_edges r f xs ys V E Ff) as Ei.
  assert (X : forall g, riemann xs ys (over r (fun x y => if inside (extent f) x y then g x y else 0)) == riemann xs ys (over (isect r f) g)).
  { intros g. apply riemann_ext. intros. unfold over. rewrite isect_inside. destruct (inside r _ _); reflexivity. }
  rewrite (X (fun _ _ => 1)), (X (height f)).
  pose proof (topointegral_sum f (isect r f) xs ys V (conj Ix Iy) (isect_within r f) Sx Sy Ff Ei) as T.
  destruct Ei as (E1 & E2 & E3 & E4).
  pose proof (area_sum xs ys (isect r f) Sx Sy E1 E2 E3 E4 ltac:(lra) ltac:(lra)) as A.
  rewrite A, <- T. unfold dq. split; [field; split; lra|apply Qmult_lt_0_compat; lra].
Qed.
Lemma perturb_eq qt f sea b r q : valid f ->
  (meets r f -> perturb qt f sea b r q =
     if (qt <? 4)%Z then if Qle_bool b sea then (fun m => if (m =? qt)%Z then q qt + dq f r else q m) else q
     else if (qt =? 4)%Z then (fun m => if (m =? 1)%Z then Qmax (dq f r - b) 0 else q m) else q) /\
  (~ meets r f -> perturb qt f sea b r q = q).
Proof.
  intros V. unfold perturb. pose proof (meets_bool f r V) as M.
  destruct (qltb (t_xlow f) (r_x2 r) && qltb (r_x1 r) (t_xhi f) && (qltb (t_ylow f) (r_y2 r) && qltb (r_y1 r) (t_yhi f))).
  - split; intros X; [|exfalso; apply X, M; reflexivity]. unfold dq. rewrite isect_eq. reflexivity.
  - split; intros X; [apply M in X; discriminate|reflexivity].
Qed.
Lemma qinit_element qt f sea p aux q m i j : element p m i j -> qinit qt f sea p aux q m i j =
  if (0 <? qt)%Z then perturb qt f sea (aux i j) (icell p i j) (flat_state sea (aux i j)) m else flat_state sea (aux i j) m.
Proof.
  intros (H1 & H2 & H3). unfold qinit.
  assert (X : ((1 <=? m) && (m <=? i_meqn p) && ((1 - i_mbc p <=? i) && (i <=? i_mx p + i_mbc p)) &&
        ((1 - i_mbc p <=? j) && (j <=? i_my p + i_mbc p)))%Z = true) by (rewrite !andb_true_iff, !Z.leb_le; lia).
  now rewrite X.
Qed.
Lemma meets_eq f r s : rect_eq r s -> meets r f -> meets s f.
Proof. intros (E1 & E2 & E3 & E4) (M1 & M2 & M3 & M4). repeat split; lra. Qed.
Lemma flat_depth sea b : (b <= sea -> flat_state sea b 1 + b == sea) /\ (sea <= b -> flat_state sea b 1 == 0).
Proof.
  unfold flat_state. cbn. split; intros.
  - rewrite Q.max_r by lra. ring.
  - rewrite Q.max_l by lra. reflexivity.
Qed.
