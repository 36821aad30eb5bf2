(** Moving the origin, conservation, constant states, the limiters and the work array. *)
From Coq Require Import ZArith QArith Qminmax Qabs List Lia Lqa Bool.
From Verif Require Import Base_Float Model_Face Model_Grid Spec_Grid Proof_Grid Proof_Grid2 Proof_Sync Model_Step Spec_Step Proof_Step0 Proof_Step1 Proof_Step2 Proof_Step3.
Import ListNotations.
Open Scope Z_scope.

(** *** the method does not depend on the origin *)
Section Shift1.
  Variable A : arith.
  Variable S : solver.
  Variable meqn ixy o : Z.
  Variable u b a c : line.
  Variable r : Z -> Q.
  Local Notation sh f := (fun i => f (o + i)).
  Lemma at_interface_sh : forall i, at_interface S meqn ixy (sh u) (sh a) i = at_interface S meqn ixy u a (o + i).
  Proof. intros i. unfold at_interface. now replace (o + (i - 1)) with (o + i - 1) by lia. Qed.
  Lemma wave_sh : forall i mw m, wave S meqn ixy (sh u) (sh a) i mw m = wave S meqn ixy u a (o + i) mw m.
  Proof. intros i mw m. unfold wave. now rewrite at_interface_sh. Qed.
  Lemma speed_sh : forall i mw, speed S meqn ixy (sh u) (sh a) i mw = speed S meqn ixy u a (o + i) mw.
  Proof. intros i mw. unfold speed. now rewrite at_interface_sh. Qed.
  Lemma norm2_sh : forall i mw, norm2 A S meqn ixy (sh u) (sh a) i mw = norm2 A S meqn ixy u a (o + i) mw.
  Proof. intros i mw. unfold norm2. apply total_ext. intros k Hk. now rewrite wave_sh. Qed.
  Lemma dot_sh : forall i mw, dot A S meqn ixy (sh u) (sh a) i mw = dot A S meqn ixy u a (o + i) mw.
  Proof. intros i mw. unfold dot. apply total_ext. intros k Hk. rewrite !wave_sh. now replace (o + (i + 1)) with (o + i + 1) by lia. Qed.
  Lemma limited_sh : forall i mw m, limited A S meqn ixy (sh u) (sh a) i mw m = limited A S meqn ixy u a (o + i) mw m.
  Proof. intros i mw m. unfold limited. rewrite norm2_sh, wave_sh, speed_sh, !dot_sh. now replace (o + (i - 1)) with (o + i - 1) by lia. Qed.
  Lemma correction_sh : forall i m, correction A S meqn ixy (sh u) (sh a) (sh r) i m = correction A S meqn ixy u a r (o + i) m.
  Proof.
    intros i m. unfold correction. replace (o + (i - 1)) with (o + i - 1) by lia. apply total_ext. intros k Hk. now rewrite speed_sh, limited_sh.
  Qed.
  Lemma flux_left_sh : forall i m, flux_left A S meqn ixy (sh u) (sh a) (sh r) i m = flux_left A S meqn ixy u a r (o + i) m.
  Proof. intros i m. unfold flux_left. now rewrite at_interface_sh, correction_sh. Qed.
  Lemma flux_right_sh : forall i m, flux_right A S meqn ixy (sh u) (sh a) (sh r) i m = flux_right A S meqn ixy u a r (o + i) m.
  Proof. intros i m. unfold flux_right. now rewrite at_interface_sh, correction_sh. Qed.
  Lemma transverse_sh : forall ilr i dq dq', (forall m, dq m = dq' m) ->
    transverse S meqn ixy (sh u) (sh b) (sh a) (sh c) ilr i dq = transverse S meqn ixy u b a c ilr (o + i) dq'.
  Proof.
    intros ilr i dq dq' H. unfold transverse. rewrite (vec_ext meqn dq dq') by (intros; apply H). now replace (o + (i - 1)) with (o + i - 1) by lia.
  Qed.
  Lemma aside_sh : forall i k m, aside A S meqn ixy (sh u) (sh b) (sh a) (sh c) (sh r) i k m = aside A S meqn ixy u b a c r (o + i) k m.
  Proof.
    intros i k m. unfold aside. destruct (method3 S =? 0); [reflexivity|].
    rewrite (transverse_sh 1 (i + 1) _ (amdq A S meqn ixy u a r (o + i + 1))), (transverse_sh 2 i _ (apdq A S meqn ixy u a r (o + i))).
    - replace (o + (i + 1)) with (o + i + 1) by lia. replace (o + (if use_fwaves S then i - 1 else i)) with (if use_fwaves S then o + i - 1 else o + i) by (destruct (use_fwaves S); lia).
      reflexivity.
    - intros q. unfold apdq. now rewrite at_interface_sh, correction_sh.
    - intros q. unfold amdq. rewrite at_interface_sh, correction_sh. now replace (o + (i + 1)) with (o + i + 1) by lia.
  Qed.
End Shift1.
Section Shift2.
  Variable A : arith.
  Variable S : solver.
  Variable meqn ox oy : Z.
  Variable u ux uy aux : field.
  Definition moved (f : field) : field := fun i j => f (ox + i) (oy + j).
  Lemma row_left_sh : forall dtd i j m, row_left A S meqn (moved ux) (moved aux) dtd j i m = row_left A S meqn ux aux dtd (oy + j) (ox + i) m.
  Proof. intros. exact (flux_left_sh A S meqn 1 ox (fun i => ux i (oy + j)) (fun i => aux i (oy + j)) (fun i => ratio A S aux dtd i (oy + j)) i m). Qed.
  Lemma row_right_sh : forall dtd i j m, row_right A S meqn (moved ux) (moved aux) dtd j i m = row_right A S meqn ux aux dtd (oy + j) (ox + i) m.
  Proof. intros. exact (flux_right_sh A S meqn 1 ox (fun i => ux i (oy + j)) (fun i => aux i (oy + j)) (fun i => ratio A S aux dtd i (oy + j)) i m). Qed.
  Lemma col_left_sh : forall dtd i j m, col_left A S meqn (moved uy) (moved aux) dtd i j m = col_left A S meqn uy aux dtd (ox + i) (oy + j) m.
  Proof. intros. exact (flux_left_sh A S meqn 2 oy (fun j => uy (ox + i) j) (fun j => aux (ox + i) j) (fun j => ratio A S aux dtd (ox + i) j) j m). Qed.
  Lemma col_right_sh : forall dtd i j m, col_right A S meqn (moved uy) (moved aux) dtd i j m = col_right A S meqn uy aux dtd (ox + i) (oy + j) m.
  Proof. intros. exact (flux_right_sh A S meqn 2 oy (fun j => uy (ox + i) j) (fun j => aux (ox + i) j) (fun j => ratio A S aux dtd (ox + i) j) j m). Qed.
  Lemma row_aside_sh : forall dtd i j k m, row_aside A S meqn (moved ux) (moved aux) dtd j i k m = row_aside A S meqn ux aux dtd (oy + j) (ox + i) k m.
  Proof.
    intros. pose proof (aside_sh A S meqn 1 ox (fun i => ux i (oy + j)) (fun i => aux i (oy + j - 1)) (fun i => aux i (oy + j)) (fun i => aux i (oy + j + 1)) (fun i => ratio A S aux dtd i (oy + j)) i k m) as H.
    unfold row_aside at 2, in_row. rewrite <- H. unfold row_aside, in_row, moved.
    replace (oy + (j - 1)) with (oy + j - 1) by lia. replace (oy + (j + 1)) with (oy + j + 1) by lia. reflexivity.
  Qed.
  Lemma col_aside_sh : forall dtd i j k m, col_aside A S meqn (moved uy) (moved aux) dtd i j k m = col_aside A S meqn uy aux dtd (ox + i) (oy + j) k m.
  Proof.
    intros. pose proof (aside_sh A S meqn 2 oy (fun j => uy (ox + i) j) (fun j => aux (ox + i - 1) j) (fun j => aux (ox + i) j) (fun j => aux (ox + i + 1) j) (fun j => ratio A S aux dtd (ox + i) j) j k m) as H.
    unfold col_aside at 2, in_col. rewrite <- H. unfold col_aside, in_col, moved.
    replace (ox + (i - 1)) with (ox + i - 1) by lia. replace (ox + (i + 1)) with (ox + i + 1) by lia. reflexivity.
  Qed.
  Lemma west_left_sh : forall dtdx dtdy i j m, west_left A S meqn (moved ux) (moved uy) (moved aux) dtdx dtdy i j m = west_left A S meqn ux uy aux dtdx dtdy (ox + i) (oy + j) m.
  Proof. intros. unfold west_left. rewrite row_left_sh, !col_aside_sh. now replace (ox + (i - 1)) with (ox + i - 1) by lia. Qed.
  Lemma west_right_sh : forall dtdx dtdy i j m, west_right A S meqn (moved ux) (moved uy) (moved aux) dtdx dtdy i j m = west_right A S meqn ux uy aux dtdx dtdy (ox + i) (oy + j) m.
  Proof. intros. unfold west_right. rewrite row_right_sh, !col_aside_sh. now replace (ox + (i - 1)) with (ox + i - 1) by lia. Qed.
  Lemma south_left_sh : forall dtdx dtdy i j m, south_left A S meqn (moved ux) (moved uy) (moved aux) dtdx dtdy i j m = south_left A S meqn ux uy aux dtdx dtdy (ox + i) (oy + j) m.
  Proof. intros. unfold south_left. rewrite col_left_sh, !row_aside_sh. now replace (oy + (j - 1)) with (oy + j - 1) by lia. Qed.
  Lemma south_right_sh : forall dtdx dtdy i j m, south_right A S meqn (moved ux) (moved uy) (moved aux) dtdx dtdy i j m = south_right A S meqn ux uy aux dtdx dtdy (ox + i) (oy + j) m.
  Proof. intros. unfold south_right. rewrite col_right_sh, !row_aside_sh. now replace (oy + (j - 1)) with (oy + j - 1) by lia. Qed.
  Lemma advanced_sh : forall dx dy dt i j m, advanced A S meqn (moved u) (moved ux) (moved uy) (moved aux) dx dy dt i j m = advanced A S meqn u ux uy aux dx dy dt (ox + i) (oy + j) m.
  Proof.
    intros. unfold advanced. cbv zeta. rewrite !west_left_sh, !west_right_sh, !south_left_sh, !south_right_sh.
    replace (ox + (i + 1)) with (ox + i + 1) by lia. replace (oy + (j + 1)) with (oy + j + 1) by lia. reflexivity.
  Qed.
End Shift2.

(** *** conservation *)
Section Conserve.
  Variable S : solver.
  Variable meqn : Z.
  Variable f : Z -> list Q -> list Q -> Z -> Q.
  Hypothesis HF : flux_difference S meqn f.
  Variable u ux uy aux : field.
  Variable dtdx dtdy : Q.
  Lemma west_sides : forall i j m, 1 <= m <= meqn ->
    (through_x S meqn f ux uy aux dtdx dtdy i j m == f 1%Z (vec meqn (ux i j)) (vec (maux S) (aux i j)) m + west_right exact S meqn ux uy aux dtdx dtdy i j m)%Q.
  Proof.
    intros i j m Hm. unfold through_x, west_left, west_right, row_left, row_right, in_row, flux_left, flux_right. cbn [add sub mul exact].
    pose proof (HF 1 (vec meqn (ux (i - 1) j)) (vec meqn (ux i j)) (vec (maux S) (aux (i - 1) j)) (vec (maux S) (aux i j)) m Hm) as H.
    fold (at_interface S meqn 1 (fun i => ux i j) (fun i => aux i j) i) in H. destruct (second S); lra.
  Qed.
  Lemma south_sides : forall i j m, 1 <= m <= meqn ->
    (through_y S meqn f ux uy aux dtdx dtdy i j m == f 2%Z (vec meqn (uy i j)) (vec (maux S) (aux i j)) m + south_right exact S meqn ux uy aux dtdx dtdy i j m)%Q.
  Proof.
    intros i j m Hm. unfold through_y, south_left, south_right, col_left, col_right, in_col, flux_left, flux_right. cbn [add sub mul exact].
    pose proof (HF 2 (vec meqn (uy i (j - 1))) (vec meqn (uy i j)) (vec (maux S) (aux i (j - 1))) (vec (maux S) (aux i j)) m Hm) as H.
    fold (at_interface S meqn 2 (fun j => uy i j) (fun j => aux i j) j) in H. destruct (second S); lra.
  Qed.
End Conserve.
Lemma conservation_form : forall S meqn f u ux uy aux dx dy dt i j m, flux_difference S meqn f -> 1 <= m <= meqn -> ~ (capacity S aux i j == 0)%Q ->
  (capacity S aux i j * advanced exact S meqn u ux uy aux dx dy dt i j m == capacity S aux i j * u i j m
     - dt / dx * (through_x S meqn f ux uy aux (dt / dx) (dt / dy) (i + 1)%Z j m - through_x S meqn f ux uy aux (dt / dx) (dt / dy) i j m)
     - dt / dy * (through_y S meqn f ux uy aux (dt / dx) (dt / dy) i (j + 1)%Z m - through_y S meqn f ux uy aux (dt / dx) (dt / dy) i j m))%Q.
Proof.
  intros S meqn f u ux uy aux dx dy dt i j m HF Hm HC.
  rewrite (west_sides S meqn f HF ux uy aux (dt / dx) (dt / dy) i j m Hm), (south_sides S meqn f HF ux uy aux (dt / dx) (dt / dy) i j m Hm).
  unfold through_x, through_y. replace (i + 1 - 1) with i by lia. replace (j + 1 - 1) with j by lia.
  unfold advanced. cbv zeta. cbn [sub mul add quo exact]. unfold capacity in *. generalize (dt / dx)%Q (dt / dy)%Q. intros p p'. destruct (mcapa S =? 0).
  - ring.
  - field. exact HC.
Qed.

(** *** constant states *)
Section Constant.
  Variable S : solver.
  Variable meqn : Z.
  Variable q0 : Z -> Q.
  Hypothesis HQ : quiet S meqn q0.
  Variable aux : field.
  Lemma total_zero : forall n g, (forall k, 1 <= k <= n -> (g k == 0)%Q) -> (total_of exact n g == 0)%Q.
  Proof.
    intros n g H. unfold total_of. cbn [add exact].
    assert (G : forall l x, (forall k, In k l -> (g k == 0)%Q) -> (x == 0)%Q -> (fold_left (fun s k => (s + g k)%Q) l x == 0)%Q).
    { induction l as [|k l IH]; intros x Hl Hx; [exact Hx|]. cbn [fold_left]. apply IH; [intros k' Hk'; apply Hl; now right|]. rewrite Hx, (Hl k) by now left. reflexivity. }
    apply G; [|reflexivity]. intros k Hk. apply H. now apply in_zrange in Hk.
  Qed.
  Lemma limited_zero : forall ixy (a : line) i mw m, 1 <= m <= meqn -> 1 <= mw <= mwaves S -> (limited exact S meqn ixy (fun _ => q0) a i mw m == 0)%Q.
  Proof.
    intros ixy a i mw m Hm Hw. destruct (proj1 HQ ixy (vec (maux S) (a (i - 1))) (vec (maux S) (a i)) m Hm) as (_ & _ & H3). specialize (H3 mw Hw).
    unfold limited. change (r_wave (rpn S ixy (vec meqn q0) (vec meqn q0) (vec (maux S) (a (i - 1))) (vec (maux S) (a i))) m mw)
      with (wave S meqn ixy (fun _ => q0) a i mw m) in H3.
    destruct ((mthlim S mw =? 0) || _); [exact H3|]. cbn [mul exact]. rewrite H3. ring.
  Qed.
  Lemma correction_zero : forall ixy (a : line) r i m, 1 <= m <= meqn -> (correction exact S meqn ixy (fun _ => q0) a r i m == 0)%Q.
  Proof.
    intros ixy a r i m Hm. unfold correction. apply total_zero. intros k Hk. cbn [mul exact]. rewrite limited_zero by assumption. ring.
  Qed.
  Lemma fluct_zero : forall ixy (a : line) i m, 1 <= m <= meqn ->
    (r_amdq (at_interface S meqn ixy (fun _ => q0) a i) m == 0)%Q /\ (r_apdq (at_interface S meqn ixy (fun _ => q0) a i) m == 0)%Q.
  Proof. intros ixy a i m Hm. destruct (proj1 HQ ixy (vec (maux S) (a (i - 1))) (vec (maux S) (a i)) m Hm) as (H1 & H2 & _). now split. Qed.
  Lemma flux_zero : forall ixy (a : line) r i m, 1 <= m <= meqn ->
    (flux_left exact S meqn ixy (fun _ => q0) a r i m == 0)%Q /\ (flux_right exact S meqn ixy (fun _ => q0) a r i m == 0)%Q.
  Proof.
    intros ixy a r i m Hm. destruct (fluct_zero ixy a i m Hm) as [H1 H2]. unfold flux_left, flux_right. cbn [add sub mul exact].
    destruct (second S); rewrite ?correction_zero by exact Hm; rewrite H1, H2; split; ring.
  Qed.
  Lemma aside_zero : forall ixy (b a c : line) r i k m, 1 <= m <= meqn -> (aside exact S meqn ixy (fun _ => q0) b a c r i k m == 0)%Q.
  Proof.
    intros ixy b a c r i k m Hm. unfold aside. destruct (method3 S =? 0); [reflexivity|]. cbn [add sub mul exact].
    assert (Z1 : forall i x, In x (vec meqn (amdq exact S meqn ixy (fun _ => q0) a r i)) -> (x == 0)%Q).
    { intros i' x Hx. apply in_map_iff in Hx as (q & <- & Hq). apply in_zrange in Hq. destruct (fluct_zero ixy a i' q Hq) as [H1 _].
      unfold amdq. cbn [add exact]. destruct (second S && (method3 S =? 2)); rewrite ?correction_zero by exact Hq; rewrite H1; reflexivity. }
    assert (Z2 : forall i x, In x (vec meqn (apdq exact S meqn ixy (fun _ => q0) a r i)) -> (x == 0)%Q).
    { intros i' x Hx. apply in_map_iff in Hx as (q & <- & Hq). apply in_zrange in Hq. destruct (fluct_zero ixy a i' q Hq) as [_ H1].
      unfold apdq. cbn [sub exact]. destruct (second S && (method3 S =? 2)); rewrite ?correction_zero by exact Hq; rewrite H1; reflexivity. }
    assert (T1 : (part k (transverse S meqn ixy (fun _ => q0) b a c 1%Z (i + 1)%Z (amdq exact S meqn ixy (fun _ => q0) a r (i + 1)%Z)) m == 0)%Q).
    { unfold part, transverse. match goal with |- context [rpt S ?x1 ?x2 ?x3 ?x4 ?x5 ?x6 ?x7 ?x8 ?x9 ?x10 ?x11] =>
        destruct (proj2 HQ x1 x2 x3 x4 x5 x6 x7 x8 x9 x10 x11 m Hm (Z1 (i + 1))) as [Y1 Y2] end. destruct (k =? 1); assumption. }
    assert (T2 : (part k (transverse S meqn ixy (fun _ => q0) b a c 2%Z i (apdq exact S meqn ixy (fun _ => q0) a r i)) m == 0)%Q).
    { unfold part, transverse. match goal with |- context [rpt S ?x1 ?x2 ?x3 ?x4 ?x5 ?x6 ?x7 ?x8 ?x9 ?x10 ?x11] =>
        destruct (proj2 HQ x1 x2 x3 x4 x5 x6 x7 x8 x9 x10 x11 m Hm (Z2 i)) as [Y1 Y2] end. destruct (k =? 1); assumption. }
    rewrite T1, T2. ring.
  Qed.
  Lemma constant_stays : forall dx dy dt i j m, 1 <= m <= meqn ->
    (advanced exact S meqn (fun _ _ => q0) (fun _ _ => q0) (fun _ _ => q0) aux dx dy dt i j m == q0 m)%Q.
  Proof.
    intros dx dy dt i j m Hm. unfold advanced, west_left, west_right, south_left, south_right, row_left, row_right, col_left, col_right, row_aside, col_aside, in_row, in_col.
    cbv zeta beta. cbn [add sub mul quo exact]. destruct (mcapa S =? 0); unfold Qdiv;
    repeat match goal with
    | |- context [aside exact S meqn ?x ?u ?b ?a ?c ?r ?i ?k m] => rewrite (aside_zero x b a c r i k m Hm)
    | |- context [flux_left exact S meqn ?x ?u ?a ?r ?i m] => rewrite (proj1 (flux_zero x a r i m Hm))
    | |- context [flux_right exact S meqn ?x ?u ?a ?r ?i m] => rewrite (proj2 (flux_zero x a r i m Hm))
    end; ring.
  Qed.
End Constant.

(** *** limiters *)
Lemma min_fact : forall a b, (Qmin a b <= a)%Q /\ (Qmin a b <= b)%Q /\ ((Qmin a b == a)%Q \/ (Qmin a b == b)%Q).
Proof. intros a b. split; [apply Q.le_min_l|]. split; [apply Q.le_min_r|]. destruct (Q.min_spec a b) as [[_ E]|[_ E]]; [now left|now right]. Qed.
Lemma max_fact : forall a b, (a <= Qmax a b)%Q /\ (b <= Qmax a b)%Q /\ ((Qmax a b == a)%Q \/ (Qmax a b == b)%Q).
Proof. intros a b. split; [apply Q.le_max_l|]. split; [apply Q.le_max_r|]. destruct (Q.max_spec a b) as [[_ E]|[_ E]]; [now right|now left]. Qed.
Ltac minmax := repeat match goal with
  | |- context [Qmax ?a ?b] => pose proof (max_fact a b); let x := fresh "x" in set (x := Qmax a b) in *; clearbody x
  | |- context [Qmin ?a ?b] => pose proof (min_fact a b); let x := fresh "x" in set (x := Qmin a b) in *; clearbody x
  | H : context [Qmax ?a ?b] |- _ => pose proof (max_fact a b); let x := fresh "x" in set (x := Qmax a b) in *; clearbody x
  | H : context [Qmin ?a ?b] |- _ => pose proof (min_fact a b); let x := fresh "x" in set (x := Qmin a b) in *; clearbody x
  end; repeat match goal with H : _ /\ _ |- _ => destruct H | H : (_ == _)%Q \/ _ |- _ => destruct H end.
Lemma limiter_range : forall lim r, 1 <= lim <= 6 -> lim <> 5 ->
  ((r <= 0)%Q -> (limiter exact lim r == 0)%Q) /\ ((0 < r)%Q -> (0 <= limiter exact lim r)%Q /\ (limiter exact lim r <= 2)%Q /\ (limiter exact lim r <= 2 * r)%Q).
Proof.
  intros lim r Hl H5.
  assert (X : lim = 1 \/ lim = 2 \/ lim = 3 \/ lim = 4 \/ lim = 6) by lia. clear Hl H5.
  destruct X as [->|[->|[->|[->| ->]]]]; unfold limiter; cbn [add mul quo exact].
  3: { split; intros Hr.
    + rewrite (Qabs_neg r Hr). unfold Qdiv. assert (E : (r + - r == 0)%Q) by ring. rewrite E. ring.
    + rewrite (Qabs_pos r (Qlt_le_weak _ _ Hr)). assert (P : (0 < 1 + r)%Q) by lra.
      split; [apply Qle_shift_div_l; [exact P|lra]|]. split; apply Qle_shift_div_r; try exact P; [lra|].
      assert (0 <= r * r)%Q by (apply Qmult_le_0_compat; lra). lra. }
  all: unfold Qdiv; change (/ 2)%Q with (1 # 2)%Q; minmax; (split; [intros; lra|intros; repeat split; lra]).
Qed.
Lemma limiter_smooth : forall lim, 1 <= lim <= 6 -> (limiter exact lim 1 == 1)%Q.
Proof.
  intros lim Hl. assert (X : lim = 1 \/ lim = 2 \/ lim = 3 \/ lim = 4 \/ lim = 5 \/ lim = 6) by lia.
  destruct X as [->|[->|[->|[->|[->| ->]]]]]; vm_compute; reflexivity.
Qed.

(** *** the work array *)
Section Work.
  Variable d : dims.
  Variable S : solver.
  Hypothesis Hb : 0 <= mbc d.
  Hypothesis Hx : 0 <= mx d.
  Hypothesis Hm : 0 <= meqn d.
  Hypothesis Hw : 0 <= mwaves S.
  Hypothesis Ha : 0 <= maux S.
  Definition in_work (a : nm) : bool := match a with FM | FP | GM | GP | QOLD | AUX => false | _ => true end.
  Definition extent3 (a : nm) : Z := match a with GADDM | GADDP => 2 | WAVE => mwaves S | _ => 1 end.
  Definition size (a : nm) : Z := (maxm d + 2 * mbc d) * (extent2 d S a) * extent3 a.
  Lemma in_mem_work : forall a i m k, in_work a = true -> in_mem d S (a, (i, m, k)) = true ->
    0 <= i - (1 - mbc d) < maxm d + 2 * mbc d /\ 0 <= m - 1 < extent2 d S a /\ 0 <= k - 1 < extent3 a.
  Proof.
    intros a i m k W H. destruct a; try discriminate W; cbn [in_mem in1 extent2 extent3] in *; rewrite !andb_true_iff, !Z.leb_le in H; lia.
  Qed.
  Lemma mixed : forall w e i m k, 0 <= i < w -> 0 <= m < e -> 0 <= k -> 0 <= i + m * w + k * (w * e) < w * e * (k + 1).
  Proof. intros w e i m k H1 H2 H3. assert (m * w <= (e - 1) * w) by (apply Z.mul_le_mono_nonneg_r; lia). assert (0 <= m * w) by nia. assert (0 <= k * (w * e)) by nia. nia. Qed.
  Lemma mixed_inj : forall w e i m k i' m' k', 0 <= i < w -> 0 <= m < e -> 0 <= k -> 0 <= i' < w -> 0 <= m' < e -> 0 <= k' ->
    i + m * w + k * (w * e) = i' + m' * w + k' * (w * e) -> i = i' /\ m = m' /\ k = k'.
  Proof.
    intros w e i m k i' m' k' H1 H2 H3 H4 H5 H6 E.
    assert (Ei : i = i'). { assert (X : (i + (m + k * e) * w) mod w = (i' + (m' + k' * e) * w) mod w) by (f_equal; transitivity (i + m * w + k * (w * e)); [ring|rewrite E; ring]). rewrite !Z.mod_add, !Z.mod_small in X by lia. exact X. }
    subst i'. assert (E2 : m + k * e = m' + k' * e) by (apply (Z.mul_cancel_r _ _ w); [lia|]; transitivity (m * w + k * (w * e)); [ring|]; transitivity (m' * w + k' * (w * e)); [lia|ring]).
    assert (Em : m = m'). { assert (X : (m + k * e) mod e = (m' + k' * e) mod e) by (f_equal; exact E2). rewrite !Z.mod_add, !Z.mod_small in X by lia. exact X. }
    subst m'. split; [reflexivity|]. split; [reflexivity|]. apply (Z.mul_cancel_r _ _ e); lia.
  Qed.
  Lemma size_eq : forall a, in_work a = true -> size a =
    let w := maxm d + 2 * mbc d in
    match a with DTDX1 | DTDY1 => w | AUX1 | AUX2 | AUX3 => w * maux S | SP => w * mwaves S | GADDM | GADDP => 2 * (w * meqn d) | WAVE => w * meqn d * mwaves S | _ => w * meqn d end.
  Proof. intros a W. unfold size. cbv zeta. destruct a; try discriminate W; cbn [extent2 extent3]; ring. Qed.
  Lemma pieces : forall a b, in_work a = true -> in_work b = true ->
    1 <= i0 d S a /\ i0 d S a + size a <= mwork d S + 1 /\ (a <> b -> i0 d S a + size a <= i0 d S b \/ i0 d S b + size b <= i0 d S a).
  Proof.
    intros a b Wa Wb. assert (W0 : 0 <= maxm d + 2 * mbc d) by (unfold maxm; lia). rewrite (size_eq a Wa), (size_eq b Wb). unfold mwork, i0. cbv zeta.
    assert (P1 : 0 <= (maxm d + 2 * mbc d) * meqn d) by nia. assert (P2 : 0 <= (maxm d + 2 * mbc d) * maux S) by nia.
    assert (P3 : 0 <= (maxm d + 2 * mbc d) * mwaves S) by nia. assert (P4 : 0 <= (maxm d + 2 * mbc d) * meqn d * mwaves S) by nia.
    replace ((maxm d + 2 * mbc d) * (12 * meqn d + (meqn d + 1) * mwaves S + 3 * maux S + 2))
      with (12 * ((maxm d + 2 * mbc d) * meqn d) + (maxm d + 2 * mbc d) * meqn d * mwaves S + (maxm d + 2 * mbc d) * mwaves S + 3 * ((maxm d + 2 * mbc d) * maux S) + 2 * (maxm d + 2 * mbc d)) by ring.
    replace (2 * (maxm d + 2 * mbc d) * meqn d) with (2 * ((maxm d + 2 * mbc d) * meqn d)) by ring.
    set (w := maxm d + 2 * mbc d) in *. set (wm := w * meqn d) in *. set (wa := w * maux S) in *. set (ww := w * mwaves S) in *. set (wmw := wm * mwaves S) in *.
    clearbody wmw. clearbody ww. clearbody wa. clearbody wm. clearbody w. clear - W0 P1 P2 P3 P4 Wa Wb.
    destruct a; try discriminate Wa; destruct b; try discriminate Wb; (split; [lia|]; split; [lia|]; intros N; (congruence || lia)).
  Qed.
  Lemma work_ok2 : forall a c, in_work a = true -> in_mem d S (a, c) = true -> i0 d S a <= work_index d S (a, c) < i0 d S a + size a.
  Proof.
    intros a [[i m] k] W H. destruct (in_mem_work a i m k W H) as (H1 & H2 & H3). unfold work_index, size.
    pose proof (mixed _ _ _ _ _ H1 H2 (proj1 H3)) as M. nia.
  Qed.
  Lemma work_inj : forall a b c c', in_work a = true -> in_work b = true -> in_mem d S (a, c) = true -> in_mem d S (b, c') = true ->
    work_index d S (a, c) = work_index d S (b, c') -> (a, c) = (b, c').
  Proof.
    intros a b c c' Wa Wb Ha' Hb' E. destruct (addr_eqb_spec (a, (0, 0, 0)) (b, (0, 0, 0))) as [X|X].
    - injection X as ->. destruct c as [[i m] k], c' as [[i' m'] k']. destruct (in_mem_work b i m k Wa Ha') as (H1 & H2 & H3).
      destruct (in_mem_work b i' m' k' Wa Hb') as (H4 & H5 & H6). unfold work_index in E.
      destruct (mixed_inj (maxm d + 2 * mbc d) (extent2 d S b) _ _ _ _ _ _ H1 H2 (proj1 H3) H4 H5 (proj1 H6)) as (E1 & E2 & E3); [lia|].
      replace i' with i by lia. replace m' with m by lia. replace k' with k by lia. reflexivity.
    - assert (N : a <> b) by congruence. pose proof (work_ok2 a c Wa Ha'). pose proof (work_ok2 b c' Wb Hb').
      destruct (proj2 (proj2 (pieces a b Wa Wb)) N); lia.
  Qed.
End Work.
