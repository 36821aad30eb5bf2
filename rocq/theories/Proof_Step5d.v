(** The formula of clawpack 5.x: limiter numbers, agreement with 4.6, locality, origin, conservation, constant states. *)
From Coq Require Import ZArith QArith Qminmax Qabs List Lia Lqa Bool.
From Verif Require Import Base_Float Model_Face Model_Grid Proof_Grid Model_Step Spec_Step Proof_Step0 Proof_Step1 Proof_Step2 Proof_Step3 Proof_Step4
  Model_Step5 Spec_Step5 Proof_Step5 Proof_Step5b Proof_Step5c.
Import ListNotations.
Open Scope Z_scope.

(** *** limiter numbers up to 5 are used as they are *)
Section Five.
  Variable A : arith.
  Variable S : solver.
  Variable meqn : Z.
  Hypothesis H5 : forall mw, 1 <= mw <= mwaves S -> mthlim S mw <= 5.
  Lemma limited_five : forall ixy u a i mw m, 1 <= mw <= mwaves S -> limited A (five S) meqn ixy u a i mw m = limited A S meqn ixy u a i mw m.
  Proof.
    intros ixy u a i mw m Hw. unfold limited. cbn [mthlim five]. destruct (Z.ltb_spec 5 (mthlim S mw)) as [L|_]; [specialize (H5 mw Hw); lia|reflexivity].
  Qed.
  Lemma correction_five : forall ixy u a r i m, correction A (five S) meqn ixy u a r i m = correction A S meqn ixy u a r i m.
  Proof. intros. unfold correction. apply total_ext. intros mw Hw. now rewrite limited_five. Qed.
  Lemma flux_left_five : forall ixy u a r i m, flux_left A (five S) meqn ixy u a r i m = flux_left A S meqn ixy u a r i m.
  Proof. intros. unfold flux_left. now rewrite correction_five. Qed.
  Lemma flux_right_five : forall ixy u a r i m, flux_right A (five S) meqn ixy u a r i m = flux_right A S meqn ixy u a r i m.
  Proof. intros. unfold flux_right. now rewrite correction_five. Qed.
  Lemma transverse_five : forall ixy u b a c ilr i f g, (forall m, f m = g m) -> transverse (five S) meqn ixy u b a c ilr i f = transverse S meqn ixy u b a c ilr i g.
  Proof. intros ixy u b a c ilr i f g E. unfold transverse. now rewrite (vec_ext meqn f g) by (intros; apply E). Qed.
  Lemma aside_five : forall ixy u b a c r i k m, aside5 A (five S) meqn ixy u b a c r i k m = aside5 A S meqn ixy u b a c r i k m.
  Proof.
    intros. unfold aside5.
    rewrite (transverse_five ixy u b a c 1 (i + 1) _ (amdq A S meqn ixy u a r (i + 1))) by (intros q; unfold amdq; now rewrite correction_five).
    rewrite (transverse_five ixy u b a c 2 i _ (apdq A S meqn ixy u a r i)) by (intros q; unfold apdq; now rewrite correction_five). reflexivity.
  Qed.
  Lemma advanced_five : forall u ux uy aux dx dy dt i j m, advanced5 A (five S) meqn u ux uy aux dx dy dt i j m = advanced5 A S meqn u ux uy aux dx dy dt i j m.
  Proof.
    intros. unfold advanced5, west_left5, west_right5, south_left5, south_right5, row_left, row_right, col_left, col_right, row_aside5, col_aside5, in_row, in_col.
    cbv zeta. rewrite !flux_left_five, !flux_right_five, !aside_five. reflexivity.
  Qed.
End Five.

(** *** for waves it is the formula of 4.6 *)
Lemma advanced_46 : forall A S meqn u ux uy aux dx dy dt i j m, use_fwaves S = false ->
  advanced5 A S meqn u ux uy aux dx dy dt i j m = advanced A S meqn u ux uy aux dx dy dt i j m.
Proof.
  intros A S meqn u ux uy aux dx dy dt i j m F.
  assert (X : forall ixy u b a c r i k m, aside5 A S meqn ixy u b a c r i k m = aside A S meqn ixy u b a c r i k m) by (intros; unfold aside5, aside; now rewrite F).
  unfold advanced5, advanced, west_left5, west_right5, south_left5, south_right5, west_left, west_right, south_left, south_right, row_aside5, col_aside5, row_aside, col_aside, in_row, in_col.
  cbv zeta. rewrite !X. reflexivity.
Qed.

(** *** locality *)
Section Box.
  Variable A : arith.
  Variable S : solver.
  Variable meqn : Z.
  Variable lx hx ly hy : Z.
  Variable u u' ux ux' uy uy' aux aux' : field.
  Variable dtdx dtdy : Q.
  Hypothesis HS : options_ok S.
  Local Notation agree := (agree lx hx ly hy).
  Hypothesis Ex : agree meqn ux ux'.
  Hypothesis Ey : agree meqn uy uy'.
  Hypothesis Ea : agree (maux S) aux aux'.
  Local Notation row_ext := (row_ext A S meqn lx hx ly hy ux ux' aux aux' dtdx HS Ex Ea).
  Local Notation col_ext := (col_ext A S meqn lx hx ly hy uy uy' aux aux' dtdy HS Ey Ea).
  Local Notation row_aside_ext5 := (row_aside_ext5 A S meqn lx hx ly hy ux ux' aux aux' dtdx HS Ex Ea).
  Local Notation col_aside_ext5 := (col_aside_ext5 A S meqn lx hx ly hy uy uy' aux aux' dtdy HS Ey Ea).
  Lemma west_ext5 : forall i j m, lx + 2 <= i -> i + 1 <= hx -> ly + 2 <= j -> j + 2 <= hy ->
    west_left5 A S meqn ux uy aux dtdx dtdy i j m = west_left5 A S meqn ux' uy' aux' dtdx dtdy i j m /\
    west_right5 A S meqn ux uy aux dtdx dtdy i j m = west_right5 A S meqn ux' uy' aux' dtdx dtdy i j m.
  Proof.
    intros i j m H1 H2 H3 H4. destruct (row_ext i j m) as [R1 R2]; [lia|lia|lia|]. unfold west_left5, west_right5. rewrite R1, R2.
    rewrite (col_aside_ext5 (i - 1)), (col_aside_ext5 i) by lia. split; reflexivity.
  Qed.
  Lemma south_ext5 : forall i j m, lx + 2 <= i -> i + 2 <= hx -> ly + 2 <= j -> j + 1 <= hy ->
    south_left5 A S meqn ux uy aux dtdx dtdy i j m = south_left5 A S meqn ux' uy' aux' dtdx dtdy i j m /\
    south_right5 A S meqn ux uy aux dtdx dtdy i j m = south_right5 A S meqn ux' uy' aux' dtdx dtdy i j m.
  Proof.
    intros i j m H1 H2 H3 H4. destruct (col_ext i j m) as [R1 R2]; [lia|lia|lia|]. unfold south_left5, south_right5. rewrite R1, R2.
    rewrite (row_aside_ext5 i (j - 1)), (row_aside_ext5 i j) by lia. split; reflexivity.
  Qed.
End Box.
Lemma advanced_ext5 : forall A S meqn lx hx ly hy u u' ux ux' uy uy' aux aux' dx dy dt i j m, options_ok S ->
  agree lx hx ly hy meqn ux ux' -> agree lx hx ly hy meqn uy uy' -> agree lx hx ly hy (maux S) aux aux' -> u i j m = u' i j m ->
  lx + 2 <= i <= hx - 2 -> ly + 2 <= j <= hy - 2 ->
  advanced5 A S meqn u ux uy aux dx dy dt i j m = advanced5 A S meqn u' ux' uy' aux' dx dy dt i j m.
Proof.
  intros A S meqn lx hx ly hy u u' ux ux' uy uy' aux aux' dx dy dt i j m HS Ex Ey Ea Eu Hi Hj. unfold advanced5. cbv zeta. rewrite Eu.
  destruct (west_ext5 A S meqn lx hx ly hy ux ux' uy uy' aux aux' (quo A dt dx) (quo A dt dy) HS Ex Ey Ea (i + 1) j m) as [W1 _]; [lia|lia|lia|lia|].
  destruct (west_ext5 A S meqn lx hx ly hy ux ux' uy uy' aux aux' (quo A dt dx) (quo A dt dy) HS Ex Ey Ea i j m) as [_ W2]; [lia|lia|lia|lia|].
  destruct (south_ext5 A S meqn lx hx ly hy ux ux' uy uy' aux aux' (quo A dt dx) (quo A dt dy) HS Ex Ey Ea i (j + 1) m) as [S1 _]; [lia|lia|lia|lia|].
  destruct (south_ext5 A S meqn lx hx ly hy ux ux' uy uy' aux aux' (quo A dt dx) (quo A dt dy) HS Ex Ey Ea i j m) as [_ S2]; [lia|lia|lia|lia|].
  rewrite W1, W2, S1, S2. destruct (Z.eqb_spec (mcapa S) 0) as [E|E]; [reflexivity|]. rewrite Ea; [reflexivity|lia|lia|]. destruct HS as (_ & _ & X & _). lia.
Qed.

(** *** the origin *)
Section Shift.
  Variable A : arith.
  Variable S : solver.
  Variable meqn ox oy : Z.
  Variable u ux uy aux : field.
  Local Notation moved := (moved ox oy).
  Lemma aside_sh5 : forall ixy o u b a c r i k m, let sh := fun (X : Type) (f : Z -> X) i => f (o + i) in
    aside5 A S meqn ixy (sh _ u) (sh _ b) (sh _ a) (sh _ c) (sh _ r) i k m = aside5 A S meqn ixy u b a c r (o + i) k m.
  Proof.
    intros ixy o v b a c r i k m. cbv zeta. unfold aside5. destruct (method3 S =? 0); [reflexivity|].
    rewrite (transverse_sh S meqn ixy o v b a c 1 (i + 1) _ (amdq A S meqn ixy v a r (o + i + 1))), (transverse_sh S meqn ixy o v b a c 2 i _ (apdq A S meqn ixy v a r (o + i))).
    - replace (o + (i + 1)) with (o + i + 1) by lia. reflexivity.
    - intros q. unfold apdq. now rewrite (at_interface_sh S meqn ixy o v a), (correction_sh A S meqn ixy o v a r).
    - intros q. unfold amdq. rewrite (at_interface_sh S meqn ixy o v a), (correction_sh A S meqn ixy o v a r). now replace (o + (i + 1)) with (o + i + 1) by lia.
  Qed.
  Lemma row_aside_sh5 : forall dtd i j k m, row_aside5 A S meqn (moved ux) (moved aux) dtd j i k m = row_aside5 A S meqn ux aux dtd (oy + j) (ox + i) k m.
  Proof.
    intros. pose proof (aside_sh5 1 ox (fun i => ux i (oy + j)) (fun i => aux i (oy + j - 1)) (fun i => aux i (oy + j)) (fun i => aux i (oy + j + 1)) (fun i => ratio A S aux dtd i (oy + j)) i k m) as H.
    cbv zeta in H. unfold row_aside5 at 2, in_row. rewrite <- H. unfold row_aside5, in_row, Proof_Step4.moved.
    replace (oy + (j - 1)) with (oy + j - 1) by lia. replace (oy + (j + 1)) with (oy + j + 1) by lia. reflexivity.
  Qed.
  Lemma col_aside_sh5 : forall dtd i j k m, col_aside5 A S meqn (moved uy) (moved aux) dtd i j k m = col_aside5 A S meqn uy aux dtd (ox + i) (oy + j) k m.
  Proof.
    intros. pose proof (aside_sh5 2 oy (fun j => uy (ox + i) j) (fun j => aux (ox + i - 1) j) (fun j => aux (ox + i) j) (fun j => aux (ox + i + 1) j) (fun j => ratio A S aux dtd (ox + i) j) j k m) as H.
    cbv zeta in H. unfold col_aside5 at 2, in_col. rewrite <- H. unfold col_aside5, in_col, Proof_Step4.moved.
    replace (ox + (i - 1)) with (ox + i - 1) by lia. replace (ox + (i + 1)) with (ox + i + 1) by lia. reflexivity.
  Qed.
  Lemma advanced_sh5 : forall dx dy dt i j m, advanced5 A S meqn (moved u) (moved ux) (moved uy) (moved aux) dx dy dt i j m = advanced5 A S meqn u ux uy aux dx dy dt (ox + i) (oy + j) m.
  Proof.
    intros. unfold advanced5, west_left5, west_right5, south_left5, south_right5. cbv zeta.
    rewrite !row_aside_sh5, !col_aside_sh5, !row_left_sh, !row_right_sh, !col_left_sh, !col_right_sh.
    replace (ox + (i + 1)) with (ox + i + 1) by lia. replace (oy + (j + 1)) with (oy + j + 1) by lia.
    replace (ox + (i + 1 - 1)) with (ox + i + 1 - 1) by lia. replace (oy + (j + 1 - 1)) with (oy + j + 1 - 1) by lia.
    replace (ox + (i - 1)) with (ox + i - 1) by lia. replace (oy + (j - 1)) with (oy + j - 1) by lia. reflexivity.
  Qed.
End Shift.

(** *** conservation *)
Lemma west_sides5 : forall S meqn f u aux dtdx dtdy i j m, flux_difference S meqn f -> 1 <= m <= meqn ->
  (through_x5 S meqn f u aux dtdx dtdy i j m == f 1%Z (vec meqn (u i j)) (vec (maux S) (aux i j)) m + west_right5 exact S meqn u u aux dtdx dtdy i j m)%Q.
Proof.
  intros S meqn f u aux dtdx dtdy i j m HF Hm. unfold through_x5, west_left5, west_right5, row_left, row_right, in_row, flux_left, flux_right. cbn [add sub mul exact].
  pose proof (HF 1 (vec meqn (u (i - 1) j)) (vec meqn (u i j)) (vec (maux S) (aux (i - 1) j)) (vec (maux S) (aux i j)) m Hm) as H.
  fold (at_interface S meqn 1 (fun i => u i j) (fun i => aux i j) i) in H. destruct (second S); lra.
Qed.
Lemma south_sides5 : forall S meqn f u aux dtdx dtdy i j m, flux_difference S meqn f -> 1 <= m <= meqn ->
  (through_y5 S meqn f u aux dtdx dtdy i j m == f 2%Z (vec meqn (u i j)) (vec (maux S) (aux i j)) m + south_right5 exact S meqn u u aux dtdx dtdy i j m)%Q.
Proof.
  intros S meqn f u aux dtdx dtdy i j m HF Hm. unfold through_y5, south_left5, south_right5, col_left, col_right, in_col, flux_left, flux_right. cbn [add sub mul exact].
  pose proof (HF 2 (vec meqn (u i (j - 1))) (vec meqn (u i j)) (vec (maux S) (aux i (j - 1))) (vec (maux S) (aux i j)) m Hm) as H.
  fold (at_interface S meqn 2 (fun j => u i j) (fun j => aux i j) j) in H. destruct (second S); lra.
Qed.
Lemma conservation_form5 : forall S meqn f u v aux dx dy dt i j m, flux_difference S meqn f -> 1 <= m <= meqn -> ~ (capacity S aux i j == 0)%Q ->
  (capacity S aux i j * advanced5 exact S meqn u v v aux dx dy dt i j m == capacity S aux i j * u i j m
     - dt / dx * (through_x5 S meqn f v aux (dt / dx) (dt / dy) (i + 1)%Z j m - through_x5 S meqn f v aux (dt / dx) (dt / dy) i j m)
     - dt / dy * (through_y5 S meqn f v aux (dt / dx) (dt / dy) i (j + 1)%Z m - through_y5 S meqn f v aux (dt / dx) (dt / dy) i j m))%Q.
Proof.
  intros S meqn f u v aux dx dy dt i j m HF Hm HC.
  rewrite (west_sides5 S meqn f v aux (dt / dx) (dt / dy) i j m HF Hm), (south_sides5 S meqn f v aux (dt / dx) (dt / dy) i j m HF Hm).
  unfold through_x5, through_y5. replace (i + 1 - 1) with i by lia. replace (j + 1 - 1) with j by lia.
  unfold advanced5. cbv zeta. cbn [sub mul add quo exact]. unfold capacity in *. generalize (dt / dx)%Q (dt / dy)%Q. intros p p'. destruct (mcapa S =? 0).
  - ring.
  - field. exact HC.
Qed.

(** *** constant states *)
Section Constant.
  Variable S : solver.
  Variable meqn : Z.
  Variable q0 : Z -> Q.
  Hypothesis HQ : quiet S meqn q0.
  Variable aux : field.
  Lemma aside_zero5 : forall ixy (b a c : line) r i k m, 1 <= m <= meqn -> (aside5 exact S meqn ixy (fun _ => q0) b a c r i k m == 0)%Q.
  Proof.
    intros ixy b a c r i k m Hm. unfold aside5. destruct (method3 S =? 0); [reflexivity|]. cbn [add sub mul exact].
    assert (Z1 : forall i x, In x (vec meqn (amdq exact S meqn ixy (fun _ => q0) a r i)) -> (x == 0)%Q).
    { intros i' x Hx. apply in_map_iff in Hx as (q & <- & Hq). apply in_zrange in Hq. destruct (fluct_zero S meqn q0 HQ ixy a i' q Hq) as [H1 _].
      unfold amdq. cbn [add exact]. destruct (second S && (method3 S =? 2)); rewrite ?(correction_zero S meqn q0 HQ) by exact Hq; rewrite H1; reflexivity. }
    assert (Z2 : forall i x, In x (vec meqn (apdq exact S meqn ixy (fun _ => q0) a r i)) -> (x == 0)%Q).
    { intros i' x Hx. apply in_map_iff in Hx as (q & <- & Hq). apply in_zrange in Hq. destruct (fluct_zero S meqn q0 HQ ixy a i' q Hq) as [_ H1].
      unfold apdq. cbn [sub exact]. destruct (second S && (method3 S =? 2)); rewrite ?(correction_zero S meqn q0 HQ) by exact Hq; rewrite H1; reflexivity. }
    assert (T1 : (part k (transverse S meqn ixy (fun _ => q0) b a c 1%Z (i + 1)%Z (amdq exact S meqn ixy (fun _ => q0) a r (i + 1)%Z)) m == 0)%Q).
    { unfold part, transverse. match goal with |- context [rpt S ?x1 ?x2 ?x3 ?x4 ?x5 ?x6 ?x7 ?x8 ?x9 ?x10 ?x11] =>
        destruct (proj2 HQ x1 x2 x3 x4 x5 x6 x7 x8 x9 x10 x11 m Hm (Z1 (i + 1))) as [Y1 Y2] end. destruct (k =? 1); assumption. }
    assert (T2 : (part k (transverse S meqn ixy (fun _ => q0) b a c 2%Z i (apdq exact S meqn ixy (fun _ => q0) a r i)) m == 0)%Q).
    { unfold part, transverse. match goal with |- context [rpt S ?x1 ?x2 ?x3 ?x4 ?x5 ?x6 ?x7 ?x8 ?x9 ?x10 ?x11] =>
        destruct (proj2 HQ x1 x2 x3 x4 x5 x6 x7 x8 x9 x10 x11 m Hm (Z2 i)) as [Y1 Y2] end. destruct (k =? 1); assumption. }
    rewrite T1, T2. ring.
  Qed.
  Lemma constant_stays5 : forall dx dy dt i j m, 1 <= m <= meqn ->
    (advanced5 exact S meqn (fun _ _ => q0) (fun _ _ => q0) (fun _ _ => q0) aux dx dy dt i j m == q0 m)%Q.
  Proof.
    intros dx dy dt i j m Hm. unfold advanced5, west_left5, west_right5, south_left5, south_right5, row_left, row_right, col_left, col_right, row_aside5, col_aside5, in_row, in_col.
    cbv zeta beta. cbn [add sub mul quo exact]. destruct (mcapa S =? 0); unfold Qdiv;
    repeat match goal with
    | |- context [aside5 exact S meqn ?x ?u ?b ?a ?c ?r ?i ?k m] => rewrite (aside_zero5 x b a c r i k m Hm)
    | |- context [flux_left exact S meqn ?x ?u ?a ?r ?i m] => rewrite (proj1 (flux_zero S meqn q0 HQ x a r i m Hm))
    | |- context [flux_right exact S meqn ?x ?u ?a ?r ?i m] => rewrite (proj2 (flux_zero S meqn q0 HQ x a r i m Hm))
    end; ring.
  Qed.
End Constant.
