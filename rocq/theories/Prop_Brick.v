(** C48: the brick map. *)
From Coq Require Import ZArith QArith Qround List Bool Lia Lqa.
From Verif Require Import Base_Float Model_Search Model_Brick Spec_Brick.
Import ListNotations.
Open Scope Z_scope.

Section Facts.
  Variables (mi mj : Z) (vs : list (Q * Q)).
  Hypothesis BV : brick_vertices mi mj vs.

  Lemma pos_range b i j : position vs b i j -> 0 <= i < mi /\ 0 <= j < mj.
  Proof.
    destruct BV as (_ & _ & pos & -> & ND & IN). intros (B & E). rewrite nth_error_map in E.
    destruct (nth_error pos (Z.to_nat b)) as [[i' j']|] eqn:E'; [|discriminate]. cbn in E. injection E as <- <-. apply IN. eapply nth_error_In; exact E'.
  Qed.
  Lemma pos_inj b b' i j : position vs b i j -> position vs b' i j -> b = b'.
  Proof.
    destruct BV as (_ & _ & pos & -> & ND & IN). intros (B & E) (B' & E'). rewrite nth_error_map in E, E'.
    destruct (nth_error pos (Z.to_nat b)) as [[i1 j1]|] eqn:E1; [|discriminate]. destruct (nth_error pos (Z.to_nat b')) as [[i2 j2]|] eqn:E2; [|discriminate].
    cbn in E, E'. injection E as <- <-. injection E' as <- <-. assert (Z.to_nat b = Z.to_nat b'); [|lia].
    apply (proj1 (NoDup_nth_error pos) ND); [apply nth_error_Some; congruence|congruence].
  Qed.
  Lemma pos_ex i j : 0 <= i < mi -> 0 <= j < mj -> exists b, position vs b i j.
  Proof.
    destruct BV as (_ & _ & pos & -> & ND & IN). intros HI HJ. destruct (In_nth_error pos (i, j)) as (n & E); [apply IN; auto|].
    exists (Z.of_nat n). split; [lia|]. rewrite Nat2Z.id, nth_error_map, E. reflexivity.
  Qed.
  Lemma pos_of b : 0 <= b < Z.of_nat (length vs) -> exists i j, position vs b i j.
  Proof.
    destruct BV as (_ & _ & pos & -> & ND & IN). rewrite map_length. intros B.
    destruct (nth_error pos (Z.to_nat b)) as [[i j]|] eqn:E; [|apply nth_error_None in E; lia].
    exists i, j. split; [lia|]. rewrite nth_error_map, E. reflexivity.
  Qed.
  Lemma c2m rnd b i j xc yc : position vs b i j ->
    c2m_brick rnd (map_new_brick vs mi mj) b xc yc = Some (rnd (rnd (inject_Z i + xc) / inject_Z mi), rnd (rnd (inject_Z j + yc) / inject_Z mj))%Q.
  Proof.
    intros (B & E). unfold c2m_brick, map_new_brick, zget. cbn [bl_xv bl_yv bl_mi bl_mj].
    destruct (b <? 0) eqn:EB; [apply Z.ltb_lt in EB; lia|]. rewrite !nth_error_map, E. cbn [option_map fst snd bind check].
    destruct BV as (M1 & M2 & _). destruct (mi =? 0) eqn:E1; [apply Z.eqb_eq in E1; lia|]. destruct (mj =? 0) eqn:E2; [apply Z.eqb_eq in E2; lia|]. reflexivity.
  Qed.
End Facts.

Lemma zq m : 1 <= m -> (0 < inject_Z m)%Q. Proof. intros H. change 0%Q with (inject_Z 0). rewrite <- Zlt_Qlt. lia. Qed.
Lemma div_le a b m : 1 <= m -> (a <= b)%Q -> (a / inject_Z m <= b / inject_Z m)%Q.
Proof. intros H L. pose proof (zq m H). apply Qle_shift_div_l; [assumption|]. unfold Qdiv. rewrite <- Qmult_assoc, (Qmult_comm (/ inject_Z m)), Qmult_inv_r, Qmult_1_r; [exact L|lra]. Qed.
Lemma div_unit i m x : 1 <= m -> 0 <= i < m -> unit x -> (0 <= inject_Z i + x /\ inject_Z i + x <= inject_Z m)%Q.
Proof.
  intros M H (X0 & X1). assert (0 <= inject_Z i)%Q by (change 0%Q with (inject_Z 0); rewrite <- Zle_Qle; lia).
  assert (inject_Z i + 1 <= inject_Z m)%Q by (change 1%Q with (inject_Z 1); rewrite <- inject_Z_plus, <- Zle_Qle; lia). split; lra.
Qed.
Lemma div_self m : 1 <= m -> (inject_Z m / inject_Z m == 1)%Q. Proof. intros H. pose proof (zq m H). unfold Qdiv. apply Qmult_inv_r. lra. Qed.
Lemma div_zero m : (0 / inject_Z m == 0)%Q. Proof. unfold Qdiv. apply Qmult_0_l. Qed.
Lemma div_eq a b m : 1 <= m -> (a / inject_Z m == b / inject_Z m)%Q -> (a == b)%Q.
Proof.
  intros H E. pose proof (zq m H). assert (a / inject_Z m * inject_Z m == b / inject_Z m * inject_Z m)%Q by (rewrite E; reflexivity).
  unfold Qdiv in H1. rewrite <- !Qmult_assoc, (Qmult_comm (/ inject_Z m)), Qmult_inv_r, !Qmult_1_r in H1; [exact H1|lra].
Qed.
(** the block column of a coordinate *)
Lemma column m x : 1 <= m -> unit x -> exists i xc, 0 <= i < m /\ unit xc /\ (inject_Z i + xc == x * inject_Z m)%Q.
Proof.
  intros M (X0 & X1). pose proof (zq m M) as M0. set (y := (x * inject_Z m)%Q).
  assert (Y0 : (0 <= y)%Q) by (unfold y; apply Qmult_le_0_compat; lra).
  assert (Y1 : (y <= inject_Z m)%Q) by (unfold y; rewrite <- (Qmult_1_l (inject_Z m)) at 2; apply Qmult_le_compat_r; lra).
  destruct (Z.eq_dec (Qfloor y) m) as [E|E].
  - exists (m - 1), 1%Q. split; [lia|]. split; [split; lra|]. pose proof (Qfloor_le y). rewrite E in H.
    unfold Zminus. rewrite inject_Z_plus. change (inject_Z (-(1))) with (-(1))%Q. lra.
  - exists (Qfloor y), (y - inject_Z (Qfloor y))%Q. pose proof (Qfloor_le y) as F. pose proof (Qlt_floor y) as F'. rewrite inject_Z_plus in F'. change (inject_Z 1) with 1%Q in F'.
    split; [|split; [split; lra|ring]]. split.
    + assert (0 < Qfloor y + 1); [|lia]. rewrite Zlt_Qlt, inject_Z_plus. change (inject_Z 1) with 1%Q. change (inject_Z 0) with 0%Q. lra.
    + assert (Qfloor y <= m); [|lia]. rewrite Zle_Qle. lra.
Qed.
Lemma open_column i i' x x' : inner x -> inner x' -> (inject_Z i + x == inject_Z i' + x')%Q -> i = i'.
Proof.
  intros (A & B) (A' & B') E. assert (inject_Z i < inject_Z (i' + 1))%Q by (rewrite inject_Z_plus; change (inject_Z 1) with 1%Q; lra).
  assert (inject_Z i' < inject_Z (i + 1))%Q by (rewrite inject_Z_plus; change (inject_Z 1) with 1%Q; lra). rewrite <- Zlt_Qlt in *. lia.
Qed.

Definition exact (x : Q) : Q := x.

(** In exact arithmetic the blocks tile the unit square. *)
Theorem C48_tiling : forall mi mj vertices, brick_vertices mi mj vertices ->
  let c2m := c2m_brick exact (map_new_brick vertices mi mj) in
  (* every block is mapped into the unit square *)
  (forall b xc yc, 0 <= b < Z.of_nat (length vertices) -> unit xc -> unit yc ->
     exists xp yp, c2m b xc yc = Some (xp, yp) /\ unit xp /\ unit yp) /\
  (* every point of the square is covered *)
  (forall xp yp, unit xp -> unit yp -> exists b xc yc p, 0 <= b < Z.of_nat (length vertices) /\ unit xc /\ unit yc /\ c2m b xc yc = Some p /\ peq p (xp, yp)) /\
  (* inner points of different blocks are different, and so are different points of one block *)
  (forall b xc yc b' xc' yc' p p', inner xc -> inner yc -> inner xc' -> inner yc' ->
     c2m b xc yc = Some p -> c2m b' xc' yc' = Some p' -> peq p p' -> b = b' /\ (xc == xc')%Q /\ (yc == yc')%Q).
Proof.
  intros mi mj vs BV c2m0. pose proof BV as (M1 & M2 & _). unfold c2m0. split; [|split].
  - intros b xc yc B X Y. destruct (pos_of mi mj vs BV b B) as (i & j & P). destruct (pos_range mi mj vs BV b i j P) as (HI & HJ).
    rewrite (c2m mi mj vs BV exact b i j xc yc P). unfold exact. do 2 eexists. split; [reflexivity|].
    destruct (div_unit i mi xc ltac:(lia) HI X) as (A1 & A2). destruct (div_unit j mj yc ltac:(lia) HJ Y) as (B1 & B2).
    pose proof (div_le _ _ mi ltac:(lia) A1) as A3. pose proof (div_le _ _ mi ltac:(lia) A2) as A4. pose proof (div_le _ _ mj ltac:(lia) B1) as B3. pose proof (div_le _ _ mj ltac:(lia) B2) as B4.
    rewrite div_zero in A3, B3. rewrite div_self in A4, B4 by lia. split; split; assumption.
  - intros xp yp X Y. destruct (column mi xp ltac:(lia) X) as (i & xc & HI & XC & EX). destruct (column mj yp ltac:(lia) Y) as (j & yc & HJ & YC & EY).
    destruct (pos_ex mi mj vs BV i j HI HJ) as (b & P). exists b, xc, yc. rewrite (c2m mi mj vs BV exact b i j xc yc P). unfold exact. eexists. split.
    { destruct P as (P0 & P). split; [lia|]. assert (Z.to_nat b < length vs)%nat by (apply nth_error_Some; congruence). lia. }
    split; [exact XC|]. split; [exact YC|]. split; [reflexivity|]. split; cbn [fst snd].
    + rewrite EX. pose proof (zq mi ltac:(lia)). field. lra.
    + rewrite EY. pose proof (zq mj ltac:(lia)). field. lra.
  - intros b xc yc b' xc' yc' p p' IX IY IX' IY' E E' PQ.
    assert (R : forall b xc yc p, c2m_brick exact (map_new_brick vs mi mj) b xc yc = Some p -> exists i j, position vs b i j).
    { intros b0 x0 y0 p0. unfold c2m_brick, map_new_brick, zget. cbn [bl_xv bl_yv]. destruct (b0 <? 0) eqn:EB; [discriminate|]. apply Z.ltb_ge in EB.
      rewrite nth_error_map. destruct (nth_error vs (Z.to_nat b0)) eqn:EN; [|discriminate]. intros _. apply (pos_of mi mj vs BV).
      assert (Z.to_nat b0 < length vs)%nat by (apply nth_error_Some; congruence). lia. }
    destruct (R _ _ _ _ E) as (i & j & P). destruct (R _ _ _ _ E') as (i' & j' & P'). rewrite (c2m mi mj vs BV exact b i j xc yc P) in E. rewrite (c2m mi mj vs BV exact b' i' j' xc' yc' P') in E'.
    injection E as <-. injection E' as <-. destruct PQ as (Q1 & Q2). cbn [fst snd] in Q1, Q2. unfold exact in Q1, Q2.
    apply div_eq in Q1; [|lia]. apply div_eq in Q2; [|lia].
    assert (i = i') by (eapply open_column; [exact IX|exact IX'|exact Q1]). assert (j = j') by (eapply open_column; [exact IY|exact IY'|exact Q2]). subst i' j'.
    split; [exact (pos_inj mi mj vs BV b b' i j P P')|]. split; lra.
Qed.
Print Assumptions C48_tiling.

Lemma mono_eq rnd x y : monotone rnd -> (x == y)%Q -> (rnd x == rnd y)%Q.
Proof. intros M E. apply Qle_antisym; apply M; lra. Qed.
Lemma int_b64 z : 0 <= z <= 2 ^ 31 -> is_b64 (inject_Z z).
Proof. intros H. exists z, 0. split; [lia|]. split; [lia|]. change (Qpower 2 0) with 1%Q. lra. Qed.
Lemma round_int rnd x z : rounding rnd -> monotone rnd -> 0 <= z <= 2 ^ 31 -> (x == inject_Z z)%Q -> (rnd x == inject_Z z)%Q.
Proof. intros R M H E. rewrite (mono_eq rnd x (inject_Z z) M E). apply R, int_b64, H. Qed.

(** With any order preserving rounding that is exact on representable numbers: neighboring blocks agree on
    their common edge to the last bit, all blocks are mapped into the unit square, and the outer edges to 0
    and 1 exactly. *)
Theorem C48_rounded : forall rnd, rounding rnd -> monotone rnd -> forall mi mj vertices, brick_vertices mi mj vertices ->
  let c2m := c2m_brick rnd (map_new_brick vertices mi mj) in
  (forall b b' i j t, position vertices b i j -> position vertices b' (i + 1) j ->
     exists p p', c2m b 1%Q t = Some p /\ c2m b' 0%Q t = Some p' /\ peq p p') /\
  (forall b b' i j t, position vertices b i j -> position vertices b' i (j + 1) ->
     exists p p', c2m b t 1%Q = Some p /\ c2m b' t 0%Q = Some p' /\ peq p p') /\
  (forall b i j xc yc, position vertices b i j -> unit xc -> unit yc -> exists xp yp, c2m b xc yc = Some (xp, yp) /\ unit xp /\ unit yp /\
     (i = 0 -> xc = 0%Q -> (xp == 0)%Q) /\ (i = mi - 1 -> xc = 1%Q -> (xp == 1)%Q) /\ (j = 0 -> yc = 0%Q -> (yp == 0)%Q) /\ (j = mj - 1 -> yc = 1%Q -> (yp == 1)%Q)).
Proof.
  intros rnd R M mi mj vs BV c2m0. pose proof BV as (M1 & M2 & _). unfold c2m0.
  assert (EDGE : forall i m, 0 <= i -> i + 1 < m -> m < 2 ^ 31 -> (rnd (rnd (inject_Z i + 1) / inject_Z m) == rnd (rnd (inject_Z (i + 1) + 0) / inject_Z m))%Q).
  { intros i m H H' H''. apply (mono_eq _ _ _ M). rewrite (round_int rnd (inject_Z i + 1) (i + 1) R M), (round_int rnd (inject_Z (i + 1) + 0) (i + 1) R M); [reflexivity|lia|ring|lia|].
    rewrite inject_Z_plus. reflexivity. }
  assert (UNIT : forall i m x, 1 <= m < 2 ^ 31 -> 0 <= i < m -> unit x -> unit (rnd (rnd (inject_Z i + x) / inject_Z m))%Q /\
    (i = 0 -> x = 0%Q -> (rnd (rnd (inject_Z i + x) / inject_Z m) == 0)%Q) /\ (i = m - 1 -> x = 1%Q -> (rnd (rnd (inject_Z i + x) / inject_Z m) == 1)%Q)).
  { intros i m x HM HI X. destruct (div_unit i m x ltac:(lia) HI X) as (A1 & A2). apply M in A1. apply M in A2.
    rewrite (round_int rnd 0 0 R M) in A1; [|lia|reflexivity]. rewrite (round_int rnd (inject_Z m) m R M) in A2; [|lia|reflexivity].
    apply (div_le _ _ m ltac:(lia)) in A1. apply (div_le _ _ m ltac:(lia)) in A2. split; [|split].
    - split.
      + change (inject_Z 0) with 0%Q in A1. rewrite div_zero in A1. apply M in A1. rewrite (round_int rnd 0 0 R M) in A1; [exact A1|lia|reflexivity].
      + rewrite div_self in A2 by lia. apply M in A2. rewrite (round_int rnd 1 1 R M) in A2; [exact A2|lia|reflexivity].
    - intros -> ->. rewrite (round_int rnd _ 0 R M); [reflexivity|lia|]. rewrite (round_int rnd _ 0 R M); [apply div_zero|lia|reflexivity].
    - intros -> ->. rewrite (round_int rnd _ 1 R M); [reflexivity|lia|]. rewrite (round_int rnd _ m R M); [apply div_self; lia|lia|].
      unfold Zminus. rewrite inject_Z_plus. change (inject_Z (-(1))) with (-(1))%Q. ring. }
  split; [|split].
  - intros b b' i j t P P'. pose proof (pos_range mi mj vs BV b i j P). pose proof (pos_range mi mj vs BV b' (i+1) j P').
    rewrite (c2m mi mj vs BV rnd b i j 1 t P), (c2m mi mj vs BV rnd b' (i+1) j 0 t P'). do 2 eexists. split; [reflexivity|]. split; [reflexivity|].
    split; cbn [fst snd]; [apply EDGE; lia|reflexivity].
  - intros b b' i j t P P'. pose proof (pos_range mi mj vs BV b i j P). pose proof (pos_range mi mj vs BV b' i (j+1) P').
    rewrite (c2m mi mj vs BV rnd b i j t 1 P), (c2m mi mj vs BV rnd b' i (j+1) t 0 P'). do 2 eexists. split; [reflexivity|]. split; [reflexivity|].
    split; cbn [fst snd]; [reflexivity|apply EDGE; lia].
  - intros b i j xc yc P X Y. destruct (pos_range mi mj vs BV b i j P) as (HI & HJ). rewrite (c2m mi mj vs BV rnd b i j xc yc P). do 2 eexists. split; [reflexivity|].
    destruct (UNIT i mi xc M1 HI X) as (U1 & U2 & U3). destruct (UNIT j mj yc M2 HJ Y) as (V1 & V2 & V3). split; [exact U1|]. split; [exact V1|].
    split; [exact U2|]. split; [exact U3|]. split; [exact V2|exact V3].
Qed.
Print Assumptions C48_rounded.

(** For a mapping without a brick (one tree) the call never succeeds: the assertion meant for the block number
    tests the pointer. *)
Theorem C48_single_tree_refuted : forall rnd blockno xc yc, brick2c rnd None blockno xc yc = None.
Proof. reflexivity. Qed.
Print Assumptions C48_single_tree_refuted.

(** A brick of 2 x 3 blocks in the order of p4est, and its upper right corner. *)
Definition example_vertices : list (Q * Q) :=
  map (fun p => (inject_Z (fst p), inject_Z (snd p))) [(0, 0); (1, 0); (0, 1); (1, 1); (0, 2); (1, 2)].
Example C48_instance : brick_vertices 2 3 example_vertices /\ rounding exact /\ monotone exact /\
  c2m_brick exact (map_new_brick example_vertices 2 3) 3 (1 # 2) (1 # 2) = Some (3 # 4, 3 # 6)%Q.
Proof.
  split; [|split; [exact rounding_id|split; [intros x y H; exact H|vm_compute; reflexivity]]].
  split; [lia|]. split; [lia|]. eexists. split; [reflexivity|]. split.
  - repeat constructor; cbn; intuition discriminate.
  - intros i j. cbn. split.
    + intros H. repeat (destruct H as [[= <- <-]|H]; [lia|]). contradiction.
    + intros (HI & HJ). assert (i = 0 \/ i = 1) as [-> | ->] by lia; assert (j = 0 \/ j = 1 \/ j = 2) as [-> | [-> | ->]] by lia; auto 10.
Qed.
