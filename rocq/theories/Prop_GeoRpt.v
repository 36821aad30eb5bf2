(** C84: GeoClaw's transverse Riemann solver. *)
From Coq Require Import ZArith QArith Qminmax Bool Lia Lqa Qfield.
From Verif Require Import Model_GeoStep Model_GeoRpt Spec_GeoStep Spec_GeoRpt Proof_GeoRpt.
Open Scope Q_scope.

(** Nothing crosses where both cells are dry or where the surface is below the land beside the receiving cell. *)
Theorem C84_blocked : forall root grav tol ixy imp q a1 a2 a3 asdq m i, 0 <= tol -> ~ (wet tol q i /\ open_to imp i q a1 a2 a3) ->
  let b := geo_rpt2 root grav tol ixy imp q a1 a2 a3 asdq in fst b m i == 0 /\ snd b m i == 0.
Proof.
  intros root grav tol ixy imp q a1 a2 a3 asdq m i Ht N. cbv zeta. unfold geo_rpt2. cbn [fst snd].
  rewrite !(rpt2_closed root grav tol _ ixy imp q a1 a2 a3 asdq) by assumption. destruct (inr 1 3 m); split; reflexivity.
Qed.
Print Assumptions C84_blocked.

(** Elsewhere the solver splits the fluctuation into three waves with speeds s1 < s2 < s3, the parts that go down and up add up to
    the waves times their speeds, and in particular the mass that crosses is the momentum across in the fluctuation. *)
Theorem C84_split : forall root grav tol ixy imp q a1 a2 a3 asdq i, 0 <= tol -> 0 < grav -> positive root -> wet tol q i -> open_to imp i q a1 a2 a3 ->
  let b := geo_rpt2 root grav tol ixy imp q a1 a2 a3 asdq in
  exists s1 s3, is_slowest root grav tol ixy q i s1 /\ is_fastest root grav tol ixy q i s3 /\ s1 < s3 /\
  let s2 := (s1 + s3) / 2 in
  let d1 := asdq 1%Z i in let d2 := asdq (along ixy) i in let d3 := asdq (across ixy) i in
  fst b 1%Z i + snd b 1%Z i == d3 /\
  fst b (along ixy) i + snd b (along ixy) i == s2 * d3 + s2 * (d2 - s2 * d1) /\
  fst b (across ixy) i + snd b (across ixy) i == (s1 + s3) * d3 - s1 * s3 * d1 /\
  (0 <= s1 -> forall m, fst b m i == 0) /\ (s3 <= 0 -> forall m, snd b m i == 0).
Proof.
  intros root grav tol ixy imp q a1 a2 a3 asdq i Ht Hg P W O. cbv zeta.
  pose proof (fun neg k => rpt2_open root grav tol neg ixy imp q a1 a2 a3 asdq k i Ht W O) as E. cbv zeta in E.
  set (l := state tol (q 1%Z (i - 1)%Z) _ _) in *. set (r := state tol (q 1%Z i) _ _) in *.
  destruct (E true 1%Z) as (_ & L0 & R0 & LR). pose proof (speeds_lt root grav l r P Hg L0 R0 LR) as SP.
  assert (SS : is_slowest root grav tol ixy q i (fst (fst (speeds root grav l r))) /\ is_fastest root grav tol ixy q i (snd (speeds root grav l r)) /\
               snd (fst (speeds root grav l r)) = (1 # 2) * (fst (fst (speeds root grav l r)) + snd (speeds root grav l r))).
  { assert (SL : l = (depth tol q (i - 1), snd (fst l), cross tol ixy q (i - 1))).
    { unfold l, depth, cross, state. rewrite mv_eq. destruct (Qlt_le_dec (q 1%Z (i - 1)%Z) tol) as [A|A]; [rewrite (proj2 (lt_iff _ _) A)|rewrite (proj2 (lt_false _ _) A)]; reflexivity. }
    assert (SR : r = (depth tol q i, snd (fst r), cross tol ixy q i)).
    { unfold r, depth, cross, state. rewrite mv_eq. destruct (Qlt_le_dec (q 1%Z i) tol) as [A|A]; [rewrite (proj2 (lt_iff _ _) A)|rewrite (proj2 (lt_false _ _) A)]; reflexivity. }
    rewrite SL, SR. unfold speeds. cbn [fst snd]. split; [|split; [|reflexivity]].
    - unfold is_slowest, roe. apply Q.min_compat; [|reflexivity]. apply Qplus_comp; [|reflexivity]. unfold Qdiv. ring.
    - unfold is_fastest, roe. apply Q.max_compat; [|reflexivity]. apply Qplus_comp; [|reflexivity]. unfold Qdiv. ring. }
  destruct (speeds root grav l r) as [[s1 s2] s3] eqn:ES. cbn [fst snd] in SS. destruct SS as (S1 & S3 & S2). destruct SP as [L12 L23].
  exists s1, s3. split; [exact S1|]. split; [exact S3|]. split; [lra|].
  unfold geo_rpt2. cbn [fst snd]. rewrite !mu_eq.
  assert (C : (inr 1 3 1 = true /\ inr 1 3 (along ixy) = true /\ inr 1 3 (across ixy) = true) /\ (along ixy =? 1)%Z = false /\ (across ixy =? 1)%Z = false /\ (across ixy =? along ixy)%Z = false)
    by (unfold along, across; destruct (Z.eq_dec ixy 1); repeat split).
  destruct C as ((C1 & C2 & C3) & C4 & C5 & C6). rewrite C1, C2, C3, C4, C5, C6, !Z.eqb_refl.
  assert (HS2 : (s1 + s3) / 2 == s2) by (rewrite S2; field).
  repeat split.
  - rewrite (proj1 (E true 1%Z)), (proj1 (E false 1%Z)), going_sum, mu_eq, mv_eq. unfold family. cbn [Z.eqb Pos.eqb fst snd]. field. lra.
  - rewrite (proj1 (E true 2%Z)), (proj1 (E false 2%Z)), going_sum, mu_eq, mv_eq, HS2. unfold family. cbn [Z.eqb Pos.eqb fst snd]. field. lra.
  - rewrite (proj1 (E true 3%Z)), (proj1 (E false 3%Z)), going_sum, mu_eq, mv_eq. unfold family. cbn [Z.eqb Pos.eqb fst snd]. field. lra.
  - intros H m. destruct (inr 1 3 m); [|reflexivity]. rewrite (proj1 (E true _)). unfold going, family. cbn [Z.eqb Pos.eqb].
    rewrite (proj2 (lt_false s1 0)), (proj2 (lt_false s2 0)), (proj2 (lt_false s3 0)) by lra. ring.
  - intros H m. destruct (inr 1 3 m); [|reflexivity]. rewrite (proj1 (E false _)). unfold going, family. cbn [Z.eqb Pos.eqb].
    rewrite (proj2 (lt_false 0 s1)), (proj2 (lt_false 0 s2)), (proj2 (lt_false 0 s3)) by lra. destruct (lt s1 0), (lt s2 0), (lt s3 0); ring.
Qed.
Print Assumptions C84_split.

(** The solver is linear in the fluctuation, at each interface. *)
Theorem C84_linear : forall root grav tol ixy imp q a1 a2 a3 m i (x y z : slice) a b,
  (forall m, z m i == a * x m i + b * y m i) ->
  let T := geo_rpt2 root grav tol ixy imp q a1 a2 a3 in
  fst (T z) m i == a * fst (T x) m i + b * fst (T y) m i /\ snd (T z) m i == a * snd (T x) m i + b * snd (T y) m i.
Proof.
  intros root grav tol ixy imp q a1 a2 a3 m i x y z a b H. cbv zeta. unfold geo_rpt2. cbn [fst snd]. destruct (inr 1 3 m); [|split; ring].
  set (k := if (m =? 1)%Z then _ else _).
  destruct (rpt2_lin root grav tol true ixy imp q a1 a2 a3 k i) as (c1 & c2 & c3 & C). destruct (rpt2_lin root grav tol false ixy imp q a1 a2 a3 k i) as (e1 & e2 & e3 & E).
  split; [rewrite !C|rewrite !E]; rewrite !H; ring.
Qed.
Print Assumptions C84_linear.

(** So with this solver the step of C82 keeps what is at rest and has the values given there. *)
Theorem C84_in_step : forall root grav tol S, rpt2 S = geo_rpt2 root grav tol -> linear_at_zero S /\ respects S.
Proof.
  intros root grav tol S E. split.
  - intros ixy imp q1d a1 a2 a3 asdq H m i. rewrite E.
    destruct (C84_linear root grav tol ixy imp q1d a1 a2 a3 m i asdq asdq asdq 0 0) as [A B]; [intros; rewrite !H; ring|].
    split; [rewrite A|rewrite B]; ring.
  - intros ixy imp q1d a1 a2 a3 x y H m i. rewrite E.
    destruct (C84_linear root grav tol ixy imp q1d a1 a2 a3 m i y y x 1 0) as [A B]; [intros; rewrite !H; ring|].
    split; [rewrite A|rewrite B]; ring.
Qed.
Print Assumptions C84_in_step.

(** The two cells beside the interface do not play the same role across it, yet the slowest speed looks at one and the fastest at
    the other: the mirror image of a state is split differently. *)
Definition newton (x : Q) : Q := (1 + x) / 2.   (* a root near 1, exact at 1 *)
Theorem C84_mirror_refuted : ~ (forall root grav tol q q' (asdq : slice) m, 0 <= tol -> 0 < grav -> positive root ->
  (forall m, q' m 0%Z = q m 1%Z /\ q' m 1%Z = q m 0%Z) ->
  let flat := fun _ _ : Z => 0 in
  snd (geo_rpt2 root grav tol 1 1 q flat flat flat asdq) m 1%Z == snd (geo_rpt2 root grav tol 1 1 q' flat flat flat asdq) m 1%Z).
Proof.
  intros H. specialize (H newton 1 (1 # 1000)
    (fun m i => if (m =? 1)%Z then 1 else if (m =? 2)%Z then 0 else if (i =? 0)%Z then -(10) else 0)
    (fun m i => if (m =? 1)%Z then 1 else if (m =? 2)%Z then 0 else if (i =? 1)%Z then -(10) else 0) (fun m _ => if (m =? 1)%Z then 1 else 0) 1%Z).
  assert (P : positive newton) by (intros x Hx; unfold newton; apply Qlt_shift_div_l; [reflexivity|lra]).
  specialize (H ltac:(discriminate) ltac:(reflexivity) P). cbv zeta in H.
  assert (X : forall m, (if (m =? 1)%Z then 1 else if (m =? 2)%Z then 0 else if (0 =? 1)%Z then -(10) else 0) = (if (m =? 1)%Z then 1 else if (m =? 2)%Z then 0 else if (1 =? 0)%Z then -(10) else 0) /\
    (if (m =? 1)%Z then 1 else if (m =? 2)%Z then 0 else if (1 =? 1)%Z then -(10) else 0) = (if (m =? 1)%Z then 1 else if (m =? 2)%Z then 0 else if (0 =? 0)%Z then -(10) else 0))
    by (intros m; cbn [Z.eqb Pos.eqb]; split; reflexivity).
  specialize (H X). vm_compute in H. discriminate H.
Qed.
Print Assumptions C84_mirror_refuted.

(** Instance: water one deep on both sides, with velocity -10 across on one side: the interface is wet and open. *)
Example C84_instance :
  let q : slice := fun m i => if (m =? 1)%Z then 1 else if (m =? 2)%Z then 0 else if (i =? 0)%Z then -(10) else 0 in
  let flat : slice := fun _ _ => 0 in let asdq : slice := fun m _ => if (m =? 1)%Z then 1 else 0 in
  wet (1 # 1000) q 1 /\ open_to 1 1 q flat flat flat /\ positive newton /\
  Qeq_bool (snd (geo_rpt2 newton 1 (1 # 1000) 1 1 q flat flat flat asdq) 1%Z 1%Z) (11 # 12) = true /\
  Qeq_bool (fst (geo_rpt2 newton 1 (1 # 1000) 1 1 q flat flat flat asdq) 1%Z 1%Z) (-11 # 12) = true /\
  ~ (wet 2 q 1 /\ open_to 1 1 q flat flat flat).
Proof.
  cbv zeta. split; [left; reflexivity|]. split; [split; vm_compute; discriminate|].
  split; [intros x Hx; unfold newton; apply Qlt_shift_div_l; [reflexivity|lra]|].
  split; [reflexivity|]. split; [reflexivity|]. intros [[A|A] _]; vm_compute in A; discriminate.
Qed.
