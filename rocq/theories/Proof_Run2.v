From Coq Require Import ZArith QArith Qminmax Qround Qfield List Bool Lia Lqa.
From Verif Require Import Model_Run Spec_Run Proof_Run.
Import ListNotations.
Open Scope Z_scope.

Lemma archimedes : forall x y : Q, (0 < y)%Q -> exists n : nat, (x <= inject_Z (Z.of_nat n) * y)%Q.
Proof.
  intros x y Hy. exists (Z.to_nat (Qceiling (x / y))).
  assert (H : (x / y <= inject_Z (Z.of_nat (Z.to_nat (Qceiling (x / y)))))%Q).
  { eapply Qle_trans. apply Qle_ceiling. rewrite <- Zle_Qle. lia. }
  apply (Qmult_le_compat_r _ _ y) in H; [|lra].
  assert (E : (x / y * y == x)%Q) by (field; lra). lra.
Qed.

Section T.
  Variable St : Type.
  Variable advance : St -> Q -> Q -> St * Q.
  Variable regrid : St -> St.
  Variable gmax : Q -> Q.
  Variable o : ropts.
  Variable Lam : Q.
  Hypothesis HLam : (0 < Lam)%Q.
  Definition cfl_of s t h := let c := snd (advance s t h) in if reduce_cfl o then gmax c else c.
  Hypothesis Hcfl : forall s t h, (0 < h)%Q -> (0 < cfl_of s t h)%Q /\ (cfl_of s t h <= Lam * h)%Q.
  Hypothesis Hfix : use_fixed_dt o = false.
  Hypothesis Hdes : (0 < desired_cfl o)%Q /\ (desired_cfl o < max_cfl o)%Q.
  Hypothesis Hlev : r_minlevel o <= r_maxlevel o.
  Hypothesis Hdt : (0 < initial_dt o)%Q.

  Definition eff (x : Q) : Q := if r_advance_one_step o then (x / inject_Z (level_factor o))%Q else x.

  Lemma lf_pos : (0 < inject_Z (level_factor o))%Q.
  Proof.
    clear - Hlev. unfold level_factor. assert (0 < 2 ^ (r_maxlevel o - r_minlevel o)) by (apply Z.pow_pos_nonneg; lia).
    unfold Qlt, inject_Z. cbn [Qnum Qden]. lia.
  Qed.

  Lemma eff_mul : forall x y, (eff (x * y) == eff x * y)%Q.
  Proof. intros. pose proof lf_pos. unfold eff. destruct (r_advance_one_step o). field; lra. reflexivity. Qed.
  Lemma eff_pos : forall x, (0 < x)%Q -> (0 < eff x)%Q.
  Proof.
    intros. pose proof lf_pos. unfold eff. destruct (r_advance_one_step o); auto.
    apply Qlt_shift_div_l; auto; lra.
  Qed.
  Lemma eff_ext : forall x y, (x == y)%Q -> (eff x == eff y)%Q.
  Proof. intros. unfold eff. destruct (r_advance_one_step o); auto. rewrite H. reflexivity. Qed.

  Definition delta : Q := Qmin (eff (initial_dt o)) (desired_cfl o / ((101 # 100) * Lam)).
  Definition bnd : Q := (max_cfl o / ((101 # 100) * Lam))%Q.
  Definition dec : Q := ((1 - desired_cfl o / max_cfl o) * bnd)%Q.

  Lemma delta_pos : (0 < delta)%Q.
  Proof.
    unfold delta. apply Q.min_glb_lt. apply eff_pos; auto. apply Qlt_shift_div_l; lra.
  Qed.
  Lemma rho_lt : (desired_cfl o / max_cfl o < 1)%Q.
  Proof. apply Qlt_shift_div_r; lra. Qed.
  Lemma bnd_pos : (0 < bnd)%Q.
  Proof. unfold bnd. apply Qlt_shift_div_l; lra. Qed.
  Lemma dec_pos : (0 < dec)%Q.
  Proof. unfold dec. pose proof rho_lt. pose proof bnd_pos. apply Qmult_lt_0_compat; lra. Qed.

  (** One pass either reduces the step by a fixed amount or moves on by at least delta. *)
  Lemma pass1_progress : forall tend r, (r_time _ r < tend)%Q -> (delta <= eff (r_dt _ r))%Q ->
    exists r', pass1 St advance regrid gmax o tend r = Ok r' /\ (delta <= eff (r_dt _ r'))%Q /\
      ((bnd < eff (r_dt _ r) /\ r_time _ r' == r_time _ r /\ eff (r_dt _ r') <= eff (r_dt _ r) - dec) \/
       (tend <= r_time _ r') \/ (r_time _ r + delta <= r_time _ r'))%Q.
  Proof.
    intros tend r Hlt Hd. unfold pass1. fold (eff (r_dt _ r)). rewrite Hfix. cbn [negb andb].
    set (dt0 := eff (r_dt _ r)) in *. pose proof delta_pos as Hdp.
    set (adj := negb (Qle_bool ((1 # 100) * dt0) (tend - (r_time _ r + dt0)))) in *.
    set (dt1 := if adj then (tend - r_time _ r)%Q else dt0) in *.
    assert (H1 : (0 < dt1 /\ dt1 <= (101 # 100) * dt0)%Q /\ (adj = false -> dt1 = dt0) /\ (adj = true -> (r_time _ r + dt1 == tend)%Q)).
    { unfold dt1. destruct adj eqn:Ea.
      - split; [|split; [discriminate|intros; ring]]. unfold adj in Ea. apply negb_true_iff in Ea.
        split. lra. destruct (Qlt_le_dec (tend - (r_time _ r + dt0)) ((1 # 100) * dt0)). lra.
        apply Qle_bool_iff in q. congruence.
      - split; [|split; [auto|discriminate]]. lra. }
    destruct H1 as ((H1 & H2) & H3 & H4).
    destruct (advance (r_sol _ r) (r_time _ r) dt1) as [s' c] eqn:Ea.
    pose proof (Hcfl (r_sol _ r) (r_time _ r) dt1 H1) as Hc. unfold cfl_of in Hc. rewrite Ea in Hc. cbn [snd] in Hc.
    set (c' := if reduce_cfl o then gmax c else c) in *. destruct Hc as (Hc1 & Hc2).
    assert (Hc0 : Qeq_bool c' 0 = false).
    { destruct (Qeq_bool c' 0) eqn:X; auto. apply Qeq_bool_iff in X. lra. }
    rewrite Hc0.
    assert (Hnew : (eff (r_dt _ r * desired_cfl o / c') == dt0 * desired_cfl o / c')%Q).
    { rewrite (eff_ext (r_dt _ r * desired_cfl o / c')%Q (r_dt _ r * (desired_cfl o / c'))%Q) by (field; lra).
      rewrite eff_mul. fold dt0. field; lra. }
    assert (Hcle : (c' <= (101 # 100) * Lam * dt0)%Q).
    { eapply Qle_trans; [exact Hc2|]. setoid_replace ((101 # 100) * Lam * dt0)%Q with (Lam * ((101 # 100) * dt0))%Q by ring.
      apply Qmult_le_l; auto. }
    assert (Hdn : (delta <= dt0 * desired_cfl o / c')%Q).
    { apply Qle_trans with (desired_cfl o / ((101 # 100) * Lam))%Q. apply Q.le_min_r.
      apply Qle_shift_div_r. lra.
      setoid_replace (dt0 * desired_cfl o / c' * ((101 # 100) * Lam))%Q with (desired_cfl o * (((101 # 100) * Lam * dt0) / c'))%Q
        by (field; lra).
      assert (1 <= (101 # 100) * Lam * dt0 / c')%Q by (apply Qle_shift_div_l; lra).
      setoid_replace (desired_cfl o) with (desired_cfl o * 1)%Q at 1 by ring. apply Qmult_le_l; [apply Hdes|auto]. }
    destruct (negb (Qle_bool c' (max_cfl o)) && reduce_cfl o && true) eqn:Er.
    - eexists. split; [reflexivity|]. cbn [r_time r_dt]. rewrite Hnew. split; auto. left.
      apply andb_true_iff in Er. destruct Er as (Er & _). apply andb_true_iff in Er. destruct Er as (Er & _).
      apply negb_true_iff in Er.
      assert (Hcm : (max_cfl o < c')%Q).
      { destruct (Qlt_le_dec (max_cfl o) c'); auto. apply Qle_bool_iff in q. congruence. }
      assert (Hb : (bnd < dt0)%Q).
      { unfold bnd. apply Qlt_shift_div_r; lra. }
      split; auto. split; [reflexivity|].
      assert (Hr : (dt0 * desired_cfl o / c' <= dt0 * (desired_cfl o / max_cfl o))%Q).
      { apply Qle_shift_div_r; auto.
        setoid_replace (dt0 * (desired_cfl o / max_cfl o) * c')%Q with (dt0 * desired_cfl o * (c' / max_cfl o))%Q by (field; lra).
        assert (1 <= c' / max_cfl o)%Q by (apply Qle_shift_div_l; lra).
        setoid_replace (dt0 * desired_cfl o)%Q with (dt0 * desired_cfl o * 1)%Q at 1 by ring.
        apply Qmult_le_l; auto. apply Qmult_lt_0_compat; lra. }
      pose proof rho_lt as Hrho. unfold dec.
      assert (((1 - desired_cfl o / max_cfl o) * bnd <= (1 - desired_cfl o / max_cfl o) * dt0)%Q) by (apply Qmult_le_l; lra).
      lra.
    - eexists. split; [reflexivity|].
      match goal with |- context [maybe_regrid _ _ _ ?x] => set (r2 := x) in * end.
      destruct (maybe_regrid_fields St regrid o r2) as (F1 & _ & _ & F4 & _). rewrite F1, F4.
      assert (Ht2 : r_time _ r2 = (r_time _ r + dt1)%Q) by (unfold r2; destruct (r_advance_one_step o); reflexivity).
      assert (Hd2 : (delta <= eff (r_dt _ r2))%Q).
      { assert (X : r_dt _ r2 = (r_dt _ r * desired_cfl o / c')%Q \/ r_dt _ r2 = r_dt _ r).
        { unfold r2. destruct (r_advance_one_step o); cbn [diagnostics emit r_dt]; destruct (negb (adj && _)); auto. }
        destruct X as [X|X]; rewrite X; auto. rewrite Hnew. auto. }
      split; auto. right. rewrite Ht2. destruct adj eqn:Ead.
      + left. rewrite H4; auto. lra.
      + right. rewrite H3; auto. lra.
  Qed.

  Lemma while1_mono : forall fuel fuel' tend r r', (fuel <= fuel')%nat ->
    while1 St advance regrid gmax o fuel tend r = Ok r' -> while1 St advance regrid gmax o fuel' tend r = Ok r'.
  Proof.
    clear. induction fuel; intros fuel' tend r r' Hle E; cbn [while1] in E.
    - destruct (Qle_bool tend (r_time _ r)) eqn:Eq; [|discriminate].
      destruct fuel'; cbn [while1]; rewrite Eq; auto.
    - destruct fuel' as [|fuel']; [lia|]. cbn [while1].
      destruct (Qle_bool tend (r_time _ r)) eqn:Eq; auto.
      destruct (pass1 St advance regrid gmax o tend r); auto; try discriminate. eapply IHfuel; eauto. lia.
  Qed.

  Lemma while1_ends : forall tend n r, (tend - r_time _ r <= inject_Z (Z.of_nat n) * delta)%Q ->
    (delta <= eff (r_dt _ r))%Q ->
    exists fuel r', while1 St advance regrid gmax o fuel tend r = Ok r' /\ (delta <= eff (r_dt _ r'))%Q.
  Proof.
    intros tend. pose proof delta_pos as Hdp. pose proof dec_pos as Hdc.
    assert (Hdone : forall r, (tend <= r_time _ r)%Q -> (delta <= eff (r_dt _ r))%Q ->
       exists fuel r', while1 St advance regrid gmax o fuel tend r = Ok r' /\ (delta <= eff (r_dt _ r'))%Q).
    { intros r H H0. exists 0%nat, r. cbn [while1]. apply Qle_bool_iff in H. rewrite H. auto. }
    induction n; intros r Ht Hd.
    - apply Hdone; auto. change (inject_Z (Z.of_nat 0)) with 0%Q in Ht. lra.
    - destruct (archimedes (eff (r_dt _ r)) dec Hdc) as (k & Hk).
      revert r Ht Hd Hk. induction k; intros r Ht Hd Hk.
      + change (inject_Z (Z.of_nat 0)) with 0%Q in Hk. lra.
      + destruct (Qlt_le_dec (r_time _ r) tend) as [Hlt|Hge]; [|apply Hdone; auto].
        destruct (pass1_progress tend r Hlt Hd) as (r1 & E & Hd1 & Hcase).
        assert (X : exists fuel r', while1 St advance regrid gmax o fuel tend r1 = Ok r' /\ (delta <= eff (r_dt _ r'))%Q).
        { destruct Hcase as [(A & B & C)|[A|A]].
          - apply IHk; auto. rewrite B; auto. rewrite Nat2Z.inj_succ in Hk. unfold Z.succ in Hk. rewrite inject_Z_plus in Hk.
            change (inject_Z 1) with 1%Q in Hk. lra.
          - apply Hdone; auto.
          - apply IHn; auto. rewrite Nat2Z.inj_succ in Ht. unfold Z.succ in Ht. rewrite inject_Z_plus in Ht.
            change (inject_Z 1) with 1%Q in Ht. lra. }
        destruct X as (fuel & r' & E' & Hd'). exists (S fuel), r'. cbn [while1].
        destruct (Qle_bool tend (r_time _ r)) eqn:Eq. apply Qle_bool_iff in Eq. lra.
        rewrite E. auto.
  Qed.

  Lemma for1_mono : forall n fuel fuel' d r r', (fuel <= fuel')%nat ->
    for1 St advance regrid gmax o fuel n d r = Ok r' -> for1 St advance regrid gmax o fuel' n d r = Ok r'.
  Proof.
    clear. induction n; intros fuel fuel' d r r' Hle E; cbn [for1] in *; auto.
    destruct (while1 St advance regrid gmax o fuel _ _) as [r1| |] eqn:Ew; try discriminate.
    erewrite while1_mono; eauto.
  Qed.

  Lemma for1_ends : forall n d r, (delta <= eff (r_dt _ r))%Q ->
    exists fuel r', for1 St advance regrid gmax o fuel n d r = Ok r'.
  Proof.
    induction n; intros d r Hd; cbn [for1].
    - exists 0%nat, r. reflexivity.
    - set (r0 := mkRst St (r_sol _ r) (r_time _ r) (r_time _ r) (r_dt _ r) (r_n _ r) (r_frame _ r) (r_log _ r)).
      destruct (archimedes (r_time _ r0 + d - r_time _ r0) delta delta_pos) as (k & Hk).
      destruct (while1_ends (r_time _ r0 + d) k r0 Hk Hd) as (f1 & r1 & E1 & Hd1).
      set (r2 := output_frame St (next_frame St
            (mkRst St (r_sol _ (diagnostics St false r1)) (r_time _ (diagnostics St false r1)) (r_time _ (diagnostics St false r1))
              (r_dt _ (diagnostics St false r1)) (r_n _ (diagnostics St false r1)) (r_frame _ (diagnostics St false r1)) (r_log _ (diagnostics St false r1))))).
      destruct (IHn d r2) as (f2 & r' & E2). exact Hd1.
      exists (Nat.max f1 f2), r'. rewrite (while1_mono f1 (Nat.max f1 f2) _ _ r1); auto; [|lia].
      apply for1_mono with (fuel := f2); auto. lia.
  Qed.

  Theorem outstyle_1_ends : forall s, exists fuel0 r, forall fuel, (fuel0 <= fuel)%nat ->
    outstyle_1 St advance regrid gmax o fuel s = Ok r.
  Proof.
    intro s. unfold outstyle_1.
    destruct (for1_ends (Z.to_nat (nout o)) ((tfinal o - 0) / inject_Z (nout o)) (output_frame St (diagnostics St true (start St o s))))
      as (f & r & E).
    { cbn [output_frame diagnostics emit start r_dt]. apply Q.le_min_l. }
    exists f, r. intros. eapply for1_mono; eauto.
  Qed.
End T.
