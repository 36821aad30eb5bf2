(** C82: one step of GeoClaw's solver on a patch. *)
From Coq Require Import ZArith QArith Qminmax Qabs List Bool Lia Lqa.
From Verif Require Import Model_GeoLimiter Model_GeoStep Spec_GeoLimiter Spec_GeoStep Proof_GeoLimiter Proof_GeoStep.
Import ListNotations.
Open Scope Q_scope.

Lemma total_telescope k a b c : (forall i, (1 <= i <= Z.of_nat (S k) + 1)%Z -> a i - b i == c i) ->
  total (S k) (fun i => a (i + 1)%Z - b i) == a (Z.of_nat (S k) + 1)%Z - b 1%Z + total k (fun i => c (i + 1)%Z).
Proof.
  induction k as [|k IH]; intros H.
  - cbn [total]. change (Z.of_nat 1) with 1%Z. ring.
  - change (total (S (S k)) (fun i => a (i + 1)%Z - b i)) with
      (total (S k) (fun i => a (i + 1)%Z - b i) + (a (Z.of_nat (S (S k)) + 1)%Z - b (Z.of_nat (S (S k))))).
    rewrite IH by (intros; apply H; lia).
    change (total (S k) (fun i => c (i + 1)%Z)) with (total k (fun i => c (i + 1)%Z) + c (Z.of_nat (S k) + 1)%Z).
    pose proof (H (Z.of_nat (S k) + 1)%Z ltac:(lia)) as X.
    replace (Z.of_nat (S (S k))) with (Z.of_nat (S k) + 1)%Z by lia. lra.
Qed.
Lemma sum_telescope n a b c : (1 <= n)%Z -> (forall i, (1 <= i <= n + 1)%Z -> a i - b i == c i) ->
  sum_to n (fun i => a (i + 1)%Z - b i) == a (n + 1)%Z - b 1%Z + sum_to (n - 1) (fun i => c (i + 1)%Z).
Proof.
  intros Hn H. unfold sum_to. pose proof (total_telescope (Z.to_nat (n - 1)) a b c) as T.
  replace (Z.of_nat (S (Z.to_nat (n - 1)))) with n in T by lia. replace (S (Z.to_nat (n - 1))) with (Z.to_nat n) in T by lia. now apply T.
Qed.

(** The fluxes on the two sides of an interface differ by exactly the fluctuations the Riemann solver found there:
    corrections of second order, limiters and transverse propagation cancel. *)
Theorem C82_interface : forall S bcc q aux capa dtdx dtdy m i j, (2 <= g_mbc S)%Z ->
  let F := step2 S bcc q aux capa dtdx dtdy in
  ((1 <= i <= g_mx S + 1)%Z -> (0 <= j <= g_my S + 1)%Z -> Fm F m i j - Fp F m i j == jump (in_row S bcc q aux j) m i) /\
  ((0 <= i <= g_mx S + 1)%Z -> (1 <= j <= g_my S + 1)%Z -> Gm F m i j - Gp F m i j == jump (in_column S bcc q aux i) m j).
Proof. intros S bcc q aux capa dtdx dtdy m i j Hb. cbv zeta. split; intros; [now apply step2_F|now apply step2_G]. Qed.
Print Assumptions C82_interface.

Lemma sum_ext n f g : (forall i, (1 <= i <= n)%Z -> f i == g i) -> sum_to n f == sum_to n g.
Proof.
  intros H. unfold sum_to. destruct (Z.leb_spec n 0); [replace (Z.to_nat n) with O by lia; reflexivity|].
  assert (X : forall k, (k <= Z.to_nat n)%nat -> total k f == total k g).
  { induction k as [|k IH]; intros Hk; [reflexivity|]. cbn [total]. rewrite IH, H by lia. reflexivity. }
  now apply X.
Qed.
Lemma sum_lin n a b f g h : (forall i, h i == a * f i + b * g i) -> sum_to n h == a * sum_to n f + b * sum_to n g.
Proof.
  intros H. unfold sum_to. induction (Z.to_nat n) as [|k IH]; [cbn [total]; ring|]. cbn [total]. rewrite IH, H. ring.
Qed.
Lemma sum_swap n k (f : Z -> Z -> Q) : sum_to n (fun i => sum_to k (fun j => f i j)) == sum_to k (fun j => sum_to n (fun i => f i j)).
Proof.
  unfold sum_to. induction (Z.to_nat n) as [|a IH].
  - cbn [total]. induction (Z.to_nat k) as [|b IHb]; [reflexivity|]. cbn [total]. rewrite <- IHb. ring.
  - cbn [total]. rewrite IH. clear IH. induction (Z.to_nat k) as [|b IHb]; [cbn [total]; ring|]. cbn [total]. rewrite <- IHb. ring.
Qed.

(** Hence the total of a component over the patch changes by the fluxes through its boundary and by the Riemann solver's
    fluctuations at the interfaces between its cells, and by nothing else. *)
Theorem C82_total : forall S bcc q aux dx dy dt m, (2 <= g_mbc S)%Z -> (1 <= g_mx S)%Z -> (1 <= g_my S)%Z -> (1 <= m <= g_meqn S)%Z ->
  let F := step2 S bcc q aux None (dt / dx) (dt / dy) in
  sum_to (g_mx S) (fun i => sum_to (g_my S) (fun j => fst (geo_step S bcc q aux None dx dy dt) m i j - q m i j)) ==
  - (dt / dx) * sum_to (g_my S) (fun j => Fm F m (g_mx S + 1)%Z j - Fp F m 1%Z j +
       sum_to (g_mx S - 1) (fun i => jump (in_row S bcc q aux j) m (i + 1)%Z)) +
  - (dt / dy) * sum_to (g_mx S) (fun i => Gm F m i (g_my S + 1)%Z - Gp F m i 1%Z +
       sum_to (g_my S - 1) (fun j => jump (in_column S bcc q aux i) m (j + 1)%Z)).
Proof.
  intros S bcc q aux dx dy dt m Hb Hx Hy Hm. cbv zeta. set (F := step2 S bcc q aux None (dt / dx) (dt / dy)).
  rewrite (sum_ext (g_mx S) _ (fun i => - (dt / dx) * sum_to (g_my S) (fun j => Fm F m (i + 1)%Z j - Fp F m i j) +
     - (dt / dy) * sum_to (g_my S) (fun j => Gm F m i (j + 1)%Z - Gp F m i j))).
  2:{ intros i Hi. rewrite (sum_ext (g_my S) _ (fun j => - (dt / dx) * (Fm F m (i + 1)%Z j - Fp F m i j) + - (dt / dy) * (Gm F m i (j + 1)%Z - Gp F m i j))).
      - now apply sum_lin.
      - intros j Hj. unfold geo_step. cbn [fst]. fold F.
        rewrite (proj2 (inr_iff 1 (g_meqn S) m)), (proj2 (inr_iff 1 (g_mx S) i)), (proj2 (inr_iff 1 (g_my S) j)) by lia. cbn [andb]. ring. }
  rewrite (sum_lin (g_mx S) (- (dt / dx)) (- (dt / dy)) (fun i => sum_to (g_my S) (fun j => Fm F m (i + 1)%Z j - Fp F m i j))
    (fun i => sum_to (g_my S) (fun j => Gm F m i (j + 1)%Z - Gp F m i j))) by reflexivity.
  rewrite (sum_swap (g_mx S) (g_my S) (fun i j => Fm F m (i + 1)%Z j - Fp F m i j)).
  apply Qplus_comp; apply Qmult_comp; try reflexivity; apply sum_ext.
  - intros j Hj. apply (sum_telescope (g_mx S) (fun i => Fm F m i j) (fun i => Fp F m i j)); [exact Hx|].
    intros i Hi. apply step2_F; lia.
  - intros i Hi. apply (sum_telescope (g_my S) (fun j => Gm F m i j) (fun j => Gp F m i j)); [exact Hy|].
    intros j Hj. apply step2_G; lia.
Qed.
Print Assumptions C82_total.

(** With a capacity function the same holds for the total of capacity times component. *)
Theorem C82_capacity : forall S bcc q aux k dx dy dt m, (forall i j, (1 <= i <= g_mx S)%Z -> (1 <= j <= g_my S)%Z -> ~ k i j == 0) -> (2 <= g_mbc S)%Z -> (1 <= g_mx S)%Z -> (1 <= g_my S)%Z -> (1 <= m <= g_meqn S)%Z ->
  let F := step2 S bcc q aux (Some k) (dt / dx) (dt / dy) in
  sum_to (g_mx S) (fun i => sum_to (g_my S) (fun j => k i j * (fst (geo_step S bcc q aux (Some k) dx dy dt) m i j - q m i j))) ==
  - (dt / dx) * sum_to (g_my S) (fun j => Fm F m (g_mx S + 1)%Z j - Fp F m 1%Z j +
       sum_to (g_mx S - 1) (fun i => jump (in_row S bcc q aux j) m (i + 1)%Z)) +
  - (dt / dy) * sum_to (g_mx S) (fun i => Gm F m i (g_my S + 1)%Z - Gp F m i 1%Z +
       sum_to (g_my S - 1) (fun j => jump (in_column S bcc q aux i) m (j + 1)%Z)).
Proof.
  intros S bcc q aux k dx dy dt m Hk Hb Hx Hy Hm. cbv zeta. set (F := step2 S bcc q aux (Some k) (dt / dx) (dt / dy)).
  rewrite (sum_ext (g_mx S) _ (fun i => - (dt / dx) * sum_to (g_my S) (fun j => Fm F m (i + 1)%Z j - Fp F m i j) +
     - (dt / dy) * sum_to (g_my S) (fun j => Gm F m i (j + 1)%Z - Gp F m i j))).
  2:{ intros i Hi. rewrite (sum_ext (g_my S) _ (fun j => - (dt / dx) * (Fm F m (i + 1)%Z j - Fp F m i j) + - (dt / dy) * (Gm F m i (j + 1)%Z - Gp F m i j))).
      - now apply sum_lin.
      - intros j Hj. unfold geo_step. cbn [fst]. fold F.
        rewrite (proj2 (inr_iff 1 (g_meqn S) m)), (proj2 (inr_iff 1 (g_mx S) i)), (proj2 (inr_iff 1 (g_my S) j)) by lia. cbn [andb]. set (rx := dt / dx). set (ry := dt / dy). clearbody rx ry. field. now apply Hk. }
  rewrite (sum_lin (g_mx S) (- (dt / dx)) (- (dt / dy)) (fun i => sum_to (g_my S) (fun j => Fm F m (i + 1)%Z j - Fp F m i j))
    (fun i => sum_to (g_my S) (fun j => Gm F m i (j + 1)%Z - Gp F m i j))) by reflexivity.
  rewrite (sum_swap (g_mx S) (g_my S) (fun i j => Fm F m (i + 1)%Z j - Fp F m i j)).
  apply Qplus_comp; apply Qmult_comp; try reflexivity; apply sum_ext.
  - intros j Hj. apply (sum_telescope (g_mx S) (fun i => Fm F m i j) (fun i => Fp F m i j)); [exact Hx|].
    intros i Hi. apply step2_F; lia.
  - intros i Hi. apply (sum_telescope (g_my S) (fun j => Gm F m i j) (fun j => Gp F m i j)); [exact Hy|].
    intros j Hj. apply step2_G; lia.
Qed.
Print Assumptions C82_capacity.

(** If the fluctuations of a component are differences of a flux in the cells (for the depth of water: the momentum), its total
    over the patch changes by what flows through the boundary of the patch, and by nothing else. *)
Theorem C82_conservative : forall S bcc q aux dx dy dt m fx fy, (2 <= g_mbc S)%Z -> (1 <= g_mx S)%Z -> (1 <= g_my S)%Z -> (1 <= m <= g_meqn S)%Z ->
  (forall i j, (2 <= i <= g_mx S)%Z -> (1 <= j <= g_my S)%Z -> jump (in_row S bcc q aux j) m i == fx i j - fx (i - 1)%Z j) ->
  (forall i j, (1 <= i <= g_mx S)%Z -> (2 <= j <= g_my S)%Z -> jump (in_column S bcc q aux i) m j == fy i j - fy i (j - 1)%Z) ->
  let F := step2 S bcc q aux None (dt / dx) (dt / dy) in
  sum_to (g_mx S) (fun i => sum_to (g_my S) (fun j => fst (geo_step S bcc q aux None dx dy dt) m i j - q m i j)) ==
  - (dt / dx) * sum_to (g_my S) (fun j => (fx (g_mx S) j + Fm F m (g_mx S + 1)%Z j) - (fx 1%Z j + Fp F m 1%Z j)) +
  - (dt / dy) * sum_to (g_mx S) (fun i => (fy i (g_my S) + Gm F m i (g_my S + 1)%Z) - (fy i 1%Z + Gp F m i 1%Z)).
Proof.
  intros S bcc q aux dx dy dt m fx fy Hb Hx Hy Hm HX HY. cbv zeta. rewrite C82_total by assumption.
  assert (T : forall n (J : Z -> Q) (f : Z -> Q), (1 <= n)%Z -> (forall i, (2 <= i <= n)%Z -> J i == f i - f (i - 1)%Z) ->
     sum_to (n - 1) (fun i => J (i + 1)%Z) == f n - f 1%Z).
  { intros n J f Hn H. unfold sum_to.
    assert (X : forall k, (Z.of_nat k <= n - 1)%Z -> total k (fun i => J (i + 1)%Z) == f (Z.of_nat k + 1)%Z - f 1%Z).
    { induction k as [|k IH]; intros Hk; [change (Z.of_nat 0 + 1)%Z with 1%Z; cbn [total]; ring|].
      change (total (Datatypes.S k) (fun i => J (i + 1)%Z)) with (total k (fun i => J (i + 1)%Z) + J (Z.of_nat (Datatypes.S k) + 1)%Z).
      rewrite IH, H by lia. replace (Z.of_nat (Datatypes.S k) + 1 - 1)%Z with (Z.of_nat k + 1)%Z by lia. ring. }
    rewrite X by lia. replace (Z.of_nat (Z.to_nat (n - 1)) + 1)%Z with n by lia. reflexivity. }
  apply Qplus_comp; apply Qmult_comp; try reflexivity; apply sum_ext.
  - intros j Hj. rewrite (T (g_mx S) (jump (in_row S bcc q aux j) m) (fun i => fx i j)) by (try assumption; intros; now apply HX). ring.
  - intros i Hi. rewrite (T (g_my S) (jump (in_column S bcc q aux i) m) (fun j => fy i j)) by (try assumption; intros; now apply HY). ring.
Qed.
Print Assumptions C82_conservative.

(** If the Riemann solver finds no waves in the patch and its ghost cells, then nothing changes: a solver that keeps
    water at rest makes a method that does. *)
Theorem C82_rest : forall S bcc q aux capa dx dy dt, (0 <= g_mx S)%Z -> (0 <= g_my S)%Z -> linear_at_zero S ->
  (forall j, (0 <= j <= g_my S + 1)%Z -> quiet (in_row S bcc q aux j)) ->
  (forall i, (0 <= i <= g_mx S + 1)%Z -> quiet (in_column S bcc q aux i)) ->
  forall m i j, fst (geo_step S bcc q aux capa dx dy dt) m i j == q m i j.
Proof.
  intros S bcc q aux capa dx dy dt Hx Hy L QR QC m i j.
  pose proof (step2_rest S bcc q aux capa (dt / dx) (dt / dy) Hx Hy L QR QC) as Z0.
  unfold geo_step. cbn [fst]. set (F := step2 S bcc q aux capa (dt / dx) (dt / dy)) in *.
  destruct (_ && _); [|reflexivity].
  destruct (Z0 m (i + 1)%Z j) as (A & _). destruct (Z0 m i j) as (_ & B & _ & C). destruct (Z0 m i (j + 1)%Z) as (_ & _ & D & _).
  destruct capa; rewrite A, B, C, D; unfold Qdiv; ring.
Qed.
Print Assumptions C82_rest.

(** Ghost cells and components beyond the last keep their values. *)
Theorem C82_untouched : forall S bcc q aux capa dx dy dt m i j,
  ~ ((1 <= m <= g_meqn S)%Z /\ (1 <= i <= g_mx S)%Z /\ (1 <= j <= g_my S)%Z) ->
  fst (geo_step S bcc q aux capa dx dy dt) m i j = q m i j.
Proof.
  intros S bcc q aux capa dx dy dt m i j N. unfold geo_step. cbn [fst]. destruct (_ && _) eqn:G; [|reflexivity].
  exfalso. apply N. rewrite !andb_true_iff, !inr_iff in G. tauto.
Qed.
Print Assumptions C82_untouched.

(** The Courant number that is reported bounds that of every wave, in the rows and columns next to the patch too. *)
Theorem C82_courant : forall S bcc q aux dx dy dt mw i j, (1 <= mw <= g_mwaves S)%Z ->
  let c := snd (geo_step S bcc q aux None dx dy dt) in
  ((1 <= i <= g_mx S + 1)%Z -> (0 <= j <= g_my S + 1)%Z -> Qabs (dt / dx * r_s (in_row S bcc q aux j) mw i) <= c) /\
  ((0 <= i <= g_mx S + 1)%Z -> (1 <= j <= g_my S + 1)%Z -> Qabs (dt / dy * r_s (in_column S bcc q aux i) mw j) <= c).
Proof.
  intros S bcc q aux dx dy dt mw i j Hw. cbv zeta. unfold geo_step. cbn [snd]. unfold step2.
  assert (CM : forall v (st : fluxes) l (step : fluxes -> Z -> fluxes), (forall st k, Cfl st <= Cfl (step st k)) -> v <= Cfl st -> v <= Cfl (fold_left step l st)).
  { intros v st l step H Hv. apply (fold_inv step (fun s => v <= Cfl s)); [|exact Hv]. intros s k Hs. eapply Qle_trans; [exact Hs|apply H]. }
  assert (CI : forall v k l (step : fluxes -> Z -> fluxes), (forall st k, Cfl st <= Cfl (step st k)) -> (forall st, v <= Cfl (step st k)) -> In k l -> forall st, v <= Cfl (fold_left step l st)).
  { intros v k l step H V. induction l as [|y l IH]; intros I st; cbn [fold_left]; [destruct I|]. destruct I as [->|I]; [|now apply IH]. apply CM; [exact H|apply V]. }
  assert (MX : forall st k, Cfl st <= Cfl (xsweep S bcc q aux None (dt / dx) st k)) by (intros; apply Q.le_max_l).
  assert (MY : forall st k, Cfl st <= Cfl (ysweep S bcc q aux None (dt / dy) st k)) by (intros; apply Q.le_max_l).
  assert (AB : forall x c, x <= c -> - x <= c -> Qabs x <= c) by (intros x c H1 H2; apply Qabs_Qle_condition; lra).
  split; intros Hi Hj.
  - apply CM; [exact MY|]. apply (CI _ j); [exact MX| |apply in_zlist; lia].
    intros st. unfold xsweep. cbn [Cfl]. eapply Qle_trans; [|apply Q.le_max_r]. unfold xflux, flux2. cbn [cfl1d].
    destruct (courant_ge S (g_mx S) (r_s (in_row S bcc q aux j)) (fun _ => dt / dx) mw i Hw Hi) as [C1 C2].
    apply AB; [exact C1|]. setoid_replace (- (dt / dx * r_s (in_row S bcc q aux j) mw i)) with (- (dt / dx) * r_s (in_row S bcc q aux j) mw i) by ring. exact C2.
  - apply (CI _ i); [exact MY| |apply in_zlist; lia].
    intros st. unfold ysweep. cbn [Cfl]. eapply Qle_trans; [|apply Q.le_max_r]. unfold yflux, flux2. cbn [cfl1d].
    destruct (courant_ge S (g_my S) (r_s (in_column S bcc q aux i)) (fun _ => dt / dy) mw j Hw Hj) as [C1 C2].
    apply AB; [exact C1|]. setoid_replace (- (dt / dy * r_s (in_column S bcc q aux i) mw j)) with (- (dt / dy) * r_s (in_column S bcc q aux i) mw j) by ring. exact C2.
Qed.
Print Assumptions C82_courant.

(** With a capacity function: a wave to the right is measured in the cell it enters, a wave to the left likewise. *)
Theorem C82_courant_capacity : forall S bcc q aux k dx dy dt mw i j, (1 <= mw <= g_mwaves S)%Z ->
  let c := snd (geo_step S bcc q aux (Some k) dx dy dt) in
  ((1 <= i <= g_mx S + 1)%Z -> (0 <= j <= g_my S + 1)%Z ->
     let s := r_s (in_row S bcc q aux j) mw i in dt / dx / k i j * s <= c /\ - (dt / dx / k (i - 1)%Z j) * s <= c) /\
  ((0 <= i <= g_mx S + 1)%Z -> (1 <= j <= g_my S + 1)%Z ->
     let s := r_s (in_column S bcc q aux i) mw j in dt / dy / k i j * s <= c /\ - (dt / dy / k i (j - 1)%Z) * s <= c).
Proof.
  intros S bcc q aux k dx dy dt mw i j Hw. cbv zeta. unfold geo_step. cbn [snd]. unfold step2.
  assert (CM : forall v (st : fluxes) l (step : fluxes -> Z -> fluxes), (forall st k, Cfl st <= Cfl (step st k)) -> v <= Cfl st -> v <= Cfl (fold_left step l st)).
  { intros v st l step H Hv. apply (fold_inv step (fun s => v <= Cfl s)); [|exact Hv]. intros s k' Hs. eapply Qle_trans; [exact Hs|apply H]. }
  assert (CI : forall v k l (step : fluxes -> Z -> fluxes), (forall st k, Cfl st <= Cfl (step st k)) -> (forall st, v <= Cfl (step st k)) -> In k l -> forall st, v <= Cfl (fold_left step l st)).
  { intros v k' l step H V. induction l as [|y l IH]; intros I st; cbn [fold_left]; [destruct I|]. destruct I as [->|I]; [|now apply IH]. apply CM; [exact H|apply V]. }
  assert (MX : forall st k', Cfl st <= Cfl (xsweep S bcc q aux (Some k) (dt / dx) st k')) by (intros; apply Q.le_max_l).
  assert (MY : forall st k', Cfl st <= Cfl (ysweep S bcc q aux (Some k) (dt / dy) st k')) by (intros; apply Q.le_max_l).
  split; intros Hi Hj.
  - destruct (courant_ge S (g_mx S) (r_s (in_row S bcc q aux j)) (fun i => dt / dx / k i j) mw i Hw Hi) as [C1 C2].
    split; (apply CM; [exact MY|]); (apply (CI _ j); [exact MX| |apply in_zlist; lia]);
    intros st; unfold xsweep; cbn [Cfl]; (eapply Qle_trans; [|apply Q.le_max_r]); unfold xflux, flux2; cbn [cfl1d]; assumption.
  - destruct (courant_ge S (g_my S) (r_s (in_column S bcc q aux i)) (fun j => dt / dy / k i j) mw j Hw Hj) as [C1 C2].
    split; (apply (CI _ i); [exact MY| |apply in_zlist; lia]);
    intros st; unfold ysweep; cbn [Cfl]; (eapply Qle_trans; [|apply Q.le_max_r]); unfold yflux, flux2; cbn [cfl1d]; assumption.
Qed.
Print Assumptions C82_courant_capacity.

(** The Courant number is not larger than needed: it is 0 or that of a wave. *)
Theorem C82_courant_attained : forall S bcc q aux dx dy dt,
  let c := snd (geo_step S bcc q aux None dx dy dt) in
  c == 0 \/ exists mw i j, (1 <= mw <= g_mwaves S)%Z /\
   (((1 <= i <= g_mx S + 1)%Z /\ (0 <= j <= g_my S + 1)%Z /\ c == Qabs (dt / dx * r_s (in_row S bcc q aux j) mw i)) \/
    ((0 <= i <= g_mx S + 1)%Z /\ (1 <= j <= g_my S + 1)%Z /\ c == Qabs (dt / dy * r_s (in_column S bcc q aux i) mw j))).
Proof.
  intros S bcc q aux dx dy dt. cbv zeta. unfold geo_step. cbn [snd]. unfold step2.
  set (P := fun c : Q => 0 <= c /\ (c == 0 \/ exists mw i j, (1 <= mw <= g_mwaves S)%Z /\
   (((1 <= i <= g_mx S + 1)%Z /\ (0 <= j <= g_my S + 1)%Z /\ c == Qabs (dt / dx * r_s (in_row S bcc q aux j) mw i)) \/
    ((0 <= i <= g_mx S + 1)%Z /\ (1 <= j <= g_my S + 1)%Z /\ c == Qabs (dt / dy * r_s (in_column S bcc q aux i) mw j))))).
  assert (PM : forall x y, P x -> P y -> P (Qmax x y)).
  { intros x y Px Py. destruct (Q.max_spec x y) as [[_ E]|[_ E]]; [destruct Py as [P0 Py]|destruct Px as [P0 Px]];
      (split; [rewrite E; exact P0|]).
    - destruct Py as [Py|(mw & i & j & Hw & Py)]; [left; now rewrite E|right; exists mw, i, j; split; [exact Hw|]; now rewrite E].
    - destruct Px as [Px|(mw & i & j & Hw & Px)]; [left; now rewrite E|right; exists mw, i, j; split; [exact Hw|]; now rewrite E]. }
  assert (P3 : forall c d s, P c -> (0 <= c -> P (Qabs (d * s))) -> P (Qmax (Qmax c (d * s)) (- d * s))).
  { intros c d s Pc Pd. assert (C0 : 0 <= c) by apply Pc. specialize (Pd C0).
    assert (E : Qmax (Qmax c (d * s)) (- d * s) == Qmax c (Qabs (d * s))).
    { rewrite <- Q.max_assoc. apply Q.max_compat; [reflexivity|]. destruct (Qlt_le_dec (d * s) 0) as [L|L].
      - rewrite Qabs_neg by lra. rewrite Q.max_r by lra. ring.
      - rewrite Qabs_pos by lra. rewrite Q.max_l by lra. reflexivity. }
    specialize (PM c (Qabs (d * s)) Pc Pd). destruct PM as [A B]. split; [rewrite E; exact A|].
    destruct B as [B|(mw & i & j & Hw & B)]; [left; now rewrite E|right; exists mw, i, j; split; [exact Hw|]; now rewrite E]. }
  assert (P0 : P 0) by (split; [apply Qle_refl|left; reflexivity]).
  match goal with |- ?c == 0 \/ _ => assert (G : P c) end; [|apply G].
  apply (fold_inv_in (ysweep S bcc q aux None (dt / dy)) (fun s => P (Cfl s))).
  - intros st i I Hs. apply in_zlist in I. unfold ysweep. cbn [Cfl]. apply PM; [exact Hs|]. unfold yflux, flux2. cbn [cfl1d]. unfold courant.
    apply fold_inv_in; [|exact P0]. intros c mw Iw Pc. apply in_zlist in Iw. apply fold_inv_in; [|exact Pc]. intros c' j J Pc'. apply in_zlist in J.
    apply P3; [exact Pc'|]. intros _. split; [apply Qabs_nonneg|]. right. exists mw, i, j. split; [lia|]. right. split; [lia|]. split; [lia|]. reflexivity.
  - apply (fold_inv_in (xsweep S bcc q aux None (dt / dx)) (fun s => P (Cfl s))); [|exact P0].
    intros st j J Hs. apply in_zlist in J. unfold xsweep. cbn [Cfl]. apply PM; [exact Hs|]. unfold xflux, flux2. cbn [cfl1d]. unfold courant.
    apply fold_inv_in; [|exact P0]. intros c mw Iw Pc. apply in_zlist in Iw. apply fold_inv_in; [|exact Pc]. intros c' i I Pc'. apply in_zlist in I.
    apply P3; [exact Pc'|]. intros _. split; [apply Qabs_nonneg|]. right. exists mw, i, j. split; [lia|]. left. split; [lia|]. split; [lia|]. reflexivity.
Qed.
Print Assumptions C82_courant_attained.

(** The values: without capacity function a step is the wave-propagation update, with limited corrections of second order and
    transverse propagation in both directions. *)
Theorem C82_values : forall S bcc q aux dx dy dt m i j, (2 <= g_mbc S)%Z -> (1 <= g_method2 S)%Z -> (forall mw, (0 <= g_mthlim S mw)%Z) -> respects S ->
  (1 <= m <= g_meqn S)%Z -> (1 <= i <= g_mx S)%Z -> (1 <= j <= g_my S)%Z ->
  let rx := dt / dx in let ry := dt / dy in
  fst (geo_step S bcc q aux None dx dy dt) m i j ==
  q m i j - rx * (flux_x S bcc q aux rx ry m (i + 1)%Z j - (flux_x S bcc q aux rx ry m i j - jump (in_row S bcc q aux j) m i))
          - ry * (flux_y S bcc q aux rx ry m i (j + 1)%Z - (flux_y S bcc q aux rx ry m i j - jump (in_column S bcc q aux i) m j)).
Proof.
  intros S bcc q aux dx dy dt m i j Hb Ho Hl Hr Hm Hi Hj. cbv zeta. set (rx := dt / dx). set (ry := dt / dy).
  assert (X : forall i' j', (1 <= i' <= g_mx S + 1)%Z -> (1 <= j' <= g_my S)%Z -> Fm (step2 S bcc q aux None rx ry) m i' j' == flux_x S bcc q aux rx ry m i' j').
  { intros i' j' Hi' Hj'. rewrite step2_Fm by lia. unfold xflux, yflux, flux_x, split_column.
    rewrite (proj1 (flux2_values S Hl Hr Ho Hb 1 (g_mx S) (row S bcc q j') rx (fun _ => rx) (fun m i => aux m i (j' - 1)%Z) (fun m i => aux m i j') (fun m i => aux m i (j' + 1)%Z) ltac:(lia) (fun _ => Qeq_refl _)) m i') by lia.
    rewrite (proj2 (flux2_values S Hl Hr Ho Hb 2 (g_my S) (column S bcc q i') ry (fun _ => ry) (fun m j => aux m (i' - 1)%Z j) (fun m j => aux m i' j) (fun m j => aux m (i' + 1)%Z j) ltac:(lia) (fun _ => Qeq_refl _)) 1%Z m j') by lia.
    rewrite (proj2 (flux2_values S Hl Hr Ho Hb 2 (g_my S) (column S bcc q (i' - 1)) ry (fun _ => ry) (fun m j => aux m (i' - 1 - 1)%Z j) (fun m j => aux m (i' - 1)%Z j) (fun m j => aux m (i' - 1 + 1)%Z j) ltac:(lia) (fun _ => Qeq_refl _)) 2%Z m j') by lia.
    cbn [Z.eqb Pos.eqb]. unfold in_row, in_column. destruct (g_method3 S =? 0)%Z; ring. }
  assert (Y : forall i' j', (1 <= i' <= g_mx S)%Z -> (1 <= j' <= g_my S + 1)%Z -> Gm (step2 S bcc q aux None rx ry) m i' j' == flux_y S bcc q aux rx ry m i' j').
  { intros i' j' Hi' Hj'. rewrite step2_Gm by lia. unfold xflux, yflux, flux_y, split_row.
    rewrite (proj1 (flux2_values S Hl Hr Ho Hb 2 (g_my S) (column S bcc q i') ry (fun _ => ry) (fun m j => aux m (i' - 1)%Z j) (fun m j => aux m i' j) (fun m j => aux m (i' + 1)%Z j) ltac:(lia) (fun _ => Qeq_refl _)) m j') by lia.
    rewrite (proj2 (flux2_values S Hl Hr Ho Hb 1 (g_mx S) (row S bcc q j') rx (fun _ => rx) (fun m i => aux m i (j' - 1)%Z) (fun m i => aux m i j') (fun m i => aux m i (j' + 1)%Z) ltac:(lia) (fun _ => Qeq_refl _)) 1%Z m i') by lia.
    rewrite (proj2 (flux2_values S Hl Hr Ho Hb 1 (g_mx S) (row S bcc q (j' - 1)) rx (fun _ => rx) (fun m i => aux m i (j' - 1 - 1)%Z) (fun m i => aux m i (j' - 1)%Z) (fun m i => aux m i (j' - 1 + 1)%Z) ltac:(lia) (fun _ => Qeq_refl _)) 2%Z m i') by lia.
    cbn [Z.eqb Pos.eqb]. unfold in_row, in_column. destruct (g_method3 S =? 0)%Z; ring. }
  pose proof (step2_F S bcc q aux None rx ry m i j ltac:(lia) ltac:(lia) Hb) as JF. pose proof (step2_G S bcc q aux None rx ry m i j ltac:(lia) ltac:(lia) Hb) as JG.
  cbv zeta in JF, JG. unfold geo_step. cbn [fst]. fold rx ry.
  rewrite (proj2 (inr_iff 1 (g_meqn S) m)), (proj2 (inr_iff 1 (g_mx S) i)), (proj2 (inr_iff 1 (g_my S) j)) by lia. cbn [andb].
  rewrite <- (X (i + 1)%Z j), <- (X i j), <- (Y i (j + 1)%Z), <- (Y i j), <- JF, <- JG by lia. ring.
Qed.
Print Assumptions C82_values.

(** The rows and columns are those of the patch, except beyond a corner (numbered 0 to 3, x first) where three blocks meet:
    there the row or column next to the patch is mirrored at the corner, in both directions. *)
Theorem C82_corners : forall S bcc q m i j, (1 <= g_mx S)%Z -> (1 <= g_my S)%Z ->
  ((1 <= j <= g_my S)%Z \/ (1 <= i <= g_mx S)%Z \/ (forall c, (0 <= c <= 3)%Z -> bcc c <> 3%Z) -> row S bcc q j m i = q m i j /\ column S bcc q i m j = q m i j) /\
  (bcc 0%Z = 3%Z -> (1 - g_mbc S <= i <= 0)%Z -> row S bcc q 0 m i = q m (1 - i)%Z 0%Z) /\
  (bcc 1%Z = 3%Z -> (1 <= i <= g_mbc S)%Z -> row S bcc q 0 m (g_mx S + i)%Z = q m (g_mx S + 1 - i)%Z 0%Z) /\
  (bcc 2%Z = 3%Z -> (1 - g_mbc S <= i <= 0)%Z -> row S bcc q (g_my S + 1) m i = q m (1 - i)%Z (g_my S + 1)%Z) /\
  (bcc 3%Z = 3%Z -> (1 <= i <= g_mbc S)%Z -> row S bcc q (g_my S + 1) m (g_mx S + i)%Z = q m (g_mx S + 1 - i)%Z (g_my S + 1)%Z) /\
  (bcc 0%Z = 3%Z -> (1 - g_mbc S <= j <= 0)%Z -> column S bcc q 0 m j = q m 0%Z (1 - j)%Z) /\
  (bcc 1%Z = 3%Z -> (1 - g_mbc S <= j <= 0)%Z -> column S bcc q (g_mx S + 1) m j = q m (g_mx S + 1)%Z (1 - j)%Z) /\
  (bcc 2%Z = 3%Z -> (1 <= j <= g_mbc S)%Z -> column S bcc q 0 m (g_my S + j)%Z = q m 0%Z (g_my S + 1 - j)%Z) /\
  (bcc 3%Z = 3%Z -> (1 <= j <= g_mbc S)%Z -> column S bcc q (g_mx S + 1) m (g_my S + j)%Z = q m (g_mx S + 1)%Z (g_my S + 1 - j)%Z).
Proof.
  intros S bcc q m i j Hx Hy. unfold row, column, inr.
  assert (T : forall H : forall c, (0 <= c <= 3)%Z -> bcc c <> 3%Z, ((bcc 0 =? 3) = false /\ (bcc 1 =? 3) = false /\ (bcc 2 =? 3) = false /\ (bcc 3 =? 3) = false)%Z)
    by (intros Hc; repeat split; apply Z.eqb_neq, Hc; lia).
  split.
  - intros [A|[A|A]].
    + split.
      * replace (j =? 0)%Z with false by (symmetry; apply Z.eqb_neq; lia). replace (j =? g_my S + 1)%Z with false by (symmetry; apply Z.eqb_neq; lia). reflexivity.
      * replace (j <=? 0)%Z with false by (symmetry; apply Z.leb_gt; lia). replace (g_my S + 1 <=? j)%Z with false by (symmetry; apply Z.leb_gt; lia). rewrite ?andb_false_r. cbn [andb]. rewrite ?andb_false_r. reflexivity.
    + split.
      * replace (i <=? 0)%Z with false by (symmetry; apply Z.leb_gt; lia). replace (g_mx S + 1 <=? i)%Z with false by (symmetry; apply Z.leb_gt; lia). rewrite ?andb_false_r. cbn [andb]. rewrite ?andb_false_r. reflexivity.
      * replace (i =? 0)%Z with false by (symmetry; apply Z.eqb_neq; lia). replace (i =? g_mx S + 1)%Z with false by (symmetry; apply Z.eqb_neq; lia). reflexivity.
    + destruct (T A) as (-> & -> & -> & ->). rewrite ?andb_false_r. cbn [andb]. split; reflexivity.
  - repeat split; intros B C; rewrite B;
      repeat match goal with |- context [if ?b then _ else _] => destruct b eqn:?E end;
      rewrite ?andb_true_iff, ?Z.eqb_eq, ?Z.leb_le in *; try (f_equal; lia);
      repeat match goal with H : (_ && _)%bool = false |- _ => apply andb_false_iff in H; destruct H end;
      rewrite ?Z.eqb_neq, ?Z.leb_gt in *; try lia; f_equal; lia.
Qed.
Print Assumptions C82_corners.

(** Instance: advection along both axes with speed 1. *)
Definition adv : setup := mkSetup 0 3 2 2 1 1 2 2 (fun _ => 1%Z)
  (fun _ q1d _ => let w := fun m i => q1d m i - q1d m (i - 1)%Z in mkRiemann (fun m _ i => w m i) (fun _ _ => 1) (fun _ _ => 0) w)
  (fun _ _ _ _ _ _ asdq => (fun _ _ => 0, asdq)).
Example C82_instance :
  (2 <= g_mbc adv)%Z /\ (1 <= g_mx adv)%Z /\ (1 <= g_my adv)%Z /\ linear_at_zero adv /\ respects adv /\
  (forall q aux, (forall m i j, q m i j == 5) ->
     (forall j, quiet (in_row adv (fun _ => 4%Z) q aux j)) /\ (forall i, quiet (in_column adv (fun _ => 4%Z) q aux i))) /\
  let q := fun _ i j : Z => inject_Z (i * i + 2 * j) in
  let r := geo_step adv (fun _ => 4%Z) q (fun _ _ _ => 0) None 1 1 (1 # 2) in
  Qred (fst r 1%Z 2%Z 1%Z) = 13 # 4 /\ Qred (snd r) = 1 # 2 /\ fst r 1%Z 0%Z 1%Z = q 1%Z 0%Z 1%Z.
Proof.
  split; [cbn; lia|]. split; [cbn; lia|]. split; [cbn; lia|].
  split; [intros ixy imp q1d a1 a2 a3 asdq H m i; cbn; split; [reflexivity|apply H]|].
  split; [intros ixy imp q1d a1 a2 a3 x y H m i; cbn; split; [reflexivity|apply H]|].
  split; [|vm_compute; repeat split; reflexivity].
  intros q aux H.
  assert (R : forall j m i, row adv (fun _ => 4%Z) q j m i == 5) by (intros; unfold row; cbn [Z.eqb Pos.eqb]; rewrite !andb_false_r; cbn [andb]; apply H).
  assert (C : forall i m j, column adv (fun _ => 4%Z) q i m j == 5) by (intros; unfold column; cbn [Z.eqb Pos.eqb]; rewrite !andb_false_r; cbn [andb]; apply H).
  split.
  - intros j. unfold in_row, quiet. cbn [adv rpn2 r_fwave r_amdq r_apdq]. repeat split; intros; rewrite ?R; reflexivity.
  - intros i. unfold in_column, quiet. cbn [adv rpn2 r_fwave r_amdq r_apdq]. repeat split; intros; rewrite ?C; reflexivity.
Qed.
Example C82_instance_conservative : forall q aux m i j,
  jump (in_row adv (fun _ => 4%Z) q aux j) m i == q m i j - q m (i - 1)%Z j /\ jump (in_column adv (fun _ => 4%Z) q aux i) m j == q m i j - q m i (j - 1)%Z.
Proof.
  intros q aux m i j. unfold jump, in_row, in_column. cbn [adv rpn2 r_amdq r_apdq]. unfold row, column. cbn [Z.eqb Pos.eqb].
  rewrite !andb_false_r. cbn [andb]. split; ring.
Qed.
