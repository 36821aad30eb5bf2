(** C66: one step of the clawpack 5.x solver on a patch. *)
From Coq Require Import ZArith QArith Qminmax Qabs List Lia Lqa Bool.
From Verif Require Import Base_Float Model_Face Model_Grid Spec_Grid Proof_Grid Proof_Grid2 Proof_Sync Proof_Diag
  Model_Step Spec_Step Proof_Step0 Proof_Step1 Proof_Step2 Proof_Step3 Proof_Step4 Prop_Step
  Model_Step5 Spec_Step5 Proof_Step5 Proof_Step5b Proof_Step5c Proof_Step5d.
Import ListNotations.
Open Scope Z_scope.

(** The options of a solver: those of 4.6 with the limiters 0 to 5. *)
Definition usable5 (d : dims) (S : solver) : Prop := usable d S /\ forall mw, 1 <= mw <= mwaves S -> mthlim S mw <= 5.
(** The options [o] are those that were processed last. *)
Definition registered_last (module o : options5) : Prop := exists module0 l, module_after module0 (l ++ [o]) = Some module.

Lemma module_last : forall l module0 o module, module_after module0 (l ++ [o]) = Some module -> module = o.
Proof.
  induction l as [|o' l IH]; intros module0 o module H; cbn [app module_after] in H; unfold set_amr_module in H.
  - destruct (20 <? o_mwaves o); cbn [bind] in H; congruence.
  - destruct (20 <? o_mwaves o'); cbn [bind] in H; [discriminate H|]. exact (IH _ _ _ H).
Qed.
Lemma five_ok : forall S, options_ok S -> options_ok (five S).
Proof.
  intros S (O1 & O2 & O3 & O4 & O5 & O6). unfold options_ok. cbn [five mwaves maux mcapa method2 method3 mthlim]. repeat (split; [lia|]).
  intros mw Hw. specialize (O6 mw Hw). destruct (5 <? mthlim S mw); lia.
Qed.

(** The step of the solver whose options were processed last: it reads and writes only elements of its arrays, uses none
    that has no value, gives the new solution of the wave propagation method in every cell of the patch, leaves the ghost
    cells as they are but for those where three blocks meet, and reports the largest Courant number; with any arithmetic,
    any Riemann solvers and whatever was in the work arrays. *)
Theorem C66_values : forall A d module o maux0 rpn rpt count dx dy dt garbage q aux u X,
  let S := solver_of o maux0 rpn rpt in
  let u1 := turned (mx d) (my d) count 0 u in
  usable5 d S -> registered_last module o -> holds d (meqn d) q u -> holds d maux0 aux X ->
  exists q' c, instance_step A d module o maux0 rpn rpt count dx dy dt garbage q aux = Some (q', c) /\
    (forall i j m, 1 <= i <= mx d -> 1 <= j <= my d -> 1 <= m <= meqn d ->
       q' (i, j, m) = Some (advanced5 A S (meqn d) u u1 u1 X dx dy dt i j m)) /\
    (forall i j m, 1 - mbc d <= i <= mx d + mbc d -> 1 - mbc d <= j <= my d + mbc d -> ~ (1 <= i <= mx d /\ 1 <= j <= my d) -> 1 <= m <= meqn d ->
       q' (i, j, m) = Some (u1 i j m)) /\
    largest_or_zero (numbers A S (meqn d) u1 u1 X (quo A dt dx) (quo A dt dy) (mx d) (my d) (mbc d)) c.
Proof.
  intros A d module o maux0 rpn rpt count dx dy dt garbage q aux u X. cbv zeta. set (S := solver_of o maux0 rpn rpt). intros [(Hb & Bx & By & Hm & HS) H5] (m0 & l & HM) Hq HX.
  apply module_last in HM. subst module. assert (Hx : 1 <= mx d) by lia. assert (Hy : 1 <= my d) by lia.
  assert (Hw : 0 <= mwaves S) by (destruct HS as (X1 & _); exact X1).
  destruct (step_ok5 A d (five S) Hb Hx Hy Hm (five_ok S HS) count (mwaves S) Hw Bx By dx dy dt garbage q aux u X (holds_in _ _ _ _ Hq) (holds_in _ _ _ _ HX)) as (q' & c & E & V & N & L).
  exists q', c. split; [exact E|]. split; [intros i j m Hi Hj Hk; rewrite (V i j m Hi Hj Hk); f_equal; now apply advanced_five|].
  split; [intros i j m Hi Hj Ho Hk; apply N; [now split|exact Ho|exact Hk]|exact L].
Qed.
Print Assumptions C66_values.

(** For waves both solvers compute the same: the same values in every cell and the same Courant number, in any arithmetic. *)
Theorem C66_same_as_46 : forall A d module o maux0 rpn rpt count dx dy dt garbage garbage' q aux u X,
  let S := solver_of o maux0 rpn rpt in
  usable5 d S -> use_fwaves S = false -> registered_last module o -> (forall k, 0 <= k <= 3 -> count k <> 3) -> holds d (meqn d) q u -> holds d maux0 aux X ->
  exists p c p' c', instance_step A d module o maux0 rpn rpt count dx dy dt garbage q aux = Some (p, c) /\
    clawpack46_step2 A d S count dx dy dt garbage' q aux = Some (p', c') /\
    (forall i j m, 1 <= i <= mx d -> 1 <= j <= my d -> 1 <= m <= meqn d -> p (i, j, m) = p' (i, j, m)) /\ (c == c')%Q.
Proof.
  intros A d module o maux0 rpn rpt count dx dy dt garbage garbage' q aux u X. cbv zeta. set (S := solver_of o maux0 rpn rpt). intros HU HF HM HC Hq HX.
  destruct (C66_values A d module o maux0 rpn rpt count dx dy dt garbage q aux u X HU HM Hq HX) as (p & c & E & V & _ & L).
  destruct (C57_values A d S count dx dy dt garbage' q aux u X (proj1 HU) Hq HX) as (p' & c' & E' & V' & _ & L').
  fold S in V, L. exists p, c, p', c'. split; [exact E|]. split; [exact E'|]. destruct HU as [(Hb & Bx & By & Hm & HS) H5].
  assert (T : forall dir i j m, turned (mx d) (my d) count dir u i j m = u i j m).
  { intros dir i' j' m'. apply (not_turned d count). intros [_ C]. revert C. apply HC. unfold corner_number. destruct (i' <? 1), (j' <? 1); lia. }
  split.
  - intros i j m Hi Hj Hk. rewrite (V i j m Hi Hj Hk), (V' i j m Hi Hj Hk). f_equal. rewrite (advanced_46 A S) by exact HF.
    apply (advanced_ext A S (meqn d) (1 - mbc d) (mx d + mbc d) (1 - mbc d) (my d + mbc d)); try exact HS; try lia; try reflexivity; intros i' j' m' _ _ _; now rewrite ?T.
  - destruct L as (P1 & P2 & P3), L' as (P1' & P2' & P3').
    assert (X1 : forall x, numbers A S (meqn d) (turned (mx d) (my d) count 0 u) (turned (mx d) (my d) count 0 u) X (quo A dt dx) (quo A dt dy) (mx d) (my d) (mbc d) x <->
                           numbers A S (meqn d) (turned (mx d) (my d) count 0 u) (turned (mx d) (my d) count 1 u) X (quo A dt dx) (quo A dt dy) (mx d) (my d) (mbc d) x).
    { intros x. assert (Hx : 1 <= mx d) by lia. assert (Hy : 1 <= my d) by lia. split; (intros [B|(i & Hi & B)]; [now left|right; exists i; split; [exact Hi|]]).
      - apply (courants_ext A d S Hb HS false (turned (mx d) (my d) count 0 u) (turned (mx d) (my d) count 1 u) X X (quo A dt dy) i x); [exact Hi|intros; now rewrite !T|reflexivity|exact B].
      - apply (courants_ext A d S Hb HS false (turned (mx d) (my d) count 1 u) (turned (mx d) (my d) count 0 u) X X (quo A dt dy) i x); [exact Hi|intros; now rewrite !T|reflexivity|exact B]. }
    apply Qle_antisym.
    + destruct P3 as [P3|(x & P3 & P4)]; [rewrite P3; exact P1'|]. rewrite P4. apply P2', X1, P3.
    + destruct P3' as [P3'|(x & P3' & P4')]; [rewrite P3'; exact P1|]. rewrite P4'. apply P2, X1, P3'.
Qed.
Print Assumptions C66_same_as_46.

(** The new solution does not depend on how the domain is cut into patches. *)
Theorem C66_one_grid : forall A o maux0 rpn rpt meqn0 dx dy dt (U X : field), exists N : field,
  forall d module count garbage q aux ox oy, usable5 d (solver_of o maux0 rpn rpt) -> registered_last module o -> meqn d = meqn0 -> (forall k, 0 <= k <= 3 -> count k <> 3) ->
    holds d (meqn d) q (fun i j => U (ox + i) (oy + j)) -> holds d maux0 aux (fun i j => X (ox + i) (oy + j)) ->
    exists q' c, instance_step A d module o maux0 rpn rpt count dx dy dt garbage q aux = Some (q', c) /\
      forall i j m, 1 <= i <= mx d -> 1 <= j <= my d -> 1 <= m <= meqn d -> q' (i, j, m) = Some (N (ox + i) (oy + j) m).
Proof.
  intros A o maux0 rpn rpt meqn0 dx dy dt U X. set (S := solver_of o maux0 rpn rpt). exists (advanced5 A S meqn0 U U U X dx dy dt).
  intros d module count garbage q aux ox oy HU HM Em HC Hq HX. destruct (C66_values A d module o maux0 rpn rpt count dx dy dt garbage q aux _ _ HU HM Hq HX) as (q' & c & E & V & _).
  exists q', c. split; [exact E|]. intros i j m Hi Hj Hk. rewrite (V i j m Hi Hj Hk). f_equal. rewrite <- Em.
  rewrite <- (advanced_sh5 A S (meqn d) ox oy U U U X dx dy dt i j m). destruct HU as [(Hb & Bx & By & Hm & HS) _].
  assert (T : forall dir i j m, turned (mx d) (my d) count dir (moved ox oy U) i j m = moved ox oy U i j m).
  { intros dir i' j' m'. apply (not_turned d count). intros [_ C]. revert C. apply HC. unfold corner_number. destruct (i' <? 1), (j' <? 1); lia. }
  apply (advanced_ext5 A S (meqn d) (1 - mbc d) (mx d + mbc d) (1 - mbc d) (my d + mbc d)); try exact HS; try lia; try reflexivity.
  - intros i' j' m' _ _ _. apply T.
  - intros i' j' m' _ _ _. apply T.
  - intros i' j' m' _ _ _. reflexivity.
Qed.
Print Assumptions C66_one_grid.

(** Exact arithmetic, fluctuations that are flux differences: what the patch gains is what passes through its sides. *)
Theorem C66_conservative : forall d module o maux0 rpn rpt count dx dy dt garbage q aux u X f,
  let S := solver_of o maux0 rpn rpt in
  let u1 := turned (mx d) (my d) count 0 u in
  let px := through_x5 S (meqn d) f u1 X (dt / dx) (dt / dy) in
  let py := through_y5 S (meqn d) f u1 X (dt / dx) (dt / dy) in
  usable5 d S -> registered_last module o -> holds d (meqn d) q u -> holds d maux0 aux X ->
  flux_difference S (meqn d) f -> (forall i j, 1 <= i <= mx d -> 1 <= j <= my d -> ~ (capacity S X i j == 0)%Q) ->
  exists q' c, instance_step exact d module o maux0 rpn rpt count dx dy dt garbage q aux = Some (q', c) /\
    exists v, (forall i j m, 1 <= i <= mx d -> 1 <= j <= my d -> 1 <= m <= meqn d -> q' (i, j, m) = Some (v i j m)) /\
    forall m, 1 <= m <= meqn d ->
      (total d (fun i j => capacity S X i j * v i j m) == total d (fun i j => capacity S X i j * u i j m)
        + dt / dx * qsum 1 (my d) (fun j => px 1%Z j m - px (mx d + 1)%Z j m)
        + dt / dy * qsum 1 (mx d) (fun i => py i 1%Z m - py i (my d + 1)%Z m))%Q.
Proof.
  intros d module o maux0 rpn rpt count dx dy dt garbage q aux u X f. cbv zeta. intros HU HM Hq HX HF HC.
  destruct (C66_values exact d module o maux0 rpn rpt count dx dy dt garbage q aux u X HU HM Hq HX) as (q' & c & E & V & _). exists q', c. split; [exact E|].
  set (S := solver_of o maux0 rpn rpt) in *. set (u1 := turned (mx d) (my d) count 0 u) in *.
  exists (advanced5 exact S (meqn d) u u1 u1 X dx dy dt). split; [exact V|]. intros m Hm. destruct HU as [(Hb & Bx & By & _ & _) _].
  set (px := fun i j => through_x5 S (meqn d) f u1 X (dt / dx) (dt / dy) i j m). set (py := fun i j => through_y5 S (meqn d) f u1 X (dt / dx) (dt / dy) i j m).
  transitivity (total d (fun i j => capacity S X i j * u i j m + (- (dt / dx)) * (px (i + 1)%Z j - px i j) + (- (dt / dy)) * (py i (j + 1)%Z - py i j))%Q).
  { unfold total. apply qsum_ext. intros i Hi. apply qsum_ext. intros j Hj. rewrite (conservation_form5 S (meqn d) f u u1 X dx dy dt i j m HF Hm (HC i j Hi Hj)).
    unfold px, py. ring. }
  unfold total.
  assert (X1 : (qsum 1 (mx d) (fun i => qsum 1 (my d) (fun j => capacity S X i j * u i j m + (- (dt / dx)) * (px (i + 1)%Z j - px i j) + (- (dt / dy)) * (py i (j + 1)%Z - py i j))) ==
    qsum 1 (mx d) (fun i => qsum 1 (my d) (fun j => capacity S X i j * u i j m)) + (- (dt / dx)) * qsum 1 (mx d) (fun i => qsum 1 (my d) (fun j => px (i + 1)%Z j - px i j))
    + (- (dt / dy)) * qsum 1 (mx d) (fun i => qsum 1 (my d) (fun j => py i (j + 1)%Z - py i j)))%Q).
  { rewrite <- !qsum_scale, <- !qsum_add. apply qsum_ext. intros i Hi. rewrite <- !qsum_scale, <- !qsum_add. reflexivity. }
  assert (X4 : (qsum 1 (mx d) (fun i => qsum 1 (my d) (fun j => px (i + 1)%Z j - px i j)) == qsum 1 (my d) (fun j => px (mx d + 1)%Z j - px 1%Z j))%Q).
  { rewrite qsum_swap. apply qsum_ext. intros j Hj. exact (qsum_tele (mx d) (fun i => px i j) ltac:(lia)). }
  assert (X5 : (qsum 1 (mx d) (fun i => qsum 1 (my d) (fun j => py i (j + 1)%Z - py i j)) == qsum 1 (mx d) (fun i => py i (my d + 1)%Z - py i 1%Z))%Q).
  { apply qsum_ext. intros i Hi. exact (qsum_tele (my d) (fun j => py i j) ltac:(lia)). }
  rewrite X1, X4, X5.
  assert (X2 : (qsum 1 (my d) (fun j => px 1%Z j - px (mx d + 1)%Z j) == (-1) * qsum 1 (my d) (fun j => px (mx d + 1)%Z j - px 1%Z j))%Q) by (rewrite <- qsum_scale; apply qsum_ext; intros; ring).
  assert (X3 : (qsum 1 (mx d) (fun i => py i 1%Z - py i (my d + 1)%Z) == (-1) * qsum 1 (mx d) (fun i => py i (my d + 1)%Z - py i 1%Z))%Q) by (rewrite <- qsum_scale; apply qsum_ext; intros; ring).
  unfold px in X2. unfold py in X3. rewrite X2, X3. unfold px, py. ring.
Qed.
Print Assumptions C66_conservative.

(** A cell whose neighbourhood of two cells in all directions has one state keeps it. *)
Theorem C66_quiet : forall d module o maux0 rpn rpt count dx dy dt garbage q aux u X q0 i j,
  let S := solver_of o maux0 rpn rpt in
  usable5 d S -> registered_last module o -> (forall k, 0 <= k <= 3 -> count k <> 3) ->
  holds d (meqn d) q u -> holds d maux0 aux X -> quiet S (meqn d) q0 -> 1 <= i <= mx d -> 1 <= j <= my d ->
  (forall i' j' m, i - 2 <= i' <= i + 2 -> j - 2 <= j' <= j + 2 -> 1 <= m <= meqn d -> u i' j' m = q0 m) ->
  exists q' c, instance_step exact d module o maux0 rpn rpt count dx dy dt garbage q aux = Some (q', c) /\
    forall m, 1 <= m <= meqn d -> exists v, q' (i, j, m) = Some v /\ (v == q0 m)%Q.
Proof.
  intros d module o maux0 rpn rpt count dx dy dt garbage q aux u X q0 i j. cbv zeta. set (S := solver_of o maux0 rpn rpt). intros HU HM HC Hq HX HQ Hi Hj H0.
  destruct (C66_values exact d module o maux0 rpn rpt count dx dy dt garbage q aux u X HU HM Hq HX) as (q' & c & E & V & _). exists q', c. split; [exact E|].
  intros m Hm. rewrite (V i j m Hi Hj Hm). eexists. split; [reflexivity|]. fold S.
  assert (T : forall dir i j m, turned (mx d) (my d) count dir u i j m = u i j m).
  { intros dir i' j' m'. apply (not_turned d count). intros [_ C]. revert C. apply HC. unfold corner_number. destruct (i' <? 1), (j' <? 1); lia. }
  rewrite <- (constant_stays5 S (meqn d) q0 HQ X dx dy dt i j m Hm).
  rewrite (advanced_ext5 exact S (meqn d) (i - 2) (i + 2) (j - 2) (j + 2) u (fun _ _ => q0) _ (fun _ _ => q0) _ (fun _ _ => q0) X X dx dy dt i j m); try lia.
  - reflexivity.
  - apply (proj1 HU).
  - intros i' j' m' H1 H2 H3. rewrite T. now apply H0.
  - intros i' j' m' H1 H2 H3. rewrite T. now apply H0.
  - intros i' j' m' _ _ _. reflexivity.
  - apply H0; lia.
Qed.
Print Assumptions C66_quiet.

(** *** Waves and f-waves *)
Lemma fw_aside5 : forall S T meqn, same_as_fwaves S T meqn -> forall ixy u b a c r i side m, 1 <= m <= meqn ->
  (aside5 exact T meqn ixy u b a c r i side m == aside5 exact S meqn ixy u b a c r i side m)%Q.
Proof.
  intros S T meqn HT ixy u b a c r i side m Hm. unfold aside5. cbn [add sub mul exact].
  pose proof (fw_part S T meqn HT ixy u b a c side 1 (i + 1) _ (amdq exact S meqn ixy u a r (i + 1)) m Hm (fun k Hk => proj1 (fw_amdq S T meqn HT ixy u a r (i + 1) k Hk))) as P1.
  pose proof (fw_part S T meqn HT ixy u b a c side 2 i _ (apdq exact S meqn ixy u a r i) m Hm (fun k Hk => proj2 (fw_amdq S T meqn HT ixy u a r i k Hk))) as P2.
  destruct HT as (F1 & F2 & _ & _ & _ & _ & M3 & _). rewrite M3. destruct (method3 S =? 0); [reflexivity|]. rewrite P1, P2. reflexivity.
Qed.
Lemma fw_advanced5 : forall S T meqn, same_as_fwaves S T meqn -> forall u ux uy X dx dy dt i j m, 1 <= m <= meqn ->
  (advanced5 exact T meqn u ux uy X dx dy dt i j m == advanced5 exact S meqn u ux uy X dx dy dt i j m)%Q.
Proof.
  intros S T meqn HT u ux uy X dx dy dt i j m Hm. unfold advanced5. cbv zeta.
  assert (Ec : mcapa T = mcapa S) by (destruct HT as (_ & _ & _ & _ & Ec & _); exact Ec). rewrite Ec.
  assert (R : forall dtd, ratio exact T X dtd = ratio exact S X dtd) by (intros; unfold ratio; now rewrite Ec).
  unfold west_left5, west_right5, south_left5, south_right5, row_left, row_right, col_left, col_right, row_aside5, col_aside5, in_row, in_col.
  cbn [add sub mul quo exact]. rewrite !R.
  destruct (mcapa S =? 0);
  repeat match goal with
  | |- context [flux_left exact T meqn ?ixy ?u ?a ?r ?i m] => rewrite (proj1 (fw_flux S T meqn HT ixy u a r i m Hm))
  | |- context [flux_right exact T meqn ?ixy ?u ?a ?r ?i m] => rewrite (proj2 (fw_flux S T meqn HT ixy u a r i m Hm))
  | |- context [aside5 exact T meqn ?ixy ?u ?b ?a ?c ?r ?i ?side m] => rewrite (fw_aside5 S T meqn HT ixy u b a c r i side m Hm)
  end; reflexivity.
Qed.

(** Without limiters both forms of a solver give the same solution, with a capacity function as well. *)
Theorem C66_fwaves : forall d module module' o o' maux0 rpn rpt rpn' rpt' count dx dy dt garbage garbage' q aux u X,
  let S := solver_of o maux0 rpn rpt in let T := solver_of o' maux0 rpn' rpt' in
  usable d S -> registered_last module o -> registered_last module' o' -> holds d (meqn d) q u -> holds d maux0 aux X -> same_as_fwaves S T (meqn d) ->
  exists p c p' c', instance_step exact d module o maux0 rpn rpt count dx dy dt garbage q aux = Some (p, c) /\
    instance_step exact d module' o' maux0 rpn' rpt' count dx dy dt garbage' q aux = Some (p', c') /\
    forall i j m, 1 <= i <= mx d -> 1 <= j <= my d -> 1 <= m <= meqn d -> exists x x', p (i, j, m) = Some x /\ p' (i, j, m) = Some x' /\ (x == x')%Q.
Proof.
  intros d module module' o o' maux0 rpn rpt rpn' rpt' count dx dy dt garbage garbage' q aux u X. cbv zeta.
  set (S := solver_of o maux0 rpn rpt). set (T := solver_of o' maux0 rpn' rpt'). intros HU HM HM' Hq HX HT.
  assert (HU5 : usable5 d S). { split; [exact HU|]. intros mw Hw. destruct HT as (_ & _ & _ & _ & _ & _ & _ & HL & _). rewrite (proj1 (HL mw)). lia. }
  assert (HU' : usable5 d T).
  { destruct HU as (U1 & U2 & U3 & U4 & U5). split; [repeat split; try assumption; destruct HT as (_ & _ & W & Ea & Ec & M2 & M3 & HL & _); destruct U5 as (O1 & O2 & O3 & O4 & O5 & O6); try lia;
    destruct (HL mw) as [_ L]; rewrite L; lia|]. intros mw Hw. destruct HT as (_ & _ & _ & _ & _ & _ & _ & HL & _). rewrite (proj2 (HL mw)). lia. }
  destruct (C66_values exact d module o maux0 rpn rpt count dx dy dt garbage q aux u X HU5 HM Hq HX) as (p & c & E & V & _).
  destruct (C66_values exact d module' o' maux0 rpn' rpt' count dx dy dt garbage' q aux u X HU' HM' Hq HX) as (p' & c' & E' & V' & _).
  exists p, c, p', c'. split; [exact E|]. split; [exact E'|]. intros i j m Hi Hj Hm. do 2 eexists. split; [now apply V|]. split; [now apply V'|].
  symmetry. now apply fw_advanced5.
Qed.
Print Assumptions C66_fwaves.

(** The solver that the step above is done with has the options the user has set: the two orders, the waves, the limiters,
    the capacity and the kind of waves, each in its place. *)
Theorem C66_options : forall o maux0 rpn0 rpt0, let S := solver_of o maux0 rpn0 rpt0 in
  mwaves S = o_mwaves o /\ maux S = maux0 /\ mcapa S = o_mcapa o /\ method2 S = o_method2 o /\ method3 S = o_method3 o /\
  mthlim S = o_mthlim o /\ use_fwaves S = o_use_fwaves o /\ rpn S = rpn0 /\ rpt S = rpt0.
Proof. intros. repeat split. Qed.
Print Assumptions C66_options.

(** *** A concrete case: advection as in C57; options with [lim] as the limiter *)
Definition o66 (mcapa : Z) (lim : Z) (fw : bool) : options5 := mkO5 1 mcapa 2 2 (fun _ => lim) fw.
Lemma o66_last : forall mc lim fw, registered_last (o66 mc lim fw) (o66 mc lim fw).
Proof. intros. exists (o66 0 0 true), [o66 0 1 false]. reflexivity. Qed.
Lemma o66_adv : forall mc lim fw, solver_of (o66 mc lim fw) 1 adv_rpn adv_rpt = adv mc 2 2 lim fw.
Proof. reflexivity. Qed.
Lemma adv_usable : forall mc lim fw, 0 <= mc <= 1 -> 0 <= lim <= 6 -> usable d57 (adv mc 2 2 lim fw).
Proof. intros mc lim fw H1 H2. unfold usable, options_ok. cbn. repeat split; intros; lia. Qed.
Definition fw_rpn (ixy : Z) (ql qr al ar : list Q) : riemann :=
  let r := adv_rpn ixy ql qr al ar in mkR (fun m mw => r_s r mw * r_wave r m mw)%Q (r_s r) (r_amdq r) (r_apdq r).

Example C66_instance :
  usable5 d57 (solver_of (o66 1 4 false) 1 adv_rpn adv_rpt) /\ registered_last (o66 1 4 false) (o66 1 4 false) /\
  holds d57 1 (arr_of u57) u57 /\ holds d57 1 (arr_of x57) x57 /\
  flux_difference (solver_of (o66 1 4 false) 1 adv_rpn adv_rpt) 1 (fun ixy q _ m => adv_speed ixy * nth 0 q 0)%Q /\
  (forall i j, 1 <= i <= 4 -> 1 <= j <= 3 -> ~ (capacity (solver_of (o66 1 4 false) 1 adv_rpn adv_rpt) x57 i j == 0)%Q) /\
  quiet (solver_of (o66 1 4 false) 1 adv_rpn adv_rpt) 1 (fun _ => 5%Q) /\
  same_as_fwaves (solver_of (o66 1 0 false) 1 adv_rpn adv_rpt) (solver_of (o66 1 0 true) 1 fw_rpn adv_rpt) 1 /\
  exists q' c, instance_step exact d57 (o66 1 4 false) (o66 1 4 false) 1 adv_rpn adv_rpt no_corner 1 1 (1 # 2) (fun _ => None) (arr_of u57) (arr_of x57) = Some (q', c) /\
    (exists v, q' (2, 2, 1) = Some v /\ ~ (v == u57 2%Z 2%Z 1%Z)%Q) /\ (0 < c)%Q.
Proof.
  destruct C57_instance as (_ & HQ & HX & I1 & I2 & I3 & _).
  assert (U : usable5 d57 (adv 1 2 2 4 false)) by (split; [apply adv_usable; lia|intros mw Hw; cbn; lia]).
  split; [exact U|]. split; [apply o66_last|]. do 2 (split; [assumption|]). do 3 (split; [assumption|]). split; [exact (adv_same 1)|].
  destruct (C66_values exact d57 (o66 1 4 false) (o66 1 4 false) 1 adv_rpn adv_rpt no_corner 1 1 (1 # 2) (fun _ => None) (arr_of u57) (arr_of x57) u57 x57 U (o66_last _ _ _) HQ HX) as (q' & c & E & V & _ & L).
  exists q', c. split; [exact E|]. split.
  - eexists. split; [apply V; cbn; lia|]. intros X. apply Qeq_bool_iff in X. vm_compute in X. discriminate X.
  - destruct L as (_ & L & _). eapply Qlt_le_trans; [|apply L]; [|left; exists 1; split; [cbn; lia|]; exists 1; split; [cbn; lia|]; exists 1; split; [cbn; lia|left; reflexivity]].
    vm_compute. reflexivity.
Qed.

(** Where three blocks meet, the sweep in y uses the corner cells made for the sweep in x: the solution is not that of the
    4.6 solver, for waves and with everything else equal. *)
Theorem C66_corner_refuted : exists d o maux0 rpn rpt count dx dy dt garbage q aux u X p c p' c' x x',
  let S := solver_of o maux0 rpn rpt in
  usable5 d S /\ use_fwaves S = false /\ registered_last o o /\ holds d (meqn d) q u /\ holds d maux0 aux X /\
  instance_step exact d o o maux0 rpn rpt count dx dy dt garbage q aux = Some (p, c) /\
  clawpack46_step2 exact d S count dx dy dt garbage q aux = Some (p', c') /\
  p (1, 1, 1) = Some x /\ p' (1, 1, 1) = Some x' /\ ~ (x == x')%Q.
Proof.
  destruct C57_instance as (_ & HQ & HX & _).
  assert (U : usable5 d57 (adv 0 2 2 4 false)) by (split; [apply adv_usable; lia|intros mw Hw; cbn; lia]).
  set (count := fun _ : Z => 3).
  destruct (C66_values exact d57 (o66 0 4 false) (o66 0 4 false) 1 adv_rpn adv_rpt count 1 1 (1 # 2) (fun _ => None) (arr_of u57) (arr_of x57) u57 x57 U (o66_last _ _ _) HQ HX) as (p & c & E & V & _).
  destruct (C57_values exact d57 (adv 0 2 2 4 false) count 1 1 (1 # 2) (fun _ => None) (arr_of u57) (arr_of x57) u57 x57 (proj1 U) HQ HX) as (p' & c' & E' & V' & _).
  exists d57, (o66 0 4 false), 1, adv_rpn, adv_rpt, count, 1%Q, 1%Q, (1 # 2)%Q, (fun _ => None), (arr_of u57), (arr_of x57), u57, x57, p, c, p', c'. do 2 eexists. cbv zeta.
  split; [exact U|]. split; [reflexivity|]. split; [apply o66_last|]. split; [exact HQ|]. split; [exact HX|]. split; [exact E|]. split; [exact E'|].
  split; [apply V; cbn; lia|]. split; [apply V'; cbn; lia|].
  intros X. apply Qeq_bool_iff in X. vm_compute in X. discriminate X.
Qed.
Print Assumptions C66_corner_refuted.

(** Limiter 6, which the 4.6 solver has, is accepted and replaced by limiter 1 (minmod): the solution is not the one of
    limiter 6, which 4.6 computes. *)
Theorem C66_limiter_refuted : exists d o maux0 rpn rpt count dx dy dt garbage q aux u X p c p' c' x x',
  let S := solver_of o maux0 rpn rpt in
  usable d S /\ (forall mw, mthlim S mw = 6) /\ use_fwaves S = false /\ (forall k, 0 <= k <= 3 -> count k <> 3) /\ registered_last o o /\ holds d (meqn d) q u /\ holds d maux0 aux X /\
  instance_step exact d o o maux0 rpn rpt count dx dy dt garbage q aux = Some (p, c) /\
  clawpack46_step2 exact d S count dx dy dt garbage q aux = Some (p', c') /\
  p (2, 2, 1) = Some x /\ p' (2, 2, 1) = Some x' /\ ~ (x == x')%Q.
Proof.
  destruct C57_instance as (_ & HQ & HX & _). pose proof (adv_usable 0 6 false ltac:(lia) ltac:(lia)) as U.
  assert (U1 : usable5 d57 (adv 0 2 2 1 false)) by (split; [apply adv_usable; lia|intros mw Hw; cbn; lia]).
  destruct (C66_values exact d57 (o66 0 1 false) (o66 0 1 false) 1 adv_rpn adv_rpt no_corner 1 1 (1 # 2) (fun _ => None) (arr_of u57) (arr_of x57) u57 x57 U1 (o66_last _ _ _) HQ HX) as (p & c & E & V & _).
  destruct (C57_values exact d57 (adv 0 2 2 6 false) no_corner 1 1 (1 # 2) (fun _ => None) (arr_of u57) (arr_of x57) u57 x57 U HQ HX) as (p' & c' & E' & V' & _).
  exists d57, (o66 0 6 false), 1, adv_rpn, adv_rpt, no_corner, 1%Q, 1%Q, (1 # 2)%Q, (fun _ => None), (arr_of u57), (arr_of x57), u57, x57, p, c, p', c'. do 2 eexists. cbv zeta.
  split; [exact U|]. split; [reflexivity|]. split; [reflexivity|]. split; [intros k _; discriminate|]. split; [apply o66_last|]. split; [exact HQ|]. split; [exact HX|]. split; [exact E|]. split; [exact E'|].
  split; [apply V; cbn; lia|]. split; [apply V'; cbn; lia|].
  intros X. apply Qeq_bool_iff in X. vm_compute in X. discriminate X.
Qed.
Print Assumptions C66_limiter_refuted.

(** The options are kept in variables that all solvers of the program share: after the options of a second solver have
    been processed, the first one steps with those of the second. *)
Theorem C66_two_solvers_refuted : exists d module0 module o o' maux0 rpn rpt count dx dy dt garbage q aux u X p c p' c' x x',
  usable5 d (solver_of o maux0 rpn rpt) /\ usable5 d (solver_of o' maux0 rpn rpt) /\ module_after module0 [o; o'] = Some module /\ holds d (meqn d) q u /\ holds d maux0 aux X /\
  instance_step exact d o o maux0 rpn rpt count dx dy dt garbage q aux = Some (p, c) /\
  instance_step exact d module o maux0 rpn rpt count dx dy dt garbage q aux = Some (p', c') /\
  p (2, 2, 1) = Some x /\ p' (2, 2, 1) = Some x' /\ ~ (x == x')%Q.
Proof.
  destruct C57_instance as (_ & HQ & HX & _).
  assert (U : usable5 d57 (adv 0 2 2 4 false)) by (split; [apply adv_usable; lia|intros mw Hw; cbn; lia]).
  assert (U1 : usable5 d57 (adv 0 2 2 2 false)) by (split; [apply adv_usable; lia|intros mw Hw; cbn; lia]).
  destruct (C66_values exact d57 (o66 0 4 false) (o66 0 4 false) 1 adv_rpn adv_rpt no_corner 1 1 (1 # 2) (fun _ => None) (arr_of u57) (arr_of x57) u57 x57 U (o66_last _ _ _) HQ HX) as (p & c & E & V & _).
  destruct (C66_values exact d57 (o66 0 2 false) (o66 0 2 false) 1 adv_rpn adv_rpt no_corner 1 1 (1 # 2) (fun _ => None) (arr_of u57) (arr_of x57) u57 x57 U1 (o66_last _ _ _) HQ HX) as (p' & c' & E' & V' & _).
  exists d57, (o66 0 0 false), (o66 0 2 false), (o66 0 4 false), (o66 0 2 false), 1, adv_rpn, adv_rpt, no_corner, 1%Q, 1%Q, (1 # 2)%Q, (fun _ => None), (arr_of u57), (arr_of x57), u57, x57, p, c, p', c'. do 2 eexists.
  split; [exact U|]. split; [exact U1|]. split; [reflexivity|]. split; [exact HQ|]. split; [exact HX|]. split; [exact E|]. split; [exact E'|].
  split; [apply V; cbn; lia|]. split; [apply V'; cbn; lia|].
  intros X. apply Qeq_bool_iff in X. vm_compute in X. discriminate X.
Qed.
Print Assumptions C66_two_solvers_refuted.

(** Options with up to 20 waves are accepted, in any order and number; more waves end the program. *)
Theorem C66_registered : forall l module0,
  (forall o, In o l -> o_mwaves o <= 20) <-> exists module, module_after module0 l = Some module /\ (l = [] -> module = module0) /\ forall l' o, l = l' ++ [o] -> module = o.
Proof.
  intros l module0. split.
  - intros H. assert (E : exists module, module_after module0 l = Some module).
    { revert module0 H. induction l as [|o l IH]; intros module0 H; [exists module0; reflexivity|]. cbn [module_after]. unfold set_amr_module.
      pose proof (H o (or_introl eq_refl)) as Ho. destruct (Z.ltb_spec 20 (o_mwaves o)) as [B|_]; [lia|]. cbn [bind]. apply IH. intros o' Ho'. apply H. now right. }
    destruct E as [module E]. exists module. split; [exact E|]. split.
    + intros ->. cbn [module_after] in E. congruence.
    + intros l' o ->. exact (module_last _ _ _ _ E).
  - intros (module & E & _) o Ho. revert module0 E. induction l as [|o' l IH]; intros module0 E; [destruct Ho|].
    cbn [module_after] in E. unfold set_amr_module in E. destruct (Z.ltb_spec 20 (o_mwaves o')) as [B|B]; cbn [bind] in E; [discriminate E|].
    destruct Ho as [->|Ho]; [exact B|]. exact (IH Ho _ E).
Qed.
Print Assumptions C66_registered.
Example C66_registered_instance : forall o, In o [o66 0 4 false; o66 1 0 true] -> o_mwaves o <= 20.
Proof. intros o [<-|[<-|[]]]; cbn; lia. Qed.

(** A solver with a capacity function whose options are followed by options without one gives neither its own step nor that
    of the other options: the caller divides by the capacity, the sweeps do not know it. *)
Theorem C66_mixture_refuted : exists d module0 module o o' maux0 rpn rpt count dx dy dt garbage q aux u X p c p1 c1 p2 c2 x x1 x2,
  usable5 d (solver_of o maux0 rpn rpt) /\ usable5 d (solver_of o' maux0 rpn rpt) /\ module_after module0 [o; o'] = Some module /\ holds d (meqn d) q u /\ holds d maux0 aux X /\
  instance_step exact d module o maux0 rpn rpt count dx dy dt garbage q aux = Some (p, c) /\
  instance_step exact d o o maux0 rpn rpt count dx dy dt garbage q aux = Some (p1, c1) /\
  instance_step exact d o' o' maux0 rpn rpt count dx dy dt garbage q aux = Some (p2, c2) /\
  p (2, 2, 1) = Some x /\ p1 (2, 2, 1) = Some x1 /\ p2 (2, 2, 1) = Some x2 /\ ~ (x == x1)%Q /\ ~ (x == x2)%Q.
Proof.
  destruct C57_instance as (_ & HQ & HX & _).
  assert (U1 : usable5 d57 (adv 1 2 2 0 false)) by (split; [apply adv_usable; lia|intros mw Hw; cbn; lia]).
  assert (U2 : usable5 d57 (adv 0 2 2 0 false)) by (split; [apply adv_usable; lia|intros mw Hw; cbn; lia]).
  destruct (C66_values exact d57 (o66 1 0 false) (o66 1 0 false) 1 adv_rpn adv_rpt no_corner 1 1 (1 # 2) (fun _ => None) (arr_of u57) (arr_of x57) u57 x57 U1 (o66_last _ _ _) HQ HX) as (p1 & c1 & E1 & V1 & _).
  destruct (C66_values exact d57 (o66 0 0 false) (o66 0 0 false) 1 adv_rpn adv_rpt no_corner 1 1 (1 # 2) (fun _ => None) (arr_of u57) (arr_of x57) u57 x57 U2 (o66_last _ _ _) HQ HX) as (p2 & c2 & E2 & V2 & _).
  remember (instance_step exact d57 (o66 0 0 false) (o66 1 0 false) 1 adv_rpn adv_rpt no_corner 1 1 (1 # 2) (fun _ => None) (arr_of u57) (arr_of x57)) as r eqn:Er.
  assert (V : match r with Some (p, _) => match p (2, 2, 1) with Some v => negb (Qeq_bool v (advanced5 exact (adv 1 2 2 0 false) 1 u57 u57 u57 x57 1 1 (1 # 2) 2 2 1)) &&
     negb (Qeq_bool v (advanced5 exact (adv 0 2 2 0 false) 1 u57 u57 u57 x57 1 1 (1 # 2) 2 2 1)) | None => false end | None => false end = true) by (subst r; vm_compute; reflexivity).
  destruct r as [[p c]|]; [|discriminate V]. destruct (p (2, 2, 1)) as [x|] eqn:Ep; [|discriminate V]. apply andb_true_iff in V as [N1 N2].
  exists d57, (o66 0 1 true), (o66 0 0 false), (o66 1 0 false), (o66 0 0 false), 1, adv_rpn, adv_rpt, no_corner, 1%Q, 1%Q, (1 # 2)%Q, (fun _ => None), (arr_of u57), (arr_of x57), u57, x57, p, c, p1, c1, p2, c2, x. do 2 eexists.
  split; [exact U1|]. split; [exact U2|]. split; [reflexivity|]. split; [exact HQ|]. split; [exact HX|]. split; [now rewrite Er|]. split; [exact E1|]. split; [exact E2|].
  split; [exact Ep|]. split; [apply V1; cbn; lia|]. split; [apply V2; cbn; lia|].
  split; intros X; apply Qeq_bool_iff in X; [apply negb_true_iff in N1|apply negb_true_iff in N2].
  - assert (Y : Qeq_bool (advanced5 exact (adv 1 2 2 0 false) 1 u57 (turned 4 3 no_corner 0 u57) (turned 4 3 no_corner 0 u57) x57 1 1 (1 # 2) 2 2 1) (advanced5 exact (adv 1 2 2 0 false) 1 u57 u57 u57 x57 1 1 (1 # 2) 2 2 1) = true) by (vm_compute; reflexivity).
    apply Qeq_bool_iff in X, Y. assert (W : Qeq_bool x (advanced5 exact (adv 1 2 2 0 false) 1 u57 u57 u57 x57 1 1 (1 # 2) 2 2 1) = true) by (apply Qeq_bool_iff; rewrite X; exact Y). congruence.
  - assert (Y : Qeq_bool (advanced5 exact (adv 0 2 2 0 false) 1 u57 (turned 4 3 no_corner 0 u57) (turned 4 3 no_corner 0 u57) x57 1 1 (1 # 2) 2 2 1) (advanced5 exact (adv 0 2 2 0 false) 1 u57 u57 u57 x57 1 1 (1 # 2) 2 2 1) = true) by (vm_compute; reflexivity).
    apply Qeq_bool_iff in X, Y. assert (W : Qeq_bool x (advanced5 exact (adv 0 2 2 0 false) 1 u57 u57 u57 x57 1 1 (1 # 2) 2 2 1) = true) by (apply Qeq_bool_iff; rewrite X; exact Y). congruence.
Qed.
Print Assumptions C66_mixture_refuted.
