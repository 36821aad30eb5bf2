(** C57: one step of the solver on a patch. *)
From Coq Require Import ZArith QArith Qminmax Qabs List Lia Lqa Bool.
From Verif Require Import Base_Float Model_Face Model_Grid Spec_Grid Proof_Grid Proof_Grid2 Proof_Sync Proof_Diag
  Model_Step Spec_Step Proof_Step0 Proof_Step1 Proof_Step2 Proof_Step3 Proof_Step4.
Import ListNotations.
Open Scope Z_scope.

(** The patch and its ghost cells hold [u], the auxiliary array holds [X]. *)
Definition holds (d : dims) (n : Z) (q : arr) (u : field) : Prop :=
  forall i j m, 1 - mbc d <= i <= mx d + mbc d -> 1 - mbc d <= j <= my d + mbc d -> 1 <= m <= n -> q (i, j, m) = Some (u i j m).
Definition usable (d : dims) (S : solver) : Prop :=
  2 <= mbc d /\ mbc d <= mx d /\ mbc d <= my d /\ 0 <= meqn d /\ options_ok S.

Lemma holds_in : forall d n q u, holds d n q u -> forall i j m, inside d i j -> 1 <= m <= n -> q (i, j, m) = Some (u i j m).
Proof. intros d n q u H i j m [Hi Hj] Hm. now apply H. Qed.

(** With any arithmetic and any Riemann solvers, the step reads and writes only elements of its arrays, uses no element
    that has no value, gives the new solution of the wave propagation method in every cell of the patch, whatever was
    in the work arrays, and reports the largest Courant number. *)
Theorem C57_values : forall A d S count dx dy dt garbage q aux u X, usable d S -> holds d (meqn d) q u -> holds d (maux S) aux X ->
  let ux := turned (mx d) (my d) count 0 u in
  let uy := turned (mx d) (my d) count 1 u in
  exists q' c, clawpack46_step2 A d S count dx dy dt garbage q aux = Some (q', c) /\
    (forall i j m, 1 <= i <= mx d -> 1 <= j <= my d -> 1 <= m <= meqn d ->
       q' (i, j, m) = Some (advanced A S (meqn d) u ux uy X dx dy dt i j m)) /\
    (forall i j m, 1 - mbc d <= i <= mx d + mbc d -> 1 - mbc d <= j <= my d + mbc d -> 1 <= m <= meqn d -> q' (i, j, m) <> None) /\
    largest_or_zero (numbers A S (meqn d) ux uy X (quo A dt dx) (quo A dt dy) (mx d) (my d) (mbc d)) c.
Proof.
  intros A d S count dx dy dt garbage q aux u X (Hb & Bx & By & Hm & HS) Hq HX. cbn zeta.
  assert (Hx : 1 <= mx d) by lia. assert (Hy : 1 <= my d) by lia.
  destruct (step_ok A d S Hb Hx Hy Hm HS count Bx By dx dy dt garbage q aux u X (holds_in _ _ _ _ Hq) (holds_in _ _ _ _ HX)) as (q' & c & E & V & N & L).
  exists q', c. split; [exact E|]. split; [exact V|]. split; [intros i j m Hi Hj Hk; apply N; [now split|exact Hk]|exact L].
Qed.
Print Assumptions C57_values.

(** The new solution does not depend on how the domain is cut into patches: for every solution on the plane there is one
    new solution such that every patch of any size, anywhere, which has the solution in its cells and ghost cells has the
    new one in its cells after the step. *)
Theorem C57_one_grid : forall A S meqn0 dx dy dt (U X : field), exists N : field,
  forall d count garbage q aux ox oy, usable d S -> meqn d = meqn0 -> (forall k, 0 <= k <= 3 -> count k <> 3) ->
    holds d (meqn d) q (fun i j => U (ox + i) (oy + j)) -> holds d (maux S) aux (fun i j => X (ox + i) (oy + j)) ->
    exists q' c, clawpack46_step2 A d S count dx dy dt garbage q aux = Some (q', c) /\
      forall i j m, 1 <= i <= mx d -> 1 <= j <= my d -> 1 <= m <= meqn d -> q' (i, j, m) = Some (N (ox + i) (oy + j) m).
Proof.
  intros A S meqn0 dx dy dt U X. exists (advanced A S meqn0 U U U X dx dy dt).
  intros d count garbage q aux ox oy HU Em HC Hq HX. destruct (C57_values A d S count dx dy dt garbage q aux _ _ HU Hq HX) as (q' & c & E & V & _).
  exists q', c. split; [exact E|]. intros i j m Hi Hj Hk. rewrite (V i j m Hi Hj Hk). f_equal. rewrite <- Em.
  rewrite <- (advanced_sh A S (meqn d) ox oy U U U X dx dy dt i j m). destruct HU as (Hb & Bx & By & Hm & HS).
  assert (T : forall dir i j m, turned (mx d) (my d) count dir (moved ox oy U) i j m = moved ox oy U i j m).
  { intros dir i' j' m'. apply (not_turned d count). intros [_ C]. revert C. apply HC. unfold corner_number. destruct (i' <? 1), (j' <? 1); lia. }
  apply (advanced_ext A S (meqn d) (1 - mbc d) (mx d + mbc d) (1 - mbc d) (my d + mbc d)); try exact HS; try lia; try reflexivity.
  - intros i' j' m' _ _ _. apply T.
  - intros i' j' m' _ _ _. apply T.
  - intros i' j' m' _ _ _. reflexivity.
Qed.
Print Assumptions C57_one_grid.

(** Exact arithmetic, fluctuations that are flux differences: what the patch gains is what passes through its sides, and
    what passes through an interface is a property of the solution, the same for the patches on both sides. *)
Theorem C57_conservative : forall d S count dx dy dt garbage q aux u X f, usable d S -> holds d (meqn d) q u -> holds d (maux S) aux X ->
  flux_difference S (meqn d) f -> (forall i j, 1 <= i <= mx d -> 1 <= j <= my d -> ~ (capacity S X i j == 0)%Q) ->
  let ux := turned (mx d) (my d) count 0 u in
  let uy := turned (mx d) (my d) count 1 u in
  let px := through_x S (meqn d) f ux uy X (dt / dx) (dt / dy) in
  let py := through_y S (meqn d) f ux uy X (dt / dx) (dt / dy) in
  exists q' c, clawpack46_step2 exact d S count dx dy dt garbage q aux = Some (q', c) /\
    exists v, (forall i j m, 1 <= i <= mx d -> 1 <= j <= my d -> 1 <= m <= meqn d -> q' (i, j, m) = Some (v i j m)) /\
    forall m, 1 <= m <= meqn d ->
      (total d (fun i j => capacity S X i j * v i j m) == total d (fun i j => capacity S X i j * u i j m)
        + dt / dx * qsum 1 (my d) (fun j => px 1%Z j m - px (mx d + 1)%Z j m)
        + dt / dy * qsum 1 (mx d) (fun i => py i 1%Z m - py i (my d + 1)%Z m))%Q.
Proof.
  intros d S count dx dy dt garbage q aux u X f HU Hq HX HF HC. cbn zeta.
  destruct (C57_values exact d S count dx dy dt garbage q aux u X HU Hq HX) as (q' & c & E & V & _). exists q', c. split; [exact E|].
  set (ux := turned (mx d) (my d) count 0 u) in *. set (uy := turned (mx d) (my d) count 1 u) in *.
  exists (advanced exact S (meqn d) u ux uy X dx dy dt). split; [exact V|]. intros m Hm. destruct HU as (Hb & Bx & By & _ & _).
  set (px := fun i j => through_x S (meqn d) f ux uy X (dt / dx) (dt / dy) i j m). set (py := fun i j => through_y S (meqn d) f ux uy X (dt / dx) (dt / dy) i j m).
  transitivity (total d (fun i j => capacity S X i j * u i j m + (- (dt / dx)) * (px (i + 1)%Z j - px i j) + (- (dt / dy)) * (py i (j + 1)%Z - py i j))%Q).
  { unfold total. apply qsum_ext. intros i Hi. apply qsum_ext. intros j Hj. rewrite (conservation_form S (meqn d) f u ux uy X dx dy dt i j m HF Hm (HC i j Hi Hj)).
    unfold px, py. ring. }
  unfold total.
  assert (X1 : (qsum 1 (mx d) (fun i => qsum 1 (my d) (fun j => capacity S X i j * u i j m + (- (dt / dx)) * (px (i + 1)%Z j - px i j) + (- (dt / dy)) * (py i (j + 1)%Z - py i j))) ==
    qsum 1 (mx d) (fun i => qsum 1 (my d) (fun j => capacity S X i j * u i j m)) + (- (dt / dx)) * qsum 1 (mx d) (fun i => qsum 1 (my d) (fun j => px (i + 1)%Z j - px i j))
    + (- (dt / dy)) * qsum 1 (mx d) (fun i => qsum 1 (my d) (fun j => py i (j + 1)%Z - py i j)))%Q).
  { rewrite <- !qsum_scale, <- !qsum_add. apply qsum_ext. intros i Hi. rewrite <- !qsum_scale, <- !qsum_add. reflexivity. }
  assert (X4 : (qsum 1 (mx d) (fun i => qsum 1 (my d) (fun j => px (i + 1)%Z j - px i j)) == qsum 1 (my d) (fun j => px (mx d + 1)%Z j - px 1%Z j))%Q).
  { rewrite qsum_swap. apply qsum_ext. intros j Hj. exact (qsum_tele (mx d) (fun i => px i j) ltac:(lia)). }
  assert (X5 : (qsum 1 (mx d) (fun i => qsum 1 (my d) (fun j => py i (j + 1)%Z - py i j)) == qsum 1 (mx d) (fun i => py i (my d + 1)%Z - py i 1%Z))%Q).
  { apply qsum_ext. intros i Hi. exact (qsum_tele (my d) (fun j => py i j) ltac:(lia)). }
  rewrite X1, X4, X5.
  assert (X2 : (qsum 1 (my d) (fun j => px 1%Z j - px (mx d + 1)%Z j) == (-1) * qsum 1 (my d) (fun j => px (mx d + 1)%Z j - px 1%Z j))%Q) by (rewrite <- qsum_scale; apply qsum_ext; intros; ring).
  assert (X3 : (qsum 1 (mx d) (fun i => py i 1%Z - py i (my d + 1)%Z) == (-1) * qsum 1 (mx d) (fun i => py i (my d + 1)%Z - py i 1%Z))%Q) by (rewrite <- qsum_scale; apply qsum_ext; intros; ring).
  unfold px in X2. unfold py in X3. rewrite X2, X3. unfold px, py. ring.
Qed.
Print Assumptions C57_conservative.

(** A cell whose neighbourhood of two cells in all directions has one state keeps it: nothing moves by more than two cells
    in a step, and constant states are preserved exactly, next to sides of the patch as well. *)
Theorem C57_quiet : forall d S count dx dy dt garbage q aux u X q0 i j, usable d S -> (forall k, 0 <= k <= 3 -> count k <> 3) ->
  holds d (meqn d) q u -> holds d (maux S) aux X -> quiet S (meqn d) q0 -> 1 <= i <= mx d -> 1 <= j <= my d ->
  (forall i' j' m, i - 2 <= i' <= i + 2 -> j - 2 <= j' <= j + 2 -> 1 <= m <= meqn d -> u i' j' m = q0 m) ->
  exists q' c, clawpack46_step2 exact d S count dx dy dt garbage q aux = Some (q', c) /\
    forall m, 1 <= m <= meqn d -> exists v, q' (i, j, m) = Some v /\ (v == q0 m)%Q.
Proof.
  intros d S count dx dy dt garbage q aux u X q0 i j HU HC Hq HX HQ Hi Hj H0.
  destruct (C57_values exact d S count dx dy dt garbage q aux u X HU Hq HX) as (q' & c & E & V & _). exists q', c. split; [exact E|].
  intros m Hm. rewrite (V i j m Hi Hj Hm). eexists. split; [reflexivity|].
  assert (T : forall dir i j m, turned (mx d) (my d) count dir u i j m = u i j m).
  { intros dir i' j' m'. apply (not_turned d count). intros [_ C]. revert C. apply HC. unfold corner_number. destruct (i' <? 1), (j' <? 1); lia. }
  rewrite <- (constant_stays S (meqn d) q0 HQ X dx dy dt i j m Hm).
  rewrite (advanced_ext exact S (meqn d) (i - 2) (i + 2) (j - 2) (j + 2) u (fun _ _ => q0) _ (fun _ _ => q0) _ (fun _ _ => q0) X X dx dy dt i j m); try lia.
  - reflexivity.
  - apply HU.
  - intros i' j' m' H1 H2 H3. rewrite T. now apply H0.
  - intros i' j' m' H1 H2 H3. rewrite T. now apply H0.
  - intros i' j' m' _ _ _. reflexivity.
  - apply H0; lia.
Qed.
Print Assumptions C57_quiet.

(** The limiters (all but number 5) switch off at extrema and stay in the region of the total variation diminishing
    methods; all of them leave a wave alone where the solution is smooth. *)
Theorem C57_limiter : forall lim r, 1 <= lim <= 6 ->
  (lim <> 5 -> ((r <= 0)%Q -> (philim exact lim r == 0)%Q) /\
     ((0 < r)%Q -> (0 <= philim exact lim r)%Q /\ (philim exact lim r <= 2)%Q /\ (philim exact lim r <= 2 * r)%Q)) /\
  (philim exact lim 1 == 1)%Q.
Proof.
  intros lim r Hl. rewrite (philim_ok exact lim r Hl), (philim_ok exact lim 1 Hl). split; [intros H5; now apply limiter_range|now apply limiter_smooth].
Qed.
Print Assumptions C57_limiter.

(** The pieces of the work array lie in the work array, and different elements are at different places. *)
Theorem C57_work : forall d S a b c c', 0 <= mbc d -> 0 <= mx d -> 0 <= meqn d -> 0 <= mwaves S -> 0 <= maux S ->
  in_work a = true -> in_work b = true -> in_mem d S (a, c) = true -> in_mem d S (b, c') = true ->
  1 <= work_index d S (a, c) <= mwork d S /\ (work_index d S (a, c) = work_index d S (b, c') -> (a, c) = (b, c')).
Proof.
  intros d S a b c c' Hb Hx Hm Hw Ha Wa Wb Ia Ib. split.
  - pose proof (work_ok2 d S a c Wa Ia) as X. destruct (pieces d S Hb Hx Hm Hw Ha a a Wa Wa) as (P1 & P2 & _). lia.
  - now apply (work_inj d S Hb Hx Hm Hw Ha).
Qed.
Print Assumptions C57_work.

(** *** A concrete case: advection with speed (1, 1/2), limited, second order, with a capacity function. *)
Definition adv_speed (ixy : Z) : Q := if ixy =? 1 then 1 else 1 # 2.
Definition adv_rpn (ixy : Z) (ql qr al ar : list Q) : riemann :=
  let s := adv_speed ixy in let w := (nth 0 qr 0 - nth 0 ql 0)%Q in
  mkR (fun _ _ => w) (fun _ => s) (fun _ => Qmin s 0 * w)%Q (fun _ => Qmax s 0 * w)%Q.
Definition adv_rpt (ixy ilr : Z) (ql qr a1l a1r a2l a2r a3l a3r dq : list Q) : (Z -> Q) * (Z -> Q) :=
  let s := adv_speed (3 - ixy) in (fun _ => Qmin s 0 * nth 0 dq 0, fun _ => Qmax s 0 * nth 0 dq 0)%Q.
Definition adv (mcapa : Z) (m2 m3 : Z) (lim : Z) (fw : bool) : solver := mkS 1 1 mcapa m2 m3 (fun _ => lim) fw adv_rpn adv_rpt.
Definition d57 : dims := mkDims 4 3 2 1.
Definition u57 : field := fun i j m => (i * i + 2 * j)%Z # 3.
Definition x57 : field := fun i j m => (8 + i + 2 * j)%Z # 8.
Definition arr_of (f : field) : arr := fun '(i, j, m) => Some (f i j m).
Definition no_corner (k : Z) : Z := 4.

Example C57_instance :
  usable d57 (adv 1 2 2 4 false) /\ holds d57 1 (arr_of u57) u57 /\ holds d57 1 (arr_of x57) x57 /\
  flux_difference (adv 1 2 2 4 false) 1 (fun ixy q _ m => adv_speed ixy * nth 0 q 0)%Q /\
  (forall i j, 1 <= i <= 4 -> 1 <= j <= 3 -> ~ (capacity (adv 1 2 2 4 false) x57 i j == 0)%Q) /\
  quiet (adv 1 2 2 4 false) 1 (fun _ => 5%Q) /\
  exists q' c, clawpack46_step2 exact d57 (adv 1 2 2 4 false) no_corner 1 1 (1 # 2) (fun _ => None) (arr_of u57) (arr_of x57) = Some (q', c) /\
    (exists v, q' (2, 2, 1) = Some v /\ ~ (v == u57 2%Z 2%Z 1%Z)%Q) /\ (0 < c)%Q.
Proof.
  assert (OK : usable d57 (adv 1 2 2 4 false)) by (unfold usable, options_ok; cbn; repeat split; try lia; intros; lia).
  assert (HQ : holds d57 1 (arr_of u57) u57) by (intros i j m _ _ _; reflexivity).
  assert (HX : holds d57 1 (arr_of x57) x57) by (intros i j m _ _ _; reflexivity).
  split; [exact OK|]. split; [exact HQ|]. split; [exact HX|]. split; [|split; [|split]].
  - intros ixy ql qr al ar m Hm. cbn [rpn adv adv_rpn r_amdq r_apdq]. unfold adv_speed. destruct (ixy =? 1).
    + change (Qmin 1 0) with 0%Q. change (Qmax 1 0) with 1%Q. ring.
    + change (Qmin (1 # 2) 0) with 0%Q. change (Qmax (1 # 2) 0) with (1 # 2)%Q. ring.
  - intros i j Hi Hj. unfold capacity, x57. cbn [mcapa adv Z.eqb Pos.eqb]. unfold Qeq. cbn [Qnum Qden]. lia.
  - split.
    + intros ixy al ar m Hm. cbn zeta. assert (E : m = 1) by lia. subst m. cbn [rpn adv adv_rpn r_amdq r_apdq r_wave].
      change (nth 0 (vec 1 (fun _ => 5%Q)) 0%Q) with 5%Q. split; [ring|]. split; [ring|]. intros mw _. ring.
    + intros ixy ilr ql qr a1l a1r a2l a2r a3l a3r dq m Hm Hz. cbn zeta. cbn [rpt adv adv_rpt fst snd].
      assert (Z0 : (nth 0 dq 0 == 0)%Q) by (destruct dq as [|x dq]; [reflexivity|apply Hz; now left]). rewrite Z0. split; ring.
  - destruct (C57_values exact d57 (adv 1 2 2 4 false) no_corner 1 1 (1 # 2) (fun _ => None) (arr_of u57) (arr_of x57) u57 x57 OK HQ HX) as (q' & c & E & V & _ & L).
    exists q', c. split; [exact E|]. split.
    + eexists. split; [apply V; cbn; lia|]. intros X. apply Qeq_bool_iff in X. vm_compute in X. discriminate X.
    + destruct L as (_ & L & _). eapply Qlt_le_trans; [|apply L]; [|left; exists 1; split; [cbn; lia|]; exists 1; split; [cbn; lia|]; exists 1; split; [cbn; lia|left; reflexivity]].
      vm_compute. reflexivity.
Qed.


(** *** Waves and f-waves.  [T] is the same solver as [S], given by the jumps of the flux instead of those of the solution. *)
Definition same_as_fwaves (S T : solver) (meqn : Z) : Prop :=
  use_fwaves S = false /\ use_fwaves T = true /\ mwaves T = mwaves S /\ maux T = maux S /\ mcapa T = mcapa S /\ method2 T = method2 S /\
  method3 T = method3 S /\ (forall mw, mthlim S mw = 0 /\ mthlim T mw = 0) /\
  (forall ixy ql qr al ar m, 1 <= m <= meqn -> let r := rpn S ixy ql qr al ar in let r' := rpn T ixy ql qr al ar in
     (r_amdq r' m == r_amdq r m)%Q /\ (r_apdq r' m == r_apdq r m)%Q /\
     forall mw, 1 <= mw <= mwaves S -> (r_s r' mw == r_s r mw)%Q /\ (r_wave r' m mw == r_s r mw * r_wave r m mw)%Q) /\
  (forall ixy ilr ql qr a1l a1r a2l a2r a3l a3r dq dq' m, 1 <= m <= meqn -> Forall2 Qeq dq dq' ->
     let r := rpt S ixy ilr ql qr a1l a1r a2l a2r a3l a3r dq in let r' := rpt T ixy ilr ql qr a1l a1r a2l a2r a3l a3r dq' in
     (fst r' m == fst r m)%Q /\ (snd r' m == snd r m)%Q).

Lemma total_ext : forall n f g, (forall k, 1 <= k <= n -> (f k == g k)%Q) -> (total_of exact n f == total_of exact n g)%Q.
Proof.
  intros n f g H. unfold total_of. cbn [add exact]. set (l := zrange 1 n).
  assert (HL : forall k, In k l -> (f k == g k)%Q) by (intros k Hk; apply H; unfold l in Hk; now apply in_zrange in Hk).
  assert (X : forall s t, (s == t)%Q -> (fold_left (fun s k => s + f k) l s == fold_left (fun s k => s + g k) l t)%Q).
  { clear H. clearbody l. induction l as [|k l IH]; intros s t E; [exact E|]. cbn [fold_left]. apply IH.
    - intros k' Hk'. apply HL. now right.
    - rewrite E, (HL k (or_introl eq_refl)). reflexivity. }
  now apply X.
Qed.
Lemma vec_f2 : forall n f g, (forall k, 1 <= k <= n -> (f k == g k)%Q) -> Forall2 Qeq (vec n f) (vec n g).
Proof.
  intros n f g H. unfold vec. set (l := zrange 1 n).
  assert (HL : forall k, In k l -> (f k == g k)%Q) by (intros k Hk; apply H; unfold l in Hk; now apply in_zrange in Hk).
  clearbody l. induction l as [|k l IH]; [constructor|]. cbn [map]. constructor; [apply HL; now left|apply IH; intros; apply HL; now right].
Qed.

Section Fwaves.
  Variable S T : solver.
  Variable meqn : Z.
  Hypothesis HT : same_as_fwaves S T meqn.
  Hypothesis HC : mcapa S = 0.
  Section L.
    Variable ixy : Z.
    Variable u b a c : line.
    Variable r : Z -> Q.
    Hypothesis Hr : forall i i', r i = r i'.
    Lemma fw_rp : forall i m, 1 <= m <= meqn ->
      (r_amdq (at_interface T meqn ixy u a i) m == r_amdq (at_interface S meqn ixy u a i) m)%Q /\
      (r_apdq (at_interface T meqn ixy u a i) m == r_apdq (at_interface S meqn ixy u a i) m)%Q /\
      forall mw, 1 <= mw <= mwaves S -> (speed T meqn ixy u a i mw == speed S meqn ixy u a i mw)%Q /\
        (wave T meqn ixy u a i mw m == speed S meqn ixy u a i mw * wave S meqn ixy u a i mw m)%Q.
    Proof.
      intros i m Hm. destruct HT as (_ & _ & _ & E & _ & _ & _ & _ & HR & _). unfold wave, speed, at_interface. rewrite E. now apply HR.
    Qed.
    Lemma fw_correction : forall i m, 1 <= m <= meqn -> (correction exact T meqn ixy u a r i m == correction exact S meqn ixy u a r i m)%Q.
    Proof.
      intros i m Hm. unfold correction. cbn zeta. destruct HT as (F1 & F2 & W & _ & _ & _ & _ & HL & _). rewrite W, F1, F2. apply total_ext. intros mw Hmw.
      unfold limited. destruct (HL mw) as [L1 L2]. rewrite L1, L2. cbn [Z.eqb orb]. destruct (fw_rp i m Hm) as (_ & _ & R). destruct (R mw Hmw) as [R1 R2].
      cbn [mul sub exact]. generalize (mul exact (1 # 2) (add exact (r (i - 1)) (r i))). intros ave.
      revert R1 R2. generalize (speed T meqn ixy u a i mw) (speed S meqn ixy u a i mw) (wave T meqn ixy u a i mw m) (wave S meqn ixy u a i mw m).
      intros s' s w' w R1 R2. destruct (Qle_bool 0 s') eqn:E; rewrite R2, R1.
      - apply Qle_bool_iff in E. rewrite R1 in E. rewrite (Qabs_pos s E). ring.
      - assert (N : (s <= 0)%Q). { destruct (Qlt_le_dec 0 s) as [P|P]; [|exact P]. exfalso. rewrite <- R1 in P. apply Qlt_le_weak, Qle_bool_iff in P. congruence. }
        rewrite (Qabs_neg s N). ring.
    Qed.
    Lemma fw_amdq : forall i m, 1 <= m <= meqn -> (amdq exact T meqn ixy u a r i m == amdq exact S meqn ixy u a r i m)%Q /\ (apdq exact T meqn ixy u a r i m == apdq exact S meqn ixy u a r i m)%Q.
    Proof.
      intros i m Hm. unfold amdq, apdq, second. cbn zeta. destruct (fw_rp i m Hm) as (R1 & R2 & _). pose proof (fw_correction i m Hm) as C.
      destruct HT as (_ & _ & _ & _ & _ & M2 & M3 & _). rewrite M2, M3. cbn [add sub exact]. destruct (_ && _); split; rewrite ?R1, ?R2, ?C; reflexivity.
    Qed.
    Lemma fw_flux : forall i m, 1 <= m <= meqn -> (flux_left exact T meqn ixy u a r i m == flux_left exact S meqn ixy u a r i m)%Q /\ (flux_right exact T meqn ixy u a r i m == flux_right exact S meqn ixy u a r i m)%Q.
    Proof.
      intros i m Hm. unfold flux_left, flux_right, second. cbn zeta. destruct (fw_rp i m Hm) as (R1 & R2 & _). pose proof (fw_correction i m Hm) as C.
      destruct HT as (_ & _ & _ & _ & _ & M2 & M3 & _). rewrite M2. cbn [add sub mul exact]. destruct (_ =? _); split; rewrite ?R1, ?R2, ?C; reflexivity.
    Qed.
    Lemma fw_part : forall side ilr i f g m, 1 <= m <= meqn -> (forall m, 1 <= m <= meqn -> (f m == g m)%Q) ->
      (part side (transverse T meqn ixy u b a c ilr i f) m == part side (transverse S meqn ixy u b a c ilr i g) m)%Q.
    Proof.
      intros side ilr i f g m Hm E. unfold transverse. destruct HT as (_ & _ & _ & Ea & _ & _ & _ & _ & _ & HR). rewrite Ea.
      assert (G : forall m, 1 <= m <= meqn -> (g m == f m)%Q) by (intros; symmetry; auto).
      destruct (HR ixy ilr (vec meqn (u (i - 1))) (vec meqn (u i)) (vec (maux S) (b (i - 1))) (vec (maux S) (b i))
        (vec (maux S) (a (i - 1))) (vec (maux S) (a i)) (vec (maux S) (c (i - 1))) (vec (maux S) (c i)) _ _ m Hm (vec_f2 meqn g f G)) as [R1 R2].
      unfold part. destruct (side =? 1); assumption.
    Qed.
    Lemma fw_aside : forall i side m, 1 <= m <= meqn -> (aside exact T meqn ixy u b a c r i side m == aside exact S meqn ixy u b a c r i side m)%Q.
    Proof.
      intros i side m Hm. unfold aside. cbn [add sub mul exact].
      pose proof (fw_part side 1 (i + 1) _ (amdq exact S meqn ixy u a r (i + 1)) m Hm (fun k Hk => proj1 (fw_amdq (i + 1) k Hk))) as P1.
      pose proof (fw_part side 2 i _ (apdq exact S meqn ixy u a r i) m Hm (fun k Hk => proj2 (fw_amdq i k Hk))) as P2.
      destruct HT as (F1 & F2 & _ & _ & _ & _ & M3 & _). rewrite M3, F1, F2. rewrite (Hr (i - 1) i). destruct (method3 S =? 0); [reflexivity|]. rewrite P1, P2. reflexivity.
    Qed.
  End L.
  Lemma fw_advanced : forall u ux uy X dx dy dt i j m, 1 <= m <= meqn ->
    (advanced exact T meqn u ux uy X dx dy dt i j m == advanced exact S meqn u ux uy X dx dy dt i j m)%Q.
  Proof.
    intros u ux uy X dx dy dt i j m Hm. unfold advanced. cbn zeta. destruct HT as (_ & _ & _ & _ & Ec & _). rewrite Ec, HC. cbn [Z.eqb].
    assert (R : forall dtd, ratio exact T X dtd = fun _ _ => dtd) by (intros; unfold ratio; rewrite Ec, HC; reflexivity).
    assert (R' : forall dtd, ratio exact S X dtd = fun _ _ => dtd) by (intros; unfold ratio; rewrite HC; reflexivity).
    unfold west_left, west_right, south_left, south_right, row_left, row_right, col_left, col_right, row_aside, col_aside, in_row, in_col.
    rewrite !R, !R'. cbn [add sub mul exact].
    repeat match goal with
    | |- context [flux_left exact T meqn ?ixy ?u ?a ?r ?i m] => rewrite (proj1 (fw_flux ixy u a r i m Hm))
    | |- context [flux_right exact T meqn ?ixy ?u ?a ?r ?i m] => rewrite (proj2 (fw_flux ixy u a r i m Hm))
    | |- context [aside exact T meqn ?ixy ?u ?b ?a ?c ?r ?i ?side m] => rewrite (fw_aside ixy u b a c r (fun _ _ => eq_refl) i side m Hm)
    end. reflexivity.
  Qed.
End Fwaves.

(** Without limiters and without a capacity function both forms of a solver give the same solution. *)
Theorem C57_fwaves : forall d S T count dx dy dt garbage garbage' q aux u X, usable d S -> holds d (meqn d) q u -> holds d (maux S) aux X ->
  same_as_fwaves S T (meqn d) -> mcapa S = 0 ->
  exists p c p' c', clawpack46_step2 exact d S count dx dy dt garbage q aux = Some (p, c) /\ clawpack46_step2 exact d T count dx dy dt garbage' q aux = Some (p', c') /\
    forall i j m, 1 <= i <= mx d -> 1 <= j <= my d -> 1 <= m <= meqn d -> exists x x', p (i, j, m) = Some x /\ p' (i, j, m) = Some x' /\ (x == x')%Q.
Proof.
  intros d S T count dx dy dt garbage garbage' q aux u X HU Hq HX HT HC.
  destruct (C57_values exact d S count dx dy dt garbage q aux u X HU Hq HX) as (p & c & E & V & _).
  assert (HU' : usable d T).
  { destruct HU as (U1 & U2 & U3 & U4 & U5). repeat split; try assumption; destruct HT as (_ & _ & W & Ea & Ec & M2 & M3 & HL & _); destruct U5 as (O1 & O2 & O3 & O4 & O5 & O6); try lia;
    destruct (HL mw) as [_ L]; rewrite L; lia. }
  assert (HX' : holds d (maux T) aux X) by (destruct HT as (_ & _ & _ & Ea & _); rewrite Ea; exact HX).
  destruct (C57_values exact d T count dx dy dt garbage' q aux u X HU' Hq HX') as (p' & c' & E' & V' & _).
  exists p, c, p', c'. split; [exact E|]. split; [exact E'|]. intros i j m Hi Hj Hm. do 2 eexists. split; [now apply V|]. split; [now apply V'|].
  symmetry. now apply fw_advanced.
Qed.
Print Assumptions C57_fwaves.

Definition adv_fwaves (mcapa : Z) : solver :=
  mkS 1 1 mcapa 2 2 (fun _ => 0) true
    (fun ixy ql qr al ar => let r := adv_rpn ixy ql qr al ar in mkR (fun m mw => r_s r mw * r_wave r m mw)%Q (r_s r) (r_amdq r) (r_apdq r)) adv_rpt.
Lemma adv_same : forall mc, same_as_fwaves (adv mc 2 2 0 false) (adv_fwaves mc) 1.
Proof.
  intros mc. unfold same_as_fwaves. cbn [adv adv_fwaves mwaves maux mcapa method2 method3 mthlim use_fwaves rpn rpt].
  repeat split; try reflexivity.
  - cbn zeta. unfold adv_rpt. cbn [fst]. destruct H0; [reflexivity|]. cbn [nth]. rewrite H0. reflexivity.
  - cbn zeta. unfold adv_rpt. cbn [snd]. destruct H0; [reflexivity|]. cbn [nth]. rewrite H0. reflexivity.
Qed.
Example C57_fwaves_instance : usable d57 (adv 0 2 2 0 false) /\ same_as_fwaves (adv 0 2 2 0 false) (adv_fwaves 0) (meqn d57).
Proof. split; [unfold usable, options_ok; cbn; repeat split; intros; lia|apply adv_same]. Qed.

(** With a capacity function they do not: the f-wave routine divides the right-going transverse part of a cell by the
    capacity of the cell to its left. *)
Theorem C57_fwaves_refuted : exists d S T count dx dy dt garbage q aux u X p c p' c' x x', usable d S /\ holds d (meqn d) q u /\ holds d (maux S) aux X /\
  same_as_fwaves S T (meqn d) /\ (forall i j, 1 - mbc d <= i <= mx d + mbc d -> 1 - mbc d <= j <= my d + mbc d -> (0 < capacity S X i j)%Q) /\
  clawpack46_step2 exact d S count dx dy dt garbage q aux = Some (p, c) /\ clawpack46_step2 exact d T count dx dy dt garbage q aux = Some (p', c') /\
  p (2, 2, 1) = Some x /\ p' (2, 2, 1) = Some x' /\ ~ (x == x')%Q.
Proof.
  assert (OK : usable d57 (adv 1 2 2 0 false)) by (unfold usable, options_ok; cbn; repeat split; intros; lia).
  assert (OK' : usable d57 (adv_fwaves 1)) by (unfold usable, options_ok; cbn; repeat split; intros; lia).
  assert (HQ : holds d57 1 (arr_of u57) u57) by (intros i j m _ _ _; reflexivity).
  assert (HX : holds d57 1 (arr_of x57) x57) by (intros i j m _ _ _; reflexivity).
  destruct (C57_values exact d57 (adv 1 2 2 0 false) no_corner 1 1 (1 # 2) (fun _ => None) (arr_of u57) (arr_of x57) u57 x57 OK HQ HX) as (p & c & E & V & _).
  destruct (C57_values exact d57 (adv_fwaves 1) no_corner 1 1 (1 # 2) (fun _ => None) (arr_of u57) (arr_of x57) u57 x57 OK' HQ HX) as (p' & c' & E' & V' & _).
  exists d57, (adv 1 2 2 0 false), (adv_fwaves 1), no_corner, 1%Q, 1%Q, (1 # 2)%Q, (fun _ => None), (arr_of u57), (arr_of x57), u57, x57, p, c, p', c'. do 2 eexists.
  split; [exact OK|]. split; [exact HQ|]. split; [exact HX|]. split; [apply adv_same|]. split.
  { intros i j Hi Hj. unfold capacity, x57. cbn [mcapa adv Z.eqb Pos.eqb]. cbn in Hi, Hj. unfold Qlt. cbn [Qnum Qden]. lia. }
  split; [exact E|]. split; [exact E'|]. split; [apply V; cbn; lia|]. split; [apply V'; cbn; lia|].
  intros X. apply Qeq_bool_iff in X. vm_compute in X. discriminate X.
Qed.
Print Assumptions C57_fwaves_refuted.

(** One layer of ghost cells is not enough when waves are limited: the routine then reads beyond its arrays, whatever is in
    them.  Nothing checks this; the default is two layers. *)
Theorem C57_one_ghost_layer_refuted : exists d S, mbc d = 1 /\ 1 <= mx d /\ 1 <= my d /\ options_ok S /\
  clawpack46_step2 exact d S no_corner 1 1 (1 # 2) (fun _ => Some 0%Q) (arr_of u57) (arr_of x57) = None.
Proof.
  exists (mkDims 4 3 1 1), (adv 0 2 2 4 false). split; [reflexivity|]. split; [cbn; lia|]. split; [cbn; lia|].
  split; [unfold options_ok; cbn; repeat split; intros; lia|]. vm_compute. reflexivity.
Qed.
Print Assumptions C57_one_ghost_layer_refuted.

(** The order is not checked either: with order = 3 2 the transverse step uses corrections that were never computed. *)
Theorem C57_order_refuted : exists d S, 2 <= mbc d /\ mbc d <= mx d /\ mbc d <= my d /\ method2 S = 3 /\ method3 S = 2 /\
  clawpack46_step2 exact d S no_corner 1 1 (1 # 2) (fun _ => None) (arr_of u57) (arr_of x57) = None.
Proof. exists d57, (adv 0 3 2 0 false). do 3 (split; [cbn; lia|]). do 2 (split; [reflexivity|]). vm_compute. reflexivity. Qed.
Print Assumptions C57_order_refuted.
