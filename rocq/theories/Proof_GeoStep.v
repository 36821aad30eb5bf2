(** Proofs about one step of GeoClaw's solver. *)
From Coq Require Import ZArith QArith Qminmax Qabs List Bool Lia Lqa.
From Verif Require Import Model_GeoLimiter Model_GeoStep Spec_GeoLimiter Spec_GeoStep Proof_GeoLimiter.
Import ListNotations.
Open Scope Q_scope.

Lemma inr_iff lo hi i : inr lo hi i = true <-> (lo <= i <= hi)%Z.
Proof. unfold inr. rewrite andb_true_iff, !Z.leb_le. reflexivity. Qed.
Lemma in_zlist lo hi x : In x (zlist lo hi) <-> (lo <= x <= hi)%Z.
Proof.
  unfold zlist. rewrite in_map_iff. split.
  - intros (k & <- & I). apply in_seq in I. lia.
  - intros H. exists (Z.to_nat (x - lo)). split; [lia|]. apply in_seq. lia.
Qed.

(** a quantity to which one iteration of a loop adds *)
Lemma fold_add {A} (step : A -> Z -> A) (D : A -> Q) (add : Q) (idx : Z) :
  (forall st k, D (step st k) == D st + (if (k =? idx)%Z then add else 0)) ->
  forall lo hi st, D (fold_left step (zlist lo hi) st) == D st + (if inr lo hi idx then add else 0).
Proof.
  intros H lo hi st. unfold zlist.
  assert (X : forall n, D (fold_left step (map (fun k => (lo + Z.of_nat k)%Z) (seq 0 n)) st) == D st + (if inr lo (lo + Z.of_nat n - 1) idx then add else 0)).
  { induction n as [|n IH].
    - cbn [seq map fold_left]. destruct (inr lo (lo + Z.of_nat 0 - 1) idx) eqn:G; [apply inr_iff in G; lia|ring].
    - rewrite seq_S, map_app, fold_left_app. cbn [Nat.add map fold_left]. rewrite H, IH.
      destruct (Z.eqb_spec (lo + Z.of_nat n) idx) as [E|N].
      + destruct (inr lo (lo + Z.of_nat n - 1) idx) eqn:G; [apply inr_iff in G; lia|].
        replace (inr lo (lo + Z.of_nat (S n) - 1) idx) with true by (symmetry; apply inr_iff; lia). ring.
      + replace (inr lo (lo + Z.of_nat (S n) - 1) idx) with (inr lo (lo + Z.of_nat n - 1) idx); [ring|].
        apply eq_true_iff_eq. rewrite !inr_iff. lia. }
  rewrite X. destruct (Z.leb_spec lo (hi + 1)).
  - replace (lo + Z.of_nat (Z.to_nat (hi - lo + 1)) - 1)%Z with hi by lia. reflexivity.
  - replace (inr lo (lo + Z.of_nat (Z.to_nat (hi - lo + 1)) - 1) idx) with (inr lo hi idx); [reflexivity|].
    apply eq_true_iff_eq. rewrite !inr_iff. lia.
Qed.
Lemma fold_inv {A B} (step : A -> B -> A) (P : A -> Prop) l : (forall st k, P st -> P (step st k)) -> forall st, P st -> P (fold_left step l st).
Proof. intros H. induction l as [|k l IH]; intros st Hs; cbn [fold_left]; auto. Qed.
Lemma fold_inv_in {A} (step : A -> Z -> A) (P : A -> Prop) l : (forall st k, In k l -> P st -> P (step st k)) -> forall st, P st -> P (fold_left step l st).
Proof.
  induction l as [|k l IH]; intros H st Hs; cbn [fold_left]; [assumption|].
  apply IH; [intros st' k' I; apply H; now right|apply H; [now left|exact Hs]].
Qed.

Section Step.
  Variable S : setup.
  Variables (bcc : Z -> Z) (q aux : grid) (capa : option (Z -> Z -> Q)).

  (** jumps *)
  Lemma flux2_jump ixy n q1d dt1d a1 a2 a3 m i : inr (2 - g_mbc S) (n + g_mbc S - 1) i = true ->
    faddm (flux2 S ixy n q1d dt1d a1 a2 a3) m i - faddp (flux2 S ixy n q1d dt1d a1 a2 a3) m i == jump (rpn2 S ixy q1d a2) m i.
  Proof. intros H. unfold flux2. cbn [faddm faddp]. rewrite H. unfold jump. ring. Qed.
  Lemma flux2_g ixy n q1d dt1d a1 a2 a3 : gaddp (flux2 S ixy n q1d dt1d a1 a2 a3) = gaddm (flux2 S ixy n q1d dt1d a1 a2 a3).
  Proof. reflexivity. Qed.

  Lemma xsweep_F dtdx m i j st k : (1 <= i <= g_mx S + 1)%Z -> (2 <= g_mbc S)%Z ->
    Fm (xsweep S bcc q aux capa dtdx st k) m i j - Fp (xsweep S bcc q aux capa dtdx st k) m i j ==
    (Fm st m i j - Fp st m i j) + (if (k =? j)%Z then jump (in_row S bcc q aux j) m i else 0).
  Proof.
    intros Hi Hb. unfold xsweep. cbn [Fm Fp]. rewrite (proj2 (inr_iff 1 (g_mx S + 1) i)) by lia. rewrite andb_true_r, (Z.eqb_sym j k).
    destruct (Z.eqb_spec k j) as [->|]; [|ring].
    rewrite <- (flux2_jump 1 (g_mx S) (row S bcc q j) (fun i => match capa with Some k => dtdx / k i j | None => dtdx end)
      (fun m i => aux m i (j - 1)%Z) (fun m i => aux m i j) (fun m i => aux m i (j + 1)%Z) m i) by (apply inr_iff; lia).
    unfold xflux. ring.
  Qed.
  Lemma xsweep_G dtdx m i j st k :
    Gm (xsweep S bcc q aux capa dtdx st k) m i j - Gp (xsweep S bcc q aux capa dtdx st k) m i j == Gm st m i j - Gp st m i j.
  Proof.
    unfold xsweep. cbn [Gm Gp]. unfold xflux. rewrite flux2_g. set (A := flux2 _ _ _ _ _ _ _ _).
    destruct (inr 1 (g_mx S + 1) i); [|ring]. destruct (j =? k)%Z; [ring|]. destruct (j =? k + 1)%Z; ring.
  Qed.
  Lemma ysweep_G dtdy m i j st k : (1 <= j <= g_my S + 1)%Z -> (2 <= g_mbc S)%Z ->
    Gm (ysweep S bcc q aux capa dtdy st k) m i j - Gp (ysweep S bcc q aux capa dtdy st k) m i j ==
    (Gm st m i j - Gp st m i j) + (if (k =? i)%Z then jump (in_column S bcc q aux i) m j else 0).
  Proof.
    intros Hi Hb. unfold ysweep. cbn [Gm Gp]. rewrite (proj2 (inr_iff 1 (g_my S + 1) j)) by lia. rewrite andb_true_r, (Z.eqb_sym i k).
    destruct (Z.eqb_spec k i) as [->|]; [|ring].
    rewrite <- (flux2_jump 2 (g_my S) (column S bcc q i) (fun j => match capa with Some k => dtdy / k i j | None => dtdy end)
      (fun m j => aux m (i - 1)%Z j) (fun m j => aux m i j) (fun m j => aux m (i + 1)%Z j) m j) by (apply inr_iff; lia).
    unfold yflux. ring.
  Qed.
  Lemma ysweep_F dtdy m i j st k :
    Fm (ysweep S bcc q aux capa dtdy st k) m i j - Fp (ysweep S bcc q aux capa dtdy st k) m i j == Fm st m i j - Fp st m i j.
  Proof.
    unfold ysweep. cbn [Fm Fp]. unfold yflux. rewrite flux2_g. set (A := flux2 _ _ _ _ _ _ _ _).
    destruct (inr 1 (g_my S + 1) j); [|ring]. destruct (i =? k)%Z; [ring|]. destruct (i =? k + 1)%Z; ring.
  Qed.
  Lemma step2_F dtdx dtdy m i j : (1 <= i <= g_mx S + 1)%Z -> (0 <= j <= g_my S + 1)%Z -> (2 <= g_mbc S)%Z ->
    let F := step2 S bcc q aux capa dtdx dtdy in Fm F m i j - Fp F m i j == jump (in_row S bcc q aux j) m i.
  Proof.
    intros Hi Hj Hb. cbv zeta. unfold step2. set (st := fold_left _ (zlist 0 (g_my S + 1)) _).
    assert (X : Fm st m i j - Fp st m i j == jump (in_row S bcc q aux j) m i).
    { unfold st. rewrite (fold_add (xsweep S bcc q aux capa dtdx) (fun st => Fm st m i j - Fp st m i j) (jump (in_row S bcc q aux j) m i) j)
        by (intros; now apply xsweep_F).
      cbn [Fm Fp]. rewrite (proj2 (inr_iff 0 (g_my S + 1) j)) by lia. ring. }
    rewrite <- X. apply (fold_inv (ysweep S bcc q aux capa dtdy) (fun s => Fm s m i j - Fp s m i j == Fm st m i j - Fp st m i j)); [|reflexivity].
    intros s k Hs. now rewrite ysweep_F.
  Qed.
  Lemma step2_G dtdx dtdy m i j : (0 <= i <= g_mx S + 1)%Z -> (1 <= j <= g_my S + 1)%Z -> (2 <= g_mbc S)%Z ->
    let F := step2 S bcc q aux capa dtdx dtdy in Gm F m i j - Gp F m i j == jump (in_column S bcc q aux i) m j.
  Proof.
    intros Hi Hj Hb. cbv zeta. unfold step2. set (st := fold_left _ (zlist 0 (g_my S + 1)) _).
    assert (X : Gm st m i j - Gp st m i j == 0).
    { unfold st. apply (fold_inv (xsweep S bcc q aux capa dtdx) (fun s => Gm s m i j - Gp s m i j == 0)); [|cbn [Gm Gp]; ring].
      intros s k Hs. now rewrite xsweep_G. }
    rewrite (fold_add (ysweep S bcc q aux capa dtdy) (fun st => Gm st m i j - Gp st m i j) (jump (in_column S bcc q aux i) m j) i)
      by (intros; now apply ysweep_G).
    rewrite X, (proj2 (inr_iff 0 (g_mx S + 1) i)) by lia. ring.
  Qed.

  (** rest *)
  Lemma cqxx_zero s w dt m i : (forall m mw i, w m mw i == 0) -> cqxx_of S s w dt m i == 0.
  Proof.
    intros H. unfold cqxx_of. apply (fold_inv _ (fun a => a == 0)); [|reflexivity]. intros a mw Ha. rewrite Ha, H. ring.
  Qed.
  Lemma flux2_rest ixy n q1d dt1d a1 a2 a3 : (-1 <= n)%Z -> quiet (rpn2 S ixy q1d a2) -> linear_at_zero S ->
    let A := flux2 S ixy n q1d dt1d a1 a2 a3 in
    forall m i, faddm A m i == 0 /\ faddp A m i == 0 /\ forall k, gaddm A k m i == 0 /\ gaddp A k m i == 0.
  Proof.
    intros Hn (Qw & Qm & Qp) L. cbv zeta. intros m i. unfold flux2. set (R := rpn2 S ixy q1d a2) in *.
    set (w := if limit S then _ else _).
    assert (W : forall m mw i, w m mw i == 0).
    { intros m' mw' i'. unfold w. destruct (limit S); [|apply Qw]. rewrite limiter_eq by assumption. destruct (_ && _); [|apply Qw].
      unfold limval. destruct (Qeq_bool _ 0); [apply Qw|]. rewrite Qw. ring. }
    set (dtav := fun i : Z => if negb (g_method2 S =? 1)%Z && inr 0 n i then (1 # 2) * (dt1d i + dt1d (i + 1)%Z) else dt1d i). set (cq := cqxx_of S (r_s R) w dtav).
    assert (C : forall m i, cq m i == 0) by (intros; now apply cqxx_zero).
    cbn [faddm faddp gaddm gaddp].
    set (am := fun m i : Z => if (1 <? g_method2 S)%Z && (g_method3 S =? 2)%Z && inr 1 (n + 1) i then r_amdq R m i + cq m i else r_amdq R m i).
    set (ap := fun m i : Z => if (1 <? g_method2 S)%Z && (g_method3 S =? 2)%Z && inr 1 (n + 1) i then r_apdq R m i - cq m i else r_apdq R m i).
    assert (G : forall k, (if (g_method3 S =? 0)%Z then 0
      else (0 - (if inr 1 (n + 1) (i + 1) then (1 # 2) * dtav i * (if (k =? 1)%Z then fst (rpt2 S ixy 1 q1d a1 a2 a3 am) else snd (rpt2 S ixy 1 q1d a1 a2 a3 am)) m (i + 1)%Z else 0))
             - (if inr 1 (n + 1) i then (1 # 2) * dtav (i - 1)%Z * (if (k =? 1)%Z then fst (rpt2 S ixy 2 q1d a1 a2 a3 ap) else snd (rpt2 S ixy 2 q1d a1 a2 a3 ap)) m i else 0)) == 0).
    { intros k.
      assert (ZA : forall m i, am m i == 0) by (intros m' i'; unfold am; pose proof (C m' i'); pose proof (Qm m' i'); match goal with |- (if ?b then _ else _) == 0 => destruct b end; lra).
      assert (ZP : forall m i, ap m i == 0) by (intros m' i'; unfold ap; pose proof (C m' i'); pose proof (Qp m' i'); match goal with |- (if ?b then _ else _) == 0 => destruct b end; lra).
      pose proof (L ixy 1%Z q1d a1 a2 a3 am ZA m (i + 1)%Z) as [L1 L2]. pose proof (L ixy 2%Z q1d a1 a2 a3 ap ZP m i) as [L3 L4].
      destruct (g_method3 S =? 0)%Z; [reflexivity|].
      destruct (inr 1 (n + 1) (i + 1)), (inr 1 (n + 1) i), (k =? 1)%Z; rewrite ?L1, ?L2, ?L3, ?L4; ring. }
    split; [|split; [|intros k; split; exact (G k)]].
    - pose proof (C m i). pose proof (Qm m i). destruct (inr (2 - g_mbc S) _ i), (negb (g_method2 S =? 1)%Z && inr 1 (n + 1) i); lra.
    - pose proof (C m i). pose proof (Qp m i). destruct (inr (2 - g_mbc S) _ i), (negb (g_method2 S =? 1)%Z && inr 1 (n + 1) i); lra.
  Qed.
  Definition allzero (F : fluxes) : Prop := forall m i j, Fm F m i j == 0 /\ Fp F m i j == 0 /\ Gm F m i j == 0 /\ Gp F m i j == 0.
  Lemma step2_rest dtdx dtdy : (0 <= g_mx S)%Z -> (0 <= g_my S)%Z -> linear_at_zero S ->
    (forall j, (0 <= j <= g_my S + 1)%Z -> quiet (in_row S bcc q aux j)) -> (forall i, (0 <= i <= g_mx S + 1)%Z -> quiet (in_column S bcc q aux i)) ->
    allzero (step2 S bcc q aux capa dtdx dtdy).
  Proof.
    intros Hx Hy L QR QC. unfold step2. apply fold_inv_in.
    - intros st k Hk Z0 m i j. apply in_zlist in Hk. destruct (Z0 m i j) as (A1 & A2 & A3 & A4).
      destruct (flux2_rest 2 (g_my S) (column S bcc q k) (fun j => match capa with Some c => dtdy / c k j | None => dtdy end)
        (fun m j => aux m (k - 1)%Z j) (fun m j => aux m k j) (fun m j => aux m (k + 1)%Z j) ltac:(lia) (QC k Hk) L m j) as (B1 & B2 & B3).
      unfold ysweep. cbn [Fm Fp Gm Gp]. unfold yflux.
      destruct (B3 1%Z) as [C1 C2]. destruct (B3 2%Z) as [C3 C4].
      destruct (inr 1 (g_my S + 1) j), (i =? k)%Z, (i =? k + 1)%Z; cbn [andb]; rewrite ?A1, ?A2, ?A3, ?A4, ?B1, ?B2, ?C1, ?C2, ?C3, ?C4; repeat split; ring.
    - apply fold_inv_in.
      + intros st k Hk Z0 m i j. apply in_zlist in Hk. destruct (Z0 m i j) as (A1 & A2 & A3 & A4).
        destruct (flux2_rest 1 (g_mx S) (row S bcc q k) (fun i => match capa with Some c => dtdx / c i k | None => dtdx end)
          (fun m i => aux m i (k - 1)%Z) (fun m i => aux m i k) (fun m i => aux m i (k + 1)%Z) ltac:(lia) (QR k Hk) L m i) as (B1 & B2 & B3).
        unfold xsweep. cbn [Fm Fp Gm Gp]. unfold xflux.
        destruct (B3 1%Z) as [C1 C2]. destruct (B3 2%Z) as [C3 C4].
        destruct (inr 1 (g_mx S + 1) i), (j =? k)%Z, (j =? k + 1)%Z; cbn [andb]; rewrite ?A1, ?A2, ?A3, ?A4, ?B1, ?B2, ?C1, ?C2, ?C3, ?C4; repeat split; ring.
      + intros m i j. cbn [Fm Fp Gm Gp]. repeat split; reflexivity.
  Qed.

  (** Courant number *)
  Lemma fold_max {B} (f : Q -> B -> Q) l : (forall c x, c <= f c x) -> forall c, c <= fold_left f l c.
  Proof. intros H. induction l as [|x l IH]; intros c; cbn [fold_left]; [apply Qle_refl|]. eapply Qle_trans; [apply H|apply IH]. Qed.
  Lemma fold_max_in {B} (f : Q -> B -> Q) (v : Q) x l : (forall c y, c <= f c y) -> (forall c, v <= f c x) -> In x l -> forall c, v <= fold_left f l c.
  Proof.
    intros H V. induction l as [|y l IH]; intros I c; cbn [fold_left]; [destruct I|]. destruct I as [->|I]; [|now apply IH].
    eapply Qle_trans; [apply (V c)|]. now apply fold_max.
  Qed.
  Lemma courant_ge n s dt mw i : (1 <= mw <= g_mwaves S)%Z -> (1 <= i <= n + 1)%Z ->
    dt i * s mw i <= courant S n s dt /\ - dt (i - 1)%Z * s mw i <= courant S n s dt.
  Proof.
    intros Hw Hi. unfold courant.
    set (g := fun c i => Qmax (Qmax c (dt i * s mw i)) (- dt (i - 1)%Z * s mw i)).
    assert (M : forall mw c x, c <= Qmax (Qmax c (dt x * s mw x)) (- dt (x - 1)%Z * s mw x)).
    { intros. eapply Qle_trans; [apply Q.le_max_l|apply Q.le_max_l]. }
    split; apply (fold_max_in _ _ mw); try (apply in_zlist; lia); try (intros c y; apply fold_max; intros; apply M);
      intros c; apply (fold_max_in _ _ i); try (apply in_zlist; lia); try (intros; apply M); intros c'.
    - eapply Qle_trans; [apply Q.le_max_r|apply Q.le_max_l].
    - apply Q.le_max_r.
  Qed.
End Step.

(** values *)
Lemma fold_sum {A} (step : A -> Z -> A) (D : A -> Q) (f : Z -> Q) l :
  (forall st k, D (step st k) == D st + f k) -> forall st, D (fold_left step l st) == D st + fold_left (fun a k => a + f k) l 0.
Proof.
  intros H. assert (X : forall l a, fold_left (fun a k => a + f k) l a == a + fold_left (fun a k => a + f k) l 0).
  { induction l0 as [|k l0 IH]; intros a; cbn [fold_left]; [ring|]. rewrite (IH (a + f k)), (IH (0 + f k)). ring. }
  induction l as [|k l IH]; intros st; cbn [fold_left]; [ring|]. rewrite IH, H, (X l (0 + f k)). ring.
Qed.
Lemma fold_two (f g : Z -> Q) l : fold_left (fun a k => a + (f k + g k)) l 0 == fold_left (fun a k => a + f k) l 0 + fold_left (fun a k => a + g k) l 0.
Proof.
  assert (X : forall l a b c, c == a + b -> fold_left (fun a k => a + (f k + g k)) l c == fold_left (fun a k => a + f k) l a + fold_left (fun a k => a + g k) l b).
  { induction l0 as [|k l0 IH]; intros a b c H; cbn [fold_left]; [exact H|]. apply IH. rewrite H. ring. }
  apply X. ring.
Qed.
Lemma fold_add2 {A} (step : A -> Z -> A) (D : A -> Q) (a b : Q) (i1 i2 : Z) :
  (forall st k, D (step st k) == D st + ((if (k =? i1)%Z then a else 0) + (if (k =? i2)%Z then b else 0))) ->
  forall lo hi st, D (fold_left step (zlist lo hi) st) == D st + ((if inr lo hi i1 then a else 0) + (if inr lo hi i2 then b else 0)).
Proof.
  intros H lo hi st. rewrite (fold_sum step D _ (zlist lo hi) H), fold_two.
  rewrite (fold_add (fun x k => x + (if (k =? i1)%Z then a else 0)) (fun x => x) a i1) by reflexivity.
  rewrite (fold_add (fun x k => x + (if (k =? i2)%Z then b else 0)) (fun x => x) b i2) by reflexivity. ring.
Qed.
Lemma fold_total n f : fold_left (fun a k => a + f k) (zlist 1 n) 0 == sum_to n f.
Proof.
  unfold zlist, sum_to. replace (Z.to_nat (n - 1 + 1)) with (Z.to_nat n) by lia. induction (Z.to_nat n) as [|k IH]; [reflexivity|].
  rewrite seq_S, map_app, fold_left_app. cbn [Nat.add map fold_left total]. rewrite IH.
  replace (1 + Z.of_nat k)%Z with (Z.of_nat (S k)) by lia. reflexivity.
Qed.
Lemma total_ext n f g : (forall i, (1 <= i <= n)%Z -> f i == g i) -> sum_to n f == sum_to n g.
Proof.
  intros H. unfold sum_to. destruct (Z.leb_spec n 0); [replace (Z.to_nat n) with O by lia; reflexivity|].
  assert (X : forall k, (k <= Z.to_nat n)%nat -> total k f == total k g).
  { induction k as [|k IH]; intros Hk; [reflexivity|]. cbn [total]. rewrite IH, H by lia. reflexivity. }
  now apply X.
Qed.
Lemma sgn_code s : (if Qle_bool 0 s then 1 else -(1)) = sgn s.
Proof.
  unfold sgn. destruct (Qlt_le_dec s 0) as [L|L].
  - destruct (Qle_bool 0 s) eqn:E; [apply Qle_bool_iff in E; exfalso; apply (Qlt_not_le _ _ L E)|reflexivity].
  - apply Qle_bool_iff in L. now rewrite L.
Qed.

Section Values.
  Variable S : setup.
  Hypothesis Hlim : forall mw, (0 <= g_mthlim S mw)%Z.
  Hypothesis Hres : respects S.
  Hypothesis Hord : (1 <= g_method2 S)%Z.
  Hypothesis Hmbc : (2 <= g_mbc S)%Z.

  Lemma limited_eq n s w m mw i : (-1 <= n)%Z -> (1 <= mw <= g_mwaves S)%Z ->
    (if limit S then limiter (g_nan S) (g_meqn S) (g_mwaves S) n s (g_mthlim S) w else w) m mw i =
    limiter (g_nan S) (g_meqn S) (g_mwaves S) n s (g_mthlim S) w m mw i.
  Proof.
    intros Hn Hw. destruct (limit S) eqn:E; [reflexivity|]. rewrite limiter_eq by assumption.
    assert (Z0 : g_mthlim S mw = 0%Z).
    { pose proof (Hlim mw). destruct (Z.eqb_spec (g_mthlim S mw) 0); [assumption|]. exfalso.
      assert (X : limit S = true) by (apply existsb_exists; exists mw; split; [apply in_zlist; lia|apply Z.ltb_lt; lia]). congruence. }
    rewrite Z0. cbn [Z.eqb negb]. rewrite ?andb_false_r. reflexivity.
  Qed.
  Lemma cqxx_second n R d dtav m i : (-1 <= n)%Z -> g_method2 S <> 1%Z -> dtav (i - 1)%Z == d ->
    cqxx_of S (r_s R) (if limit S then limiter (g_nan S) (g_meqn S) (g_mwaves S) n (r_s R) (g_mthlim S) (r_fwave R) else r_fwave R) dtav m i ==
    2 * second S R n d m i.
  Proof.
    intros Hn H2 Hd. unfold cqxx_of, second. rewrite (proj2 (Z.eqb_neq _ _) H2).
    rewrite (fold_total (g_mwaves S) (fun mw => _)).
    set (t := sum_to (g_mwaves S) (fun mw => sgn _ * _ * _)).
    match goal with |- ?x == _ => assert (X : x == t) end; [|rewrite X; ring].
    apply total_ext. intros mw Hw. rewrite sgn_code, limited_eq, Hd by assumption. reflexivity.
  Qed.
  Lemma flux2_values ixy n q1d d dt1d a1 a2 a3 : (0 <= n)%Z -> (forall i, dt1d i == d) ->
    let R := rpn2 S ixy q1d a2 in let A := flux2 S ixy n q1d dt1d a1 a2 a3 in
    let T := fun imp x => rpt2 S ixy imp q1d a1 a2 a3 x in
    let side := fun k (b : slice * slice) => if (k =? 1)%Z then fst b else snd b in
    (forall m i, (1 <= i <= n + 1)%Z -> faddm A m i == r_amdq R m i + second S R n d m i) /\
    (forall k m i, (1 <= i <= n)%Z -> gaddm A k m i == if (g_method3 S =? 0)%Z then 0 else
       - (1 # 2) * d * (side k (T 1%Z (leftgoing S R n d)) m (i + 1)%Z + side k (T 2%Z (rightgoing S R n d)) m i)).
  Proof.
    intros Hn Hd. cbv zeta. unfold flux2. set (R := rpn2 S ixy q1d a2). cbn [faddm gaddm].
    set (dtav := fun i : Z => if negb (g_method2 S =? 1)%Z && inr 0 n i then (1 # 2) * (dt1d i + dt1d (i + 1)%Z) else dt1d i).
    assert (DA : forall i, dtav i == d) by (intros i; unfold dtav; destruct (_ && _); rewrite !Hd; ring).
    clearbody dtav. set (cq := cqxx_of S (r_s R) _ dtav).
    assert (C : g_method2 S <> 1%Z -> forall m i, cq m i == 2 * second S R n d m i) by (intros H2 m i; apply cqxx_second; [lia|exact H2|apply DA]).
    assert (C1 : g_method2 S = 1%Z -> forall m i, second S R n d m i == 0) by (intros H2 m i; unfold second; rewrite H2; reflexivity).
    clearbody cq. split.
    - intros m i Hi. rewrite (proj2 (inr_iff (2 - g_mbc S) (n + g_mbc S - 1) i)), (proj2 (inr_iff 1 (n + 1) i)) by lia. rewrite andb_true_r.
      destruct (Z.eqb_spec (g_method2 S) 1) as [E|E]; cbn [negb]; [rewrite (C1 E)|rewrite (C E)]; ring.
    - intros k m i Hi. destruct (g_method3 S =? 0)%Z eqn:M3; [reflexivity|].
      rewrite (proj2 (inr_iff 1 (n + 1) i)), (proj2 (inr_iff 1 (n + 1) (i + 1))) by lia.
      set (am := fun m i : Z => if (1 <? g_method2 S)%Z && (g_method3 S =? 2)%Z && inr 1 (n + 1) i then r_amdq R m i + cq m i else r_amdq R m i).
      set (ap := fun m i : Z => if (1 <? g_method2 S)%Z && (g_method3 S =? 2)%Z && inr 1 (n + 1) i then r_apdq R m i - cq m i else r_apdq R m i).
      assert (EA : forall m i, am m i == leftgoing S R n d m i).
      { intros m' i'. unfold am, leftgoing, inr. destruct (Z.ltb_spec 1 (g_method2 S)); cbn [andb].
        - rewrite andb_assoc. destruct (_ && _ && _)%bool; [rewrite (C ltac:(lia))|]; ring.
        - destruct (_ && _ && _)%bool; [rewrite (C1 ltac:(lia))|]; ring. }
      assert (EP : forall m i, ap m i == rightgoing S R n d m i).
      { intros m' i'. unfold ap, rightgoing, inr. destruct (Z.ltb_spec 1 (g_method2 S)); cbn [andb].
        - rewrite andb_assoc. destruct (_ && _ && _)%bool; [rewrite (C ltac:(lia))|]; ring.
        - destruct (_ && _ && _)%bool; [rewrite (C1 ltac:(lia))|]; ring. }
      destruct (Hres ixy 1%Z q1d a1 a2 a3 _ _ EA m (i + 1)%Z) as [L1 L2]. destruct (Hres ixy 2%Z q1d a1 a2 a3 _ _ EP m i) as [R1 R2].
      destruct (negb (g_method2 S =? 1)%Z && inr 0 n i), (negb (g_method2 S =? 1)%Z && inr 0 n (i - 1)); rewrite !Hd; (destruct (k =? 1)%Z; [rewrite L1, R1|rewrite L2, R2]; ring).
  Qed.

  Variables (bcc : Z -> Z) (q aux : grid).
  Lemma step2_Fm dtdx dtdy m i j : (1 <= i <= g_mx S + 1)%Z -> (1 <= j <= g_my S)%Z ->
    Fm (step2 S bcc q aux None dtdx dtdy) m i j ==
    faddm (xflux S bcc q aux None dtdx j) m i + (gaddm (yflux S bcc q aux None dtdy i) 1 m j + gaddm (yflux S bcc q aux None dtdy (i - 1)) 2 m j).
  Proof.
    intros Hi Hj. unfold step2.
    rewrite (fold_add2 (ysweep S bcc q aux None dtdy) (fun st => Fm st m i j) (gaddm (yflux S bcc q aux None dtdy i) 1 m j) (gaddm (yflux S bcc q aux None dtdy (i - 1)) 2 m j) i (i - 1)).
    - rewrite (fold_add (xsweep S bcc q aux None dtdx) (fun st => Fm st m i j) (faddm (xflux S bcc q aux None dtdx j) m i) j).
      + cbn [Fm]. rewrite (proj2 (inr_iff 0 (g_my S + 1) j)), (proj2 (inr_iff 0 (g_mx S + 1) i)), (proj2 (inr_iff 0 (g_mx S + 1) (i - 1))) by lia. ring.
      + intros st k. unfold xsweep. cbn [Fm]. rewrite (proj2 (inr_iff 1 (g_mx S + 1) i)) by lia. rewrite andb_true_r, (Z.eqb_sym j k).
        destruct (Z.eqb_spec k j) as [->|]; ring.
    - intros st k. unfold ysweep. cbn [Fm]. rewrite (proj2 (inr_iff 1 (g_my S + 1) j)) by lia. rewrite (Z.eqb_sym i k).
      destruct (Z.eqb_spec k i) as [->|N].
      + destruct (Z.eqb_spec i (i - 1)); [lia|]. ring.
      + destruct (Z.eqb_spec i (k + 1)) as [->|N2].
        * replace (k + 1 - 1)%Z with k by lia. rewrite Z.eqb_refl. ring.
        * destruct (Z.eqb_spec k (i - 1)); [lia|]. ring.
  Qed.
  Lemma step2_Gm dtdx dtdy m i j : (1 <= i <= g_mx S)%Z -> (1 <= j <= g_my S + 1)%Z ->
    Gm (step2 S bcc q aux None dtdx dtdy) m i j ==
    faddm (yflux S bcc q aux None dtdy i) m j + (gaddm (xflux S bcc q aux None dtdx j) 1 m i + gaddm (xflux S bcc q aux None dtdx (j - 1)) 2 m i).
  Proof.
    intros Hi Hj. unfold step2.
    rewrite (fold_add (ysweep S bcc q aux None dtdy) (fun st => Gm st m i j) (faddm (yflux S bcc q aux None dtdy i) m j) i).
    - rewrite (fold_add2 (xsweep S bcc q aux None dtdx) (fun st => Gm st m i j) (gaddm (xflux S bcc q aux None dtdx j) 1 m i) (gaddm (xflux S bcc q aux None dtdx (j - 1)) 2 m i) j (j - 1)).
      + cbn [Gm]. rewrite (proj2 (inr_iff 0 (g_mx S + 1) i)), (proj2 (inr_iff 0 (g_my S + 1) j)), (proj2 (inr_iff 0 (g_my S + 1) (j - 1))) by lia. ring.
      + intros st k. unfold xsweep. cbn [Gm]. rewrite (proj2 (inr_iff 1 (g_mx S + 1) i)) by lia. rewrite (Z.eqb_sym j k).
        destruct (Z.eqb_spec k j) as [->|N].
        * destruct (Z.eqb_spec j (j - 1)); [lia|]. ring.
        * destruct (Z.eqb_spec j (k + 1)) as [->|N2].
          -- replace (k + 1 - 1)%Z with k by lia. rewrite Z.eqb_refl. ring.
          -- destruct (Z.eqb_spec k (j - 1)); [lia|]. ring.
    - intros st k. unfold ysweep. cbn [Gm]. rewrite (proj2 (inr_iff 1 (g_my S + 1) j)) by lia. rewrite andb_true_r, (Z.eqb_sym i k).
      destruct (Z.eqb_spec k i) as [->|]; ring.
  Qed.
End Values.
