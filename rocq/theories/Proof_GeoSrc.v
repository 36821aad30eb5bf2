(** Proofs about the treatment of a patch before and after a step. *)
From Coq Require Import ZArith Reals List Bool Lia Lra FinFun.
From Verif Require Import Model_GeoSrc Spec_GeoSrc.
Import ListNotations.
Local Open Scope R_scope.

(** ** Arrays and loops *)
Definition cell_eq : forall a b : Z * Z, {a = b} + {a <> b}.
Proof. decide equality; apply Z.eq_dec. Defined.

Lemma upd_same q m i j v : upd q m i j v m i j = v.
Proof. unfold upd. now rewrite !Z.eqb_refl. Qed.
Lemma upd_comp q m i j v m' i' j' : m' <> m -> upd q m i j v m' i' j' = q m' i' j'.
Proof. intros H. unfold upd. apply Z.eqb_neq in H. now rewrite H. Qed.
Lemma upd_cell q m i j v m' i' j' : (i', j') <> (i, j) -> upd q m i j v m' i' j' = q m' i' j'.
Proof.
  intros H. unfold upd.
  destruct (Z.eqb_spec m' m), (Z.eqb_spec i' i), (Z.eqb_spec j' j); simpl; subst; try reflexivity.
  now elim H.
Qed.

Lemma in_do_range lo hi k : In k (do_range lo hi) <-> (lo <= k <= hi)%Z.
Proof.
  unfold do_range. rewrite in_map_iff. split.
  - intros (n & E & H). apply in_seq in H. lia.
  - intros H. exists (Z.to_nat (k - lo)). split; [lia|]. apply in_seq. lia.
Qed.
Lemma nodup_do_range lo hi : NoDup (do_range lo hi).
Proof.
  unfold do_range. apply Injective_map_NoDup; [|apply seq_NoDup].
  intros a b H. lia.
Qed.
Lemma in_do_cells lo hi hj i j : In (i, j) (do_cells lo hi hj) <-> (lo <= i <= hi /\ lo <= j <= hj)%Z.
Proof.
  unfold do_cells. rewrite in_flat_map. split.
  - intros (y & Hy & H). apply in_map_iff in H as (x & E & Hx). injection E as -> ->.
    apply in_do_range in Hy. apply in_do_range in Hx. now split.
  - intros [Hi Hj]. exists j. split; [now apply in_do_range|].
    apply in_map_iff. exists i. split; [easy|now apply in_do_range].
Qed.
Lemma nodup_rows (l : list Z) (r : list Z) : NoDup l -> NoDup r ->
  NoDup (flat_map (fun j => map (fun i => (i, j)) r) l).
Proof.
  intros Hl Hr. induction Hl as [|j l Hj Hl IH]; simpl; [constructor|].
  assert (D : NoDup (map (fun i => (i, j)) r)).
  { apply Injective_map_NoDup; [|exact Hr]. intros a b H. now injection H. }
  assert (A : forall (u v : list (Z * Z)), NoDup u -> NoDup v -> (forall x, In x u -> ~ In x v) -> NoDup (u ++ v)).
  { intros u v Hu Hv N. induction Hu as [|x u Hx Hu IHu]; [exact Hv|]. cbn [app]. constructor.
    - rewrite in_app_iff. intros [K|K]; [now apply Hx|]. exact (N x (or_introl eq_refl) K).
    - apply IHu. intros y Hy. apply N. now right. }
  apply A; [exact D|exact IH|]. intros x Hx H. apply in_map_iff in Hx as (i & <- & _).
  apply in_flat_map in H as (y & Hy & H). apply in_map_iff in H as (x & E & _).
  injection E as E1 E2. subst. now elim Hj.
Qed.
Lemma nodup_do_cells lo hi hj : NoDup (do_cells lo hi hj).
Proof. apply nodup_rows; apply nodup_do_range. Qed.

(** a loop whose body works on one cell *)
Section Loop.
Variable body : arr -> Z * Z -> arr.
Hypothesis local_write : forall q c m i j, (i, j) <> c -> body q c m i j = q m i j.
Hypothesis local_read : forall q q' i j, (forall m, q m i j = q' m i j) ->
  forall m, body q (i, j) m i j = body q' (i, j) m i j.

Lemma loop_out l : forall q m i j, ~ In (i, j) l -> fold_left body l q m i j = q m i j.
Proof.
  induction l as [|c l IH]; intros q m i j H; simpl; [reflexivity|].
  rewrite IH by (intros K; apply H; now right). apply local_write. intros E. apply H. left. now symmetry.
Qed.
Lemma loop_in l : NoDup l -> forall q m i j, In (i, j) l -> fold_left body l q m i j = body q (i, j) m i j.
Proof.
  induction 1 as [|c l Hc Hl IH]; intros q m i j H; simpl; [now elim H|].
  destruct H as [->|H].
  - rewrite loop_out; [reflexivity|exact Hc].
  - rewrite IH by exact H. apply local_read. intros m'. apply local_write.
    intros <-. now apply Hc.
Qed.
End Loop.

Lemma set_mom_1 q i j u v i' j' : set_mom q i j u v 1%Z i' j' = q 1%Z i' j'.
Proof. unfold set_mom. now rewrite !upd_comp by lia. Qed.

Ltac updates :=
  repeat first [ rewrite upd_same | rewrite (upd_comp _ 1 _ _ _ 2) by lia | rewrite (upd_comp _ 1 _ _ _ 3) by lia | rewrite (upd_comp _ 2 _ _ _ 1) by lia | rewrite (upd_comp _ 2 _ _ _ 3) by lia | rewrite (upd_comp _ 3 _ _ _ 1) by lia | rewrite (upd_comp _ 3 _ _ _ 2) by lia | rewrite set_mom_1 ].

(** ** Before the step *)
Lemma clean_write q0 tol q c m i j : (i, j) <> c -> clean_cell q0 tol q c m i j = q m i j.
Proof.
  destruct c as [a b]. intros H. unfold clean_cell. destruct (Rlt_dec _ _); [|reflexivity].
  now rewrite !upd_cell by exact H.
Qed.
Lemma upd_read q q' m0 i j v : (forall m, q m i j = q' m i j) ->
  forall m, upd q m0 i j v m i j = upd q' m0 i j v m i j.
Proof. intros H m. unfold upd. rewrite H. reflexivity. Qed.
Lemma clean_read q0 tol q q' i j : (forall m, q m i j = q' m i j) ->
  forall m, clean_cell q0 tol q (i, j) m i j = clean_cell q0 tol q' (i, j) m i j.
Proof.
  intros H. unfold clean_cell. destruct (Rlt_dec _ _); [|exact H].
  now do 3 apply upd_read.
Qed.
Lemma clean_in tol g mx my q m i j : in_patch g mx my i j ->
  clean tol g mx my q m i j = clean_cell q tol q (i, j) m i j.
Proof.
  intros H. unfold clean.
  apply (loop_in (clean_cell q tol) (clean_write q tol) (clean_read q tol) _ (nodup_do_cells _ _ _)).
  apply in_do_cells. exact H.
Qed.
Lemma clean_out tol g mx my q m i j : ~ in_patch g mx my i j -> clean tol g mx my q m i j = q m i j.
Proof.
  intros H. unfold clean. apply (loop_out (clean_cell q tol) (clean_write q tol)).
  intros K. apply in_do_cells in K. now apply H.
Qed.
Lemma clean_dry tol g mx my q i j : in_patch g mx my i j -> q 1%Z i j < tol ->
  clean tol g mx my q 1%Z i j = Rmax (q 1%Z i j) 0 /\
  clean tol g mx my q 2%Z i j = 0 /\ clean tol g mx my q 3%Z i j = 0.
Proof.
  intros H L. rewrite !clean_in by exact H. unfold clean_cell.
  destruct (Rlt_dec _ _) as [_|N]; [|lra]. updates. auto.
Qed.
Lemma clean_wet tol g mx my q m i j : tol <= q 1%Z i j -> clean tol g mx my q m i j = q m i j.
Proof.
  intros L.
  destruct (in_dec cell_eq (i, j)
    (do_cells (1 - g) (mx + g) (my + g))) as [I|I].
  - apply in_do_cells in I. rewrite clean_in by exact I. unfold clean_cell.
    destruct (Rlt_dec _ _); [lra|reflexivity].
  - apply clean_out. intros K. apply I. now apply in_do_cells.
Qed.
Lemma clean_other tol g mx my q m i j : ~ (1 <= m <= 3)%Z -> clean tol g mx my q m i j = q m i j.
Proof.
  intros L.
  destruct (in_dec cell_eq (i, j)
    (do_cells (1 - g) (mx + g) (my + g))) as [I|I].
  - apply in_do_cells in I. rewrite clean_in by exact I. unfold clean_cell.
    destruct (Rlt_dec _ _); [|reflexivity]. now rewrite !upd_comp by lia.
  - apply clean_out. intros K. apply I. now apply in_do_cells.
Qed.

(** *** The times of the moving topography *)
Definition interval_step (a : R * R) (f : R * R) : R * R :=
  let '(tmin, tmax) := a in
  (if Rlt_dec (fst f) tmin then fst f else tmin, if Rge_dec (snd f) tmax then snd f else tmax).

Lemma interval_fold l : forall a b, fold_left interval_step l (a, b) =
  (fold_left Rmin (map fst l) a, fold_left Rmax (map snd l) b).
Proof.
  induction l as [|f l IH]; intros a b; simpl; [reflexivity|].
  rewrite IH. f_equal; f_equal.
  - unfold Rmin. destruct (Rlt_dec (fst f) a), (Rle_dec a (fst f)); lra.
  - unfold Rmax. destruct (Rge_dec (snd f) b), (Rle_dec b (snd f)); lra.
Qed.
Lemma fold_min l : forall a, (fold_left Rmin l a <= a) /\ (forall x, In x l -> fold_left Rmin l a <= x) /\
  (fold_left Rmin l a = a \/ In (fold_left Rmin l a) l).
Proof.
  induction l as [|y l IH]; intros a; simpl.
  - split; [lra|]. split; [easy|]. now left.
  - destruct (IH (Rmin a y)) as (A & B & C).
    pose proof (Rmin_l a y). pose proof (Rmin_r a y). split; [lra|]. split.
    + intros x [<-|H1]; [lra|]. now apply B.
    + destruct C as [C|C]; [|now right; right]. rewrite C. unfold Rmin. destruct (Rle_dec a y); auto.
Qed.
Lemma fold_max l : forall a, (a <= fold_left Rmax l a) /\ (forall x, In x l -> x <= fold_left Rmax l a) /\
  (fold_left Rmax l a = a \/ In (fold_left Rmax l a) l).
Proof.
  induction l as [|y l IH]; intros a; simpl.
  - split; [lra|]. split; [easy|]. now left.
  - destruct (IH (Rmax a y)) as (A & B & C).
    pose proof (Rmax_l a y). pose proof (Rmax_r a y). split; [lra|]. split.
    + intros x [<-|H1]; [lra|]. now apply B.
    + destruct C as [C|C]; [|now right; right]. rewrite C. unfold Rmax. destruct (Rle_dec a y); auto.
Qed.

(** the bounds that the routine finds, when the times are in range *)
Lemma interval_spec l : l <> [] -> (forall f, In f l -> fst f < 10 ^ 99 /\ 0 <= snd f) ->
  exists tmin tmax, dtopo_interval l = (tmin, tmax) /\
    In tmin (map fst l) /\ (forall f, In f l -> tmin <= fst f) /\
    In tmax (map snd l) /\ (forall f, In f l -> snd f <= tmax).
Proof.
  intros Hl H. unfold dtopo_interval. change (fun a f => let '(tmin, tmax) := a in
    (if Rlt_dec (fst f) tmin then fst f else tmin, if Rge_dec (snd f) tmax then snd f else tmax))
    with interval_step. rewrite interval_fold.
  destruct (fold_min (map fst l) (10 ^ 99)) as (A & B & C).
  destruct (fold_max (map snd l) 0) as (A' & B' & C').
  eexists; eexists. split; [reflexivity|].
  destruct l as [|f0 l]; [now elim Hl|]. destruct (H f0 (or_introl eq_refl)) as [H1 H2]. split; [|split; [|split]].
  - destruct C as [C|C]; [|exact C]. exfalso.
    assert (K := B (fst f0) (or_introl eq_refl)). lra.
  - intros f Hf. apply B. now apply in_map.
  - destruct C' as [C'|C']; [|exact C']. rewrite C'.
    assert (K := B' (snd f0) (or_introl eq_refl)). left. lra.
  - intros f Hf. apply B'. now apply in_map.
Qed.

Lemma check_spec l tmin tmax t : dtopo_interval l = (tmin, tmax) ->
  (check_dtopotime l t = true <-> (tmin < tmax /\ tmin <= t <= tmax) \/ (tmax <= tmin /\ tmax <= t)).
Proof.
  intros E. unfold check_dtopotime. rewrite E. destruct (Rlt_dec tmin tmax) as [L|L].
  - assert (T : forall x, (t - tmin) / (tmax - tmin) = x -> t - tmin = x * (tmax - tmin)).
    { intros x <-. field. lra. }
    specialize (T _ eq_refl). set (tau := (t - tmin) / (tmax - tmin)) in *.
    destruct (Rge_dec tau 0) as [A|A]; [destruct (Rle_dec tau 1) as [B|B]|].
    + split; [intros _|reflexivity]. left. split; [lra|]. split; nra.
    + split; [discriminate|]. intros [[_ K]|K]; [|lra]. exfalso. apply B. nra.
    + split; [discriminate|]. intros [[_ K]|K]; [|lra]. exfalso. apply A. nra.
  - destruct (Rge_dec t tmax) as [A|A].
    + split; [intros _|reflexivity]. right. lra.
    + split; [discriminate|]. intros [K|K]; lra.
Qed.

(** ** Friction *)
Lemma manning_loop_cons e table b c : manning_loop (e :: table) b c =
  if Rlt_dec b (fst e) then Some (snd e) else manning_loop table b c.
Proof. unfold manning_loop. simpl. now rewrite fold_left_app. Qed.
Lemma manning_loop_at table b c : (exists e, In e table /\ b < fst e) ->
  exists n, manning_at table b n /\ manning_loop table b c = Some n.
Proof.
  induction table as [|e table IH]; intros (x & Hx & L); [easy|]. rewrite manning_loop_cons.
  destruct (Rlt_dec b (fst e)) as [A|A].
  - exists (snd e). split; [|reflexivity]. exists [], (fst e), table. simpl.
    split; [now destruct e|]. now split.
  - destruct Hx as [->|Hx]; [lra|]. destruct IH as (n & (l1 & br & l2 & E & L1 & L2) & M); [now exists x|].
    exists n. split; [|exact M]. exists (e :: l1), br, l2. rewrite E. split; [reflexivity|]. split; [exact L1|].
    intros y [->|Hy]; [lra|]. now apply L2.
Qed.

(** one cell, with the coefficient given *)
Definition pure_friction (p : params) (n : Z -> Z -> R) (dt : R) (q : arr) (c : Z * Z) : arr :=
  let '(i, j) := c in
  if Rlt_dec (q 1%Z i j) (/ 10 ^ 30) then set_mom q i j 0 0
  else if Rle_dec (q 1%Z i j) (friction_depth p) then
    let dgamma := 1 + dt * (sqrt (q 2%Z i j ^ 2 + q 3%Z i j ^ 2) * grav p * n i j ^ 2 / Rpower (q 1%Z i j) (7 / 3)) in
    set_mom q i j (q 2%Z i j / dgamma) (q 3%Z i j / dgamma)
  else q.
Lemma set_mom_cell q i j u v m i' j' : (i', j') <> (i, j) -> set_mom q i j u v m i' j' = q m i' j'.
Proof. intros H. unfold set_mom. now rewrite !upd_cell by exact H. Qed.
Lemma set_mom_read q q' i j u v : (forall m, q m i j = q' m i j) ->
  forall m, set_mom q i j u v m i j = set_mom q' i j u v m i j.
Proof. intros H. unfold set_mom. now do 2 apply upd_read. Qed.
Lemma pure_friction_write p n dt q c m i j : (i, j) <> c -> pure_friction p n dt q c m i j = q m i j.
Proof.
  destruct c as [a b]. intros H. unfold pure_friction.
  destruct (Rlt_dec _ _); [now apply set_mom_cell|].
  destruct (Rle_dec _ _); [now apply set_mom_cell|reflexivity].
Qed.
Lemma pure_friction_read p n dt q q' i j : (forall m, q m i j = q' m i j) ->
  forall m, pure_friction p n dt q (i, j) m i j = pure_friction p n dt q' (i, j) m i j.
Proof.
  intros H m. unfold pure_friction. rewrite !H.
  destruct (Rlt_dec _ _); [now apply set_mom_read|].
  destruct (Rle_dec _ _); [now apply set_mom_read|apply H].
Qed.

(** the coefficient that is used *)
Definition coefficient (p : params) (aux : arr) (i j : Z) : R :=
  if variable_friction p then aux (friction_index p) i j
  else match manning_loop (manning p) (aux 1%Z i j) None with Some n => n | None => 0 end.

Lemma friction_loop p aux dt l : (forall i j, In (i, j) l -> variable_friction p = false ->
    exists e, In e (manning p) /\ aux 1%Z i j < fst e) ->
  forall c0 q, exists c1, fold_left (friction_cell p aux dt) l (Some (c0, q)) =
    Some (c1, fold_left (pure_friction p (coefficient p aux) dt) l q).
Proof.
  induction l as [|[i j] l IH]; intros Hl c0 q; [now exists c0|].
  assert (S : exists c1, friction_cell p aux dt (Some (c0, q)) (i, j) =
    Some (c1, pure_friction p (coefficient p aux) dt q (i, j))).
  { unfold friction_cell, pure_friction. destruct (Rlt_dec _ _) as [?|?Nlt]; [now exists c0|].
    destruct (Rle_dec _ _); [|now exists c0]. unfold coefficient.
    destruct (variable_friction p) eqn:V.
    - eexists. unfold set_mom. rewrite (upd_comp q 2 i j _ 3) by lia. reflexivity.
    - destruct (Hl i j (or_introl eq_refl) eq_refl) as (e & He & L).
      destruct (manning_loop_at (manning p) (aux 1%Z i j) c0) as (n & (l1 & br & l2 & E & L1 & L2) & M);
        [now exists e|].
      destruct (manning_loop_at (manning p) (aux 1%Z i j) None) as (n' & N' & M'); [now exists e|].
      assert (Q : manning_loop (manning p) (aux 1%Z i j) None = Some n).
      { rewrite E. clear - L1 L2. induction l1 as [|a l1 IH]; cbn [app].
        - rewrite manning_loop_cons. cbn [fst snd]. destruct (Rlt_dec _ _); [reflexivity|lra].
        - rewrite manning_loop_cons. assert (K := L2 a (or_introl eq_refl)).
          destruct (Rlt_dec _ _); [lra|]. apply IH. intros y Hy. apply L2. now right. }
      rewrite M, Q. eexists. unfold set_mom. rewrite (upd_comp q 2 i j _ 3) by lia. reflexivity. }
  destruct S as [c1 S]. cbn [fold_left]. rewrite S. apply IH. intros a b Hab. apply Hl. now right.
Qed.
Lemma friction_pure p mx my aux dt q : friction_forcing p = true ->
  (forall i j, in_patch 0 mx my i j -> variable_friction p = false ->
    exists e, In e (manning p) /\ aux 1%Z i j < fst e) ->
  friction p mx my aux dt q = Some (fold_left (pure_friction p (coefficient p aux) dt) (do_cells 1 mx my) q).
Proof.
  intros F H. unfold friction. rewrite F.
  destruct (friction_loop p aux dt (do_cells 1 mx my)) with (c0 := @None R) (q := q) as [c1 E].
  - intros i j I. apply in_do_cells in I. apply H. unfold in_patch. lia.
  - now rewrite E.
Qed.
Lemma coefficient_at p aux i j : variable_friction p = false ->
  (exists e, In e (manning p) /\ aux 1%Z i j < fst e) -> manning_at (manning p) (aux 1%Z i j) (coefficient p aux i j).
Proof.
  intros V H. unfold coefficient. rewrite V.
  destruct (manning_loop_at (manning p) (aux 1%Z i j) None H) as (n & N & M). now rewrite M.
Qed.

Lemma in_patch0 mx my i j : in_patch 0 mx my i j <-> In (i, j) (do_cells 1 mx my).
Proof. rewrite in_do_cells. unfold in_patch. lia. Qed.

Lemma pure_loop_in p n dt mx my q m i j : in_patch 0 mx my i j ->
  fold_left (pure_friction p n dt) (do_cells 1 mx my) q m i j = pure_friction p n dt q (i, j) m i j.
Proof.
  intros H. apply (loop_in _ (pure_friction_write p n dt) (pure_friction_read p n dt) _ (nodup_do_cells _ _ _)).
  now apply in_patch0.
Qed.

(** writes of the momentum of one interior cell *)
Definition momentum_body (body : arr -> Z * Z -> arr) : Prop :=
  forall q c m i j, (i, j) <> c \/ ~ (m = 2 \/ m = 3)%Z -> body q c m i j = q m i j.
Lemma momentum_loop body mx my q : momentum_body body ->
  only_momentum mx my q (fold_left body (do_cells 1 mx my) q).
Proof.
  intros B m i j H.
  assert (G : forall l q, (In (i, j) l -> ~ (m = 2 \/ m = 3)%Z) -> fold_left body l q m i j = q m i j).
  { induction l as [|c l IH]; intros q0 K; [reflexivity|]. cbn [fold_left].
    rewrite IH by (intros I; apply K; now right). apply B.
    destruct (cell_eq (i, j) c) as [E|E]; [right|now left]. apply K. left. now symmetry. }
  apply G. intros I. apply in_patch0 in I. tauto.
Qed.
Lemma pure_friction_body p n dt : momentum_body (pure_friction p n dt).
Proof.
  intros q [a b] m i j [H|H]; [now apply pure_friction_write|]. unfold pure_friction, set_mom.
  repeat match goal with |- context [if ?x then _ else _] => destruct x end;
    rewrite ?upd_comp by lia; reflexivity.
Qed.
Lemma coriolis_body p yl dy dt : momentum_body (coriolis_cell p yl dy dt).
Proof.
  intros q [a b] m i j [H|H]; unfold coriolis_cell.
  - now rewrite !upd_cell by exact H.
  - now rewrite !upd_comp by lia.
Qed.
Lemma wind_body p xl yl dx dy t dt aux : momentum_body (wind_cell p xl yl dx dy t dt aux).
Proof.
  intros q [a b] m i j [H|H]; unfold wind_cell; destruct (Rgt_dec _ _); try reflexivity.
  - now rewrite !upd_cell by exact H.
  - now rewrite !upd_comp by lia.
Qed.
Lemma pressure_body p xl yl dx dy dt aux : momentum_body (pressure_cell p xl yl dx dy dt aux).
Proof.
  intros q [a b] m i j [H|H]; unfold pressure_cell; destruct (Rgt_dec _ _); try reflexivity.
  - now rewrite !upd_cell by exact H.
  - now rewrite !upd_comp by lia.
Qed.

(** locality of the other terms *)
Lemma coriolis_read p yl dy dt q q' i j : (forall m, q m i j = q' m i j) ->
  forall m, coriolis_cell p yl dy dt q (i, j) m i j = coriolis_cell p yl dy dt q' (i, j) m i j.
Proof.
  intros H m. unfold coriolis_cell. updates. rewrite !H. apply upd_read. now apply upd_read.
Qed.
Lemma wind_read p xl yl dx dy t dt aux q q' i j : (forall m, q m i j = q' m i j) ->
  forall m, wind_cell p xl yl dx dy t dt aux q (i, j) m i j = wind_cell p xl yl dx dy t dt aux q' (i, j) m i j.
Proof.
  intros H m. unfold wind_cell. rewrite !H. destruct (Rgt_dec _ _); [|apply H].
  updates. rewrite !H. apply upd_read. now apply upd_read.
Qed.
Lemma pressure_read p xl yl dx dy dt aux q q' i j : (forall m, q m i j = q' m i j) ->
  forall m, pressure_cell p xl yl dx dy dt aux q (i, j) m i j = pressure_cell p xl yl dx dy dt aux q' (i, j) m i j.
Proof.
  intros H m. unfold pressure_cell. rewrite !H. destruct (Rgt_dec _ _); [|apply H].
  updates. rewrite !H. apply upd_read. now apply upd_read.
Qed.
Lemma body_write body : momentum_body body -> forall q c m i j, (i, j) <> c -> body q c m i j = q m i j.
Proof. intros B q c m i j H. apply B. now left. Qed.

Lemma coriolis_in p mx my yl dy dt q m i j : coriolis_forcing p = true -> in_patch 0 mx my i j ->
  coriolis_term p mx my yl dy dt q m i j = coriolis_cell p yl dy dt q (i, j) m i j.
Proof.
  intros F H. unfold coriolis_term. rewrite F.
  apply (loop_in _ (body_write _ (coriolis_body p yl dy dt)) (coriolis_read p yl dy dt) _ (nodup_do_cells _ _ _)).
  now apply in_patch0.
Qed.
Lemma wind_in p mx my xl yl dx dy t dt aux q m i j : wind_forcing p = true -> in_patch 0 mx my i j ->
  wind_term p mx my xl yl dx dy t dt aux q m i j = wind_cell p xl yl dx dy t dt aux q (i, j) m i j.
Proof.
  intros F H. unfold wind_term. rewrite F.
  apply (loop_in _ (body_write _ (wind_body p xl yl dx dy t dt aux)) (wind_read p xl yl dx dy t dt aux) _
    (nodup_do_cells _ _ _)).
  now apply in_patch0.
Qed.
Lemma pressure_in p mx my xl yl dx dy dt aux q m i j : pressure_forcing p = true -> in_patch 0 mx my i j ->
  pressure_term p mx my xl yl dx dy dt aux q m i j = pressure_cell p xl yl dx dy dt aux q (i, j) m i j.
Proof.
  intros F H. unfold pressure_term. rewrite F.
  apply (loop_in _ (body_write _ (pressure_body p xl yl dx dy dt aux)) (pressure_read p xl yl dx dy dt aux) _
    (nodup_do_cells _ _ _)).
  now apply in_patch0.
Qed.

(** the pieces change momentum only *)
Lemma only_refl mx my q : only_momentum mx my q q.
Proof. intros m i j _. reflexivity. Qed.
Lemma only_trans mx my a b c : only_momentum mx my a b -> only_momentum mx my b c -> only_momentum mx my a c.
Proof. intros H K m i j N. now rewrite K, H. Qed.
Lemma coriolis_only p mx my yl dy dt q : only_momentum mx my q (coriolis_term p mx my yl dy dt q).
Proof.
  unfold coriolis_term. destruct (coriolis_forcing p); [|apply only_refl].
  apply momentum_loop, coriolis_body.
Qed.
Lemma wind_only p mx my xl yl dx dy t dt aux q : only_momentum mx my q (wind_term p mx my xl yl dx dy t dt aux q).
Proof.
  unfold wind_term. destruct (wind_forcing p); [|apply only_refl]. apply momentum_loop, wind_body.
Qed.
Lemma pressure_only p mx my xl yl dx dy dt aux q : only_momentum mx my q (pressure_term p mx my xl yl dx dy dt aux q).
Proof.
  unfold pressure_term. destruct (pressure_forcing p); [|apply only_refl]. apply momentum_loop, pressure_body.
Qed.
Lemma friction_cell_body p aux dt l : forall st r, fold_left (friction_cell p aux dt) l st = r ->
  match st with
  | None => r = None
  | Some (_, q) => match r with None => True | Some (_, q') =>
      forall m i j, (~ In (i, j) l \/ ~ (m = 2 \/ m = 3)%Z) -> q' m i j = q m i j end
  end.
Proof.
  induction l as [|[a b] l IH]; intros st r <-.
  - destruct st as [[c q]|]; cbn; auto.
  - cbn [fold_left]. destruct st as [[c q]|].
    + specialize (IH (friction_cell p aux dt (Some (c, q)) (a, b)) _ eq_refl).
      destruct (friction_cell p aux dt (Some (c, q)) (a, b)) as [[c1 q1]|] eqn:E; [|now rewrite IH].
      destruct (fold_left _ _ _) as [[c2 q2]|]; [|exact I]. intros m i j H.
      rewrite IH; [|destruct H; [left|now right]; intros K; apply H; now right].
      assert (B : (i, j) <> (a, b) \/ ~ (m = 2 \/ m = 3)%Z).
      { destruct H as [H|H]; [left|now right]. intros K. apply H. left. now symmetry. }
      revert E. unfold friction_cell, set_mom.
      repeat match goal with |- context [if ?x then _ else _] => destruct x end;
      try match goal with |- context [match ?x with Some _ => _ | None => _ end] => destruct x end;
        intros E; try discriminate; injection E as _ <-; try reflexivity;
        destruct B as [B|B]; rewrite ?upd_cell by exact B; rewrite ?upd_comp by lia; reflexivity.
    + specialize (IH None _ eq_refl). exact IH.
Qed.
Lemma friction_only p mx my aux dt q q' : friction p mx my aux dt q = Some q' -> only_momentum mx my q q'.
Proof.
  unfold friction. destruct (friction_forcing p); [|intros [= <-]; apply only_refl].
  pose proof (friction_cell_body p aux dt (do_cells 1 mx my) (Some (None, q)) _ eq_refl) as H. cbn in H.
  destruct (fold_left _ _ _) as [[c1 q1]|]; [|discriminate]. intros [= <-] m i j N. apply H.
  destruct (in_dec cell_eq (i, j) (do_cells 1 mx my)) as [I|I]; [right|now left].
  apply in_patch0 in I. tauto.
Qed.
