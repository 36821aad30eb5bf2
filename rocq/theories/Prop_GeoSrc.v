(** C73: GeoClaw's cleaning of dry cells, moving topography and source terms. *)
From Coq Require Import ZArith Reals List Bool Lia Lra Sorted.
From Verif Require Import Model_GeoSrc Spec_GeoSrc Proof_GeoSrc.
Import ListNotations.
Local Open Scope R_scope.

(** Before a step, in every cell of the patch and its ghost cells, a depth below the tolerance is made
    non-negative and the water is put to rest; nothing else is touched, no water is taken away, and doing it
    twice is doing it once. *)
Theorem C73_clean :
  forall (tol : R) (g mx my : Z) (q : field), 0 <= tol ->
  let q' := clean tol g mx my q in
  (forall i j, in_patch g mx my i j ->
     0 <= q' 1%Z i j /\ q 1%Z i j <= q' 1%Z i j /\
     (q 1%Z i j < tol -> q' 1%Z i j = Rmax (q 1%Z i j) 0 /\ q' 2%Z i j = 0 /\ q' 3%Z i j = 0)) /\
  (forall m i j, ~ in_patch g mx my i j \/ tol <= q 1%Z i j \/ ~ (1 <= m <= 3)%Z -> q' m i j = q m i j) /\
  (forall m i j, clean tol g mx my q' m i j = q' m i j).
Proof.
  intros tol g mx my q T q'.
  assert (D : forall i j, in_patch g mx my i j -> 0 <= q' 1%Z i j /\ q 1%Z i j <= q' 1%Z i j /\
    (q 1%Z i j < tol -> q' 1%Z i j = Rmax (q 1%Z i j) 0 /\ q' 2%Z i j = 0 /\ q' 3%Z i j = 0)).
  { intros i j H. destruct (Rlt_dec (q 1%Z i j) tol) as [L|L].
    - destruct (clean_dry tol g mx my q i j H L) as (A & B & C). fold q' in A, B, C.
      pose proof (Rmax_l (q 1%Z i j) 0). pose proof (Rmax_r (q 1%Z i j) 0).
      split; [lra|]. split; [lra|]. auto.
    - assert (E := clean_wet tol g mx my q 1%Z i j ltac:(lra)). fold q' in E. rewrite E. lra. }
  split; [exact D|]. split.
  - intros m i j [H|[H|H]]; [now apply clean_out|now apply clean_wet|now apply clean_other].
  - intros m i j.
    destruct (in_dec cell_eq (i, j) (do_cells (1 - g) (mx + g) (my + g))) as [I|I].
    + apply in_do_cells in I. destruct (D i j I) as (P & _ & K).
      destruct (Rlt_dec (q' 1%Z i j) tol) as [L|L]; [|apply clean_wet; lra].
      destruct (clean_dry tol g mx my q' i j I L) as (A & B & C).
      assert (Lq : q 1%Z i j < tol).
      { destruct (D i j I) as (_ & U & _). lra. }
      destruct (K Lq) as (_ & K2 & K3).
      destruct (Z.eq_dec m 1) as [->|N1]; [rewrite A; apply Rmax_left; lra|].
      destruct (Z.eq_dec m 2) as [->|N2]; [now rewrite B|].
      destruct (Z.eq_dec m 3) as [->|N3]; [now rewrite C|].
      apply clean_other. lia.
    + apply clean_out. intros K. apply I. now apply in_do_cells.
Qed.
Print Assumptions C73_clean.

(** With moving topography whose files start before 1e99 and end at a non-negative time, the topography of a
    patch is recomputed at a time exactly when some motion has begun and some has not ended; when all the files
    are of the same single instant, from that instant on. *)
Theorem C73_topography :
  forall (l : list (R * R)) (t : R), l <> [] ->
  (forall f, In f l -> fst f < 10 ^ 99 /\ 0 <= snd f /\ fst f <= snd f) ->
  ((exists f f', In f l /\ In f' l /\ fst f < snd f') -> (check_dtopotime l t = true <-> moving l t)) /\
  ((forall f f', In f l -> In f' l -> fst f = snd f') ->
     (check_dtopotime l t = true <-> exists f, In f l /\ fst f <= t)).
Proof.
  intros l t Hl H.
  destruct (interval_spec l Hl) as (tmin & tmax & E & A & B & C & D).
  { intros f Hf. destruct (H f Hf) as (? & ? & ?). auto. }
  apply in_map_iff in A as (fa & <- & A). apply in_map_iff in C as (fc & <- & C).
  rewrite (check_spec l _ _ t E). split.
  - intros (f & f' & Hf & Hf' & L). pose proof (B f Hf). pose proof (D f' Hf'). unfold moving. split.
    + intros [[_ K]|K]; [|lra]. split; [now exists fa|now exists fc].
    + intros [(x & Hx & Lx) (y & Hy & Ly)]. left. pose proof (B x Hx). pose proof (D y Hy). lra.
  - intros S. pose proof (S fa fc A C). split.
    + intros [K|K]; [lra|]. exists fa. split; [exact A|lra].
    + intros (x & Hx & Lx). right. pose proof (B x Hx). pose proof (D fa A).
      pose proof (S fa fa A A). pose proof (S x fa Hx A). lra.
Qed.
Print Assumptions C73_topography.

(** A program without moving topography is told at all times from 0 on that the topography is moving: all
    patches compute it again in every step. *)
Theorem C73_topography_refuted :
  forall t, 0 <= t -> check_dtopotime [] t = true /\ ~ moving [] t.
Proof.
  intros t H. split.
  - unfold check_dtopotime, dtopo_interval. cbn [fold_left].
    destruct (Rlt_dec _ _) as [L|_].
    + exfalso. assert (0 < 10 ^ 99) by (apply pow_lt; lra). lra.
    + destruct (Rge_dec t 0); [reflexivity|lra].
  - intros [(f & [] & _) _].
Qed.
Print Assumptions C73_topography_refuted.

(** the bed of a patch is the current one in a step that starts while the bed moves *)
Definition times_ok (l : list (R * R)) : Prop :=
  (forall f, In f l -> fst f < 10 ^ 99 /\ 0 <= snd f /\ fst f <= snd f) /\
  (exists f f', In f l /\ In f' l /\ fst f < snd f').

Lemma bounds f0 l : times_ok (f0 :: l) -> exists tmin tmax,
  dtopo_interval (f0 :: l) = (tmin, tmax) /\ tmin < tmax /\
  minval (fst f0) (map fst l) = tmin /\ maxval (snd f0) (map snd l) = tmax /\
  (forall t, tmin <= t <-> exists f, In f (f0 :: l) /\ fst f <= t) /\
  (forall t, t <= tmax <-> exists f, In f (f0 :: l) /\ t <= snd f) /\
  (forall t, tmax <= t <-> over (f0 :: l) t).
Proof.
  intros [H (f & f' & Hf & Hf' & L)].
  destruct (interval_spec (f0 :: l)) as (tmin & tmax & E & A & B & C & D); [discriminate|..].
  { intros x Hx. destruct (H x Hx) as (? & ? & ?). auto. }
  exists tmin, tmax. split; [exact E|]. pose proof (B f Hf). pose proof (D f' Hf'). split; [lra|].
  destruct (fold_min (map fst l) (fst f0)) as (M1 & M2 & M3).
  destruct (fold_max (map snd l) (snd f0)) as (N1 & N2 & N3).
  unfold minval, maxval. split; [|split].
  - apply Rle_antisym.
    + destruct A as [<-|A]; [exact M1|now apply M2].
    + destruct M3 as [->|M3]; [now apply B; left|].
      apply in_map_iff in M3 as (x & <- & Hx). apply B. now right.
  - apply Rle_antisym.
    + destruct N3 as [->|N3]; [now apply D; left|].
      apply in_map_iff in N3 as (x & <- & Hx). apply D. now right.
    + destruct C as [<-|C]; [exact N1|now apply N2].
  - apply in_map_iff in A as (fa & <- & A). apply in_map_iff in C as (fc & <- & C).
    split; [|split]; intros t; split.
    + intros K. now exists fa.
    + intros (x & Hx & K). pose proof (B x Hx). lra.
    + intros K. now exists fc.
    + intros (x & Hx & K). pose proof (D x Hx). lra.
    + intros K x Hx. pose proof (D x Hx). lra.
    + intros K. now apply K.
Qed.

Theorem C73_bed_current :
  forall (f0 : R * R) (l : list (R * R)) (t : R) (s : tstate), times_ok (f0 :: l) ->
  topotime s <= t -> (finalized s = true -> over (f0 :: l) (topotime s)) -> moving (f0 :: l) t ->
  auxtime (update_topo f0 l s t) = t.
Proof.
  intros f0 l t s Hl T F [M1 M2].
  destruct (bounds f0 l Hl) as (tmin & tmax & E & L & Emin & Emax & B1 & B2 & B3).
  apply B1 in M1. apply B2 in M2.
  assert (C : check_dtopotime (f0 :: l) t = true).
  { apply (check_spec _ _ _ t E). left. lra. }
  unfold update_topo, b4step2_topo. rewrite C. unfold topo_update. rewrite Emin, Emax.
  destruct (finalized s) eqn:Fs.
  - cbn. specialize (F eq_refl). apply B3 in F. lra.
  - destruct (Rlt_dec t tmin); [lra|]. destruct (Rge_dec (topotime s) tmax); cbn; [lra|reflexivity].
Qed.
Print Assumptions C73_bed_current.

(** If one of the steps of a patch starts at the moment when the motion ends, the patch has the final bed
    afterwards, whatever steps were done before and are done later. *)
Theorem C73_bed_final :
  forall (f0 : R * R) (l : list (R * R)) (before after : list R) (tend : R) (s : tstate), times_ok (f0 :: l) ->
  over (f0 :: l) tend -> (exists f, In f (f0 :: l) /\ snd f = tend) ->
  StronglySorted Rle (before ++ tend :: after) ->
  (forall t, In t (before ++ tend :: after) -> topotime s <= t) -> finalized s = false ->
  auxtime (run_topo f0 l (before ++ tend :: after) s) = tend.
Proof.
  intros f0 l before after tend s Hl O (fe & He & Ee) S T F.
  destruct (bounds f0 l Hl) as (tmin & tmax & E & L & Emin & Emax & B1 & B2 & B3).
  assert (Et : tend = tmax).
  { apply B3 in O. assert (tend <= tmax) by (apply B2; exists fe; split; [exact He|lra]). lra. }
  clear fe He Ee. subst tend.
  assert (Inv : forall s t, topotime s <= t -> (finalized s = true -> over (f0 :: l) (topotime s)) ->
    let s' := update_topo f0 l s t in
    topotime s' <= t /\ (finalized s' = true -> over (f0 :: l) (topotime s'))).
  { intros x t K1 K2. unfold update_topo, b4step2_topo, topo_update. rewrite Emin, Emax.
    destruct (check_dtopotime _ _); destruct (finalized x) eqn:Fx; try destruct (Rlt_dec t tmin);
      try destruct (Rge_dec (topotime x) tmax); cbn; rewrite ?Fx; (split; [lra|]); try discriminate; auto;
      intros _; apply B3; lra. }
  assert (Pre : forall u s0, (forall t, In t u -> t <= tmax /\ topotime s0 <= t) -> StronglySorted Rle u ->
    topotime s0 <= tmax ->
    (finalized s0 = true -> over (f0 :: l) (topotime s0)) ->
    topotime (run_topo f0 l u s0) <= tmax /\
    (finalized (run_topo f0 l u s0) = true -> over (f0 :: l) (topotime (run_topo f0 l u s0)))).
  { induction u as [|t u IH]; intros s0 H SS K1 K2; [now split|].
    apply StronglySorted_inv in SS as [SS Fa].
    destruct (H t (or_introl eq_refl)) as [H1 H2].
    destruct (Inv s0 t H2 K2) as [I1 I2]. cbn [run_topo fold_left]. apply IH; [|exact SS|lra|exact I2].
    intros x Hx. split; [now apply H; right|]. rewrite Forall_forall in Fa. pose proof (Fa x Hx). lra. }
  assert (Post : forall u s0, (forall t, In t u -> tmax <= t /\ topotime s0 <= t) -> StronglySorted Rle u ->
    (finalized s0 = true -> over (f0 :: l) (topotime s0)) -> auxtime s0 = tmax ->
    auxtime (run_topo f0 l u s0) = tmax).
  { induction u as [|t u IH]; intros s0 H SS K2 K3; [exact K3|].
    apply StronglySorted_inv in SS as [SS Fa].
    destruct (H t (or_introl eq_refl)) as [H1 H2].
    destruct (Inv s0 t H2 K2) as [I1 I2]. cbn [run_topo fold_left]. apply IH; [|exact SS|exact I2|].
    - intros x Hx. split; [now apply H; right|]. rewrite Forall_forall in Fa. pose proof (Fa x Hx). lra.
    - destruct (Rle_dec t tmax) as [Q|Q].
      + assert (Q' : t = tmax) by lra. subst t. apply C73_bed_current; auto. split; [apply B1; lra|].
        apply B2. lra.
      + unfold update_topo, b4step2_topo. destruct (check_dtopotime (f0 :: l) t) eqn:C.
        * apply (check_spec _ _ _ t E) in C. lra.
        * unfold topo_update. destruct (finalized s0); [exact K3|]. destruct (Rlt_dec _ _); [exact K3|].
          now destruct (Rge_dec _ _). }
  assert (Sb : StronglySorted Rle before /\ (forall t, In t before -> t <= tmax) /\
    StronglySorted Rle (tmax :: after)).
  { clear - S. induction before as [|b before IH].
    { split; [constructor|]. split; [easy|exact S]. }
    cbn [app] in S.
    apply StronglySorted_inv in S as [S Fa]. destruct (IH S) as (I1 & I2 & I3). rewrite Forall_forall in Fa.
    split; [|split; [|exact I3]].
    - constructor; [exact I1|]. apply Forall_forall. intros x Hx. apply Fa. apply in_or_app. now left.
    - intros t [<-|Ht]; [|now apply I2]. apply Fa. apply in_or_app. right. now left. }
  destruct Sb as (Sb1 & Sb2 & Sa). apply StronglySorted_inv in Sa as [Sa Fa]. rewrite Forall_forall in Fa.
  unfold run_topo. rewrite fold_left_app. cbn [fold_left].
  destruct (Pre before s) as [P1 P2].
  { intros t Ht. split; [now apply Sb2|]. apply T. apply in_or_app. now left. }
  { exact Sb1. }
  { apply T. apply in_or_app. right. now left. }
  { rewrite F. discriminate. }
  fold (run_topo f0 l before s). set (s1 := run_topo f0 l before s) in *.
  destruct (Inv s1 tmax P1 P2) as [I1 I2].
  apply Post; [|exact Sa|exact I2|].
  - intros t Ht. pose proof (Fa t Ht). lra.
  - apply C73_bed_current; auto. split; [apply B1; lra|]. apply B2. lra.
Qed.
Print Assumptions C73_bed_final.

(** Without such a step a patch keeps, for ever, the bed of a moment before the motion ended: a motion from 0
    to 1 and steps that start at 0, 3/5, 6/5 and 9/5. *)
Theorem C73_bed_final_refuted :
  times_ok [(0, 1)] /\ over [(0, 1)] (6 / 5) /\
  auxtime (run_topo (0, 1) [] [0; 3/5; 6/5; 9/5] (mkT 0 false 0)) = 3 / 5.
Proof.
  split; [|split].
  - split.
    + intros f [<-|[]]. cbn [fst snd]. assert (0 < 10 ^ 99) by (apply pow_lt; lra). lra.
    + exists (0, 1), (0, 1). cbn [fst snd In]. repeat split; auto. lra.
  - intros f [<-|[]]. cbn [snd]. lra.
  - assert (P : 1 < 10 ^ 99) by (apply Rlt_pow_R1; [lra|lia]).
    assert (I : dtopo_interval [(0, 1)] = (0, 1)).
    { unfold dtopo_interval. cbn [fold_left fst snd].
      destruct (Rlt_dec 0 (10 ^ 99)); [|lra]. destruct (Rge_dec 1 0); [reflexivity|lra]. }
    assert (C : forall t, check_dtopotime [(0, 1)] t = true <-> 0 <= t <= 1).
    { intros t. rewrite (check_spec _ _ _ t I). lra. }
    assert (C0 : check_dtopotime [(0, 1)] 0 = true) by (apply C; lra).
    assert (C1 : check_dtopotime [(0, 1)] (3 / 5) = true) by (apply C; lra).
    assert (C2 : check_dtopotime [(0, 1)] (6 / 5) = false).
    { destruct (check_dtopotime [(0, 1)] (6 / 5)) eqn:K; [|reflexivity]. apply C in K. lra. }
    assert (C3 : check_dtopotime [(0, 1)] (9 / 5) = false).
    { destruct (check_dtopotime [(0, 1)] (9 / 5)) eqn:K; [|reflexivity]. apply C in K. lra. }
    unfold run_topo. cbn [fold_left]. unfold update_topo, b4step2_topo. rewrite C0, C1, C2, C3.
    unfold topo_update, minval, maxval. cbn [map fold_left fst snd topotime finalized auxtime].
    repeat (match goal with
            | |- context [Rlt_dec ?x ?y] => destruct (Rlt_dec x y); try lra
            | |- context [Rge_dec ?x ?y] => destruct (Rge_dec x y); try lra
            end; cbn [topotime finalized auxtime]).
    all: reflexivity.
Qed.
Print Assumptions C73_bed_final_refuted.

(** The source terms, all together, change only the momentum of interior cells: never a depth, a ghost cell or
    another component. *)
Theorem C73_depth :
  forall p mx my xlower ylower dx dy t dt aux q q',
  src2 p mx my xlower ylower dx dy t dt aux q = Some q' -> only_momentum mx my q q'.
Proof.
  intros p mx my xl yl dx dy t dt aux q q'. unfold src2.
  destruct (friction p mx my aux dt q) as [q1|] eqn:E; [|discriminate]. intros [= <-].
  eapply only_trans; [exact (friction_only _ _ _ _ _ _ _ E)|].
  eapply only_trans; [apply coriolis_only|]. eapply only_trans; [apply wind_only|]. apply pressure_only.
Qed.
Print Assumptions C73_depth.

(** what the bed elevations must satisfy for Manning's coefficient to be defined (geoclaw_module puts the last
    break at rinfinity) *)
Definition manning_covers (p : params) (mx my : Z) (aux : field) : Prop :=
  forall i j, in_patch 0 mx my i j -> variable_friction p = false ->
  exists e, In e (manning p) /\ aux 1%Z i j < fst e.

(** Friction alone, for a step forward in time: the momentum of a cell not deeper than the friction depth is
    multiplied by a number in (0,1], the same for both components, which solves the implicit equation of
    Manning's law with the coefficient of the bed elevation (or of the friction field); cells that are almost
    empty are put to rest; deeper cells are left alone. *)
Theorem C73_friction :
  forall p mx my xlower ylower dx dy t dt aux q,
  friction_forcing p = true -> coriolis_forcing p = false -> wind_forcing p = false -> pressure_forcing p = false ->
  manning_covers p mx my aux -> 0 <= dt -> 0 <= grav p ->
  exists q', src2 p mx my xlower ylower dx dy t dt aux q = Some q' /\
  forall i j, in_patch 0 mx my i j ->
    (q 1%Z i j < / 10 ^ 30 -> q' 2%Z i j = 0 /\ q' 3%Z i j = 0) /\
    (/ 10 ^ 30 <= q 1%Z i j -> friction_depth p < q 1%Z i j -> q' 2%Z i j = q 2%Z i j /\ q' 3%Z i j = q 3%Z i j) /\
    (/ 10 ^ 30 <= q 1%Z i j -> q 1%Z i j <= friction_depth p ->
       exists k n, 0 < k <= 1 /\ q' 2%Z i j = k * q 2%Z i j /\ q' 3%Z i j = k * q 3%Z i j /\
         (if variable_friction p then n = aux (friction_index p) i j else manning_at (manning p) (aux 1%Z i j) n) /\
         k * (1 + dt * (grav p * n ^ 2 * sqrt (speed2 q i j) / Rpower (q 1%Z i j) (7 / 3))) = 1).
Proof.
  intros p mx my xl yl dx dy t dt aux q F C W P M Hdt Hg.
  unfold src2. rewrite (friction_pure p mx my aux dt q F M). unfold coriolis_term, wind_term, pressure_term.
  rewrite C, W, P. eexists. split; [reflexivity|]. intros i j H.
  rewrite !pure_loop_in by exact H. unfold pure_friction, set_mom.
  destruct (Rlt_dec (q 1%Z i j) (/ 10 ^ 30)) as [A|A].
  { split; [intros _; updates; auto|]. split; intros; lra. }
  destruct (Rle_dec (q 1%Z i j) (friction_depth p)) as [B|B].
  2:{ split; [intros; lra|]. split; [auto|intros; lra]. }
  split; [intros; lra|]. split; [intros; lra|]. intros _ _. updates.
  set (n := coefficient p aux i j). unfold speed2.
  set (sp := sqrt (q 2%Z i j ^ 2 + q 3%Z i j ^ 2)).
  set (h := Rpower (q 1%Z i j) (7 / 3)).
  assert (Hh : 0 < h) by apply exp_pos.
  assert (Hs : 0 <= sp) by apply sqrt_pos.
  assert (Hn : 0 <= n ^ 2) by apply pow2_ge_0.
  assert (G0 : 0 <= sp * grav p * n ^ 2 / h).
  { unfold Rdiv. apply Rmult_le_pos; [|left; now apply Rinv_0_lt_compat].
    apply Rmult_le_pos; [|exact Hn]. now apply Rmult_le_pos. }
  assert (G : 0 <= dt * (sp * grav p * n ^ 2 / h)) by now apply Rmult_le_pos.
  set (d := 1 + dt * (sp * grav p * n ^ 2 / h)) in *.
  assert (D : 1 <= d) by (unfold d; lra).
  exists (/ d), n. split; [|split; [|split; [|split]]].
  - split; [apply Rinv_0_lt_compat; lra|]. rewrite <- Rinv_1. apply Rinv_le_contravar; lra.
  - unfold Rdiv. ring.
  - unfold Rdiv. ring.
  - subst n. destruct (variable_friction p) eqn:V.
    + unfold coefficient. now rewrite V.
    + apply coefficient_at; [exact V|]. now apply M.
  - replace (1 + dt * (grav p * n ^ 2 * sp / h)) with d.
    + apply Rinv_l. lra.
    + unfold d, Rdiv. ring.
Qed.
Print Assumptions C73_friction.

(** Coriolis force alone: to first order in f dt, where f is Coriolis' parameter at the centre of the cell, the
    momentum is turned as it should be. *)
Theorem C73_coriolis :
  forall p mx my xlower ylower dx dy t dt aux q,
  friction_forcing p = false -> coriolis_forcing p = true -> wind_forcing p = false -> pressure_forcing p = false ->
  exists q', src2 p mx my xlower ylower dx dy t dt aux q = Some q' /\
  forall i j, in_patch 0 mx my i j ->
    let x := coriolis p (ylower + (IZR j - /2) * dy) * dt in
    Rabs x <= 1 ->
    Rabs (q' 2%Z i j - (q 2%Z i j + x * q 3%Z i j)) <= 2 * x ^ 2 * (Rabs (q 2%Z i j) + Rabs (q 3%Z i j)) /\
    Rabs (q' 3%Z i j - (q 3%Z i j - x * q 2%Z i j)) <= 2 * x ^ 2 * (Rabs (q 2%Z i j) + Rabs (q 3%Z i j)).
Proof.
  intros p mx my xl yl dx dy t dt aux q F C W P. unfold src2, friction. rewrite F.
  unfold wind_term, pressure_term. rewrite W, P. eexists. split; [reflexivity|]. intros i j H X.
  set (x := coriolis p (yl + (IZR j - / 2) * dy) * dt) in *.
  rewrite !coriolis_in by assumption. unfold coriolis_cell. updates. fold x.
  set (u := q 2%Z i j). set (v := q 3%Z i j).
  assert (B : forall a b k, Rabs a <= k -> Rabs b <= k -> Rabs (a * u + b * v) <= k * (Rabs u + Rabs v)).
  { intros a b k Ha Hb. eapply Rle_trans; [apply Rabs_triang|]. rewrite !Rabs_mult.
    pose proof (Rabs_pos u). pose proof (Rabs_pos v). nra. }
  assert (X2 : 0 <= x ^ 2 <= 1).
  { split; [apply pow2_ge_0|]. rewrite <- (pow2_abs x). pose proof (Rabs_pos x). nra. }
  assert (X1 : -1 <= x <= 1) by (revert X; unfold Rabs; destruct (Rcase_abs x); intros; lra).
  set (s := x ^ 2) in *.
  assert (P1 : forall w, x * (s * w) = x * s * w) by (intros; ring).
  split.
  - replace (u * (1 - / 2 * s + x ^ 4 / 24) + v * (x - x ^ 3 / 6) - (u + x * v))
      with ((s * (- / 2 + s / 24)) * u + (s * (- x / 6)) * v) by (unfold s; field).
    apply B.
    + rewrite Rabs_mult, (Rabs_pos_eq s) by lra. assert (Rabs (- / 2 + s / 24) <= 2); [apply Rabs_le; lra|nra].
    + rewrite Rabs_mult, (Rabs_pos_eq s) by lra. assert (Rabs (- x / 6) <= 2); [apply Rabs_le; lra|nra].
  - replace ((u * (1 - / 2 * s + x ^ 4 / 24) + v * (x - x ^ 3 / 6)) * (- x + x ^ 3 / 6) +
      v * (1 - / 2 * s + x ^ 4 / 24) - (v - x * u))
      with ((s * (x * (2 / 3 - s / 8 + s * s / 144))) * u +
            (s * (- (1 - s / 6) * (1 - s / 6) - / 2 + s / 24)) * v) by (unfold s; field).
    assert (S2 : 0 <= s * s <= 1) by nra.
    apply B.
    + rewrite Rabs_mult, (Rabs_pos_eq s) by lra.
      assert (Rabs (x * (2 / 3 - s / 8 + s * s / 144)) <= 2); [apply Rabs_le; split; nra|nra].
    + rewrite Rabs_mult, (Rabs_pos_eq s) by lra.
      assert (Rabs (- (1 - s / 6) * (1 - s / 6) - / 2 + s / 24) <= 2); [apply Rabs_le; split; nra|nra].
Qed.
Print Assumptions C73_coriolis.

(** It is not a rotation to second order, as the matrix in the program says it should be: northward flow loses a
    part of its momentum proportional to (f dt)^2, since the new eastward momentum is used to compute the new
    northward one.  (The matrix itself changes the square of the momentum by less than (f dt)^6.) *)
Theorem C73_coriolis_refuted :
  forall p mx my xlower ylower dx dy t dt aux q i j,
  friction_forcing p = false -> coriolis_forcing p = true -> wind_forcing p = false -> pressure_forcing p = false ->
  in_patch 0 mx my i j -> q 2%Z i j = 0 ->
  let x := coriolis p (ylower + (IZR j - /2) * dy) * dt in
  Rabs x <= 1 ->
  (exists q', src2 p mx my xlower ylower dx dy t dt aux q = Some q' /\
     speed2 q' i j <= (1 - x ^ 2 / 4) * speed2 q i j) /\
  (let a := 1 - /2 * x ^ 2 + x ^ 4 / 24 in let b := x - x ^ 3 / 6 in
   forall u v, Rabs (((u * a + v * b) ^ 2 + (u * - b + v * a) ^ 2) - (u ^ 2 + v ^ 2)) <= x ^ 6 * (u ^ 2 + v ^ 2)).
Proof.
  intros p mx my xl yl dx dy t dt aux q i j F C W P H U x X.
  assert (X1 : -1 <= x <= 1) by (revert X; unfold Rabs; destruct (Rcase_abs x); intros; lra).
  assert (S0 : 0 <= x ^ 2 <= 1) by (split; [apply pow2_ge_0|nra]).
  split.
  - unfold src2, friction. rewrite F. unfold wind_term, pressure_term. rewrite W, P.
    eexists. split; [reflexivity|]. unfold speed2. rewrite !coriolis_in by assumption.
    unfold coriolis_cell. updates. fold x. rewrite U. set (v := q 3%Z i j). set (s := x ^ 2) in *.
    replace ((0 * (1 - / 2 * s + x ^ 4 / 24) + v * (x - x ^ 3 / 6)) ^ 2 +
      ((0 * (1 - / 2 * s + x ^ 4 / 24) + v * (x - x ^ 3 / 6)) * (- x + x ^ 3 / 6) +
        v * (1 - / 2 * s + x ^ 4 / 24)) ^ 2)
      with ((s * (1 - s / 6) ^ 2 + (1 - s / 2 + s * s / 24 - s * (1 - s / 6) ^ 2) ^ 2) * v ^ 2)
      by (unfold s; field).
    replace ((1 - s / 4) * (0 ^ 2 + v ^ 2)) with ((1 - s / 4) * v ^ 2) by ring.
    apply Rmult_le_compat_r; [apply pow2_ge_0|].
    apply Rminus_le.
    replace (s * (1 - s / 6) ^ 2 + (1 - s / 2 + s * s / 24 - s * (1 - s / 6) ^ 2) ^ 2 - (1 - s / 4))
      with (s * (- 7 / 4 + 8 / 3 * s - 83 / 72 * s ^ 2 + 43 / 192 * s ^ 3 - s ^ 4 * (/ 48 - s / 1296))) by field.
    assert (S2 : 0 <= s ^ 2) by apply pow2_ge_0.
    assert (S3 : s ^ 3 <= s ^ 2) by (replace (s ^ 3) with (s * s ^ 2) by ring; nra).
    assert (S4 : 0 <= s ^ 4 * (/ 48 - s / 1296)).
    { apply Rmult_le_pos; [|lra]. replace (s ^ 4) with ((s ^ 2) ^ 2) by ring. apply pow2_ge_0. }
    assert (Sq : - 7 / 4 + 8 / 3 * s - (83 / 72 - 43 / 192) * s ^ 2 <= 0).
    { replace (- 7 / 4 + 8 / 3 * s - (83 / 72 - 43 / 192) * s ^ 2) with
        (- (1 - s) * (8 / 3 - (83 / 72 - 43 / 192) * (1 + s)) - 7 / 4 + 8 / 3 - 83 / 72 + 43 / 192) by field.
      assert (0 <= (1 - s) * (8 / 3 - (83 / 72 - 43 / 192) * (1 + s))) by (apply Rmult_le_pos; lra). lra. }
    assert (T : - 7 / 4 + 8 / 3 * s - 83 / 72 * s ^ 2 + 43 / 192 * s ^ 3 - s ^ 4 * (/ 48 - s / 1296) <= 0) by lra.
    nra.
  - intros a b u v.
    replace ((u * a + v * b) ^ 2 + (u * - b + v * a) ^ 2 - (u ^ 2 + v ^ 2))
      with ((a ^ 2 + b ^ 2 - 1) * (u ^ 2 + v ^ 2)) by ring.
    assert (N : 0 <= u ^ 2 + v ^ 2) by (pose proof (pow2_ge_0 u); pose proof (pow2_ge_0 v); lra).
    rewrite Rabs_mult, (Rabs_pos_eq (u ^ 2 + v ^ 2)) by exact N. apply Rmult_le_compat_r; [exact N|].
    replace (a ^ 2 + b ^ 2 - 1) with (x ^ 6 * (- / 72 + x ^ 2 / 576)) by (unfold a, b; field).
    assert (X6 : 0 <= x ^ 6) by (replace (x ^ 6) with ((x ^ 3) ^ 2) by ring; apply pow2_ge_0).
    rewrite Rabs_mult, (Rabs_pos_eq (x ^ 6)) by exact X6.
    assert (Rabs (- / 72 + x ^ 2 / 576) <= 1); [apply Rabs_le; lra|nra].
Qed.
Print Assumptions C73_coriolis_refuted.

(** Wind and air pressure alone push the water where it is deeper than the tolerance, and nowhere else: the wind
    in its own direction, the pressure down its gradient (in Cartesian coordinates, by central differences). *)
Theorem C73_storm :
  forall p mx my xlower ylower dx dy t dt aux q,
  friction_forcing p = false -> coriolis_forcing p = false ->
  0 <= dt -> 0 <= rho_air p -> (forall s a, 0 <= wind_drag p s a) -> coordinate_system p = 1%Z ->
  exists q', src2 p mx my xlower ylower dx dy t dt aux q = Some q' /\
  forall i j, in_patch 0 mx my i j ->
    (q 1%Z i j <= dry_tolerance p -> q' 2%Z i j = q 2%Z i j /\ q' 3%Z i j = q 3%Z i j) /\
    (dry_tolerance p < q 1%Z i j ->
     exists k, 0 <= k /\ (wind_forcing p = false -> k = 0) /\
       let r := if pressure_forcing p then dt * q 1%Z i j / 1025 else 0 in
       q' 2%Z i j = q 2%Z i j + k * aux (wind_index p) i j
         - r * ((aux (pressure_index p) (i + 1)%Z j - aux (pressure_index p) (i - 1)%Z j) / (2 * dx)) /\
       q' 3%Z i j = q 3%Z i j + k * aux (wind_index p + 1)%Z i j
         - r * ((aux (pressure_index p) i (j + 1)%Z - aux (pressure_index p) i (j - 1)%Z) / (2 * dy))).
Proof.
  intros p mx my xl yl dx dy t dt aux q F C Hdt Hr Hd Hc.
  unfold src2, friction, coriolis_term. rewrite F, C. eexists. split; [reflexivity|]. intros i j H.
  set (q1 := wind_term p mx my xl yl dx dy t dt aux q).
  assert (D1 : q1 1%Z i j = q 1%Z i j) by (apply wind_only; lia).
  assert (S1 : (q 1%Z i j <= dry_tolerance p -> q1 2%Z i j = q 2%Z i j /\ q1 3%Z i j = q 3%Z i j) /\
    (dry_tolerance p < q 1%Z i j -> exists k, 0 <= k /\ (wind_forcing p = false -> k = 0) /\
       q1 2%Z i j = q 2%Z i j + k * aux (wind_index p) i j /\
       q1 3%Z i j = q 3%Z i j + k * aux (wind_index p + 1)%Z i j)).
  { destruct (wind_forcing p) eqn:W.
    - unfold q1. rewrite !wind_in by assumption. unfold wind_cell.
      destruct (Rgt_dec (q 1%Z i j) (dry_tolerance p)) as [G|G].
      + split; [intros; lra|]. intros _. updates. eexists. split; [|split; [|split; reflexivity]].
        * apply Rmult_le_pos; [exact Hdt|]. unfold Rdiv. apply Rmult_le_pos; [|lra].
          apply Rmult_le_pos; [|apply sqrt_pos]. apply Rmult_le_pos; [apply Hd|exact Hr].
        * discriminate.
      + split; [auto|intros; lra].
    - unfold q1, wind_term. rewrite W. split; [auto|]. intros _. exists 0. split; [lra|]. split; [auto|]. split; ring. }
  destruct S1 as [Sd Sw]. destruct (pressure_forcing p) eqn:P.
  - rewrite !pressure_in by assumption. unfold pressure_cell. rewrite D1, Hc. change (Z.eqb 1 2) with false. cbv iota.
    destruct (Rgt_dec (q 1%Z i j) (dry_tolerance p)) as [G|G].
    + split; [intros; lra|]. intros L. destruct (Sw L) as (k & K1 & K2 & K3 & K4). exists k.
      split; [exact K1|]. split; [exact K2|]. updates. cbv zeta iota. rewrite K3, K4. unfold Rdiv. split; ring.
    + split; [exact Sd|intros; lra].
  - unfold pressure_term. rewrite P. split; [exact Sd|]. intros L. destruct (Sw L) as (k & K1 & K2 & K3 & K4).
    exists k. split; [exact K1|]. split; [exact K2|]. cbv zeta iota. rewrite K3, K4. split; ring.
Qed.
Print Assumptions C73_storm.

(** Water at rest under still air of uniform pressure stays at rest, whatever source terms are switched on. *)
Theorem C73_rest :
  forall p mx my xlower ylower dx dy t dt aux q pr,
  manning_covers p mx my aux ->
  (forall i j, in_patch 0 mx my i j -> q 2%Z i j = 0 /\ q 3%Z i j = 0) ->
  (forall i j, in_patch 0 mx my i j -> aux (wind_index p) i j = 0 /\ aux (wind_index p + 1)%Z i j = 0) ->
  (forall i j, in_patch 1 mx my i j -> aux (pressure_index p) i j = pr) ->
  exists q', src2 p mx my xlower ylower dx dy t dt aux q = Some q' /\ forall m i j, q' m i j = q m i j.
Proof.
  intros p mx my xl yl dx dy t dt aux q pr M R0 Wd Pr.
  assert (Fr : exists q1, friction p mx my aux dt q = Some q1 /\
    forall i j, in_patch 0 mx my i j -> q1 2%Z i j = 0 /\ q1 3%Z i j = 0).
  { destruct (friction_forcing p) eqn:F.
    - rewrite (friction_pure p mx my aux dt q F M). eexists. split; [reflexivity|]. intros i j H.
      rewrite !pure_loop_in by exact H. destruct (R0 i j H) as [A B]. unfold pure_friction, set_mom.
      destruct (Rlt_dec _ _); [updates; auto|]. destruct (Rle_dec _ _); [|now split].
      updates. rewrite A, B. unfold Rdiv. split; ring.
    - unfold friction. rewrite F. eexists. split; [reflexivity|exact R0]. }
  destruct Fr as (q1 & E1 & Z1). pose proof (friction_only _ _ _ _ _ _ _ E1) as O1.
  assert (Z2 : forall i j, in_patch 0 mx my i j -> coriolis_term p mx my yl dy dt q1 2%Z i j = 0 /\
    coriolis_term p mx my yl dy dt q1 3%Z i j = 0).
  { intros i j H. destruct (Z1 i j H) as [A B]. destruct (coriolis_forcing p) eqn:C.
    - rewrite !coriolis_in by assumption. unfold coriolis_cell. updates. rewrite A, B. split; ring.
    - unfold coriolis_term. rewrite C. now split. }
  pose proof (coriolis_only p mx my yl dy dt q1) as O2. set (q2 := coriolis_term p mx my yl dy dt q1) in *.
  assert (Z3 : forall i j, in_patch 0 mx my i j -> wind_term p mx my xl yl dx dy t dt aux q2 2%Z i j = 0 /\
    wind_term p mx my xl yl dx dy t dt aux q2 3%Z i j = 0).
  { intros i j H. destruct (Z2 i j H) as [A B]. destruct (Wd i j H) as [A' B'].
    destruct (wind_forcing p) eqn:C.
    - rewrite !wind_in by assumption. unfold wind_cell. destruct (Rgt_dec _ _); [|now split].
      updates. rewrite A, B, A', B'. split; ring.
    - unfold wind_term. rewrite C. now split. }
  pose proof (wind_only p mx my xl yl dx dy t dt aux q2) as O3.
  set (q3 := wind_term p mx my xl yl dx dy t dt aux q2) in *.
  assert (Z4 : forall i j, in_patch 0 mx my i j -> pressure_term p mx my xl yl dx dy dt aux q3 2%Z i j = 0 /\
    pressure_term p mx my xl yl dx dy dt aux q3 3%Z i j = 0).
  { intros i j H. destruct (Z3 i j H) as [A B]. destruct (pressure_forcing p) eqn:C.
    - rewrite !pressure_in by assumption. unfold pressure_cell. destruct (Rgt_dec _ _); [|now split].
      updates. rewrite A, B. unfold in_patch in *. rewrite !Pr by lia. unfold Rdiv. split; ring.
    - unfold pressure_term. rewrite C. now split. }
  pose proof (pressure_only p mx my xl yl dx dy dt aux q3) as O4.
  unfold src2. rewrite E1. eexists. split; [reflexivity|]. fold q2. fold q3. intros m i j.
  destruct (in_dec cell_eq (i, j) (do_cells 1 mx my)) as [I|I].
  - apply in_patch0 in I. destruct (Z4 i j I) as [A B]. destruct (R0 i j I) as [A' B'].
    destruct (Z.eq_dec m 2) as [->|N2]; [lra|]. destruct (Z.eq_dec m 3) as [->|N3]; [lra|].
    rewrite O4, O3, O2, O1 by lia. reflexivity.
  - assert (I' : ~ in_patch 0 mx my i j) by (now rewrite in_patch0).
    rewrite O4, O3, O2, O1 by tauto. reflexivity.
Qed.
Print Assumptions C73_rest.

(** ** Cases *)
(** gravity 9.81, no storm, two Manning coefficients with the break at the shore *)
Definition demo (fr co : bool) : params :=
  mkParams (981 / 100) 1 (PI / 2) (/ 2) (PI / 180) 6367500 (/ 1000) co fr 100 [(0, / 40); (10 ^ 33, / 20)] false 2
    false 2 1 false 4 (fun _ => (0, 0)) (fun _ => 0) (fun _ _ => 0) (fun _ _ => 0).
(** one metre of water that flows to the north-east *)
Definition flow : field := fun m i j => if Z.eqb m 1 then 1 else if Z.eqb m 2 then 3 else 4.

Example C73_instance_clean :
  clean (/ 1000) 2 8 8 (fun m i j => if Z.eqb i 3 then (- (/ 10 ^ 9))%R else flow m i j) 1%Z 3%Z 5%Z = 0 /\
  clean (/ 1000) 2 8 8 (fun m i j => if Z.eqb i 3 then (- (/ 10 ^ 9))%R else flow m i j) 2%Z 4%Z 5%Z = 3.
Proof.
  assert (P : 0 < / 10 ^ 9) by (apply Rinv_0_lt_compat, pow_lt; lra). split.
  - match goal with |- clean _ _ _ _ ?q0 _ _ _ = _ => destruct (clean_dry (/ 1000) 2 8 8 q0 3 5) as (A & _) end.
    + unfold in_patch. lia.
    + cbn [Z.eqb Pos.eqb]. lra.
    + rewrite A. cbn [Z.eqb Pos.eqb]. apply Rmax_right. lra.
  - rewrite clean_wet; [reflexivity|]. cbn [Z.eqb Pos.eqb flow]. lra.
Qed.

Example C73_instance_covers : forall co, manning_covers (demo true co) 8 8 (fun _ i _ => IZR i - 4).
Proof.
  intros co i j [Hi _] _. exists (10 ^ 33, / 20). split; [right; now left|]. cbn [fst].
  assert (IZR i <= IZR 8) by (apply IZR_le; lia).
  assert (100 <= 10 ^ 33).
  { replace 100 with (10 ^ 2) by ring. apply Rle_pow; [lra|lia]. }
  lra.
Qed.

(** under water the first coefficient, on the shore the second one *)
Example C73_instance_manning :
  manning_at (manning (demo true false)) (-3) (/ 40) /\ manning_at (manning (demo true false)) 1 (/ 20).
Proof.
  split.
  - exists [], 0, [(10 ^ 33, / 20)]. split; [reflexivity|]. split; [lra|easy].
  - exists [(0, / 40)], (10 ^ 33), []. split; [reflexivity|]. split.
    + apply Rlt_pow_R1; [lra|lia].
    + intros e [<-|[]]. cbn [fst]. lra.
Qed.

(** Coriolis' parameter is 1 everywhere in this case, and a step of 1/10 turns the flow *)
Example C73_instance_coriolis : forall y, coriolis (demo false true) y * / 10 = / 10.
Proof.
  intros y. unfold coriolis, demo. cbn [coordinate_system Z.eqb Pos.eqb theta_0 omega deg2rad].
  rewrite sin_PI2, cos_PI2. field.
Qed.

(** the motion of the bed of the refutation, with a step at its end *)
Example C73_instance_bed : auxtime (run_topo (0, 1) [] ([0; 3/5] ++ 1 :: [8/5; 11/5]) (mkT 0 false 0)) = 1.
Proof.
  apply C73_bed_final.
  - apply C73_bed_final_refuted.
  - intros f [<-|[]]. cbn [snd]. lra.
  - exists (0, 1). split; [now left|reflexivity].
  - repeat (constructor; [|repeat (constructor; try lra)]). constructor.
  - intros t H. cbn [app In topotime] in H |- *. repeat destruct H as [<-|H]; try lra.
  - reflexivity.
Qed.
