(** The routines on an extruded patch act on every layer like the 2D routines. *)
From Coq Require Import ZArith QArith Qminmax Qabs List Lia Bool.
From Verif Require Import Base_Float Model_Face Model_Grid Model_Corner Model_Extruded Proof_Grid Proof_Corner4.
Import ListNotations.
Open Scope Z_scope.

Definition lay (k : Z) (q : arr3) : arr := fun '(i, j, mq) => q (i, j, k, mq).
Definition vlay (k : Z) (v : vol_t) : area_t := fun '(i, j) => v (i, j, k).
Definition same (k : Z) (q : arr3) (s : arr) : Prop := forall i j mq, q (i, j, k, mq) = s (i, j, mq).

Lemma cell3_eqb_spec : forall a b, reflect (a = b) (cell3_eqb a b).
Proof.
  intros [[[i j] k] m] [[[i' j'] k'] m']. unfold cell3_eqb.
  destruct (Z.eqb_spec i i'), (Z.eqb_spec j j'), (Z.eqb_spec k k'), (Z.eqb_spec m m'); cbn [andb]; constructor; congruence.
Qed.

(** One layer: [G] does to layer [k] what [F] does to a 2D array, and nothing else. *)
Definition sim (k : Z) (G : arr3 -> option arr3) (F : arr -> option arr) : Prop :=
  forall q s s', same k q s -> F s = Some s' ->
  exists q', G q = Some q' /\ same k q' s' /\ (forall i j k' mq, k' <> k -> q' (i, j, k', mq) = q (i, j, k', mq)).

Lemma sim_skip : forall k, sim k Some Some.
Proof. intros k q s s' H E. injection E as <-. exists q. split; [reflexivity|]. split; [exact H|reflexivity]. Qed.
Lemma sim_none : forall k G, sim k G (fun _ => None).
Proof. intros k G q s s' H E. discriminate E. Qed.
Lemma sim_bind : forall A k (x : option A) G F, (forall v, x = Some v -> sim k (G v) (F v)) ->
  sim k (fun q => bind x (fun v => G v q)) (fun s => bind x (fun v => F v s)).
Proof. intros A k x G F H q s s' R E. destruct x as [v|]; [|discriminate E]. cbn [bind] in *. apply (H v eq_refl q s s' R E). Qed.
Lemma sim_loop_n : forall k G F n lo, (forall x, lo <= x < lo + Z.of_nat n -> sim k (G x) (F x)) ->
  sim k (loop_n n lo G) (loop_n n lo F).
Proof.
  intros k G F n. induction n as [|n IH]; intros lo H q s s' R E.
  - cbn [loop_n] in *. injection E as <-. exists q. split; [reflexivity|]. split; [exact R|reflexivity].
  - cbn [loop_n] in *. destruct (F lo s) as [s1|] eqn:E1; [|discriminate E]. cbn [bind] in E.
    destruct (H lo ltac:(lia) q s s1 R E1) as (q1 & E2 & R1 & O1). rewrite E2. cbn [bind].
    destruct (IH (lo + 1) ltac:(intros x Hx; apply H; lia) q1 s1 s' R1 E) as (q2 & E3 & R2 & O2).
    exists q2. split; [exact E3|]. split; [exact R2|]. intros i j k' mq Hk. rewrite (O2 i j k' mq Hk). apply (O1 i j k' mq Hk).
Qed.
Lemma sim_loop : forall k G F lo hi, (forall x, lo <= x <= hi -> sim k (G x) (F x)) -> sim k (loop lo hi G) (loop lo hi F).
Proof.
  intros k G F lo hi H. unfold loop. destruct (Z_le_dec lo hi) as [L|L].
  - apply sim_loop_n. intros x Hx. apply H. lia.
  - replace (Z.to_nat (hi - lo + 1)) with O by lia. exact (sim_skip k).
Qed.
Lemma sim_seq : forall k G F G' F', sim k G F -> sim k G' F' ->
  sim k (fun q => bind (G q) G') (fun s => bind (F s) F').
Proof.
  intros k G F G' F' H H' q s s' R E. destruct (F s) as [s1|] eqn:E1; [|discriminate E]. cbn [bind] in E.
  destruct (H q s s1 R E1) as (q1 & E2 & R1 & O1). destruct (H' q1 s1 s' R1 E) as (q2 & E3 & R2 & O2).
  exists q2. rewrite E2. split; [exact E3|]. split; [exact R2|]. intros i j k' mq Hk. rewrite (O2 i j k' mq Hk). apply (O1 i j k' mq Hk).
Qed.
Lemma sim_ext : forall k G F G' F', (forall q, G' q = G q) -> (forall s, F' s = F s) -> sim k G F -> sim k G' F'.
Proof. intros k G F G' F' HG HF H q s s' R E. rewrite HG. rewrite HF in E. apply (H q s s' R E). Qed.

Section Layers.
  Variable d : dims3.
  Hypothesis Hbc : 0 <= mbc (flat d).

  Lemma rd3_lay : forall k q i j mq, 1 <= k <= mz d -> rd3 d q (i, j, k, mq) = rd (flat d) (lay k q) (i, j, mq).
  Proof.
    intros k q i j mq H. unfold rd3, rd, in_q3, in_q, lay. cbv zeta.
    replace (1 - mbc (flat d) <=? k) with true by (symmetry; apply Z.leb_le; lia).
    replace (k <=? mz d + mbc (flat d)) with true by (symmetry; apply Z.leb_le; lia). now rewrite !andb_true_r.
  Qed.
  Lemma rd3_same : forall k q s i j mq, 1 <= k <= mz d -> same k q s -> rd3 d q (i, j, k, mq) = rd (flat d) s (i, j, mq).
  Proof. intros k q s i j mq H R. rewrite rd3_lay by exact H. unfold rd, lay. now rewrite R. Qed.
  Lemma rd_vol_lay : forall k v i j, 1 <= k <= mz d -> rd_vol d v i j k = rd_area (flat d) (vlay k v) i j.
  Proof.
    intros k v i j H. unfold rd_vol, rd_area, vlay. cbv zeta.
    replace (- mbc (flat d) <=? k) with true by (symmetry; apply Z.leb_le; lia).
    replace (k <=? mz d + mbc (flat d) + 1) with true by (symmetry; apply Z.leb_le; lia). now rewrite !andb_true_r.
  Qed.
  Lemma sim_wr : forall k i j mq v, 1 <= k <= mz d ->
    sim k (fun q => wr3 d q (i, j, k, mq) v) (fun s => wr (flat d) s (i, j, mq) v).
  Proof.
    intros k i j mq v H q s s' R E. unfold wr in E. destruct (in_q (flat d) (i, j, mq)) eqn:I; [|discriminate E].
    apply (f_equal (fun o => match o with Some a => a | None => s end)) in E. cbn beta iota in E. subst s'.
    assert (I3 : in_q3 d (i, j, k, mq) = true).
    { revert I. unfold in_q3, in_q. cbv zeta.
      replace (1 - mbc (flat d) <=? k) with true by (symmetry; apply Z.leb_le; lia).
      replace (k <=? mz d + mbc (flat d)) with true by (symmetry; apply Z.leb_le; lia). now rewrite !andb_true_r. }
    unfold wr3. rewrite I3. eexists. split; [reflexivity|]. split.
    - intros i' j' mq'. unfold cell3_eqb, cell_eqb. rewrite Z.eqb_refl, andb_true_r.
      destruct ((i' =? i) && (j' =? j) && (mq' =? mq)); [reflexivity|apply R].
    - intros i' j' k' mq' Hk. destruct (cell3_eqb_spec (i', j', k', mq') (i, j, k, mq)) as [E|E]; [congruence|reflexivity].
  Qed.

  (** All layers at once. *)
  Definition steps (G : arr3 -> option arr3) (F : Z -> arr -> option arr) : Prop :=
    forall q r r', (forall k, 1 <= k <= mz d -> same k q (r k)) -> (forall k, 1 <= k <= mz d -> F k (r k) = Some (r' k)) ->
    exists q', G q = Some q' /\ (forall k, 1 <= k <= mz d -> same k q' (r' k)) /\
      (forall i j k mq, ~ 1 <= k <= mz d -> q' (i, j, k, mq) = q (i, j, k, mq)).

  Lemma steps_layers_n : forall G F n lo, (forall k, lo <= k < lo + Z.of_nat n -> sim k (G k) (F k)) ->
    forall q (r r' : Z -> arr), (forall k, lo <= k < lo + Z.of_nat n -> same k q (r k)) ->
    (forall k, lo <= k < lo + Z.of_nat n -> F k (r k) = Some (r' k)) ->
    exists q', loop_n n lo G q = Some q' /\ (forall k, lo <= k < lo + Z.of_nat n -> same k q' (r' k)) /\
      (forall i j k mq, ~ lo <= k < lo + Z.of_nat n -> q' (i, j, k, mq) = q (i, j, k, mq)).
  Proof.
    intros G F n. induction n as [|n IH]; intros lo H q r r' R E.
    - exists q. cbn [loop_n]. split; [reflexivity|]. split; [intros k Hk; lia|reflexivity].
    - cbn [loop_n]. destruct (H lo ltac:(lia) q (r lo) (r' lo) (R lo ltac:(lia)) (E lo ltac:(lia))) as (q1 & E1 & R1 & O1).
      rewrite E1. cbn [bind].
      destruct (IH (lo + 1) ltac:(intros k Hk; apply H; lia) q1 r r') as (q2 & E2 & R2 & O2).
      { intros k Hk i j mq. rewrite O1 by lia. apply R. lia. }
      { intros k Hk. apply E. lia. }
      exists q2. split; [exact E2|]. split.
      + intros k Hk. destruct (Z.eq_dec k lo) as [->|N]; [|apply R2; lia]. intros i j mq. rewrite O2 by lia. apply R1.
      + intros i j k mq Hk. rewrite O2 by lia. apply O1. lia.
  Qed.
  Lemma steps_layers : forall G F, (forall k, 1 <= k <= mz d -> sim k (G k) (F k)) -> steps (loop 1 (mz d) G) F.
  Proof.
    intros G F H q r r' R E. unfold loop.
    destruct (steps_layers_n G F (Z.to_nat (mz d - 1 + 1)) 1) with (q := q) (r := r) (r' := r') as (q' & E' & R' & O').
    - intros k Hk. apply H. lia.
    - intros k Hk. apply R. lia.
    - intros k Hk. apply E. lia.
    - exists q'. split; [exact E'|]. split; [intros k Hk; apply R'; lia|intros i j k mq Hk; apply O'; lia].
  Qed.
  Lemma steps_seq : forall G F G' F', steps G F -> steps G' F' ->
    steps (fun q => bind (G q) G') (fun k s => bind (F k s) (F' k)).
  Proof.
    intros G F G' F' H H' q r r' R E.
    set (r1 k := match F k (r k) with Some s => s | None => r k end).
    assert (E1 : forall k, 1 <= k <= mz d -> F k (r k) = Some (r1 k)).
    { intros k Hk. unfold r1. specialize (E k Hk). destruct (F k (r k)); [reflexivity|discriminate E]. }
    destruct (H q r r1 R E1) as (q1 & G1 & R1 & O1).
    destruct (H' q1 r1 r' R1) as (q2 & G2 & R2 & O2).
    { intros k Hk. specialize (E k Hk). rewrite (E1 k Hk) in E. exact E. }
    exists q2. rewrite G1. split; [exact G2|]. split; [exact R2|]. intros i j k mq Hk. rewrite (O2 i j k mq Hk). apply (O1 i j k mq Hk).
  Qed.
  Lemma steps_skip : steps Some (fun _ => Some).
  Proof.
    intros q r r' R E. exists q. split; [reflexivity|]. split; [|reflexivity]. intros k Hk. specialize (E k Hk). injection E as <-. apply R, Hk.
  Qed.
  Lemma steps_ext : forall G F G' F', (forall q, G' q = G q) -> (forall k s, F' k s = F k s) -> steps G F -> steps G' F'.
  Proof.
    intros G F G' F' HG HF H q r r' R E. rewrite HG. apply (H q r r' R). intros k Hk. rewrite <- HF. apply E, Hk.
  Qed.
  Lemma steps_loop_n : forall G F n lo, (forall x, lo <= x < lo + Z.of_nat n -> steps (G x) (F x)) ->
    steps (loop_n n lo G) (fun k => loop_n n lo (fun x => F x k)).
  Proof.
    intros G F n. induction n as [|n IH]; intros lo H; [exact steps_skip|].
    cbn [loop_n]. apply (steps_seq (G lo) (F lo)); [apply H; lia|]. apply IH. intros x Hx. apply H. lia.
  Qed.
  Lemma steps_loop : forall G F lo hi, (forall x, lo <= x <= hi -> steps (G x) (F x)) ->
    steps (loop lo hi G) (fun k => loop lo hi (fun x => F x k)).
  Proof.
    intros G F lo hi H. unfold loop. destruct (Z_le_dec lo hi) as [L|L].
    - apply steps_loop_n. intros x Hx. apply H. lia.
    - replace (Z.to_nat (hi - lo + 1)) with O by lia. exact steps_skip.
  Qed.
  Hypothesis Hz : 1 <= mz d.
  Lemma steps_bind : forall A (x : option A) G F, (forall v, x = Some v -> steps (G v) (F v)) ->
    steps (fun q => bind x (fun v => G v q)) (fun k s => bind x (fun v => F v k s)).
  Proof.
    intros A x G F H q r r' R E. destruct x as [v|].
    - cbn [bind] in *. apply (H v eq_refl q r r' R E).
    - specialize (E 1 ltac:(lia)). discriminate E.
  Qed.
  Lemma steps_none : forall G, steps G (fun _ _ => None).
  Proof. intros G q r r' R E. specialize (E 1 ltac:(lia)). discriminate E. Qed.

  (** The use: a property of the 2D routine holds in every layer. *)
  Lemma steps_apply : forall G F q (P : Z -> arr -> Prop), steps G F ->
    (forall k, 1 <= k <= mz d -> exists s', F k (lay k q) = Some s' /\ P k s') ->
    exists q', G q = Some q' /\
      (forall k, 1 <= k <= mz d -> exists s', F k (lay k q) = Some s' /\ P k s' /\ same k q' s') /\
      (forall i j k mq, ~ 1 <= k <= mz d -> q' (i, j, k, mq) = q (i, j, k, mq)).
  Proof.
    intros G F q P H E. set (r' k := match F k (lay k q) with Some s => s | None => lay k q end).
    destruct (H q (fun k => lay k q) r') as (q' & E' & R' & O').
    - intros k Hk i j mq. reflexivity.
    - intros k Hk. unfold r'. destruct (E k Hk) as (s' & -> & _). reflexivity.
    - exists q'. split; [exact E'|]. split; [|exact O']. intros k Hk. destruct (E k Hk) as (s' & Es & Ps).
      exists s'. split; [exact Es|]. split; [exact Ps|]. specialize (R' k Hk). unfold r' in R'. now rewrite Es in R'.
  Qed.

  (* ------------------------------------------------------------ the routines *)

  Variable rnd : Q -> Q.

  Ltac reads k := rewrite ?(fun q i j mq H => rd3_lay k q i j mq H) by assumption.

  Lemma copy_cell_sim : forall A qn i1 j1 k mq, 1 <= k <= mz d ->
    sim k (copy_cell3 d A qn i1 j1 k mq) (copy_cell (flat d) A (lay k qn) i1 j1 mq).
  Proof.
    intros A qn i1 j1 k mq Hk. destruct A as [[[[[a11 a12] a21] a22] f1] f2]. unfold copy_cell3, copy_cell. cbv zeta.
    rewrite rd3_lay by exact Hk. apply sim_bind. intros v _. now apply sim_wr.
  Qed.
  Lemma copy_face_steps : forall qn iface t,
    steps (fun q => copy_face3 rnd d q qn iface t) (fun k s => copy_face rnd (flat d) s (lay k qn) iface t).
  Proof.
    intros qn iface t. unfold copy_face3, copy_face. apply steps_bind. intros A _.
    destruct (iface =? 0); [|destruct (iface =? 1); [|destruct (iface =? 2); [|destruct (iface =? 3); [|exact steps_skip]]]];
      (apply steps_loop; intros mq _; apply steps_layers; intros k Hk; apply sim_loop; intros j1 _; apply sim_loop; intros i1 _; now apply copy_cell_sim).
  Qed.
  Lemma copy_corner_steps : forall qn ic c,
    steps (fun q => copy_corner3 rnd d q qn ic c) (fun k s => copy_corner rnd (flat d) s (lay k qn) ic c).
  Proof.
    intros qn ic c. unfold copy_corner3, copy_corner. apply steps_loop; intros mq _; apply steps_layers; intros k Hk.
    apply sim_loop; intros ibc _; apply sim_loop; intros jbc _.
    destruct (if ic =? 0 then _ else _) as [i1 j1]. apply sim_bind. intros [i2 j2] _. rewrite rd3_lay by exact Hk.
    apply sim_bind. intros v _. now apply sim_wr.
  Qed.

  Lemma sum4_ext : forall f g, (forall m, f m = g m) -> sum4 f = sum4 g.
  Proof. intros f g H. unfold sum4. now rewrite !H. Qed.

  Lemma average_ghost_sim : forall qf vf manifold t ic jc k mq, 1 <= k <= mz d ->
    sim k (average_ghost3 rnd d qf vf manifold t ic jc k mq)
          (average_ghost rnd (flat d) (lay k qf) (vlay k vf) manifold t ic jc mq).
  Proof.
    intros qf vf manifold t ic jc k mq Hk. unfold average_ghost3, average_ghost.
    apply sim_bind; intros ij _. apply sim_bind; intros c0 _. apply sim_bind; intros c1 _. apply sim_bind; intros c2 _. apply sim_bind; intros c3 _.
    cbv zeta. destruct (_ && _ && _ && _); [|exact (sim_skip k)].
    destruct manifold.
    - eapply (sim_ext k (fun q => bind _ (fun s => bind _ (fun af => _)))); [intros q; reflexivity|intros s; reflexivity|].
      rewrite (sum4_ext (fun m => bind (rd3 d qf _) _)
        (fun m => bind (rd (flat d) (lay k qf) (fst (if m =? 0 then c0 else if m =? 1 then c1 else if m =? 2 then c2 else c3),
                                 snd (if m =? 0 then c0 else if m =? 1 then c1 else if m =? 2 then c2 else c3), mq)) (fun x =>
                  bind (rd_area (flat d) (vlay k vf) (fst (if m =? 0 then c0 else if m =? 1 then c1 else if m =? 2 then c2 else c3))
                                 (snd (if m =? 0 then c0 else if m =? 1 then c1 else if m =? 2 then c2 else c3))) (fun v => Some (x * v)%Q))))
        by (intros m; rewrite rd3_lay, rd_vol_lay by exact Hk; reflexivity).
      apply sim_bind. intros s _.
      rewrite (sum4_ext (fun m => rd_vol d vf _ _ k)
        (fun m => rd_area (flat d) (vlay k vf) (fst (if m =? 0 then c0 else if m =? 1 then c1 else if m =? 2 then c2 else c3))
                                 (snd (if m =? 0 then c0 else if m =? 1 then c1 else if m =? 2 then c2 else c3))))
        by (intros m; rewrite rd_vol_lay by exact Hk; reflexivity).
      apply sim_bind. intros af _. now apply sim_wr.
    - rewrite (sum4_ext (fun m => rd3 d qf _)
        (fun m => rd (flat d) (lay k qf) (fst (if m =? 0 then c0 else if m =? 1 then c1 else if m =? 2 then c2 else c3),
                                 snd (if m =? 0 then c0 else if m =? 1 then c1 else if m =? 2 then c2 else c3), mq)))
        by (intros m; rewrite rd3_lay by exact Hk; reflexivity).
      apply sim_bind. intros s _. now apply sim_wr.
  Qed.
  Lemma average_face_steps : forall qf vf idir iface rr manifold t,
    steps (fun q => average_face3 rnd d q qf vf idir iface rr manifold t)
          (fun k s => average_face rnd (flat d) s (lay k qf) (vlay k vf) idir iface rr manifold t).
  Proof.
    intros qf vf idir iface rr manifold t. unfold average_face3, average_face.
    destruct (negb _); [apply steps_none|].
    destruct (idir =? 0); (apply steps_loop; intros mq _; apply steps_layers; intros k Hk; apply sim_loop; intros x _; apply sim_loop; intros y _;
      apply sim_bind; intros z _; now apply average_ghost_sim).
  Qed.

  Lemma average_corner_cell_sim : forall qf vf manifold c0 c1 c2 c3 i1 j1 k mq, 1 <= k <= mz d ->
    sim k (average_corner_cell3 d qf vf manifold c0 c1 c2 c3 i1 j1 k mq)
          (average_corner_cell (flat d) (lay k qf) (vlay k vf) manifold c0 c1 c2 c3 i1 j1 mq).
  Proof.
    intros qf vf manifold c0 c1 c2 c3 i1 j1 k mq Hk. unfold average_corner_cell3, average_corner_cell. cbv zeta. unfold sum4.
    rewrite !rd3_lay, !rd_vol_lay by exact Hk. destruct manifold.
    - apply sim_bind. intros s _. apply sim_bind. intros af _. now apply sim_wr.
    - apply sim_bind. intros s _. now apply sim_wr.
  Qed.

  Lemma average_corner_steps : forall qf vf rr manifold ic c,
    steps (fun q => average_corner3 rnd d q qf vf rr manifold ic c)
          (fun k s => average_corner_mq rnd (flat d) s (lay k qf) (vlay k vf) rr manifold ic c).
  Proof.
    intros qf vf rr manifold ic c. unfold average_corner3, average_corner_mq. destruct (negb _); [apply steps_none|].
    apply steps_loop; intros mq _; apply steps_layers; intros k Hk. apply sim_loop; intros ibc _; apply sim_loop; intros jbc _.
    apply sim_bind; intros [i1 j1] _. apply sim_bind; intros ij _. apply sim_bind; intros c0 _. apply sim_bind; intros c1 _. apply sim_bind; intros c2 _.
    apply sim_bind; intros c3 _. now apply average_corner_cell_sim.
  Qed.

  Lemma interp_four_sim : forall qc A rr c0 ic jc k mq, 1 <= k <= mz d ->
    sim k (interp_four3 d qc A rr c0 ic jc k mq) (interp_four (flat d) (lay k qc) A rr c0 ic jc mq).
  Proof.
    intros qc A rr c0 ic jc k mq Hk. unfold interp_four3, interp_four. rewrite !rd3_lay by exact Hk.
    apply sim_bind; intros a _. apply sim_bind; intros b _. apply sim_bind; intros e _. apply sim_bind; intros s _. apply sim_bind; intros n _.
    cbv zeta. apply sim_loop; intros m _. now apply sim_wr.
  Qed.
  Lemma interp_at_sim : forall qc A rr t ic jc k mq, 1 <= k <= mz d ->
    sim k (interp_at3 rnd d qc A rr t ic jc k mq) (interp_at rnd (flat d) (lay k qc) A rr t ic jc mq).
  Proof.
    intros qc A rr t ic jc k mq Hk. unfold interp_at3, interp_at.
    apply sim_bind; intros ij _. apply sim_bind; intros c0 _. apply sim_bind; intros c1 _. apply sim_bind; intros c2 _. apply sim_bind; intros c3 _.
    cbv zeta. destruct (_ && _ && _ && _); [now apply interp_four_sim|exact (sim_skip k)].
  Qed.
  Lemma interpolate_face_steps : forall qc idir iface rr t,
    steps (fun q => interpolate_face3 rnd d qc q idir iface rr t)
          (fun k s => interpolate_face rnd (flat d) (lay k qc) s idir iface rr t).
  Proof.
    intros qc idir iface rr t. unfold interpolate_face3, interpolate_face. destruct (negb _); [apply steps_none|].
    apply steps_bind; intros A _. apply steps_loop; intros mq _.
    destruct (idir =? 0); (apply steps_layers; intros k Hk; apply sim_loop; intros x _; apply sim_bind; intros y _; apply sim_loop; intros z _;
      now apply interp_at_sim).
  Qed.
  Lemma interpolate_corner_steps : forall qc rr ic c,
    steps (fun q => interpolate_corner3 rnd d qc q rr ic c)
          (fun k s => interpolate_corner rnd (flat d) (lay k qc) s rr ic c).
  Proof.
    intros qc rr ic c. unfold interpolate_corner3, interpolate_corner. destruct (negb _); [apply steps_none|].
    apply steps_bind; intros A _. apply steps_loop; intros ibc _; apply steps_loop; intros jbc _.
    apply steps_bind; intros [i1 j1] _. apply steps_bind; intros ij _. apply steps_bind; intros c0 _.
    apply steps_loop; intros mq _; apply steps_layers; intros k Hk. now apply interp_four_sim.
  Qed.

  (** the 2D areas that fixcapaq2 multiplies by dz = 1 *)
  Definition times_one (a : area_t) : area_t := fun c => option_map (fun x => (x * 1)%Q) (a c).
  Lemma rd_times_one : forall D a i j, rd_area D (times_one a) i j = option_map (fun x => (x * 1)%Q) (rd_area D a i j).
  Proof. intros D a i j. unfold rd_area, times_one. destruct (_ && _ && _ && _); reflexivity. Qed.

  Lemma interpolate_cell_sim : forall qc i j ic jc k mq, 1 <= k <= mz d ->
    sim k (interpolate_cell3 d qc i j ic jc k mq) (interpolate_cell (flat d) (lay k qc) i j ic jc mq).
  Proof.
    intros qc i j ic jc k mq Hk. unfold interpolate_cell3, interpolate_cell. rewrite !rd3_lay by exact Hk.
    apply sim_bind; intros a _. apply sim_bind; intros b _. apply sim_bind; intros e _. apply sim_bind; intros s _. apply sim_bind; intros n _.
    cbv zeta. apply sim_loop; intros ii _; apply sim_loop; intros jj _. now apply sim_wr.
  Qed.
  Lemma loop_ext2 : forall S (f g : Z -> S -> option S) lo hi s, (forall x s, f x s = g x s) -> loop lo hi f s = loop lo hi g s.
  Proof.
    intros S f g lo hi s H. unfold loop. generalize (Z.to_nat (hi - lo + 1)). intros n. revert lo s. induction n as [|n IH]; intros lo s; [reflexivity|].
    cbn [loop_n]. rewrite H. destruct (g lo s) as [s'|]; [|reflexivity]. cbn [bind]. apply IH.
  Qed.
  Lemma fix_cell_sim : forall qc vc vf i j ic jc k m, 1 <= k <= mz d ->
    sim k (fix_cell3 d qc vc vf i j ic jc k m)
          (fix_cell (flat d) (lay k qc) (times_one (vlay k vc)) (times_one (vlay k vf)) i j ic jc m).
  Proof.
    intros qc vc vf i j ic jc k m Hk q s s' R E. unfold fix_cell in E. unfold fix_cell3. cbv zeta in *.
    rewrite rd_times_one in E. rewrite rd_vol_lay, rd3_lay by exact Hk.
    rewrite (loop_ext2 Q _ (fun ii => loop 1 2 (fun jj sum =>
            bind (rd_area (flat d) (times_one (vlay k vf)) ((i - 1) * 2 + ii) ((j - 1) * 2 + jj)) (fun kf =>
            bind (rd (flat d) s ((i - 1) * 2 + ii, (j - 1) * 2 + jj, m)) (fun qf => Some (sum + kf * qf)%Q))))).
    2:{ intros ii u. apply loop_ext2. intros jj w. rewrite rd_vol_lay, (rd3_same k q s) by assumption. rewrite rd_times_one.
        destruct (rd_area (flat d) (vlay k vf) ((i - 1) * 2 + ii) ((j - 1) * 2 + jj)); reflexivity. }
    destruct (loop 1 2 _ 0%Q) as [sum|]; [|discriminate E]. cbn [bind] in *.
    destruct (rd_area (flat d) (vlay k vc) ic jc) as [kc|]; [|discriminate E]. cbn [bind option_map] in *.
    destruct (rd (flat d) (lay k qc) (ic, jc, m)) as [x|]; [|discriminate E]. cbn [bind] in *.
    revert E. revert R. revert q s s'.
    refine (sim_loop k _ _ 1 2 _). intros ii _. apply sim_loop. intros jj _. intros q s s' R E.
    rewrite rd_times_one in E. rewrite rd_vol_lay, (rd3_same k q s) by assumption.
    destruct (rd_area (flat d) (vlay k vf) ((i - 1) * 2 + ii) ((j - 1) * 2 + jj)) as [kf|]; [|discriminate E]. cbn [bind option_map] in *.
    destruct (rd (flat d) s ((i - 1) * 2 + ii, (j - 1) * 2 + jj, m)) as [y|]; [|discriminate E]. cbn [bind] in *.
    exact (sim_wr k _ _ m _ Hk q s s' R E).
  Qed.
  Lemma interpolate2fine_steps : forall qc vc vf g manifold,
    steps (interpolate2fine3 d qc vc vf g manifold)
          (fun k => interpolate2fine (flat d) (lay k qc) (times_one (vlay k vc)) (times_one (vlay k vf)) g manifold).
  Proof.
    intros qc vc vf g manifold. unfold interpolate2fine3, interpolate2fine. cbv zeta.
    apply steps_seq.
    - apply steps_loop; intros mq _; apply steps_layers; intros k Hk. apply sim_loop; intros j _; apply sim_loop; intros i _. now apply interpolate_cell_sim.
    - destruct manifold; [|exact steps_skip]. unfold fixcapaq3, fixcapaq2. cbv zeta.
      apply steps_loop; intros mq _; apply steps_layers; intros k Hk. apply sim_loop; intros i _; apply sim_loop; intros j _. now apply fix_cell_sim.
  Qed.

  (** the areas of the coarse cells for which the 2D averaging does the same: the sums over the fine cells *)
  Definition cover_of (i j : Z) : Z :=
    (if i <=? mx (flat d) / 2 then 0 else 1) + 2 * (if j <=? mx (flat d) / 2 then 0 else 1).
  Definition fine_sum (vf : Z -> vol_t) (k : Z) : area_t := fun '(i1, j1) =>
    let g := cover_of i1 j1 in
    let ig := Z.rem g 2 in
    let jg := Z.quot (g - ig) 2 in
    let i := i1 - Z.quot (ig * mx (flat d)) 2 in
    let j := j1 - Z.quot (jg * mx (flat d)) 2 in
    sum4 (fun m => rd_area (flat d) (vlay k (vf g)) ((i - 1) * 2 + (Z.rem m 2 + 1)) ((j - 1) * 2 + (Z.quot m 2 + 1))).

  Lemma average2coarse_steps : forall qf vf manifold, Z.Even (mx (flat d)) -> mx (flat d) = my (flat d) -> 0 <= mx (flat d) ->
    steps (average2coarse3 d qf vf manifold)
          (fun k => average2coarse (flat d) (fun g => lay k (qf g)) (fun g => vlay k (vf g)) (fine_sum vf k) manifold).
  Proof.
    intros qf vf manifold [h Hh] Hsq Hp. unfold average2coarse3, average2coarse. apply steps_loop. intros g Hg.
    unfold fort_average2coarse3, fort_average2coarse. cbv zeta.
    apply steps_loop; intros mq _; apply steps_layers; intros k Hk. apply sim_loop; intros j Hj; apply sim_loop; intros i Hi.
    unfold average_cell3, average_cell. cbv zeta. unfold sum4. rewrite !rd3_lay, !rd_vol_lay by exact Hk. destruct manifold.
    - apply sim_bind. intros s Es. 
      assert (EQ : rd_area (flat d) (fine_sum vf k) (i + Z.quot (Z.rem g 2 * mx (flat d)) 2) (j + Z.quot (Z.quot (g - Z.rem g 2) 2 * mx (flat d)) 2) =
        sum4 (fun m => rd_area (flat d) (vlay k (vf g)) ((i - 1) * 2 + (Z.rem m 2 + 1)) ((j - 1) * 2 + (Z.quot m 2 + 1)))).
      { rewrite <- Hsq in Hj. rewrite Hh in Hi, Hj.
        assert (Q2 : Z.quot (2 * h) 2 = h) by (rewrite (Z.mul_comm 2 h); apply Z.quot_mul; lia). rewrite Q2 in Hi, Hj.
        assert (G : g = 0 \/ g = 1 \/ g = 2 \/ g = 3) by lia.
        assert (B : forall x y, 1 <= x <= 2 * h -> 1 <= y <= 2 * h -> rd_area (flat d) (fine_sum vf k) x y = fine_sum vf k (x, y)).
        { intros x y Hx Hy. unfold rd_area. rewrite <- Hsq, Hh.
          replace (_ && _ && _ && _) with true; [reflexivity|]. symmetry. rewrite !andb_true_iff, !Z.leb_le. lia. }
        assert (D2 : (2 * h) / 2 = h) by (rewrite (Z.mul_comm 2 h); apply Z.div_mul; lia).
        destruct G as [->|[->|[->| ->]]]; rewrite Hh;
          [change (Z.rem 0 2) with 0; change (Z.quot (0 - 0) 2) with 0
          |change (Z.rem 1 2) with 1; change (Z.quot (1 - 1) 2) with 0
          |change (Z.rem 2 2) with 0; change (Z.quot (2 - 0) 2) with 1
          |change (Z.rem 3 2) with 1; change (Z.quot (3 - 1) 2) with 1];
          rewrite ?Z.mul_0_l, ?Z.mul_1_l, ?Q2; change (Z.quot 0 2) with 0; rewrite B by lia; unfold fine_sum, cover_of; cbv zeta; rewrite Hh, D2.
        - replace (i + 0 <=? h) with true by (symmetry; apply Z.leb_le; lia). replace (j + 0 <=? h) with true by (symmetry; apply Z.leb_le; lia).
          change (0 + 2 * 0) with 0. change (Z.rem 0 2) with 0; change (Z.quot (0 - 0) 2) with 0. rewrite !Z.mul_0_l. change (Z.quot 0 2) with 0.
          now rewrite !Z.add_0_r, !Z.sub_0_r.
        - replace (i + h <=? h) with false by (symmetry; apply Z.leb_gt; lia). replace (j + 0 <=? h) with true by (symmetry; apply Z.leb_le; lia).
          change (1 + 2 * 0) with 1. change (Z.rem 1 2) with 1; change (Z.quot (1 - 1) 2) with 0. rewrite !Z.mul_0_l, !Z.mul_1_l, Q2. change (Z.quot 0 2) with 0.
          now rewrite !Z.add_0_r, !Z.sub_0_r, Z.add_simpl_r.
        - replace (i + 0 <=? h) with true by (symmetry; apply Z.leb_le; lia). replace (j + h <=? h) with false by (symmetry; apply Z.leb_gt; lia).
          change (0 + 2 * 1) with 2. change (Z.rem 2 2) with 0; change (Z.quot (2 - 0) 2) with 1. rewrite !Z.mul_0_l, !Z.mul_1_l, Q2. change (Z.quot 0 2) with 0.
          now rewrite !Z.add_0_r, !Z.sub_0_r, Z.add_simpl_r.
        - replace (i + h <=? h) with false by (symmetry; apply Z.leb_gt; lia). replace (j + h <=? h) with false by (symmetry; apply Z.leb_gt; lia).
          change (1 + 2 * 1) with 3. change (Z.rem 3 2) with 1; change (Z.quot (3 - 1) 2) with 1. rewrite !Z.mul_1_l, Q2.
          now rewrite !Z.add_simpl_r. }
      rewrite EQ. unfold sum4. apply sim_bind. intros af _. now apply sim_wr.
    - apply sim_bind. intros s _. now apply sim_wr.
  Qed.
End Layers.
