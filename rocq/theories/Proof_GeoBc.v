(** The boundary routine of GeoClaw, side by side. *)
From Coq Require Import ZArith QArith List Lia Bool.
From Verif Require Import Base_Float Model_Face Model_Mesh Model_Grid Model_Fill Spec_Grid Proof_Grid Model_Bc Spec_Bc Proof_Bc Model_GeoBc Spec_GeoBc.
Import ListNotations.
Open Scope Z_scope.

Lemma in_zrange lo hi x : In x (zrange lo hi) <-> lo <= x <= hi.
Proof.
  unfold zrange. rewrite in_map_iff. split.
  - intros (k & <- & I). apply in_seq in I. lia.
  - intros H. exists (Z.to_nat (x - lo)). split; [lia|]. apply in_seq. lia.
Qed.

Section GeoBc.
  Variable d : dims.
  Notation D := (both d).

  Lemma run_ok : forall l (T : cell -> bool) (org : cell -> cell) (sg : bool),
    (forall a, In a l -> in_q D (a_dst a) = true /\ in_q D (a_src a) = true /\
        T (a_dst a) = true /\ T (a_src a) = false /\ org (a_dst a) = a_src a /\ a_neg a = sg) ->
    forall w, exists w', run d l w = Some w' /\
      (forall c, (exists a, In a l /\ a_dst a = c) -> w' c = option_map (if sg then Qopp else fun x => x) (w (org c))) /\
      (forall c, ~ (exists a, In a l /\ a_dst a = c) -> w' c = w c).
  Proof.
    intros l T org sg. induction l as [|a l IH]; intros H w.
    - exists w. split; [reflexivity|]. split; [intros c (a & [] & _)|reflexivity].
    - destruct (H a (or_introl eq_refl)) as (B1 & B2 & B3 & B4 & B5 & B6).
      cbn [run]. unfold asg at 1. rewrite B1, B2, B6. cbn [andb bind].
      destruct (IH (fun b I => H b (or_intror I)) (fun c => if cell_eqb c (a_dst a) then option_map (if sg then Qopp else fun x => x) (w (a_src a)) else w c)) as (w' & E & A & O).
      exists w'. split; [exact E|].
      assert (DEC : forall c, (exists b, In b l /\ a_dst b = c) \/ ~ (exists b, In b l /\ a_dst b = c)).
      { intros c. destruct (existsb (fun b => cell_eqb (a_dst b) c) l) eqn:X.
        - left. apply existsb_exists in X. destruct X as (b & I & X). exists b. split; [exact I|]. destruct (cell_eqb_spec (a_dst b) c); [assumption|discriminate].
        - right. intros (b & I & <-). assert (existsb (fun x => cell_eqb (a_dst x) (a_dst b)) l = true) by (apply existsb_exists; exists b; split; [exact I|apply cell_eqb_refl]). congruence. }
      split.
      + intros c Hc. destruct (DEC c) as [Y|N].
        * rewrite (A c Y). cbn beta. destruct Y as (b & I & <-). destruct (H b (or_intror I)) as (_ & _ & _ & C4 & C5 & _).
          rewrite C5. destruct (cell_eqb_spec (a_src b) (a_dst a)) as [X|_]; [congruence|reflexivity].
        * rewrite (O c N). cbn beta. destruct Hc as (b & [<-|I] & <-); [|exfalso; apply N; now exists b].
          rewrite cell_eqb_refl, B5. reflexivity.
      + intros c Hc. rewrite (O c) by (intros (b & I & X); apply Hc; exists b; split; [now right|exact X]). cbn beta.
        destruct (cell_eqb_spec c (a_dst a)) as [->|_]; [|reflexivity]. exfalso. apply Hc. exists a. split; [now left|reflexivity].
  Qed.
  Lemma phase : forall l (T : cell -> bool) org sg,
    (forall a, In a l -> in_q D (a_dst a) = true /\ in_q D (a_src a) = true /\
        T (a_dst a) = true /\ T (a_src a) = false /\ org (a_dst a) = a_src a /\ a_neg a = sg) ->
    (forall c, T c = true -> exists a, In a l /\ a_dst a = c) ->
    forall w, exists w', run d l w = Some w' /\
      forall c, w' c = if T c then option_map (if sg then Qopp else fun x => x) (w (org c)) else w c.
  Proof.
    intros l T org sg H1 H2 w. destruct (run_ok l T org sg H1 w) as (w' & E & A & O). exists w'. split; [exact E|].
    intros c. destruct (T c) eqn:X; [apply A, H2, X|]. apply O. intros (a & I & <-). destruct (H1 a I) as (_ & _ & Y & _). congruence.
  Qed.

  Lemma in_body i j i' j' a : 0 <= meqn d ->
    (In a (body d i j i' j') <-> exists m, 1 <= m <= meqn d + 1 /\ a = mkA (i, j, m) (i', j', m) false).
  Proof.
    intros Hm. unfold body. cbn [In]. rewrite in_map_iff. split.
    - intros [<-|(m & <- & I)]; [exists (meqn d + 1); split; [lia|reflexivity]|]. apply in_zrange in I. exists m. split; [lia|reflexivity].
    - intros (m & H & ->). destruct (Z.eq_dec m (meqn d + 1)) as [->|N]; [now left|]. right. exists m. split; [reflexivity|]. apply in_zrange. lia.
  Qed.
  Lemma in_sides f a : In a (sides d f) <-> exists b k, 1 <= b <= mbc d /\ 1 - mbc d <= k <= my d + mbc d /\ In a (f b k).
  Proof.
    unfold sides. rewrite in_flat_map. split.
    - intros (k & Hk & I). apply in_flat_map in I. destruct I as (b & Hb & I). apply in_zrange in Hk, Hb. now exists b, k.
    - intros (b & k & Hb & Hk & I). exists k. split; [now apply in_zrange|]. apply in_flat_map. exists b. split; [now apply in_zrange|exact I].
  Qed.
  Lemma in_ends f a : In a (ends d f) <-> exists b k, 1 <= b <= mbc d /\ 1 - mbc d <= k <= mx d + mbc d /\ In a (f b k).
  Proof.
    unfold ends. rewrite in_flat_map. split.
    - intros (b & Hb & I). apply in_flat_map in I. destruct I as (k & Hk & I). apply in_zrange in Hk, Hb. now exists b, k.
    - intros (b & k & Hb & Hk & I). exists b. split; [now apply in_zrange|]. apply in_flat_map. exists k. split; [now apply in_zrange|exact I].
  Qed.

  Hypothesis Hb : 0 <= mbc d.
  Hypothesis Hx : mbc d <= mx d.
  Hypothesis Hy : mbc d <= my d.
  Hypothesis Hm : 3 <= meqn d.

  (** what a side's number means *)
  Definition gcode (s : side) (k : Z) : Prop :=
    match s with Continues => k <> 0 /\ k <> 1 /\ k <> 3 | Open => k = 1 | Wall => k = 3 end.

  Lemma side_geo : forall f (dst edge mir : Z -> Z -> Z * Z) loops n, 0 <= f < 4 ->
    (forall g a, In a (loops g) <-> exists b k : Z, 1 <= b <= mbc d /\ 1 - mbc d <= k <= n + mbc d /\ In a (g b k)) ->
    (forall m b k, 1 <= m <= meqn d + 1 -> 1 <= b <= mbc d -> 1 - mbc d <= k <= n + mbc d ->
       beyond D f (dst b k, m) = true /\
       (edge b k, m) = edge_cell D f (dst b k, m) /\ (mir b k, m) = mirror_cell D f (dst b k, m) /\
       in_q D (edge b k, m) = true /\ in_q D (mir b k, m) = true /\ beyond D f (edge b k, m) = false /\ beyond D f (mir b k, m) = false) ->
    (forall c, beyond D f c = true -> exists b k, 1 <= b <= mbc d /\ 1 - mbc d <= k <= n + mbc d /\ c = (dst b k, snd c)) ->
    forall s k w, gcode s k ->
    exists w', (if k =? 0 then None
      else if k =? 1 then run d (loops (fun b k => body d (fst (dst b k)) (snd (dst b k)) (fst (edge b k)) (snd (edge b k)))) w
      else if k =? 2 then Some w
      else if k =? 3 then bind (run d (loops (fun b k => body d (fst (dst b k)) (snd (dst b k)) (fst (mir b k)) (snd (mir b k)))) w)
         (run d (loops (fun b k => [mkA (dst b k, normal f) (mir b k, normal f) true])))
      else Some w) = Some w' /\ forall c, w' c = side_val D f s w c.
  Proof.
    intros f dst edge mir loops n Hf HL H1 H2 s k w Hk.
    assert (I : forall c, beyond D f c = true -> in_q D c = true) by (intros c E; unfold beyond in E; apply andb_true_iff in E; tauto).
    assert (N : 1 <= normal f <= meqn d) by (unfold normal; destruct (f <? 2); lia).
    assert (BODY : forall (src : Z -> Z -> Z * Z) org,
      (forall m b k, 1 <= m <= meqn d + 1 -> 1 <= b <= mbc d -> 1 - mbc d <= k <= n + mbc d ->
         (src b k, m) = org (dst b k, m) /\ in_q D (src b k, m) = true /\ beyond D f (src b k, m) = false) ->
      forall w, exists w', run d (loops (fun b k => body d (fst (dst b k)) (snd (dst b k)) (fst (src b k)) (snd (src b k)))) w = Some w' /\
        forall c, w' c = if beyond D f c then w (org c) else w c).
    { intros src org HS w0.
      destruct (phase (loops (fun b k => body d (fst (dst b k)) (snd (dst b k)) (fst (src b k)) (snd (src b k)))) (beyond D f) org false) with (w := w0) as (w' & E & A).
      - intros a Ia. apply HL in Ia. destruct Ia as (b & k' & Hb' & Hk' & Ia). apply in_body in Ia; [|lia].
        destruct Ia as (m & Hm' & ->). cbn [a_dst a_src a_neg]. rewrite <- !surjective_pairing.
        destruct (H1 m b k' Hm' Hb' Hk') as (X1 & _). destruct (HS m b k' Hm' Hb' Hk') as (Y1 & Y2 & Y3).
        split; [now apply I|]. auto.
      - intros c Tc. destruct (H2 c Tc) as (b & k' & Hb' & Hk' & Ec). apply I in Tc.
        exists (mkA (dst b k', snd c) (src b k', snd c) false). split; [|now symmetry]. apply HL. exists b, k'. split; [exact Hb'|]. split; [exact Hk'|].
        apply in_body; [lia|]. exists (snd c). split; [|now rewrite <- !surjective_pairing].
        destruct c as [[i j] m]. apply in_q_iff in Tc. cbn [snd both meqn] in *. lia.
      - exists w'. split; [exact E|]. intros c. rewrite A. destruct (beyond D f c); [apply map_id|reflexivity]. }
    destruct s; cbn [gcode] in Hk.
    - exists w. split; [|intros c; unfold side_val; now destruct (beyond D f c)].
      destruct (Z.eqb_spec k 0); [lia|]. destruct (Z.eqb_spec k 1); [lia|]. destruct (Z.eqb_spec k 2); [reflexivity|]. destruct (Z.eqb_spec k 3); [lia|reflexivity].
    - subst k. cbn [Z.eqb Pos.eqb]. destruct (BODY edge (edge_cell D f)) with (w := w) as (w' & E & A).
      + intros m b k Hm' Hb' Hk'. destruct (H1 m b k Hm' Hb' Hk') as (X1 & X2 & X3 & X4 & X5 & X6 & X7). auto.
      + exists w'. split; [exact E|]. intros c. now rewrite A.
    - subst k. cbn [Z.eqb Pos.eqb]. destruct (BODY mir (mirror_cell D f)) with (w := w) as (w1 & E & A).
      + intros m b k Hm' Hb' Hk'. destruct (H1 m b k Hm' Hb' Hk') as (X1 & X2 & X3 & X4 & X5 & X6 & X7). auto.
      + rewrite E. cbn [bind].
        destruct (phase (loops (fun b k => [mkA (dst b k, normal f) (mir b k, normal f) true])) (fun c => beyond D f c && (snd c =? normal f)) (mirror_cell D f) true)
          with (w := w1) as (w' & E' & A').
        * intros a Ia. apply HL in Ia. destruct Ia as (b & k' & Hb' & Hk' & [<-|[]]). cbn [a_dst a_src a_neg].
          destruct (H1 (normal f) b k' ltac:(lia) Hb' Hk') as (X1 & X2 & X3 & X4 & X5 & X6 & X7). cbn [snd]. rewrite X1, X7, Z.eqb_refl.
          split; [now apply I|]. auto.
        * intros c Tc. apply andb_true_iff in Tc. destruct Tc as [Tc En]. apply Z.eqb_eq in En. destruct (H2 c Tc) as (b & k' & Hb' & Hk' & Ec).
          exists (mkA (dst b k', normal f) (mir b k', normal f) true). split; [|cbn [a_dst]; rewrite <- En; now symmetry].
          apply HL. exists b, k'. split; [exact Hb'|]. split; [exact Hk'|now left].
        * exists w'. split; [exact E'|]. intros c. rewrite A'. unfold side_val. destruct (beyond D f c) eqn:Bc; cbn [andb].
          -- destruct (snd c =? normal f) eqn:En; [|now rewrite A, Bc].
             rewrite A. destruct (H2 c Bc) as (b & k' & Hb' & Hk' & Ec). pose proof (I c Bc) as Ic.
             assert (Hm' : 1 <= snd c <= meqn d + 1) by (apply Z.eqb_eq in En; lia).
             destruct (H1 (snd c) b k' Hm' Hb' Hk') as (X1 & X2 & X3 & X4 & X5 & X6 & X7). assert (M : beyond D f (mirror_cell D f c) = false) by (rewrite Ec, <- X3; exact X7). now rewrite M.
          -- now rewrite A, Bc.
  Qed.

  Ltac cells := repeat match goal with
    | |- beyond _ _ _ = true => apply beyond_iff; cbn [both mx my mbc meqn]; lia
    | |- beyond _ _ _ = false => apply beyond_no; cbn [both mx my mbc meqn]; lia
    | |- in_q _ _ = true => apply in_q_iff; cbn [both mx my mbc meqn]; lia
    | |- _ /\ _ => split
    end; try reflexivity; try (cbn [mirror_cell edge_cell Z.eqb Pos.eqb both mx my]; do 2 f_equal; lia).

  Lemma geo_left_ok : forall s k w, gcode s k -> exists w', geo_left d k w = Some w' /\ forall c, w' c = side_val D 0 s w c.
  Proof.
    apply (side_geo 0 (fun b k => (1 - b, k)) (fun b k => (1, k)) (fun b k => (b, k)) (sides d) (my d) ltac:(lia)); [apply in_sides| |].
    - intros m b j Hm' Hb' Hj. cells.
    - intros [[i j] m] H. apply beyond_iff in H; [|lia]. cbn [both mx my mbc meqn] in H. exists (1 - i), j. split; [lia|]. split; [lia|]. cbn [snd]. do 2 f_equal; lia.
  Qed.
  Lemma geo_right_ok : forall s k w, gcode s k -> exists w', geo_right d k w = Some w' /\ forall c, w' c = side_val D 1 s w c.
  Proof.
    apply (side_geo 1 (fun b k => (mx d + b, k)) (fun b k => (mx d, k)) (fun b k => (mx d + 1 - b, k)) (sides d) (my d) ltac:(lia)); [apply in_sides| |].
    - intros m b j Hm' Hb' Hj. cells.
    - intros [[i j] m] H. apply beyond_iff in H; [|lia]. cbn [both mx my mbc meqn] in H. exists (i - mx d), j. split; [lia|]. split; [lia|]. cbn [snd]. do 2 f_equal; lia.
  Qed.
  Lemma geo_bottom_ok : forall s k w, gcode s k -> exists w', geo_bottom d k w = Some w' /\ forall c, w' c = side_val D 2 s w c.
  Proof.
    apply (side_geo 2 (fun b k => (k, 1 - b)) (fun b k => (k, 1)) (fun b k => (k, b)) (ends d) (mx d) ltac:(lia)); [apply in_ends| |].
    - intros m b j Hm' Hb' Hj. cells.
    - intros [[i j] m] H. apply beyond_iff in H; [|lia]. cbn [both mx my mbc meqn] in H. exists (1 - j), i. split; [lia|]. split; [lia|]. cbn [snd]. do 2 f_equal; lia.
  Qed.
  Lemma geo_top_ok : forall s k w, gcode s k -> exists w', geo_top d k w = Some w' /\ forall c, w' c = side_val D 3 s w c.
  Proof.
    apply (side_geo 3 (fun b k => (k, my d + b)) (fun b k => (k, my d)) (fun b k => (k, my d + 1 - b)) (ends d) (mx d) ltac:(lia)); [apply in_ends| |].
    - intros m b j Hm' Hb' Hj. cells.
    - intros [[i j] m] H. apply beyond_iff in H; [|lia]. cbn [both mx my mbc meqn] in H. exists (j - my d), i. split; [lia|]. split; [lia|]. cbn [snd]. do 2 f_equal; lia.
  Qed.
  Lemma geo_ok : forall (s : Z -> side) (k : Z -> Z) w, (forall f, 0 <= f < 4 -> gcode (s f) (k f)) ->
    exists w', geo_bc2_fort d k w = Some w' /\
      forall c, w' c = side_val D 3 (s 3) (side_val D 2 (s 2) (side_val D 1 (s 1) (side_val D 0 (s 0) w))) c.
  Proof.
    intros s k q Hk.
    assert (X : forall f t p p', (forall c, p c = p' c) -> forall c, side_val D f t p c = side_val D f t p' c).
    { intros f t p p' Hp c. unfold side_val. now rewrite !Hp. }
    destruct (geo_left_ok (s 0) (k 0) q (Hk 0 ltac:(lia))) as (q0 & E0 & A0).
    destruct (geo_right_ok (s 1) (k 1) q0 (Hk 1 ltac:(lia))) as (q1 & E1 & A1).
    destruct (geo_bottom_ok (s 2) (k 2) q1 (Hk 2 ltac:(lia))) as (q2 & E2 & A2).
    destruct (geo_top_ok (s 3) (k 3) q2 (Hk 3 ltac:(lia))) as (q3 & E3 & A3).
    exists q3. split.
    - unfold geo_bc2_fort. rewrite E0. cbn [bind]. rewrite E1. cbn [bind]. rewrite E2. cbn [bind]. exact E3.
    - intros c. rewrite A3. apply X. intros c'. rewrite A2. apply X. intros c''. rewrite A1. apply X. exact A0.
  Qed.
End GeoBc.
