(** The right hand side of a patch problem. *)
From Coq Require Import ZArith QArith List Lia Lqa Bool Qfield.
From Verif Require Import Base_Float Model_Face Model_Grid Spec_Grid Proof_Grid Proof_Grid2 Proof_Tag Proof_Diag Model_Elliptic Spec_Elliptic
  Proof_Elliptic1 Proof_Elliptic2.
Import ListNotations.
Open Scope Z_scope.

Lemma qsum_single : forall lo hi a g, lo <= a <= hi -> (forall k, lo <= k <= hi -> k <> a -> (g k == 0)%Q) -> (qsum lo hi g == g a)%Q.
Proof.
  intros lo hi a g Ha H.
  rewrite (qsum_split lo (a - 1) hi g) by lia.
  assert (E1 : (qsum lo (a - 1) g == 0)%Q).
  { rewrite (qsum_ext lo (a - 1) g (fun _ => 0 * 0)%Q); [|intros k Hk; rewrite H by lia; ring].
    rewrite (qsum_scale lo (a - 1) 0 (fun _ => 0%Q)). ring. }
  rewrite E1. replace (a - 1 + 1) with a by lia. rewrite (qsum_split a a hi g) by lia.
  assert (E2 : (qsum (a + 1) hi g == 0)%Q).
  { rewrite (qsum_ext (a + 1) hi g (fun _ => 0 * 0)%Q); [|intros k Hk; rewrite H by lia; ring].
    rewrite (qsum_scale (a + 1) hi 0 (fun _ => 0%Q)). ring. }
  rewrite E2. unfold qsum. replace (Z.to_nat (a - a + 1)) with 1%nat by lia. cbn [qsum_n]. ring.
Qed.

Section Modify.
  Variable d : dims.
  Hypothesis HU : usable d.
  Variable pi : pinfo.
  Variable u : arr.
  Variable U : data.
  Hypothesis Hu : holds_with d (has_nbr pi) u U.
  Variable bx by_ : Z -> Z -> option Q.
  Variable bf : Z -> Z -> Q.
  Hypothesis Hb0 : forall k, has_nbr pi 0 = true -> 1 <= k <= my d -> bx 0 (k - 1) = Some (bf 0 k).
  Hypothesis Hb1 : forall k, has_nbr pi 1 = true -> 1 <= k <= my d -> bx (mx d) (k - 1) = Some (bf 1 k).
  Hypothesis Hb2 : forall k, has_nbr pi 2 = true -> 1 <= k <= mx d -> by_ (k - 1) 0 = Some (bf 2 k).
  Hypothesis Hb3 : forall k, has_nbr pi 3 = true -> 1 <= k <= mx d -> by_ (k - 1) (my d) = Some (bf 3 k).

  Definition h2 (f : Z) : Q := if f <? 2 then (sx pi * sx pi)%Q else (sy pi * sy pi)%Q.
  (** what one statement adds *)
  Definition term (f k m : Z) : Q :=
    if has_nbr pi f
    then (- bf f k * (on (field U m) (ghost_at d f k) + on (field U m) (inside_at d f k)) / h2 f)%Q else 0%Q.

  Variable f0 : arr.
  Definition frame (f : arr) : Prop :=
    (forall c, interior d c -> exists v, f c = Some v) /\ (forall c, ~ interior d c -> f c = f0 c).

  Lemma add_to_ok : forall c t x f, interior d t -> frame f ->
    exists f', add_to d f t x = Some f' /\ frame f' /\ (fcell f' c == fcell f c + (if cell_eqb c t then x else 0))%Q.
  Proof.
    intros c t x f It (F1 & F2). destruct HU as (U1 & U2 & U3 & U4).
    assert (IN : in_q d t = true) by (destruct t as [[i j] m]; unfold interior in It; apply in_q_iff; lia).
    destruct (F1 t It) as (v & Ev). unfold add_to, rd, wr. rewrite IN, Ev. cbn [bind]. eexists. split; [reflexivity|]. split; [split|].
    - intros c' Ic. destruct (cell_eqb_spec c' t); [eexists; reflexivity|now apply F1].
    - intros c' Ic. destruct (cell_eqb_spec c' t) as [->|]; [contradiction|now apply F2].
    - unfold fcell. destruct (cell_eqb_spec c t) as [->|]; [rewrite Ev; reflexivity|destruct (f c); ring].
  Qed.

  Lemma statement_ok : forall c s k m b f, 0 <= s < 4 -> 1 <= k <= side_len d s -> 1 <= m <= meqn d ->
    (has_nbr pi s = true -> b = Some (bf s k)) -> frame f ->
    exists f', if_nbr pi s (move_ghost d u b (h2 s) (inside_at d s k, m) (ghost_at d s k, m)) f = Some f' /\ frame f' /\
      (fcell f' c == fcell f c + (if cell_eqb c (inside_at d s k, m) then term s k m else 0))%Q.
  Proof.
    intros c s k m b f Hs Hk Hm Hb HF. unfold if_nbr. destruct (has_nbr pi s) eqn:N.
    - unfold move_ghost. rewrite (Hb eq_refl). cbn [bind].
      destruct (ghost_in d HU s k m Hs Hk Hm) as (I1 & I2 & I3 & _). unfold rd. rewrite I1, I2.
      destruct Hu as (H1 & H2). rewrite (H2 s k m Hs N Hk Hm). cbn [bind].
      assert (E : u (inside_at d s k, m) = Some (on (field U m) (inside_at d s k))).
      { destruct (inside_at d s k) as [i j]. apply H1, I3. }
      rewrite E. cbn [bind].
      destruct (add_to_ok c (inside_at d s k, m)
        (- bf s k * (on (field U m) (ghost_at d s k) + on (field U m) (inside_at d s k)) / h2 s)%Q f I3 HF) as (f' & E' & F' & V').
      exists f'. split; [exact E'|]. split; [exact F'|]. unfold term. rewrite N. exact V'.
    - exists f. split; [reflexivity|]. split; [exact HF|]. unfold term. rewrite N.
      destruct (cell_eqb c (inside_at d s k, m)); ring.
  Qed.

  Definition inc (c : cell) (s k m : Z) : Q := if cell_eqb c (inside_at d s k, m) then term s k m else 0%Q.

  Lemma modify_sum : forall c f, frame f -> exists f', modify_rhs d pi bx by_ u f = Some f' /\ frame f' /\
    (fcell f' c == fcell f c + qsum 0 (meqn d - 1) (fun m =>
       qsum 0 (my d - 1) (fun j => inc c 0 (j + 1)%Z (m + 1)%Z + inc c 1 (j + 1)%Z (m + 1)%Z) +
       qsum 0 (mx d - 1) (fun i => inc c 2 (i + 1)%Z (m + 1)%Z + inc c 3 (i + 1)%Z (m + 1)%Z)))%Q.
  Proof.
    intros c f HF. destruct HU as (U1 & U2 & U3 & U4). unfold modify_rhs.
    apply (loop_add (fun f => fcell f c) frame _ 0 (meqn d - 1)); [lia| |exact HF]. clear f HF. intros m f Hm HF.
    assert (Bn : forall (x : option arr) (k : arr -> option arr) y, (exists f1, x = Some f1 /\ exists f2, k f1 = Some f2 /\ y f2) ->
      exists f2, bind x k = Some f2 /\ y f2).
    { intros x k y (f1 & -> & f2 & E & Y). exists f2. auto. }
    apply Bn.
    destruct (loop_add (fun f => fcell f c) frame (fun j f =>
              bind (if_nbr pi 0 (move_ghost d u (bx 0 j) (sx pi * sx pi)%Q (vw 0 j m) (vw (-1) j m)) f)
                   (if_nbr pi 1 (move_ghost d u (bx (mx d) j) (sx pi * sx pi)%Q (vw (mx d - 1) j m) (vw (mx d) j m)))) 0 (my d - 1)
              (fun j => inc c 0 (j + 1)%Z (m + 1)%Z + inc c 1 (j + 1)%Z (m + 1)%Z)%Q ltac:(lia)) with (s := f) as (f1 & E1 & F1 & V1); [|exact HF|].
    { intros j g Hj Fg.
      destruct (statement_ok c 0 (j + 1) (m + 1) (bx 0 j) g ltac:(lia) ltac:(unfold side_len; cbn [Z.ltb Z.compare Pos.compare Pos.compare_cont]; lia) ltac:(lia)) as (g1 & G1 & G2 & G3); [|exact Fg|].
      { intros N. rewrite <- (Hb0 (j + 1) N ltac:(lia)). f_equal. lia. }
      destruct (statement_ok c 1 (j + 1) (m + 1) (bx (mx d) j) g1 ltac:(lia) ltac:(unfold side_len; cbn [Z.ltb Z.compare Pos.compare Pos.compare_cont]; lia) ltac:(lia)) as (g2 & K1 & K2 & K3); [|exact G2|].
      { intros N. rewrite <- (Hb1 (j + 1) N ltac:(lia)). f_equal. lia. }
      unfold vw. replace (mx d - 1 + 1) with (mx d) by lia. change (0 + 1) with 1. change (-1 + 1) with 0.
      unfold h2, inside_at, ghost_at in G1, K1. cbn [Z.eqb Z.ltb Z.compare Pos.compare Pos.compare_cont Pos.eqb] in G1, K1.
      rewrite G1. cbn [bind]. exists g2. split; [exact K1|]. split; [exact K2|]. rewrite K3, G3. unfold inc. ring. }
    destruct (loop_add (fun f => fcell f c) frame (fun i f =>
              bind (if_nbr pi 2 (move_ghost d u (by_ i 0) (sy pi * sy pi)%Q (vw i 0 m) (vw i (-1) m)) f)
                   (if_nbr pi 3 (move_ghost d u (by_ i (my d)) (sy pi * sy pi)%Q (vw i (my d - 1) m) (vw i (my d) m)))) 0 (mx d - 1)
              (fun i => inc c 2 (i + 1)%Z (m + 1)%Z + inc c 3 (i + 1)%Z (m + 1)%Z)%Q ltac:(lia)) with (s := f1) as (f2 & E2 & F2 & V2); [|exact F1|].
    { intros i g Hi Fg.
      destruct (statement_ok c 2 (i + 1) (m + 1) (by_ i 0) g ltac:(lia) ltac:(unfold side_len; cbn [Z.ltb Z.compare Pos.compare Pos.compare_cont]; lia) ltac:(lia)) as (g1 & G1 & G2 & G3); [|exact Fg|].
      { intros N. rewrite <- (Hb2 (i + 1) N ltac:(lia)). f_equal. lia. }
      destruct (statement_ok c 3 (i + 1) (m + 1) (by_ i (my d)) g1 ltac:(lia) ltac:(unfold side_len; cbn [Z.ltb Z.compare Pos.compare Pos.compare_cont]; lia) ltac:(lia)) as (g2 & K1 & K2 & K3); [|exact G2|].
      { intros N. rewrite <- (Hb3 (i + 1) N ltac:(lia)). f_equal. lia. }
      unfold vw. replace (my d - 1 + 1) with (my d) by lia. change (0 + 1) with 1. change (-1 + 1) with 0.
      unfold h2, inside_at, ghost_at in G1, K1. cbn [Z.eqb Z.ltb Z.compare Pos.compare Pos.compare_cont Pos.eqb] in G1, K1.
      rewrite G1. cbn [bind]. exists g2. split; [exact K1|]. split; [exact K2|]. rewrite K3, G3. unfold inc. ring. }
    exists f1. split; [exact E1|]. exists f2. split; [exact E2|]. split; [exact F2|]. rewrite V2, V1. ring.
  Qed.

  (** what arrives in one cell *)
  Definition gets (i j m : Z) : Q :=
    ((if i =? 1 then term 0 j m else 0) + (if i =? mx d then term 1 j m else 0) +
     (if j =? 1 then term 2 i m else 0) + (if j =? my d then term 3 i m else 0))%Q.

  Lemma inc_sum : forall i j m, interior d (i, j, m) ->
    (qsum 0 (meqn d - 1) (fun m' =>
       qsum 0 (my d - 1) (fun j' => inc (i, j, m) 0 (j' + 1)%Z (m' + 1)%Z + inc (i, j, m) 1 (j' + 1)%Z (m' + 1)%Z) +
       qsum 0 (mx d - 1) (fun i' => inc (i, j, m) 2 (i' + 1)%Z (m' + 1)%Z + inc (i, j, m) 3 (i' + 1)%Z (m' + 1)%Z)) == gets i j m)%Q.
  Proof.
    intros i j m (Hi & Hj & Hm).
    assert (C0 : forall k m', inc (i, j, m) 0 k m' = if (i =? 1) && (j =? k) && (m =? m') then term 0 k m' else 0%Q) by reflexivity.
    assert (C1 : forall k m', inc (i, j, m) 1 k m' = if (i =? mx d) && (j =? k) && (m =? m') then term 1 k m' else 0%Q) by reflexivity.
    assert (C2 : forall k m', inc (i, j, m) 2 k m' = if (i =? k) && (j =? 1) && (m =? m') then term 2 k m' else 0%Q) by reflexivity.
    assert (C3 : forall k m', inc (i, j, m) 3 k m' = if (i =? k) && (j =? my d) && (m =? m') then term 3 k m' else 0%Q) by reflexivity.
    rewrite (qsum_single 0 (meqn d - 1) (m - 1)); [|lia|].
    - rewrite (qsum_single 0 (my d - 1) (j - 1)); [|lia|].
      + rewrite (qsum_single 0 (mx d - 1) (i - 1)); [|lia|].
        * replace (m - 1 + 1) with m by lia. replace (j - 1 + 1) with j by lia. replace (i - 1 + 1) with i by lia.
          rewrite C0, C1, C2, C3, !Z.eqb_refl, !andb_true_r. cbn [andb]. unfold gets. ring.
        * intros k Hk Hn. rewrite C2, C3. destruct (Z.eqb_spec i (k + 1)); [lia|]. cbn [andb]. ring.
      + intros k Hk Hn. rewrite C0, C1. destruct (Z.eqb_spec j (k + 1)); [lia|]. rewrite !andb_false_r. cbn [andb]. ring.
    - intros k Hk Hn.
      assert (Z1 : forall s t, 0 <= s < 4 -> (inc (i, j, m) s t (k + 1)%Z == 0)%Q).
      { intros s t Hs. four_sides s; rewrite ?C0, ?C1, ?C2, ?C3; (destruct (Z.eqb_spec m (k + 1)); [lia|]); rewrite !andb_false_r; reflexivity. }
      rewrite (qsum_ext 0 (my d - 1) _ (fun _ => 0 * 0)%Q) by (intros t Ht; rewrite !Z1 by lia; ring).
      rewrite (qsum_ext 0 (mx d - 1) _ (fun _ => 0 * 0)%Q) by (intros t Ht; rewrite !Z1 by lia; ring).
      rewrite !qsum_scale. ring.
  Qed.

  Lemma modify_ok : forall F, holds d f0 F ->
    exists r, modify_rhs d pi bx by_ u f0 = Some r /\ becomes d f0 r (fun i j m => F i j m + gets i j m)%Q.
  Proof.
    intros F HF.
    assert (Fr : frame f0).
    { split; [|reflexivity]. intros [[i j] m] I. eexists. now apply HF. }
    destruct (modify_sum (1, 1, 1) f0 Fr) as (r & E & (R1 & R2) & _). exists r. split; [exact E|]. split; [|exact R2].
    intros i j m I. destruct (R1 _ I) as (v & Ev). exists v. split; [exact Ev|].
    destruct (modify_sum (i, j, m) f0 Fr) as (r' & E' & _ & V). rewrite E in E'. assert (r = r') by congruence. subst r'.
    rewrite (inc_sum i j m I) in V. unfold fcell in V. rewrite Ev, (HF i j m I) in V. exact V.
  Qed.
End Modify.

(** the operator with and without the ghost cells of neighbors *)
Section Residual.
  Variable d : dims.
  Hypothesis HU : usable d.
  Variable pi : pinfo.
  Hypothesis Hx : ~ (sx pi == 0)%Q.
  Hypothesis Hy : ~ (sy pi == 0)%Q.
  Variable B : Z -> Z -> Q.
  Definition face_mean (f k : Z) : Q := mean2 (on B (ghost_at d f k)) (on B (inside_at d f k)).

  Lemma residual : forall l U (g : Z -> Q -> Q) i j m, interior d (i, j, m) ->
    (ell pi B l (closing d (fun _ => true) (fun s => if has_nbr pi s then Qopp else g s) U) m i j ==
     ell pi B l (closing d (fun s => negb (has_nbr pi s)) g U) m i j + gets d pi U face_mean i j m)%Q.
  Proof.
    intros l U g i j m (Hi & Hj & Hm). destruct HU as (U1 & U2 & _). unfold ell.
    set (W := closing d (fun _ => true) (fun s => if has_nbr pi s then Qopp else g s) U).
    set (V := closing d (fun s => negb (has_nbr pi s)) g U).
    assert (IW : forall i j, 1 <= i <= mx d -> 1 <= j <= my d -> W i j m = U i j m) by (intros; unfold W; now rewrite closing_inside).
    assert (IV : forall i j, 1 <= i <= mx d -> 1 <= j <= my d -> V i j m = U i j m) by (intros; unfold V; now rewrite closing_inside).
    assert (GW : forall f k, 0 <= f < 4 -> 1 <= k <= side_len d f -> on (field W m) (ghost_at d f k) =
      if has_nbr pi f then (- on (field U m) (inside_at d f k))%Q else g f (on (field U m) (inside_at d f k))).
    { intros f k Hf Hk. unfold W. rewrite closing_ghost by assumption. now destruct (has_nbr pi f). }
    assert (GV : forall f k, 0 <= f < 4 -> 1 <= k <= side_len d f -> on (field V m) (ghost_at d f k) =
      if has_nbr pi f then on (field U m) (ghost_at d f k) else g f (on (field U m) (inside_at d f k))).
    { intros f k Hf Hk. unfold V. rewrite closing_ghost by assumption. now destruct (has_nbr pi f). }
    assert (T : forall f k, 0 <= f < 4 -> 1 <= k <= side_len d f ->
      (term d pi U face_mean f k m == face_mean f k * (on (field W m) (ghost_at d f k) - on (field V m) (ghost_at d f k)) / h2 pi f)%Q).
    { intros f k Hf Hk. rewrite (GW f k Hf Hk), (GV f k Hf Hk). unfold term.
      assert (~ (h2 pi f == 0)%Q). { unfold h2. destruct (f <? 2); intros X; apply Qmult_integral in X; tauto. }
      destruct (has_nbr pi f); field; assumption. }
    clearbody W V. unfold side_len in T.
    pose proof (fun k => T 0 k ltac:(lia)) as T0. pose proof (fun k => T 1 k ltac:(lia)) as T1.
    pose proof (fun k => T 2 k ltac:(lia)) as T2. pose proof (fun k => T 3 k ltac:(lia)) as T3. clear T GW GV.
    unfold h2, face_mean, ghost_at, inside_at, on, field in *.
    cbn [Z.eqb Z.ltb Z.compare Pos.compare Pos.compare_cont Pos.eqb fst snd] in *.
    rewrite IW, IV by lia.
    assert (X : ((divg (sx pi) (sy pi) B (field W m) i j == divg (sx pi) (sy pi) B (field V m) i j + gets d pi U face_mean i j m)%Q)).
    2: { unfold field in X. rewrite X. unfold gets, face_mean, ghost_at, inside_at, on, field. ring. }
    unfold gets. fold (face_mean).
    assert (P0 : ((if (i =? 1)%Z then term d pi U face_mean 0 j m else 0) == mean2 (B (i - 1)%Z j) (B i j) * (W (i - 1)%Z j m - V (i - 1)%Z j m) / (sx pi * sx pi))%Q).
    { destruct (Z.eqb_spec i 1) as [->|]; [rewrite (T0 j Hj); reflexivity|]. rewrite IW, IV by lia. field. auto. }
    assert (P1 : ((if (i =? mx d)%Z then term d pi U face_mean 1 j m else 0) == mean2 (B i j) (B (i + 1)%Z j) * (W (i + 1)%Z j m - V (i + 1)%Z j m) / (sx pi * sx pi))%Q).
    { destruct (Z.eqb_spec i (mx d)) as [->|]; [rewrite (T1 j Hj); unfold mean2; field; auto|]. rewrite IW, IV by lia. field. auto. }
    assert (P2 : ((if (j =? 1)%Z then term d pi U face_mean 2 i m else 0) == mean2 (B i (j - 1)%Z) (B i j) * (W i (j - 1)%Z m - V i (j - 1)%Z m) / (sy pi * sy pi))%Q).
    { destruct (Z.eqb_spec j 1) as [->|]; [rewrite (T2 i Hi); reflexivity|]. rewrite IW, IV by lia. field. auto. }
    assert (P3 : ((if (j =? my d)%Z then term d pi U face_mean 3 i m else 0) == mean2 (B i j) (B i (j + 1)%Z) * (W i (j + 1)%Z m - V i (j + 1)%Z m) / (sy pi * sy pi))%Q).
    { destruct (Z.eqb_spec j (my d)) as [->|]; [rewrite (T3 i Hi); unfold mean2; field; auto|]. rewrite IW, IV by lia. field. auto. }
    rewrite P0, P1, P2, P3. unfold divg, field. rewrite (IW i j), (IV i j) by lia. unfold mean2. field. auto.
  Qed.
End Residual.
