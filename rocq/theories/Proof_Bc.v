(** The boundary routine, side by side. *)
From Coq Require Import ZArith QArith List Lia Bool.
From Verif Require Import Base_Float Model_Face Model_Mesh Model_Grid Model_Fill Spec_Grid Proof_Grid Model_Bc Spec_Bc.
Import ListNotations.
Open Scope Z_scope.

Section Bc.
  Variable d : dims.

  Lemma writes_asg : forall s0 dst src f (V : arr), in_q d dst = true -> in_q d src = true ->
    V dst = option_map f (s0 src) -> writes (fun c => c = src) s0 (asg d dst src f) (fun c => c = dst) V.
  Proof.
    intros s0 dst src f V H1 H2 HV s Hs. unfold asg. rewrite H1, H2. cbn [andb]. eexists. split; [reflexivity|]. cbn beta.
    rewrite (Hs src eq_refl), <- HV. split; [|split].
    - intros c ->. now rewrite cell_eqb_refl.
    - intros c Hc. destruct (cell_eqb_spec c dst); [contradiction|reflexivity].
    - intros c. destruct (cell_eqb_spec c dst) as [->|]; [now left|now right].
  Qed.

  Lemma writes_one : forall n s0 (dst src : Z -> Z -> cell) f (V : arr),
    (forall b k, 1 <= b <= mbc d -> 1 - mbc d <= k <= n + mbc d ->
       in_q d (dst b k) = true /\ in_q d (src b k) = true /\ V (dst b k) = option_map f (s0 (src b k))) ->
    (forall b k b' k', 1 <= b <= mbc d -> 1 - mbc d <= k <= n + mbc d -> 1 <= b' <= mbc d -> 1 - mbc d <= k' <= n + mbc d ->
       src b k <> dst b' k') ->
    writes (fun c => exists b, 1 <= b <= mbc d /\ exists k, 1 - mbc d <= k <= n + mbc d /\ c = src b k) s0
      (one_eqn d n (fun b k => asg d (dst b k) (src b k) f))
      (fun c => exists b, 1 <= b <= mbc d /\ exists k, 1 - mbc d <= k <= n + mbc d /\ c = dst b k) V.
  Proof.
    intros n s0 dst src f V H1 H2. unfold one_eqn.
    apply (writes_loop (fun b c => exists k, 1 - mbc d <= k <= n + mbc d /\ c = src b k) s0
      (fun b c => exists k, 1 - mbc d <= k <= n + mbc d /\ c = dst b k) V
      (fun b => loop (1 - mbc d) (n + mbc d) (fun k => asg d (dst b k) (src b k) f))).
    - intros b Hb. apply (writes_loop (fun k c => c = src b k) s0 (fun k c => c = dst b k) V (fun k => asg d (dst b k) (src b k) f)).
      + intros k Hk. destruct (H1 b k Hb Hk) as (A & B & C). now apply writes_asg.
      + intros k k' c Hk Hl Hk' -> E. revert E. apply H2; lia.
    - intros b b' c Hb Hl Hb' (k & Hk & ->) (k' & Hk' & E). revert E. apply H2; lia.
  Qed.

  Lemma writes_all : forall n s0 (dst src : Z -> Z -> Z -> cell) f (V : arr),
    (forall m b k, 1 <= m <= meqn d -> 1 <= b <= mbc d -> 1 - mbc d <= k <= n + mbc d ->
       in_q d (dst m b k) = true /\ in_q d (src m b k) = true /\ V (dst m b k) = option_map f (s0 (src m b k))) ->
    (forall m b k m' b' k', 1 <= m <= meqn d -> 1 <= b <= mbc d -> 1 - mbc d <= k <= n + mbc d ->
       1 <= m' <= meqn d -> 1 <= b' <= mbc d -> 1 - mbc d <= k' <= n + mbc d -> src m b k <> dst m' b' k') ->
    writes (fun c => exists m, 1 <= m <= meqn d /\ exists b, 1 <= b <= mbc d /\ exists k, 1 - mbc d <= k <= n + mbc d /\ c = src m b k) s0
      (all_eqns d n (fun m b k => asg d (dst m b k) (src m b k) f))
      (fun c => exists m, 1 <= m <= meqn d /\ exists b, 1 <= b <= mbc d /\ exists k, 1 - mbc d <= k <= n + mbc d /\ c = dst m b k) V.
  Proof.
    intros n s0 dst src f V H1 H2. unfold all_eqns.
    apply (writes_loop (fun m c => exists b, 1 <= b <= mbc d /\ exists k, 1 - mbc d <= k <= n + mbc d /\ c = src m b k) s0
      (fun m c => exists b, 1 <= b <= mbc d /\ exists k, 1 - mbc d <= k <= n + mbc d /\ c = dst m b k) V
      (fun m => loop 1 (mbc d) (fun b => loop (1 - mbc d) (n + mbc d) (fun k => asg d (dst m b k) (src m b k) f)))).
    - intros m Hm. apply (writes_one n s0 (dst m) (src m) f V).
      + intros b k Hb Hk. now apply H1.
      + intros b k b' k' Hb Hk Hb' Hk'. now apply H2.
    - intros m m' c Hm Hl Hm' (b & Hb & k & Hk & ->) (b' & Hb' & k' & Hk' & E). revert E. apply H2; lia.
  Qed.

  (** pointwise *)
  Lemma all_ok : forall n (dst src : Z -> Z -> Z -> cell) f (T : cell -> bool) (origin : cell -> cell) q,
    (forall m b k, 1 <= m <= meqn d -> 1 <= b <= mbc d -> 1 - mbc d <= k <= n + mbc d ->
       in_q d (dst m b k) = true /\ in_q d (src m b k) = true /\ T (dst m b k) = true /\ T (src m b k) = false /\
       origin (dst m b k) = src m b k) ->
    (forall c, T c = true -> exists m b k, 1 <= m <= meqn d /\ 1 <= b <= mbc d /\ 1 - mbc d <= k <= n + mbc d /\ c = dst m b k) ->
    exists q', all_eqns d n (fun m b k => asg d (dst m b k) (src m b k) f) q = Some q' /\
      forall c, q' c = if T c then option_map f (q (origin c)) else q c.
  Proof.
    intros n dst src f T origin q H1 H2.
    destruct (writes_all n q dst src f (fun c => option_map f (q (origin c)))) with (s := q) as (q' & E & A & B & _).
    - intros m b k Hm Hb Hk. destruct (H1 m b k Hm Hb Hk) as (X1 & X2 & _ & _ & X5). now rewrite X5.
    - intros m b k m' b' k' Hm Hb Hk Hm' Hb' Hk' X.
      destruct (H1 m b k Hm Hb Hk) as (_ & _ & _ & X4 & _). destruct (H1 m' b' k' Hm' Hb' Hk') as (_ & _ & X3 & _). congruence.
    - reflexivity.
    - exists q'. split; [exact E|]. intros c. destruct (T c) eqn:Tc.
      + apply A. destruct (H2 c Tc) as (m & b & k & Hm & Hb & Hk & ->).
        exists m. split; [exact Hm|]. exists b. split; [exact Hb|]. exists k. tauto.
      + apply B. intros (m & Hm & b & Hb & k & Hk & ->). destruct (H1 m b k Hm Hb Hk) as (_ & _ & X3 & _). congruence.
  Qed.
  Lemma one_ok : forall n (dst src : Z -> Z -> cell) f (T : cell -> bool) (origin : cell -> cell) q,
    (forall b k, 1 <= b <= mbc d -> 1 - mbc d <= k <= n + mbc d ->
       in_q d (dst b k) = true /\ in_q d (src b k) = true /\ T (dst b k) = true /\ T (src b k) = false /\ origin (dst b k) = src b k) ->
    (forall c, T c = true -> exists b k, 1 <= b <= mbc d /\ 1 - mbc d <= k <= n + mbc d /\ c = dst b k) ->
    exists q', one_eqn d n (fun b k => asg d (dst b k) (src b k) f) q = Some q' /\
      forall c, q' c = if T c then option_map f (q (origin c)) else q c.
  Proof.
    intros n dst src f T origin q H1 H2.
    destruct (writes_one n q dst src f (fun c => option_map f (q (origin c)))) with (s := q) as (q' & E & A & B & _).
    - intros b k Hb Hk. destruct (H1 b k Hb Hk) as (X1 & X2 & _ & _ & X5). now rewrite X5.
    - intros b k b' k' Hb Hk Hb' Hk' X.
      destruct (H1 b k Hb Hk) as (_ & _ & _ & X4 & _). destruct (H1 b' k' Hb' Hk') as (_ & _ & X3 & _). congruence.
    - reflexivity.
    - exists q'. split; [exact E|]. intros c. destruct (T c) eqn:Tc.
      + apply A. destruct (H2 c Tc) as (b & k & Hb & Hk & ->).
        exists b. split; [exact Hb|]. exists k. tauto.
      + apply B. intros (b & Hb & k & Hk & ->). destruct (H1 b k Hb Hk) as (_ & _ & X3 & _). congruence.
  Qed.

  Lemma map_id : forall (x : option Q), option_map (fun x => x) x = x. Proof. now intros [x|]. Qed.

  Hypothesis Hb : 0 <= mbc d.
  Hypothesis Hx : mbc d <= mx d.
  Hypothesis Hy : mbc d <= my d.

  Definition code (s : side) : Z -> Prop := fun k => match s with Continues => k = -1 | Open => k = 1 | Wall => k = 3 end.

  (** the cells beyond a side *)
  Definition beyond (f : Z) (c : cell) : bool :=
    in_q d c && let '(i, j, _) := c in
    if f =? 0 then i <? 1 else if f =? 1 then mx d <? i else if f =? 2 then j <? 1 else my d <? j.
  Definition edge_cell (f : Z) (c : cell) : cell :=
    let '(i, j, m) := c in
    if f =? 0 then (1, j, m) else if f =? 1 then (mx d, j, m) else if f =? 2 then (i, 1, m) else (i, my d, m).
  Definition mirror_cell (f : Z) (c : cell) : cell :=
    let '(i, j, m) := c in
    if f =? 0 then (1 - i, j, m) else if f =? 1 then (2 * mx d + 1 - i, j, m)
    else if f =? 2 then (i, 1 - j, m) else (i, 2 * my d + 1 - j, m).
  Definition normal (f : Z) : Z := if f <? 2 then 2 else 3.
  Definition side_val (f : Z) (s : side) (q : arr) (c : cell) : option Q :=
    if beyond f c then
      match s with
      | Continues => q c
      | Open => q (edge_cell f c)
      | Wall => if snd c =? normal f then option_map Qopp (q (mirror_cell f c)) else q (mirror_cell f c)
      end
    else q c.

  Lemma beyond_iff : forall f i j m, 0 <= f < 4 -> beyond f (i, j, m) = true <->
    (1 - mbc d <= i <= mx d + mbc d /\ 1 - mbc d <= j <= my d + mbc d /\ 1 <= m <= meqn d) /\
    (f = 0 /\ i < 1 \/ f = 1 /\ mx d < i \/ f = 2 /\ j < 1 \/ f = 3 /\ my d < j).
  Proof.
    intros f i j m Hf. unfold beyond. rewrite andb_true_iff, in_q_iff.
    assert (E : f = 0 \/ f = 1 \/ f = 2 \/ f = 3) by lia.
    destruct E as [->|[->|[->| ->]]]; cbn [Z.eqb Pos.eqb]; rewrite Z.ltb_lt; lia.
  Qed.
  Lemma beyond_no : forall f i j m, 0 <= f < 4 ->
    ~ (f = 0 /\ i < 1 \/ f = 1 /\ mx d < i \/ f = 2 /\ j < 1 \/ f = 3 /\ my d < j) -> beyond f (i, j, m) = false.
  Proof.
    intros f i j m Hf H. destruct (beyond f (i, j, m)) eqn:E; [|reflexivity]. apply beyond_iff in E; [|exact Hf]. tauto.
  Qed.

  (* generic wall and open sides *)
  Lemma side_ok : forall f n (dst edge mir : Z -> Z -> Z -> cell), 0 <= f < 4 ->
    (forall m b k, 1 <= m <= meqn d -> 1 <= b <= mbc d -> 1 - mbc d <= k <= n + mbc d ->
       beyond f (dst m b k) = true /\ snd (dst m b k) = m /\
       edge m b k = edge_cell f (dst m b k) /\ mir m b k = mirror_cell f (dst m b k) /\
       in_q d (edge m b k) = true /\ in_q d (mir m b k) = true /\ beyond f (edge m b k) = false /\ beyond f (mir m b k) = false) ->
    (forall c, beyond f c = true -> exists b k, 1 <= b <= mbc d /\ 1 - mbc d <= k <= n + mbc d /\ c = dst (snd c) b k) ->
    forall s q, (s = Wall -> normal f <= meqn d) ->
    exists q', match s with
      | Continues => Some q
      | Open => all_eqns d n (fun m b k => cpy d (dst m b k) (edge m b k)) q
      | Wall => bind (all_eqns d n (fun m b k => cpy d (dst m b k) (mir m b k)) q) (fun q =>
                one_eqn d n (fun b k => neg d (dst (normal f) b k) (mir (normal f) b k)) q)
      end = Some q' /\ forall c, q' c = side_val f s q c.
  Proof.
    intros f n dst edge mir Hf H1 H2 s q Hs.
    assert (I : forall c, beyond f c = true -> in_q d c = true) by (intros c E; unfold beyond in E; apply andb_true_iff in E; tauto).
    assert (B2 : forall c, beyond f c = true -> exists m b k, 1 <= m <= meqn d /\ 1 <= b <= mbc d /\ 1 - mbc d <= k <= n + mbc d /\ c = dst m b k).
    { intros c E. destruct (H2 c E) as (b & k & Hb' & Hk & Ec). exists (snd c), b, k.
      apply I in E. destruct c as [[i j] m]. apply in_q_iff in E. cbn [snd] in *. tauto. }
    destruct s.
    - exists q. split; [reflexivity|]. intros c. unfold side_val. now destruct (beyond f c).
    - destruct (all_ok n dst edge (fun x => x) (beyond f) (edge_cell f) q) as (q' & E & A).
      + intros m b k Hm Hb' Hk. destruct (H1 m b k Hm Hb' Hk) as (X1 & X2 & X3 & X4 & X5 & X6 & X7 & X8).
        split; [now apply I|]. auto.
      + exact B2.
      + exists q'. split; [exact E|]. intros c. rewrite A. unfold side_val. destruct (beyond f c); [apply map_id|reflexivity].
    - specialize (Hs eq_refl).
      assert (N : 1 <= normal f) by (unfold normal; destruct (f <? 2); lia).
      destruct (all_ok n dst mir (fun x => x) (beyond f) (mirror_cell f) q) as (q1 & E & A).
      + intros m b k Hm Hb' Hk. destruct (H1 m b k Hm Hb' Hk) as (X1 & X2 & X3 & X4 & X5 & X6 & X7 & X8).
        split; [now apply I|]. auto.
      + exact B2.
      + destruct (one_ok n (dst (normal f)) (mir (normal f)) Qopp (fun c => beyond f c && (snd c =? normal f)) (mirror_cell f) q1)
          as (q' & E' & A').
        * intros b k Hb' Hk. destruct (H1 (normal f) b k ltac:(lia) Hb' Hk) as (X1 & X2 & X3 & X4 & X5 & X6 & X7 & X8).
          split; [now apply I|]. split; [exact X6|]. split; [rewrite X1, X2; apply Z.eqb_refl|].
          split; [now rewrite X8|congruence].
        * intros c Hc. apply andb_true_iff in Hc. destruct Hc as [Hc En]. apply Z.eqb_eq in En.
          destruct (H2 c Hc) as (b & k & Hb' & Hk & Ec). exists b, k. rewrite En in Ec. tauto.
        * exists q'. split.
          -- transitivity (bind (Some q1) (fun q => one_eqn d n (fun b k => neg d (dst (normal f) b k) (mir (normal f) b k)) q)); [|exact E'].
             f_equal. exact E.
          -- intros c. rewrite A'. unfold side_val. destruct (beyond f c) eqn:Bc; cbn [andb].
             ++ destruct (snd c =? normal f) eqn:En.
                ** rewrite A. destruct (B2 c Bc) as (m & b & k & Hm & Hb' & Hk & ->).
                   destruct (H1 m b k Hm Hb' Hk) as (X1 & X2 & X3 & X4 & X5 & X6 & X7 & X8).
                   rewrite <- X4, X8. reflexivity.
                ** rewrite A, Bc. apply map_id.
             ++ rewrite A, Bc. reflexivity.
  Qed.

  Ltac cells := repeat match goal with
    | |- beyond _ _ = true => apply beyond_iff; lia
    | |- beyond _ _ = false => apply beyond_no; lia
    | |- in_q _ _ = true => apply in_q_iff; lia
    | |- _ /\ _ => split
    end; try reflexivity; try (cbn [mirror_cell edge_cell Z.eqb Pos.eqb]; do 2 f_equal; lia).

  Lemma left_ok : forall s k q, code s k -> (s = Wall -> 2 <= meqn d) ->
    exists q', bc_left d k q = Some q' /\ forall c, q' c = side_val 0 s q c.
  Proof.
    intros s k q Hk Hs.
    destruct (side_ok 0 (my d) (fun m b k => (1 - b, k, m)) (fun m b k => (1, k, m)) (fun m b k => (b, k, m)) ltac:(lia)) with (s := s) (q := q)
      as (q' & E & A).
    - intros m b j Hm Hb' Hj. cbn [snd]. cells.
    - intros [[i j] m] H. apply beyond_iff in H; [|lia]. exists (1 - i), j. split; [lia|]. split; [lia|]. cbn [snd]. do 2 f_equal; lia.
    - exact Hs.
    - exists q'. split; [|exact A]. rewrite <- E. unfold bc_left. destruct s; cbn [code] in Hk; subst k; reflexivity.
  Qed.
  Lemma right_ok : forall s k q, code s k -> (s = Wall -> 2 <= meqn d) ->
    exists q', bc_right d k q = Some q' /\ forall c, q' c = side_val 1 s q c.
  Proof.
    intros s k q Hk Hs.
    destruct (side_ok 1 (my d) (fun m b k => (mx d + b, k, m)) (fun m b k => (mx d, k, m)) (fun m b k => (mx d + 1 - b, k, m)) ltac:(lia)) with (s := s) (q := q)
      as (q' & E & A).
    - intros m b j Hm Hb' Hj. cbn [snd]. cells.
    - intros [[i j] m] H. apply beyond_iff in H; [|lia]. exists (i - mx d), j. split; [lia|]. split; [lia|]. cbn [snd]. do 2 f_equal; lia.
    - exact Hs.
    - exists q'. split; [|exact A]. rewrite <- E. unfold bc_right. destruct s; cbn [code] in Hk; subst k; reflexivity.
  Qed.
  Lemma bottom_ok : forall s k q, code s k -> (s = Wall -> 3 <= meqn d) ->
    exists q', bc_bottom d k q = Some q' /\ forall c, q' c = side_val 2 s q c.
  Proof.
    intros s k q Hk Hs.
    destruct (side_ok 2 (mx d) (fun m b k => (k, 1 - b, m)) (fun m b k => (k, 1, m)) (fun m b k => (k, b, m)) ltac:(lia)) with (s := s) (q := q)
      as (q' & E & A).
    - intros m b j Hm Hb' Hj. cbn [snd]. cells.
    - intros [[i j] m] H. apply beyond_iff in H; [|lia]. exists (1 - j), i. split; [lia|]. split; [lia|]. cbn [snd]. do 2 f_equal; lia.
    - exact Hs.
    - exists q'. split; [|exact A]. rewrite <- E. unfold bc_bottom. destruct s; cbn [code] in Hk; subst k; reflexivity.
  Qed.
  Lemma top_ok : forall s k q, code s k -> (s = Wall -> 3 <= meqn d) ->
    exists q', bc_top d k q = Some q' /\ forall c, q' c = side_val 3 s q c.
  Proof.
    intros s k q Hk Hs.
    destruct (side_ok 3 (mx d) (fun m b k => (k, my d + b, m)) (fun m b k => (k, my d, m)) (fun m b k => (k, my d + 1 - b, m)) ltac:(lia)) with (s := s) (q := q)
      as (q' & E & A).
    - intros m b j Hm Hb' Hj. cbn [snd]. cells.
    - intros [[i j] m] H. apply beyond_iff in H; [|lia]. exists (j - my d), i. split; [lia|]. split; [lia|]. cbn [snd]. do 2 f_equal; lia.
    - exact Hs.
    - exists q'. split; [|exact A]. rewrite <- E. unfold bc_top. destruct s; cbn [code] in Hk; subst k; reflexivity.
  Qed.

  Lemma bc2_ok : forall (s : Z -> side) (k : Z -> Z) q, (forall f, 0 <= f < 4 -> code (s f) (k f)) ->
    (forall f, 0 <= f < 4 -> s f = Wall -> (if f <? 2 then 2 else 3) <= meqn d) ->
    exists q', bc2_default d k q = Some q' /\
      forall c, q' c = side_val 3 (s 3) (side_val 2 (s 2) (side_val 1 (s 1) (side_val 0 (s 0) q))) c.
  Proof.
    intros s k q Hk Hs.
    assert (X : forall f t p p', (forall c, p c = p' c) -> forall c, side_val f t p c = side_val f t p' c).
    { intros f t p p' Hp c. unfold side_val. now rewrite !Hp. }
    destruct (left_ok (s 0) (k 0) q (Hk 0 ltac:(lia)) (Hs 0 ltac:(lia))) as (q0 & E0 & A0).
    destruct (right_ok (s 1) (k 1) q0 (Hk 1 ltac:(lia)) (Hs 1 ltac:(lia))) as (q1 & E1 & A1).
    destruct (bottom_ok (s 2) (k 2) q1 (Hk 2 ltac:(lia)) (Hs 2 ltac:(lia))) as (q2 & E2 & A2).
    destruct (top_ok (s 3) (k 3) q2 (Hk 3 ltac:(lia)) (Hs 3 ltac:(lia))) as (q3 & E3 & A3).
    exists q3. split.
    - unfold bc2_default. rewrite E0. cbn [bind]. rewrite E1. cbn [bind]. rewrite E2. cbn [bind]. exact E3.
    - intros c. rewrite A3. apply X. intros c'. rewrite A2. apply X. intros c''. rewrite A1. apply X. exact A0.
  Qed.

  Lemma four_sides : forall (s : Z -> side) q i j m, in_q d (i, j, m) = true ->
    side_val 3 (s 3) (side_val 2 (s 2) (side_val 1 (s 1) (side_val 0 (s 0) q))) (i, j, m) = bc_value d s q i j m.
  Proof.
    intros s q i j m Hin. apply in_q_iff in Hin. destruct Hin as (Hi & Hj & Hm).
    assert (Q0 : forall i j, 1 - mbc d <= i <= mx d + mbc d -> 1 - mbc d <= j <= my d + mbc d -> side_val 1 (s 1) (side_val 0 (s 0) q) (i, j, m) =
      if mirrored (s 0) (s 1) (mx d) i && (m =? 2) then option_map Qopp (q (image (s 0) (s 1) (mx d) i, j, m))
      else q (image (s 0) (s 1) (mx d) i, j, m)).
    { clear i j Hi Hj. intros i j Hi Hj.
      assert (R : forall i, 1 <= i <= mx d -> side_val 0 (s 0) q (i, j, m) = q (i, j, m)).
      { intros i' Hi'. unfold side_val. rewrite beyond_no by lia. reflexivity. }
      unfold side_val at 1. cbn [snd normal].
      change (normal 1) with 2.
      destruct (Z.ltb_spec (mx d) i) as [G|G].
      - replace (beyond 1 (i, j, m)) with true by (symmetry; apply beyond_iff; lia).
        unfold image, mirrored. destruct (Z.ltb_spec i 1); [lia|]. destruct (Z.ltb_spec (mx d) i); [|lia]. cbn [andb orb].
        destruct (s 1); cbn [andb orb].
        + unfold side_val. rewrite beyond_no by lia. reflexivity.
        + cbn [edge_cell Z.eqb Pos.eqb]. apply R. lia.
        + cbn [mirror_cell Z.eqb Pos.eqb]. rewrite R by lia. reflexivity.
      - rewrite beyond_no by lia. unfold side_val. cbn [snd]. change (normal 0) with 2.
        unfold image, mirrored. destruct (Z.ltb_spec (mx d) i); [lia|]. destruct (Z.ltb_spec i 1) as [L|L].
        + replace (beyond 0 (i, j, m)) with true by (symmetry; apply beyond_iff; lia). cbn [andb orb].
          destruct (s 0); cbn [andb orb]; reflexivity.
        + rewrite beyond_no by lia. reflexivity. }
    unfold bc_value.
    assert (Ii : 1 - mbc d <= image (s 0) (s 1) (mx d) i <= mx d + mbc d).
    { unfold image. destruct (Z.ltb_spec i 1), (Z.ltb_spec (mx d) i); destruct (s 0), (s 1); lia. }
    set (q2 := side_val 1 (s 1) (side_val 0 (s 0) q)) in *.
    assert (R : forall j, 1 <= j <= my d -> side_val 2 (s 2) q2 (i, j, m) = q2 (i, j, m)).
    { intros j' Hj'. unfold side_val. rewrite beyond_no by lia. reflexivity. }
    unfold side_val at 1. cbn [snd]. change (normal 3) with 3.
    destruct (Z.ltb_spec (my d) j) as [G|G].
    - replace (beyond 3 (i, j, m)) with true by (symmetry; apply beyond_iff; lia).
      unfold image at 2 4, mirrored at 2. destruct (Z.ltb_spec j 1); [lia|]. destruct (Z.ltb_spec (my d) j); [|lia]. cbn [andb orb].
      destruct (s 3); cbn [andb orb].
      + unfold side_val. rewrite beyond_no by lia. rewrite Q0 by lia. rewrite orb_false_r. reflexivity.
      + cbn [edge_cell Z.eqb Pos.eqb]. rewrite R by lia. rewrite Q0 by lia. rewrite orb_false_r. reflexivity.
      + cbn [mirror_cell Z.eqb Pos.eqb]. rewrite R by lia. rewrite Q0 by lia.
        destruct (Z.eqb_spec m 2) as [->|]; [|now rewrite andb_false_r; destruct (m =? 3)].
        cbn [Z.eqb Pos.eqb]. rewrite orb_false_r. reflexivity.
    - rewrite beyond_no by lia. unfold side_val. cbn [snd]. change (normal 2) with 3.
      unfold image at 2 4, mirrored at 2. destruct (Z.ltb_spec (my d) j); [lia|]. destruct (Z.ltb_spec j 1) as [L|L].
      + replace (beyond 2 (i, j, m)) with true by (symmetry; apply beyond_iff; lia). cbn [andb orb].
        destruct (s 2); cbn [andb orb].
        * rewrite Q0 by lia. rewrite orb_false_r. reflexivity.
        * cbn [edge_cell Z.eqb Pos.eqb]. rewrite Q0 by lia. rewrite orb_false_r. reflexivity.
        * cbn [mirror_cell Z.eqb Pos.eqb]. rewrite Q0 by lia.
          destruct (Z.eqb_spec m 2) as [->|]; [|now rewrite andb_false_r; destruct (m =? 3)].
          cbn [Z.eqb Pos.eqb]. rewrite orb_false_r. reflexivity.
      + rewrite beyond_no by lia. rewrite Q0 by lia. cbn [andb orb]. rewrite orb_false_r. reflexivity.
  Qed.
  Lemma outside_same : forall (s : Z -> side) q c, in_q d c = false ->
    side_val 3 (s 3) (side_val 2 (s 2) (side_val 1 (s 1) (side_val 0 (s 0) q))) c = q c.
  Proof.
    intros s q c H. unfold side_val.
    assert (N : forall f, beyond f c = false) by (intros f; unfold beyond; now rewrite H).
    now rewrite !N.
  Qed.
End Bc.
