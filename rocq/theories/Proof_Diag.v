(** Accumulators. *)
From Coq Require Import ZArith QArith Qminmax Qabs List Lia Lqa Bool Permutation.
From Verif Require Import Base_Float Model_Face Model_Grid Spec_Grid Proof_Grid Proof_Grid2 Proof_Sync Proof_Tag Model_Diag Spec_Diag.
Import ListNotations.
Open Scope Z_scope.

Lemma qsum_empty : forall lo f, (qsum lo (lo - 1) f == 0)%Q.
Proof. intros lo f. unfold qsum. replace (lo - 1 - lo + 1) with 0 by lia. reflexivity. Qed.
Lemma qsum_last : forall lo k f, lo <= k -> (qsum lo k f == qsum lo (k - 1)%Z f + f k)%Q.
Proof.
  intros lo k f H. rewrite (qsum_split lo (k - 1) k f) by lia. replace (k - 1 + 1) with k by lia.
  unfold qsum at 2. replace (Z.to_nat (k - k + 1)) with 1%nat by lia. cbn [qsum_n]. ring.
Qed.

(** a loop that adds something to a number *)
Lemma loop_add : forall {X} (val : X -> Q) (frame : X -> Prop) (f : Z -> X -> option X) lo hi g, lo <= hi + 1 ->
  (forall k s, lo <= k <= hi -> frame s -> exists s', f k s = Some s' /\ frame s' /\ (val s' == val s + g k)%Q) ->
  forall s, frame s -> exists s', loop lo hi f s = Some s' /\ frame s' /\ (val s' == val s + qsum lo hi g)%Q.
Proof.
  intros X val frame f lo hi g Hl H s Hs.
  destruct (loop_ok X lo hi f (fun k t => frame t /\ (val t == val s + qsum lo (k - 1)%Z g)%Q) Hl) with (s := s) as (s' & E & A & B).
  - intros k t Hk (Ft & Vt). destruct (H k t Hk Ft) as (t' & E & Ft' & Vt'). exists t'. split; [exact E|]. split; [exact Ft'|].
    rewrite Vt', Vt. replace (k + 1 - 1) with k by lia. rewrite (qsum_last lo k g) by lia. ring.
  - split; [exact Hs|]. rewrite qsum_empty. ring.
  - exists s'. split; [exact E|]. split; [exact A|]. rewrite B. replace (hi + 1 - 1) with hi by lia. reflexivity.
Qed.

(** least upper bound of some numbers and a given one *)
Definition lub (A : Q -> Prop) (v0 v : Q) : Prop :=
  (v0 <= v)%Q /\ (forall x, A x -> (x <= v)%Q) /\ ((v == v0)%Q \/ exists x, A x /\ (v == x)%Q).
Lemma loop_lub : forall {X} (val : X -> Q) (frame : X -> Prop) (f : Z -> X -> option X) lo hi (A : Z -> Q -> Prop), lo <= hi + 1 ->
  (forall k s, lo <= k <= hi -> frame s -> exists s', f k s = Some s' /\ frame s' /\ lub (A k) (val s) (val s')) ->
  forall s, frame s -> exists s', loop lo hi f s = Some s' /\ frame s' /\ lub (fun x => exists k, lo <= k <= hi /\ A k x) (val s) (val s').
Proof.
  intros X val frame f lo hi A Hl H s Hs.
  destruct (loop_ok X lo hi f (fun k t => frame t /\ lub (fun x => exists k', lo <= k' < k /\ A k' x) (val s) (val t)) Hl) with (s := s) as (s' & E & Fs & B).
  - intros k t Hk (Ft & L1 & L2 & L3). destruct (H k t Hk Ft) as (t' & E & Ft' & M1 & M2 & M3). exists t'. split; [exact E|]. split; [exact Ft'|].
    split; [lra|]. split.
    + intros x (k' & Hk' & Ax). destruct (Z.eq_dec k' k) as [->|]; [now apply M2|].
      assert (x <= val t)%Q by (apply L2; exists k'; split; [lia|exact Ax]). lra.
    + destruct M3 as [M3|(x & Ax & M3)]; [|right; exists x; split; [exists k; split; [lia|exact Ax]|exact M3]].
      destruct L3 as [L3|(x & (k' & Hk' & Ax) & L3)]; [left; lra|right; exists x; split; [exists k'; split; [lia|exact Ax]|lra]].
  - split; [exact Hs|]. split; [lra|]. split; [intros x (k & Hk & _); lia|left; lra].
  - exists s'. split; [exact E|]. split; [exact Fs|]. destruct B as (L1 & L2 & L3). split; [exact L1|]. split.
    + intros x (k & Hk & Ax). apply L2. exists k. split; [lia|exact Ax].
    + destruct L3 as [L3|(x & (k' & Hk' & Ax) & L3)]; [now left|right; exists x; split; [exists k'; split; [lia|exact Ax]|exact L3]].
Qed.

Lemma over_app : forall l1 l2 f, (over (l1 ++ l2) f == over l1 f + over l2 f)%Q.
Proof. intros l1 l2 f. unfold over. induction l1 as [|p l1 IH]; cbn [app fold_right]; [ring|]. rewrite IH. ring. Qed.
Lemma over_one : forall p f, (over [p] f == f p)%Q. Proof. intros. unfold over. cbn [fold_right]. ring. Qed.
Lemma over_perm : forall l1 l2 f, Permutation l1 l2 -> (over l1 f == over l2 f)%Q.
Proof.
  intros l1 l2 f H. unfold over. induction H; cbn [fold_right]; [reflexivity|now rewrite IHPermutation|ring|now rewrite IHPermutation1].
Qed.

Lemma upd1_same : forall f k v, upd1 f k v k = v. Proof. intros. unfold upd1. now rewrite Z.eqb_refl. Qed.
Lemma upd1_other : forall f k v j, j <> k -> upd1 f k v j = f j.
Proof. intros f k v j H. unfold upd1. destruct (Z.eqb_spec j k); [contradiction|reflexivity]. Qed.

Section Diag.
  Variable d : dims.
  Variable map_used compute_error conservation_check : bool.
  Variable patch_error : option (pdata -> arr).
  Variable K : pdata -> areas.
  Variable F E : pdata -> data.
  Hypothesis Hx : 0 <= mx d.
  Hypothesis Hy : 0 <= my d.
  Hypothesis Hb : 0 <= mbc d.
  Hypothesis Hm : 0 <= meqn d.
  Notation pok := (patch_ok d map_used K F E compute_error patch_error).
  Notation area := (cell_area map_used K).

  Section Patch.
    Variable p : pdata.
    Hypothesis Hp : pok p.

    Lemma area_some : forall i j, 1 <= i <= mx d -> 1 <= j <= my d ->
      (if map_used then rd_area d (p_area p) i j else Some (p_dx p * p_dy p)%Q) = Some (area p i j).
    Proof.
      intros i j Hi Hj. unfold cell_area. destruct Hp as (H & _). destruct map_used; [|reflexivity].
      unfold rd_area. replace ((- mbc d <=? i) && (i <=? mx d + mbc d + 1) && (- mbc d <=? j) && (j <=? my d + mbc d + 1)) with true.
      - now apply H.
      - symmetry. rewrite !andb_true_iff, !Z.leb_le. lia.
    Qed.
    Lemma q_some : forall i j m, 1 <= i <= mx d -> 1 <= j <= my d -> 1 <= m <= meqn d -> rd d (p_q p) (i, j, m) = Some (F p i j m).
    Proof.
      intros i j m Hi Hj Hq. destruct Hp as (_ & H & _). apply rd_some; [apply in_q_iff; lia|]. apply H. cbn. lia.
    Qed.

    Lemma area_ok : exists v, compute_patch_area d map_used p = Some v /\ (v == size_of d map_used K p)%Q.
    Proof.
      unfold compute_patch_area, size_of, total. pose proof area_some as AS. destruct map_used eqn:M.
      - destruct (loop_add (fun x => x) (fun _ => True) (fun j => loop 1 (mx d) (fun i s => bind (rd_area d (p_area p) i j) (fun a => Some (s + a)%Q)))
          1 (my d) (fun j => qsum 1 (mx d) (fun i => cell_area true K p i j)) ltac:(lia)) with (s := 0%Q) as (v & Ev & _ & V).
        + intros j s Hj _. destruct (loop_add (fun x => x) (fun _ => True) (fun i s => bind (rd_area d (p_area p) i j) (fun a => Some (s + a)%Q))
            1 (mx d) (fun i => cell_area true K p i j) ltac:(lia)) with (s := s) as (s' & Es & _ & V); [|exact I|exists s'; split; [exact Es|split; [exact I|exact V]]].
          intros i t Hi _. rewrite (AS i j Hi Hj). cbn [bind]. eexists. split; [reflexivity|]. split; [exact I|reflexivity].
        + exact I.
        + exists v. split; [exact Ev|]. rewrite V, qsum_swap. ring.
      - eexists. split; [reflexivity|].
        assert (C : forall n c, 0 <= n -> (qsum 1 n (fun _ => c) == inject_Z n * c)%Q).
        { intros n c Hn. unfold qsum. replace (n - 1 + 1) with n by lia. rewrite <- (Z2Nat.id n) at 2 by exact Hn.
          generalize 1. induction (Z.to_nat n) as [|k IH]; intros lo; cbn [qsum_n]; [reflexivity|].
          rewrite IH, Nat2Z.inj_succ, <- Z.add_1_r, inject_Z_plus. change (inject_Z 1) with 1%Q. ring. }
        unfold cell_area. rewrite (qsum_ext 1 (mx d) _ (fun _ => (inject_Z (my d) * (p_dx p * p_dy p))%Q)).
        + rewrite C by exact Hx. ring.
        + intros k Hk. apply C, Hy.
    Qed.

    (** the conservation check adds the amount in the patch *)
    Lemma cons_ok : forall sum c, (forall k, 0 <= k < meqn d -> (c k == 0)%Q) ->
      exists sum' c', fort_conservation_check d map_used p (sum, c) = Some (sum', c') /\
        forall k, 0 <= k < meqn d -> (c' k == 0)%Q /\ (sum' k == sum k + mass_of d map_used K F (k + 1) p)%Q.
    Proof.
      intros sum c Hc. unfold fort_conservation_check.
      match goal with |- context [loop 1 (meqn d) ?f _] => set (body := f) end.
      assert (L : forall m s c0, 1 <= m <= meqn d -> (c0 (m - 1)%Z == 0)%Q -> exists s' c', body m (s, c0) = Some (s', c') /\
        (forall k, k <> m - 1 -> s' k = s k /\ c' k = c0 k) /\ (c' (m - 1)%Z == 0)%Q /\ (s' (m - 1)%Z == s (m - 1)%Z + mass_of d map_used K F m p)%Q).
      { intros m s c0 Hq H0.
        set (val := fun x : (Z -> Q) * (Z -> Q) => fst x (m - 1)%Z).
        set (frame := fun x : (Z -> Q) * (Z -> Q) => (forall k, k <> m - 1 -> fst x k = s k /\ snd x k = c0 k) /\ (snd x (m - 1)%Z == 0)%Q).
        unfold body.
        match goal with |- context [loop 1 (my d) ?f _] => destruct (loop_add val frame f 1 (my d) (fun j => qsum 1 (mx d) (fun i => (F p i j m * area p i j)%Q)) ltac:(lia))
          with (s := (s, c0)) as ([s' c'] & Es & (Fr & C0) & V) end.
        - intros j x Hj Hfr.
          match goal with |- context [loop 1 (mx d) ?f _] => destruct (loop_add val frame f 1 (mx d) (fun i => (F p i j m * area p i j)%Q) ltac:(lia))
            with (s := x) as (x' & Ex & Fx & V) end; [|exact Hfr|exists x'; split; [exact Ex|split; [exact Fx|exact V]]].
          intros i [s1 c1] Hi (Fr & C0). rewrite (area_some i j Hi Hj). cbn [bind]. rewrite q_some by assumption. cbn [bind].
          eexists. split; [reflexivity|]. unfold val, frame in *. cbn [fst snd] in *. split; [split|].
          + intros k Hk. rewrite !upd1_other by exact Hk. now apply Fr.
          + rewrite upd1_same. ring.
          + rewrite upd1_same, C0. ring.
        - split; [now intros|exact H0].
        - exists s', c'. split; [exact Es|]. unfold val in *. cbn [fst snd] in *. split; [exact Fr|]. split; [exact C0|].
          rewrite V. unfold mass_of, total. rewrite qsum_swap. reflexivity. }
      destruct (loop_ok _ 1 (meqn d) body (fun m x =>
        forall k, 0 <= k < meqn d -> (snd x k == 0)%Q /\ (fst x k == sum k + (if k <? m - 1 then mass_of d map_used K F (k + 1) p else 0))%Q) ltac:(lia))
        with (s := (sum, c)) as ([s' c'] & Es & A).
      - intros m [s1 c1] Hq HI. cbn [fst snd] in HI. destruct (L m s1 c1 Hq) as (s2 & c2 & E2 & Fr & C2 & S2).
        { apply HI. lia. }
        exists (s2, c2). split; [exact E2|]. cbn [fst snd]. intros k Hk. destruct (Z.eq_dec k (m - 1)) as [->|Hne].
        + split; [exact C2|]. rewrite S2. destruct (HI (m - 1) Hk) as [_ V]. rewrite V.
          destruct (Z.ltb_spec (m - 1) (m - 1)); [lia|]. destruct (Z.ltb_spec (m - 1) (m + 1 - 1)); [|lia].
          replace (m - 1 + 1) with m by lia. ring.
        + destruct (Fr k Hne) as [-> ->]. destruct (HI k Hk) as [C1 V]. split; [exact C1|]. rewrite V.
          destruct (Z.ltb_spec k (m - 1)), (Z.ltb_spec k (m + 1 - 1)); try lia; reflexivity.
      - intros k Hk. cbn [fst snd]. split; [now apply Hc|]. destruct (Z.ltb_spec k (1 - 1)); [lia|]. ring.
      - exists s', c'. split; [exact Es|]. intros k Hk. destruct (A k Hk) as [C1 V]. cbn [fst snd] in *. split; [exact C1|].
        rewrite V. destruct (Z.ltb_spec k (meqn d + 1 - 1)); [|lia]. reflexivity.
    Qed.

    Lemma fidx_inj : forall m k m' k', 1 <= m <= meqn d -> 1 <= m' <= meqn d -> fidx d m k = fidx d m' k' -> m = m' /\ k = k'.
    Proof.
      intros m k m' k' H H' He. unfold fidx in He. assert (k = k') by nia. subst. split; [lia|reflexivity].
    Qed.

    Lemma norm_ok : compute_error = true -> exists f, patch_error = Some f /\ forall e,
      exists e', fort_compute_error_norm d map_used p (f p) e = Some e' /\
      forall m, 1 <= m <= meqn d ->
        (e' (fidx d m 1) == e (fidx d m 1) + err1_of d map_used K E m p)%Q /\
        (e' (fidx d m 2) == e (fidx d m 2) + err2_of d map_used K E m p)%Q /\
        lub (fun x => exists i j, 1 <= i <= mx d /\ 1 <= j <= my d /\ x = Qabs (E p i j m)) (e (fidx d m 3)) (e' (fidx d m 3)).
    Proof.
      intros CE. destruct Hp as (_ & _ & HE). destruct (HE CE) as (f & Ef & Hh). exists f. split; [exact Ef|].
      assert (ER : forall i j m, 1 <= i <= mx d -> 1 <= j <= my d -> 1 <= m <= meqn d -> rd d (f p) (i, j, m) = Some (E p i j m)).
      { intros i j m Hi Hj Hq. apply rd_some; [apply in_q_iff; lia|]. apply Hh. cbn. lia. }
      intros e. unfold fort_compute_error_norm.
      match goal with |- context [loop 1 (meqn d) ?f _] => set (body := f) end.
      assert (D3 : forall m a b, 1 <= m <= meqn d -> a <> b -> fidx d m a <> fidx d m b).
      { intros m a b Hq Hab Hf. apply fidx_inj in Hf; [tauto|exact Hq|exact Hq]. }
      assert (L : forall m s, 1 <= m <= meqn d -> exists s', body m s = Some s' /\
        (forall k, k <> fidx d m 1 -> k <> fidx d m 2 -> k <> fidx d m 3 -> s' k = s k) /\
        (s' (fidx d m 1) == s (fidx d m 1) + err1_of d map_used K E m p)%Q /\
        (s' (fidx d m 2) == s (fidx d m 2) + err2_of d map_used K E m p)%Q /\
        lub (fun x => exists i j, 1 <= i <= mx d /\ 1 <= j <= my d /\ x = Qabs (E p i j m)) (s (fidx d m 3)) (s' (fidx d m 3))).
      { intros m s Hq. unfold body.
        set (frame := fun x : Z -> Q => forall k, k <> fidx d m 1 -> k <> fidx d m 2 -> k <> fidx d m 3 -> x k = s k).
        match goal with |- context [loop 1 (my d) ?g _] => set (lj := g) end.
        assert (ST : forall j i x, 1 <= j <= my d -> 1 <= i <= mx d -> frame x -> exists x',
          (bind (rd d (f p) (i, j, m)) (fun x0 => let eij := Qabs x0 in
           bind (if map_used then rd_area d (p_area p) i j else Some (p_dx p * p_dy p)%Q) (fun area_ij =>
           let e := upd1 x (fidx d m 1) (x (fidx d m 1) + eij * area_ij)%Q in
           let e := upd1 e (fidx d m 2) (e (fidx d m 2) + eij * eij * area_ij)%Q in
           Some (upd1 e (fidx d m 3) (Qmax eij (e (fidx d m 3))))))) = Some x' /\ frame x' /\
          (x' (fidx d m 1) == x (fidx d m 1) + Qabs (E p i j m) * area p i j)%Q /\
          (x' (fidx d m 2) == x (fidx d m 2) + E p i j m * E p i j m * area p i j)%Q /\
          x' (fidx d m 3) = Qmax (Qabs (E p i j m)) (x (fidx d m 3))).
        { intros j i x Hj Hi Fr. rewrite ER by assumption. cbn [bind]. rewrite (area_some i j Hi Hj). cbn [bind]. cbv zeta.
          eexists. split; [reflexivity|]. split; [|split; [|split]].
          - intros k K1 K2 K3. rewrite !upd1_other by assumption. now apply Fr.
          - rewrite upd1_other by (apply D3; lia). rewrite upd1_other by (apply D3; lia). rewrite upd1_same. reflexivity.
          - rewrite upd1_other by (apply D3; lia). rewrite upd1_same. rewrite upd1_other by (apply D3; lia).
            rewrite <- Qabs_Qmult. rewrite (Qabs_pos (E p i j m * E p i j m)); [reflexivity|].
            destruct (Qlt_le_dec (E p i j m) 0); nra.
          - rewrite upd1_same. rewrite !upd1_other by (apply D3; lia). reflexivity. }
        destruct (loop_add (fun x => x (fidx d m 1)) frame lj 1 (my d) (fun j => qsum 1 (mx d) (fun i => (Qabs (E p i j m) * area p i j)%Q)) ltac:(lia))
          with (s := s) as (s1 & E1 & Fr1 & V1).
        { intros j x Hj Fr. unfold lj.
          match goal with |- context [loop 1 (mx d) ?g _] => destruct (loop_add (fun x => x (fidx d m 1)) frame g 1 (mx d) (fun i => (Qabs (E p i j m) * area p i j)%Q) ltac:(lia))
            with (s := x) as (x' & Ex & Fx & V) end; [|exact Fr|exists x'; split; [exact Ex|split; [exact Fx|exact V]]].
          intros i y Hi Fy. destruct (ST j i y Hj Hi Fy) as (y' & Ey & Fy' & W1 & W2 & W3). exists y'. auto. }
        { now intros k. }
        destruct (loop_add (fun x => x (fidx d m 2)) frame lj 1 (my d) (fun j => qsum 1 (mx d) (fun i => (E p i j m * E p i j m * area p i j)%Q)) ltac:(lia))
          with (s := s) as (s2 & E2 & Fr2 & V2).
        { intros j x Hj Fr. unfold lj.
          match goal with |- context [loop 1 (mx d) ?g _] => destruct (loop_add (fun x => x (fidx d m 2)) frame g 1 (mx d) (fun i => (E p i j m * E p i j m * area p i j)%Q) ltac:(lia))
            with (s := x) as (x' & Ex & Fx & V) end; [|exact Fr|exists x'; split; [exact Ex|split; [exact Fx|exact V]]].
          intros i y Hi Fy. destruct (ST j i y Hj Hi Fy) as (y' & Ey & Fy' & W1 & W2 & W3). exists y'. auto. }
        { now intros k. }
        destruct (loop_lub (fun x => x (fidx d m 3)) frame lj 1 (my d) (fun j v => exists i, 1 <= i <= mx d /\ v = Qabs (E p i j m)) ltac:(lia))
          with (s := s) as (s3 & E3 & Fr3 & V3).
        { intros j x Hj Fr. unfold lj.
          match goal with |- context [loop 1 (mx d) ?g _] => destruct (loop_lub (fun x => x (fidx d m 3)) frame g 1 (mx d) (fun i v => v = Qabs (E p i j m)) ltac:(lia))
            with (s := x) as (x' & Ex & Fx & V) end; [|exact Fr|exists x'; split; [exact Ex|split; [exact Fx|exact V]]].
          intros i y Hi Fy. destruct (ST j i y Hj Hi Fy) as (y' & Ey & Fy' & W1 & W2 & W3). exists y'. split; [exact Ey|]. split; [exact Fy'|].
          rewrite W3. split; [apply Q.le_max_r|]. split; [intros v ->; apply Q.le_max_l|].
          destruct (Q.max_spec (Qabs (E p i j m)) (y (fidx d m 3))) as [[_ M]|[_ M]]; [now left|right; eexists; split; [reflexivity|exact M]]. }
        { now intros k. }
        exists s1. split; [exact E1|]. split; [exact Fr1|]. rewrite E1 in E2, E3. injection E2 as <-. injection E3 as <-. split; [|split].
        - rewrite V1. unfold err1_of, total. rewrite qsum_swap. reflexivity.
        - rewrite V2. unfold err2_of, total. rewrite qsum_swap. reflexivity.
        - destruct V3 as (L1 & L2 & L3). split; [exact L1|]. split.
          + intros v (i & j & Hi & Hj & ->). apply L2. exists j. split; [exact Hj|]. exists i. split; [exact Hi|reflexivity].
          + destruct L3 as [L3|(v & (j & Hj & i & Hi & ->) & L3)]; [now left|right]. eexists. split; [exists i, j; split; [exact Hi|split; [exact Hj|reflexivity]]|exact L3]. }
      assert (Z3 : forall m m' a b, 1 <= m <= meqn d -> 1 <= m' <= meqn d -> m <> m' -> fidx d m a <> fidx d m' b).
      { intros m m' a b H1 H2 Hn Hf. apply fidx_inj in Hf; [tauto|exact H1|exact H2]. }
      destruct (loop_ok _ 1 (meqn d) body (fun k x => forall m, 1 <= m <= meqn d ->
          if m <? k then
            (x (fidx d m 1) == e (fidx d m 1) + err1_of d map_used K E m p)%Q /\
            (x (fidx d m 2) == e (fidx d m 2) + err2_of d map_used K E m p)%Q /\
            lub (fun x => exists i j, 1 <= i <= mx d /\ 1 <= j <= my d /\ x = Qabs (E p i j m)) (e (fidx d m 3)) (x (fidx d m 3))
          else x (fidx d m 1) = e (fidx d m 1) /\ x (fidx d m 2) = e (fidx d m 2) /\ x (fidx d m 3) = e (fidx d m 3)) ltac:(lia))
        with (s := e) as (e' & Ee & A).
      - intros k x Hk HI. destruct (L k x Hk) as (x' & Ex & Fr & V1 & V2 & V3). exists x'. split; [exact Ex|]. intros m Hq.
        specialize (HI m Hq). destruct (Z.eq_dec m k) as [->|Hne].
        + destruct (Z.ltb_spec k k); [lia|]. destruct (Z.ltb_spec k (k + 1)); [|lia].
          destruct HI as (I1 & I2 & I3). rewrite I1 in V1. rewrite I2 in V2. rewrite I3 in V3. auto.
        + rewrite !Fr by (apply Z3; assumption). destruct (Z.ltb_spec m k), (Z.ltb_spec m (k + 1)); try lia; exact HI.
      - intros m Hq. destruct (Z.ltb_spec m 1); [lia|]. auto.
      - exists e'. split; [exact Ee|]. intros m Hq. specialize (A m Hq). destruct (Z.ltb_spec m (meqn d + 1)); [exact A|lia].
    Qed.
  End Patch.
End Diag.
