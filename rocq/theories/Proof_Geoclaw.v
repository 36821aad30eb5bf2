(** GeoClaw averaging: one coarse cell. *)
From Coq Require Import ZArith QArith Qminmax Qabs List Lia Lqa Bool Qfield.
From Verif Require Import Base_Float Model_Face Spec_Face Model_Grid Spec_Grid Proof_Grid Proof_Grid2 Model_Corner
  Model_Geoclaw Spec_Geoclaw.
Import ListNotations.
Open Scope Z_scope.

Lemma loop03g : forall {X} (g : Z -> X -> option X) s,
  loop 0 3 g s = bind (g 0 s) (fun s => bind (g 1 s) (fun s => bind (g 2 s) (g 3))).
Proof.
  intros X g s. unfold loop. change (Z.to_nat (3 - 0 + 1)) with 4%nat. cbn [loop_n].
  destruct (g 0 s) as [s1|]; [|reflexivity]. cbn [bind]. change (0 + 1) with 1.
  destruct (g 1 s1) as [s2|]; [|reflexivity]. cbn [bind]. change (1 + 1) with 2.
  destruct (g 2 s2) as [s3|]; [|reflexivity]. cbn [bind]. change (2 + 1) with 3.
  now destruct (g 3 s3).
Qed.

Lemma qle_false : forall a b, Qle_bool a b = false <-> (b < a)%Q.
Proof.
  intros a b. split; intros H.
  - apply Qnot_le_lt. intros X. apply Qle_bool_iff in X. congruence.
  - destruct (Qle_bool a b) eqn:E; [|reflexivity]. apply Qle_bool_iff in E. lra.
Qed.

Section Cell.
  Variable d : dims.
  Variable maux mcapa : Z.
  Variable tol : Q.
  Hypothesis Heq : 3 <= meqn d.
  Hypothesis Hcap : 0 <= mcapa <= maux.
  Hypothesis Hmaux : 1 <= maux.
  Hypothesis Hb : 0 <= mbc d.
  Variable qf af ac : arr.
  Variable F A C : data.
  Hypothesis HF : holds d qf F.
  Hypothesis HA : holds_all (with_entries d maux) af A.
  Hypothesis HC : holds_all (with_entries d maux) ac C.

  Let w := cap mcapa A.

  Definition step (p : Z * Z) (s : sums) : sums :=
    let '(etasum, hsum, husum, hvsum, nwet) := s in
    let hf := (water F p * w p)%Q in
    if Qltb tol hf
    then ((etasum + (hf + bottom A p * w p))%Q, (hsum + hf)%Q, (husum + momentum F 1 p * w p)%Q,
          (hvsum + momentum F 2 p * w p)%Q, nwet + 1)
    else ((etasum + 0)%Q, (hsum + hf)%Q, (husum + 0)%Q, (hvsum + 0)%Q, nwet).

  Definition inside (p : Z * Z) : Prop := 1 <= fst p <= mx d /\ 1 <= snd p <= my d.

  Lemma cap_ok : forall (a : arr) (D : data) i j, holds_all (with_entries d maux) a D ->
    1 - mbc d <= i <= mx d + mbc d -> 1 - mbc d <= j <= my d + mbc d ->
    capacity d maux mcapa a i j = Some (cap mcapa D (i, j)).
  Proof.
    intros a D i j HD Hi Hj. unfold capacity, cap. destruct (Z.eqb_spec mcapa 0) as [->|Hne]; [reflexivity|].
    apply rd_some; [apply in_q_iff; cbn [ad mx my mbc meqn]; lia|].
    cbn [fst snd]. apply HD; cbn [with_entries mx my mbc meqn]; lia.
  Qed.
  Lemma bottom_ok : forall (a : arr) (D : data) i j, holds_all (with_entries d maux) a D ->
    1 - mbc d <= i <= mx d + mbc d -> 1 - mbc d <= j <= my d + mbc d ->
    rd (ad d maux) a (i, j, mbathy) = Some (bottom D (i, j)).
  Proof.
    intros a D i j HD Hi Hj. unfold bottom, mbathy.
    apply rd_some; [apply in_q_iff; cbn [ad mx my mbc meqn]; lia|].
    cbn [fst snd]. apply HD; cbn [with_entries mx my mbc meqn]; lia.
  Qed.

  Lemma add_fine_ok : forall p s, inside p -> add_fine d maux tol mcapa qf af p s = Some (step p s).
  Proof.
    intros [i j] s [Hi Hj]. cbn [fst snd] in Hi, Hj. destruct s as [[[[e h] hu] hv] n]. unfold add_fine, step. cbn [fst snd].
    rewrite (cap_ok af A) by (first [exact HA|lia]). cbn [bind].
    assert (R : forall mq, 1 <= mq <= 3 -> rd d qf (i, j, mq) = Some (F i j mq)).
    { intros mq Hq. apply rd_some; [apply in_q_iff; lia|]. apply HF. unfold interior. lia. }
    rewrite !R by lia. cbn [bind]. rewrite (bottom_ok af A) by (first [exact HA|lia]). cbn [bind].
    unfold w, water, momentum. cbn [fst snd]. change (1 + 1) with 2. change (1 + 2) with 3.
    destruct (Qltb tol (F i j 1 * cap mcapa A (i, j))); reflexivity.
  Qed.

  Definition zero : sums := (0%Q, 0%Q, 0%Q, 0%Q, 0).
  Definition tot (p0 p1 p2 p3 : Z * Z) : sums := step p3 (step p2 (step p1 (step p0 zero))).

  (** what the routine stores *)
  Definition stored (s : sums) (bc wc : Q) (mq : Z) : Q :=
    let '(etasum, hsum, husum, hvsum, nwet) := s in
    (if 0 <? nwet then
      let hc := Qmin (hsum / inject_Z nwet) (Qmax (etasum / inject_Z nwet - bc * wc) 0) in
      (if (mq =? 1)%Z then hc else if (mq =? 2)%Z then hc / hsum * husum else hc / hsum * hvsum) / wc
    else 0 / wc)%Q.

  Definition hsum_of (s : sums) : Q := let '(_, hsum, _, _, _) := s in hsum.

  Lemma cell_ok : forall c p0 p1 p2 p3 ic jc s0 V, c 0 = p0 -> c 1 = p1 -> c 2 = p2 -> c 3 = p3 ->
    inside p0 -> inside p1 -> inside p2 -> inside p3 ->
    1 - mbc d <= ic <= mx d + mbc d -> 1 - mbc d <= jc <= my d + mbc d ->
    ~ (hsum_of (tot p0 p1 p2 p3) == 0)%Q \/ snd (tot p0 p1 p2 p3) <= 0 -> ~ (cap mcapa C (ic, jc) == 0)%Q ->
    (forall mq, 1 <= mq <= 3 -> V (ic, jc, mq) = Some (stored (tot p0 p1 p2 p3) (bottom C (ic, jc)) (cap mcapa C (ic, jc)) mq)) ->
    writes none s0 (geo_average_cell d maux tol mcapa qf ac af c ic jc)
      (fun x => exists mq, 1 <= mq <= 3 /\ x = (ic, jc, mq)) V.
  Proof.
    intros c p0 p1 p2 p3 ic jc s0 V E0 E1 E2 E3 I0 I1 I2 I3 Hi Hj Hs Hw HV.
    unfold geo_average_cell. rewrite (cap_ok ac C) by assumption. cbn [bind]. rewrite loop03g, E0, E1, E2, E3.
    rewrite (add_fine_ok p0) by assumption. cbn [bind]. rewrite (add_fine_ok p1) by assumption. cbn [bind].
    rewrite (add_fine_ok p2) by assumption. cbn [bind]. rewrite (add_fine_ok p3) by assumption. cbn [bind].
    rewrite (bottom_ok ac C) by assumption. cbn [bind]. fold zero. fold (tot p0 p1 p2 p3).
    set (bc := bottom C (ic, jc)) in *. set (wc := cap mcapa C (ic, jc)) in *.
    destruct (tot p0 p1 p2 p3) as [[[[e h] hu] hv] n]. cbn [hsum_of snd] in Hs. unfold merge, stored in *.
    assert (DV : forall x, qdiv x wc = Some (x / wc)%Q).
    { intros x. unfold qdiv. destruct (Qeq_bool wc 0) eqn:E; [apply Qeq_bool_iff in E; contradiction|reflexivity]. }
    assert (W3 : forall x1 x2 x3, V (ic, jc, 1) = Some (x1 / wc)%Q -> V (ic, jc, 2) = Some (x2 / wc)%Q -> V (ic, jc, 3) = Some (x3 / wc)%Q ->
      writes none s0 (fun q => bind (bind (qdiv x1 wc) (wr d q (ic, jc, 1))) (fun q =>
        bind (bind (qdiv x2 wc) (wr d q (ic, jc, 2))) (fun q => bind (qdiv x3 wc) (wr d q (ic, jc, 3)))))
        (fun x => exists mq, 1 <= mq <= 3 /\ x = (ic, jc, mq)) V).
    { intros x1 x2 x3 V1 V2 V3. rewrite !DV. cbn [bind].
      assert (IN : forall mq, 1 <= mq <= 3 -> in_q d (ic, jc, mq) = true) by (intros; apply in_q_iff; lia).
      assert (W2 : forall f1 f2 X1 X2, writes none s0 f1 X1 V -> writes none s0 f2 X2 V ->
        writes none s0 (fun s => bind (f1 s) f2) (fun c => X1 c \/ X2 c) V).
      { intros f1 f2 X1 X2 H1 H2. eapply writes_weaken.
        - apply (writes_seq none none s0 f1 f2 X1 X2 V H1 H2). intros z [].
        - intros z [[]|[]].
        - intros z. reflexivity. }
      eapply writes_weaken.
      - apply W2; [apply (writes_cell none s0 d (ic, jc, 1) _ (IN 1 ltac:(lia)) V V1)|].
        apply (W2 (fun q => wr d q (ic, jc, 2) (x2 / wc)%Q) (fun q => wr d q (ic, jc, 3) (x3 / wc)%Q)).
        + apply (writes_cell none s0 d (ic, jc, 2) _ (IN 2 ltac:(lia)) V V2).
        + apply (writes_cell none s0 d (ic, jc, 3) _ (IN 3 ltac:(lia)) V V3).
      - intros z [].
      - intros z. cbn beta. split.
        + intros [->|[->| ->]]; eexists; (split; [|reflexivity]); lia.
        + intros (mq & Hq & ->). assert (E : mq = 1 \/ mq = 2 \/ mq = 3) by lia. destruct E as [->|[->| ->]]; tauto. }
    destruct (Z.ltb_spec 0 n) as [Hn|Hn].
    - destruct Hs as [Hs|Hs]; [|exfalso; lia].
      unfold qdiv at 1. destruct (Qeq_bool h 0) eqn:E; [apply Qeq_bool_iff in E; contradiction|]. cbn [bind].
      apply W3; [exact (HV 1 ltac:(lia))|exact (HV 2 ltac:(lia))|exact (HV 3 ltac:(lia))].
    - cbn [bind]. apply W3; [exact (HV 1 ltac:(lia))|exact (HV 2 ltac:(lia))|exact (HV 3 ltac:(lia))].
  Qed.

  (* ------------------------------------------------- meaning of the sums *)

  Hypothesis Htol : (0 <= tol)%Q.

  Definition wetp (p : Z * Z) : bool := is_wet tol (w p) (water F p).
  Definition sum4p (p0 p1 p2 p3 : Z * Z) (v : Z * Z -> Q) : Q := (v p0 + v p1 + v p2 + v p3)%Q.

  Lemma wetp_ltb : forall p, Qltb tol (water F p * w p) = wetp p.
  Proof.
    intros p. unfold wetp, is_wet, Qltb. f_equal.
    destruct (Qle_bool (water F p * w p) tol) eqn:E1, (Qle_bool (w p * water F p) tol) eqn:E2; try reflexivity;
      [apply Qle_bool_iff in E1; apply qle_false in E2|apply Qle_bool_iff in E2; apply qle_false in E1]; nra.
  Qed.

  Definition b2q (b : bool) : Q := if b then 1%Q else 0%Q.

  Lemma tot_ok : forall p0 p1 p2 p3,
    let '(e, h, hu, hv, n) := tot p0 p1 p2 p3 in
    let S := sum4p p0 p1 p2 p3 in
    (e == S (fun p => if wetp p then w p * (water F p + bottom A p) else 0) /\
     h == S (fun p => w p * water F p) /\
     hu == S (fun p => if wetp p then w p * momentum F 1 p else 0) /\
     hv == S (fun p => if wetp p then w p * momentum F 2 p else 0) /\
     inject_Z n == S (fun p => if wetp p then 1 else 0))%Q.
  Proof.
    intros p0 p1 p2 p3. unfold tot, zero, step. rewrite !wetp_ltb. unfold sum4p.
    destruct (wetp p0), (wetp p1), (wetp p2), (wetp p3); (repeat split; try ring; try reflexivity).
  Qed.

  Lemma tot_pos : forall p0 p1 p2 p3, (forall p, In p [p0; p1; p2; p3] -> 0 <= water F p /\ 0 <= w p)%Q ->
    ~ (hsum_of (tot p0 p1 p2 p3) == 0)%Q \/ snd (tot p0 p1 p2 p3) <= 0.
  Proof.
    intros p0 p1 p2 p3 HP. pose proof (tot_ok p0 p1 p2 p3) as T.
    destruct (tot p0 p1 p2 p3) as [[[[e h] hu] hv] n]. cbn [hsum_of snd]. cbv zeta in T. destruct T as (_ & Th & _ & _ & Tn).
    assert (NN : forall p, In p [p0; p1; p2; p3] -> (0 <= w p * water F p)%Q).
    { intros p Hp. destruct (HP p Hp). now apply Qmult_le_0_compat. }
    assert (WW : forall p, wetp p = true -> (0 < w p * water F p)%Q).
    { intros p E. unfold wetp, is_wet in E. apply negb_true_iff, qle_false in E. lra. }
    pose proof (NN p0 ltac:(cbn; tauto)). pose proof (NN p1 ltac:(cbn; tauto)).
    pose proof (NN p2 ltac:(cbn; tauto)). pose proof (NN p3 ltac:(cbn; tauto)).
    unfold sum4p in Th, Tn.
    destruct (wetp p0) eqn:E0; [left; apply WW in E0; lra|]. destruct (wetp p1) eqn:E1; [left; apply WW in E1; lra|].
    destruct (wetp p2) eqn:E2; [left; apply WW in E2; lra|]. destruct (wetp p3) eqn:E3; [left; apply WW in E3; lra|].
    right. assert (X : (inject_Z n == inject_Z 0)%Q) by (rewrite Tn; reflexivity).
    rewrite inject_Z_injective in X. lia.
  Qed.

  Lemma stored_coarsened : forall p0 p1 p2 p3 S bc wc,
    (forall p, In p [p0; p1; p2; p3] -> 0 <= water F p /\ 0 <= w p)%Q -> (0 < wc)%Q ->
    (forall v, S v == sum4p p0 p1 p2 p3 v)%Q ->
    coarsened S tol w F A bc wc (stored (tot p0 p1 p2 p3) bc wc 1) (stored (tot p0 p1 p2 p3) bc wc 2)
      (stored (tot p0 p1 p2 p3) bc wc 3).
  Proof.
    intros p0 p1 p2 p3 S bc wc HP Hw HS. pose proof (tot_ok p0 p1 p2 p3) as T. pose proof (tot_pos p0 p1 p2 p3 HP) as P.
    destruct (tot p0 p1 p2 p3) as [[[[e h] hu] hv] n]. cbn [hsum_of snd] in P. cbv zeta in T.
    destruct T as (Te & Th & Tu & Tv & Tn). unfold coarsened, stored. cbv zeta.
    fold wetp. rewrite !HS. fold (wetp p0) in *. unfold wetp in *. rewrite <- Te, <- Th, <- Tu, <- Tv, <- Tn.
    assert (Hn0 : 0 <= n).
    { assert (X : (inject_Z 0 <= inject_Z n)%Q); [|now rewrite <- Zle_Qle in X].
      rewrite Tn. unfold sum4p.
      destruct (is_wet tol (w p0) (water F p0)), (is_wet tol (w p1) (water F p1)), (is_wet tol (w p2) (water F p2)),
        (is_wet tol (w p3) (water F p3)); apply Qle_bool_iff; reflexivity. }
    assert (Hw0 : ~ (wc == 0)%Q) by lra.
    destruct (Z.ltb_spec 0 n) as [Hn|Hn].
    - right. destruct P as [P|P]; [|exfalso; lia]. cbn [Z.eqb Pos.eqb].
      assert (Pn : (0 < inject_Z n)%Q) by (change 0%Q with (inject_Z 0); rewrite <- Zlt_Qlt; exact Hn).
      set (N := inject_Z n) in *. split; [exact Pn|].
      assert (EM : (Qmin (h / N) (Qmax (e / N - bc * wc) 0) == Qmin (h / N) (Qmax (e / N - wc * bc) 0))%Q).
      { assert (X : (e / N - bc * wc == e / N - wc * bc)%Q) by ring. now rewrite X. }
      set (M := Qmin (h / N) (Qmax (e / N - bc * wc) 0)) in *.
      split; [rewrite <- EM; field; exact Hw0|]. split; field; split; assumption.
    - left. assert (n = 0) by lia. subst n. cbn [Z.eqb Pos.eqb]. repeat split; try reflexivity; field; exact Hw0.
  Qed.
End Cell.
