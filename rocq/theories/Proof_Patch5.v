(** The 5.x routines against the 4.6 ones. *)
From Coq Require Import ZArith QArith Qminmax Qabs List Lia Bool.
From Verif Require Import Base_Float Model_Face Model_Grid Spec_Grid Proof_Grid Proof_Grid2 Proof_Grid3 Model_Corner Model_Ghost Spec_Ghost Prop_Ghost
  Model_Tag Spec_Tag Proof_Tag Model_Patch5 Spec_Patch5.
Import ListNotations.
Open Scope Z_scope.

Lemma loop11 : forall S (f : Z -> S -> option S) s, loop 1 1 f s = f 1 s.
Proof. intros S f s. unfold loop. change (Z.to_nat (1 - 1 + 1)) with 1%nat. cbn [loop_n]. destruct (f 1 s); reflexivity. Qed.

Lemma half_mbc : forall n, 2 <= n <= 3 -> Z.quot n 2 = 1.
Proof. intros n H. assert (E : n = 2 \/ n = 3) by lia. destruct E as [->| ->]; reflexivity. Qed.

Lemma face5_same : forall rnd d qc qf idir f r t, 2 <= mbc d <= 3 ->
  interpolate_face5 rnd d qc qf idir f r t = interpolate_face rnd d qc qf idir f r t.
Proof.
  intros rnd d qc qf idir f r t Hb. unfold interpolate_face5, interpolate_face.
  destruct (negb (r * r =? 4)); [reflexivity|]. destruct (build_transform rnd d t) as [A|]; [|reflexivity]. cbn [bind].
  apply loop_ext. intros mq s _. rewrite (half_mbc _ Hb). destruct (idir =? 0); rewrite loop11.
  - destruct (f =? 0); [reflexivity|]. replace (mx d - 1 + 1) with (mx d) by lia. reflexivity.
  - destruct (f =? 2); [reflexivity|]. replace (my d - 1 + 1) with (my d) by lia. reflexivity.
Qed.

Lemma corner5_same : forall rnd d qc qf r k c, 2 <= mbc d <= 3 ->
  interpolate_corner5 rnd d qc qf r k c = interpolate_corner rnd d qc qf r k c.
Proof.
  intros rnd d qc qf r k c Hb. unfold interpolate_corner5, interpolate_corner.
  destruct (negb (r * r =? 4)); [reflexivity|]. destruct (build_transform rnd d (face_data c)) as [A|]; [|reflexivity]. cbn [bind].
  rewrite (half_mbc _ Hb), loop11, loop11.
  replace (mx d - 1 + 1) with (mx d) by lia. replace (my d - 1 + 1) with (my d) by lia. reflexivity.
Qed.

(* --------------------------------------------------------------- interpolation to a new fine patch *)

Section Fine.
  Variable d : dims.
  Hypothesis Hd : even_size d.
  Hypothesis Hb : 2 <= mbc d.
  Variable g : Z.
  Hypothesis Hg : 0 <= g < 4.
  Variable qcoarse : arr.
  Variable f : data.
  Hypothesis Hf : holds_layer d qcoarse f.
  Variable areacoarse areafine : area_t.
  Variable kc kf : areas.
  Hypothesis Hkc : area_holds d areacoarse kc.
  Hypothesis Hkf : area_holds d areafine kf.

  Lemma interpolate_loops5_ok : forall s0,
    writes none s0
      (fun q => loop 1 (meqn d) (fun mq => loop (1 - Z.rem g 2) (Z.quot (mx d) 2 + (1 - Z.rem g 2)) (fun i =>
         loop (1 - Z.quot (g - Z.rem g 2) 2) (Z.quot (my d) 2 + (1 - Z.quot (g - Z.rem g 2) 2)) (fun j =>
            interpolate_cell d qcoarse i j (i + Z.quot (Z.rem g 2 * mx d) 2)
              (j + Z.quot (Z.quot (g - Z.rem g 2) 2 * my d) 2) mq))) q)
      (reached d g) (interp_arr d g f).
  Proof.
    intros s0.
    destruct (grid_facts d g Hd Hg) as (G1 & G2 & G3 & G4 & E1 & E2 & G5 & G6 & Cx & Cy & Ox & Oy).
    rewrite G2, G1, G3, G4, G5, G6.
    eapply writes_weaken.
    - apply (writes_loop0 s0 (fun mq c => exists i, (1 - child_x g <= i <= mx d / 2 + (1 - child_x g)) /\
               exists j, (1 - child_y g <= j <= my d / 2 + (1 - child_y g)) /\ quad i j mq c)). intros mq Hmq.
      apply (writes_loop0 s0 (fun i c => exists j, (1 - child_y g <= j <= my d / 2 + (1 - child_y g)) /\ quad i j mq c)).
      intros i Hi.
      apply (writes_loop0 s0 (fun j c => quad i j mq c)). intros j Hj. now apply interpolate_cell_ok.
    - intros c [].
    - intros [[fi fj] m]. unfold reached. split.
      + intros (mq & Hmq & i & Hi & j & Hj & ii & Hii & jj & Hjj & E). injection E as -> -> ->. lia.
      + intros (HI & HJ & Hm). exists m. split; [exact Hm|].
        destruct (up_hf_inv fi) as [EI BI]. destruct (up_hf_inv fj) as [EJ BJ].
        exists (up fi). split; [lia|]. exists (up fj). split; [lia|].
        exists (hf fi). split; [exact BI|]. exists (hf fj). split; [exact BJ|]. now rewrite EI, EJ.
  Qed.

  Lemma fine5_same : forall manifold qfine, exists q q5,
    interpolate2fine d qcoarse areacoarse areafine g manifold qfine = Some q /\
    interpolate2fine5 d qcoarse areacoarse areafine g manifold qfine = Some q5 /\ forall c, q5 c = q c.
  Proof.
    intros manifold qfine.
    destruct (interpolate2fine_ok d Hd Hb g Hg qcoarse f Hf areacoarse areafine kc kf Hkc Hkf manifold qfine)
      as (q & E & A1 & A2 & A3).
    assert (IR : forall c, interior d c -> reached d g c).
    { intros [[i j] m]. unfold interior, reached.
      destruct (grid_facts d g Hd Hg) as (_ & _ & _ & _ & _ & _ & _ & _ & Cx & Cy & _). lia. }
    assert (DI : forall c, interior d c \/ ~ interior d c).
    { intros [[i j] m]. unfold interior. lia. }
    assert (DR : forall c, reached d g c \/ ~ reached d g c).
    { intros [[i j] m]. unfold reached. lia. }
    exists q. destruct (interpolate_loops5_ok qfine qfine) as (q1 & E1 & B1 & C1 & _); [intros c []|].
    unfold interpolate2fine5. cbv zeta. rewrite E1. cbn [bind].
    destruct manifold.
    - destruct (fixcapaq2_ok d Hd Hb g Hg qcoarse f Hf areacoarse areafine kc kf Hkc Hkf q1 B1 q1) as (q2 & E2 & B2 & C2 & _); [reflexivity|].
      exists q2. split; [exact E|]. split; [exact E2|]. intros c.
      destruct (DI c) as [I|I]; [now rewrite A1, B2|]. rewrite C2 by exact I.
      destruct (DR c) as [R|R]; [now rewrite A2, B1|]. now rewrite A3, C1.
    - exists q1. split; [exact E|]. split; [reflexivity|]. intros c.
      destruct (DR c) as [R|R]; [|now rewrite A3, C1]. rewrite B1 by exact R.
      destruct (DI c) as [I|I]; [now rewrite A1|now rewrite A2].
  Qed.
End Fine.

(* --------------------------------------------------------------- time interpolation *)

Lemma timeinterp5_rim : forall d width qcurr qlast fc fl alpha q,
  0 <= mbc d -> 4 <= mx d -> 4 <= my d -> 1 <= meqn d ->
  0 <= width -> 2 * (width / 2 + 1) <= mx d -> 2 * (width / 2 + 1) <= my d ->
  holds d qcurr fc -> holds d qlast fl ->
  exists q', setup_timeinterp5 d width qcurr qlast alpha q = Some q' /\
  (forall i j m, rim d 2 (i, j, m) -> q' (i, j, m) = Some (fl i j m + alpha * (fc i j m - fl i j m))%Q) /\
  (forall c, ~ rim d 2 c -> q' c = q c).
Proof.
  intros d width qc ql fc fl alpha q Hb Hx Hy Hm Hw Hwx Hwy Hc Hl. unfold setup_timeinterp5.
  rewrite Z.quot_div_nonneg by lia. cbv zeta. set (w := width / 2 + 1) in *.
  assert (Hw2 : 0 <= width / 2) by (apply Z.div_pos; lia).
  rewrite (proj2 (Z.leb_le 0 _)) by (apply Z.mul_nonneg_nonneg; lia).
  rewrite (proj2 (Z.ltb_lt 0 _)) by nia. cbn [negb].
  set (V := fun c : cell => let '(i, j, m) := c in Some (fl i j m + alpha * (fc i j m - fl i j m))%Q).
  assert (HV : forall i j m, interior d (i, j, m) -> V (i, j, m) = Some (fl i j m + alpha * (fc i j m - fl i j m))%Q) by reflexivity.
  pose proof (fun i j m => interp_writes d alpha fl fc qc ql V Hl Hc Hb HV i j m q) as HW.
  assert (W : writes none q (fort_timeinterp5 d qc ql alpha) (rim d 2) V).
  { unfold fort_timeinterp5. cbv zeta. eapply (writes_weaken none).
    - apply writes_loop0. intros m Hmq.
      apply writes_seq0; [|apply writes_seq0; [|apply writes_seq0]];
        (apply writes_loop0; intros j Hj; apply writes_loop0; intros i Hi; apply HW; unfold interior; lia).
    - intros c Hn. exact Hn.
    - intros [[i j] m]. unfold rim, interior. split.
      + intros (m' & Hm' & K). destruct K as [K|[K|[K|K]]]; destruct K as (j' & Hj & i' & Hi & Heq);
          (assert (i = i' /\ j = j' /\ m = m') as (-> & -> & ->) by (repeat split; congruence)); lia.
      + intros (Hin & Hr). exists m. split; [lia|].
        destruct (Z_le_gt_dec i 2) as [C1|C1]; [destruct (Z_le_gt_dec j (my d - 2)) as [C2|C2]|].
        * left. exists j. split; [lia|]. exists i. split; [lia|reflexivity].
        * right; right; right. exists j. split; [lia|]. exists i. split; [lia|reflexivity].
        * destruct (Z_le_gt_dec j 2) as [C2|C2].
          { right; left. exists j. split; [lia|]. exists i. split; [lia|reflexivity]. }
          destruct (Z_le_gt_dec i (mx d - 2)) as [C3|C3].
          { right; right; right. exists j. split; [lia|]. exists i. split; [lia|reflexivity]. }
          right; right; left. exists j. split; [lia|]. exists i. split; [lia|reflexivity]. }
  destruct (W q) as (q' & E & A & B & _); [unfold none; tauto|]. exists q'. split; [exact E|]. split.
  - intros i j m Hr. rewrite A by exact Hr. apply HV. now destruct Hr.
  - exact B.
Qed.

(* --------------------------------------------------------------- packing *)

Lemma strips5_same : forall d S mint (body : Z -> Z -> S -> option S) s, mbc d = 2 -> strips5 d mint body s = strips d mint body s.
Proof. intros d S mint body s H. unfold strips5, strips. rewrite H. reflexivity. Qed.

Lemma pack5_same : forall d cap mint base psize mode s, mbc d = 2 ->
  fort_local_ghost_pack5 d cap mint base psize mode s = fort_local_ghost_pack d cap mint base psize mode s.
Proof.
  intros d cap mint base psize mode s H. unfold fort_local_ghost_pack5, fort_local_ghost_pack.
  destruct (negb (mode =? 0) && negb (mode =? 1) && negb (mode =? 2) && negb (mode =? 3)); [reflexivity|].
  rewrite (loop_ext _ 1 (meqn d) _ (fun mq => strips d mint (fun i j => xfer d cap base psize ((mode =? 0) || (mode =? 2)) (LQ (i, j, mq)))))
    by (intros k s1 _; apply strips5_same; exact H).
  destruct (loop 1 (meqn d) _ (s, 1)) as [st|]; [|reflexivity]. cbn [bind].
  destruct (negb (mode =? 2) && negb (mode =? 3)); [reflexivity|]. rewrite strips5_same by exact H. reflexivity.
Qed.

Lemma comm5_same : forall o cap mode s, mbc (g_d o) = 2 -> ghost_comm5 o cap mode s = ghost_comm o cap mode s.
Proof.
  intros o cap mode s H. unfold ghost_comm5, ghost_comm. cbv zeta.
  destruct (negb (0 <=? _)); [reflexivity|]. destruct (negb (0 <? _)); [reflexivity|].
  destruct (ghost_pack_elems o) as [n|]; [|reflexivity]. cbn [bind]. destruct (negb (_ =? n)); [reflexivity|].
  rewrite pack5_same by exact H. reflexivity.
Qed.

(* --------------------------------------------------------------- tagging *)

Definition orel {A B} (R : A -> B -> Prop) (x : option A) (y : option B) : Prop :=
  match x, y with Some a, Some b => R a b | None, None => True | _, _ => False end.

Lemma loop_sim : forall S S' (R : S -> S' -> Prop) lo hi (f : Z -> S -> option S) (g : Z -> S' -> option S'),
  (forall k s s', lo <= k <= hi -> R s s' -> orel R (f k s) (g k s')) ->
  forall s s', R s s' -> orel R (loop lo hi f s) (loop lo hi g s').
Proof.
  intros S S' R lo hi f g H. unfold loop.
  assert (G : forall n k s s', lo <= k -> k + Z.of_nat n <= Z.max (hi + 1) lo -> R s s' -> orel R (loop_n n k f s) (loop_n n k g s')).
  { induction n as [|n IH]; intros k s s' Hk Hn HR; [exact HR|]. cbn [loop_n].
    specialize (H k s s' ltac:(lia) HR). destruct (f k s) as [a|], (g k s') as [b|]; cbn [orel] in H; try contradiction; cbn [bind].
    - apply IH; [lia|lia|exact H].
    - exact I. }
  intros s s'. apply G; lia.
Qed.

Section Tagging.
  Variable d : dims.
  Hypothesis Hd : usual d.
  Variable q : arr.
  Variable f : data.
  Hypothesis Hq : all_set d q f.

  Lemma take_first : forall i j s lo hi, in_array d (i, j) ->
    (forall mq, 1 <= mq <= meqn d -> s_min s mq <> None /\ s_max s mq <> None) -> s_min s 1 = Some lo -> s_max s 1 = Some hi ->
    exists s', take d q i j s = Some s' /\ (forall mq, 1 <= mq <= meqn d -> s_min s' mq <> None /\ s_max s' mq <> None) /\
      s_min s' 1 = Some (Qmin lo (f i j 1)) /\ s_max s' 1 = Some (Qmax hi (f i j 1)) /\ s_quad s' = s_quad s /\
      forall mq, 1 <= mq <= meqn d -> s_val s' mq = Some (f i j mq).
  Proof.
    intros i j s lo hi Hin Hs Hlo Hhi. destruct Hd as (_ & _ & _ & Hm1). unfold take.
    destruct (loop_ok scan 1 (meqn d) (fun mq s0 =>
       bind (rd d q (i, j, mq)) (fun x => bind (s_min s0 mq) (fun lo => bind (s_max s0 mq) (fun hi =>
         Some (mkScan (vset (s_min s0) mq (Qmin lo x)) (vset (s_max s0) mq (Qmax hi x)) (vset (s_val s0) mq x) (s_quad s0))))))
      (fun k s' => (forall mq, 1 <= mq <= meqn d -> s_min s' mq <> None /\ s_max s' mq <> None) /\
         s_min s' 1 = Some (if 1 <? k then Qmin lo (f i j 1) else lo) /\
         s_max s' 1 = Some (if 1 <? k then Qmax hi (f i j 1) else hi) /\ s_quad s' = s_quad s /\
         forall mq, 1 <= mq < k -> s_val s' mq = Some (f i j mq))) with (s := s) as (s' & E & P1 & P2 & P3 & P4 & P5).
    - lia.
    - intros k s0 Hk (P1 & P2 & P3 & P4 & P5). rewrite (rd_ok d q f i j k Hq Hin Hk). cbn [bind].
      destruct (P1 k Hk) as (N1 & N2). destruct (s_min s0 k) as [l0|] eqn:E1; [|now contradiction N1].
      destruct (s_max s0 k) as [h0|] eqn:E2; [|now contradiction N2]. cbn [bind]. eexists. split; [reflexivity|].
      cbn [s_min s_max s_val s_quad]. split; [|split; [|split; [|split]]].
      + intros mq Hm. destruct (Z.eq_dec mq k) as [->|N]; [rewrite !vset_eq; split; discriminate|]. rewrite !vset_ne by exact N. now apply P1.
      + rewrite (proj2 (Z.ltb_lt 1 (k + 1))) by lia. destruct (Z.eq_dec k 1) as [->|N].
        * rewrite vset_eq. change (1 <? 1) with false in P2. cbv iota in P2. congruence.
        * rewrite vset_ne by lia. rewrite P2, (proj2 (Z.ltb_lt 1 k)) by lia. reflexivity.
      + rewrite (proj2 (Z.ltb_lt 1 (k + 1))) by lia. destruct (Z.eq_dec k 1) as [->|N].
        * rewrite vset_eq. change (1 <? 1) with false in P3. cbv iota in P3. congruence.
        * rewrite vset_ne by lia. rewrite P3, (proj2 (Z.ltb_lt 1 k)) by lia. reflexivity.
      + exact P4.
      + intros mq Hm. destruct (Z.eq_dec mq k) as [->|N]; [apply vset_eq|]. rewrite vset_ne by exact N. apply P5. lia.
    - split; [exact Hs|]. split; [exact Hlo|]. split; [exact Hhi|]. split; [reflexivity|]. intros mq Hm. lia.
    - rewrite (proj2 (Z.ltb_lt 1 (meqn d + 1))) in P2, P3 by lia.
      exists s'. split; [exact E|]. split; [exact P1|]. split; [exact P2|]. split; [exact P3|]. split; [exact P4|].
      intros mq Hm. apply P5. lia.
  Qed.

  Lemma fill_quad5_ok : forall i j z, in_patch d (i, j) ->
    exists z', fill_quad5 d q i j z = Some z' /\ forall ii jj, -1 <= ii <= 1 -> -1 <= jj <= 1 -> z' ii jj = Some (f (i + ii) (j + jj) 1).
  Proof.
    intros i j z (Hi & Hj). cbn [fst snd] in *. destruct Hd as (Hx & Hy & Hb & Hm1). unfold fill_quad5.
    set (D := fun (ii jj : Z) (z' : Z -> Z -> option Q) => forall ii' jj', -1 <= ii' <= 1 -> -1 <= jj' <= 1 ->
        ii' < ii \/ ii' = ii /\ jj' < jj -> z' ii' jj' = Some (f (i + ii') (j + jj') 1)).
    destruct (loop_ok (Z -> Z -> option Q) (-1) 1 (fun ii => loop (-1) 1 (fun jj z =>
      bind (rd d q (i + ii, j + jj, 1)) (fun x => Some (fun ii' jj' => if (ii' =? ii) && (jj' =? jj) then Some x else z ii' jj'))))
      (fun ii => D ii (-1))) with (s := z) as (z' & E & P).
    - lia.
    - intros ii z0 Hii H0. destruct (loop_ok (Z -> Z -> option Q) (-1) 1 (fun jj z =>
        bind (rd d q (i + ii, j + jj, 1)) (fun x => Some (fun ii' jj' => if (ii' =? ii) && (jj' =? jj) then Some x else z ii' jj')))
        (fun jj => D ii jj)) with (s := z0) as (z2 & E2 & P2); [lia| |exact H0|].
      + intros jj z1 Hjj H1. rewrite (rd_ok d q f _ _ 1 Hq) by (try lia; split; cbn [fst snd]; lia). cbn [bind].
        eexists. split; [reflexivity|]. intros ii' jj' I' J' H'.
        destruct (Z.eqb_spec ii' ii) as [Ei|Ni]; cbn [andb]; [|apply H1; try assumption; lia].
        destruct (Z.eqb_spec jj' jj) as [Ej|Nj]; [now subst|apply H1; try assumption; lia].
      + exists z2. split; [exact E2|]. intros ii' jj' I' J' H'. apply P2; try assumption. lia.
    - intros ii' jj' I' J' H'. lia.
    - exists z'. split; [exact E|]. intros ii jj I' J'. apply P; try assumption. lia.
  Qed.

  Variable crit : cargs -> option Z.
  Hypothesis Hc : looks_at_first d crit.
  Variables (blockno init : Z) (dx dy th xl yl : Q).

  Definition simulates (st : scan5 * Z) (st' : scan * Z) : Prop :=
    snd st = snd st' /\ s_min (fst st') 1 = Some (z_min (fst st)) /\ s_max (fst st') 1 = Some (z_max (fst st)) /\
    forall mq, 1 <= mq <= meqn d -> s_min (fst st') mq <> None /\ s_max (fst st') mq <> None.

  Lemma visit_sim : forall i j st st', in_array d (i, j) -> simulates st st' ->
    orel simulates (visit5 d crit blockno dx dy th init q xl yl i j st) (visit d crit blockno dx dy th init 1 q xl yl i j st').
  Proof.
    intros i j [z tag] [s tag'] Hin (T & S1 & S2 & S3). cbn [fst snd] in *. subst tag'. unfold visit5, visit.
    destruct (tag =? 1) eqn:Et; [cbn [orel]; repeat split; cbn [fst snd]; try assumption; apply S3; assumption|].
    pose proof Hd as (_ & _ & _ & Hm1).
    rewrite (rd_ok d q f i j 1 Hq Hin) by lia. cbn [bind].
    destruct (take_first i j s _ _ Hin S3 S1 S2) as (s1 & E1 & N1 & L1 & U1 & Q1 & V1). rewrite E1. cbn [bind].
    assert (QD : exists z' s2, (if is_ghost d i j then Some (z_quad z) else fill_quad5 d q i j (z_quad z)) = Some z' /\
       (if is_ghost d i j then Some s1 else fill_quad d q i j s1) = Some s2 /\
       s_min s2 = s_min s1 /\ s_max s2 = s_max s1 /\ s_val s2 = s_val s1 /\
       (is_ghost d i j = false -> forall ii jj, -1 <= ii <= 1 -> -1 <= jj <= 1 -> z' ii jj = s_quad s2 ii jj 1)).
    { destruct (is_ghost d i j) eqn:Eg.
      - exists (z_quad z), s1. repeat split; try reflexivity. discriminate.
      - assert (Hp : in_patch d (i, j)) by (apply (ghost_iff d); exact Eg).
        destruct (fill_quad5_ok i j (z_quad z) Hp) as (z' & Ez & Pz).
        destruct (quad_ok d Hd q f i j s1 Hq Hp) as (s2 & Es & A1 & A2 & A3 & A4).
        exists z', s2. repeat (split; [assumption|]). intros _ ii jj Hii Hjj. rewrite Pz, A4 by (try assumption; lia). reflexivity. }
    destruct QD as (z' & s2 & -> & -> & M1 & M2 & M3 & M4). cbn [bind].
    match goal with |- orel _ (bind (crit ?a) _) (bind (crit ?b) _) => assert (EC : crit a = crit b) end.
    { apply Hc; unfold args; cbn [c_block c_dx c_dy c_xc c_yc c_th c_init c_ghost c_qval c_qmin c_qmax c_quad]; try reflexivity.
      - intros mq Hm. rewrite (rd_ok d q f i j mq Hq Hin Hm), M3, V1 by exact Hm. reflexivity.
      - rewrite M1, L1. reflexivity.
      - rewrite M2, U1. reflexivity.
      - intros Eg ii jj Hii Hjj. unfold scalar. change (1 =? 1) with true. cbv iota. now apply M4. }
    rewrite EC. clear EC. destruct (crit (args _ _ _ _ _ _ _ _ _ _ _)) as [r|]; cbn [bind orel]; [|exact I].
    unfold simulates. cbn [fst snd z_min z_max]. split; [reflexivity|]. rewrite M1, M2. repeat split; try assumption; now apply N1.
  Qed.

  Lemma refine5_same : fort_tag4refinement5 d crit blockno dx dy th init q xl yl = fort_tag4refinement d crit blockno dx dy th init q xl yl.
  Proof.
    unfold fort_tag4refinement5, fort_tag4refinement. pose proof Hd as (Hx & Hy & Hb & Hm1).
    assert (H11 : in_array d (1, 1)) by (split; cbn [fst snd]; lia).
    rewrite (rd_ok d q f 1 1 1 Hq H11) by lia. cbn [bind].
    destruct (loop_ok scan 1 (meqn d) (fun mq s =>
      bind (rd d q (1, 1, mq)) (fun x =>
      Some (mkScan (vset (s_min s) mq x) (vset (s_max s) mq x) (s_val s) (s_quad s))))
      (fun k s => forall mq, 1 <= mq < k -> s_min s mq = Some (f 1 1 mq) /\ s_max s mq = Some (f 1 1 mq)))
      with (s := mkScan unset unset unset (fun _ _ => unset)) as (s & E & P).
    - lia.
    - intros k s0 Hk HP. rewrite (rd_ok d q f 1 1 k Hq H11 Hk). cbn [bind]. eexists. split; [reflexivity|].
      cbn [s_min s_max]. intros mq Hm. destruct (Z.eq_dec mq k) as [->|N]; [rewrite !vset_eq; now split|].
      rewrite !vset_ne by exact N. apply HP. lia.
    - intros mq Hm. lia.
    - unfold start. rewrite E. cbn [bind].
      pose proof (loop_sim _ _ simulates (1 - mbc d) (my d + mbc d)
        (fun j => loop (1 - mbc d) (mx d + mbc d) (fun i => visit5 d crit blockno dx dy th init q xl yl i j))
        (fun j => loop (1 - mbc d) (mx d + mbc d) (fun i => visit d crit blockno dx dy th init 1 q xl yl i j))) as L.
      specialize (L ltac:(intros j st st' Hj HR; apply loop_sim; [|exact HR]; intros i st1 st1' Hi HR1; apply visit_sim; [split; cbn [fst snd]; lia|exact HR1])).
      specialize (L (mkScan5 (f 1 1 1) (f 1 1 1) (fun _ _ => None), 0) (s, 0)).
      assert (HS : simulates (mkScan5 (f 1 1 1) (f 1 1 1) (fun _ _ => None), 0) (s, 0)).
      { destruct (P 1 ltac:(lia)) as (P1 & P2). split; [reflexivity|]. split; [exact P1|]. split; [exact P2|].
        intros mq Hm. cbn [fst]. destruct (P mq ltac:(lia)) as (-> & ->). split; discriminate. }
      specialize (L HS).
      destruct (loop _ _ _ (mkScan5 _ _ _, 0)) as [a|], (loop _ _ _ (s, 0)) as [b|]; cbn [orel] in L; try contradiction; cbn [bind].
      + destruct L as (-> & _). reflexivity.
      + reflexivity.
  Qed.
End Tagging.

Lemma builtin_first : forall d o, criteria o = 0 \/ (1 <= criteria o <= 3 /\ threshold_variable o = 1) ->
  looks_at_first d (tag_criteria (meqn d) o).
Proof.
  intros d o Ho a b Hbl Hdx Hdy Hxc Hyc Hth Hin Hgh Hv Hmin Hmax Hquad. unfold tag_criteria.
  assert (R1 : forall v w, v 1 = w 1 -> rdv (meqn d) v 1 = rdv (meqn d) w 1).
  { intros v w H. unfold rdv. now rewrite H. }
  destruct Ho as [E|(Hc & Hvar)].
  - rewrite E. unfold value_exceeds, rdv. rewrite Hth.
    destruct ((1 <=? threshold_variable o) && (threshold_variable o <=? meqn d)) eqn:Eb; [|reflexivity].
    apply andb_true_iff in Eb. rewrite !Z.leb_le in Eb. rewrite (Hv _ Eb). reflexivity.
  - assert (E : criteria o = 1 \/ criteria o = 2 \/ criteria o = 3) by lia. destruct E as [E|[E|E]]; rewrite E.
    + unfold difference_exceeds. rewrite Hvar, Hth, Hgh in *. destruct (c_ghost b); [reflexivity|]. specialize (Hquad eq_refl).
      rewrite !(R1 (c_quad a _ _) (c_quad b _ _)) by (apply Hquad; lia). reflexivity.
    + unfold minmax_exceeds. rewrite Hvar, Hth, (R1 _ _ Hmin), (R1 _ _ Hmax). reflexivity.
    + unfold gradient_exceeds. rewrite Hvar, Hth, Hgh, Hdx, Hdy, Hxc, Hyc, Hbl in *. destruct (c_ghost b); [reflexivity|]. specialize (Hquad eq_refl).
      rewrite (R1 (c_quad a 1 0) (c_quad b 1 0)), (R1 (c_quad a (-1) 0) (c_quad b (-1) 0)), (R1 (c_quad a 0 1) (c_quad b 0 1)),
        (R1 (c_quad a 0 (-1)) (c_quad b 0 (-1))) by (apply Hquad; lia). reflexivity.
Qed.
