(** The slope limiter; interpolation to four children. *)
From Coq Require Import ZArith QArith Qminmax Qabs List Lia Lqa Bool Qfield.
From Verif Require Import Base_Float Model_Face Spec_Face Model_Grid Spec_Grid Proof_Grid Proof_Grid2.
Import ListNotations.
Open Scope Z_scope.

(* -------------------------------------------------------------- slopes *)

Lemma qmin_cases : forall a b, (Qmin a b == a /\ a <= b)%Q \/ (Qmin a b == b /\ b <= a)%Q.
Proof.
  intros a b. destruct (Qlt_le_dec a b) as [H|H].
  - left. split; [apply Q.min_l|]; now apply Qlt_le_weak.
  - right. split; [now apply Q.min_r|assumption].
Qed.

Lemma fsign_cases : forall x, (fsign x = 1 /\ 0 <= x)%Q \/ (fsign x = -1 /\ x < 0)%Q.
Proof.
  intros x. unfold fsign. destruct (Qle_bool 0 x) eqn:E.
  - left. split; [reflexivity|now apply Qle_bool_iff].
  - right. split; [reflexivity|]. apply Qnot_le_lt. intros H. apply Qle_bool_iff in H. congruence.
Qed.

Lemma qabs_cases : forall x, (Qabs x == x /\ 0 <= x)%Q \/ (Qabs x == - x /\ x < 0)%Q.
Proof.
  intros x. destruct (Qlt_le_dec x 0) as [H|H].
  - right. split; [apply Qabs_neg; now apply Qlt_le_weak|exact H].
  - left. split; [now apply Qabs_pos|exact H].
Qed.

Lemma qmax1 : (Qmax 0 1 == 1)%Q. Proof. now apply Q.max_r. Qed.
Lemma qmaxm1 : (Qmax 0 (-1) == 0)%Q. Proof. now apply Q.max_l. Qed.

(** the three possible outcomes *)
Lemma slopes_cases : forall sl sr,
  ((sl * sr <= 0 /\ compute_slopes sl sr == 0) \/
   (0 < sl /\ 0 < sr /\ 0 < compute_slopes sl sr /\
     compute_slopes sl sr <= 2 * sl /\ compute_slopes sl sr <= 2 * sr /\ compute_slopes sl sr <= (sl + sr) / 2 /\
     (compute_slopes sl sr == 2 * sl \/ compute_slopes sl sr == 2 * sr \/ compute_slopes sl sr == (sl + sr) / 2)) \/
   (sl < 0 /\ sr < 0 /\ compute_slopes sl sr < 0 /\
     2 * sl <= compute_slopes sl sr /\ 2 * sr <= compute_slopes sl sr /\ (sl + sr) / 2 <= compute_slopes sl sr /\
     (compute_slopes sl sr == 2 * sl \/ compute_slopes sl sr == 2 * sr \/ compute_slopes sl sr == (sl + sr) / 2)))%Q.
Proof.
  intros sl sr. unfold compute_slopes.
  set (sc := ((sl + sr) / 2)%Q). assert (Hsc : (sc == (sl + sr) * (1 # 2))%Q) by (unfold sc; field).
  set (m := Qmin (Qmin (2 * Qabs sl) (2 * Qabs sr)) (Qabs sc)).
  assert (Hm : ((m == 2 * Qabs sl \/ m == 2 * Qabs sr \/ m == Qabs sc) /\
               m <= 2 * Qabs sl /\ m <= 2 * Qabs sr /\ m <= Qabs sc)%Q).
  { unfold m. destruct (qmin_cases (2 * Qabs sl) (2 * Qabs sr)) as [[E1 L1]|[E1 L1]];
      destruct (qmin_cases (Qmin (2 * Qabs sl) (2 * Qabs sr)) (Qabs sc)) as [[E2 L2]|[E2 L2]];
      rewrite E1 in E2, L2; rewrite E1, E2; (split; [|repeat split; lra]);
      first [left; reflexivity | right; left; reflexivity | right; right; reflexivity]. }
  destruct Hm as (Hor & H1 & H2 & H3).
  destruct (fsign_cases (sl * sr)) as [[Ep Hp]|[Ep Hp]]; rewrite Ep.
  - rewrite qmax1.
    destruct (qabs_cases sl) as [[A1 B1]|[A1 B1]]; destruct (qabs_cases sr) as [[A2 B2]|[A2 B2]];
      rewrite A1 in H1, Hor; rewrite A2 in H2, Hor.
    + (* both >= 0 *)
      assert (A3 : (Qabs sc == sc)%Q) by (apply Qabs_pos; lra). rewrite A3 in H3, Hor.
      destruct (fsign_cases sc) as [[Es _]|[Es Hs]]; [|lra]. rewrite Es.
      destruct (Qlt_le_dec 0 sl) as [Pl|Pl]; [destruct (Qlt_le_dec 0 sr) as [Pr|Pr]|].
      * right. left. split; [exact Pl|]. split; [exact Pr|].
        split; [destruct Hor as [E|[E|E]]; rewrite E; lra|].
        split; [lra|]. split; [lra|]. split; [unfold sc in *; lra|].
        destruct Hor as [E|[E|E]]; [left|right; left|right; right]; rewrite E; ring.
      * left. assert (Er : (sr == 0)%Q) by lra. split; [rewrite Er; lra|].
        destruct Hor as [E|[E|E]]; [|rewrite E, Er; ring|]; (assert (Em : (m == 0)%Q) by lra; rewrite Em; ring).
      * left. assert (El : (sl == 0)%Q) by lra. split; [rewrite El; lra|].
        destruct Hor as [E|[E|E]]; [rewrite E, El; ring| |]; (assert (Em : (m == 0)%Q) by lra; rewrite Em; ring).
    + (* sl >= 0, sr < 0 with product >= 0: sl = 0 *)
      left. assert (El : (sl == 0)%Q) by nra. split; [rewrite El; lra|].
      assert (Em : (m == 0)%Q).
      { pose proof (Qabs_nonneg sc). destruct Hor as [E|[E|E]]; rewrite E in *; lra. }
      rewrite Em. ring.
    + left. assert (Er : (sr == 0)%Q) by nra. split; [rewrite Er; lra|].
      assert (Em : (m == 0)%Q).
      { pose proof (Qabs_nonneg sc). destruct Hor as [E|[E|E]]; rewrite E in *; lra. }
      rewrite Em. ring.
    + right. right.
      assert (A3 : (Qabs sc == - sc)%Q) by (apply Qabs_neg; lra). rewrite A3 in H3, Hor.
      destruct (fsign_cases sc) as [[Es Hs]|[Es Hs]]; [lra|]. rewrite Es.
      split; [exact B1|]. split; [exact B2|].
      split; [destruct Hor as [E|[E|E]]; rewrite E; lra|].
      split; [lra|]. split; [lra|]. split; [unfold sc in *; lra|].
      destruct Hor as [E|[E|E]]; [left|right; left|right; right]; rewrite E; ring.
  - rewrite qmaxm1. left. split; [lra|]. ring.
Qed.

Lemma slopes_proper : forall a b a' b', (a == a')%Q -> (b == b')%Q -> (compute_slopes a b == compute_slopes a' b')%Q.
Proof.
  assert (F : forall x y, (x == y)%Q -> fsign x = fsign y).
  { intros x y E. unfold fsign. now rewrite E. }
  intros a b a' b' Ea Eb. unfold compute_slopes.
  rewrite (F (a * b)%Q (a' * b')%Q), (F ((a + b) / 2)%Q ((a' + b') / 2)%Q) by now rewrite Ea, Eb.
  now rewrite Ea, Eb.
Qed.

Lemma half_mul : forall x, (x / 2 == x * (1 # 2))%Q.
Proof. intros. field. Qed.

Lemma slopes_sym : forall a b, (compute_slopes a b == compute_slopes b a)%Q.
Proof.
  intros a b.
  destruct (slopes_cases a b) as [[H E]|[(P1 & P2 & P3 & P4 & P5 & P6 & P7)|(P1 & P2 & P3 & P4 & P5 & P6 & P7)]],
    (slopes_cases b a) as [[H' E']|[(R1 & R2 & R3 & R4 & R5 & R6 & R7)|(R1 & R2 & R3 & R4 & R5 & R6 & R7)]];
    try lra; try (exfalso; clear - H P1 P2; nra); try (exfalso; clear - H R1 R2; nra);
    try (exfalso; clear - H' P1 P2; nra);
    destruct P7 as [P7|[P7|P7]]; destruct R7 as [R7|[R7|R7]];
    rewrite ?half_mul in *; lra.
Qed.

Lemma slopes_odd : forall a b, (compute_slopes (- a) (- b) == - compute_slopes a b)%Q.
Proof.
  intros a b.
  destruct (slopes_cases a b) as [[H E]|[(P1 & P2 & P3 & P4 & P5 & P6 & P7)|(P1 & P2 & P3 & P4 & P5 & P6 & P7)]],
    (slopes_cases (- a) (- b)) as [[H' E']|[(R1 & R2 & R3 & R4 & R5 & R6 & R7)|(R1 & R2 & R3 & R4 & R5 & R6 & R7)]];
    try lra; try (exfalso; clear - H P1 P2; nra); try (exfalso; clear - H R1 R2; nra);
    try (exfalso; clear - H' P1 P2; nra);
    destruct P7 as [P7|[P7|P7]]; destruct R7 as [R7|[R7|R7]];
    rewrite ?half_mul in *; lra.
Qed.

(** a quarter of the slope moves the value at most half the way to a neighbor *)
Lemma slope_half : forall w c e s, (s == 1 # 4)%Q \/ (s == -1 # 4)%Q ->
  exists n, (n = w \/ n = e) /\
   ((0 <= s * compute_slopes (c - w) (e - c) <= (n - c) / 2) \/
    ((n - c) / 2 <= s * compute_slopes (c - w) (e - c) <= 0))%Q.
Proof.
  intros w c e s Hs. set (g := compute_slopes (c - w) (e - c)).
  assert (H : exists n, (n = w \/ n = e) /\
    ((0 <= s * g <= (n - c) * (1 # 2)) \/ ((n - c) * (1 # 2) <= s * g <= 0))%Q).
  { pose proof (slopes_cases (c - w) (e - c)) as C. fold g in C.
    destruct C as [[_ E]|[(P1 & P2 & P3 & P4 & P5 & _)|(P1 & P2 & P3 & P4 & P5 & _)]].
    - exists w. split; [now left|]. rewrite E. destruct (Qlt_le_dec w c); [right|left]; split; lra.
    - destruct Hs as [Hs|Hs]; [exists e|exists w]; (split; [auto|]); [left|right]; rewrite Hs; split; lra.
    - destruct Hs as [Hs|Hs]; [exists e|exists w]; (split; [auto|]); [right|left]; rewrite Hs; split; lra. }
  destruct H as (n & Hn & H). exists n. split; [exact Hn|].
  assert (E : ((n - c) / 2 == (n - c) * (1 # 2))%Q) by field. rewrite E. exact H.
Qed.

Lemma within_stencil : forall w c e so no s t, (s == 1 # 4)%Q \/ (s == -1 # 4)%Q -> (t == 1 # 4)%Q \/ (t == -1 # 4)%Q ->
  within [c; w; e; so; no] (c + s * compute_slopes (c - w) (e - c) + t * compute_slopes (c - so) (no - c)).
Proof.
  intros w c e so no s t Hs Ht.
  destruct (slope_half w c e s Hs) as (n1 & H1 & B1). destruct (slope_half so c no t Ht) as (n2 & H2 & B2).
  set (a := (s * compute_slopes (c - w) (e - c))%Q) in *. set (b := (t * compute_slopes (c - so) (no - c))%Q) in *.
  assert (E1 : ((n1 - c) / 2 == (n1 - c) * (1 # 2))%Q) by field. rewrite E1 in B1.
  assert (E2 : ((n2 - c) / 2 == (n2 - c) * (1 # 2))%Q) by field. rewrite E2 in B2.
  assert (I0 : In c [c; w; e; so; no]) by (left; reflexivity).
  assert (I1 : In n1 [c; w; e; so; no]) by (destruct H1 as [->| ->]; cbn; auto).
  assert (I2 : In n2 [c; w; e; so; no]) by (destruct H2 as [->| ->]; cbn; auto 6).
  unfold within. split.
  - destruct B1 as [B1|B1], B2 as [B2|B2].
    + exists c. split; [exact I0|lra].
    + exists n2. split; [exact I2|lra].
    + exists n1. split; [exact I1|lra].
    + destruct (Qlt_le_dec n1 n2); [exists n1|exists n2]; (split; [assumption|lra]).
  - destruct B1 as [B1|B1], B2 as [B2|B2].
    + destruct (Qlt_le_dec n1 n2); [exists n2|exists n1]; (split; [assumption|lra]).
    + exists n1. split; [exact I1|lra].
    + exists n2. split; [exact I2|lra].
    + exists c. split; [exact I0|lra].
Qed.

(* ------------------------------------------------------- interpolation *)

Definition shift (ii : Z) : Q := ((inject_Z ii - 2 / 2 - (1 # 2)) / 2)%Q.

Section Interpolate.
  Variable d : dims.
  Hypothesis Hd : even_size d.
  Hypothesis Hb : 2 <= mbc d.
  Variable g : Z.
  Hypothesis Hg : 0 <= g < 4.
  Variable qcoarse : arr.
  Variable f : data.
  Hypothesis Hf : holds_layer d qcoarse f.

  Definition ival (i j mq : Z) (ii jj : Z) : Q :=
    let ic := i + off_x d g in let jc := j + off_y d g in
    (f ic jc mq + shift ii * compute_slopes (f ic jc mq - f (ic - 1)%Z jc mq) (f (ic + 1)%Z jc mq - f ic jc mq)
                + shift jj * compute_slopes (f ic jc mq - f ic (jc - 1)%Z mq) (f ic (jc + 1)%Z mq - f ic jc mq))%Q.

  (** fine cell number to coarse cell number and half *)
  Definition up (I : Z) : Z := (I - 1) / 2 + 1.
  Definition hf (I : Z) : Z := (I - 1) mod 2 + 1.

  Lemma up_hf : forall i ii, 1 <= ii <= 2 -> up ((i - 1) * 2 + ii) = i /\ hf ((i - 1) * 2 + ii) = ii.
  Proof.
    intros i ii H. unfold up, hf. replace ((i - 1) * 2 + ii - 1) with ((ii - 1) + (i - 1) * 2) by lia.
    rewrite Z.div_add, Z.mod_add by lia. rewrite Z.div_small, Z.mod_small by lia. lia.
  Qed.
  Lemma up_hf_inv : forall I, (up I - 1) * 2 + hf I = I /\ 1 <= hf I <= 2.
  Proof.
    intros I. unfold up, hf. pose proof (Z.div_mod (I - 1) 2). pose proof (Z.mod_pos_bound (I - 1) 2). lia.
  Qed.

  Definition interp_arr : arr := fun c => let '(fi, fj, mq) := c in Some (ival (up fi) (up fj) mq (hf fi) (hf fj)).

  Definition quad (i j mq : Z) : cell -> Prop := fun c =>
    exists ii, 1 <= ii <= 2 /\ exists jj, 1 <= jj <= 2 /\ c = ((i - 1) * 2 + ii, (j - 1) * 2 + jj, mq).

  Lemma interpolate_cell_ok : forall i j mq s0,
    1 - child_x g <= i <= mx d / 2 + (1 - child_x g) -> 1 - child_y g <= j <= my d / 2 + (1 - child_y g) ->
    1 <= mq <= meqn d ->
    writes none s0 (interpolate_cell d qcoarse i j (i + off_x d g) (j + off_y d g) mq) (quad i j mq) interp_arr.
  Proof.
    intros i j mq s0 Hi Hj Hm.
    destruct (grid_facts d g Hd Hg) as (_ & _ & _ & _ & E1 & E2 & _ & _ & Cx & Cy & Ox & Oy).
    pose proof Hd as (_ & _ & Sx & Sy & _).
    assert (R : forall a b, -1 <= a <= 1 -> -1 <= b <= 1 -> a = 0 \/ b = 0 ->
      rd d qcoarse (i + off_x d g + a, j + off_y d g + b, mq) = Some (f (i + off_x d g + a) (j + off_y d g + b) mq)).
    { intros a b Ha Hb' Hor. apply rd_some; [apply in_q_iff; lia|]. apply Hf; [exact Hm|].
      destruct Hor as [->| ->]; [right|left]; lia. }
    assert (R0 := R 0 0). do 3 (specialize (R0 ltac:(clear; lia))). rewrite !Z.add_0_r in R0.
    assert (Rw := R (-1) 0). do 3 (specialize (Rw ltac:(clear; lia))). rewrite Z.add_0_r in Rw.
    change (i + off_x d g + -1) with (i + off_x d g - 1) in Rw.
    assert (Re := R 1 0). do 3 (specialize (Re ltac:(clear; lia))). rewrite Z.add_0_r in Re.
    assert (Rs := R 0 (-1)). do 3 (specialize (Rs ltac:(clear; lia))). rewrite Z.add_0_r in Rs.
    change (j + off_y d g + -1) with (j + off_y d g - 1) in Rs.
    assert (Rn := R 0 1). do 3 (specialize (Rn ltac:(clear; lia))). rewrite Z.add_0_r in Rn.
    unfold interpolate_cell. rewrite R0, Rw, Re, Rs, Rn. cbn [bind].
    unfold quad.
    apply (writes_loop0 s0 (fun ii c => exists jj, 1 <= jj <= 2 /\ c = ((i - 1) * 2 + ii, (j - 1) * 2 + jj, mq))).
    intros ii Hii.
    apply (writes_loop0 s0 (fun jj c => c = ((i - 1) * 2 + ii, (j - 1) * 2 + jj, mq))). intros jj Hjj.
    apply writes_cell; [apply in_q_iff; lia|].
    unfold interp_arr. destruct (up_hf i ii Hii) as [-> ->]. destruct (up_hf j jj Hjj) as [-> ->]. reflexivity.
  Qed.

  (** the cells interpolated: the interior, and two more beyond the inner boundaries *)
  Definition reached (c : cell) : Prop := let '(fi, fj, mq) := c in
    1 - 2 * child_x g <= fi <= mx d + 2 * (1 - child_x g) /\
    1 - 2 * child_y g <= fj <= my d + 2 * (1 - child_y g) /\ 1 <= mq <= meqn d.

  Lemma interpolate_loops_ok : forall s0,
    writes none s0
      (fun q => loop 1 (meqn d) (fun mq => loop (1 - Z.quot (g - Z.rem g 2) 2) (Z.quot (my d) 2 + (1 - Z.quot (g - Z.rem g 2) 2))
         (fun j => loop (1 - Z.rem g 2) (Z.quot (mx d) 2 + (1 - Z.rem g 2)) (fun i =>
            interpolate_cell d qcoarse i j (i + Z.quot (Z.rem g 2 * mx d) 2)
              (j + Z.quot (Z.quot (g - Z.rem g 2) 2 * my d) 2) mq))) q)
      reached interp_arr.
  Proof.
    intros s0.
    destruct (grid_facts d g Hd Hg) as (G1 & G2 & G3 & G4 & E1 & E2 & G5 & G6 & Cx & Cy & Ox & Oy).
    rewrite G2, G1, G3, G4, G5, G6.
    eapply writes_weaken.
    - apply (writes_loop0 s0 (fun mq c => exists j, (1 - child_y g <= j <= my d / 2 + (1 - child_y g)) /\
               exists i, (1 - child_x g <= i <= mx d / 2 + (1 - child_x g)) /\ quad i j mq c)). intros mq Hmq.
      apply (writes_loop0 s0 (fun j c => exists i, (1 - child_x g <= i <= mx d / 2 + (1 - child_x g)) /\ quad i j mq c)).
      intros j Hj.
      apply (writes_loop0 s0 (fun i c => quad i j mq c)). intros i Hi. now apply interpolate_cell_ok.
    - intros c [].
    - intros [[fi fj] m]. unfold reached. split.
      + intros (mq & Hmq & j & Hj & i & Hi & ii & Hii & jj & Hjj & E). injection E as -> -> ->. lia.
      + intros (HI & HJ & Hm). exists m. split; [exact Hm|].
        destruct (up_hf_inv fi) as [EI BI]. destruct (up_hf_inv fj) as [EJ BJ].
        exists (up fj). split; [lia|]. exists (up fi). split; [lia|].
        exists (hf fi). split; [exact BI|]. exists (hf fj). split; [exact BJ|]. now rewrite EI, EJ.
  Qed.

  (* ---------------------------------------------------- capacity fix *)

  Variable areacoarse areafine : area_t.
  Variable kc kf : areas.
  Hypothesis Hkc : area_holds d areacoarse kc.
  Hypothesis Hkf : area_holds d areafine kf.

  Definition ksum (i j mq : Z) : Q :=
    let x ii := (i - 1) * 2 + ii in let y jj := (j - 1) * 2 + jj in
    (0 + kf (x 1%Z) (y 1%Z) * ival i j mq 1 1 + kf (x 1%Z) (y 2%Z) * ival i j mq 1 2
       + kf (x 2%Z) (y 1%Z) * ival i j mq 2 1 + kf (x 2%Z) (y 2%Z) * ival i j mq 2 2)%Q.
  Definition cdiff (i j mq : Z) : Q :=
    ((f (i + off_x d g)%Z (j + off_y d g)%Z mq * kc (i + off_x d g)%Z (j + off_y d g)%Z - ksum i j mq) / 4)%Q.
  Definition fixed_arr : arr := fun c => let '(fi, fj, mq) := c in
    Some (ival (up fi) (up fj) mq (hf fi) (hf fj) + cdiff (up fi) (up fj) mq / kf fi fj)%Q.

  Lemma fix_cell_ok : forall i j mq s0, 1 <= i <= mx d / 2 -> 1 <= j <= my d / 2 -> 1 <= mq <= meqn d ->
    (forall c, reached c -> s0 c = interp_arr c) ->
    writes (quad i j mq) s0 (fix_cell d qcoarse areacoarse areafine i j (i + off_x d g) (j + off_y d g) mq)
      (quad i j mq) fixed_arr.
  Proof.
    intros i j mq s0 Hi Hj Hm H0.
    destruct (grid_facts d g Hd Hg) as (_ & _ & _ & _ & E1 & E2 & _ & _ & Cx & Cy & Ox & Oy).
    pose proof Hd as (_ & _ & Sx & Sy & _).
    assert (Hq : forall s, (forall c, quad i j mq c -> s c = s0 c) -> forall ii jj, 1 <= ii <= 2 -> 1 <= jj <= 2 ->
       rd d s ((i - 1) * 2 + ii, (j - 1) * 2 + jj, mq) = Some (ival i j mq ii jj)).
    { intros s Hs ii jj Hii Hjj. apply rd_some; [apply in_q_iff; lia|].
      rewrite Hs by (exists ii; split; [exact Hii|]; exists jj; now split).
      rewrite H0 by (unfold reached; lia). unfold interp_arr.
      destruct (up_hf i ii Hii) as [-> ->]. destruct (up_hf j jj Hjj) as [-> ->]. reflexivity. }
    assert (Hk : forall ii jj, 1 <= ii <= 2 -> 1 <= jj <= 2 ->
       rd_area d areafine ((i - 1) * 2 + ii) ((j - 1) * 2 + jj) = Some (kf ((i - 1) * 2 + ii) ((j - 1) * 2 + jj))).
    { intros ii jj Hii Hjj. apply rd_area_in; [lia|exact Hkf|lia|lia]. }
    intros s Hs. unfold fix_cell. rewrite loop12. rewrite loop12.
    rewrite !(Hk _ _) by lia. rewrite !(Hq s Hs) by lia. cbn [bind]. rewrite loop12.
    rewrite !(Hk _ _) by lia. rewrite !(Hq s Hs) by lia. cbn [bind].
    rewrite (rd_area_in d) with (k := kc) by (first [exact Hkc | lia]). cbn [bind].
    rewrite rd_some with (v := f (i + off_x d g) (j + off_y d g) mq)
      by (first [apply in_q_iff; lia | apply Hf; [lia|left; lia]]). cbn [bind].
    fold (ksum i j mq). fold (cdiff i j mq).
    match goal with |- exists s', loop 1 2 ?F s = _ /\ _ =>
      enough (W : writes (quad i j mq) s0 (loop 1 2 F) (quad i j mq) fixed_arr) by (apply W; exact Hs) end.
    eapply writes_weaken.
    - apply (writes_loop (fun ii c => exists jj, 1 <= jj <= 2 /\ c = ((i - 1) * 2 + ii, (j - 1) * 2 + jj, mq)) s0
               (fun ii c => exists jj, 1 <= jj <= 2 /\ c = ((i - 1) * 2 + ii, (j - 1) * 2 + jj, mq))).
      + intros ii Hii.
        apply (writes_loop (fun jj c => c = ((i - 1) * 2 + ii, (j - 1) * 2 + jj, mq)) s0
               (fun jj c => c = ((i - 1) * 2 + ii, (j - 1) * 2 + jj, mq))).
        * intros jj Hjj s1 Hs1. rewrite (Hk ii jj Hii Hjj). cbn [bind].
          unfold rd. rewrite Hs1 by reflexivity.
          pose proof (Hq s0 (fun c _ => eq_refl) ii jj Hii Hjj) as E. unfold rd in E. rewrite E. cbn [bind].
          apply (writes_cell (fun _ => False) s0); [apply in_q_iff; lia| |intros c []].
          unfold fixed_arr. destruct (up_hf i ii Hii) as [-> ->]. destruct (up_hf j jj Hjj) as [-> ->]. reflexivity.
        * intros jj jj' c _ Hlt _ -> E. assert (jj = jj') by (assert (E' := f_equal (fun c : cell => snd (fst c)) E); cbn [fst snd] in E'; lia). lia.
      + intros ii ii' c _ Hlt _ (jj & _ & ->) (jj' & _ & E).
        assert (E' := f_equal (fun c : cell => fst (fst c)) E). cbn [fst snd] in E'. lia.
    - intros c H. exact H.
    - intros c. reflexivity.
  Qed.

  Lemma fixcapaq2_ok : forall s0, (forall c, reached c -> s0 c = interp_arr c) ->
    writes (interior d) s0 (fixcapaq2 d qcoarse areacoarse areafine g) (interior d) fixed_arr.
  Proof.
    intros s0 H0.
    destruct (grid_facts d g Hd Hg) as (G1 & G2 & G3 & G4 & E1 & E2 & G5 & G6 & Cx & Cy & Ox & Oy).
    unfold fixcapaq2. rewrite G2, G1, G3, G4, G5, G6.
    set (P := fun mq c => exists i, 1 <= i <= mx d / 2 /\ exists j, 1 <= j <= my d / 2 /\ quad i j mq c).
    assert (HP : forall c, (exists mq, 1 <= mq <= meqn d /\ P mq c) <-> interior d c).
    { intros [[fi fj] m]. unfold P, interior, quad. split.
      - intros (mq & Hmq & i & Hi & j & Hj & ii & Hii & jj & Hjj & E). injection E as -> -> ->. lia.
      - intros (HI & HJ & Hm). exists m. split; [exact Hm|].
        destruct (up_hf_inv fi) as [EI BI]. destruct (up_hf_inv fj) as [EJ BJ].
        exists (up fi). split; [lia|]. exists (up fj). split; [lia|].
        exists (hf fi). split; [exact BI|]. exists (hf fj). split; [exact BJ|]. now rewrite EI, EJ. }
    assert (Q1 : forall i j m i' j' m' c, quad i j m c -> quad i' j' m' c -> i = i' /\ j = j' /\ m = m').
    { intros i j m i' j' m' c (ii & Hii & jj & Hjj & ->) (ii' & Hii' & jj' & Hjj' & E).
      pose proof (up_hf i ii Hii). pose proof (up_hf i' ii' Hii').
      pose proof (up_hf j jj Hjj). pose proof (up_hf j' jj' Hjj').
      assert (X := f_equal (fun c : cell => fst (fst c)) E). assert (Y := f_equal (fun c : cell => snd (fst c)) E).
      assert (Z := f_equal (fun c : cell => snd c) E). cbn [fst snd] in X, Y, Z. rewrite X in *. rewrite Y in *.
      intuition congruence. }
    eapply writes_weaken.
    - apply (writes_loop P s0 P).
      + intros mq Hmq.
        apply (writes_loop (fun i c => exists j, 1 <= j <= my d / 2 /\ quad i j mq c) s0
                 (fun i c => exists j, 1 <= j <= my d / 2 /\ quad i j mq c)).
        * intros i Hi.
          apply (writes_loop (fun j c => quad i j mq c) s0 (fun j c => quad i j mq c)).
          -- intros j Hj. now apply fix_cell_ok.
          -- intros j j' c _ Hlt _ H1 H2. destruct (Q1 _ _ _ _ _ _ c H1 H2). lia.
        * intros i i' c _ Hlt _ (j' & _ & H1) (j & _ & H2). destruct (Q1 _ _ _ _ _ _ c H1 H2). lia.
      + intros m m' c _ Hlt _ (i' & _ & j' & _ & H1) (i & _ & j & _ & H2).
        destruct (Q1 _ _ _ _ _ _ c H1 H2) as (_ & _ & ?). lia.
    - apply HP.
    - apply HP.
  Qed.

  (** the whole routine *)
  Lemma interpolate2fine_ok : forall manifold qfine, exists q',
    interpolate2fine d qcoarse areacoarse areafine g manifold qfine = Some q' /\
    (forall c, interior d c -> q' c = if manifold then fixed_arr c else interp_arr c) /\
    (forall c, reached c -> ~ interior d c -> q' c = interp_arr c) /\
    (forall c, ~ reached c -> q' c = qfine c).
  Proof.
    intros manifold qfine. unfold interpolate2fine.
    destruct (interpolate_loops_ok qfine qfine) as (q1 & E & A & B & _); [intros c []|].
    cbv zeta. rewrite E. cbn [bind].
    assert (IR : forall c, interior d c -> reached c).
    { intros [[i j] m]. unfold interior, reached.
      destruct (grid_facts d g Hd Hg) as (_ & _ & _ & _ & _ & _ & _ & _ & Cx & Cy & _). lia. }
    destruct manifold.
    - destruct (fixcapaq2_ok q1 A q1) as (q2 & E2 & A2 & B2 & _); [reflexivity|].
      exists q2. split; [exact E2|]. split; [exact A2|]. split.
      + intros c Hr Hi. rewrite B2 by exact Hi. now apply A.
      + intros c Hr. rewrite B2 by (intros Hi; apply Hr, IR, Hi). now apply B.
    - exists q1. split; [reflexivity|]. split; [|split].
      + intros c Hi. apply A, IR, Hi.
      + intros c Hr _. now apply A.
      + exact B.
  Qed.

  (* ---------------------------------------------------- consequences *)

  Lemma shift_vals : (shift 1 == -1 # 4)%Q /\ (shift 2 == 1 # 4)%Q.
  Proof. split; reflexivity. Qed.

  Lemma ival_within : forall i j mq ii jj, 1 <= ii <= 2 -> 1 <= jj <= 2 ->
    let ic := i + off_x d g in let jc := j + off_y d g in
    within [f ic jc mq; f (ic - 1) jc mq; f (ic + 1) jc mq; f ic (jc - 1) mq; f ic (jc + 1) mq] (ival i j mq ii jj).
  Proof.
    intros i j mq ii jj Hii Hjj ic jc. unfold ival. apply within_stencil.
    - assert (E : ii = 1 \/ ii = 2) by lia. destruct shift_vals. destruct E as [->| ->]; auto.
    - assert (E : jj = 1 \/ jj = 2) by lia. destruct shift_vals. destruct E as [->| ->]; auto.
  Qed.

  Lemma ival_sum : forall i j mq,
    (ival i j mq 1 1 + ival i j mq 2 1 + ival i j mq 1 2 + ival i j mq 2 2 == 4 * f (i + off_x d g)%Z (j + off_y d g)%Z mq)%Q.
  Proof. intros i j mq. unfold ival. destruct shift_vals as [-> ->]. ring. Qed.
End Interpolate.
