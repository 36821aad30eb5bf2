(** One slice: the fluxes and the increments of the routine are those of the method. *)
From Coq Require Import ZArith QArith Qminmax Qabs List Lia Lqa Bool.
From Verif Require Import Base_Float Model_Face Model_Grid Proof_Grid Proof_Tag Proof_Diag Model_Step Spec_Step Proof_Step0.
Import ListNotations.
Open Scope Z_scope.

Ltac inm := unfold a1; cbn [in_mem in1]; rewrite ?andb_true_iff, ?Z.leb_le; repeat split; lia.
Ltac sep := repeat match goal with H : _ = DTDX1 \/ _ |- _ => clear H end; intros; cbv [nowhere a1] in *; intros ?;
  repeat match goal with
  | H : _ \/ _ |- _ => destruct H
  | H : _ /\ _ |- _ => destruct H
  | H : exists _, _ |- _ => destruct H
  | H : False |- _ => destruct H
  end; subst; try congruence;
  match goal with H : (_, _) = (_, _) |- _ => injection H; intros; subst; lia end.

Section Slice.
  Variable A : arith.
  Variable d : dims.
  Variable S : solver.
  Variable ixy n : Z.
  Variable dt1 : nm.
  Hypothesis Hb : 2 <= mbc d.
  Hypothesis Hn : 1 <= n.
  Hypothesis Hmax : n <= maxm d.
  Hypothesis Hm : 0 <= meqn d.
  Hypothesis HS : options_ok S.
  Hypothesis Hdt : dt1 = DTDX1 \/ dt1 = DTDY1.

  Definition cells (i : Z) : Prop := 1 - mbc d <= i <= n + mbc d.
  Definition faces (i : Z) : Prop := 2 - mbc d <= i <= n + mbc d.

  Lemma in_dt : forall i, cells i -> in_mem d S (dt1, (i, 1, 1)) = true.
  Proof. unfold cells. intros i Hi. destruct Hdt as [-> | ->]; inm. Qed.

  (** *** initialization *)
  Definition is_add (a : nm) : bool := match a with FADDM | FADDP | GADDM | GADDP => true | _ => false end.
  Lemma init_ok : forall s, exists s', f_init d S n s = Some s' /\
    (forall a c, is_add a = false -> s' (a, c) = s (a, c)) /\
    (forall i m, cells i -> 1 <= m <= meqn d -> s' (FADDM, (i, m, 1)) = Some 0%Q /\ s' (FADDP, (i, m, 1)) = Some 0%Q /\
       forall k, 1 <= k <= 2 -> s' (GADDM, (i, m, k)) = Some 0%Q /\ s' (GADDP, (i, m, k)) = Some 0%Q).
  Proof.
    intros s. unfold cells.
    assert (H : mwrites (fun c => exists k, 1 <= k <= 2 /\ exists m, 1 <= m <= meqn d /\ exists i, 1 - mbc d <= i <= n + mbc d /\
                   (nowhere c \/ nowhere c \/ nowhere c \/ nowhere c)) s (f_init d S n)
      (fun c => exists k, 1 <= k <= 2 /\ exists m, 1 <= m <= meqn d /\ exists i, 1 - mbc d <= i <= n + mbc d /\
         (c = a1 FADDM i m \/ c = a1 FADDP i m \/ c = (GADDM, (i, m, k)) \/ c = (GADDP, (i, m, k)))) (fun _ => Some 0%Q)).
    { unfold f_init. apply mw_loop; [|sep]. intros k Hk. apply mw_loop; [|sep]. intros m Hq. apply mw_loop; [|sep]. intros i Hi.
      apply mw_seq; [apply mw_wr; [inm|reflexivity]| |sep].
      apply mw_seq; [apply mw_wr; [inm|reflexivity]| |sep].
      apply mw_seq; [apply mw_wr; [inm|reflexivity]| |sep].
      apply mw_wr; [inm|reflexivity]. }
    destruct (H s) as (s' & E & H1 & H2 & _); [reflexivity|]. exists s'. split; [exact E|]. split.
    - intros a c Ha. apply H2. intros (k & _ & m & _ & i & _ & [X|[X|[X|X]]]); inversion X; subst; discriminate Ha.
    - intros i m Hi Hq. split; [|split].
      + apply H1. exists 1. split; [lia|]. exists m. split; [lia|]. exists i. split; [lia|]. now left.
      + apply H1. exists 1. split; [lia|]. exists m. split; [lia|]. exists i. split; [lia|]. right. now left.
      + intros k Hk. split; apply H1; exists k; (split; [lia|]); exists m; (split; [lia|]); exists i; (split; [lia|]); right; right; [now left|now right].
  Qed.

  (** *** the state of a slice *)
  Variable s0 : mem.
  Definition u (i m : Z) : Q := val s0 (Q1D, (i, m, 1)).
  Definition al1 (i m : Z) : Q := val s0 (AUX1, (i, m, 1)).
  Definition al2 (i m : Z) : Q := val s0 (AUX2, (i, m, 1)).
  Definition al3 (i m : Z) : Q := val s0 (AUX3, (i, m, 1)).
  Definition rt (i : Z) : Q := val s0 (dt1, (i, 1, 1)).
  Definition is_local (a : nm) : bool :=
    match a with FADDM | FADDP | GADDM | GADDP | WAVE | SP | AMDQ | APDQ | CQXX | BMASDQ | BPASDQ => true | _ => false end.
  Hypothesis Sq : forall i m, cells i -> 1 <= m <= meqn d -> set s0 (Q1D, (i, m, 1)).
  Hypothesis S1 : forall i m, cells i -> 1 <= m <= maux S -> set s0 (AUX1, (i, m, 1)).
  Hypothesis S2 : forall i m, cells i -> 1 <= m <= maux S -> set s0 (AUX2, (i, m, 1)).
  Hypothesis S3 : forall i m, cells i -> 1 <= m <= maux S -> set s0 (AUX3, (i, m, 1)).
  Hypothesis Sr : forall i, cells i -> set s0 (dt1, (i, 1, 1)).
  Definition keeps (s : mem) : Prop := forall a c, is_local a = false -> s (a, c) = s0 (a, c).

  Local Notation RP := (at_interface S (meqn d) ixy u al2).
  Local Notation cfun := (correction A S (meqn d) ixy u al2 rt).

  Lemma not_local_dt : is_local dt1 = false.
  Proof. destruct Hdt as [-> | ->]; reflexivity. Qed.

  (** *** the normal Riemann problems *)
  Definition after_rpn (s : mem) : Prop :=
    forall i m, faces i -> 1 <= m <= meqn d ->
      s (AMDQ, (i, m, 1)) = Some (r_amdq (RP i) m) /\ s (APDQ, (i, m, 1)) = Some (r_apdq (RP i) m) /\
      forall mw, 1 <= mw <= mwaves S -> s (WAVE, (i, m, mw)) = Some (r_wave (RP i) m mw).
  Definition speeds (s : mem) : Prop :=
    forall i mw, faces i -> 1 <= mw <= mwaves S -> s (SP, (i, mw, 1)) = Some (r_s (RP i) mw).

  Lemma rpn_ok : forall s, keeps s -> exists s', f_rpn d S ixy n s = Some s' /\
    (forall a c, match a with WAVE | SP | AMDQ | APDQ => True | _ => s' (a, c) = s (a, c) end) /\ after_rpn s' /\ speeds s'.
  Proof.
    intros s Ks.
    assert (K1 : forall i m, cells i -> 1 <= m <= meqn d -> in_mem d S (Q1D, (i, m, 1)) = true /\ set s (Q1D, (i, m, 1))).
    { unfold cells. intros i m Hi Hq. split; [inm|]. eapply set_eq; [apply Sq; [exact Hi|exact Hq]|apply Ks; reflexivity]. }
    assert (K2 : forall i m, cells i -> 1 <= m <= maux S -> in_mem d S (AUX2, (i, m, 1)) = true /\ set s (AUX2, (i, m, 1))).
    { unfold cells. intros i m Hi Hq. split; [inm|]. eapply set_eq; [apply S2; [exact Hi|exact Hq]|apply Ks; reflexivity]. }
    assert (EQ : forall i, vec (meqn d) (fun m => val s (Q1D, (i, m, 1))) = vec (meqn d) (u i)).
    { intros i. apply vec_ext. intros k _. apply val_eq, Ks. reflexivity. }
    assert (EA : forall i, vec (maux S) (fun m => val s (AUX2, (i, m, 1))) = vec (maux S) (al2 i)).
    { intros i. apply vec_ext. intros k _. apply val_eq, Ks. reflexivity. }
    unfold cells in *.
    set (V := fun a : addr => match a with
      | (WAVE, (i, m, mw)) => Some (r_wave (RP i) m mw) | (SP, (i, mw, _)) => Some (r_s (RP i) mw)
      | (AMDQ, (i, m, _)) => Some (r_amdq (RP i) m) | (APDQ, (i, m, _)) => Some (r_apdq (RP i) m) | _ => None end).
    set (R := fun (i : Z) (c : addr) =>
      (exists m, 1 <= m <= meqn d /\ c = (Q1D, (i - 1, m, 1))) \/ (exists m, 1 <= m <= meqn d /\ c = (Q1D, (i, m, 1))) \/
      (exists m, 1 <= m <= maux S /\ c = (AUX2, (i - 1, m, 1))) \/ (exists m, 1 <= m <= maux S /\ c = (AUX2, (i, m, 1))) \/
      ((exists m, 1 <= m <= meqn d /\ ((exists mw, 1 <= mw <= mwaves S /\ nowhere c) \/ nowhere c \/ nowhere c)) \/
       (exists mw, 1 <= mw <= mwaves S /\ nowhere c))).
    set (W := fun (i : Z) (c : addr) =>
      (exists m, 1 <= m <= meqn d /\ ((exists mw, 1 <= mw <= mwaves S /\ c = (WAVE, (i, m, mw))) \/ c = a1 AMDQ i m \/ c = a1 APDQ i m)) \/
      (exists mw, 1 <= mw <= mwaves S /\ c = a1 SP i mw)).
    assert (H : mwrites (fun c => exists i, 2 - mbc d <= i <= n + mbc d /\ R i c) s (f_rpn d S ixy n)
       (fun c => exists i, 2 - mbc d <= i <= n + mbc d /\ W i c) V).
    { unfold f_rpn. apply mw_loop; [|unfold R, W; sep]. intros i Hi. cbv beta.
      apply mw_row; [intros m Hq; apply K1; lia|]. cbv beta. apply mw_row; [intros m Hq; apply K1; lia|]. cbv beta.
      apply mw_row; [intros m Hq; apply K2; lia|]. cbv beta. apply mw_row; [intros m Hq; apply K2; lia|]. cbv beta zeta.
      rewrite !EQ, !EA. fold (RP i).
      apply mw_seq.
      - apply mw_loop; [|sep]. intros m Hq. apply mw_seq; [|apply mw_seq|sep].
        + apply mw_loop; [|sep]. intros mw Hw. apply mw_wr; [inm|reflexivity].
        + apply mw_wr; [inm|reflexivity].
        + apply mw_wr; [inm|reflexivity].
        + sep.
      - apply mw_loop; [|sep]. intros mw Hw. apply mw_wr; [inm|reflexivity].
      - sep. }
    destruct (H s) as (s' & E & H1 & H2 & _); [reflexivity|]. exists s'. split; [exact E|]. split; [|split].
    - intros a c. destruct a; try exact Logic.I; apply H2; unfold W; sep.
    - intros i m Hi Hq. unfold faces in Hi. split; [|split].
      + apply (H1 (AMDQ, (i, m, 1))). exists i. split; [exact Hi|]. left. exists m. split; [exact Hq|]. right. left. reflexivity.
      + apply (H1 (APDQ, (i, m, 1))). exists i. split; [exact Hi|]. left. exists m. split; [exact Hq|]. right. right. reflexivity.
      + intros mw Hw. apply (H1 (WAVE, (i, m, mw))). exists i. split; [exact Hi|]. left. exists m. split; [exact Hq|]. left. exists mw. split; [exact Hw|reflexivity].
    - intros i mw Hi Hw. apply (H1 (SP, (i, mw, 1))). exists i. split; [exact Hi|]. right. exists mw. split; [exact Hw|reflexivity].
  Qed.

  Lemma lo_hi : 2 - mbc d <= lo d S <= 1 /\ n + 1 <= hi1 d S n <= hi d S n /\ hi d S n <= n + mbc d.
  Proof. unfold lo, hi, hi1. destruct (use_fwaves S); lia. Qed.

  (** *** the fluctuations *)
  Lemma godunov_ok : forall s, after_rpn s ->
    (forall i m, cells i -> 1 <= m <= meqn d -> s (FADDM, (i, m, 1)) = Some 0%Q /\ s (FADDP, (i, m, 1)) = Some 0%Q) ->
    exists s', f_godunov A d S n s = Some s' /\
      (forall a c, a <> FADDM -> a <> FADDP -> s' (a, c) = s (a, c)) /\
      (forall i m, cells i -> 1 <= m <= meqn d -> set s' (FADDM, (i, m, 1)) /\ set s' (FADDP, (i, m, 1)) /\
         (1 <= i <= n + 1 -> s' (FADDM, (i, m, 1)) = Some (add A 0 (r_amdq (RP i) m)) /\ s' (FADDP, (i, m, 1)) = Some (sub A 0 (r_apdq (RP i) m)))).
  Proof.
    intros s HR H0. pose proof lo_hi as (L1 & L2 & L3). unfold cells in *.
    set (V := fun a : addr => match a with
      | (FADDM, (i, m, _)) => Some (add A 0 (r_amdq (RP i) m)) | (FADDP, (i, m, _)) => Some (sub A 0 (r_apdq (RP i) m)) | _ => None end).
    assert (H : mwrites (fun c => exists i, lo d S <= i <= hi1 d S n /\ exists m, 1 <= m <= meqn d /\
          (c = a1 APDQ i m \/ c = a1 AMDQ i m \/ ((c = a1 FADDP i m \/ nowhere c) \/ (c = a1 FADDM i m \/ nowhere c)))) s (f_godunov A d S n)
       (fun c => exists i, lo d S <= i <= hi1 d S n /\ exists m, 1 <= m <= meqn d /\ (c = a1 FADDP i m \/ c = a1 FADDM i m)) V).
    { unfold f_godunov. apply mw_loop; [|sep]. intros i Hi. apply mw_loop; [|sep]. intros m Hq. cbv beta.
      destruct (HR i m ltac:(unfold faces; lia) Hq) as (E1 & E2 & _). destruct (H0 i m ltac:(lia) Hq) as (F1 & F2).
      apply mw_read; [inm|exact (set_some _ _ _ E2)|]. apply mw_read; [inm|exact (set_some _ _ _ E1)|].
      apply mw_seq; [apply mw_dec|apply mw_inc|sep]; try inm; try exact (set_some _ _ _ F1); try exact (set_some _ _ _ F2).
      - unfold a1. rewrite (val_some _ _ _ F2), (val_some _ _ _ E2). reflexivity.
      - unfold a1. rewrite (val_some _ _ _ F1), (val_some _ _ _ E1). reflexivity. }
    destruct (H s) as (s' & E & H1 & H2 & H3); [reflexivity|]. exists s'. split; [exact E|]. split.
    - intros a c N1 N2. apply H2. sep.
    - intros i m Hi Hq. destruct (H0 i m Hi Hq) as (F1 & F2). split; [|split].
      + destruct (H3 (FADDM, (i, m, 1))) as [X|X]; [exact (set_some _ _ _ X)|]. rewrite F1 in X. exact (set_some _ _ _ X).
      + destruct (H3 (FADDP, (i, m, 1))) as [X|X]; [exact (set_some _ _ _ X)|]. rewrite F2 in X. exact (set_some _ _ _ X).
      + intros Hj. split.
        * apply (H1 (FADDM, (i, m, 1))). exists i. split; [lia|]. exists m. split; [exact Hq|]. right. reflexivity.
        * apply (H1 (FADDP, (i, m, 1))). exists i. split; [lia|]. exists m. split; [exact Hq|]. left. reflexivity.
  Qed.

  (** *** the Courant number *)
  Definition courant (x : Q) : Prop := exists mw, 1 <= mw <= mwaves S /\ exists i, 1 <= i <= n + 1 /\
    (x = mul A (rt i) (speed S (meqn d) ixy u al2 i mw) \/ x = mul A (- rt (i - 1)) (speed S (meqn d) ixy u al2 i mw)).
  Lemma cfl_ok : forall s, keeps s -> speeds s -> exists c, f_cfl A d S n dt1 s = Some c /\ lub courant 0 c.
  Proof.
    intros s Ks Hs. pose proof not_local_dt as ND. unfold f_cfl.
    assert (Hw : 0 <= mwaves S) by apply HS.
    match goal with |- context [loop 1 (mwaves S) ?g _] => destruct (loop_lub (fun x : Q => x) (fun _ => True) g 1 (mwaves S)
      (fun mw x => exists i, 1 <= i <= n + 1 /\ (x = mul A (rt i) (speed S (meqn d) ixy u al2 i mw) \/ x = mul A (- rt (i - 1)) (speed S (meqn d) ixy u al2 i mw))) ltac:(lia))
      with (s := 0%Q) as (c & E & _ & L) end.
    - intros mw x Hmw _.
      match goal with |- context [loop 1 (n + 1) ?g _] => destruct (loop_lub (fun x : Q => x) (fun _ => True) g 1 (n + 1)
        (fun i x => x = mul A (rt i) (speed S (meqn d) ixy u al2 i mw) \/ x = mul A (- rt (i - 1)) (speed S (meqn d) ixy u al2 i mw)) ltac:(lia))
        with (s := x) as (c & E & _ & L) end; [|exact Logic.I|exists c; split; [exact E|split; [exact Logic.I|exact L]]].
      intros i y Hi _.
      rewrite (rdm_some d S s (a1 dt1 i 1) (rt i)); [|apply in_dt; unfold cells; lia|unfold a1; rewrite Ks by exact ND; apply Sr; unfold cells; lia].
      rewrite (rdm_some d S s (a1 dt1 (i - 1) 1) (rt (i - 1))); [|apply in_dt; unfold cells; lia|unfold a1; rewrite Ks by exact ND; apply Sr; unfold cells; lia].
      rewrite (rdm_some d S s (a1 SP i mw) (speed S (meqn d) ixy u al2 i mw)); [|inm|apply Hs; [unfold faces; lia|exact Hmw]].
      cbn [bind]. eexists. split; [reflexivity|]. split; [exact Logic.I|].
      set (p := mul A (rt i) _). set (q := mul A (- rt (i - 1)) _). split; [|split].
      + eapply Qle_trans; [|apply Q.le_max_l]. apply Q.le_max_l.
      + intros v [-> | ->]; [|apply Q.le_max_r]. eapply Qle_trans; [|apply Q.le_max_l]. apply Q.le_max_r.
      + destruct (Q.max_spec (Qmax y p) q) as [[_ M]|[_ M]]; [right; exists q; split; [now right|exact M]|].
        destruct (Q.max_spec y p) as [[_ M2]|[_ M2]]; [right; exists p; split; [now left|now rewrite M]|left; now rewrite M].
    - exact Logic.I.
    - exists c. split; [exact E|exact L].
  Qed.

  (** *** the limiter *)
  Local Notation lim := (limited A S (meqn d) ixy u al2).
  Local Notation wv := (wave S (meqn d) ixy u al2).
  Local Notation nrm := (norm2 A S (meqn d) ixy u al2).
  Local Notation dotp := (dot A S (meqn d) ixy u al2).

  Lemma fold_pair : forall (f g : Z -> Q) l a b,
    fold_left (fun '(x, y) k => (add A x (f k), add A y (g k))) l (a, b) =
    (fold_left (fun x k => add A x (f k)) l a, fold_left (fun x k => add A x (g k)) l b).
  Proof. intros f g l. induction l as [|k l IH]; intros a b; [reflexivity|]. cbn [fold_left]. apply IH. Qed.
  Lemma dots_ok : forall s i mw, 0 <= i <= n + 1 -> 1 <= mw <= mwaves S ->
    (forall i' m, i <= i' <= i + 1 -> 1 <= m <= meqn d -> s (WAVE, (i', m, mw)) = Some (wv i' mw m)) ->
    dots A d S i mw s = Some (nrm i mw, dotp i mw).
  Proof.
    intros s i mw Hi Hw H. unfold dots.
    rewrite (loop_fold _ (fun '(x, y) m => (add A x (mul A (wv i mw m) (wv i mw m)), add A y (mul A (wv i mw m) (wv (i + 1) mw m)))) (meqn d) Hm).
    - rewrite fold_pair. reflexivity.
    - intros m [x y] Hq. rewrite (rdm_some d S s _ (wv i mw m)); [|inm|apply H; [lia|exact Hq]].
      rewrite (rdm_some d S s _ (wv (i + 1) mw m)); [|inm|apply H; [lia|exact Hq]]. reflexivity.
  Qed.
  Lemma philim_ok : forall l r, 1 <= l <= 6 -> philim A l r = limiter A l r.
  Proof.
    intros l r Hl. assert (E : l = 1 \/ l = 2 \/ l = 3 \/ l = 4 \/ l = 5 \/ l = 6) by lia.
    destruct E as [->|[->|[->|[->|[->| ->]]]]]; reflexivity.
  Qed.
  (** one family of waves, interfaces up to [k] done *)
  Definition part_done (mw k : Z) (s1 s : mem) : Prop :=
    (forall a, match a with (WAVE, (i, m, w)) => ~ (1 <= i < k /\ w = mw /\ 1 <= m <= meqn d) | _ => True end -> s a = s1 a) /\
    (forall i m, 1 <= i < k -> 1 <= m <= meqn d -> s (WAVE, (i, m, mw)) = Some (lim i mw m)).
  Lemma family_ok : forall mw s1, 1 <= mw <= mwaves S -> mthlim S mw <> 0 -> speeds s1 ->
    (forall i m, faces i -> 1 <= m <= meqn d -> s1 (WAVE, (i, m, mw)) = Some (wv i mw m)) ->
    exists s x, loop 0 (n + 1) (fun i => limit1 A d S mw i) (s1, 0%Q) = Some (s, x) /\ part_done mw (n + 2) s1 s.
  Proof.
    intros mw s1 Hw Hl Hsp H1.
    destruct (loop_ok _ 0 (n + 1) (fun i => limit1 A d S mw i) (fun k '(s, x) => part_done mw k s1 s /\ (k = 0 \/ x = dotp (k - 1) mw))) with (s := (s1, 0%Q)) as ([s x] & E & P & _).
    - lia.
    - intros i [s x] Hi [[P1 P2] X]. unfold limit1.
      assert (Wh : forall i' m, i <= i' <= i + 1 -> 1 <= m <= meqn d -> s (WAVE, (i', m, mw)) = Some (wv i' mw m)).
      { intros i' m Hi' Hq. rewrite P1 by lia. apply H1; [unfold faces; lia|exact Hq]. }
      rewrite (dots_ok s i mw Hi Hw Wh). cbn [bind].
      destruct (Z.eqb_spec i 0) as [->|Ni].
      { eexists. split; [reflexivity|]. split; [|right; f_equal; lia]. split.
        - intros [a [[i' m'] w']] Ha. apply P1. destruct a; try exact Logic.I. lia.
        - intros i' m Hi' _. lia. }
      destruct (Qeq_bool (nrm i mw) 0) eqn:EN.
      { eexists. split; [reflexivity|]. split; [|right; f_equal; lia]. split.
        - intros [a [[i' m'] w']] Ha. apply P1. destruct a; try exact Logic.I. lia.
        - intros i' m Hi' Hq. destruct (Z.eq_dec i' i) as [->|]; [|apply P2; lia]. rewrite (Wh i m ltac:(lia) Hq). unfold limited. rewrite EN, orb_true_r. reflexivity. }
      rewrite (rdm_some d S s _ (speed S (meqn d) ixy u al2 i mw)); [|inm|rewrite P1 by exact Logic.I; apply Hsp; [unfold faces; lia|exact Hw]].
      cbn [bind]. destruct X as [X|X]; [lia|]. subst x.
      set (wl := philim A _ _).
      assert (EL : forall m, lim i mw m = mul A wl (wv i mw m)).
      { intros m. unfold limited. rewrite (proj2 (Z.eqb_neq _ _) Hl), EN. cbn [orb]. unfold wl.
        assert (B : 0 <= mthlim S mw <= 6) by (apply HS; exact Hw). rewrite philim_ok by lia. destruct (Qle_bool _ 0); reflexivity. }
      destruct (loop_ok _ 1 (meqn d) (fun m t => bind (rdm d S t (WAVE, (i, m, mw))) (fun w => wrm d S (WAVE, (i, m, mw)) (mul A wl w) t))
        (fun k t => (forall a, match a with (WAVE, (i', m', w')) => ~ (i' = i /\ w' = mw /\ 1 <= m' < k) | _ => True end -> t a = s a) /\
           forall m, 1 <= m < k -> t (WAVE, (i, m, mw)) = Some (lim i mw m))) with (s := s) as (s2 & E2 & Q1 & Q2).
      + lia.
      + intros m t Hq [T1 T2]. rewrite (rdm_some d S t _ (wv i mw m)); [|inm|rewrite T1 by lia; apply Wh; [lia|exact Hq]].
        cbn [bind]. assert (IM : in_mem d S (WAVE, (i, m, mw)) = true) by inm. unfold wrm. rewrite IM.
        eexists. split; [reflexivity|]. cbv beta. split.
        * intros a Ha. destruct (addr_eqb_spec a (WAVE, (i, m, mw))) as [->|Na]; [lia|]. apply T1. destruct a as [a [[i' m'] w']]. destruct a; try exact Logic.I.
          intros (-> & -> & Hm'). destruct (Z.eq_dec m' m) as [->|]; [now apply Na|]. apply Ha. lia.
        * intros m' Hm'. destruct (addr_eqb_spec (WAVE, (i, m', mw)) (WAVE, (i, m, mw))) as [Ea|Na].
          -- injection Ea as ->. now rewrite EL.
          -- apply T2. destruct (Z.eq_dec m' m) as [->|]; [now destruct Na|lia].
      + split; [reflexivity|]. intros m Hq. lia.
      + rewrite E2. cbn [bind]. eexists. split; [reflexivity|]. split; [|right; f_equal; lia]. split.
        * intros a Ha. rewrite Q1; [apply P1|]; destruct a as [a [[i' m'] w']]; destruct a; try exact Logic.I; lia.
        * intros i' m Hi' Hq. destruct (Z.eq_dec i' i) as [->|]; [apply Q2; lia|]. rewrite Q1 by lia. apply P2; lia.
    - split; [|now left]. split; [reflexivity|]. intros i m Hi. lia.
    - exists s, x. split; [exact E|]. replace (n + 2) with (n + 1 + 1) by lia. exact P.
  Qed.

  Definition waves_ok (s : mem) : Prop :=
    forall i m mw, faces i -> 1 <= m <= meqn d -> 1 <= mw <= mwaves S ->
      set s (WAVE, (i, m, mw)) /\ (1 <= i <= n + 1 -> s (WAVE, (i, m, mw)) = Some (lim i mw m)).
  Lemma limiter_ok : forall s, after_rpn s -> speeds s -> exists s', cond (limit S) (inlinelimiter A d S n) s = Some s' /\
    (forall a c, a <> WAVE -> s' (a, c) = s (a, c)) /\ waves_ok s'.
  Proof.
    intros s HR Hsp. assert (Hw0 : 0 <= mwaves S) by apply HS. unfold cond. destruct (limit S) eqn:EL.
    - unfold inlinelimiter.
      destruct (loop_ok _ 1 (mwaves S) (fun mw s => if mthlim S mw =? 0 then Some s else option_map fst (loop 0 (n + 1) (fun i => limit1 A d S mw i) (s, 0%Q)))
        (fun k t => (forall a c, a <> WAVE -> t (a, c) = s (a, c)) /\
           (forall i m mw, faces i -> 1 <= m <= meqn d -> 1 <= mw <= mwaves S ->
              set t (WAVE, (i, m, mw)) /\ (k <= mw -> t (WAVE, (i, m, mw)) = Some (wv i mw m)) /\
              (mw < k -> 1 <= i <= n + 1 -> t (WAVE, (i, m, mw)) = Some (lim i mw m))))) with (s := s) as (s' & E & P1 & P2).
      + lia.
      + intros mw t Hw [T1 T2]. destruct (Z.eqb_spec (mthlim S mw) 0) as [E0|N0].
        * exists t. split; [reflexivity|]. split; [exact T1|]. intros i m mw' Hi Hq Hw'. destruct (T2 i m mw' Hi Hq Hw') as (A1 & A2 & A3).
          split; [exact A1|]. split; [intros; apply A2; lia|]. intros Hk Hj. destruct (Z.eq_dec mw' mw) as [->|]; [|apply A3; lia].
          rewrite A2 by lia. unfold limited. rewrite E0. reflexivity.
        * destruct (family_ok mw t Hw N0) as (t' & x & E & [Q1 Q2]).
          -- intros i w Hi Hw'. rewrite T1 by discriminate. now apply Hsp.
          -- intros i m Hi Hq. apply (T2 i m mw Hi Hq Hw). lia.
          -- exists t'. split; [rewrite E; reflexivity|]. split.
             ++ intros a c Ha. rewrite Q1; [now apply T1|]. destruct a; try exact Logic.I. congruence.
             ++ intros i m mw' Hi Hq Hw'. destruct (T2 i m mw' Hi Hq Hw') as (A1 & A2 & A3).
                destruct (Z.eq_dec mw' mw) as [->|Nw].
                ** destruct (Z_le_gt_dec 1 i), (Z_le_gt_dec i (n + 1)).
                   { pose proof (Q2 i m ltac:(lia) Hq) as X. split; [exact (set_some _ _ _ X)|]. split; [lia|]. intros _ _. exact X. }
                   all: split; [apply (set_eq t); [exact A1|apply Q1; lia]|split; lia].
                ** assert (X : t' (WAVE, (i, m, mw')) = t (WAVE, (i, m, mw'))) by (apply Q1; lia).
                   split; [now apply (set_eq t)|]. rewrite X. split; [intros; apply A2; lia|intros; apply A3; lia].
      + split; [reflexivity|]. intros i m mw Hi Hq Hw. destruct (HR i m Hi Hq) as (_ & _ & X). split; [exact (set_some _ _ _ (X mw Hw))|].
        split; [intros _; exact (X mw Hw)|lia].
      + exists s'. split; [exact E|]. split; [exact P1|]. intros i m mw Hi Hq Hw. destruct (P2 i m mw Hi Hq Hw) as (A1 & _ & A3).
        split; [exact A1|]. apply A3. lia.
    - exists s. split; [reflexivity|]. split; [reflexivity|]. intros i m mw Hi Hq Hw. destruct (HR i m Hi Hq) as (_ & _ & X).
      split; [exact (set_some _ _ _ (X mw Hw))|]. intros _. rewrite (X mw Hw). unfold limited.
      assert (E0 : mthlim S mw = 0).
      { unfold limit in EL. destruct (Z.eq_dec (mthlim S mw) 0) as [E0|N0]; [exact E0|exfalso].
        assert (B : 0 <= mthlim S mw <= 6) by (apply HS; exact Hw).
        assert (T : existsb (fun mw => 0 <? mthlim S mw) (zrange 1 (mwaves S)) = true); [|congruence].
        apply existsb_exists. exists mw. split; [now apply in_zrange|]. apply Z.ltb_lt. lia. }
      rewrite E0. reflexivity.
  Qed.

  (** *** second order corrections *)
  Lemma wrm_some : forall a v s, in_mem d S a = true -> exists s', wrm d S a v s = Some s' /\ s' a = Some v /\ forall c, c <> a -> s' c = s c.
  Proof.
    intros a v s Hi. unfold wrm. rewrite Hi. eexists. split; [reflexivity|]. split.
    - destruct (addr_eqb_spec a a); congruence.
    - intros c Hc. destruct (addr_eqb_spec c a); congruence.
  Qed.
  Definition term (ave sp w : Q) : Q :=
    mul A (mul A (if use_fwaves S then dsign sp else Qabs sp) (sub A 1 (mul A (Qabs sp) ave))) w.
  Definition cq (s : mem) (i m : Z) (ave : Q) : Q := total_of A (mwaves S) (fun mw => term ave (val s (SP, (i, mw, 1))) (val s (WAVE, (i, m, mw)))).
  Lemma cq1_w : forall s i m ave V, faces i -> 1 <= m <= meqn d ->
    (forall mw, 1 <= mw <= mwaves S -> set s (SP, (i, mw, 1)) /\ set s (WAVE, (i, m, mw))) ->
    set s (FADDM, (i, m, 1)) -> set s (FADDP, (i, m, 1)) ->
    V (CQXX, (i, m, 1)) = Some (cq s i m ave) ->
    V (FADDM, (i, m, 1)) = Some (add A (val s (FADDM, (i, m, 1))) (mul A (1 # 2) (cq s i m ave))) ->
    V (FADDP, (i, m, 1)) = Some (add A (val s (FADDP, (i, m, 1))) (mul A (1 # 2) (cq s i m ave))) ->
    mwrites (fun c => (exists mw, 1 <= mw <= mwaves S /\ (c = (SP, (i, mw, 1)) \/ c = (WAVE, (i, m, mw)))) \/ c = a1 FADDM i m \/ c = a1 FADDP i m) s
      (f_cq1 A d S i m ave) (fun c => c = a1 CQXX i m \/ c = a1 FADDM i m \/ c = a1 FADDP i m) V.
  Proof.
    unfold faces. intros s i m ave V Hi Hq HW HF1 HF2 V1 V2 V3 t Ht. assert (Hw0 : 0 <= mwaves S) by apply HS.
    unfold f_cq1, sq. destruct (wrm_some (a1 CQXX i m) 0 t ltac:(inm)) as (t1 & E1 & X1 & Y1). rewrite E1. cbn [bind].
    destruct (loop_ok _ 1 (mwaves S) (fun mw s => bind (rdm d S s (a1 SP i mw)) (fun sp => bind (rdm d S s (WAVE, (i, m, mw))) (fun w =>
        incm A d S (a1 CQXX i m) (mul A (mul A (if use_fwaves S then dsign sp else Qabs sp) (sub A 1 (mul A (Qabs sp) ave))) w) s)))
      (fun k t' => (forall c, c <> a1 CQXX i m -> t' c = t c) /\
         t' (a1 CQXX i m) = Some (fold_left (fun x mw => add A x (term ave (val s (SP, (i, mw, 1))) (val s (WAVE, (i, m, mw))))) (zrange 1 (k - 1)) 0%Q)))
      with (s := t1) as (t2 & E2 & Y2 & X2).
    - lia.
    - intros mw t' Hw [Y X]. destruct (HW mw Hw) as [Z1 Z2].
      rewrite (rdm_some d S t' (a1 SP i mw) (val s (SP, (i, mw, 1)))).
      2: inm. 2: { rewrite Y by discriminate. rewrite Ht by (left; exists mw; split; [exact Hw|now left]). exact Z1. }
      rewrite (rdm_some d S t' (WAVE, (i, m, mw)) (val s (WAVE, (i, m, mw)))).
      2: inm. 2: { rewrite Y by discriminate. rewrite Ht by (left; exists mw; split; [exact Hw|now right]). exact Z2. }
      cbn [bind]. fold (term ave (val s (SP, (i, mw, 1))) (val s (WAVE, (i, m, mw)))). unfold incm. rewrite (rdm_some d S t' (a1 CQXX i m) _ ltac:(inm) X). cbn [bind].
      destruct (wrm_some (a1 CQXX i m) (add A (fold_left (fun x mw => add A x (term ave (val s (SP, (i, mw, 1))) (val s (WAVE, (i, m, mw))))) (zrange 1 (mw - 1)) 0%Q)
         (term ave (val s (SP, (i, mw, 1))) (val s (WAVE, (i, m, mw))))) t' ltac:(inm)) as (t3 & E3 & X3 & Y3).
      exists t3. split; [exact E3|]. split; [intros c Hc; rewrite Y3 by exact Hc; now apply Y|]. rewrite X3. f_equal.
      replace (mw + 1 - 1) with (mw - 1 + 1) by lia. rewrite zrange_snoc, fold_left_app by lia. cbn [fold_left]. now replace (mw - 1 + 1) with mw by lia.
    - split; [intros c Hc; now apply Y1|]. exact X1.
    - replace (mwaves S + 1 - 1) with (mwaves S) in X2 by lia. change (t2 (a1 CQXX i m) = Some (cq s i m ave)) in X2.
      rewrite E2. cbn [bind]. rewrite (rdm_some d S t2 (a1 CQXX i m) _ ltac:(inm) X2). cbn [bind].
      unfold incm at 1. rewrite (rdm_some d S t2 (a1 FADDM i m) (val s (FADDM, (i, m, 1)))).
      2: inm. 2: { rewrite Y2 by discriminate. rewrite Ht by (right; now left). exact HF1. }
      cbn [bind]. destruct (wrm_some (a1 FADDM i m) (add A (val s (FADDM, (i, m, 1))) (mul A (1 # 2) (cq s i m ave))) t2 ltac:(inm)) as (t3 & E3 & X3 & Y3).
      rewrite E3. cbn [bind]. unfold incm. rewrite (rdm_some d S t3 (a1 FADDP i m) (val s (FADDP, (i, m, 1)))).
      2: inm. 2: { rewrite Y3, Y2 by discriminate. rewrite Ht by (right; now right). exact HF2. }
      cbn [bind]. destruct (wrm_some (a1 FADDP i m) (add A (val s (FADDP, (i, m, 1))) (mul A (1 # 2) (cq s i m ave))) t3 ltac:(inm)) as (t4 & E4 & X4 & Y4).
      exists t4. split; [exact E4|].
      assert (C1 : t4 (a1 CQXX i m) = V (a1 CQXX i m)) by (rewrite Y4, Y3 by discriminate; unfold a1 at 2; now rewrite V1).
      assert (C2 : t4 (a1 FADDM i m) = V (a1 FADDM i m)) by (rewrite Y4 by discriminate; rewrite X3; symmetry; exact V2).
      assert (C3 : t4 (a1 FADDP i m) = V (a1 FADDP i m)) by (rewrite X4; symmetry; exact V3).
      assert (C4 : forall c, ~ (c = a1 CQXX i m \/ c = a1 FADDM i m \/ c = a1 FADDP i m) -> t4 c = t c).
      { intros c Hc. rewrite Y4, Y3, Y2 by tauto. reflexivity. }
      split; [intros c [->|[->| ->]]; assumption|]. split; [exact C4|]. intros c.
      destruct (addr_eqb_spec c (a1 CQXX i m)) as [->|N1]; [now left|]. destruct (addr_eqb_spec c (a1 FADDM i m)) as [->|N2]; [now left|].
      destruct (addr_eqb_spec c (a1 FADDP i m)) as [->|N3]; [now left|]. right. apply C4. tauto.
  Qed.

  Definition fadd_ok (s : mem) (f g : Z -> Z -> Q) : Prop :=
    forall i m, cells i -> 1 <= m <= meqn d -> set s (FADDM, (i, m, 1)) /\ set s (FADDP, (i, m, 1)) /\
      (1 <= i <= n + 1 -> s (FADDM, (i, m, 1)) = Some (f i m) /\ s (FADDP, (i, m, 1)) = Some (g i m)).
  Definition cqxx_ok (s : mem) : Prop :=
    forall i m, lo d S <= i <= hi d S n -> 1 <= m <= meqn d -> set s (CQXX, (i, m, 1)) /\ (1 <= i <= n + 1 -> s (CQXX, (i, m, 1)) = Some (cfun i m)).
  Lemma correct_ok : forall s f g, keeps s -> after_rpn s -> speeds s -> fadd_ok s f g -> exists s', f_correct A d S n dt1 s = Some s' /\
    (forall a c, match a with WAVE | CQXX | FADDM | FADDP => True | _ => s' (a, c) = s (a, c) end) /\ cqxx_ok s' /\
    fadd_ok s' (fun i m => add A (f i m) (mul A (1 # 2) (cfun i m))) (fun i m => add A (g i m) (mul A (1 # 2) (cfun i m))).
  Proof.
    intros s f g Ks HR Hsp HF. pose proof lo_hi as (L1 & L2 & L3). pose proof not_local_dt as ND.
    destruct (limiter_ok s HR Hsp) as (s1 & E1 & Y1 & W1).
    assert (ave : forall i, cells i -> set s1 (a1 dt1 i 1) /\ val s1 (a1 dt1 i 1) = rt i).
    { intros i Hi. assert (X : s1 (a1 dt1 i 1) = s0 (dt1, (i, 1, 1))).
      { unfold a1. rewrite Y1; [now apply Ks|]. destruct Hdt as [-> | ->]; discriminate. }
      split; [|exact (val_eq _ _ _ X)]. apply (set_eq s0 s1 (dt1, (i, 1, 1))); [now apply Sr|exact X]. }
    assert (Sp1 : forall i mw, faces i -> 1 <= mw <= mwaves S -> s1 (SP, (i, mw, 1)) = Some (r_s (RP i) mw)) by (intros; rewrite Y1 by discriminate; now apply Hsp).
    assert (F1 : fadd_ok s1 f g).
    { intros i m Hi Hq. destruct (HF i m Hi Hq) as (A1 & A2 & A3). rewrite !Y1 by discriminate.
      split; [apply (set_eq s); [exact A1|apply Y1; discriminate]|]. split; [apply (set_eq s); [exact A2|apply Y1; discriminate]|exact A3]. }
    set (av := fun i => mul A (1 # 2) (add A (rt (i - 1)) (rt i))).
    set (V := fun a : addr => match a with
      | (CQXX, (i, m, _)) => Some (cq s1 i m (av i))
      | (FADDM, (i, m, _)) => Some (add A (val s1 (FADDM, (i, m, 1))) (mul A (1 # 2) (cq s1 i m (av i))))
      | (FADDP, (i, m, _)) => Some (add A (val s1 (FADDP, (i, m, 1))) (mul A (1 # 2) (cq s1 i m (av i)))) | _ => None end).
    assert (H : mwrites (fun c => exists i, lo d S <= i <= hi d S n /\ (c = a1 dt1 (i - 1) 1 \/ c = a1 dt1 i 1 \/
         (exists m, 1 <= m <= meqn d /\ ((exists mw, 1 <= mw <= mwaves S /\ (c = (SP, (i, mw, 1)) \/ c = (WAVE, (i, m, mw)))) \/ c = a1 FADDM i m \/ c = a1 FADDP i m)))) s1
      (loop (lo d S) (hi d S n) (fun i s => bind (rdm d S s (a1 dt1 (i - 1) 1)) (fun dm => bind (rdm d S s (a1 dt1 i 1)) (fun di =>
         loop 1 (meqn d) (fun m => f_cq1 A d S i m (mul A (1 # 2) (add A dm di))) s))))
      (fun c => exists i, lo d S <= i <= hi d S n /\ (exists m, 1 <= m <= meqn d /\ (c = a1 CQXX i m \/ c = a1 FADDM i m \/ c = a1 FADDP i m))) V).
    { apply mw_loop.
      - intros i Hi. destruct (ave (i - 1) ltac:(unfold cells; lia)) as [B1 B2]. destruct (ave i ltac:(unfold cells; lia)) as [B3 B4].
        apply mw_read; [apply in_dt; unfold cells; lia|exact B1|]. apply mw_read; [apply in_dt; unfold cells; lia|exact B3|]. rewrite B2, B4. fold (av i).
        apply mw_loop; [|sep]. intros m Hq. destruct (F1 i m ltac:(unfold cells; lia) Hq) as (C1 & C2 & _).
        apply cq1_w; [unfold faces; lia|exact Hq| |exact C1|exact C2|reflexivity|reflexivity|reflexivity].
        intros mw Hw. split; [exact (set_some _ _ _ (Sp1 i mw ltac:(unfold faces; lia) Hw))|apply W1; [unfold faces; lia|exact Hq|exact Hw]].
      - destruct Hdt as [-> | ->]; sep. }
    destruct (H s1) as (s' & E & H1 & H2 & H3); [reflexivity|]. exists s'. split; [unfold f_correct, sq; rewrite E1; exact E|].
    assert (CQ : forall i m, 1 <= i <= n + 1 -> 1 <= m <= meqn d -> cq s1 i m (av i) = cfun i m).
    { intros i m Hi Hq. unfold cq, correction. apply total_ext. intros mw Hw.
      rewrite (val_some _ _ _ (Sp1 i mw ltac:(unfold faces; lia) Hw)).
      destruct (W1 i m mw ltac:(unfold faces; lia) Hq Hw) as [_ X]. rewrite (val_some _ _ _ (X Hi)). reflexivity. }
    split; [|split].
    - intros a c. destruct a; try exact Logic.I; (rewrite H2; [apply Y1; discriminate|sep]).
    - intros i m Hi Hq. assert (X : s' (CQXX, (i, m, 1)) = Some (cq s1 i m (av i))).
      { apply (H1 (CQXX, (i, m, 1))). exists i. split; [exact Hi|]. exists m. split; [exact Hq|]. now left. }
      split; [exact (set_some _ _ _ X)|]. intros Hj. rewrite X, (CQ i m Hj Hq). reflexivity.
    - intros i m Hi Hq. destruct (F1 i m Hi Hq) as (C1 & C2 & C3). split; [|split].
      + destruct (H3 (FADDM, (i, m, 1))) as [X|X]; [exact (set_some _ _ _ X)|now apply (set_eq s1)].
      + destruct (H3 (FADDP, (i, m, 1))) as [X|X]; [exact (set_some _ _ _ X)|now apply (set_eq s1)].
      + intros Hj. destruct (C3 Hj) as [D1 D2]. rewrite <- (CQ i m Hj Hq). split.
        * rewrite (H1 (FADDM, (i, m, 1))); [|exists i; split; [lia|]; exists m; split; [exact Hq|]; right; now left]. cbn [V]. now rewrite (val_some _ _ _ D1).
        * rewrite (H1 (FADDP, (i, m, 1))); [|exists i; split; [lia|]; exists m; split; [exact Hq|]; right; now right]. cbn [V]. now rewrite (val_some _ _ _ D2).
  Qed.

  (** *** transverse propagation *)
  Definition fluct_ok (s : mem) (f g : Z -> Z -> Q) : Prop :=
    forall i m, faces i -> 1 <= m <= meqn d -> set s (AMDQ, (i, m, 1)) /\ set s (APDQ, (i, m, 1)) /\
      (1 <= i <= n + 1 -> s (AMDQ, (i, m, 1)) = Some (f i m) /\ s (APDQ, (i, m, 1)) = Some (g i m)).
  Lemma split_ok : forall s f g, fluct_ok s f g -> cqxx_ok s -> exists s', f_split A d S n s = Some s' /\
    (forall a c, a <> AMDQ -> a <> APDQ -> s' (a, c) = s (a, c)) /\
    fluct_ok s' (fun i m => add A (f i m) (cfun i m)) (fun i m => sub A (g i m) (cfun i m)).
  Proof.
    intros s f g HF HC. pose proof lo_hi as (L1 & L2 & L3).
    set (V := fun a : addr => match a with
      | (AMDQ, (i, m, _)) => Some (add A (val s (AMDQ, (i, m, 1))) (val s (CQXX, (i, m, 1))))
      | (APDQ, (i, m, _)) => Some (sub A (val s (APDQ, (i, m, 1))) (val s (CQXX, (i, m, 1)))) | _ => None end).
    assert (H : mwrites (fun c => exists i, lo d S <= i <= hi1 d S n /\ (exists m, 1 <= m <= meqn d /\
         (c = a1 CQXX i m \/ ((c = a1 AMDQ i m \/ nowhere c) \/ (c = a1 APDQ i m \/ nowhere c))))) s (f_split A d S n)
      (fun c => exists i, lo d S <= i <= hi1 d S n /\ (exists m, 1 <= m <= meqn d /\ (c = a1 AMDQ i m \/ c = a1 APDQ i m))) V).
    { apply mw_loop; [|sep]. intros i Hi. apply mw_loop; [|sep]. intros m Hq. destruct (HF i m ltac:(unfold faces; lia) Hq) as (C1 & C2 & _).
      destruct (HC i m ltac:(lia) Hq) as (C3 & _).
      apply mw_read; [inm|exact C3|]. apply mw_seq; [apply mw_inc|apply mw_dec|sep]; try inm; try assumption; reflexivity. }
    destruct (H s) as (s' & E & H1 & H2 & H3); [reflexivity|]. exists s'. split; [exact E|]. split.
    - intros a c N1 N2. apply H2. sep.
    - intros i m Hi Hq. destruct (HF i m Hi Hq) as (C1 & C2 & C3). split; [|split].
      + destruct (H3 (AMDQ, (i, m, 1))) as [X|X]; [exact (set_some _ _ _ X)|now apply (set_eq s)].
      + destruct (H3 (APDQ, (i, m, 1))) as [X|X]; [exact (set_some _ _ _ X)|now apply (set_eq s)].
      + intros Hj. destruct (C3 Hj) as [D1 D2]. destruct (HC i m ltac:(lia) Hq) as (_ & D3). specialize (D3 Hj). split.
        * rewrite (H1 (AMDQ, (i, m, 1))); [|exists i; split; [lia|]; exists m; split; [exact Hq|]; now left]. cbn [V]. now rewrite (val_some _ _ _ D1), (val_some _ _ _ D3).
        * rewrite (H1 (APDQ, (i, m, 1))); [|exists i; split; [lia|]; exists m; split; [exact Hq|]; now right]. cbn [V]. now rewrite (val_some _ _ _ D2), (val_some _ _ _ D3).
  Qed.

  Local Notation TR := (transverse S (meqn d) ixy u al1 al2 al3).
  Definition split_by (s : mem) (ilr : Z) (f : Z -> Z -> Q) : Prop :=
    forall i m, faces i -> 1 <= m <= meqn d -> set s (BMASDQ, (i, m, 1)) /\ set s (BPASDQ, (i, m, 1)) /\
      (1 <= i <= n + 1 -> s (BMASDQ, (i, m, 1)) = Some (fst (TR ilr i (f i)) m) /\ s (BPASDQ, (i, m, 1)) = Some (snd (TR ilr i (f i)) m)).
  Lemma rpt_ok : forall s ilr asdq f, keeps s -> asdq = AMDQ \/ asdq = APDQ ->
    (forall i m, faces i -> 1 <= m <= meqn d -> set s (asdq, (i, m, 1)) /\ (1 <= i <= n + 1 -> s (asdq, (i, m, 1)) = Some (f i m))) ->
    exists s', f_rpt d S ixy n ilr asdq s = Some s' /\
      (forall a c, a <> BMASDQ -> a <> BPASDQ -> s' (a, c) = s (a, c)) /\ split_by s' ilr f.
  Proof.
    intros s ilr asdq f Ks Has HF.
    assert (KQ : forall i m, cells i -> 1 <= m <= meqn d -> in_mem d S (Q1D, (i, m, 1)) = true /\ set s (Q1D, (i, m, 1))).
    { unfold cells. intros i m Hi Hq. split; [inm|]. eapply set_eq; [apply Sq; [exact Hi|exact Hq]|apply Ks; reflexivity]. }
    assert (K1 : forall i m, cells i -> 1 <= m <= maux S -> in_mem d S (AUX1, (i, m, 1)) = true /\ set s (AUX1, (i, m, 1))).
    { unfold cells. intros i m Hi Hq. split; [inm|]. eapply set_eq; [apply S1; [exact Hi|exact Hq]|apply Ks; reflexivity]. }
    assert (K2 : forall i m, cells i -> 1 <= m <= maux S -> in_mem d S (AUX2, (i, m, 1)) = true /\ set s (AUX2, (i, m, 1))).
    { unfold cells. intros i m Hi Hq. split; [inm|]. eapply set_eq; [apply S2; [exact Hi|exact Hq]|apply Ks; reflexivity]. }
    assert (K3 : forall i m, cells i -> 1 <= m <= maux S -> in_mem d S (AUX3, (i, m, 1)) = true /\ set s (AUX3, (i, m, 1))).
    { unfold cells. intros i m Hi Hq. split; [inm|]. eapply set_eq; [apply S3; [exact Hi|exact Hq]|apply Ks; reflexivity]. }
    assert (KA : forall i m, faces i -> 1 <= m <= meqn d -> in_mem d S (asdq, (i, m, 1)) = true /\ set s (asdq, (i, m, 1))).
    { unfold faces. intros i m Hi Hq. split; [destruct Has as [-> | ->]; inm|now apply HF]. }
    assert (EQ : forall i, vec (meqn d) (fun m => val s (Q1D, (i, m, 1))) = vec (meqn d) (u i)).
    { intros i. apply vec_ext. intros k _. apply val_eq, Ks. reflexivity. }
    assert (E1 : forall i, vec (maux S) (fun m => val s (AUX1, (i, m, 1))) = vec (maux S) (al1 i)).
    { intros i. apply vec_ext. intros k _. apply val_eq, Ks. reflexivity. }
    assert (E2 : forall i, vec (maux S) (fun m => val s (AUX2, (i, m, 1))) = vec (maux S) (al2 i)).
    { intros i. apply vec_ext. intros k _. apply val_eq, Ks. reflexivity. }
    assert (E3 : forall i, vec (maux S) (fun m => val s (AUX3, (i, m, 1))) = vec (maux S) (al3 i)).
    { intros i. apply vec_ext. intros k _. apply val_eq, Ks. reflexivity. }
    unfold cells, faces in *.
    set (dq := fun i m => val s (asdq, (i, m, 1))).
    set (V := fun a : addr => match a with
      | (BMASDQ, (i, m, _)) => Some (fst (TR ilr i (dq i)) m) | (BPASDQ, (i, m, _)) => Some (snd (TR ilr i (dq i)) m) | _ => None end).
    assert (H : mwrites (fun c => exists i, 2 - mbc d <= i <= n + mbc d /\
        ((exists m, 1 <= m <= meqn d /\ c = (Q1D, (i - 1, m, 1))) \/ (exists m, 1 <= m <= meqn d /\ c = (Q1D, (i, m, 1))) \/
         (exists m, 1 <= m <= maux S /\ c = (AUX1, (i - 1, m, 1))) \/ (exists m, 1 <= m <= maux S /\ c = (AUX1, (i, m, 1))) \/
         (exists m, 1 <= m <= maux S /\ c = (AUX2, (i - 1, m, 1))) \/ (exists m, 1 <= m <= maux S /\ c = (AUX2, (i, m, 1))) \/
         (exists m, 1 <= m <= maux S /\ c = (AUX3, (i - 1, m, 1))) \/ (exists m, 1 <= m <= maux S /\ c = (AUX3, (i, m, 1))) \/
         (exists m, 1 <= m <= meqn d /\ c = (asdq, (i, m, 1))) \/
         (exists m, 1 <= m <= meqn d /\ (nowhere c \/ nowhere c)))) s (f_rpt d S ixy n ilr asdq)
       (fun c => exists i, 2 - mbc d <= i <= n + mbc d /\ (exists m, 1 <= m <= meqn d /\ (c = a1 BMASDQ i m \/ c = a1 BPASDQ i m))) V).
    { unfold f_rpt. apply mw_loop; [|destruct Has as [-> | ->]; sep]. intros i Hi. cbv beta.
      apply mw_row; [intros m Hq; apply KQ; lia|]. cbv beta. apply mw_row; [intros m Hq; apply KQ; lia|]. cbv beta.
      apply mw_row; [intros m Hq; apply K1; lia|]. cbv beta. apply mw_row; [intros m Hq; apply K1; lia|]. cbv beta.
      apply mw_row; [intros m Hq; apply K2; lia|]. cbv beta. apply mw_row; [intros m Hq; apply K2; lia|]. cbv beta.
      apply mw_row; [intros m Hq; apply K3; lia|]. cbv beta. apply mw_row; [intros m Hq; apply K3; lia|]. cbv beta.
      apply mw_row; [intros m Hq; apply KA; lia|]. cbv beta zeta.
      rewrite !EQ, !E1, !E2, !E3. fold (dq i). fold (TR ilr i (dq i)).
      apply mw_loop; [|sep]. intros m Hq. apply mw_seq; [apply mw_wr; [inm|reflexivity]|apply mw_wr; [inm|reflexivity]|sep]. }
    destruct (H s) as (s' & E & H1 & H2 & _); [reflexivity|]. exists s'. split; [exact E|]. split.
    - intros a c N1 N2. apply H2. destruct Has as [-> | ->]; sep.
    - intros i m Hi Hq. unfold faces in Hi.
      assert (X1 : s' (BMASDQ, (i, m, 1)) = Some (fst (TR ilr i (dq i)) m)).
      { apply (H1 (BMASDQ, (i, m, 1))). exists i. split; [exact Hi|]. exists m. split; [exact Hq|]. now left. }
      assert (X2 : s' (BPASDQ, (i, m, 1)) = Some (snd (TR ilr i (dq i)) m)).
      { apply (H1 (BPASDQ, (i, m, 1))). exists i. split; [exact Hi|]. exists m. split; [exact Hq|]. now right. }
      split; [exact (set_some _ _ _ X1)|]. split; [exact (set_some _ _ _ X2)|]. intros Hj. rewrite X1, X2. unfold transverse.
      rewrite (vec_ext (meqn d) (dq i) (f i)); [split; reflexivity|]. intros k Hk. apply val_some, HF; [exact Hi|exact Hk|exact Hj].
  Qed.

  (** one of the loops for G; interface [i] changes cell [i - o], with the ratio of cell [i - p] *)
  Definition gadd_ok (s : mem) (lo hi : Z) (f : Z -> Z -> Z -> Q) : Prop :=
    forall i m k, cells i -> 1 <= m <= meqn d -> 1 <= k <= 2 -> set s (GADDM, (i, m, k)) /\ set s (GADDP, (i, m, k)) /\
      (lo <= i <= hi -> s (GADDM, (i, m, k)) = Some (f i k m) /\ s (GADDP, (i, m, k)) = Some (f i k m)).
  Lemma gadd_loop : forall s ilr f g o p kk jj l0 h0, 0 <= o <= 1 -> 0 <= p <= 1 -> (forall i, kk i = i - o) -> (forall i, jj i = i - p) -> keeps s -> split_by s ilr f ->
    gadd_ok s l0 h0 g -> 1 <= l0 + o -> h0 + o <= n + 1 ->
    exists s', loop 1 (meqn d) (fun m => loop (lo d S) (hi d S n) (fun i => f_gadd1 A d S dt1 i (kk i) (jj i) m)) s = Some s' /\
      (forall a c, a <> GADDM -> a <> GADDP -> s' (a, c) = s (a, c)) /\
      gadd_ok s' l0 h0 (fun i k m => sub A (g i k m) (mul A (mul A (1 # 2) (rt (i + o - p))) (part k (TR ilr (i + o) (f (i + o))) m))).
  Proof.
    intros s ilr f g o p kk jj l0 h0 Ho Hp Hkk Hjj Ks HT HG Hl0 Hh0. pose proof lo_hi as (L1 & L2 & L3). pose proof not_local_dt as ND.
    assert (ave : forall i, cells i -> set s (a1 dt1 i 1) /\ val s (a1 dt1 i 1) = rt i).
    { intros i Hi. assert (X : s (a1 dt1 i 1) = s0 (dt1, (i, 1, 1))) by (unfold a1; now apply Ks).
      split; [|exact (val_eq _ _ _ X)]. apply (set_eq s0 s (dt1, (i, 1, 1))); [now apply Sr|exact X]. }
    set (up := fun i k m => mul A (mul A (1 # 2) (rt (i - p))) (val s (if k =? 1 then BMASDQ else BPASDQ, (i, m, 1)))).
    set (V := fun a : addr => match a with
      | (GADDM, (i, m, k)) => Some (sub A (val s (GADDM, (i, m, k))) (up (i + o) k m))
      | (GADDP, (i, m, k)) => Some (sub A (val s (GADDP, (i, m, k))) (up (i + o) k m)) | _ => None end).
    assert (H : mwrites (fun c => exists m, 1 <= m <= meqn d /\ (exists i, lo d S <= i <= hi d S n /\
         (c = a1 dt1 (i - p) 1 \/ c = a1 BMASDQ i m \/
          ((c = (GADDM, (i - o, m, 1)) \/ nowhere c) \/ (c = (GADDP, (i - o, m, 1)) \/ nowhere c) \/
           (c = a1 dt1 (i - p) 1 \/ c = a1 BPASDQ i m \/ ((c = (GADDM, (i - o, m, 2)) \/ nowhere c) \/ (c = (GADDP, (i - o, m, 2)) \/ nowhere c))))))) s
      (loop 1 (meqn d) (fun m => loop (lo d S) (hi d S n) (fun i => f_gadd1 A d S dt1 i (kk i) (jj i) m)))
      (fun c => exists m, 1 <= m <= meqn d /\ (exists i, lo d S <= i <= hi d S n /\
         (c = (GADDM, (i - o, m, 1)) \/ c = (GADDP, (i - o, m, 1)) \/ c = (GADDM, (i - o, m, 2)) \/ c = (GADDP, (i - o, m, 2))))) V).
    { assert (ND2 : dt1 <> GADDM /\ dt1 <> GADDP) by (destruct Hdt as [-> | ->]; split; discriminate). destruct ND2 as [N1 N2].
      apply mw_loop; [|sep]. intros m Hq. apply mw_loop; [|sep]. intros i Hi. rewrite Hkk, Hjj. unfold f_gadd1.
      destruct (ave (i - p) ltac:(unfold cells; lia)) as [B1 B2]. destruct (HT i m ltac:(unfold faces; lia) Hq) as (B3 & B4 & _).
      destruct (HG (i - o) m 1 ltac:(unfold cells; lia) Hq ltac:(lia)) as (G1 & G2 & _). destruct (HG (i - o) m 2 ltac:(unfold cells; lia) Hq ltac:(lia)) as (G3 & G4 & _).
      apply mw_read; [apply in_dt; unfold cells; lia|exact B1|]. apply mw_read; [inm|exact B3|]. rewrite B2. cbv zeta.
      assert (VM : forall k, V (GADDM, (i - o, m, k)) = Some (sub A (val s (GADDM, (i - o, m, k))) (up i k m))) by (intros k; unfold V; now replace (i - o + o) with i by lia).
      assert (VP : forall k, V (GADDP, (i - o, m, k)) = Some (sub A (val s (GADDP, (i - o, m, k))) (up i k m))) by (intros k; unfold V; now replace (i - o + o) with i by lia).
      apply mw_seq; [apply mw_dec; [inm|exact G1|exact (VM 1)]| |sep].
      apply mw_seq; [apply mw_dec; [inm|exact G2|exact (VP 1)]| |sep].
      apply mw_read; [apply in_dt; unfold cells; lia|exact B1|]. apply mw_read; [inm|exact B4|]. rewrite B2. cbv zeta.
      apply mw_seq; [apply mw_dec; [inm|exact G3|exact (VM 2)]| |sep].
      apply mw_dec; [inm|exact G4|exact (VP 2)]. }
    destruct (H s) as (s' & E & H1 & H2 & H3); [reflexivity|]. exists s'. split; [exact E|]. split.
    - intros a c N1 N2. apply H2. sep.
    - intros i m k Hi Hq Hk. destruct (HG i m k Hi Hq Hk) as (C1 & C2 & C3). split; [|split].
      + destruct (H3 (GADDM, (i, m, k))) as [X|X]; [exact (set_some _ _ _ X)|now apply (set_eq s)].
      + destruct (H3 (GADDP, (i, m, k))) as [X|X]; [exact (set_some _ _ _ X)|now apply (set_eq s)].
      + intros Hj. destruct (C3 Hj) as [D1 D2]. destruct (HT (i + o) m ltac:(unfold faces; lia) Hq) as (_ & _ & X). destruct (X ltac:(lia)) as [X1 X2].
        assert (UP : up (i + o) k m = mul A (mul A (1 # 2) (rt (i + o - p))) (part k (TR ilr (i + o) (f (i + o))) m)).
        { unfold up, part. destruct (k =? 1); [now rewrite (val_some _ _ _ X1)|now rewrite (val_some _ _ _ X2)]. }
        assert (Ek : k = 1 \/ k = 2) by lia. split.
        * rewrite (H1 (GADDM, (i, m, k))).
          -- unfold V. now rewrite UP, (val_some _ _ _ D1).
          -- exists m. split; [exact Hq|]. exists (i + o). split; [lia|]. replace (i + o - o) with i by lia. destruct Ek as [-> | ->]; tauto.
        * rewrite (H1 (GADDP, (i, m, k))).
          -- unfold V. now rewrite UP, (val_some _ _ _ D2).
          -- exists m. split; [exact Hq|]. exists (i + o). split; [lia|]. replace (i + o - o) with i by lia. destruct Ek as [-> | ->]; tauto.
  Qed.

  Local Notation am := (amdq A S (meqn d) ixy u al2 rt).
  Local Notation ap := (apdq A S (meqn d) ixy u al2 rt).
  Local Notation asd := (aside A S (meqn d) ixy u al1 al2 al3 rt).
  Lemma transverse_ok : forall s, keeps s -> fluct_ok s (fun i m => r_amdq (RP i) m) (fun i m => r_apdq (RP i) m) ->
    (second S = true -> cqxx_ok s) -> gadd_ok s 1 n (fun _ _ _ => 0%Q) -> method3 S <> 0 ->
    exists s', f_transverse A d S ixy n dt1 s = Some s' /\
      (forall a c, match a with AMDQ | APDQ | BMASDQ | BPASDQ | GADDM | GADDP => True | _ => s' (a, c) = s (a, c) end) /\
      gadd_ok s' 1 n asd.
  Proof.
    intros s Ks HF HC HG H3. unfold f_transverse, sq.
    assert (ES : (1 <? method2 S) = second S) by (unfold second; destruct HS as (_ & _ & _ & X & _); destruct (Z.ltb_spec 1 (method2 S)), (Z.eqb_spec (method2 S) 2); try reflexivity; lia).
    assert (X : exists s1, cond ((1 <? method2 S) && (method3 S =? 2)) (f_split A d S n) s = Some s1 /\
      (forall a c, a <> AMDQ -> a <> APDQ -> s1 (a, c) = s (a, c)) /\ fluct_ok s1 am ap).
    { unfold amdq, apdq, cond. rewrite ES. destruct (second S) eqn:E2; cbn [andb].
      - destruct (method3 S =? 2) eqn:E3; [exact (split_ok s _ _ HF (HC eq_refl))|]. exists s. split; [reflexivity|]. split; [reflexivity|exact HF].
      - exists s. split; [reflexivity|]. split; [reflexivity|exact HF]. }
    destruct X as (s1 & E1 & Y1 & F1). rewrite E1. cbn [bind].
    assert (K1 : keeps s1) by (intros a c Ha; rewrite Y1; [now apply Ks|intros ->; discriminate Ha|intros ->; discriminate Ha]).
    destruct (rpt_ok s1 1 AMDQ am K1 (or_introl eq_refl)) as (s2 & E2 & Y2 & T2).
    { intros i m Hi Hq. destruct (F1 i m Hi Hq) as (C1 & _ & C3). split; [exact C1|intros Hj; apply C3, Hj]. }
    rewrite E2. cbn [bind].
    assert (K2 : keeps s2) by (intros a c Ha; rewrite Y2; [now apply K1|intros ->; discriminate Ha|intros ->; discriminate Ha]).
    assert (G2 : gadd_ok s2 1 n (fun _ _ _ => 0%Q)).
    { intros i m k Hi Hq Hk. destruct (HG i m k Hi Hq Hk) as (C1 & C2 & C3). rewrite !Y2, !Y1 by discriminate.
      split; [apply (set_eq s); [exact C1|now rewrite Y2, Y1 by discriminate]|]. split; [apply (set_eq s); [exact C2|now rewrite Y2, Y1 by discriminate]|exact C3]. }
    destruct (gadd_loop s2 1 am (fun _ _ _ => 0%Q) 1 1 (fun i => i - 1) (fun i => i - 1) 1 n) as (s3 & E3 & Y3 & G3); try reflexivity; try lia; try assumption.
    rewrite E3. cbn [bind].
    assert (K3 : keeps s3) by (intros a c Ha; rewrite Y3; [now apply K2|intros ->; discriminate Ha|intros ->; discriminate Ha]).
    destruct (rpt_ok s3 2 APDQ ap K3 (or_intror eq_refl)) as (s4 & E4 & Y4 & T4).
    { intros i m Hi Hq. destruct (F1 i m Hi Hq) as (_ & C2 & C3). rewrite Y3, Y2 by discriminate.
      split; [apply (set_eq s1); [exact C2|now rewrite Y3, Y2 by discriminate]|intros Hj; apply C3, Hj]. }
    rewrite E4. cbn [bind].
    assert (K4 : keeps s4) by (intros a c Ha; rewrite Y4; [now apply K3|intros ->; discriminate Ha|intros ->; discriminate Ha]).
    assert (G4 : gadd_ok s4 1 n (fun i k m => sub A 0 (mul A (mul A (1 # 2) (rt (i + 1 - 1))) (part k (TR 1 (i + 1) (am (i + 1))) m)))).
    { intros i m k Hi Hq Hk. destruct (G3 i m k Hi Hq Hk) as (C1 & C2 & C3). rewrite !Y4 by discriminate.
      split; [apply (set_eq s3); [exact C1|now rewrite Y4 by discriminate]|]. split; [apply (set_eq s3); [exact C2|now rewrite Y4 by discriminate]|exact C3]. }
    destruct (gadd_loop s4 2 ap (fun i k m => sub A 0 (mul A (mul A (1 # 2) (rt (i + 1 - 1))) (part k (TR 1 (i + 1) (am (i + 1))) m)))
      0 (if use_fwaves S then 1 else 0) (fun i => i) (fun i => if use_fwaves S then i - 1 else i) 1 n) as (s5 & E5 & Y5 & G5); try lia; try assumption.
    { destruct (use_fwaves S); lia. }
    { intros i. destruct (use_fwaves S); lia. }
    exists s5. split; [exact E5|]. split.
    - intros a c. destruct a; try exact Logic.I; now rewrite Y5, Y4, Y3, Y2, Y1 by discriminate.
    - intros i m k Hi Hq Hk. destruct (G5 i m k Hi Hq Hk) as (C1 & C2 & C3). split; [exact C1|]. split; [exact C2|]. intros Hj. destruct (C3 Hj) as [D1 D2].
      rewrite D1, D2. unfold aside. destruct (Z.eqb_spec (method3 S) 0) as [X|_]; [contradiction|].
      replace (i + 1 - 1) with i by lia. replace (i + 0) with i by lia. replace (i - (if use_fwaves S then 1 else 0)) with (if use_fwaves S then i - 1 else i) by (destruct (use_fwaves S); lia).
      split; reflexivity.
  Qed.

  (** *** the whole routine *)
  Lemma flux2_ok : keeps s0 /\ exists s' c, flux2 A d S ixy n dt1 s0 = Some (s', c) /\ keeps s' /\ lub courant 0 c /\
    fadd_ok s' (flux_left A S (meqn d) ixy u al2 rt) (flux_right A S (meqn d) ixy u al2 rt) /\ gadd_ok s' 1 n asd.
  Proof.
    assert (K0 : keeps s0) by (intros a c _; reflexivity). split; [exact K0|]. unfold flux2, sq.
    destruct (init_ok s0) as (s1 & E1 & Y1 & Z1). rewrite E1. cbn [bind].
    assert (K1 : keeps s1) by (intros a c Ha; rewrite Y1; [reflexivity|destruct a; try reflexivity; discriminate Ha]).
    destruct (rpn_ok s1 K1) as (s2 & E2 & Y2 & R2 & P2). rewrite E2. cbn [bind].
    assert (K2 : keeps s2) by (intros a c Ha; specialize (Y2 a c); destruct a; try discriminate Ha; rewrite Y2; now apply K1).
    destruct (godunov_ok s2 R2) as (s3 & E3 & Y3 & G3).
    { intros i m Hi Hq. rewrite (Y2 FADDM), (Y2 FADDP). destruct (Z1 i m Hi Hq) as (X1 & X2 & _). now split. }
    rewrite E3. cbn [bind].
    assert (K3 : keeps s3) by (intros a c Ha; rewrite Y3; [now apply K2|intros ->; discriminate Ha|intros ->; discriminate Ha]).
    assert (P3 : speeds s3) by (intros i mw Hi Hw; rewrite Y3 by discriminate; now apply P2).
    assert (R3 : after_rpn s3) by (intros i m Hi Hq; rewrite !Y3 by discriminate; destruct (R2 i m Hi Hq) as (X1 & X2 & X3); do 2 (split; [assumption|]); intros mw Hw; rewrite Y3 by discriminate; now apply X3).
    destruct (cfl_ok s3 K3 P3) as (c & Ec & Lc). rewrite Ec. cbn [bind].
    assert (F3 : fadd_ok s3 (fun i m => add A 0 (r_amdq (RP i) m)) (fun i m => sub A 0 (r_apdq (RP i) m))) by exact G3.
    assert (ES : second_order S = second S).
    { unfold second_order, second. destruct HS as (_ & _ & _ & X & _). destruct (use_fwaves S); [|reflexivity].
      destruct (Z.eqb_spec (method2 S) 1), (Z.eqb_spec (method2 S) 2); try reflexivity; lia. }
    assert (X : exists s4, cond (second_order S) (f_correct A d S n dt1) s3 = Some s4 /\
      (forall a c, match a with WAVE | CQXX | FADDM | FADDP => True | _ => s4 (a, c) = s3 (a, c) end) /\
      (second S = true -> cqxx_ok s4) /\ fadd_ok s4 (flux_left A S (meqn d) ixy u al2 rt) (flux_right A S (meqn d) ixy u al2 rt)).
    { rewrite ES. unfold flux_left, flux_right. destruct (second S); cbn [cond].
      - destruct (correct_ok s3 _ _ K3 R3 P3 F3) as (s4 & E4 & Y4 & C4 & F4). exists s4. split; [exact E4|]. split; [exact Y4|]. split; [intros _; exact C4|exact F4].
      - exists s3. split; [reflexivity|]. split; [intros a c'; destruct a; try exact Logic.I; reflexivity|]. split; [discriminate|exact F3]. }
    destruct X as (s4 & E4 & Y4 & C4 & F4). rewrite E4. cbn [bind].
    assert (K4 : keeps s4) by (intros a c' Ha; specialize (Y4 a c'); destruct a; try discriminate Ha; rewrite Y4; now apply K3).
    assert (G4 : gadd_ok s4 1 n (fun _ _ _ => 0%Q)).
    { intros i m k Hi Hq Hk. destruct (Z1 i m Hi Hq) as (_ & _ & X). destruct (X k Hk) as [X1 X2].
      assert (V1 : s4 (GADDM, (i, m, k)) = Some 0%Q) by (rewrite (Y4 GADDM), Y3, (Y2 GADDM) by discriminate; exact X1).
      assert (V2 : s4 (GADDP, (i, m, k)) = Some 0%Q) by (rewrite (Y4 GADDP), Y3, (Y2 GADDP) by discriminate; exact X2).
      split; [exact (set_some _ _ _ V1)|]. split; [exact (set_some _ _ _ V2)|]. intros _. now split. }
    assert (EC : (if use_fwaves S then negb (method3 S =? 0) else 0 <? method3 S) = negb (method3 S =? 0)).
    { destruct HS as (_ & _ & _ & _ & X & _). destruct (use_fwaves S); [reflexivity|]. destruct (Z.eqb_spec (method3 S) 0), (Z.ltb_spec 0 (method3 S)); try reflexivity; lia. }
    rewrite EC. destruct (Z.eqb_spec (method3 S) 0) as [M3|M3]; cbn [negb cond].
    - exists s4, c. split; [reflexivity|]. split; [exact K4|]. split; [exact Lc|]. split; [exact F4|].
      intros i m k Hi Hq Hk. unfold aside. rewrite M3. exact (G4 i m k Hi Hq Hk).
    - destruct (transverse_ok s4 K4) as (s5 & E5 & Y5 & G5); try assumption.
      { intros i m Hi Hq. rewrite (Y4 AMDQ), (Y4 APDQ). destruct (R3 i m Hi Hq) as (X1 & X2 & _).
        split; [apply (set_eq s3); [exact (set_some _ _ _ X1)|apply (Y4 AMDQ)]|]. split; [apply (set_eq s3); [exact (set_some _ _ _ X2)|apply (Y4 APDQ)]|]. intros _. now split. }
      rewrite E5. cbn [bind]. exists s5, c. split; [reflexivity|]. split; [|split; [exact Lc|split; [|exact G5]]].
      + intros a c' Ha. specialize (Y5 a c'). destruct a; try discriminate Ha; rewrite Y5; now apply K4.
      + intros i m Hi Hq. destruct (F4 i m Hi Hq) as (C1 & C2 & C3). rewrite (Y5 FADDM), (Y5 FADDP).
        split; [apply (set_eq s4); [exact C1|apply (Y5 FADDM)]|]. split; [apply (set_eq s4); [exact C2|apply (Y5 FADDP)]|exact C3].
  Qed.
End Slice.
