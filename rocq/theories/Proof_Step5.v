(** One slice of clawpack 5.x: the fluxes and the increments of the routine are those of the method. *)
From Coq Require Import ZArith QArith Qminmax Qabs List Lia Lqa Bool.
From Verif Require Import Base_Float Model_Face Model_Grid Proof_Grid Proof_Tag Proof_Diag Model_Step Spec_Step Proof_Step0 Proof_Step1 Model_Step5 Spec_Step5.
Import ListNotations.
Open Scope Z_scope.

Section Slice.
  Variable A : arith.
  Variable d : dims.
  Variable S : solver.
  Variable ixy n : Z.
  Variable dt1 : nm.
  Hypothesis Hb : 2 <= mbc d.
  Hypothesis Hn : 1 <= n.
  Hypothesis Hmax : n <= maxm d.
  Hypothesis Hm : 0 <= meqn d.
  Hypothesis HS : options_ok S.
  Hypothesis Hdt : dt1 = DTDX1 \/ dt1 = DTDY1.

  Local Notation cells := (cells d n).
  Local Notation faces := (faces d n).

  Lemma init_ok5 : forall s, exists s', f_init5 d S n s = Some s' /\
    (forall a c, is_add a = false -> s' (a, c) = s (a, c)) /\
    (forall i m, cells i -> 1 <= m <= meqn d -> s' (FADDM, (i, m, 1)) = Some 0%Q /\ s' (FADDP, (i, m, 1)) = Some 0%Q /\
       forall k, 1 <= k <= 2 -> s' (GADDM, (i, m, k)) = Some 0%Q /\ s' (GADDP, (i, m, k)) = Some 0%Q).
  Proof.
    intros s. unfold Proof_Step1.cells.
    assert (H : mwrites (fun c => exists i, 1 - mbc d <= i <= n + mbc d /\ exists m, 1 <= m <= meqn d /\
                   (nowhere c \/ nowhere c \/ nowhere c \/ nowhere c \/ nowhere c \/ nowhere c)) s (f_init5 d S n)
      (fun c => exists i, 1 - mbc d <= i <= n + mbc d /\ exists m, 1 <= m <= meqn d /\
         (c = a1 FADDM i m \/ c = a1 FADDP i m \/ c = (GADDM, (i, m, 1)) \/ c = (GADDP, (i, m, 1)) \/ c = (GADDM, (i, m, 2)) \/ c = (GADDP, (i, m, 2)))) (fun _ => Some 0%Q)).
    { unfold f_init5. apply mw_loop; [|sep]. intros i Hi. apply mw_loop; [|sep]. intros m Hq.
      do 5 (apply mw_seq; [apply mw_wr; [inm|reflexivity]| |sep]). apply mw_wr; [inm|reflexivity]. }
    destruct (H s) as (s' & E & H1 & H2 & _); [reflexivity|]. exists s'. split; [exact E|]. split.
    - intros a c Ha. apply H2. intros (i & _ & m & _ & [X|[X|[X|[X|[X|X]]]]]); inversion X; subst; discriminate Ha.
    - intros i m Hi Hq. split; [|split].
      + apply H1. exists i. split; [lia|]. exists m. split; [lia|]. now left.
      + apply H1. exists i. split; [lia|]. exists m. split; [lia|]. right. now left.
      + intros k Hk. assert (Ek : k = 1 \/ k = 2) by lia. destruct Ek as [-> | ->]; split; apply H1; exists i; (split; [lia|]); exists m; (split; [lia|]); tauto.
  Qed.

  Variable s0 : mem.
  Local Notation u := (u s0).
  Local Notation al1 := (al1 s0).
  Local Notation al2 := (al2 s0).
  Local Notation al3 := (al3 s0).
  Local Notation rt := (rt dt1 s0).
  Hypothesis Sq : forall i m, cells i -> 1 <= m <= meqn d -> set s0 (Q1D, (i, m, 1)).
  Hypothesis S1 : forall i m, cells i -> 1 <= m <= maux S -> set s0 (AUX1, (i, m, 1)).
  Hypothesis S2 : forall i m, cells i -> 1 <= m <= maux S -> set s0 (AUX2, (i, m, 1)).
  Hypothesis S3 : forall i m, cells i -> 1 <= m <= maux S -> set s0 (AUX3, (i, m, 1)).
  Hypothesis Sr : forall i, cells i -> set s0 (dt1, (i, 1, 1)).
  Local Notation keeps := (keeps s0).
  Local Notation RP := (at_interface S (meqn d) ixy u al2).
  Local Notation cfun := (correction A S (meqn d) ixy u al2 rt).
  Local Notation after_rpn := (after_rpn d S ixy n s0).
  Local Notation speeds := (speeds d S ixy n s0).
  Local Notation fadd_ok := (fadd_ok d n).
  Local Notation fluct_ok := (fluct_ok d n).
  Local Notation gadd_ok := (gadd_ok d n).
  Local Notation courant := (courant A d S ixy n dt1 s0).
  Local Notation cq := (cq A S).
  Lemma in_dt : forall i, cells i -> in_mem d S (dt1, (i, 1, 1)) = true.
  Proof. eapply Proof_Step1.in_dt; eassumption. Qed.
  Lemma rpn_ok : forall s, keeps s -> exists s', f_rpn d S ixy n s = Some s' /\
    (forall a c, match a with WAVE | SP | AMDQ | APDQ => True | _ => s' (a, c) = s (a, c) end) /\ after_rpn s' /\ speeds s'.
  Proof. eapply Proof_Step1.rpn_ok; eassumption. Qed.
  Lemma cfl_ok : forall s, keeps s -> speeds s -> exists c, f_cfl A d S n dt1 s = Some c /\ lub courant 0 c.
  Proof. eapply Proof_Step1.cfl_ok; eassumption. Qed.
  Lemma limiter_ok : forall s, after_rpn s -> speeds s -> exists s', cond (limit S) (inlinelimiter A d S n) s = Some s' /\
    (forall a c, a <> WAVE -> s' (a, c) = s (a, c)) /\ Proof_Step1.waves_ok A d S ixy n s0 s'.
  Proof. eapply Proof_Step1.limiter_ok; eassumption. Qed.
  Lemma wrm_some : forall a v s, in_mem d S a = true -> exists s', wrm d S a v s = Some s' /\ s' a = Some v /\ forall c, c <> a -> s' c = s c.
  Proof. eapply Proof_Step1.wrm_some; eassumption. Qed.
  Lemma cq1_w : forall s i m ave V, faces i -> 1 <= m <= meqn d ->
    (forall mw, 1 <= mw <= mwaves S -> set s (SP, (i, mw, 1)) /\ set s (WAVE, (i, m, mw))) ->
    set s (FADDM, (i, m, 1)) -> set s (FADDP, (i, m, 1)) ->
    V (CQXX, (i, m, 1)) = Some (cq s i m ave) ->
    V (FADDM, (i, m, 1)) = Some (add A (val s (FADDM, (i, m, 1))) (mul A (1 # 2) (cq s i m ave))) ->
    V (FADDP, (i, m, 1)) = Some (add A (val s (FADDP, (i, m, 1))) (mul A (1 # 2) (cq s i m ave))) ->
    mwrites (fun c => (exists mw, 1 <= mw <= mwaves S /\ (c = (SP, (i, mw, 1)) \/ c = (WAVE, (i, m, mw)))) \/ c = a1 FADDM i m \/ c = a1 FADDP i m) s
      (f_cq1 A d S i m ave) (fun c => c = a1 CQXX i m \/ c = a1 FADDM i m \/ c = a1 FADDP i m) V.
  Proof. eapply Proof_Step1.cq1_w; eassumption. Qed.
  Lemma godunov_ok5 : forall s, after_rpn s ->
    (forall i m, cells i -> 1 <= m <= meqn d -> s (FADDM, (i, m, 1)) = Some 0%Q /\ s (FADDP, (i, m, 1)) = Some 0%Q) ->
    exists s', f_godunov5 A d S n s = Some s' /\
      (forall a c, a <> FADDM -> a <> FADDP -> s' (a, c) = s (a, c)) /\
      (forall i m, cells i -> 1 <= m <= meqn d -> set s' (FADDM, (i, m, 1)) /\ set s' (FADDP, (i, m, 1)) /\
         (1 <= i <= n + 1 -> s' (FADDM, (i, m, 1)) = Some (add A 0 (r_amdq (RP i) m)) /\ s' (FADDP, (i, m, 1)) = Some (sub A 0 (r_apdq (RP i) m)))).
  Proof.
    intros s HR H0.  unfold cells in *.
    set (V := fun a : addr => match a with
      | (FADDM, (i, m, _)) => Some (add A 0 (r_amdq (RP i) m)) | (FADDP, (i, m, _)) => Some (sub A 0 (r_apdq (RP i) m)) | _ => None end).
    assert (H : mwrites (fun c => exists i, 1 <= i <= n + 1 /\ exists m, 1 <= m <= meqn d /\
          (c = a1 APDQ i m \/ c = a1 AMDQ i m \/ ((c = a1 FADDP i m \/ nowhere c) \/ (c = a1 FADDM i m \/ nowhere c)))) s (f_godunov5 A d S n)
       (fun c => exists i, 1 <= i <= n + 1 /\ exists m, 1 <= m <= meqn d /\ (c = a1 FADDP i m \/ c = a1 FADDM i m)) V).
    { unfold f_godunov5. apply mw_loop; [|sep]. intros i Hi. apply mw_loop; [|sep]. intros m Hq. cbv beta.
      destruct (HR i m ltac:(unfold faces; lia) Hq) as (E1 & E2 & _). destruct (H0 i m ltac:(lia) Hq) as (F1 & F2).
      apply mw_read; [inm|exact (set_some _ _ _ E2)|]. apply mw_read; [inm|exact (set_some _ _ _ E1)|].
      apply mw_seq; [apply mw_dec|apply mw_inc|sep]; try inm; try exact (set_some _ _ _ F1); try exact (set_some _ _ _ F2).
      - unfold a1. rewrite (val_some _ _ _ F2), (val_some _ _ _ E2). reflexivity.
      - unfold a1. rewrite (val_some _ _ _ F1), (val_some _ _ _ E1). reflexivity. }
    destruct (H s) as (s' & E & H1 & H2 & H3); [reflexivity|]. exists s'. split; [exact E|]. split.
    - intros a c N1 N2. apply H2. sep.
    - intros i m Hi Hq. destruct (H0 i m Hi Hq) as (F1 & F2). split; [|split].
      + destruct (H3 (FADDM, (i, m, 1))) as [X|X]; [exact (set_some _ _ _ X)|]. rewrite F1 in X. exact (set_some _ _ _ X).
      + destruct (H3 (FADDP, (i, m, 1))) as [X|X]; [exact (set_some _ _ _ X)|]. rewrite F2 in X. exact (set_some _ _ _ X).
      + intros Hj. split.
        * apply (H1 (FADDM, (i, m, 1))). exists i. split; [lia|]. exists m. split; [exact Hq|]. right. reflexivity.
        * apply (H1 (FADDP, (i, m, 1))). exists i. split; [lia|]. exists m. split; [exact Hq|]. left. reflexivity.
  Qed.

  (** *** the Courant number *)
  Definition cqxx_ok5 (s : mem) : Prop :=
    forall i m, 1 <= i <= n + 1 -> 1 <= m <= meqn d -> set s (CQXX, (i, m, 1)) /\ (1 <= i <= n + 1 -> s (CQXX, (i, m, 1)) = Some (cfun i m)).
  Lemma correct_ok5 : forall s f g, keeps s -> after_rpn s -> speeds s -> fadd_ok s f g -> exists s', f_correct5 A d S n dt1 s = Some s' /\
    (forall a c, match a with WAVE | CQXX | FADDM | FADDP => True | _ => s' (a, c) = s (a, c) end) /\ cqxx_ok5 s' /\
    fadd_ok s' (fun i m => add A (f i m) (mul A (1 # 2) (cfun i m))) (fun i m => add A (g i m) (mul A (1 # 2) (cfun i m))).
  Proof.
    intros s f g Ks HR Hsp HF.  assert (ND : is_local dt1 = false) by (destruct Hdt as [-> | ->]; reflexivity).
    destruct (limiter_ok s HR Hsp) as (s1 & E1 & Y1 & W1).
    assert (ave : forall i, cells i -> set s1 (a1 dt1 i 1) /\ val s1 (a1 dt1 i 1) = rt i).
    { intros i Hi. assert (X : s1 (a1 dt1 i 1) = s0 (dt1, (i, 1, 1))).
      { unfold a1. rewrite Y1; [now apply Ks|]. destruct Hdt as [-> | ->]; discriminate. }
      split; [|exact (val_eq _ _ _ X)]. apply (set_eq s0 s1 (dt1, (i, 1, 1))); [now apply Sr|exact X]. }
    assert (Sp1 : forall i mw, faces i -> 1 <= mw <= mwaves S -> s1 (SP, (i, mw, 1)) = Some (r_s (RP i) mw)) by (intros; rewrite Y1 by discriminate; now apply Hsp).
    assert (F1 : fadd_ok s1 f g).
    { intros i m Hi Hq. destruct (HF i m Hi Hq) as (A1 & A2 & A3). rewrite !Y1 by discriminate.
      split; [apply (set_eq s); [exact A1|apply Y1; discriminate]|]. split; [apply (set_eq s); [exact A2|apply Y1; discriminate]|exact A3]. }
    set (av := fun i => mul A (1 # 2) (add A (rt (i - 1)) (rt i))).
    set (V := fun a : addr => match a with
      | (CQXX, (i, m, _)) => Some (cq s1 i m (av i))
      | (FADDM, (i, m, _)) => Some (add A (val s1 (FADDM, (i, m, 1))) (mul A (1 # 2) (cq s1 i m (av i))))
      | (FADDP, (i, m, _)) => Some (add A (val s1 (FADDP, (i, m, 1))) (mul A (1 # 2) (cq s1 i m (av i)))) | _ => None end).
    assert (H : mwrites (fun c => exists i, 1 <= i <= n + 1 /\ (c = a1 dt1 (i - 1) 1 \/ c = a1 dt1 i 1 \/
         (exists m, 1 <= m <= meqn d /\ ((exists mw, 1 <= mw <= mwaves S /\ (c = (SP, (i, mw, 1)) \/ c = (WAVE, (i, m, mw)))) \/ c = a1 FADDM i m \/ c = a1 FADDP i m)))) s1
      (loop (1) (n + 1) (fun i s => bind (rdm d S s (a1 dt1 (i - 1) 1)) (fun dm => bind (rdm d S s (a1 dt1 i 1)) (fun di =>
         loop 1 (meqn d) (fun m => f_cq1 A d S i m (mul A (1 # 2) (add A dm di))) s))))
      (fun c => exists i, 1 <= i <= n + 1 /\ (exists m, 1 <= m <= meqn d /\ (c = a1 CQXX i m \/ c = a1 FADDM i m \/ c = a1 FADDP i m))) V).
    { apply mw_loop.
      - intros i Hi. destruct (ave (i - 1) ltac:(unfold cells; lia)) as [B1 B2]. destruct (ave i ltac:(unfold cells; lia)) as [B3 B4].
        apply mw_read; [apply in_dt; unfold cells; lia|exact B1|]. apply mw_read; [apply in_dt; unfold cells; lia|exact B3|]. rewrite B2, B4. fold (av i).
        apply mw_loop; [|sep]. intros m Hq. destruct (F1 i m ltac:(unfold cells; lia) Hq) as (C1 & C2 & _).
        apply cq1_w; [unfold faces; lia|exact Hq| |exact C1|exact C2|reflexivity|reflexivity|reflexivity].
        intros mw Hw. split; [exact (set_some _ _ _ (Sp1 i mw ltac:(unfold faces; lia) Hw))|apply W1; [unfold faces; lia|exact Hq|exact Hw]].
      - destruct Hdt as [-> | ->]; sep. }
    destruct (H s1) as (s' & E & H1 & H2 & H3); [reflexivity|]. exists s'. split; [unfold f_correct5, sq; rewrite E1; exact E|].
    assert (CQ : forall i m, 1 <= i <= n + 1 -> 1 <= m <= meqn d -> cq s1 i m (av i) = cfun i m).
    { intros i m Hi Hq. unfold cq, correction. apply total_ext. intros mw Hw.
      rewrite (val_some _ _ _ (Sp1 i mw ltac:(unfold faces; lia) Hw)).
      destruct (W1 i m mw ltac:(unfold faces; lia) Hq Hw) as [_ X]. rewrite (val_some _ _ _ (X Hi)). reflexivity. }
    split; [|split].
    - intros a c. destruct a; try exact Logic.I; (rewrite H2; [apply Y1; discriminate|sep]).
    - intros i m Hi Hq. assert (X : s' (CQXX, (i, m, 1)) = Some (cq s1 i m (av i))).
      { apply (H1 (CQXX, (i, m, 1))). exists i. split; [exact Hi|]. exists m. split; [exact Hq|]. now left. }
      split; [exact (set_some _ _ _ X)|]. intros Hj. rewrite X, (CQ i m Hj Hq). reflexivity.
    - intros i m Hi Hq. destruct (F1 i m Hi Hq) as (C1 & C2 & C3). split; [|split].
      + destruct (H3 (FADDM, (i, m, 1))) as [X|X]; [exact (set_some _ _ _ X)|now apply (set_eq s1)].
      + destruct (H3 (FADDP, (i, m, 1))) as [X|X]; [exact (set_some _ _ _ X)|now apply (set_eq s1)].
      + intros Hj. destruct (C3 Hj) as [D1 D2]. rewrite <- (CQ i m Hj Hq). split.
        * rewrite (H1 (FADDM, (i, m, 1))); [|exists i; split; [lia|]; exists m; split; [exact Hq|]; right; now left]. cbn [V]. now rewrite (val_some _ _ _ D1).
        * rewrite (H1 (FADDP, (i, m, 1))); [|exists i; split; [lia|]; exists m; split; [exact Hq|]; right; now right]. cbn [V]. now rewrite (val_some _ _ _ D2).
  Qed.

  Lemma split_ok5 : forall s f g, fluct_ok s f g -> cqxx_ok5 s -> exists s', f_split5 A d S n s = Some s' /\
    (forall a c, a <> AMDQ -> a <> APDQ -> s' (a, c) = s (a, c)) /\
    fluct_ok s' (fun i m => add A (f i m) (cfun i m)) (fun i m => sub A (g i m) (cfun i m)).
  Proof.
    intros s f g HF HC. 
    set (V := fun a : addr => match a with
      | (AMDQ, (i, m, _)) => Some (add A (val s (AMDQ, (i, m, 1))) (val s (CQXX, (i, m, 1))))
      | (APDQ, (i, m, _)) => Some (sub A (val s (APDQ, (i, m, 1))) (val s (CQXX, (i, m, 1)))) | _ => None end).
    assert (H : mwrites (fun c => exists i, 1 <= i <= n + 1 /\ (exists m, 1 <= m <= meqn d /\
         (c = a1 CQXX i m \/ ((c = a1 AMDQ i m \/ nowhere c) \/ (c = a1 APDQ i m \/ nowhere c))))) s (f_split5 A d S n)
      (fun c => exists i, 1 <= i <= n + 1 /\ (exists m, 1 <= m <= meqn d /\ (c = a1 AMDQ i m \/ c = a1 APDQ i m))) V).
    { apply mw_loop; [|sep]. intros i Hi. apply mw_loop; [|sep]. intros m Hq. destruct (HF i m ltac:(unfold faces; lia) Hq) as (C1 & C2 & _).
      destruct (HC i m ltac:(lia) Hq) as (C3 & _).
      apply mw_read; [inm|exact C3|]. apply mw_seq; [apply mw_inc|apply mw_dec|sep]; try inm; try assumption; reflexivity. }
    destruct (H s) as (s' & E & H1 & H2 & H3); [reflexivity|]. exists s'. split; [exact E|]. split.
    - intros a c N1 N2. apply H2. sep.
    - intros i m Hi Hq. destruct (HF i m Hi Hq) as (C1 & C2 & C3). split; [|split].
      + destruct (H3 (AMDQ, (i, m, 1))) as [X|X]; [exact (set_some _ _ _ X)|now apply (set_eq s)].
      + destruct (H3 (APDQ, (i, m, 1))) as [X|X]; [exact (set_some _ _ _ X)|now apply (set_eq s)].
      + intros Hj. destruct (C3 Hj) as [D1 D2]. destruct (HC i m ltac:(lia) Hq) as (_ & D3). specialize (D3 Hj). split.
        * rewrite (H1 (AMDQ, (i, m, 1))); [|exists i; split; [lia|]; exists m; split; [exact Hq|]; now left]. cbn [V]. now rewrite (val_some _ _ _ D1), (val_some _ _ _ D3).
        * rewrite (H1 (APDQ, (i, m, 1))); [|exists i; split; [lia|]; exists m; split; [exact Hq|]; now right]. cbn [V]. now rewrite (val_some _ _ _ D2), (val_some _ _ _ D3).
  Qed.

  Local Notation TR := (transverse S (meqn d) ixy u al1 al2 al3).
  Local Notation split_by := (split_by d S ixy n s0).
  Lemma rpt_ok : forall s ilr asdq f, keeps s -> asdq = AMDQ \/ asdq = APDQ ->
    (forall i m, faces i -> 1 <= m <= meqn d -> set s (asdq, (i, m, 1)) /\ (1 <= i <= n + 1 -> s (asdq, (i, m, 1)) = Some (f i m))) ->
    exists s', f_rpt d S ixy n ilr asdq s = Some s' /\
      (forall a c, a <> BMASDQ -> a <> BPASDQ -> s' (a, c) = s (a, c)) /\ split_by s' ilr f.
  Proof. eapply Proof_Step1.rpt_ok; eassumption. Qed.
  Lemma gadd_loop5 : forall s ilr f g o p kk jj l0 h0, 0 <= o <= 1 -> 0 <= p <= 1 -> (forall i, kk i = i - o) -> (forall i, jj i = i - p) -> keeps s -> split_by s ilr f ->
    gadd_ok s l0 h0 g -> 1 <= l0 + o -> h0 + o <= n + 1 ->
    exists s', loop 1 (n + 1) (fun i => loop 1 (meqn d) (fun m => f_gadd1 A d S dt1 i (kk i) (jj i) m)) s = Some s' /\
      (forall a c, a <> GADDM -> a <> GADDP -> s' (a, c) = s (a, c)) /\
      gadd_ok s' l0 h0 (fun i k m => sub A (g i k m) (mul A (mul A (1 # 2) (rt (i + o - p))) (part k (TR ilr (i + o) (f (i + o))) m))).
  Proof.
    intros s ilr f g o p kk jj l0 h0 Ho Hp Hkk Hjj Ks HT HG Hl0 Hh0.  assert (ND : is_local dt1 = false) by (destruct Hdt as [-> | ->]; reflexivity).
    assert (ave : forall i, cells i -> set s (a1 dt1 i 1) /\ val s (a1 dt1 i 1) = rt i).
    { intros i Hi. assert (X : s (a1 dt1 i 1) = s0 (dt1, (i, 1, 1))) by (unfold a1; now apply Ks).
      split; [|exact (val_eq _ _ _ X)]. apply (set_eq s0 s (dt1, (i, 1, 1))); [now apply Sr|exact X]. }
    set (up := fun i k m => mul A (mul A (1 # 2) (rt (i - p))) (val s (if k =? 1 then BMASDQ else BPASDQ, (i, m, 1)))).
    set (V := fun a : addr => match a with
      | (GADDM, (i, m, k)) => Some (sub A (val s (GADDM, (i, m, k))) (up (i + o) k m))
      | (GADDP, (i, m, k)) => Some (sub A (val s (GADDP, (i, m, k))) (up (i + o) k m)) | _ => None end).
    assert (H : mwrites (fun c => exists i, 1 <= i <= n + 1 /\ (exists m, 1 <= m <= meqn d /\
         (c = a1 dt1 (i - p) 1 \/ c = a1 BMASDQ i m \/
          ((c = (GADDM, (i - o, m, 1)) \/ nowhere c) \/ (c = (GADDP, (i - o, m, 1)) \/ nowhere c) \/
           (c = a1 dt1 (i - p) 1 \/ c = a1 BPASDQ i m \/ ((c = (GADDM, (i - o, m, 2)) \/ nowhere c) \/ (c = (GADDP, (i - o, m, 2)) \/ nowhere c))))))) s
      (loop 1 (n + 1) (fun i => loop 1 (meqn d) (fun m => f_gadd1 A d S dt1 i (kk i) (jj i) m)))
      (fun c => exists i, 1 <= i <= n + 1 /\ (exists m, 1 <= m <= meqn d /\
         (c = (GADDM, (i - o, m, 1)) \/ c = (GADDP, (i - o, m, 1)) \/ c = (GADDM, (i - o, m, 2)) \/ c = (GADDP, (i - o, m, 2))))) V).
    { assert (ND2 : dt1 <> GADDM /\ dt1 <> GADDP) by (destruct Hdt as [-> | ->]; split; discriminate). destruct ND2 as [N1 N2].
      apply mw_loop; [|sep]. intros i Hi. apply mw_loop; [|sep]. intros m Hq. rewrite Hkk, Hjj. unfold f_gadd1.
      destruct (ave (i - p) ltac:(unfold cells; lia)) as [B1 B2]. destruct (HT i m ltac:(unfold faces; lia) Hq) as (B3 & B4 & _).
      destruct (HG (i - o) m 1 ltac:(unfold cells; lia) Hq ltac:(lia)) as (G1 & G2 & _). destruct (HG (i - o) m 2 ltac:(unfold cells; lia) Hq ltac:(lia)) as (G3 & G4 & _).
      apply mw_read; [apply in_dt; unfold cells; lia|exact B1|]. apply mw_read; [inm|exact B3|]. rewrite B2. cbv zeta.
      assert (VM : forall k, V (GADDM, (i - o, m, k)) = Some (sub A (val s (GADDM, (i - o, m, k))) (up i k m))) by (intros k; unfold V; now replace (i - o + o) with i by lia).
      assert (VP : forall k, V (GADDP, (i - o, m, k)) = Some (sub A (val s (GADDP, (i - o, m, k))) (up i k m))) by (intros k; unfold V; now replace (i - o + o) with i by lia).
      apply mw_seq; [apply mw_dec; [inm|exact G1|exact (VM 1)]| |sep].
      apply mw_seq; [apply mw_dec; [inm|exact G2|exact (VP 1)]| |sep].
      apply mw_read; [apply in_dt; unfold cells; lia|exact B1|]. apply mw_read; [inm|exact B4|]. rewrite B2. cbv zeta.
      apply mw_seq; [apply mw_dec; [inm|exact G3|exact (VM 2)]| |sep].
      apply mw_dec; [inm|exact G4|exact (VP 2)]. }
    destruct (H s) as (s' & E & H1 & H2 & H3); [reflexivity|]. exists s'. split; [exact E|]. split.
    - intros a c N1 N2. apply H2. sep.
    - intros i m k Hi Hq Hk. destruct (HG i m k Hi Hq Hk) as (C1 & C2 & C3). split; [|split].
      + destruct (H3 (GADDM, (i, m, k))) as [X|X]; [exact (set_some _ _ _ X)|now apply (set_eq s)].
      + destruct (H3 (GADDP, (i, m, k))) as [X|X]; [exact (set_some _ _ _ X)|now apply (set_eq s)].
      + intros Hj. destruct (C3 Hj) as [D1 D2]. destruct (HT (i + o) m ltac:(unfold faces; lia) Hq) as (_ & _ & X). destruct (X ltac:(lia)) as [X1 X2].
        assert (UP : up (i + o) k m = mul A (mul A (1 # 2) (rt (i + o - p))) (part k (TR ilr (i + o) (f (i + o))) m)).
        { unfold up, part. destruct (k =? 1); [now rewrite (val_some _ _ _ X1)|now rewrite (val_some _ _ _ X2)]. }
        assert (Ek : k = 1 \/ k = 2) by lia. split.
        * rewrite (H1 (GADDM, (i, m, k))).
          -- unfold V. now rewrite UP, (val_some _ _ _ D1).
          -- exists (i + o). split; [lia|]. exists m. split; [exact Hq|]. replace (i + o - o) with i by lia. destruct Ek as [-> | ->]; tauto.
        * rewrite (H1 (GADDP, (i, m, k))).
          -- unfold V. now rewrite UP, (val_some _ _ _ D2).
          -- exists (i + o). split; [lia|]. exists m. split; [exact Hq|]. replace (i + o - o) with i by lia. destruct Ek as [-> | ->]; tauto.
  Qed.

  Local Notation am := (amdq A S (meqn d) ixy u al2 rt).
  Local Notation ap := (apdq A S (meqn d) ixy u al2 rt).
  Local Notation asd := (aside5 A S (meqn d) ixy u al1 al2 al3 rt).
  Lemma transverse_ok5 : forall s, keeps s -> fluct_ok s (fun i m => r_amdq (RP i) m) (fun i m => r_apdq (RP i) m) ->
    (second S = true -> cqxx_ok5 s) -> gadd_ok s 1 n (fun _ _ _ => 0%Q) -> method3 S <> 0 ->
    exists s', f_transverse5 A d S ixy n dt1 s = Some s' /\
      (forall a c, match a with AMDQ | APDQ | BMASDQ | BPASDQ | GADDM | GADDP => True | _ => s' (a, c) = s (a, c) end) /\
      gadd_ok s' 1 n asd.
  Proof.
    intros s Ks HF HC HG H3. unfold f_transverse5, sq.
    assert (ES : (1 <? method2 S) = second S) by (unfold second; destruct HS as (_ & _ & _ & X & _); destruct (Z.ltb_spec 1 (method2 S)), (Z.eqb_spec (method2 S) 2); try reflexivity; lia).
    assert (X : exists s1, cond ((1 <? method2 S) && (method3 S =? 2)) (f_split5 A d S n) s = Some s1 /\
      (forall a c, a <> AMDQ -> a <> APDQ -> s1 (a, c) = s (a, c)) /\ fluct_ok s1 am ap).
    { unfold amdq, apdq, cond. rewrite ES. destruct (second S) eqn:E2; cbn [andb].
      - destruct (method3 S =? 2) eqn:E3; [exact (split_ok5 s _ _ HF (HC eq_refl))|]. exists s. split; [reflexivity|]. split; [reflexivity|exact HF].
      - exists s. split; [reflexivity|]. split; [reflexivity|exact HF]. }
    destruct X as (s1 & E1 & Y1 & F1). rewrite E1. cbn [bind].
    assert (K1 : keeps s1) by (intros a c Ha; rewrite Y1; [now apply Ks|intros ->; discriminate Ha|intros ->; discriminate Ha]).
    destruct (rpt_ok s1 1 AMDQ am K1 (or_introl eq_refl)) as (s2 & E2 & Y2 & T2).
    { intros i m Hi Hq. destruct (F1 i m Hi Hq) as (C1 & _ & C3). split; [exact C1|intros Hj; apply C3, Hj]. }
    rewrite E2. cbn [bind].
    assert (K2 : keeps s2) by (intros a c Ha; rewrite Y2; [now apply K1|intros ->; discriminate Ha|intros ->; discriminate Ha]).
    assert (G2 : gadd_ok s2 1 n (fun _ _ _ => 0%Q)).
    { intros i m k Hi Hq Hk. destruct (HG i m k Hi Hq Hk) as (C1 & C2 & C3). rewrite !Y2, !Y1 by discriminate.
      split; [apply (set_eq s); [exact C1|now rewrite Y2, Y1 by discriminate]|]. split; [apply (set_eq s); [exact C2|now rewrite Y2, Y1 by discriminate]|exact C3]. }
    destruct (gadd_loop5 s2 1 am (fun _ _ _ => 0%Q) 1 1 (fun i => i - 1) (fun i => i - 1) 1 n) as (s3 & E3 & Y3 & G3); try reflexivity; try lia; try assumption.
    rewrite E3. cbn [bind].
    assert (K3 : keeps s3) by (intros a c Ha; rewrite Y3; [now apply K2|intros ->; discriminate Ha|intros ->; discriminate Ha]).
    destruct (rpt_ok s3 2 APDQ ap K3 (or_intror eq_refl)) as (s4 & E4 & Y4 & T4).
    { intros i m Hi Hq. destruct (F1 i m Hi Hq) as (_ & C2 & C3). rewrite Y3, Y2 by discriminate.
      split; [apply (set_eq s1); [exact C2|now rewrite Y3, Y2 by discriminate]|intros Hj; apply C3, Hj]. }
    rewrite E4. cbn [bind].
    assert (K4 : keeps s4) by (intros a c Ha; rewrite Y4; [now apply K3|intros ->; discriminate Ha|intros ->; discriminate Ha]).
    assert (G4 : gadd_ok s4 1 n (fun i k m => sub A 0 (mul A (mul A (1 # 2) (rt (i + 1 - 1))) (part k (TR 1 (i + 1) (am (i + 1))) m)))).
    { intros i m k Hi Hq Hk. destruct (G3 i m k Hi Hq Hk) as (C1 & C2 & C3). rewrite !Y4 by discriminate.
      split; [apply (set_eq s3); [exact C1|now rewrite Y4 by discriminate]|]. split; [apply (set_eq s3); [exact C2|now rewrite Y4 by discriminate]|exact C3]. }
    destruct (gadd_loop5 s4 2 ap (fun i k m => sub A 0 (mul A (mul A (1 # 2) (rt (i + 1 - 1))) (part k (TR 1 (i + 1) (am (i + 1))) m)))
      0 0 (fun i => i) (fun i => i) 1 n) as (s5 & E5 & Y5 & G5); try lia; try assumption.
    exists s5. split; [exact E5|]. split.
    - intros a c. destruct a; try exact Logic.I; now rewrite Y5, Y4, Y3, Y2, Y1 by discriminate.
    - intros i m k Hi Hq Hk. destruct (G5 i m k Hi Hq Hk) as (C1 & C2 & C3). split; [exact C1|]. split; [exact C2|]. intros Hj. destruct (C3 Hj) as [D1 D2].
      rewrite D1, D2. unfold aside5. destruct (Z.eqb_spec (method3 S) 0) as [X|_]; [contradiction|].
      replace (i + 1 - 1) with i by lia. replace (i + 0) with i by lia. replace (i - 0) with i by lia. split; reflexivity.
  Qed.

  (** *** the whole routine *)
  Lemma flux2_ok5 : keeps s0 /\ exists s' c, flux2_5 A d S ixy n dt1 s0 = Some (s', c) /\ keeps s' /\ lub courant 0 c /\
    fadd_ok s' (flux_left A S (meqn d) ixy u al2 rt) (flux_right A S (meqn d) ixy u al2 rt) /\ gadd_ok s' 1 n asd.
  Proof.
    assert (K0 : keeps s0) by (intros a c _; reflexivity). split; [exact K0|]. unfold flux2_5, sq.
    destruct (init_ok5 s0) as (s1 & E1 & Y1 & Z1). rewrite E1. cbn [bind].
    assert (K1 : keeps s1) by (intros a c Ha; rewrite Y1; [reflexivity|destruct a; try reflexivity; discriminate Ha]).
    destruct (rpn_ok s1 K1) as (s2 & E2 & Y2 & R2 & P2). rewrite E2. cbn [bind].
    assert (K2 : keeps s2) by (intros a c Ha; specialize (Y2 a c); destruct a; try discriminate Ha; rewrite Y2; now apply K1).
    destruct (godunov_ok5 s2 R2) as (s3 & E3 & Y3 & G3).
    { intros i m Hi Hq. rewrite (Y2 FADDM), (Y2 FADDP). destruct (Z1 i m Hi Hq) as (X1 & X2 & _). now split. }
    rewrite E3. cbn [bind].
    assert (K3 : keeps s3) by (intros a c Ha; rewrite Y3; [now apply K2|intros ->; discriminate Ha|intros ->; discriminate Ha]).
    assert (P3 : speeds s3) by (intros i mw Hi Hw; rewrite Y3 by discriminate; now apply P2).
    assert (R3 : after_rpn s3) by (intros i m Hi Hq; rewrite !Y3 by discriminate; destruct (R2 i m Hi Hq) as (X1 & X2 & X3); do 2 (split; [assumption|]); intros mw Hw; rewrite Y3 by discriminate; now apply X3).
    destruct (cfl_ok s3 K3 P3) as (c & Ec & Lc). rewrite Ec. cbn [bind].
    assert (F3 : fadd_ok s3 (fun i m => add A 0 (r_amdq (RP i) m)) (fun i m => sub A 0 (r_apdq (RP i) m))) by exact G3.
    assert (ES : negb (method2 S =? 1) = second S).
    { unfold second. destruct HS as (_ & _ & _ & X & _). destruct (Z.eqb_spec (method2 S) 1), (Z.eqb_spec (method2 S) 2); try reflexivity; lia. }
    assert (X : exists s4, cond (negb (method2 S =? 1)) (f_correct5 A d S n dt1) s3 = Some s4 /\
      (forall a c, match a with WAVE | CQXX | FADDM | FADDP => True | _ => s4 (a, c) = s3 (a, c) end) /\
      (second S = true -> cqxx_ok5 s4) /\ fadd_ok s4 (flux_left A S (meqn d) ixy u al2 rt) (flux_right A S (meqn d) ixy u al2 rt)).
    { rewrite ES. unfold flux_left, flux_right. destruct (second S); cbn [cond].
      - destruct (correct_ok5 s3 _ _ K3 R3 P3 F3) as (s4 & E4 & Y4 & C4 & F4). exists s4. split; [exact E4|]. split; [exact Y4|]. split; [intros _; exact C4|exact F4].
      - exists s3. split; [reflexivity|]. split; [intros a c'; destruct a; try exact Logic.I; reflexivity|]. split; [discriminate|exact F3]. }
    destruct X as (s4 & E4 & Y4 & C4 & F4). rewrite E4. cbn [bind].
    assert (K4 : keeps s4) by (intros a c' Ha; specialize (Y4 a c'); destruct a; try discriminate Ha; rewrite Y4; now apply K3).
    assert (G4 : gadd_ok s4 1 n (fun _ _ _ => 0%Q)).
    { intros i m k Hi Hq Hk. destruct (Z1 i m Hi Hq) as (_ & _ & X). destruct (X k Hk) as [X1 X2].
      assert (V1 : s4 (GADDM, (i, m, k)) = Some 0%Q) by (rewrite (Y4 GADDM), Y3, (Y2 GADDM) by discriminate; exact X1).
      assert (V2 : s4 (GADDP, (i, m, k)) = Some 0%Q) by (rewrite (Y4 GADDP), Y3, (Y2 GADDP) by discriminate; exact X2).
      split; [exact (set_some _ _ _ V1)|]. split; [exact (set_some _ _ _ V2)|]. intros _. now split. }
    destruct (Z.eqb_spec (method3 S) 0) as [M3|M3]; cbn [negb cond].
    - exists s4, c. split; [reflexivity|]. split; [exact K4|]. split; [exact Lc|]. split; [exact F4|].
      intros i m k Hi Hq Hk. unfold aside5. rewrite M3. exact (G4 i m k Hi Hq Hk).
    - destruct (transverse_ok5 s4 K4) as (s5 & E5 & Y5 & G5); try assumption.
      { intros i m Hi Hq. rewrite (Y4 AMDQ), (Y4 APDQ). destruct (R3 i m Hi Hq) as (X1 & X2 & _).
        split; [apply (set_eq s3); [exact (set_some _ _ _ X1)|apply (Y4 AMDQ)]|]. split; [apply (set_eq s3); [exact (set_some _ _ _ X2)|apply (Y4 APDQ)]|]. intros _. now split. }
      rewrite E5. cbn [bind]. exists s5, c. split; [reflexivity|]. split; [|split; [exact Lc|split; [|exact G5]]].
      + intros a c' Ha. specialize (Y5 a c'). destruct a; try discriminate Ha; rewrite Y5; now apply K4.
      + intros i m Hi Hq. destruct (F4 i m Hi Hq) as (C1 & C2 & C3). rewrite (Y5 FADDM), (Y5 FADDP).
        split; [apply (set_eq s4); [exact C1|apply (Y5 FADDM)]|]. split; [apply (set_eq s4); [exact C2|apply (Y5 FADDP)]|exact C3].
  Qed.
End Slice.
