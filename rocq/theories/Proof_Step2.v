(** The fluxes of a line depend on a few cells only; the sweeps over all slices. *)
From Coq Require Import ZArith QArith Qminmax Qabs List Lia Lqa Bool.
From Verif Require Import Base_Float Model_Face Model_Grid Proof_Grid Proof_Tag Proof_Diag Model_Step Spec_Step Proof_Step0 Proof_Step1.
Import ListNotations.
Open Scope Z_scope.

(** *** dependence on a window of cells *)
Section Window.
  Variable A : arith.
  Variable S : solver.
  Variable meqn ixy : Z.
  Variable lo hi : Z.
  Variable u u' b b' a a' c c' : line.
  Variable r r' : Z -> Q.
  Definition same (n : Z) (f g : line) : Prop := forall i m, lo <= i <= hi -> 1 <= m <= n -> f i m = g i m.
  Hypothesis Eu : same meqn u u'.
  Hypothesis Eb : same (maux S) b b'.
  Hypothesis Ea : same (maux S) a a'.
  Hypothesis Ec : same (maux S) c c'.
  Hypothesis Er : forall i, lo <= i <= hi -> r i = r' i.

  Lemma at_interface_ext : forall i, lo < i <= hi -> at_interface S meqn ixy u a i = at_interface S meqn ixy u' a' i.
  Proof.
    intros i Hi. unfold at_interface. rewrite (vec_ext meqn (u (i - 1)) (u' (i - 1))), (vec_ext meqn (u i) (u' i)),
      (vec_ext (maux S) (a (i - 1)) (a' (i - 1))), (vec_ext (maux S) (a i) (a' i)); [reflexivity| | | |]; intros k Hk; (apply Ea || apply Eu); lia.
  Qed.
  Lemma wave_ext : forall i mw m, lo < i <= hi -> wave S meqn ixy u a i mw m = wave S meqn ixy u' a' i mw m.
  Proof. intros i mw m Hi. unfold wave. now rewrite at_interface_ext. Qed.
  Lemma speed_ext : forall i mw, lo < i <= hi -> speed S meqn ixy u a i mw = speed S meqn ixy u' a' i mw.
  Proof. intros i mw Hi. unfold speed. now rewrite at_interface_ext. Qed.
  Lemma norm2_ext : forall i mw, lo < i <= hi -> norm2 A S meqn ixy u a i mw = norm2 A S meqn ixy u' a' i mw.
  Proof. intros i mw Hi. unfold norm2. apply total_ext. intros k Hk. now rewrite wave_ext. Qed.
  Lemma dot_ext : forall i mw, lo < i -> i + 1 <= hi -> dot A S meqn ixy u a i mw = dot A S meqn ixy u' a' i mw.
  Proof. intros i mw Hi Hj. unfold dot. apply total_ext. intros k Hk. rewrite !wave_ext by lia. reflexivity. Qed.
  Lemma limited_ext : forall i mw m, lo + 1 < i -> i + 1 <= hi -> limited A S meqn ixy u a i mw m = limited A S meqn ixy u' a' i mw m.
  Proof.
    intros i mw m Hi Hj. unfold limited. rewrite norm2_ext, wave_ext, speed_ext by lia. rewrite (dot_ext i), (dot_ext (i - 1)) by lia. reflexivity.
  Qed.
  Lemma correction_ext : forall i m, lo + 1 < i -> i + 1 <= hi -> correction A S meqn ixy u a r i m = correction A S meqn ixy u' a' r' i m.
  Proof.
    intros i m Hi Hj. unfold correction. rewrite (Er (i - 1)), (Er i) by lia. apply total_ext. intros k Hk. rewrite speed_ext, limited_ext by lia. reflexivity.
  Qed.
  Lemma flux_left_ext : forall i m, lo + 1 < i -> i + 1 <= hi -> flux_left A S meqn ixy u a r i m = flux_left A S meqn ixy u' a' r' i m.
  Proof. intros i m Hi Hj. unfold flux_left. rewrite at_interface_ext, correction_ext by lia. reflexivity. Qed.
  Lemma flux_right_ext : forall i m, lo + 1 < i -> i + 1 <= hi -> flux_right A S meqn ixy u a r i m = flux_right A S meqn ixy u' a' r' i m.
  Proof. intros i m Hi Hj. unfold flux_right. rewrite at_interface_ext, correction_ext by lia. reflexivity. Qed.
  Lemma transverse_ext : forall ilr i dq dq', lo < i <= hi -> (forall m, 1 <= m <= meqn -> dq m = dq' m) ->
    transverse S meqn ixy u b a c ilr i dq = transverse S meqn ixy u' b' a' c' ilr i dq'.
  Proof.
    intros ilr i dq dq' Hi Hd. unfold transverse.
    rewrite (vec_ext meqn (u (i - 1)) (u' (i - 1))), (vec_ext meqn (u i) (u' i)),
      (vec_ext (maux S) (a (i - 1)) (a' (i - 1))), (vec_ext (maux S) (a i) (a' i)),
      (vec_ext (maux S) (b (i - 1)) (b' (i - 1))), (vec_ext (maux S) (b i) (b' i)),
      (vec_ext (maux S) (c (i - 1)) (c' (i - 1))), (vec_ext (maux S) (c i) (c' i)), (vec_ext meqn dq dq' Hd); [reflexivity| | | | | | | |]; intros k Hk;
      (apply Ea || apply Eu || apply Eb || apply Ec); lia.
  Qed.
  Lemma aside_ext : forall i k m, lo + 1 < i -> i + 2 <= hi -> aside A S meqn ixy u b a c r i k m = aside A S meqn ixy u' b' a' c' r' i k m.
  Proof.
    intros i k m Hi Hj. unfold aside. destruct (method3 S =? 0); [reflexivity|].
    rewrite (Er i) by lia. rewrite (Er (if use_fwaves S then i - 1 else i)) by (destruct (use_fwaves S); lia).
    rewrite (transverse_ext 1 (i + 1) _ (amdq A S meqn ixy u' a' r' (i + 1))); [|lia|].
    - rewrite (transverse_ext 2 i _ (apdq A S meqn ixy u' a' r' i)); [reflexivity|lia|].
      intros q Hq. unfold apdq. rewrite at_interface_ext, correction_ext by lia. reflexivity.
    - intros q Hq. unfold amdq. rewrite at_interface_ext, correction_ext by lia. reflexivity.
  Qed.
End Window.

(** *** one sweep; the direction is a truth value, true for x *)
Definition ixy_of (b : bool) : Z := if b then 1 else 2.
Definition n_of (d : dims) (b : bool) : Z := if b then mx d else my d.
Definition np_of (d : dims) (b : bool) : Z := if b then my d else mx d.
Definition dt_of (b : bool) : nm := if b then DTDX1 else DTDY1.
Definition ma_of (b : bool) : nm := if b then FM else GM.
Definition pa_of (b : bool) : nm := if b then FP else GP.
Definition mb_of (b : bool) : nm := if b then GM else FM.
Definition pb_of (b : bool) : nm := if b then GP else FP.
Definition at_of (b : bool) : Z -> Z -> Z -> cell := if b then at_x else at_y.
Definition along (b : bool) (f : field) (p : Z) : line := fun i m => if b then f i p m else f p i m.
Definition of_mem (s : mem) (a : nm) : field := fun i j m => val s (a, (i, j, m)).

Section Sweep.
  Variable A : arith.
  Variable d : dims.
  Variable S : solver.
  Hypothesis Hb : 2 <= mbc d.
  Hypothesis Hx : 1 <= mx d.
  Hypothesis Hy : 1 <= my d.
  Hypothesis Hm : 0 <= meqn d.
  Hypothesis HS : options_ok S.

  Definition inside (i j : Z) : Prop := 1 - mbc d <= i <= mx d + mbc d /\ 1 - mbc d <= j <= my d + mbc d.
  Definition filled (s : mem) : Prop :=
    (forall i j m, inside i j -> 1 <= m <= meqn d -> set s (QOLD, (i, j, m))) /\
    (forall i j m, inside i j -> 1 <= m <= maux S -> set s (AUX, (i, j, m))).
  Definition ratio_of (b : bool) (X : field) (dtd : Q) (p i : Z) : Q := if mcapa S =? 0 then dtd else quo A dtd (along b X p i (mcapa S)).

  Local Ltac bsep b := destruct b; cbn [ixy_of n_of np_of dt_of ma_of pa_of mb_of pb_of at_of] in *; cbv [at_x at_y] in *; sep.
  Lemma n_max : forall b, n_of d b <= maxm d.
  Proof. intros []; unfold maxm; cbn [n_of]; lia. Qed.
  Lemma n_pos : forall b, 1 <= n_of d b.
  Proof. intros []; cbn [n_of]; lia. Qed.

  Local Ltac binm b := pose proof (n_max true); pose proof (n_max false); destruct b; cbn [ixy_of n_of np_of dt_of ma_of pa_of mb_of pb_of at_of] in *; cbv [at_x at_y] in *; unfold a1; cbn [in_mem in1]; unfold in_q; cbn [mx my mbc meqn]; rewrite ?andb_true_iff, ?Z.leb_le; repeat split; lia.

  (** the state in which flux2 is called *)
  Definition inputs (b : bool) (U X : field) (dtd : Q) (p : Z) (s : mem) : Prop :=
    forall i, 1 - mbc d <= i <= n_of d b + mbc d ->
      (forall m, 1 <= m <= meqn d -> s (Q1D, (i, m, 1)) = Some (along b U p i m)) /\
      (forall m, 1 <= m <= maux S -> s (AUX1, (i, m, 1)) = Some (along b X (p - 1) i m) /\ s (AUX2, (i, m, 1)) = Some (along b X p i m) /\
         s (AUX3, (i, m, 1)) = Some (along b X (p + 1) i m)) /\
      s (dt_of b, (i, 1, 1)) = Some (ratio_of b X dtd p i).
  Definition ratios (b : bool) (dtd : Q) (s : mem) : Prop :=
    mcapa S = 0 -> forall i, 1 - mbc d <= i <= n_of d b + mbc d -> s (dt_of b, (i, 1, 1)) = Some dtd.
  Lemma copy_ok : forall b dtd p s, 2 - mbc d <= p <= np_of d b + mbc d - 1 -> filled s -> ratios b dtd s ->
    exists s', s_copy A d S (n_of d b) (dt_of b) dtd (at_of b) p s = Some s' /\
      (forall a c, match a with Q1D | AUX1 | AUX2 | AUX3 => True | DTDX1 | DTDY1 => mcapa S = 0 -> s' (a, c) = s (a, c) | _ => s' (a, c) = s (a, c) end) /\
      inputs b (of_mem s QOLD) (of_mem s AUX) dtd p s'.
  Proof.
    intros b dtd p s Hp [FQ FA] HR. unfold s_copy, sq.
    (* q *)
    set (V1 := fun a : addr => match a with (_, (i, m, _)) => Some (along b (of_mem s QOLD) p i m) end).
    assert (H1 : mwrites (fun c => exists m, 1 <= m <= meqn d /\ (exists i, 1 - mbc d <= i <= n_of d b + mbc d /\ (c = (QOLD, at_of b p i m) \/ nowhere c))) s
      (loop 1 (meqn d) (fun m => loop (1 - mbc d) (n_of d b + mbc d) (fun i => movm d S (a1 Q1D i m) (QOLD, at_of b p i m))))
      (fun c => exists m, 1 <= m <= meqn d /\ (exists i, 1 - mbc d <= i <= n_of d b + mbc d /\ c = a1 Q1D i m)) V1).
    { apply mw_loop; [|bsep b]. intros m Hq. apply mw_loop; [|bsep b]. intros i Hi.
      apply mw_mov; [binm b|binm b| |destruct b; reflexivity]. destruct b; apply FQ; unfold inside; cbn [n_of np_of] in *; lia. }
    destruct (H1 s) as (s1 & E1 & W1 & N1 & _); [reflexivity|]. rewrite E1. cbn [bind].
    assert (F1 : forall a c, a <> Q1D -> s1 (a, c) = s (a, c)) by (intros a c Ha; apply N1; intros (m & _ & i & _ & X); apply Ha; inversion X; reflexivity).
    (* capacity *)
    set (V2 := fun a : addr => match a with (_, (i, _, _)) => Some (quo A dtd (along b (of_mem s AUX) p i (mcapa S))) end).
    assert (H2 : mcapa S <> 0 -> mwrites (fun c => exists i, 1 - mbc d <= i <= n_of d b + mbc d /\ (c = (AUX, at_of b p i (mcapa S)) \/ nowhere c)) s
      (loop (1 - mbc d) (n_of d b + mbc d) (fun i s => bind (rdm d S s (AUX, at_of b p i (mcapa S))) (fun c => wrm d S (a1 (dt_of b) i 1) (quo A dtd c) s)))
      (fun c => exists i, 1 - mbc d <= i <= n_of d b + mbc d /\ c = a1 (dt_of b) i 1) V2).
    { intros HC. assert (Hcap : 1 <= mcapa S <= maux S) by (destruct HS as (_ & _ & X & _); lia).
      apply mw_loop; [|bsep b]. intros i Hi. apply mw_read; [binm b|destruct b; apply FA; unfold inside; cbn [n_of np_of] in *; lia|].
      apply mw_wr; [binm b|destruct b; reflexivity]. }
    assert (X : exists s2, cond (0 <? mcapa S) (loop (1 - mbc d) (n_of d b + mbc d) (fun i s =>
        bind (rdm d S s (AUX, at_of b p i (mcapa S))) (fun c => wrm d S (a1 (dt_of b) i 1) (quo A dtd c) s))) s1 = Some s2 /\
      (forall a c, a <> dt_of b \/ mcapa S = 0 -> s2 (a, c) = s1 (a, c)) /\
      (forall i, 1 - mbc d <= i <= n_of d b + mbc d -> s2 (dt_of b, (i, 1, 1)) = Some (ratio_of b (of_mem s AUX) dtd p i))).
    { assert (Hcap : 0 <= mcapa S) by (destruct HS as (_ & _ & X & _); lia). unfold ratio_of. destruct (Z.ltb_spec 0 (mcapa S)) as [L|L]; cbn [cond].
      - destruct (H2 ltac:(lia) s1) as (s2 & E2 & W2 & N2 & _).
        { intros c (i & Hi & [-> |[]]). apply F1. discriminate. }
        exists s2. split; [exact E2|]. split.
        + intros a c [Ha|Ha]; [|lia]. apply N2. intros (i & _ & Y). apply Ha. inversion Y. reflexivity.
        + intros i Hi. rewrite (proj2 (Z.eqb_neq (mcapa S) 0)) by lia. apply (W2 (dt_of b, (i, 1, 1))). exists i. now split.
      - exists s1. split; [reflexivity|]. split; [reflexivity|]. intros i Hi. rewrite (proj2 (Z.eqb_eq (mcapa S) 0)) by lia.
        rewrite F1 by (destruct b; discriminate). apply HR; [lia|exact Hi]. }
    destruct X as (s2 & E2 & N2 & W2). rewrite E2. cbn [bind].
    (* aux *)
    set (V3 := fun a : addr => match a with
      | (AUX1, (i, m, _)) => Some (along b (of_mem s AUX) (p - 1) i m) | (AUX2, (i, m, _)) => Some (along b (of_mem s AUX) p i m)
      | (_, (i, m, _)) => Some (along b (of_mem s AUX) (p + 1) i m) end).
    assert (H3 : mwrites (fun c => exists m, 1 <= m <= maux S /\ (exists i, 1 - mbc d <= i <= n_of d b + mbc d /\
        ((c = (AUX, at_of b (p - 1) i m) \/ nowhere c) \/ ((c = (AUX, at_of b p i m) \/ nowhere c) \/ (c = (AUX, at_of b (p + 1) i m) \/ nowhere c))))) s
      (loop 1 (maux S) (fun ma => loop (1 - mbc d) (n_of d b + mbc d) (fun i =>
        sq (movm d S (a1 AUX1 i ma) (AUX, at_of b (p - 1) i ma)) (sq (movm d S (a1 AUX2 i ma) (AUX, at_of b p i ma)) (movm d S (a1 AUX3 i ma) (AUX, at_of b (p + 1) i ma))))))
      (fun c => exists m, 1 <= m <= maux S /\ (exists i, 1 - mbc d <= i <= n_of d b + mbc d /\ (c = a1 AUX1 i m \/ (c = a1 AUX2 i m \/ c = a1 AUX3 i m)))) V3).
    { assert (FA' : forall p' i m, p - 1 <= p' <= p + 1 -> 1 - mbc d <= i <= n_of d b + mbc d -> 1 <= m <= maux S -> set s (AUX, at_of b p' i m)).
      { intros p' i m Hp' Hi Hq. destruct b; apply FA; unfold inside; cbn [n_of np_of] in *; lia. }
      apply mw_loop; [|bsep b]. intros m Hq. apply mw_loop; [|bsep b]. intros i Hi.
      apply mw_seq; [apply mw_mov; [binm b|binm b|apply FA'; lia|destruct b; reflexivity]| |bsep b].
      apply mw_seq; [apply mw_mov; [binm b|binm b|apply FA'; lia|destruct b; reflexivity]| |bsep b].
      apply mw_mov; [binm b|binm b|apply FA'; lia|destruct b; reflexivity]. }
    assert (X : exists s3, cond (0 <? maux S) (loop 1 (maux S) (fun ma => loop (1 - mbc d) (n_of d b + mbc d) (fun i =>
        sq (movm d S (a1 AUX1 i ma) (AUX, at_of b (p - 1) i ma)) (sq (movm d S (a1 AUX2 i ma) (AUX, at_of b p i ma)) (movm d S (a1 AUX3 i ma) (AUX, at_of b (p + 1) i ma)))))) s2 = Some s3 /\
      (forall a c, a <> AUX1 -> a <> AUX2 -> a <> AUX3 -> s3 (a, c) = s2 (a, c)) /\
      (forall i m, 1 - mbc d <= i <= n_of d b + mbc d -> 1 <= m <= maux S -> s3 (AUX1, (i, m, 1)) = Some (along b (of_mem s AUX) (p - 1) i m) /\
         s3 (AUX2, (i, m, 1)) = Some (along b (of_mem s AUX) p i m) /\ s3 (AUX3, (i, m, 1)) = Some (along b (of_mem s AUX) (p + 1) i m))).
    { destruct (Z.ltb_spec 0 (maux S)) as [L|L]; cbn [cond].
      - destruct (H3 s2) as (s3 & E3 & W3 & N3 & _).
        { intros c (m & _ & i & _ & Z). assert (Y : exists c', c = (AUX, c')) by (destruct Z as [[->|[]]|[[->|[]]|[->|[]]]]; eexists; reflexivity).
          destruct Y as (c' & ->). rewrite N2 by (left; destruct b; discriminate). apply F1. discriminate. }
        exists s3. split; [exact E3|]. split.
        + intros a c A1 A2 A3. apply N3. intros (m & _ & i & _ & [X|[X|X]]); inversion X; congruence.
        + intros i m Hi Hq. split; [|split].
          * apply (W3 (AUX1, (i, m, 1))). exists m. split; [exact Hq|]. exists i. split; [exact Hi|]. now left.
          * apply (W3 (AUX2, (i, m, 1))). exists m. split; [exact Hq|]. exists i. split; [exact Hi|]. right. now left.
          * apply (W3 (AUX3, (i, m, 1))). exists m. split; [exact Hq|]. exists i. split; [exact Hi|]. right. now right.
      - exists s2. split; [reflexivity|]. split; [reflexivity|]. intros i m Hi Hq. lia. }
    destruct X as (s3 & E3 & N3 & W3). exists s3. split; [exact E3|]. split.
    - intros a c. destruct a; try exact Logic.I; try (intros HC0; rewrite N3 by discriminate; rewrite N2 by (now right); now apply F1);
        (rewrite N3 by discriminate; rewrite N2 by (left; destruct b; discriminate); now apply F1).
    - intros i Hi. split; [|split].
      + intros m Hq. rewrite N3 by discriminate. rewrite N2 by (left; destruct b; discriminate). apply (W1 (Q1D, (i, m, 1))).
        exists m. split; [exact Hq|]. exists i. now split.
      + intros m Hq. apply W3; assumption.
      + rewrite N3 by (destruct b; discriminate). apply W2, Hi.
  Qed.

  (** *** the slice, in terms of the fields *)
  Definition f_left (b : bool) (U X : field) (dtd : Q) (p : Z) := flux_left A S (meqn d) (ixy_of b) (along b U p) (along b X p) (ratio_of b X dtd p).
  Definition f_right (b : bool) (U X : field) (dtd : Q) (p : Z) := flux_right A S (meqn d) (ixy_of b) (along b U p) (along b X p) (ratio_of b X dtd p).
  Definition f_aside (b : bool) (U X : field) (dtd : Q) (p : Z) :=
    aside A S (meqn d) (ixy_of b) (along b U p) (along b X (p - 1)) (along b X p) (along b X (p + 1)) (ratio_of b X dtd p).
  Definition courants (b : bool) (U X : field) (dtd : Q) (p : Z) (x : Q) : Prop :=
    exists mw, 1 <= mw <= mwaves S /\ exists i, 1 <= i <= n_of d b + 1 /\
      (x = mul A (ratio_of b X dtd p i) (speed S (meqn d) (ixy_of b) (along b U p) (along b X p) i mw) \/
       x = mul A (- ratio_of b X dtd p (i - 1)) (speed S (meqn d) (ixy_of b) (along b U p) (along b X p) i mw)).
  Lemma lub_ext : forall P P' v0 v, (forall x, P x <-> P' x) -> lub P v0 v -> lub P' v0 v.
  Proof.
    intros P P' v0 v H (L1 & L2 & L3). split; [exact L1|]. split; [intros x Hx'; apply L2, H, Hx'|].
    destruct L3 as [L3|(x & L3 & L4)]; [now left|]. right. exists x. split; [now apply H|exact L4].
  Qed.
  Lemma slice_ok : forall b U X dtd p s, inputs b U X dtd p s -> exists s' c,
    flux2 A d S (ixy_of b) (n_of d b) (dt_of b) s = Some (s', c) /\ (forall a c, is_local a = false -> s' (a, c) = s (a, c)) /\
    lub (courants b U X dtd p) 0 c /\
    fadd_ok d (n_of d b) s' (f_left b U X dtd p) (f_right b U X dtd p) /\ gadd_ok d (n_of d b) s' 1 (n_of d b) (f_aside b U X dtd p).
  Proof.
    intros b U X dtd p s HI. pose proof (n_max b) as HM. pose proof (n_pos b) as HP.
    assert (HD : dt_of b = DTDX1 \/ dt_of b = DTDY1) by (destruct b; [now left|now right]).
    destruct (flux2_ok A d S (ixy_of b) (n_of d b) (dt_of b) Hb HP HM Hm HS HD s) as (_ & s' & c & E & K & L & F & G).
    { intros i m Hi Hq. exact (set_some _ _ _ (proj1 (HI i Hi) m Hq)). }
    { intros i m Hi Hq. exact (set_some _ _ _ (proj1 (proj1 (proj2 (HI i Hi)) m Hq))). }
    { intros i m Hi Hq. exact (set_some _ _ _ (proj1 (proj2 (proj1 (proj2 (HI i Hi)) m Hq)))). }
    { intros i m Hi Hq. exact (set_some _ _ _ (proj2 (proj2 (proj1 (proj2 (HI i Hi)) m Hq)))). }
    { intros i Hi. exact (set_some _ _ _ (proj2 (proj2 (HI i Hi)))). }
    assert (Eu : same (1 - mbc d) (n_of d b + mbc d) (meqn d) (u s) (along b U p)).
    { intros i m Hi Hq. exact (val_some _ _ _ (proj1 (HI i Hi) m Hq)). }
    assert (E1 : same (1 - mbc d) (n_of d b + mbc d) (maux S) (al1 s) (along b X (p - 1))).
    { intros i m Hi Hq. exact (val_some _ _ _ (proj1 (proj1 (proj2 (HI i Hi)) m Hq))). }
    assert (E2 : same (1 - mbc d) (n_of d b + mbc d) (maux S) (al2 s) (along b X p)).
    { intros i m Hi Hq. exact (val_some _ _ _ (proj1 (proj2 (proj1 (proj2 (HI i Hi)) m Hq)))). }
    assert (E3 : same (1 - mbc d) (n_of d b + mbc d) (maux S) (al3 s) (along b X (p + 1))).
    { intros i m Hi Hq. exact (val_some _ _ _ (proj2 (proj2 (proj1 (proj2 (HI i Hi)) m Hq)))). }
    assert (Er : forall i, 1 - mbc d <= i <= n_of d b + mbc d -> rt (dt_of b) s i = ratio_of b X dtd p i).
    { intros i Hi. exact (val_some _ _ _ (proj2 (proj2 (HI i Hi)))). }
    exists s', c. split; [exact E|]. split; [exact K|]. split; [|split].
    - apply (lub_ext (courant A d S (ixy_of b) (n_of d b) (dt_of b) s)); [|exact L]. intros x. unfold courant, courants.
      split; intros (mw & Hw & i & Hi & Y); exists mw; (split; [exact Hw|]); exists i; (split; [exact Hi|]).
      + rewrite <- !Er by lia. rewrite <- (speed_ext S (meqn d) (ixy_of b) _ _ _ _ _ _ Eu E2) by lia. exact Y.
      + rewrite !Er by lia. rewrite (speed_ext S (meqn d) (ixy_of b) _ _ _ _ _ _ Eu E2) by lia. exact Y.
    - intros i m Hi Hq. destruct (F i m Hi Hq) as (C1 & C2 & C3). split; [exact C1|]. split; [exact C2|]. intros Hj. destruct (C3 Hj) as [D1 D2].
      unfold f_left, f_right. split.
      + rewrite D1. f_equal. apply (flux_left_ext A S (meqn d) (ixy_of b) _ _ _ _ _ _ _ _ Eu E2 Er); lia.
      + rewrite D2. f_equal. apply (flux_right_ext A S (meqn d) (ixy_of b) _ _ _ _ _ _ _ _ Eu E2 Er); lia.
    - intros i m k Hi Hq Hk. destruct (G i m k Hi Hq Hk) as (C1 & C2 & C3). split; [exact C1|]. split; [exact C2|]. intros Hj. destruct (C3 Hj) as [D1 D2].
      assert (Z : aside A S (meqn d) (ixy_of b) (u s) (al1 s) (al2 s) (al3 s) (rt (dt_of b) s) i k m = f_aside b U X dtd p i k m)
        by (apply (aside_ext A S (meqn d) (ixy_of b) _ _ _ _ _ _ _ _ _ _ _ _ Eu E1 E2 E3 Er); lia).
      rewrite <- Z. now split.
  Qed.

  (** *** adding a slice to the fluxes *)
  Definition is_flux (a : nm) : bool := match a with FM | FP | GM | GP => true | _ => false end.
  Definition fluxes_set (s : mem) : Prop := forall a i j m, is_flux a = true -> inside i j -> 1 <= m <= meqn d -> set s (a, (i, j, m)).
  Definition src (b : bool) (p : Z) (a : nm) (p' i m : Z) : addr :=
    match b, a with
    | true, FM | false, GM => (FADDM, (i, m, 1)) | true, FP | false, GP => (FADDP, (i, m, 1))
    | true, GM | false, FM => (GADDM, (i, m, if p' =? p then 1 else 2)) | _, _ => (GADDP, (i, m, if p' =? p then 1 else 2)) end.
  Lemma update_ok : forall b p s, 2 - mbc d <= p <= np_of d b + mbc d - 1 -> fluxes_set s ->
    (forall i m, 1 - mbc d <= i <= n_of d b + mbc d -> 1 <= m <= meqn d -> set s (FADDM, (i, m, 1)) /\ set s (FADDP, (i, m, 1))) ->
    (forall i m k, 1 - mbc d <= i <= n_of d b + mbc d -> 1 <= m <= meqn d -> 1 <= k <= 2 -> set s (GADDM, (i, m, k)) /\ set s (GADDP, (i, m, k))) ->
    exists s', s_update A d S (n_of d b) (ma_of b) (pa_of b) (mb_of b) (pb_of b) (at_of b) p s = Some s' /\
      (forall a c, is_flux a = false -> s' (a, c) = s (a, c)) /\ fluxes_set s' /\
      (forall i m, 2 - mbc d <= i <= n_of d b + mbc d -> 1 <= m <= meqn d ->
         s' (ma_of b, at_of b p i m) = Some (add A (val s (ma_of b, at_of b p i m)) (val s (FADDM, (i, m, 1)))) /\
         s' (pa_of b, at_of b p i m) = Some (add A (val s (pa_of b, at_of b p i m)) (val s (FADDP, (i, m, 1)))) /\
         s' (mb_of b, at_of b p i m) = Some (add A (val s (mb_of b, at_of b p i m)) (val s (GADDM, (i, m, 1)))) /\
         s' (pb_of b, at_of b p i m) = Some (add A (val s (pb_of b, at_of b p i m)) (val s (GADDP, (i, m, 1)))) /\
         s' (mb_of b, at_of b (p + 1) i m) = Some (add A (val s (mb_of b, at_of b (p + 1) i m)) (val s (GADDM, (i, m, 2)))) /\
         s' (pb_of b, at_of b (p + 1) i m) = Some (add A (val s (pb_of b, at_of b (p + 1) i m)) (val s (GADDP, (i, m, 2))))) /\
      (forall p' i m, p' <> p -> s' (ma_of b, at_of b p' i m) = s (ma_of b, at_of b p' i m) /\ s' (pa_of b, at_of b p' i m) = s (pa_of b, at_of b p' i m)) /\
      (forall p' i m, p' <> p -> p' <> p + 1 -> s' (mb_of b, at_of b p' i m) = s (mb_of b, at_of b p' i m) /\ s' (pb_of b, at_of b p' i m) = s (pb_of b, at_of b p' i m)).
  Proof.
    intros b p s Hp FS SF SG.
    set (V := fun a : addr => let '(nm, (x, y, m)) := a in
      Some (add A (val s (nm, (x, y, m))) (val s (src b p nm (if b then y else x) (if b then x else y) m)))).
    assert (Hset : forall a p' i m, is_flux a = true -> p <= p' <= p + 1 -> 2 - mbc d <= i <= n_of d b + mbc d -> 1 <= m <= meqn d -> set s (a, at_of b p' i m)).
    { intros a p' i m Ha Hp' Hi Hq. destruct b; apply FS; try assumption; unfold inside; cbn [n_of np_of] in *; lia. }
    assert (V0 : forall a i m, V (a, at_of b p i m) = Some (add A (val s (a, at_of b p i m)) (val s (src b p a p i m)))) by (intros; destruct b; reflexivity).
    assert (V1 : forall a i m, V (a, at_of b (p + 1) i m) = Some (add A (val s (a, at_of b (p + 1) i m)) (val s (src b p a (p + 1) i m)))) by (intros; destruct b; reflexivity).
    assert (P0 : p =? p = true) by apply Z.eqb_refl. assert (P1 : p + 1 =? p = false) by (apply Z.eqb_neq; lia).
    assert (VV : forall i m, V (ma_of b, at_of b p i m) = Some (add A (val s (ma_of b, at_of b p i m)) (val s (FADDM, (i, m, 1)))) /\
         V (pa_of b, at_of b p i m) = Some (add A (val s (pa_of b, at_of b p i m)) (val s (FADDP, (i, m, 1)))) /\
         V (mb_of b, at_of b p i m) = Some (add A (val s (mb_of b, at_of b p i m)) (val s (GADDM, (i, m, 1)))) /\
         V (pb_of b, at_of b p i m) = Some (add A (val s (pb_of b, at_of b p i m)) (val s (GADDP, (i, m, 1)))) /\
         V (mb_of b, at_of b (p + 1) i m) = Some (add A (val s (mb_of b, at_of b (p + 1) i m)) (val s (GADDM, (i, m, 2)))) /\
         V (pb_of b, at_of b (p + 1) i m) = Some (add A (val s (pb_of b, at_of b (p + 1) i m)) (val s (GADDP, (i, m, 2))))).
    { intros i m. rewrite !V0, !V1. unfold src. rewrite P0, P1. destruct b; cbn [ma_of pa_of mb_of pb_of]; repeat split; reflexivity. }
    assert (H : mwrites (fun c => exists m, 1 <= m <= meqn d /\ (exists i, 2 - mbc d <= i <= n_of d b + mbc d /\
        ((c = a1 FADDM i m \/ (c = (ma_of b, at_of b p i m) \/ nowhere c)) \/
         ((c = a1 FADDP i m \/ (c = (pa_of b, at_of b p i m) \/ nowhere c)) \/
          ((c = (GADDM, (i, m, 1)) \/ (c = (mb_of b, at_of b p i m) \/ nowhere c)) \/
           ((c = (GADDP, (i, m, 1)) \/ (c = (pb_of b, at_of b p i m) \/ nowhere c)) \/
            ((c = (GADDM, (i, m, 2)) \/ (c = (mb_of b, at_of b (p + 1) i m) \/ nowhere c)) \/
             (c = (GADDP, (i, m, 2)) \/ (c = (pb_of b, at_of b (p + 1) i m) \/ nowhere c))))))))) s
      (s_update A d S (n_of d b) (ma_of b) (pa_of b) (mb_of b) (pb_of b) (at_of b) p)
      (fun c => exists m, 1 <= m <= meqn d /\ (exists i, 2 - mbc d <= i <= n_of d b + mbc d /\
        (c = (ma_of b, at_of b p i m) \/ (c = (pa_of b, at_of b p i m) \/ (c = (mb_of b, at_of b p i m) \/ (c = (pb_of b, at_of b p i m) \/
         (c = (mb_of b, at_of b (p + 1) i m) \/ c = (pb_of b, at_of b (p + 1) i m)))))))) V).
    { unfold s_update. apply mw_loop; [|bsep b]. intros m Hq. apply mw_loop; [|bsep b]. intros i Hi.
      destruct (SF i m ltac:(lia) Hq) as [F1 F2]. destruct (SG i m 1 ltac:(lia) Hq ltac:(lia)) as [G1 G2]. destruct (SG i m 2 ltac:(lia) Hq ltac:(lia)) as [G3 G4].
      destruct (VV i m) as (B1 & B2 & B3 & B4 & B5 & B6).
      apply mw_seq; [apply mw_acc; [binm b|binm b|apply Hset; [destruct b; reflexivity|lia|lia|lia]|exact F1|exact B1]| |bsep b].
      apply mw_seq; [apply mw_acc; [binm b|binm b|apply Hset; [destruct b; reflexivity|lia|lia|lia]|exact F2|exact B2]| |bsep b].
      apply mw_seq; [apply mw_acc; [binm b|binm b|apply Hset; [destruct b; reflexivity|lia|lia|lia]|exact G1|exact B3]| |bsep b].
      apply mw_seq; [apply mw_acc; [binm b|binm b|apply Hset; [destruct b; reflexivity|lia|lia|lia]|exact G2|exact B4]| |bsep b].
      apply mw_seq; [apply mw_acc; [binm b|binm b|apply Hset; [destruct b; reflexivity|lia|lia|lia]|exact G3|exact B5]| |bsep b].
      apply mw_acc; [binm b|binm b|apply Hset; [destruct b; reflexivity|lia|lia|lia]|exact G4|exact B6]. }
    destruct (H s) as (s' & E & W & N & D); [reflexivity|]. exists s'. split; [exact E|].
    split; [|split; [|split; [|split]]].
    - intros a c Ha. apply N. intros (m & _ & i & _ & [X|[X|[X|[X|[X|X]]]]]); inversion X; subst; destruct b; discriminate Ha.
    - intros a i j m Ha Hi Hq. destruct (D (a, (i, j, m))) as [X|X]; [|apply (set_eq s); [now apply FS|exact X]].
      unfold V in X. exact (set_some _ _ _ X).
    - intros i m Hi Hq. destruct (VV i m) as (B1 & B2 & B3 & B4 & B5 & B6). rewrite <- B1, <- B2, <- B3, <- B4, <- B5, <- B6.
      do 5 (split; [apply W; exists m; (split; [exact Hq|]); exists i; (split; [exact Hi|]); tauto|]).
      apply W; exists m; (split; [exact Hq|]); exists i; (split; [exact Hi|]); tauto.
    - intros p' i m Hne. split; apply N; bsep b.
    - intros p' i m Hne Hne'. split; apply N; bsep b.
  Qed.

  (** *** a whole sweep *)
  Definition bases (b : bool) (s : mem) (fm fp gm gp : Z -> Z -> Z -> Q) : Prop :=
    (forall p i m, 1 <= p <= np_of d b -> 1 <= i <= n_of d b + 1 -> 1 <= m <= meqn d ->
       s (ma_of b, at_of b p i m) = Some (fm p i m) /\ s (pa_of b, at_of b p i m) = Some (fp p i m)) /\
    (forall p i m, 1 <= p <= np_of d b + 1 -> 1 <= i <= n_of d b -> 1 <= m <= meqn d ->
       s (mb_of b, at_of b p i m) = Some (gm p i m) /\ s (pb_of b, at_of b p i m) = Some (gp p i m)).
  Lemma lub_max : forall (P P' : Q -> Prop) c c', lub P 0 c -> lub P' 0 c' -> lub (fun x => P x \/ P' x) 0 (Qmax c c').
  Proof.
    intros P P' c c' (L1 & L2 & L3) (M1 & M2 & M3). split; [|split].
    - eapply Qle_trans; [exact L1|apply Q.le_max_l].
    - intros x [Hp|Hp]; [eapply Qle_trans; [apply L2, Hp|apply Q.le_max_l]|eapply Qle_trans; [apply M2, Hp|apply Q.le_max_r]].
    - destruct (Q.max_spec c c') as [[_ E]|[_ E]].
      + destruct M3 as [M3|(x & M3 & M4)]; [left; now rewrite E|right; exists x; split; [now right|now rewrite E]].
      + destruct L3 as [L3|(x & L3 & L4)]; [left; now rewrite E|right; exists x; split; [now left|now rewrite E]].
  Qed.
  Lemma sweep_ok : forall b dtd s c fm fp gm gp (P : Q -> Prop), filled s -> ratios b dtd s -> fluxes_set s -> bases b s fm fp gm gp -> lub P 0 c ->
    let U := of_mem s QOLD in let X := of_mem s AUX in
    exists s' c', sweep A d S (ixy_of b) (n_of d b) (np_of d b) (dt_of b) dtd (ma_of b) (pa_of b) (mb_of b) (pb_of b) (at_of b) (s, c) = Some (s', c') /\
      (forall a c, a = QOLD \/ a = AUX \/ (mcapa S = 0 /\ (a = DTDX1 \/ a = DTDY1)) -> s' (a, c) = s (a, c)) /\ fluxes_set s' /\
      bases b s' (fun p i m => add A (fm p i m) (f_left b U X dtd p i m)) (fun p i m => add A (fp p i m) (f_right b U X dtd p i m))
        (fun p i m => add A (add A (gm p i m) (f_aside b U X dtd (p - 1) i 2 m)) (f_aside b U X dtd p i 1 m))
        (fun p i m => add A (add A (gp p i m) (f_aside b U X dtd (p - 1) i 2 m)) (f_aside b U X dtd p i 1 m)) /\
      lub (fun x => P x \/ exists p, 2 - mbc d <= p <= np_of d b + mbc d - 1 /\ courants b U X dtd p x) 0 c'.
  Proof.
    intros b dtd s c fm fp gm gp P HF HR HFS HB HL. cbn zeta. set (U := of_mem s QOLD). set (X := of_mem s AUX).
    assert (Hnp : 1 <= np_of d b) by (destruct b; cbn [np_of]; lia). pose proof (n_pos b) as Hn1.
    set (left := f_left b U X dtd). set (right := f_right b U X dtd). set (asd := f_aside b U X dtd).
    unfold sweep.
    match goal with |- context [loop (2 - mbc d) (np_of d b + mbc d - 1) ?g _] => destruct (loop_ok _ (2 - mbc d) (np_of d b + mbc d - 1) g
      (fun k st => (forall a c, a = QOLD \/ a = AUX \/ (mcapa S = 0 /\ (a = DTDX1 \/ a = DTDY1)) -> fst st (a, c) = s (a, c)) /\ fluxes_set (fst st) /\
        bases b (fst st) (fun p i m => if p <? k then add A (fm p i m) (left p i m) else fm p i m)
          (fun p i m => if p <? k then add A (fp p i m) (right p i m) else fp p i m)
          (fun p i m => if p <? k then add A (add A (gm p i m) (asd (p - 1) i 2 m)) (asd p i 1 m) else if p =? k then add A (gm p i m) (asd (p - 1) i 2 m) else gm p i m)
          (fun p i m => if p <? k then add A (add A (gp p i m) (asd (p - 1) i 2 m)) (asd p i 1 m) else if p =? k then add A (gp p i m) (asd (p - 1) i 2 m) else gp p i m) /\
        lub (fun x => P x \/ exists p, 2 - mbc d <= p <= k - 1 /\ courants b U X dtd p x) 0 (snd st))) with (s := (s, c)) as ([s' c'] & E & I1 & I2 & I3 & I4) end.
    - lia.
    - intros p [s1 c1] Hp (I1 & I2 & I3 & I4). cbn [fst snd] in I1, I2, I3, I4.
      assert (F1 : filled s1).
      { destruct HF as [HF1 HF2]. split; intros i j m Hi Hq; [apply (set_eq s); [now apply HF1|apply I1; now left]|apply (set_eq s); [now apply HF2|apply I1; right; now left]]. }
      assert (R1 : ratios b dtd s1).
      { intros HC i Hi. rewrite I1; [now apply HR|]. right. right. split; [exact HC|]. destruct b; [now left|now right]. }
      destruct (copy_ok b dtd p s1 Hp F1 R1) as (s2 & E2 & Y2 & In2). rewrite E2. cbn [bind].
      assert (EU : forall i j m, of_mem s1 QOLD i j m = U i j m) by (intros; apply val_eq, I1; now left).
      assert (EX : forall i j m, of_mem s1 AUX i j m = X i j m) by (intros; apply val_eq, I1; right; now left).
      assert (In2' : inputs b U X dtd p s2).
      { intros i Hi. destruct (In2 i Hi) as (C1 & C2 & C3). assert (EA : forall p i m, along b (of_mem s1 AUX) p i m = along b X p i m) by (intros; unfold along; destruct b; apply EX).
        split; [|split].
        - intros m Hq. rewrite (C1 m Hq). f_equal. unfold along. destruct b; apply EU.
        - intros m Hq. rewrite <- !EA. now apply C2.
        - rewrite C3. unfold ratio_of. now rewrite EA. }
      destruct (slice_ok b U X dtd p s2 In2') as (s3 & c3 & E3 & Y3 & L3 & FA & GA). rewrite E3. cbn [bind].
      assert (Y23 : forall a c, is_flux a = true -> s3 (a, c) = s1 (a, c)).
      { intros a c0 Ha. rewrite Y3 by (destruct a; try reflexivity; discriminate Ha). specialize (Y2 a c0). destruct a; try discriminate Ha; exact Y2. }
      assert (FS3 : fluxes_set s3) by (intros a i j m Ha Hi Hq; apply (set_eq s1); [now apply I2|now apply Y23]).
      destruct (update_ok b p s3 Hp FS3) as (s4 & E4 & Y4 & FS4 & W4 & N4 & N4').
      { intros i m Hi Hq. destruct (FA i m Hi Hq) as (C1 & C2 & _). now split. }
      { intros i m k Hi Hq Hk. destruct (GA i m k Hi Hq Hk) as (C1 & C2 & _). now split. }
      rewrite E4. cbn [bind]. eexists. split; [reflexivity|]. cbn [fst snd].
      assert (KF : is_flux (ma_of b) = true /\ is_flux (pa_of b) = true /\ is_flux (mb_of b) = true /\ is_flux (pb_of b) = true) by (destruct b; repeat split).
      destruct KF as (KF1 & KF2 & KF3 & KF4).
      split; [|split; [exact FS4|split; [split|]]].
      + intros a c0 Ha. assert (is_flux a = false) by (destruct Ha as [->|[->|[_ [->| ->]]]]; reflexivity). rewrite Y4 by assumption.
        rewrite Y3 by (destruct Ha as [->|[->|[_ [->| ->]]]]; reflexivity). specialize (Y2 a c0).
        rewrite <- (I1 a c0 Ha). destruct Ha as [->|[->|[HC [->| ->]]]]; [exact Y2|exact Y2|exact (Y2 HC)|exact (Y2 HC)].
      + intros p' i m Hp' Hi Hq. destruct (proj1 I3 p' i m Hp' Hi Hq) as [D1 D2]. destruct (Z.eq_dec p' p) as [->|Hne].
        * rewrite Z.ltb_irrefl in D1, D2. rewrite (proj2 (Z.ltb_lt p (p + 1))) by lia. destruct (W4 i m ltac:(lia) Hq) as (B1 & B2 & _).
          destruct (FA i m ltac:(unfold cells; lia) Hq) as (_ & _ & C3). destruct (C3 ltac:(lia)) as [C4 C5].
          rewrite B1, B2. rewrite (val_some _ _ _ C4), (val_some _ _ _ C5). rewrite (val_some s3 _ (fm p i m)) by (rewrite Y23; assumption).
          rewrite (val_some s3 _ (fp p i m)) by (rewrite Y23; assumption). now split.
        * destruct (N4 p' i m Hne) as [B1 B2]. rewrite B1, B2, !Y23 by assumption.
          replace (p' <? p + 1) with (p' <? p); [now split|]. destruct (Z.ltb_spec p' p), (Z.ltb_spec p' (p + 1)); try reflexivity; lia.
      + intros p' i m Hp' Hi Hq. destruct (proj2 I3 p' i m Hp' Hi Hq) as [D1 D2]. destruct (W4 i m ltac:(lia) Hq) as (_ & _ & B3 & B4 & B5 & B6).
        destruct (Z.eq_dec p' p) as [->|Hne]; [|destruct (Z.eq_dec p' (p + 1)) as [->|Hne']].
        * rewrite Z.ltb_irrefl, Z.eqb_refl in D1, D2. rewrite (proj2 (Z.ltb_lt p (p + 1))) by lia.
          destruct (GA i m 1 ltac:(unfold cells; lia) Hq ltac:(lia)) as (_ & _ & C3). destruct (C3 ltac:(lia)) as [C4 C5].
          rewrite B3, B4. rewrite (val_some _ _ _ C4), (val_some _ _ _ C5). rewrite (val_some s3 _ (add A (gm p i m) (asd (p - 1) i 2 m))) by (rewrite Y23; assumption).
          rewrite (val_some s3 _ (add A (gp p i m) (asd (p - 1) i 2 m))) by (rewrite Y23; assumption). now split.
        * rewrite (proj2 (Z.ltb_ge (p + 1) p)), (proj2 (Z.eqb_neq (p + 1) p)) in D1, D2 by lia. rewrite Z.ltb_irrefl, Z.eqb_refl.
          destruct (GA i m 2 ltac:(unfold cells; lia) Hq ltac:(lia)) as (_ & _ & C3). destruct (C3 ltac:(lia)) as [C4 C5].
          rewrite B5, B6. rewrite (val_some _ _ _ C4), (val_some _ _ _ C5). rewrite (val_some s3 _ (gm (p + 1) i m)) by (rewrite Y23; assumption).
          rewrite (val_some s3 _ (gp (p + 1) i m)) by (rewrite Y23; assumption). replace (p + 1 - 1) with p by lia. now split.
        * destruct (N4' p' i m Hne Hne') as [Z3 Z4]. rewrite Z3, Z4, !Y23 by assumption.
          replace (p' <? p + 1) with (p' <? p) by (destruct (Z.ltb_spec p' p), (Z.ltb_spec p' (p + 1)); try reflexivity; lia).
          rewrite (proj2 (Z.eqb_neq p' (p + 1))) by lia. rewrite (proj2 (Z.eqb_neq p' p)) in D1, D2 by lia. now split.
      + apply (lub_ext (fun x => (P x \/ exists q, 2 - mbc d <= q <= p - 1 /\ courants b U X dtd q x) \/ courants b U X dtd p x)); [|now apply lub_max].
        intros x. split.
        * intros [[Hx'|(q & Hq & Hc)]|Hc]; [now left|right; exists q; split; [lia|exact Hc]|right; exists p; split; [lia|exact Hc]].
        * intros [Hx'|(q & Hq & Hc)]; [left; now left|]. destruct (Z.eq_dec q p) as [->|Hne]; [now right|]. left. right. exists q. split; [lia|exact Hc].
    - cbn [fst snd]. split; [reflexivity|]. split; [exact HFS|]. split.
      + split; intros p i m Hp Hi Hq.
        * rewrite (proj2 (Z.ltb_ge p (2 - mbc d))) by lia. now apply (proj1 HB).
        * rewrite (proj2 (Z.ltb_ge p (2 - mbc d))) by lia. rewrite (proj2 (Z.eqb_neq p (2 - mbc d))) by lia. now apply (proj2 HB).
      + apply (lub_ext P); [|exact HL]. intros x. split; [now left|]. intros [Hx'|(q & Hq & _)]; [exact Hx'|lia].
    - cbn [fst snd] in I1, I2, I3, I4. exists s', c'. split; [exact E|]. split; [exact I1|]. split; [exact I2|]. split.
      + split; intros p i m Hp Hi Hq.
        * destruct (proj1 I3 p i m Hp Hi Hq) as [D1 D2]. rewrite (proj2 (Z.ltb_lt p (np_of d b + mbc d - 1 + 1))) in D1, D2 by lia. now split.
        * destruct (proj2 I3 p i m Hp Hi Hq) as [D1 D2]. rewrite (proj2 (Z.ltb_lt p (np_of d b + mbc d - 1 + 1))) in D1, D2 by lia. now split.
      + eapply lub_ext; [|exact I4]. intros x. split; (intros [Hx'|(q & Hq & Hc)]; [now left|right; exists q; split; [lia|exact Hc]]).
  Qed.
End Sweep.
