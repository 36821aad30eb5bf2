From Coq Require Import ZArith List Lia Bool.
From Verif Require Import Model_Box Spec_Box Proof_Box.
Import ListNotations.
Local Open Scope Z_scope.

Section Frame.
  Variable debug : bool.
  Variable I : Type.
  Variable I_dec : forall a b : I, {a = b} + {a <> b}.
  Notation arun := (arun debug I I_dec).
  Notation astep := (astep debug I I_dec).

  Definition target (o : op I) : I :=
    match o with
    | Construct i | Destroy i | Define i _ _ | Assign i _ | Write i _ _ | SetValue i _
    | CopyFrom i _ => i
    end.

  Lemma astep_frame : forall s o s' i, astep s o = Some s' -> target o <> i -> s' i = s i.
  Proof.
    intros s o s' i E Hne.
    assert (G : forall x, Spec_Box.aset I I_dec s (target o) x i = s i).
    { intros x. unfold Spec_Box.aset. destruct (I_dec i (target o)); [congruence|reflexivity]. }
    destruct o; cbn [Spec_Box.astep target] in *;
      repeat match type of E with
             | match ?x with Some _ => _ | None => _ end = _ => destruct x
             | (if ?x then _ else _) = _ => destruct x
             end; try discriminate; injection E as <-; apply G.
  Qed.

  Lemma arun_frame : forall l s s' i, arun s l = Some s' -> Forall (fun o => target o <> i) l -> s' i = s i.
  Proof.
    induction l as [|o l IH]; intros s s' i E HF; cbn [Spec_Box.arun] in E; [congruence|].
    apply Forall_cons_iff in HF. destruct HF as [H1 H2].
    destruct (astep s o) as [s1|] eqn:E1; [|discriminate].
    rewrite (IH s1 s' i E H2). exact (astep_frame s o s1 i E1 H1).
  Qed.

  Lemma arun_app : forall l1 l2 s, arun s (l1 ++ l2) =
    match arun s l1 with Some s1 => arun s1 l2 | None => None end.
  Proof.
    induction l1 as [|o l1 IH]; intros l2 s; cbn [app Spec_Box.arun]; [reflexivity|].
    destruct (astep s o); [apply IH|reflexivity].
  Qed.

  Lemma aset_same : forall s i x, Spec_Box.aset I I_dec s i x i = x.
  Proof. intros. unfold Spec_Box.aset. now destruct (I_dec i i). Qed.
  Lemma aset_other : forall s i x j, j <> i -> Spec_Box.aset I I_dec s i x j = s j.
  Proof. intros. unfold Spec_Box.aset. now destruct (I_dec j i). Qed.

  Lemma astep_assign : forall s i j s', astep s (Assign i j) = Some s' ->
    s j <> None /\ s i <> None /\ s' i = s j /\ forall k, k <> i -> s' k = s k.
  Proof.
    intros s i j s'. cbn [Spec_Box.astep]. destruct (s i), (s j) eqn:Ej; try discriminate.
    intros E. injection E as <-. split; [congruence|]. split; [congruence|]. split.
    - apply aset_same.
    - intros k. apply aset_other.
  Qed.
End Frame.

Section Patch.
  Variable debug : bool.
  Variable o : cp_opts.
  Notation arun := (arun debug name name_dec).
  Notation ca l := (arun (fun _ => None) (cp_ops o l)).

  Lemma compile_legal : forall x, Forall (legal debug name) (compile o x).
  Proof.
    intros x. apply Forall_forall. intros y Hy.
    destruct y as [i|i|i bx n|i j|i k v|i v|i d]; try exact Logic.I.
    cbn [legal]. intros _ ->.
    destruct x; cbn [compile] in Hy;
      repeat (first [rewrite in_app_iff in Hy | rewrite in_map_iff in Hy]);
      repeat match type of Hy with
             | context [if ?b then _ else _] => destruct b
             end; cbn [In app] in Hy;
      repeat match goal with
             | H : _ \/ _ |- _ => destruct H
             | H : exists _, _ |- _ => destruct H
             | H : _ /\ _ |- _ => destruct H
             | H : False |- _ => destruct H
             end; congruence.
  Qed.

  Lemma cp_ops_legal : forall l, Forall (legal debug name) (cp_ops o l).
  Proof.
    induction l; cbn [cp_ops flat_map]; [constructor|]. apply Forall_app. split; [apply compile_legal|exact IHl].
  Qed.

  Lemma crun_ok : forall l, agree name (crun debug o l) (ca l).
  Proof. intros. apply run_ok; [apply R_init|apply cp_ops_legal]. Qed.

  Lemma cp_ops_app : forall a b, cp_ops o (a ++ b) = cp_ops o a ++ cp_ops o b.
  Proof. intros. apply flat_map_app. Qed.

  Lemma keeps_target : forall p x, keeps_saved p x ->
    Forall (fun y => target name y <> (p, griddata_save)) (compile o x) /\
    Forall (fun y => target name y <> (p, aux_save)) (compile o x).
  Proof.
    intros p x Hk.
    assert (G : forall y, In y (compile o x) ->
              target name y <> (p, griddata_save) /\ target name y <> (p, aux_save)).
    { intros y Hy. destruct x; cbn [compile keeps_saved] in *;
        repeat (first [rewrite in_app_iff in Hy | rewrite in_map_iff in Hy]);
        repeat match type of Hy with
               | context [if ?b then _ else _] => destruct b
               end; cbn [In app] in Hy;
        repeat match goal with
               | H : _ \/ _ |- _ => destruct H
               | H : exists _, _ |- _ => destruct H
               | H : _ /\ _ |- _ => destruct H
               | H : False |- _ => destruct H
               end; subst; cbn [target]; split; congruence. }
    split; apply Forall_forall; intros y Hy; now apply G.
  Qed.

  Lemma keeps_run : forall p h2 s s', Forall (keeps_saved p) h2 -> arun s (cp_ops o h2) = Some s' ->
    s' (p, griddata_save) = s (p, griddata_save) /\ s' (p, aux_save) = s (p, aux_save).
  Proof.
    intros p h2 s s' HF E.
    assert (G : Forall (fun y => target name y <> (p, griddata_save)) (cp_ops o h2) /\
                Forall (fun y => target name y <> (p, aux_save)) (cp_ops o h2)).
    { clear E. induction HF as [|x l H HF IH]; [split; constructor|].
      cbn [cp_ops flat_map]. destruct (keeps_target p x H), IH. split; apply Forall_app; now split. }
    destruct G as [G1 G2]. split; eapply arun_frame; eassumption.
  Qed.

  Lemma save_run : forall p s s', arun s (compile o (PSave p)) = Some s' ->
    s (p, griddata) <> None /\ s' (p, griddata_save) = s (p, griddata) /\
    (o_save_aux o = true -> s (p, aux) <> None /\ s' (p, aux_save) = s (p, aux)).
  Proof.
    intros p s s'. cbn [compile app]. cbn [Spec_Box.arun].
    destruct (astep debug name name_dec s _) as [s1|] eqn:E1; [|discriminate].
    apply astep_assign in E1. destruct E1 as (A1 & _ & A2 & A3).
    destruct (o_save_aux o); cbn [Spec_Box.arun].
    - destruct (astep debug name name_dec s1 _) as [s2|] eqn:E2; [|discriminate].
      apply astep_assign in E2. destruct E2 as (B1 & _ & B2 & B3). intros E. injection E as <-.
      split; [exact A1|]. split; [rewrite B3 by congruence; exact A2|]. intros _.
      rewrite A3 in B1, B2 by congruence. now split.
    - intros E. injection E as <-. split; [exact A1|]. split; [exact A2|discriminate].
  Qed.

  Lemma restore_run : forall p s s', arun s (compile o (PRestore p)) = Some s' ->
    s' (p, griddata) = s (p, griddata_save) /\
    (o_save_aux o = true -> s' (p, aux) = s (p, aux_save)).
  Proof.
    intros p s s'. cbn [compile app]. cbn [Spec_Box.arun].
    destruct (astep debug name name_dec s _) as [s1|] eqn:E1; [|discriminate].
    apply astep_assign in E1. destruct E1 as (A1 & _ & A2 & A3).
    destruct (o_save_aux o); cbn [Spec_Box.arun].
    - destruct (astep debug name name_dec s1 _) as [s2|] eqn:E2; [|discriminate].
      apply astep_assign in E2. destruct E2 as (B1 & _ & B2 & B3). intros E. injection E as <-.
      split; [rewrite B3 by congruence; exact A2|]. intros _.
      rewrite B2. apply A3. congruence.
    - intros E. injection E as <-. split; [exact A2|discriminate].
  Qed.

  Lemma saved_ok : forall h1 h2 p s0 s1,
    crun debug o h1 = Some s0 -> Forall (keeps_saved p) h2 ->
    crun debug o (h1 ++ PSave p :: h2) = Some s1 ->
    exists l, shows name s0 (p, griddata) l /\ shows name s1 (p, griddata_save) l /\
      (o_save_aux o = true ->
       exists l', shows name s0 (p, aux) l' /\ shows name s1 (p, aux_save) l').
  Proof.
    intros h1 h2 p s0 s1 E0 HF E1.
    pose proof (crun_ok h1) as H0. rewrite E0 in H0.
    pose proof (crun_ok (h1 ++ PSave p :: h2)) as H1. rewrite E1 in H1. unfold agree in H0, H1.
    rewrite cp_ops_app, arun_app in H1.
    destruct (ca h1) as [a0|]; [|destruct H0].
    change (PSave p :: h2) with ([PSave p] ++ h2) in H1. rewrite cp_ops_app, arun_app in H1.
    replace (cp_ops o [PSave p]) with (compile o (PSave p)) in H1
      by (unfold cp_ops; cbn [flat_map]; now rewrite app_nil_r).
    destruct (arun a0 (compile o (PSave p))) as [a1|] eqn:Ea1; [|destruct H1].
    destruct (arun a1 (cp_ops o h2)) as [a2|] eqn:Ea2; [|destruct H1].
    destruct (save_run p a0 a1 Ea1) as (A1 & A2 & A3).
    destruct (keeps_run p h2 a1 a2 HF Ea2) as [B1 B2].
    destruct (a0 (p, griddata)) as [x|] eqn:Ex; [|congruence].
    exists (a_vals x). split; [now apply (R_shows name s0 a0)|]. split.
    - apply (R_shows name s1 a2); [exact H1|congruence].
    - intros Hs. destruct (A3 Hs) as [A4 A5]. destruct (a0 (p, aux)) as [y|] eqn:Ey; [|congruence].
      exists (a_vals y). split; [now apply (R_shows name s0 a0)|].
      apply (R_shows name s1 a2); [exact H1|congruence].
  Qed.

  Lemma restore_ok : forall h p s1 s2, crun debug o h = Some s1 ->
    crun debug o (h ++ [PRestore p]) = Some s2 ->
    (forall l, shows name s1 (p, griddata_save) l -> shows name s2 (p, griddata) l) /\
    (o_save_aux o = true -> forall l, shows name s1 (p, aux_save) l -> shows name s2 (p, aux) l).
  Proof.
    intros h p s1 s2 E1 E2.
    pose proof (crun_ok h) as H1. rewrite E1 in H1.
    pose proof (crun_ok (h ++ [PRestore p])) as H2. rewrite E2 in H2. unfold agree in H1, H2.
    rewrite cp_ops_app, arun_app in H2. destruct (ca h) as [a1|]; [|destruct H1].
    replace (cp_ops o [PRestore p]) with (compile o (PRestore p)) in H2
      by (unfold cp_ops; cbn [flat_map]; now rewrite app_nil_r).
    destruct (arun a1 (compile o (PRestore p))) as [a2|] eqn:Ea2; [|destruct H2].
    destruct (restore_run p a1 a2 Ea2) as [A1 A2].
    assert (G : forall m m' l, a2 (p, m') = a1 (p, m) -> shows name s1 (p, m) l -> shows name s2 (p, m') l).
    { intros m m' l E Hl. destruct (a1 (p, m)) as [x|] eqn:Ex.
      - pose proof (R_shows name s1 a1 (p, m) x H1 Ex) as Hx. unfold shows in *.
        replace l with (a_vals x) by congruence.
        exact (R_shows name s2 a2 (p, m') x H2 E).
      - pose proof (R_dead name s1 a1 (p, m) H1 Ex) as Hd. unfold shows, copyTo in Hl.
        rewrite Hd in Hl. discriminate. }
    split; [intros l; now apply G|intros Hs l; apply G; now apply A2].
  Qed.

  Lemma live_step_ok : forall h p x s, crun debug o h = Some s ->
    (forall m, s_fab s (p, m) <> None) -> In x [PSave p; PRestore p; PSaveCurrent p] ->
    crun debug o (h ++ [x]) <> None.
  Proof.
    intros h p x s E Hl Hx Hno.
    pose proof (crun_ok h) as H1. rewrite E in H1.
    pose proof (crun_ok (h ++ [x])) as H2. rewrite Hno in H2. unfold agree in H1, H2.
    rewrite cp_ops_app, arun_app in H2. destruct (ca h) as [a1|]; [|destruct H1].
    replace (cp_ops o [x]) with (compile o x) in H2
      by (unfold cp_ops; cbn [flat_map]; now rewrite app_nil_r).
    assert (La : forall m, a1 (p, m) <> None).
    { intros m Hm. apply (Hl m). exact (R_dead name s a1 (p, m) H1 Hm). }
    assert (G : forall m m' a, (forall m, a (p, m) <> None) ->
              exists a', astep debug name name_dec a (Assign (p, m) (p, m')) = Some a' /\
                         forall m, a' (p, m) <> None).
    { intros m m' a Ha. cbn [Spec_Box.astep]. destruct (a (p, m)) eqn:E1; [|destruct (Ha m E1)].
      destruct (a (p, m')) eqn:E2; [|destruct (Ha m' E2)]. eexists. split; [reflexivity|].
      intros m0. unfold Spec_Box.aset. destruct (name_dec (p, m0) (p, m)); [discriminate|apply Ha]. }
    destruct Hx as [<-|[<-|[<-|[]]]]; cbn [compile app] in H2; cbn [Spec_Box.arun] in H2.
    - destruct (G griddata_save griddata a1 La) as (a' & Ea & La'). rewrite Ea in H2.
      destruct (o_save_aux o); cbn [Spec_Box.arun] in H2; [|exact H2].
      destruct (G aux_save aux a' La') as (a'' & Ea' & _). rewrite Ea' in H2. exact H2.
    - destruct (G griddata griddata_save a1 La) as (a' & Ea & La'). rewrite Ea in H2.
      destruct (o_save_aux o); cbn [Spec_Box.arun] in H2; [|exact H2].
      destruct (G aux aux_save a' La') as (a'' & Ea' & _). rewrite Ea' in H2. exact H2.
    - destruct (G griddata_last griddata a1 La) as (a' & Ea & La'). rewrite Ea in H2. exact H2.
  Qed.
End Patch.
