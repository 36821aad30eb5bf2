(** Text frames: any schedule writes each file in the order of the ranks. *)
From Coq Require Import String List Arith Lia Bool.
From Verif Require Import Model_Serial Model_Ascii Spec_Ascii.
Import ListNotations.

Definition run (cs : list cmd) (fs : files) : files := fold_left (fun f c => exec c f) cs fs.
Lemma run_app : forall a b fs, run (a ++ b) fs = run b (run a fs).
Proof. intros. apply fold_left_app. Qed.

Definition touches (nm : string) (c : cmd) : bool := String.eqb (target c) nm.
Definition is_recv (o : aop) : bool := match o with Com (Recv _) => true | _ => false end.
Definition is_send (o : aop) : bool := match o with Com (Send _ _) => true | _ => false end.
Definition recvs (l : list aop) : nat := length (filter is_recv l).
Definition sends (l : list aop) : nat := length (filter is_send l).
Fixpoint writes (nm : string) (l : list aop) : list cmd :=
  match l with
  | [] => []
  | Write c :: l' => if touches nm c then c :: writes nm l' else writes nm l'
  | Com _ :: l' => writes nm l'
  end.

Lemma recvs_app : forall a b, recvs (a ++ b) = recvs a + recvs b.
Proof. intros. unfold recvs. rewrite filter_app, app_length. reflexivity. Qed.
Lemma sends_app : forall a b, sends (a ++ b) = sends a + sends b.
Proof. intros. unfold sends. rewrite filter_app, app_length. reflexivity. Qed.
Lemma writes_app : forall nm a b, writes nm (a ++ b) = writes nm a ++ writes nm b.
Proof.
  induction a as [|o a IH]; intros b; [reflexivity|]. cbn [app writes]. destruct o as [o|c]; [apply IH|].
  destruct (touches nm c); [cbn [app]; rewrite IH; reflexivity|apply IH].
Qed.

(** executing a command changes its own file only *)
Lemma exec_other : forall nm c fs, touches nm c = false -> exec c fs nm = fs nm.
Proof.
  intros nm c fs H. unfold touches in H. destruct c; cbn [target exec] in *; unfold put;
    rewrite String.eqb_sym in H; rewrite H; reflexivity.
Qed.
Lemma exec_same : forall nm c fs fs', fs nm = fs' nm -> exec c fs nm = exec c fs' nm.
Proof.
  intros nm c fs fs' H. destruct c as [n|n ls|n l]; cbn [exec]; unfold put; destruct (String.eqb nm n) eqn:E; try assumption; try reflexivity.
  apply String.eqb_eq in E. subst n. rewrite H. reflexivity.
Qed.
Lemma run_same : forall nm cs fs fs', fs nm = fs' nm -> run cs fs nm = run cs fs' nm.
Proof.
  induction cs as [|c cs IH]; intros fs fs' H; [exact H|]. unfold run. cbn [fold_left]. apply IH. apply exec_same. exact H.
Qed.
Lemma run_filter : forall nm cs fs, run (filter (touches nm) cs) fs nm = run cs fs nm.
Proof.
  induction cs as [|c cs IH]; intros fs; [reflexivity|]. cbn [filter]. destruct (touches nm c) eqn:E.
  - unfold run. cbn [fold_left]. apply IH.
  - rewrite IH. unfold run. cbn [fold_left]. apply run_same. symmetry. apply exec_other. exact E.
Qed.

Section Schedule.
  Variable size : nat.
  Variable acts : nat -> nat -> list cmd.
  Variable n : nat.

  Lemma recvs_writes : forall cs, recvs (map Write cs) = 0.
  Proof. induction cs as [|c cs IH]; [reflexivity|]. unfold recvs in *. cbn [map filter is_recv]. exact IH. Qed.
  Lemma sends_writes : forall cs, sends (map Write cs) = 0.
  Proof. induction cs as [|c cs IH]; [reflexivity|]. unfold sends in *. cbn [map filter is_send]. exact IH. Qed.
  Lemma writes_writes : forall nm cs, writes nm (map Write cs) = filter (touches nm) cs.
  Proof. induction cs as [|c cs IH]; [reflexivity|]. cbn [map writes filter]. rewrite IH. reflexivity. Qed.

  Lemma recvs_sect : forall p cs, recvs (sect size p cs) = if 0 <? p then 1 else 0.
  Proof.
    intros p cs. unfold sect. rewrite !recvs_app, recvs_writes. unfold serialization_enter, serialization_leave.
    destruct (0 <? p), (p + 1 <? size); reflexivity.
  Qed.
  Lemma sends_sect : forall p cs, sends (sect size p cs) = if p + 1 <? size then 1 else 0.
  Proof.
    intros p cs. unfold sect. rewrite !sends_app, sends_writes. unfold serialization_enter, serialization_leave.
    destruct (0 <? p), (p + 1 <? size); reflexivity.
  Qed.
  Lemma writes_sect : forall nm p cs, writes nm (sect size p cs) = filter (touches nm) cs.
  Proof.
    intros nm p cs. unfold sect. rewrite !writes_app, writes_writes. unfold serialization_enter, serialization_leave.
    destruct (0 <? p), (p + 1 <? size); cbn; rewrite ?app_nil_r; reflexivity.
  Qed.
  Lemma recvs_prog : forall m f p, 0 < p -> recvs (prog size acts p f m) = m.
  Proof.
    induction m as [|m IH]; intros f p H; [reflexivity|]. cbn [prog]. rewrite recvs_app, recvs_sect, IH by exact H.
    assert (E : (0 <? p) = true) by (apply Nat.ltb_lt; lia). rewrite E. reflexivity.
  Qed.
  Lemma sends_prog : forall m f p, p + 1 < size -> sends (prog size acts p f m) = m.
  Proof.
    induction m as [|m IH]; intros f p H; [reflexivity|]. cbn [prog]. rewrite sends_app, sends_sect, IH by exact H.
    assert (E : (p + 1 <? size) = true) by (apply Nat.ltb_lt; lia). rewrite E. reflexivity.
  Qed.

  (** a split of a section *)
  Lemma app_split : forall (A : Type) (a b l r : list A), l ++ r = a ++ b ->
    (exists x, a = l ++ x /\ r = x ++ b) \/ (exists x, l = a ++ x /\ b = x ++ r).
  Proof.
    intros A a. induction a as [|y a IH]; intros b l r H.
    - right. exists l. split; [reflexivity|]. symmetry. exact H.
    - destruct l as [|z l].
      + left. exists (y :: a). split; [reflexivity|exact H].
      + cbn [app] in H. injection H as -> H. destruct (IH b l r H) as [[x [E1 E2]]|[x [E1 E2]]].
        * left. exists x. split; [cbn [app]; rewrite E1; reflexivity|exact E2].
        * right. exists x. split; [cbn [app]; rewrite E1; reflexivity|exact E2].
  Qed.

  (** within a section: received before sent *)
  Lemma sect_prefix : forall p cs l r, 0 < p -> l ++ r = sect size p cs ->
    sends l <= recvs l /\ (forall nm, writes nm l <> [] -> recvs l = 1).
  Proof.
    intros p cs l r Hp H. unfold sect, serialization_enter in H.
    assert (E : (0 <? p) = true) by (apply Nat.ltb_lt; lia). rewrite E in H. cbn [map app] in H.
    destruct l as [|o l]; [split; [unfold sends, recvs; cbn; lia|intros nm X; exfalso; apply X; reflexivity]|].
    cbn [app] in H. injection H as -> H. change (Com (Recv (p - 1)) :: l) with ([Com (Recv (p - 1))] ++ l).
    rewrite recvs_app, sends_app. change (recvs [Com (Recv (p - 1))]) with 1. change (sends [Com (Recv (p - 1))]) with 0.
    assert (B : sends l <= 1).
    { assert (X : sends (l ++ r) <= 1).
      { rewrite H, sends_app, sends_writes. unfold serialization_leave. destruct (p + 1 <? size); unfold sends; cbn; lia. }
      rewrite sends_app in X. lia. }
    assert (B2 : recvs l = 0).
    { assert (X : recvs (l ++ r) = 0).
      { rewrite H, recvs_app, recvs_writes. unfold serialization_leave. destruct (p + 1 <? size); unfold recvs; reflexivity. }
      rewrite recvs_app in X. lia. }
    split; [lia|]. intros nm _. lia.
  Qed.

  (** (a) a process never has sent more often than received *)
  Lemma prefix_sends : forall m f p l r, 0 < p -> l ++ r = prog size acts p f m -> sends l <= recvs l.
  Proof.
    induction m as [|m IH]; intros f p l r Hp H.
    - cbn [prog] in H. apply app_eq_nil in H. destruct H as [-> _]. reflexivity.
    - cbn [prog] in H. destruct (app_split _ _ _ _ _ H) as [[x [E1 E2]]|[x [E1 E2]]].
      + symmetry in E1. exact (proj1 (sect_prefix p _ l x Hp E1)).
      + rewrite E1, sends_app, recvs_app, sends_sect, recvs_sect.
        assert (E : (0 <? p) = true) by (apply Nat.ltb_lt; lia). rewrite E.
        symmetry in E2. specialize (IH (S f) p x r Hp E2). destruct (p + 1 <? size); lia.
  Qed.

  Section OneFile.
    Variable nm : string.
    Variable k : nat.
    Hypothesis only : forall p f, f <> k -> filter (touches nm) (acts p f) = [].

    Lemma writes_prog_other : forall m f p, k < f -> writes nm (prog size acts p f m) = [].
    Proof.
      induction m as [|m IH]; intros f p H; [reflexivity|]. cbn [prog].
      rewrite writes_app, writes_sect, only by lia. rewrite IH by lia. reflexivity.
    Qed.
    Lemma writes_prog : forall m f p, f <= k < f + m -> writes nm (prog size acts p f m) = filter (touches nm) (acts p k).
    Proof.
      induction m as [|m IH]; intros f p H; [lia|]. cbn [prog]. rewrite writes_app, writes_sect.
      destruct (Nat.eq_dec f k) as [->|E].
      - rewrite writes_prog_other by lia. apply app_nil_r.
      - rewrite (only p f E). apply IH. lia.
    Qed.
    (** (b) who has written to the file has received the message for its frame *)
    Lemma prefix_writes : forall m f p l r, 0 < p -> f <= k -> l ++ r = prog size acts p f m -> writes nm l <> [] -> k - f < recvs l.
    Proof.
      induction m as [|m IH]; intros f p l r Hp Hf H W.
      - cbn [prog] in H. apply app_eq_nil in H. destruct H as [-> _]. exfalso. apply W. reflexivity.
      - cbn [prog] in H. destruct (app_split _ _ _ _ _ H) as [[x [E1 E2]]|[x [E1 E2]]].
        + assert (Ek : f = k).
          { destruct (Nat.eq_dec f k) as [E|E]; [exact E|]. exfalso. apply W.
            pose proof (writes_sect nm p (acts p f)) as Y. rewrite (only p f E), E1, writes_app in Y.
            apply app_eq_nil in Y. exact (proj1 Y). }
          symmetry in E1. rewrite (proj2 (sect_prefix p _ l x Hp E1) nm W). lia.
        + rewrite E1, recvs_app, recvs_sect. assert (E : (0 <? p) = true) by (apply Nat.ltb_lt; lia). rewrite E.
          rewrite E1, writes_app, writes_sect in W. symmetry in E2.
          destruct (Nat.eq_dec f k) as [Ek|Ek]; [lia|]. rewrite (only p f Ek) in W. cbn [app] in W.
          specialize (IH (S f) p x r Hp ltac:(lia) E2 W). lia.
    Qed.
    (** (c) who is about to write to it has not sent the message of its frame *)
    Lemma before_writes : forall m f p l c r, p + 1 < size -> f <= k -> l ++ Write c :: r = prog size acts p f m -> touches nm c = true ->
      sends l <= k - f.
    Proof.
      induction m as [|m IH]; intros f p l c r Hp Hf H W.
      - cbn [prog] in H. destruct l; discriminate H.
      - cbn [prog] in H. destruct (app_split _ _ _ _ _ H) as [[x [E1 E2]]|[x [E1 E2]]].
        + (* in this section *)
          assert (X : sends (sect size p (acts p f)) = 1).
          { rewrite sends_sect. assert (E : (p + 1 <? size) = true) by (apply Nat.ltb_lt; lia). rewrite E. reflexivity. }
          destruct x as [|o x].
          * (* the section is over *)
            rewrite app_nil_r in E1. cbn [app] in E2.
            rewrite <- E1, X.
            destruct (Nat.eq_dec f k) as [Ek|Ek]; [|lia]. exfalso.
            pose proof (writes_prog_other m (S f) p ltac:(lia)) as Y. rewrite <- E2 in Y. cbn [writes] in Y. rewrite W in Y. discriminate Y.
          * (* before the end of the section, which is a message *)
            cbn [app] in E2. injection E2 as <- E2.
            assert (Z : sends l = 0).
            { assert (T : exists y, Write c :: x = y ++ [Com (Send (p + 1) 0)]).
              { unfold sect, serialization_leave in E1. assert (E : (p + 1 <? size) = true) by (apply Nat.ltb_lt; lia). rewrite E in E1.
                destruct (exists_last (l := Write c :: x) ltac:(discriminate)) as [y [a Ea]]. exists y. rewrite Ea in E1 |- *.
                f_equal. rewrite !app_assoc in E1. apply app_inj_tail in E1. destruct E1 as [_ <-]. reflexivity. }
              destruct T as [y Ey]. rewrite E1, Ey, !sends_app in X. change (sends [Com (Send (p + 1) 0)]) with 1 in X. lia. }
            lia.
        + rewrite E1, sends_app, sends_sect. assert (E : (p + 1 <? size) = true) by (apply Nat.ltb_lt; lia). rewrite E.
          symmetry in E2. destruct (Nat.eq_dec f k) as [Ek|Ek].
          * exfalso. pose proof (writes_prog_other m (S f) p ltac:(lia)) as Y. rewrite <- E2, writes_app in Y. cbn [writes] in Y. rewrite W in Y.
            destruct (writes nm x); discriminate Y.
          * specialize (IH (S f) p x c r Hp ltac:(lia) E2 W). lia.
    Qed.
  End OneFile.

  (** what holds in every reachable state: [ex p] is what process p has done *)
  Record Inv (fs0 : files) (w : world) (ex : nat -> list aop) : Prop := {
    i_prog : forall p, p < size -> ex p ++ w_rest w p = prog size acts p 0 n;
    i_chan : forall p, p + 1 < size -> recvs (ex (p + 1)) <= sends (ex p) /\
               w_chan w p (p + 1) = repeat 0 (sends (ex p) - recvs (ex (p + 1)));
    i_file : forall nm k, k < n -> (forall p f, f <> k -> filter (touches nm) (acts p f) = []) ->
               w_files w nm = run (concat (map (fun p => writes nm (ex p)) (seq 0 size))) fs0 nm;
    i_out : forall nm, (forall p f, filter (touches nm) (acts p f) = []) -> w_files w nm = fs0 nm }.

  Lemma inv_start : forall fs0, Inv fs0 (start size acts n fs0) (fun _ => []).
  Proof.
    intros fs0. constructor.
    - intros p Hp. cbn [app start w_rest]. assert (E : (p <? size) = true) by (apply Nat.ltb_lt; exact Hp). rewrite E. reflexivity.
    - intros p _. split; [reflexivity|reflexivity].
    - intros nm k _ _. cbn [start w_files].
      assert (E : forall l : list nat, concat (map (fun _ => writes nm []) l) = []) by (induction l as [|a l IH]; [reflexivity|exact IH]).
      rewrite E. reflexivity.
    - reflexivity.
  Qed.

  (** messages chain the processes *)
  Lemma chain : forall fs0 w ex, Inv fs0 w ex -> forall d p, p + 1 + d < size -> recvs (ex (p + 1 + d)) <= sends (ex p).
  Proof.
    intros fs0 w ex HI. induction d as [|d IH]; intros p H.
    - rewrite Nat.add_0_r. exact (proj1 (i_chan _ _ _ HI p ltac:(lia))).
    - replace (p + 1 + S d) with ((p + 1 + d) + 1) by lia.
      eapply Nat.le_trans; [exact (proj1 (i_chan _ _ _ HI (p + 1 + d) ltac:(lia)))|].
      eapply Nat.le_trans; [|exact (IH p ltac:(lia))].
      apply (prefix_sends n 0 (p + 1 + d) _ (w_rest w (p + 1 + d))); [lia|]. apply (i_prog _ _ _ HI). lia.
  Qed.

  Definition add (ex : nat -> list aop) (p : nat) (o : aop) : nat -> list aop := fun p' => if p' =? p then ex p ++ [o] else ex p'.
  Lemma add_same : forall ex p o, add ex p o p = ex p ++ [o].
  Proof. intros. unfold add. rewrite Nat.eqb_refl. reflexivity. Qed.
  Lemma add_other : forall ex p o p', p' <> p -> add ex p o p' = ex p'.
  Proof. intros. unfold add. assert (E : (p' =? p) = false) by (apply Nat.eqb_neq; assumption). rewrite E. reflexivity. Qed.

  Lemma head_recv : forall m f p l s r, l ++ Com (Recv s) :: r = prog size acts p f m -> p <> 0 /\ s = p - 1.
  Proof.
    induction m as [|m IH]; intros f p l s r H; [destruct l; discriminate H|].
    assert (X : In (Com (Recv s)) (prog size acts p f (S m))) by (rewrite <- H; apply in_or_app; right; left; reflexivity).
    clear IH H. revert f X. assert (G : forall m f, In (Com (Recv s)) (prog size acts p f m) -> p <> 0 /\ s = p - 1).
    { clear m. induction m as [|m IH]; intros f X; [destruct X|]. cbn [prog] in X. apply in_app_or in X. destruct X as [X|X]; [|exact (IH _ X)].
      unfold sect in X. apply in_app_or in X. destruct X as [X|X]; [|apply in_app_or in X; destruct X as [X|X]].
      - unfold serialization_enter in X. destruct (0 <? p) eqn:E; [|destruct X]. apply Nat.ltb_lt in E.
        destruct X as [X|[]]. injection X as <-. split; [lia|reflexivity].
      - apply in_map_iff in X. destruct X as [c [X _]]. discriminate X.
      - unfold serialization_leave in X. destruct (p + 1 <? size); [|destruct X]. destruct X as [X|[]]. discriminate X. }
    intros f X. exact (G _ _ X).
  Qed.
  Lemma head_send : forall m f p l d i r, l ++ Com (Send d i) :: r = prog size acts p f m -> p + 1 < size /\ d = p + 1 /\ i = 0.
  Proof.
    intros m f p l d i r H.
    assert (X : In (Com (Send d i)) (prog size acts p f m)) by (rewrite <- H; apply in_or_app; right; left; reflexivity).
    clear H. revert f X. induction m as [|m IH]; intros f X; [destruct X|]. cbn [prog] in X. apply in_app_or in X. destruct X as [X|X]; [|exact (IH _ X)].
    unfold sect in X. apply in_app_or in X. destruct X as [X|X]; [|apply in_app_or in X; destruct X as [X|X]].
    - unfold serialization_enter in X. destruct (0 <? p); [|destruct X]. destruct X as [X|[]]. discriminate X.
    - apply in_map_iff in X. destruct X as [c [X _]]. discriminate X.
    - unfold serialization_leave in X. destruct (p + 1 <? size) eqn:E; [|destruct X]. apply Nat.ltb_lt in E.
      destruct X as [X|[]]. injection X as <- <-. auto.
  Qed.

  Lemma concat_nil : forall (A B : Type) (g : A -> list B) l, (forall x, In x l -> g x = []) -> concat (map g l) = [].
  Proof.
    intros A B g l H. induction l as [|a l IH]; [reflexivity|]. cbn [map concat].
    rewrite (H a (or_introl eq_refl)), IH; [reflexivity|]. intros x X. apply H. right. exact X.
  Qed.
  Lemma concat_map_ext : forall (A B : Type) (g g' : A -> list B) l, (forall x, In x l -> g x = g' x) -> concat (map g l) = concat (map g' l).
  Proof. intros A B g g' l H. f_equal. apply map_ext_in. exact H. Qed.

  Lemma seq_at : forall p, p < size -> seq 0 size = seq 0 p ++ p :: seq (S p) (size - S p).
  Proof.
    intros p H. change (p :: seq (S p) (size - S p)) with (seq p (S (size - S p))). rewrite <- seq_app. f_equal. lia.
  Qed.

  Lemma inv_step : forall fs0 w w' ex, Inv fs0 w ex -> astep size w w' -> exists ex', Inv fs0 w' ex'.
  Proof.
    intros fs0 w w' ex HI HS. destruct HS as [w p c l Hp R|w p d i l Hp R|w p s l ms Hp R C].
    - (* write *)
      pose proof (i_prog _ _ _ HI p Hp) as P. rewrite R in P. exists (add ex p (Write c)). constructor.
      + intros p' Hp'. cbn [w_rest]. unfold setw. destruct (Nat.eq_dec p' p) as [->|E].
        * rewrite add_same, Nat.eqb_refl, <- app_assoc. exact P.
        * rewrite add_other by exact E. assert (E2 : (p' =? p) = false) by (apply Nat.eqb_neq; exact E). rewrite E2. apply (i_prog _ _ _ HI). exact Hp'.
      + intros p' Hp'. cbn [w_chan].
        assert (X : forall q, recvs (add ex p (Write c) q) = recvs (ex q) /\ sends (add ex p (Write c) q) = sends (ex q)).
        { intros q. destruct (Nat.eq_dec q p) as [->|E]; [rewrite add_same, recvs_app, sends_app; unfold recvs, sends; cbn; lia|rewrite add_other by exact E; auto]. }
        rewrite (proj1 (X (p' + 1))), (proj2 (X p')). exact (i_chan _ _ _ HI p' Hp').
      + intros nm k Hk only. cbn [w_files]. pose proof (i_file _ _ _ HI nm k Hk only) as F.
        destruct (touches nm c) eqn:T.
        * (* later ranks have written nothing to it *)
          assert (L : forall q, p < q < size -> writes nm (ex q) = []).
          { intros q Hq. destruct (writes nm (ex q)) as [|c0 r0] eqn:W; [reflexivity|exfalso].
            assert (A1 : k - 0 < recvs (ex q)).
            { apply (prefix_writes nm k only n 0 q _ (w_rest w q)); [lia|lia| |rewrite W; discriminate].
              apply (i_prog _ _ _ HI). lia. }
            assert (A2 : sends (ex p) <= k - 0) by (apply (before_writes nm k only n 0 p _ c l); [lia|lia|exact P|exact T]).
            pose proof (chain _ _ _ HI (q - p - 1) p ltac:(lia)) as A3. replace (p + 1 + (q - p - 1)) with q in A3 by lia. lia. }
          rewrite (seq_at p Hp) in F |- *. rewrite map_app, concat_app in F |- *. cbn [map concat] in F |- *.
          rewrite add_same, writes_app. cbn [writes]. rewrite T.
          rewrite (concat_nil _ _ (fun q => writes nm (ex q)) (seq (S p) (size - S p))) in F by (intros q Hq; apply in_seq in Hq; apply L; lia).
          rewrite (concat_nil _ _ (fun q => writes nm (add ex p (Write c) q)) (seq (S p) (size - S p)))
            by (intros q Hq; apply in_seq in Hq; rewrite add_other by lia; apply L; lia).
          rewrite (concat_map_ext _ _ (fun q => writes nm (add ex p (Write c) q)) (fun q => writes nm (ex q)) (seq 0 p))
            by (intros q Hq; apply in_seq in Hq; rewrite add_other by lia; reflexivity).
          rewrite app_nil_r in F |- *. rewrite app_assoc, run_app. unfold run at 1. cbn [fold_left].
          apply exec_same. exact F.
        * rewrite exec_other by exact T. rewrite F. f_equal. f_equal. apply map_ext. intros q.
          destruct (Nat.eq_dec q p) as [->|E]; [rewrite add_same, writes_app; cbn [writes]; rewrite T, app_nil_r; reflexivity|rewrite add_other by exact E; reflexivity].
      + intros nm H. cbn [w_files]. destruct (touches nm c) eqn:T; [|rewrite exec_other by exact T; exact (i_out _ _ _ HI nm H)].
        exfalso. assert (X : writes nm (prog size acts p 0 n) = []).
        { generalize 0. generalize n. intros m. induction m as [|m IH]; intros f; [reflexivity|]. cbn [prog]. rewrite writes_app, writes_sect, H, IH. reflexivity. }
        rewrite <- P, writes_app in X. cbn [writes] in X. rewrite T in X. destruct (writes nm (ex p)); discriminate X.
    - (* send *)
      pose proof (i_prog _ _ _ HI p Hp) as P. rewrite R in P.
      destruct (head_send n 0 p _ _ _ _ P) as [Hs [-> ->]]. exists (add ex p (Com (Send (p + 1) 0))). constructor.
      + intros p' Hp'. cbn [w_rest]. unfold setw. destruct (Nat.eq_dec p' p) as [->|E].
        * rewrite add_same, Nat.eqb_refl, <- app_assoc. exact P.
        * rewrite add_other by exact E. assert (E2 : (p' =? p) = false) by (apply Nat.eqb_neq; exact E). rewrite E2. apply (i_prog _ _ _ HI). exact Hp'.
      + intros p' Hp'. cbn [w_chan]. destruct (i_chan _ _ _ HI p' Hp') as [A B]. unfold setc.
        destruct (Nat.eq_dec p' p) as [->|E].
        * rewrite !Nat.eqb_refl. cbn [andb]. rewrite add_same, (add_other ex p _ (p + 1)) by lia. rewrite sends_app.
          change (sends [Com (Send (p + 1) 0)]) with 1. split; [lia|]. rewrite B. replace (sends (ex p) + 1 - recvs (ex (p + 1))) with (sends (ex p) - recvs (ex (p + 1)) + 1) by lia.
          rewrite repeat_app. reflexivity.
        * assert (E2 : (p' =? p) = false) by (apply Nat.eqb_neq; exact E). rewrite E2. cbn [andb]. rewrite (add_other ex p _ p') by exact E.
          destruct (Nat.eq_dec (p' + 1) p) as [Y|Y].
          -- rewrite Y in *. rewrite add_same, recvs_app. change (recvs [Com (Send (p + 1) 0)]) with 0. rewrite Nat.add_0_r. auto.
          -- rewrite add_other by exact Y. auto.
      + intros nm k Hk only. cbn [w_files]. rewrite (i_file _ _ _ HI nm k Hk only). f_equal. f_equal. apply map_ext. intros q.
        destruct (Nat.eq_dec q p) as [->|E]; [rewrite add_same, writes_app; cbn [writes]; rewrite app_nil_r; reflexivity|rewrite add_other by exact E; reflexivity].
      + exact (i_out _ _ _ HI).
    - (* receive *)
      pose proof (i_prog _ _ _ HI p Hp) as P. rewrite R in P.
      destruct (head_recv n 0 p _ _ _ P) as [Hz ->]. exists (add ex p (Com (Recv (p - 1)))). constructor.
      + intros p' Hp'. cbn [w_rest]. unfold setw. destruct (Nat.eq_dec p' p) as [->|E].
        * rewrite add_same, Nat.eqb_refl, <- app_assoc. exact P.
        * rewrite add_other by exact E. assert (E2 : (p' =? p) = false) by (apply Nat.eqb_neq; exact E). rewrite E2. apply (i_prog _ _ _ HI). exact Hp'.
      + intros p' Hp'. cbn [w_chan]. destruct (i_chan _ _ _ HI p' Hp') as [A B]. unfold setc.
        destruct (Nat.eq_dec (p' + 1) p) as [Y|Y].
        * subst p. replace (p' + 1 - 1) with p' in * by lia. rewrite !Nat.eqb_refl. cbn [andb].
          rewrite add_same, (add_other ex (p' + 1) _ p') by lia. rewrite recvs_app. change (recvs [Com (Recv p')]) with 1.
          rewrite B in C. destruct (sends (ex p') - recvs (ex (p' + 1))) as [|z] eqn:Z; [discriminate C|]. cbn [repeat] in C.
          assert (C2 : repeat 0 z = ms) by (injection C; auto). split; [lia|]. rewrite <- C2. f_equal. lia.
        * assert (E2 : ((p' =? p - 1) && (p' + 1 =? p)) = false) by (apply andb_false_intro2; apply Nat.eqb_neq; exact Y). rewrite E2.
          rewrite (add_other ex p _ (p' + 1)) by exact Y. destruct (Nat.eq_dec p' p) as [->|E].
          -- rewrite add_same, sends_app. change (sends [Com (Recv (p - 1))]) with 0. rewrite Nat.add_0_r. auto.
          -- rewrite add_other by exact E. auto.
      + intros nm k Hk only. cbn [w_files]. rewrite (i_file _ _ _ HI nm k Hk only). f_equal. f_equal. apply map_ext. intros q.
        destruct (Nat.eq_dec q p) as [->|E]; [rewrite add_same, writes_app; cbn [writes]; rewrite app_nil_r; reflexivity|rewrite add_other by exact E; reflexivity].
      + exact (i_out _ _ _ HI).
  Qed.

  Lemma inv_steps : forall fs0 w, asteps size (start size acts n fs0) w -> exists ex, Inv fs0 w ex.
  Proof.
    intros fs0 w H. remember (start size acts n fs0) as w0 eqn:E. induction H as [w|w w1 w2 H IH HS].
    - subst w. exists (fun _ => []). apply inv_start.
    - destruct (IH E) as [ex HI]. exact (inv_step _ _ _ _ HI HS).
  Qed.

  (** the commands for file [nm] when everybody has written *)
  Definition complete (nm : string) (k : nat) : list cmd := concat (map (fun p => filter (touches nm) (acts p k)) (seq 0 size)).

  Lemma done_file : forall fs0 w nm k, asteps size (start size acts n fs0) w -> done size w -> k < n ->
    (forall p f, f <> k -> filter (touches nm) (acts p f) = []) -> w_files w nm = run (complete nm k) fs0 nm.
  Proof.
    intros fs0 w nm k HS HD Hk only. destruct (inv_steps _ _ HS) as [ex HI]. rewrite (i_file _ _ _ HI nm k Hk only).
    f_equal. unfold complete. apply concat_map_ext. intros p Hp. apply in_seq in Hp.
    pose proof (i_prog _ _ _ HI p ltac:(lia)) as P. rewrite (HD p ltac:(lia)), app_nil_r in P. rewrite P.
    apply (writes_prog nm k only). lia.
  Qed.

  (** at any moment: the commands executed are the first ones of them *)
  Lemma any_time : forall fs0 w nm k, asteps size (start size acts n fs0) w -> k < n ->
    (forall p f, f <> k -> filter (touches nm) (acts p f) = []) -> exists a b, complete nm k = a ++ b /\ w_files w nm = run a fs0 nm.
  Proof.
    intros fs0 w nm k HS Hk only. destruct (inv_steps _ _ HS) as [ex HI]. rewrite (i_file _ _ _ HI nm k Hk only).
    assert (W : forall p, p < size -> exists r, filter (touches nm) (acts p k) = writes nm (ex p) ++ r /\
                 (r <> [] -> forall q, p < q < size -> writes nm (ex q) = [])).
    { intros p Hp. pose proof (i_prog _ _ _ HI p Hp) as P. exists (writes nm (w_rest w p)). split.
      - rewrite <- writes_app, P. symmetry. apply (writes_prog nm k only). lia.
      - intros Hr q Hq. destruct (writes nm (ex q)) as [|c0 r0] eqn:Y; [reflexivity|exfalso].
        assert (A1 : k - 0 < recvs (ex q)).
        { apply (prefix_writes nm k only n 0 q _ (w_rest w q)); [lia|lia| |rewrite Y; discriminate]. apply (i_prog _ _ _ HI). lia. }
        (* the next command of p for this file *)
        assert (T : exists x c y, w_rest w p = x ++ Write c :: y /\ touches nm c = true).
        { clear - Hr. induction (w_rest w p) as [|o l IH]; [exfalso; apply Hr; reflexivity|]. destruct o as [o|c].
          - cbn [writes] in Hr. destruct (IH Hr) as [x [c [y [E T]]]]. exists (Com o :: x), c, y. rewrite E. auto.
          - destruct (touches nm c) eqn:T; [exists [], c, l; auto|]. cbn [writes] in Hr. rewrite T in Hr.
            destruct (IH Hr) as [x [c' [y [E T']]]]. exists (Write c :: x), c', y. rewrite E. auto. }
        destruct T as [x [c [y [E T]]]]. rewrite E, app_assoc in P.
        assert (A2 : sends (ex p ++ x) <= k - 0) by (apply (before_writes nm k only n 0 p _ c y); [lia|lia|exact P|exact T]).
        rewrite sends_app in A2.
        pose proof (chain _ _ _ HI (q - p - 1) p ltac:(lia)) as A3. replace (p + 1 + (q - p - 1)) with q in A3 by lia. lia. }
    exists (concat (map (fun p => writes nm (ex p)) (seq 0 size))).
    assert (G : forall m p, p + m = size -> exists b, concat (map (fun p => filter (touches nm) (acts p k)) (seq p m)) =
                  concat (map (fun p => writes nm (ex p)) (seq p m)) ++ b).
    { induction m as [|m IH]; intros p Hm; [exists []; reflexivity|]. cbn [seq map concat].
      destruct (W p ltac:(lia)) as [r [E1 E2]]. destruct r as [|c r].
      - rewrite app_nil_r in E1. rewrite E1. destruct (IH (S p) ltac:(lia)) as [b Eb]. exists b. rewrite Eb, app_assoc. reflexivity.
      - rewrite E1. rewrite (concat_nil _ _ (fun q => writes nm (ex q)) (seq (S p) m)) by (intros q Hq; apply in_seq in Hq; apply E2; [discriminate|lia]).
        rewrite app_nil_r. eexists. rewrite <- app_assoc. reflexivity. }
    destruct (G size 0 ltac:(lia)) as [b Eb]. exists b. split; [exact Eb|reflexivity].
  Qed.

  (** nobody waits for ever *)
  Lemma progress : forall fs0 w, asteps size (start size acts n fs0) w -> done size w \/ exists w', astep size w w'.
  Proof.
    intros fs0 w HS. destruct (inv_steps _ _ HS) as [ex HI].
    assert (G : forall p, p < size -> w_rest w p <> [] -> exists w', astep size w w').
    { induction p as [|p IH]; intros Hp R.
      - pose proof (i_prog _ _ _ HI 0 Hp) as P. destruct (w_rest w 0) as [|o l] eqn:E; [exfalso; apply R; reflexivity|]. destruct o as [[s|d i| | |]|c].
        + destruct (head_recv n 0 0 _ _ _ P) as [X _]. exfalso. apply X. reflexivity.
        + eexists. eapply a_send; eassumption.
        + exfalso. clear - P. assert (X : In (Com Begin) (prog size acts 0 0 n)) by (rewrite <- P; apply in_or_app; right; left; reflexivity). clear P. revert X. generalize 0 at 2. generalize n. intros m. induction m as [|m IH]; intros f X; [destruct X|]. cbn [prog] in X. apply in_app_or in X. destruct X as [X|X]; [|exact (IH _ X)]. unfold sect in X. cbn in X. apply in_app_or in X. destruct X as [X|X]; [apply in_map_iff in X; destruct X as [c [X _]]; discriminate X|]. unfold serialization_leave in X. destruct (0 + 1 <? size); cbn in X; [destruct X as [X|[]]; discriminate X|destruct X].
        + exfalso. clear - P. assert (X : In (Com End) (prog size acts 0 0 n)) by (rewrite <- P; apply in_or_app; right; left; reflexivity). clear P. revert X. generalize 0 at 2. generalize n. intros m. induction m as [|m IH]; intros f X; [destruct X|]. cbn [prog] in X. apply in_app_or in X. destruct X as [X|X]; [|exact (IH _ X)]. unfold sect in X. cbn in X. apply in_app_or in X. destruct X as [X|X]; [apply in_map_iff in X; destruct X as [c [X _]]; discriminate X|]. unfold serialization_leave in X. destruct (0 + 1 <? size); cbn in X; [destruct X as [X|[]]; discriminate X|destruct X].
        + exfalso. clear - P. assert (X : In (Com Barrier) (prog size acts 0 0 n)) by (rewrite <- P; apply in_or_app; right; left; reflexivity). clear P. revert X. generalize 0 at 2. generalize n. intros m. induction m as [|m IH]; intros f X; [destruct X|]. cbn [prog] in X. apply in_app_or in X. destruct X as [X|X]; [|exact (IH _ X)]. unfold sect in X. cbn in X. apply in_app_or in X. destruct X as [X|X]; [apply in_map_iff in X; destruct X as [c [X _]]; discriminate X|]. unfold serialization_leave in X. destruct (0 + 1 <? size); cbn in X; [destruct X as [X|[]]; discriminate X|destruct X].
        + eexists. eapply a_write; eassumption.
      - pose proof (i_prog _ _ _ HI (S p) Hp) as P. destruct (w_rest w (S p)) as [|o l] eqn:E; [exfalso; apply R; reflexivity|].
        assert (K : forall o, In (Com o) (prog size acts (S p) 0 n) -> o <> Begin /\ o <> End /\ o <> Barrier).
        { intros o'. generalize 0. generalize n. intros m. induction m as [|m IHm]; intros f X; [destruct X|]. cbn [prog] in X. apply in_app_or in X.
          destruct X as [X|X]; [|exact (IHm _ X)]. unfold sect in X. apply in_app_or in X. destruct X as [X|X]; [|apply in_app_or in X; destruct X as [X|X]].
          - apply in_map_iff in X. destruct X as [x [Ex X]]. injection Ex as ->. unfold serialization_enter in X. destruct (0 <? S p); [|destruct X]. destruct X as [<-|[]]. repeat split; discriminate.
          - apply in_map_iff in X. destruct X as [c [X _]]. discriminate X.
          - apply in_map_iff in X. destruct X as [x [Ex X]]. injection Ex as ->. unfold serialization_leave in X. destruct (S p + 1 <? size); [|destruct X]. destruct X as [<-|[]]. repeat split; discriminate. }
        destruct o as [o|c]; [|eexists; eapply a_write; eassumption].
        assert (Ko : In (Com o) (prog size acts (S p) 0 n)) by (rewrite <- P; apply in_or_app; right; left; reflexivity).
        destruct (K o Ko) as [K1 [K2 K3]]. destruct o as [s|d i| | |]; [|eexists; eapply a_send; eassumption|exfalso; apply K1; reflexivity|exfalso; apply K2; reflexivity|exfalso; apply K3; reflexivity].
        destruct (head_recv n 0 (S p) _ _ _ P) as [_ ->]. replace (S p - 1) with p in * by lia.
        destruct (i_chan _ _ _ HI p ltac:(lia)) as [A B]. replace (p + 1) with (S p) in * by lia.
        destruct (sends (ex p) - recvs (ex (S p))) as [|z] eqn:Z.
        + (* p has to send first *)
          apply IH; [lia|]. intros Y. pose proof (i_prog _ _ _ HI p ltac:(lia)) as P2. rewrite Y, app_nil_r in P2.
          pose proof (sends_prog n 0 p ltac:(lia)) as S2. rewrite <- P2 in S2.
          pose proof (recvs_prog n 0 (S p) ltac:(lia)) as R2. rewrite <- P, recvs_app in R2. unfold recvs at 2 in R2. cbn [filter is_recv length] in R2. lia.
        + cbn [repeat] in B. eexists. eapply a_recv; eassumption. }
    assert (D : (forall p, p < size -> w_rest w p = []) \/ exists p, p < size /\ w_rest w p <> []).
    { clear. induction size as [|s IH]; [left; intros p H; lia|]. destruct IH as [IH|[p [Hp R]]]; [|right; exists p; split; [lia|exact R]].
      destruct (w_rest w s) eqn:E; [left|right; exists s; split; [lia|rewrite E; discriminate]].
      intros p Hp. destruct (Nat.eq_dec p s) as [->|N]; [exact E|apply IH; lia]. }
    destruct D as [D|[p [Hp R]]]; [left; exact D|right; exact (G p Hp R)].
  Qed.

  Fixpoint left_over (m : nat) (w : world) : nat := match m with O => 0 | S k => length (w_rest w k) + left_over k w end.
  Lemma left_over_setw : forall m w f c p l o, p < m -> w_rest w p = o :: l ->
    left_over m (mkW (setw (w_rest w) p l) c f) + 1 = left_over m w.
  Proof.
    induction m as [|m IH]; intros w f c p l o Hp R; [lia|]. cbn [left_over w_rest]. unfold setw at 1.
    destruct (Nat.eq_dec m p) as [->|E].
    - rewrite Nat.eqb_refl, R. cbn [length].
      assert (X : forall k, k <= p -> left_over k (mkW (setw (w_rest w) p l) c f) = left_over k w).
      { induction k as [|k IHk]; intros Hk; [reflexivity|]. cbn [left_over w_rest]. unfold setw at 1.
        assert (Y : (k =? p) = false) by (apply Nat.eqb_neq; lia). rewrite Y, IHk by lia. reflexivity. }
      rewrite X by lia. lia.
    - assert (Y : (m =? p) = false) by (apply Nat.eqb_neq; exact E). rewrite Y.
      specialize (IH w f c p l o ltac:(lia) R). lia.
  Qed.
  Lemma step_less : forall w w', astep size w w' -> left_over size w' < left_over size w.
  Proof.
    intros w w' H. destruct H as [w p c l Hp R|w p d i l Hp R|w p s l ms Hp R C].
    - pose proof (left_over_setw size w (exec c (w_files w)) (w_chan w) p l _ Hp R). lia.
    - pose proof (left_over_setw size w (w_files w) (setc (w_chan w) p d (w_chan w p d ++ [i])) p l _ Hp R). lia.
    - pose proof (left_over_setw size w (w_files w) (setc (w_chan w) s p ms) p l _ Hp R). lia.
  Qed.
  Lemma completes : forall fs0 w, asteps size (start size acts n fs0) w ->
    exists w', asteps size (start size acts n fs0) w' /\ asteps size w w' /\ done size w'.
  Proof.
    intros fs0 w. remember (left_over size w) as m eqn:E. revert w E. induction m as [m IH] using lt_wf_ind. intros w E HS.
    destruct (progress fs0 w HS) as [D|[w1 S1]].
    - exists w. split; [exact HS|]. split; [apply a_none|exact D].
    - destruct (IH (left_over size w1) ltac:(rewrite E; apply step_less; exact S1) w1 eq_refl (a_more _ _ _ _ HS S1)) as [w2 [A [B D]]].
      exists w2. split; [exact A|]. split; [|exact D].
      clear - S1 B. induction B as [w1|w1 wa wb B IH S]; [exact (a_more _ _ _ _ (a_none _ w) S1)|exact (a_more _ _ _ _ (IH S1) S)].
  Qed.
End Schedule.
