(** The picture of the mesh: lemmas. *)
From Coq Require Import ZArith QArith Qround Qfield Qpower Ascii List Bool Permutation Lia Lqa Arith.
From Verif Require Import Base_Float Model_Face Model_Domain Model_Search Model_Brick Spec_Brick Model_Util Spec_Geom Proof_Geom Model_Tikz Spec_Tikz.
Import ListNotations.

(** ** The file *)
Lemma set_same : forall {A} (f : nat -> A) p a, set f p a p = a.
Proof. intros. unfold set. now rewrite Nat.eqb_refl. Qed.
Lemma set_other : forall {A} (f : nat -> A) p a p', p' <> p -> set f p a p' = f p'.
Proof. intros. unfold set. destruct (Nat.eqb_spec p' p); [contradiction | reflexivity]. Qed.

Definition part (p : nat) (pieces : list (nat * bytes)) : bytes := concat (map snd (filter (fun x => Nat.eqb (fst x) p) pieces)).
Lemma part_snoc : forall p pieces p' c, part p (pieces ++ [(p', c)]) = if Nat.eqb p' p then part p pieces ++ c else part p pieces.
Proof.
  intros. unfold part. rewrite filter_app. cbn [filter fst]. destruct (Nat.eqb p' p).
  - rewrite map_app, concat_app. cbn [map snd concat]. now rewrite app_nil_r.
  - now rewrite app_nil_r.
Qed.

Section File.
  Variables (spill : bytes -> bytes * bytes) (size : nat) (header footer : bytes) (records : nat -> list bytes).
  Definition text (p : nat) : bytes := concat (records p).

  Definition shape (w : tworld) : Prop :=
    (forall p, p < tw_turn w -> p < size -> tw_rest w p = [])%nat /\
    (forall p, tw_closed w p = true -> p < tw_turn w /\ tw_buf w p = [])%nat /\
    (tw_end w = true -> forall p, (p < size)%nat -> tw_closed w p = true).
  Lemma shape_start : shape (tstart header records).
  Proof. repeat split; cbn in *; try discriminate; intros; lia. Qed.
  Lemma shape_step : forall w w', tstep spill size footer w w' -> shape w -> shape w'.
  Proof.
    intros w w' S (A & B & C). inversion S; subst; unfold shape; cbn [tw_turn tw_rest tw_buf tw_closed tw_end].
    - repeat match goal with v := _ |- _ => subst v end. assert (NC : tw_closed w (tw_turn w) = false) by (destruct (tw_closed w (tw_turn w)) eqn:E; [apply B in E; lia | reflexivity]).
      split; [|split].
      + intros p' H1 H2. rewrite set_other by lia. auto.
      + intros p' H1. rewrite set_other by congruence. auto.
      + auto.
    - split; [|split].
      + intros p' H1 H2. destruct (Nat.eq_dec p' (tw_turn w)) as [->|N]; [assumption | apply A; lia].
      + intros p' H1. destruct (B p' H1). split; [lia | assumption].
      + auto.
    - split; [auto|]. split.
      + intros p' H3. destruct (Nat.eq_dec p' p) as [->|N]; [rewrite set_same; auto|]. rewrite set_other in H3 by assumption. rewrite set_other by assumption. auto.
      + intros E p' Hp'. destruct (Nat.eq_dec p' p) as [->|N]; [apply set_same|]. rewrite set_other by assumption. auto.
    - split; [auto|]. split; [auto|]. intros _. assumption.
  Qed.
  Lemma not_end : forall w p, shape w -> (p < size)%nat -> tw_closed w p = false -> tw_end w = false.
  Proof. intros w p (_ & _ & C) Hp N. destruct (tw_end w); [rewrite (C eq_refl p Hp) in N; discriminate | reflexivity]. Qed.

  Hypothesis Sound : sound spill.
  Definition whole_inv (w : tworld) : Prop := exists pieces,
    tw_file w = header ++ concat (map snd pieces) ++ (if tw_end w then footer else []) /\ Forall (fun x => (fst x < size)%nat) pieces /\
    forall p, (p < size)%nat -> part p pieces ++ tw_buf w p ++ concat (tw_rest w p) = text p.
  Lemma whole_step : forall w w', tstep spill size footer w w' -> shape w -> whole_inv w -> whole_inv w'.
  Proof.
    intros w w' S Sh (pieces & F & R & T). pose proof Sh as (A & B & C). inversion S; subst; unfold whole_inv; cbn [tw_turn tw_rest tw_buf tw_closed tw_end tw_file].
    - repeat match goal with v := _ |- _ => subst v end. assert (NC : tw_closed w (tw_turn w) = false) by (destruct (tw_closed w (tw_turn w)) eqn:E; [apply B in E; lia | reflexivity]).
      rewrite (not_end w _ Sh H NC) in *.
      exists (pieces ++ [(tw_turn w, fst (spill (tw_buf w (tw_turn w) ++ r)))]).
      rewrite map_app, concat_app. cbn [map snd concat]. split; [rewrite F, !app_nil_r, !app_assoc; reflexivity|].
      split; [apply Forall_app; split; [assumption | constructor; [assumption | constructor]]|].
      intros p' Hp'. rewrite part_snoc. specialize (T p' Hp'). destruct (Nat.eqb_spec (tw_turn w) p') as [<-|N].
      + rewrite !set_same, <- T, H0. cbn [concat]. rewrite <- !app_assoc. f_equal. rewrite !app_assoc. f_equal. apply Sound.
      + rewrite !set_other by congruence. exact T.
    - exists pieces. auto.
    - rewrite (not_end w _ Sh H H1) in *. exists (pieces ++ [(p, tw_buf w p)]).
      rewrite map_app, concat_app. cbn [map snd concat]. split; [rewrite F, !app_nil_r, !app_assoc; reflexivity|].
      split; [apply Forall_app; split; [assumption | constructor; [assumption | constructor]]|].
      intros p' Hp'. rewrite part_snoc. specialize (T p' Hp'). destruct (Nat.eqb_spec p p') as [<-|N].
      + rewrite set_same, <- T, <- !app_assoc. reflexivity.
      + rewrite set_other by congruence. exact T.
    - exists pieces. rewrite H0 in F. rewrite F. split; [rewrite <- !app_assoc; reflexivity|]. auto.
  Qed.
  Lemma whole_run : forall w, tsteps spill size footer (tstart header records) w -> shape w /\ whole_inv w.
  Proof.
    intros w H. remember (tstart header records) as w0 eqn:E. revert E. induction H; intros ->.
    - split; [apply shape_start|]. exists []. cbn. rewrite !app_nil_r. repeat split; auto.
    - destruct (IHtsteps eq_refl). split; [eapply shape_step; eassumption | eapply whole_step; eassumption].
  Qed.
  Lemma whole_file : forall w, tsteps spill size footer (tstart header records) w -> finished w ->
    exists body, tw_file w = header ++ body ++ footer /\ made_of size text body.
  Proof.
    intros w H E. destruct (whole_run w H) as ((A & B & C) & pieces & F & R & T). unfold finished in E. rewrite E in F.
    eexists. split; [exact F|]. exists pieces. split; [reflexivity|]. split; [assumption|]. intros p Hp.
    destruct (B p (C E p Hp)) as (L & Bu). specialize (T p Hp). rewrite Bu, (A p L Hp) in T. cbn in T. rewrite app_nil_r in T. exact T.
  Qed.
  Lemma progress : forall w, tsteps spill size footer (tstart header records) w -> finished w \/ exists w', tstep spill size footer w w'.
  Proof.
    intros w H. destruct (whole_run w H) as ((A & B & C) & _). unfold finished. destruct (tw_end w) eqn:E; [auto | right].
    destruct (Nat.lt_ge_cases (tw_turn w) size) as [L | L].
    - destruct (tw_rest w (tw_turn w)) as [|r rs] eqn:R; eexists; [now apply t_leave | eapply t_print; eassumption].
    - destruct (forallb (tw_closed w) (seq 0 size)) eqn:FB.
      + rewrite forallb_forall in FB. eexists. apply t_end; [|assumption]. intros p Hp. apply FB, in_seq. lia.
      + assert (X : exists p, (p < size)%nat /\ tw_closed w p = false).
        { clear -FB. assert (Y : exists p, In p (seq 0 size) /\ tw_closed w p = false).
          { induction (seq 0 size) as [|a l IH]; [discriminate|]. cbn in FB. destruct (tw_closed w a) eqn:Ea; [destruct (IH FB) as (p & ? & ?); exists p; cbn; auto | exists a; cbn; auto]. }
          destruct Y as (p & Hp & Ep). apply in_seq in Hp. exists p. split; [lia | assumption]. }
        destruct X as (p & Hp & Ep). eexists. apply t_close with (p := p); [assumption | lia | assumption].
  Qed.

  (** *** Nothing is passed on before the end *)
  Hypothesis Keeps : forall p r rs done, (p < size)%nat -> records p = done ++ r :: rs -> fst (spill (concat done ++ r)) = [].
  Definition held_inv (w : tworld) : Prop := exists order,
    tw_file w = header ++ concat (map text order) ++ (if tw_end w then footer else []) /\ NoDup order /\
    (forall p, In p order <-> (p < size)%nat /\ tw_closed w p = true) /\
    forall p, (p < size)%nat -> tw_closed w p = false -> exists done, records p = done ++ tw_rest w p /\ tw_buf w p = concat done.
  Lemma held_step : forall w w', tstep spill size footer w w' -> shape w -> held_inv w -> held_inv w'.
  Proof.
    intros w w' S Sh (order & F & ND & O & T). pose proof Sh as (A & B & C). inversion S; subst; unfold held_inv; cbn [tw_turn tw_rest tw_buf tw_closed tw_end tw_file].
    - repeat match goal with v := _ |- _ => subst v end. assert (NC : tw_closed w (tw_turn w) = false) by (destruct (tw_closed w (tw_turn w)) eqn:E; [apply B in E; lia | reflexivity]).
      destruct (T _ H NC) as (done & D1 & D2). rewrite H0 in D1. pose proof (Keeps _ _ _ _ H D1) as K.
      rewrite D2. pose proof (Sound (concat done ++ r)) as So. rewrite K in So |- *. cbn [app] in So. rewrite app_nil_r.
      exists order. split; [exact F|]. split; [exact ND|]. split; [exact O|]. intros p' Hp' Np'. destruct (Nat.eq_dec p' (tw_turn w)) as [->|N].
      + rewrite !set_same. exists (done ++ [r]). split; [rewrite <- app_assoc; exact D1|]. rewrite concat_app. cbn [concat]. rewrite app_nil_r. exact So.
      + rewrite !set_other by assumption. auto.
    - exists order. auto.
    - rewrite (not_end w _ Sh H H1) in *. exists (order ++ [p]). rewrite map_app, concat_app. cbn [map concat].
      destruct (T p H H1) as (done & D1 & D2). rewrite (A p H0 H), app_nil_r in D1. subst done.
      split; [rewrite F, D2, !app_nil_r, !app_assoc; reflexivity|].
      assert (NI : ~ In p order) by (intro X; apply O in X; destruct X; congruence).
      split; [apply NoDup_Add with (a := p) (l := order); [rewrite <- (app_nil_r order) at 1; apply Add_app | split; assumption]|].
      split.
      + intros p'. rewrite in_app_iff, O. cbn [In]. destruct (Nat.eq_dec p' p) as [->|N]; [rewrite set_same; intuition|]. rewrite set_other by assumption. intuition congruence.
      + intros p' Hp' Np'. destruct (Nat.eq_dec p' p) as [->|N]; [rewrite set_same in Np'; discriminate|]. rewrite set_other in Np' by assumption. rewrite set_other by assumption. auto.
    - exists order. rewrite H0 in F. rewrite F. split; [rewrite <- !app_assoc; reflexivity|]. auto.
  Qed.
  Lemma held : forall w, tsteps spill size footer (tstart header records) w -> finished w ->
    exists order, Permutation order (seq 0 size) /\ tw_file w = header ++ concat (map text order) ++ footer.
  Proof.
    intros w H E. assert (I : shape w /\ held_inv w).
    { clear E. remember (tstart header records) as w0 eqn:E0. revert E0. induction H; intros ->.
      - split; [apply shape_start|]. exists []. cbn. rewrite !app_nil_r. split; [reflexivity|]. split; [constructor|]. split; [intuition discriminate|]. intros p _ _. exists []. auto.
      - destruct (IHtsteps eq_refl). split; [eapply shape_step; eassumption | eapply held_step; eassumption]. }
    destruct I as ((A & B & C) & order & F & ND & O & _). unfold finished in E. rewrite E in F. exists order. split; [|exact F].
    apply NoDup_Permutation; [assumption | apply seq_NoDup|]. intro p. rewrite O, in_seq. split; [intros (X & _); lia | intro X; split; [lia | apply C; [assumption | lia]]].
  Qed.
End File.

(** ** Full blocks *)
Lemma blocks_sound : forall cap, sound (full_blocks cap).
Proof. intros cap b. apply firstn_skipn. Qed.
Lemma blocks_keep : forall cap b, (length b < cap)%nat -> fst (full_blocks cap b) = [].
Proof. intros cap b H. unfold full_blocks. rewrite Nat.div_small, Nat.mul_0_r by assumption. reflexivity. Qed.

(** printing one record after the other *)
Lemma blocks_run : forall cap size footer w rs, (1 <= cap)%nat -> (tw_turn w < size)%nat -> tw_rest w (tw_turn w) = rs -> (length (tw_buf w (tw_turn w)) < cap)%nat ->
  let sp := full_blocks cap (tw_buf w (tw_turn w) ++ concat rs) in
  exists w', (forall w0, tsteps (full_blocks cap) size footer w0 w -> tsteps (full_blocks cap) size footer w0 w') /\
    tw_turn w' = tw_turn w /\ tw_rest w' (tw_turn w) = [] /\ tw_buf w' (tw_turn w) = snd sp /\ tw_file w' = tw_file w ++ fst sp /\
    (forall p, p <> tw_turn w -> tw_rest w' p = tw_rest w p /\ tw_buf w' p = tw_buf w p) /\ tw_closed w' = tw_closed w /\ tw_end w' = tw_end w.
Proof.
  intros cap size footer w rs Hc. revert w. induction rs as [|r rs IH]; intros w Hp HR HB.
  - cbn [concat]. rewrite app_nil_r. unfold full_blocks. rewrite Nat.div_small, Nat.mul_0_r by assumption. cbn [firstn skipn fst snd]. exists w. rewrite app_nil_r. repeat split; auto.
  - pose proof (t_print (full_blocks cap) size footer w r rs Hp HR) as S. cbv zeta in S.
    match type of S with tstep _ _ _ _ ?x => set (w1 := x) in S end.
    assert (B1 : (length (tw_buf w1 (tw_turn w1)) < cap)%nat).
    { unfold w1. cbn [tw_buf tw_turn]. rewrite set_same. unfold full_blocks. cbn [snd]. rewrite skipn_length. pose proof (Nat.div_mod (length (tw_buf w (tw_turn w) ++ r)) cap ltac:(lia)). pose proof (Nat.mod_upper_bound (length (tw_buf w (tw_turn w) ++ r)) cap ltac:(lia)). lia. }
    destruct (IH w1 Hp ltac:(unfold w1; cbn [tw_rest tw_turn]; apply set_same) B1) as (w' & R & E1 & E2 & E3 & E4 & E5 & E6 & E7).
    exists w'. unfold w1 in *. cbn [tw_turn tw_rest tw_buf tw_closed tw_end tw_file] in *. rewrite set_same in *.
    set (b := tw_buf w (tw_turn w)) in *.
    assert (X : fst (full_blocks cap (b ++ r)) ++ fst (full_blocks cap (snd (full_blocks cap (b ++ r)) ++ concat rs)) = fst (full_blocks cap (b ++ concat (r :: rs))) /\
                snd (full_blocks cap (snd (full_blocks cap (b ++ r)) ++ concat rs)) = snd (full_blocks cap (b ++ concat (r :: rs)))).
    { cbn [concat]. rewrite (app_assoc b r). set (u := b ++ r). set (v := concat rs). unfold full_blocks. cbn [fst snd]. rewrite !app_length, skipn_length.
      set (k := (length u / cap)%nat). pose proof (Nat.div_mod (length u) cap ltac:(lia)) as DM. fold k in DM.
      assert (Q1 : ((length u + length v) / cap = k + (length u - cap * k + length v) / cap)%nat).
      { replace (length u + length v)%nat with (k * cap + (length u - cap * k + length v))%nat by lia. apply Nat.div_add_l. lia. }
      rewrite Q1, Nat.mul_add_distr_l. set (j := (cap * ((length u - cap * k + length v) / cap))%nat).
      assert (LK : (cap * k <= length u)%nat) by lia.
      assert (EQ : u ++ v = firstn (cap * k) u ++ (skipn (cap * k) u ++ v)) by (rewrite app_assoc, firstn_skipn; reflexivity).
      assert (LF : length (firstn (cap * k) u) = (cap * k)%nat) by (rewrite firstn_length; lia).
      rewrite EQ. split.
      - rewrite (firstn_app (cap * k + j) (firstn (cap * k) u)), LF. replace (cap * k + j - cap * k)%nat with j by lia. rewrite (firstn_all2 (firstn (cap * k) u)) by lia. reflexivity.
      - rewrite (skipn_app (cap * k + j) (firstn (cap * k) u)), LF. replace (cap * k + j - cap * k)%nat with j by lia. rewrite (skipn_all2 (firstn (cap * k) u)) by lia. reflexivity. }
    destruct X as (X1 & X2). split; [intros w0 HS; apply R; eapply t_more; [exact HS | exact S]|].
    split; [exact E1|]. split; [exact E2|]. split; [rewrite E3; exact X2|]. split; [rewrite E4, <- app_assoc, X1; reflexivity|].
    split; [|split; assumption]. intros p Np. destruct (E5 p Np) as (F1 & F2). rewrite set_other in F1 by assumption. rewrite set_other in F2 by assumption. auto.
Qed.
