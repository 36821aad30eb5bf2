(** Counting argument for serialized sections. *)
From Coq Require Import List Arith Lia Bool.
From Verif Require Import Model_Serial Spec_Serial.
Import ListNotations.

Definition is_recv (o : op) : bool := match o with Recv _ => true | _ => false end.
Definition is_send (o : op) : bool := match o with Send _ _ => true | _ => false end.
Definition is_bar (o : op) : bool := match o with Barrier => true | _ => false end.

Lemma count_cons : forall f x l, count f (x :: l) = (if f x then 1 else 0) + count f l.
Proof. intros f x l. unfold count. cbn [filter]. destruct (f x); reflexivity. Qed.
Lemma count_app : forall f l l', count f (l ++ l') = count f l + count f l'.
Proof. intros f l l'. unfold count. rewrite filter_app, app_length. reflexivity. Qed.
Lemma count_nil : forall f, count f [] = 0.
Proof. reflexivity. Qed.

Definition b2n (b : bool) : nat := if b then 1 else 0.

Section Serial.
  Variable rounds : nat.
  Variable b : bool.
  Variable n : nat.

  Lemma section_eq : forall p, section b p n =
    (if 0 <? p then [Recv (p - 1)] else []) ++ [Begin; End] ++ (if p + 1 <? n then [Send (p + 1) 0] else []) ++ (if b then [Barrier] else []).
  Proof. reflexivity. Qed.

  Lemma program_counts : forall p r,
    count is_recv (program r b p n) = b2n (0 <? p) * r /\ count is_begin (program r b p n) = r /\
    count is_end (program r b p n) = r /\ count is_send (program r b p n) = b2n (p + 1 <? n) * r /\
    count is_bar (program r b p n) = b2n b * r.
  Proof.
    intros p r. induction r as [|r IH]; [cbn; repeat split; lia|]. destruct IH as (I1 & I2 & I3 & I4 & I5). cbn [program].
    rewrite !count_app, I1, I2, I3, I4, I5, section_eq. clear. destruct (0 <? p), (p + 1 <? n), b; cbn [b2n app count filter is_recv is_begin is_end is_send is_bar length]; lia.
  Qed.

  Definition shape (p : nat) (l : list op) : Prop := exists r t pre, section b p n = pre ++ t /\ l = t ++ program r b p n /\ r + b2n (0 <? length t) <= rounds.

  Lemma shape_tail : forall p x l, shape p (x :: l) -> shape p l.
  Proof.
    intros p x l (r & t & pre & E & El & Hr). destruct t as [|y t].
    - destruct r as [|r]; [discriminate El|]. cbn [app program] in El.
      destruct (section b p n) as [|y t] eqn:S1; [unfold section in S1; destruct (serialization_enter p n); discriminate S1|].
      cbn [app] in El. injection El as -> ->. exists r, t, [y]. split; [exact S1|]. split; [reflexivity|]. cbn in Hr. destruct t; cbn; lia.
    - cbn [app] in El. injection El as -> ->. exists r, t, (pre ++ [y]). split; [rewrite <- app_assoc; exact E|]. split; [reflexivity|].
      cbn in Hr. destruct t; cbn; lia.
  Qed.

  Lemma shape_start : forall p, shape p (program rounds b p n).
  Proof. intros p. exists rounds, [], (section b p n). split; [now rewrite app_nil_r|]. split; [reflexivity|]. cbn. lia. Qed.

  Definition facts (p : nat) (l : list op) : Prop :=
    count is_begin l <= count is_end l <= count is_begin l + 1 /\ count is_end l <= rounds /\
    (0 < p -> count is_recv l <= count is_begin l <= count is_recv l + 1) /\
    (p + 1 < n -> count is_end l <= count is_send l) /\
    (b = true -> count is_end l <= count is_bar l <= count is_begin l + 1) /\
    match l with
    | [] => True
    | Recv s :: _ => 0 < p /\ s = p - 1 /\ (b = true -> count is_recv l = count is_bar l)
    | Send d i :: _ => d = p + 1 /\ i = 0 /\ p + 1 < n /\ (b = true -> count is_send l = count is_bar l)
    | Begin :: _ => True
    | End :: _ => count is_end l = count is_begin l + 1
    | Barrier :: _ => b = true /\ (0 < p -> count is_recv l + 1 = count is_bar l) /\ (p + 1 < n -> count is_send l + 1 = count is_bar l)
    end.

  Lemma shape_facts : forall p l, shape p l -> facts p l.
  Proof.
    intros p l (r & t & pre & E & -> & Hr). unfold facts.
    assert (T : In t ([] :: match 0 <? p with true => [section b p n] | false => [] end ++
      [Begin :: End :: (if p + 1 <? n then [Send (p + 1) 0] else []) ++ (if b then [Barrier] else []);
       End :: (if p + 1 <? n then [Send (p + 1) 0] else []) ++ (if b then [Barrier] else []);
       (if p + 1 <? n then [Send (p + 1) 0] else []) ++ (if b then [Barrier] else []);
       (if b then [Barrier] else [])])).
    { rewrite section_eq in E |- *. clear - E. destruct (0 <? p), (p + 1 <? n), b; cbn [app] in E |- *;
      repeat (destruct pre as [|?x pre]; [cbn [app] in E; subst t; cbn; tauto|cbn [app] in E; injection E as ? E]);
      destruct pre; try discriminate E; cbn [app] in E; subst t; cbn; tauto. }
    clear E pre. rewrite section_eq in T.
    destruct (program_counts p r) as (P1 & P2 & P3 & P4 & P5).
    assert (Hp : (0 <? p) = true <-> 0 < p) by apply Nat.ltb_lt.
    assert (Hn : (p + 1 <? n) = true <-> p + 1 < n) by apply Nat.ltb_lt.
    (* the head of the program that follows *)
    assert (HP : match program r b p n with
      | [] => True
      | Recv s :: _ => 0 < p /\ s = p - 1
      | Begin :: _ => True
      | _ => False end).
    { destruct r; [exact I|]. cbn [program]. rewrite section_eq. destruct (0 <? p); cbn [app]; [split; [now apply Hp|reflexivity]|exact I]. }
    rewrite !count_app, P1, P2, P3, P4, P5.
    destruct (0 <? p) eqn:B1, (p + 1 <? n) eqn:B2, b eqn:B3; cbn [app In] in T;
    assert (X1 : 0 < p \/ ~ 0 < p) by lia; assert (X2 : p + 1 < n \/ ~ p + 1 < n) by lia;
    try (assert (0 < p) by (now apply Hp)); try (assert (p + 1 < n) by (now apply Hn));
    try (assert (~ 0 < p) by (rewrite <- Hp; discriminate)); try (assert (~ p + 1 < n) by (rewrite <- Hn; discriminate));
    repeat (destruct T as [<-|T]); try contradiction;
    cbn [b2n app count filter is_recv is_begin is_end is_send is_bar length Nat.ltb Nat.leb] in *;
    try (repeat split; try lia; try discriminate; fail);
    (repeat split; try lia; try discriminate);
    destruct (program r _ p n) as [|[s|d i| | |] l']; try contradiction; try exact I; cbn [b2n app count filter is_recv is_begin is_end is_send is_bar length] in *; repeat split; try tauto; try lia; try discriminate.
  Qed.

  Notation cR c p := (count is_recv (rest c p)).
  Notation cS c p := (count is_send (rest c p)).
  Notation cK c p := (count is_bar (rest c p)).

  Record Inv (c : config) : Prop := mkInv {
    i_shape : forall p, p < n -> shape p (rest c p);
    i_chan : forall k, k + 1 < n -> cR c (k + 1) = cS c k + length (chan c k (k + 1));
    i_zero : forall s d, Forall (fun i => i = 0) (chan c s d);
    i_bar : b = true -> forall p q, p < n -> q < n -> cK c p = cK c q }.

  Lemma inv_start : Inv (initial rounds b n).
  Proof.
    split; cbn [initial rest chan].
    - intros p Hp. replace (p <? n) with true by (symmetry; now apply Nat.ltb_lt). apply shape_start.
    - intros k Hk. replace (k + 1 <? n) with true by (symmetry; now apply Nat.ltb_lt). replace (k <? n) with true by (symmetry; apply Nat.ltb_lt; lia).
      destruct (program_counts (k + 1) rounds) as (-> & _). destruct (program_counts k rounds) as (_ & _ & _ & -> & _).
      replace (0 <? k + 1) with true by (symmetry; apply Nat.ltb_lt; lia). replace (k + 1 <? n) with true by (symmetry; now apply Nat.ltb_lt).
      cbn. lia.
    - intros. constructor.
    - intros Hb p q Hp Hq. replace (p <? n) with true by (symmetry; now apply Nat.ltb_lt). replace (q <? n) with true by (symmetry; now apply Nat.ltb_lt).
      destruct (program_counts p rounds) as (_ & _ & _ & _ & ->). now destruct (program_counts q rounds) as (_ & _ & _ & _ & ->).
  Qed.

  Lemma setr_eq : forall f p l, setr f p l p = l.
  Proof. intros. unfold setr. now rewrite Nat.eqb_refl. Qed.
  Lemma setr_ne : forall f p l p', p' <> p -> setr f p l p' = f p'.
  Proof. intros f p l p' H. unfold setr. destruct (Nat.eqb_spec p' p); [contradiction|reflexivity]. Qed.
  Lemma setc_eq : forall f s d l, setc f s d l s d = l.
  Proof. intros. unfold setc. now rewrite !Nat.eqb_refl. Qed.
  Lemma setc_ne : forall f s d l s' d', s' <> s \/ d' <> d -> setc f s d l s' d' = f s' d'.
  Proof. intros f s d l s' d' H. unfold setc. destruct (Nat.eqb_spec s' s), (Nat.eqb_spec d' d); try reflexivity. lia. Qed.

  Lemma shape_set : forall c p x l, (forall p, p < n -> shape p (rest c p)) -> rest c p = x :: l ->
    forall p', p' < n -> shape p' (setr (rest c) p l p').
  Proof.
    intros c p x l H E p' Hp'. destruct (Nat.eq_dec p' p) as [->|Hne]; [|rewrite setr_ne by exact Hne; now apply H].
    rewrite setr_eq. apply shape_tail with x. rewrite <- E. now apply H.
  Qed.

  (** a step of one process that is neither a message nor a barrier *)
  Lemma inv_local : forall c p x l, Inv c -> rest c p = x :: l -> is_recv x = false -> is_send x = false -> is_bar x = false ->
    Inv (mkC (setr (rest c) p l) (chan c)).
  Proof.
    intros c p x l [I1 I2 I3 I4] E X1 X2 X3.
    assert (U : forall p', count is_recv (setr (rest c) p l p') = cR c p' /\ count is_send (setr (rest c) p l p') = cS c p' /\
      count is_bar (setr (rest c) p l p') = cK c p').
    { intros p'. destruct (Nat.eq_dec p' p) as [->|Hne]; [|rewrite setr_ne by exact Hne; auto].
      rewrite setr_eq, E, !count_cons, X1, X2, X3. auto. }
    split; cbn [rest chan].
    - exact (shape_set c p x l I1 E).
    - intros k Hk. destruct (U (k + 1)) as (-> & _). destruct (U k) as (_ & -> & _). now apply I2.
    - exact I3.
    - intros Hb p1 q1 H1 H2. destruct (U p1) as (_ & _ & ->). destruct (U q1) as (_ & _ & ->). now apply I4.
  Qed.

  Lemma inv_step : forall c c', Inv c -> step n c c' -> Inv c'.
  Proof.
    intros c c' HI HS. pose proof HI as [I1 I2 I3 I4]. destruct HS as [c c' HS|c p d i l Hp E].
    - destruct HS as [c p l Hp E|c p l Hp E|c p s l ms Hp E EC|c p d l l' Hp Hd Hne E E' EC|c l HB HO _].
      + exact (inv_local c p _ l HI E eq_refl eq_refl eq_refl).
      + exact (inv_local c p _ l HI E eq_refl eq_refl eq_refl).
      + pose proof (shape_facts p _ (I1 p Hp)) as (_ & _ & _ & _ & _ & HF). rewrite E in HF. destruct HF as (P0 & -> & _).
        split; cbn [rest chan].
        * exact (shape_set c p _ l I1 E).
        * intros k Hk. pose proof (I2 k Hk) as J. destruct (Nat.eq_dec (k + 1) p) as [Ep|Nep].
          -- assert (Ek : k = p - 1) by lia. rewrite Ep in *. rewrite Ek in *. rewrite setr_eq, setr_ne by lia. rewrite setc_eq, EC in *. rewrite E, count_cons in J. cbn in J. cbn [length] in J. lia.
          -- rewrite setc_ne by lia. rewrite setr_ne by lia. destruct (Nat.eq_dec k p) as [->|Nk].
             ++ rewrite setr_eq. rewrite E, count_cons in J. exact J.
             ++ rewrite setr_ne by exact Nk. exact J.
        * intros s d. unfold setc. destruct (_ && _); [|apply I3]. pose proof (I3 (p - 1) p) as Z0. rewrite EC in Z0. now inversion Z0.
        * intros Hb p1 q1 H1 H2. assert (U : forall x, count is_bar (setr (rest c) p l x) = cK c x).
          { intros x. destruct (Nat.eq_dec x p) as [->|]; [rewrite setr_eq, E, count_cons; reflexivity|now rewrite setr_ne]. }
          rewrite !U. now apply I4.
      + pose proof (shape_facts p _ (I1 p Hp)) as (_ & _ & _ & _ & _ & HF). rewrite E in HF. destruct HF as (-> & _ & Hpn & _).
        assert (E2 : setr (rest c) p l (p + 1) = Recv p :: l') by (rewrite setr_ne by lia; exact E').
        split; cbn [rest chan].
        * exact (shape_set (mkC (setr (rest c) p l) (chan c)) (p + 1) _ l' (shape_set c p _ l I1 E) E2).
        * intros k Hk. pose proof (I2 k Hk) as J. destruct (Nat.eq_dec k p) as [->|Nk].
          -- rewrite setr_eq, setr_ne by lia. rewrite setr_eq. rewrite E, E', !count_cons in J. cbn in J. lia.
          -- rewrite (setr_ne _ (p + 1) l' (k + 1)) by lia. destruct (Nat.eq_dec (k + 1) p) as [Ep|Np].
             ++ rewrite Ep in *. rewrite setr_eq. rewrite !setr_ne by lia. rewrite E, count_cons in J. exact J.
             ++ rewrite setr_ne by exact Np. destruct (Nat.eq_dec k (p + 1)) as [->|Nk1].
                ** rewrite setr_eq. rewrite E', count_cons in J. exact J.
                ** rewrite !setr_ne by assumption. exact J.
        * exact I3.
        * intros Hb p1 q1 H1 H2. assert (U : forall x, count is_bar (setr (setr (rest c) p l) (p + 1) l' x) = cK c x).
          { intros x. destruct (Nat.eq_dec x (p + 1)) as [->|N1]; [rewrite setr_eq, E', count_cons; reflexivity|rewrite setr_ne by exact N1].
            destruct (Nat.eq_dec x p) as [->|]; [rewrite setr_eq, E, count_cons; reflexivity|now rewrite setr_ne]. }
          rewrite !U. now apply I4.
      + split; cbn [rest chan].
        * intros p Hp. apply shape_tail with Barrier. rewrite <- (HB p Hp). now apply I1.
        * intros k Hk. pose proof (I2 k Hk) as J. rewrite !HB, !count_cons in J by lia. exact J.
        * exact I3.
        * intros Hb p q Hp Hq. pose proof (I4 Hb p q Hp Hq) as J. rewrite !HB, !count_cons in J by assumption. cbn in J. lia.
    - pose proof (shape_facts p _ (I1 p Hp)) as (_ & _ & _ & _ & _ & HF). rewrite E in HF. destruct HF as (-> & -> & Hpn & _).
      split; cbn [rest chan].
      + exact (shape_set c p _ l I1 E).
      + intros k Hk. pose proof (I2 k Hk) as J. destruct (Nat.eq_dec k p) as [->|Nk].
        * rewrite setr_eq, setc_eq, app_length, setr_ne by lia. rewrite E, count_cons in J. cbn in J |- *. lia.
        * rewrite setc_ne by lia. rewrite (setr_ne _ _ _ k) by exact Nk. destruct (Nat.eq_dec (k + 1) p) as [Ep|Np].
          -- rewrite Ep in *. rewrite setr_eq. rewrite E, count_cons in J. exact J.
          -- rewrite setr_ne by exact Np. exact J.
      + intros s d. unfold setc. destruct (_ && _); [|apply I3]. apply Forall_app. split; [apply I3|]. now constructor.
      + intros Hb p1 q1 H1 H2. assert (U : forall x, count is_bar (setr (rest c) p l x) = cK c x).
        { intros x. destruct (Nat.eq_dec x p) as [->|]; [rewrite setr_eq, E, count_cons; reflexivity|now rewrite setr_ne]. }
        rewrite !U. now apply I4.
  Qed.

  Lemma inv_steps : forall c, steps n (initial rounds b n) c -> Inv c.
  Proof.
    intros c H. remember (initial rounds b n) as c0. induction H as [|c c1 c2 H IH HS]; subst; [apply inv_start|].
    exact (inv_step c1 c2 (IH eq_refl) HS).
  Qed.

  (** what is still to be received above is at least what is still to be sent below *)
  Lemma chain : forall c, Inv c -> forall k k', k < k' -> k' < n -> cS c k <= cR c k'.
  Proof.
    intros c [I1 I2 I3 I4] k k' Hk. induction Hk as [|k' Hk IH]; intros Hn.
    - pose proof (I2 k) as J. replace (k + 1) with (S k) in J by lia. specialize (J Hn). lia.
    - pose proof (IH ltac:(lia)) as J1. pose proof (I2 k') as J2. replace (k' + 1) with (S k') in J2 by lia. specialize (J2 Hn).
      pose proof (shape_facts k' _ (I1 k' ltac:(lia))) as (F1 & F2 & F3 & F4 & _). lia.
  Qed.

  Lemma order : forall c, Inv c -> forall k k', k < k' -> k' < n -> entered rounds c k' <= left rounds c k.
  Proof.
    intros c HI k k' Hk Hn. pose proof (chain c HI k k' Hk Hn) as J. destruct HI as [I1 _ _ _]. unfold entered, left.
    pose proof (shape_facts k _ (I1 k ltac:(lia))) as (F1 & F2 & F3 & F4 & _).
    pose proof (shape_facts k' _ (I1 k' ltac:(lia))) as (G1 & G2 & G3 & _). lia.
  Qed.

  Lemma exclusion : forall c, Inv c -> b = true \/ rounds <= 1 -> forall k k', k < k' -> k' < n -> inside c k -> inside c k' -> False.
  Proof.
    intros c HI HO k k' Hk Hn [l E] [l' E']. pose proof (chain c HI k k' Hk Hn) as J. destruct HI as [I1 _ _ I4].
    pose proof (shape_facts k _ (I1 k ltac:(lia))) as (F1 & F2 & F3 & F4 & F5 & F6). rewrite E in F6. rewrite <- E in F6.
    pose proof (shape_facts k' _ (I1 k' ltac:(lia))) as (G1 & G2 & G3 & G4 & G5 & G6). rewrite E' in G6. rewrite <- E' in G6.
    destruct HO as [Hb|Hr]; [|lia]. pose proof (I4 Hb k k' ltac:(lia) Hn). specialize (F5 Hb). specialize (G5 Hb). lia.
  Qed.

  (** ** Progress *)
  Lemma recv_ready : forall c k l s, Inv c -> k < n -> rest c k = Recv s :: l -> chan c s k <> [] -> exists c', step_sync n c c'.
  Proof.
    intros c k l s [I1 I2 I3 I4] Hk E HC. destruct (chan c s k) as [|i ms] eqn:EC; [contradiction|].
    pose proof (I3 s k) as Z0. rewrite EC in Z0. inversion Z0; subst. eexists. exact (s_recv n c k s l ms Hk E EC).
  Qed.

  Lemma send_ready : forall c, Inv c -> forall j k d i l, j = n - k -> k < n -> rest c k = Send d i :: l -> exists c', step_sync n c c'.
  Proof.
    intros c HI. pose proof HI as [I1 I2 I3 I4]. induction j as [|j IH]; intros k d i l Hj Hk E; [lia|].
    pose proof (shape_facts k _ (I1 k Hk)) as (F1 & F2 & F3 & F4 & F5 & F6). rewrite E in F6. destruct F6 as (-> & -> & Hn & F6). rewrite <- E in F6.
    pose proof (I2 k Hn) as J. assert (S1 : 1 <= cS c k) by (rewrite E, count_cons; cbn; lia).
    pose proof (shape_facts (k + 1) _ (I1 (k + 1) Hn)) as (G1 & G2 & G3 & G4 & G5 & G6).
    destruct (rest c (k + 1)) as [|[s|d i| | |] l'] eqn:E'.
    - cbn in J. lia.
    - destruct G6 as (_ & -> & _). replace (k + 1 - 1) with k in * by lia. destruct (chan c k (k + 1)) as [|x ms] eqn:EC.
      + eexists. apply (s_handover n c k (k + 1) l l'); try lia; assumption.
      + apply (recv_ready c (k + 1) l' k HI Hn E'). rewrite EC. discriminate.
    - exact (IH (k + 1) d i l' ltac:(lia) Hn E').
    - eexists. exact (s_begin n c (k + 1) l' Hn E').
    - eexists. exact (s_end n c (k + 1) l' Hn E').
    - destruct G6 as (Hb & G6 & _). specialize (G6 ltac:(lia)). specialize (F6 Hb). pose proof (I4 Hb k (k + 1) Hk Hn) as Q0. rewrite E' in Q0. lia.
  Qed.

  Lemma recv_progress : forall c, Inv c -> forall k s l, k < n -> rest c k = Recv s :: l -> exists c', step_sync n c c'.
  Proof.
    intros c HI. pose proof HI as [I1 I2 I3 I4]. induction k as [|k IH]; intros s l Hk E;
    pose proof (shape_facts _ _ (I1 _ Hk)) as (F1 & F2 & F3 & F4 & F5 & F6); rewrite E in F6; destruct F6 as (P0 & -> & F6); [lia|].
    rewrite <- E in F6. replace (S k - 1) with k in * by lia.
    destruct (chan c k (S k)) as [|x ms] eqn:EC; [|apply (recv_ready c (S k) l k HI Hk E); rewrite EC; discriminate].
    pose proof (I2 k) as J. replace (k + 1) with (S k) in J by lia. specialize (J Hk). rewrite EC in J. cbn [length] in J.
    assert (R1 : 1 <= cR c (S k)) by (rewrite E, count_cons; cbn; lia).
    pose proof (shape_facts k _ (I1 k ltac:(lia))) as (G1 & G2 & G3 & G4 & G5 & G6).
    destruct (rest c k) as [|[s|d i| | |] l'] eqn:E'.
    - cbn in J. lia.
    - exact (IH s l' ltac:(lia) eq_refl).
    - exact (send_ready c HI (n - k) k d i l' eq_refl ltac:(lia) E').
    - eexists. exact (s_begin n c k l' ltac:(lia) E').
    - eexists. exact (s_end n c k l' ltac:(lia) E').
    - destruct G6 as (Hb & _ & G6). specialize (G6 ltac:(lia)). specialize (F6 Hb). pose proof (I4 Hb k (S k) ltac:(lia) Hk) as Q0. rewrite E' in Q0. lia.
  Qed.

  Lemma progress : forall c, Inv c -> finished n c \/ exists c', step_sync n c c'.
  Proof.
    intros c HI. pose proof HI as [I1 I2 I3 I4].
    assert (D : forall k, k <= n -> (exists c', step_sync n c c') \/ (forall p, p < k -> rest c p = [] \/ exists l, rest c p = Barrier :: l)).
    { induction k as [|k IH]; intros Hk; [right; intros p Hp; lia|]. destruct (IH ltac:(lia)) as [HS|HA]; [now left|].
      destruct (rest c k) as [|[s|d i| | |] l] eqn:E.
      - right. intros p Hp. destruct (Nat.eq_dec p k) as [->|]; [now left|apply HA; lia].
      - left. exact (recv_progress c HI k s l ltac:(lia) E).
      - left. exact (send_ready c HI (n - k) k d i l eq_refl ltac:(lia) E).
      - left. eexists. exact (s_begin n c k l ltac:(lia) E).
      - left. eexists. exact (s_end n c k l ltac:(lia) E).
      - right. intros p Hp. destruct (Nat.eq_dec p k) as [->|]; [right; now exists l|apply HA; lia]. }
    destruct (D n (le_n n)) as [HS|HA]; [now right|].
    destruct n as [|n'] eqn:En; [left; intros p Hp; lia|].
    destruct (HA 0 ltac:(lia)) as [E0|[l0 E0]].
    - left. intros p Hp. destruct (HA p Hp) as [E|[l E]]; [exact E|].
      pose proof (shape_facts p _ (eq_ind_r (fun m => shape p (rest c p)) (I1 p Hp) En)) as (_ & _ & _ & _ & _ & F6). rewrite E in F6. destruct F6 as (Hb & _).
      pose proof (I4 Hb p 0 Hp ltac:(lia)) as Q0. rewrite E, E0, count_cons in Q0. cbn in Q0. lia.
    - right. 
      pose proof (shape_facts 0 _ (eq_ind_r (fun m => shape 0 (rest c 0)) (I1 0 ltac:(lia)) En)) as (_ & _ & _ & _ & _ & F6). rewrite E0 in F6. destruct F6 as (Hb & _).
      exists (mkC (fun p => if p <? S n' then tl (rest c p) else rest c p) (chan c)).
      apply (s_barrier (S n') c (fun p => if p <? S n' then tl (rest c p) else rest c p)).
      + intros p Hp. replace (p <? S n') with true by (symmetry; now apply Nat.ltb_lt). destruct (HA p Hp) as [E|[l E]].
        * pose proof (I4 Hb p 0 Hp ltac:(lia)) as Q0. rewrite E, E0, count_cons in Q0. cbn in Q0. lia.
        * rewrite E. reflexivity.
      + intros p Hp. replace (p <? S n') with false by (symmetry; now apply Nat.ltb_ge). reflexivity.
      + lia.
  Qed.
End Serial.

(** ** Termination *)
Lemma work_set : forall n c p x l ch, p < n -> rest c p = x :: l -> work n (mkC (setr (rest c) p l) ch) + 1 = work n c.
Proof.
  intros n c p x l ch Hp E.
  assert (U : forall k, k <= p -> work k (mkC (setr (rest c) p l) ch) = work k c).
  { induction k as [|k IH]; intros Hk; [reflexivity|]. cbn [work rest]. rewrite setr_ne by lia. rewrite IH by lia. reflexivity. }
  induction n as [|n IH]; [lia|]. cbn [work rest]. destruct (Nat.eq_dec p n) as [->|Hne].
  - rewrite setr_eq, E, U by lia. cbn [length]. lia.
  - rewrite setr_ne by lia. rewrite <- IH by lia. lia.
Qed.
Lemma work_ext : forall n c ch, work n (mkC (rest c) ch) = work n c.
Proof. induction n as [|n IH]; intros c ch; [reflexivity|]. cbn [work rest]. now rewrite IH. Qed.
Lemma work_step : forall n c c', step n c c' -> work n c' < work n c.
Proof.
  intros n c c' H. destruct H as [c c' HS|c p d i l Hp E].
  - destruct HS as [c p l Hp E|c p l Hp E|c p s l ms Hp E EC|c p d l l' Hp Hd Hne E E' EC|c l HB HO Hn].
    + pose proof (work_set n c p _ l (chan c) Hp E). lia.
    + pose proof (work_set n c p _ l (chan c) Hp E). lia.
    + pose proof (work_set n c p _ l (setc (chan c) s p ms) Hp E). lia.
    + pose proof (work_set n c p _ l (chan c) Hp E) as W1.
      assert (E2 : rest (mkC (setr (rest c) p l) (chan c)) d = Recv p :: l') by (cbn [rest]; rewrite setr_ne by auto; exact E').
      pose proof (work_set n _ d _ l' (chan c) Hd E2) as W2. cbn [rest] in W2. lia.
    + assert (U : forall k, k <= n -> work k (mkC l (chan c)) + k = work k c).
      { induction k as [|k IH]; intros Hk; [reflexivity|]. cbn [work rest]. rewrite HB by lia. cbn [length]. specialize (IH ltac:(lia)). lia. }
      specialize (U n (le_n n)). lia.
  - pose proof (work_set n c p _ l (setc (chan c) p d (chan c p d ++ [i])) Hp E). lia.
Qed.
