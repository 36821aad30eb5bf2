(** Corrections on a whole forest, seen by one process. *)
From Coq Require Import ZArith QArith List Lia Lqa Bool Qfield.
From Verif Require Import Base_Float Model_Face Spec_Face Proof_Face5 Model_Grid Spec_Grid Proof_Grid Proof_Grid2 Proof_Grid4 Proof_Grid5
  Model_Sync Spec_Sync Proof_Sync Proof_Sync2 Proof_Sync3 Proof_Sync4.
Import ListNotations.
Open Scope Z_scope.

Lemma loop_inv : forall {S} (P : Z -> S -> Prop) f lo hi s, lo <= hi + 1 ->
  (forall k s, lo <= k <= hi -> P k s -> exists s', f k s = Some s' /\ P (k + 1) s') ->
  P lo s -> exists s', loop lo hi f s = Some s' /\ P (hi + 1) s'.
Proof.
  intros S P f lo hi s Hlo Hf. unfold loop.
  assert (G : forall n lo s, lo + Z.of_nat n = hi + 1 -> (forall k s, lo <= k <= hi -> P k s -> exists s', f k s = Some s' /\ P (k + 1) s') ->
    P lo s -> exists s', loop_n n lo f s = Some s' /\ P (hi + 1) s').
  { clear lo s Hlo Hf. induction n as [|n IH]; intros lo s En Hf H; cbn [loop_n].
    - exists s. split; [reflexivity|]. now replace (hi + 1) with lo by lia.
    - destruct (Hf lo s ltac:(lia) H) as (s1 & E1 & H1). rewrite E1. cbn [bind]. apply IH; [lia| |exact H1].
      intros k s2 Hk. apply Hf. lia. }
  apply G; [lia|exact Hf].
Qed.

Lemma loop_same : forall {S} (f g : Z -> S -> option S) lo hi s, (forall k s, f k s = g k s) -> loop lo hi f s = loop lo hi g s.
Proof.
  intros S f g lo hi s H. unfold loop. generalize (Z.to_nat (hi - lo + 1)) as n. intros n. revert lo s. induction n as [|n IH]; intros lo' s; cbn [loop_n]; [reflexivity|].
  rewrite H. destruct (g lo' s); cbn [bind]; [apply IH|reflexivity].
Qed.

(** the face a register belongs to *)
Definition face_of (c : cell) : Z :=
  let '(a, _, _) := c in if a <? 4 then a mod 2 else if a <? 8 then 2 + a mod 2 else (a - 8) / 2.
Definition accum (d : dims) (c : cell) : bool := in_reg d c && (fst (fst c) <? 16).

Lemma corrected_trans : forall d m q r f d1 d2 q1 q2,
  corrected d m q r f d1 q1 -> corrected d m q1 r f d2 q2 ->
  corrected d m q r f (fun t mq => d1 t mq + d2 t mq)%Q q2.
Proof.
  intros d m q r f d1 d2 q1 q2 [A1 B1] [A2 B2]. split.
  - intros t mq c Hc. destruct (A1 t mq c Hc) as (v1 & E1 & V1). destruct (A2 t mq c Hc) as (v2 & E2 & V2).
    exists v2. split; [exact E2|]. rewrite V2. unfold val at 1. rewrite E1, V1. unfold Qdiv. ring.
  - intros c Hc. rewrite B2, B1 by exact Hc. reflexivity.
Qed.

Section Forest.
  Variable rnd : Q -> Q.
  Hypothesis Hrnd : rounding rnd.
  Variable d : dims.
  Variable m : Z.
  Variable F : forest.
  Variable K : links.
  Variable all : list nat.
  Hypothesis HL : linked d m F K all.
  Variable S : state.
  Hypothesis HA : forall p, In p all -> assigned d (reg S p) /\ (forall c, interior d c -> exists v, sol S p c = Some v).
  Variable own : list nat.
  Hypothesis Hown : incl own all.
  Hypothesis Hnd : NoDup own.

  Notation R := (reg S).
  Definition Fo : forest := mkForest own (lev F) (nbr F).

  Definition visible (n : nat) : Prop := In n own \/ exists p f, In p own /\ 0 <= f < 4 /\
    match nbr F p f with SameSize n' _ => n' = n | HalfSize n' _ _ => n' 0 = n \/ n' 1 = n | _ => False end.

  Lemma dims_ok : forall p, In p all -> mx d = m /\ my d = m /\ 1 <= m < 2 ^ 28.
  Proof. intros p Hp. destruct HL as (_ & _ & _ & _ & H). destruct (H p Hp) as (_ & (H1 & H2 & H3 & _) & _). tauto. Qed.
  Lemma visible_all : forall n, visible n -> In n all.
  Proof.
    intros n [Hn|(p & f & Hp & Hf & Hn)]; [now apply Hown|]. destruct HL as (_ & _ & _ & _ & H).
    destruct (H p (Hown _ Hp)) as (_ & _ & HF). specialize (HF f Hf). unfold linked_face in HF. destruct (nbr F p f).
    - destruct Hn.
    - subst. tauto.
    - destruct HF as (_ & HF). destruct Hn as [<-|<-]; [apply (HF 0)|apply (HF 1)]; lia.
    - destruct Hn.
  Qed.

  (** what the correction at face f of patch p adds to the cells there *)
  Definition delta (p : nat) (f t mq : Z) : Q :=
    match nbr F p f with
    | SameSize n _ => same_delta m (R p) (R n) f (nface K p f) (rev K p f) t mq
    | HalfSize n _ _ => (half_delta m (R p) (R (n 0%Z)) f (nface K p f) (rev K p f) (pos_of K p f 0) t mq +
                         half_delta m (R p) (R (n 1%Z)) f (nface K p f) (rev K p f) (pos_of K p f 1) t mq)%Q
    | _ => 0%Q
    end.
  Definition corr (p : nat) (f : Z) (c : cell) : Q :=
    let '(i, j, mq) := c in
    if depth f m (i, j) =? 0 then (delta p f (posn f (i, j)) mq / val (R p) (AR f (posn f (i, j))))%Q else 0%Q.

  (** [A]: the faces where the solution is corrected; [D]: the faces with cleared registers *)
  Definition desc (s : state) (A D : nat -> Z -> bool) : Prop :=
    (forall p c, In p own -> interior d c -> exists v, sol s p c = Some v /\
       (v == val (sol S p) c + qsum 0 3 (fun f => if A p f then corr p f c else 0))%Q) /\
    (forall p c, visible p -> reg s p c = if accum d c && D p (face_of c) then Some 0%Q else R p c).

  Lemma desc_ext : forall s A A' D D', desc s A D ->
    (forall p f, In p own -> 0 <= f < 4 -> A p f = A' p f) -> (forall p f, visible p -> 0 <= f < 4 -> D p f = D' p f) -> desc s A' D'.
  Proof.
    intros s A A' D D' [H1 H2] HA' HD. split.
    - intros p c Hp Hc. destruct (H1 p c Hp Hc) as (v & E & V). exists v. split; [exact E|]. rewrite V.
      apply Qplus_inj_l. apply qsum_ext. intros f Hf. rewrite (HA' p f Hp) by lia. reflexivity.
    - intros p c Hp. rewrite (H2 p c Hp). destruct (accum d c) eqn:E; [|reflexivity]. cbn [andb].
      rewrite (HD p (face_of c) Hp); [reflexivity|]. clear - E. unfold accum in E. apply andb_true_iff in E. destruct E as [E1 E2].
      destruct c as [[a j] mq]. apply in_reg_iff in E1. cbn [fst] in E2. apply Z.ltb_lt in E2. unfold face_of.
      destruct (Z.ltb_spec a 4); [pose proof (Z.mod_pos_bound a 2 ltac:(lia)); lia|].
      destruct (Z.ltb_spec a 8); [pose proof (Z.mod_pos_bound a 2 ltac:(lia)); lia|].
      split; [apply Z.div_pos; lia|apply Z.div_lt_upper_bound; lia].
  Qed.

  Lemma desc_assigned : forall s A D p, desc s A D -> visible p -> assigned d (reg s p).
  Proof.
    intros s A D p [_ H2] Hp c Hc. rewrite (H2 p c Hp). destruct (accum d c && D p (face_of c)); [now eexists|].
    now apply (proj1 (HA p (visible_all p Hp))).
  Qed.

  Lemma desc_AR : forall s A D p f t, desc s A D -> visible p -> 0 <= f < 4 -> val (reg s p) (AR f t) = val (R p) (AR f t).
  Proof.
    intros s A D p f t [_ H2] Hp Hf. unfold val. rewrite (H2 p _ Hp). unfold accum, AR. cbn [fst].
    replace (20 + f <? 16) with false by (symmetry; apply Z.ltb_ge; lia). now rewrite andb_false_r.
  Qed.

  Lemma face_of_regs : forall f t mq, 0 <= f < 4 ->
    face_of (WIN f t mq) = f /\ face_of (WOUT f t mq) = f /\ face_of (EF f t mq 0) = f /\ face_of (EF f t mq 1) = f.
  Proof. intros f t mq Hf. face4 f Hf; repeat split; reflexivity. Qed.

  Lemma desc_inflow : forall s A D p f t mq, desc s A D -> visible p -> 0 <= f < 4 -> D p f = false ->
    inflow (reg s p) f t mq = inflow (R p) f t mq /\ inflow_outside (reg s p) f t mq = inflow_outside (R p) f t mq.
  Proof.
    intros s A D p f t mq [_ H2] Hp Hf HD.
    assert (G : forall c, face_of c = f -> val (reg s p) c = val (R p) c).
    { intros c Hc. unfold val. rewrite (H2 p c Hp), Hc, HD, andb_false_r. reflexivity. }
    destruct (face_of_regs f t mq Hf) as (G1 & G2 & G3 & G4). unfold inflow, inflow_outside.
    face4 f Hf; cbn [WIN WOUT] in *; rewrite ?(G _ G1), ?(G _ G2), ?(G _ G3), ?(G _ G4); split; reflexivity.
  Qed.

  (** registers of a cleared face *)
  Lemma desc_cleared : forall s A D p f t mq, desc s A D -> visible p -> 0 <= f < 4 -> 1 <= t <= m -> 1 <= mq <= meqn d -> D p f = true ->
    (inflow (reg s p) f t mq == 0)%Q /\ (inflow_outside (reg s p) f t mq == 0)%Q.
  Proof.
    intros s A D p f t mq HD Hp Hf Ht Hmq HDf. destruct HD as [_ H2].
    destruct (dims_ok p (visible_all p Hp)) as (Hx & Hy & Hm).
    assert (G : forall c, face_of c = f -> in_reg d c = true -> fst (fst c) < 16 -> val (reg s p) c = 0%Q).
    { intros c Hc Hi Ha. unfold val. rewrite (H2 p c Hp), Hc, HDf. unfold accum. rewrite Hi, (proj2 (Z.ltb_lt _ _) Ha). reflexivity. }
    destruct (face_of_regs f t mq Hf) as (G1 & G2 & G3 & G4).
    pose proof (in_WIN d m Hx Hy f t mq Hf Ht Hmq) as I1. pose proof (in_WOUT d m Hx Hy f t mq Hf Ht Hmq) as I2.
    pose proof (in_EF d m Hx Hy f t mq 0 Hf ltac:(lia) Ht Hmq) as I3. pose proof (in_EF d m Hx Hy f t mq 1 Hf ltac:(lia) Ht Hmq) as I4.
    apply G in G1; [|exact I1|clear - Hf; face4 f Hf; reflexivity]. apply G in G2; [|exact I2|clear - Hf; face4 f Hf; reflexivity].
    apply G in G3; [|exact I3|clear - Hf; face4 f Hf; reflexivity]. apply G in G4; [|exact I4|clear - Hf; face4 f Hf; reflexivity].
    rewrite (inflow_sg _ f t mq Hf), (outside_sg _ f t mq Hf), G1, G2, G3, G4. split; ring.
  Qed.

  (* ---------------------------------------------------------------- one face *)

  Lemma qsum_upd : forall (A : nat -> Z -> bool) p f g, 0 <= f < 4 -> A p f = false ->
    (qsum 0 3 (fun f' => if A p f' || (Nat.eqb p p && (f' =? f)) then g f' else 0) ==
     qsum 0 3 (fun f' => if A p f' then g f' else 0) + g f)%Q.
  Proof.
    intros A p f g Hf HAf. rewrite !qsum4, Nat.eqb_refl. cbn [andb].
    face4 f Hf; rewrite HAf; cbn [Z.eqb Pos.eqb]; rewrite ?orb_false_r, ?orb_true_r; ring.
  Qed.

  Lemma desc_corrected : forall s A D p f q delta', desc s A D -> In p own -> 0 <= f < 4 -> A p f = false ->
    corrected d m (sol s p) (reg s p) f delta' q ->
    (forall t mq, 1 <= t <= m -> 1 <= mq <= meqn d -> (delta' t mq == delta p f t mq)%Q) ->
    desc (mkState (upd (sol s) p q) (reg s)) (fun p' f' => A p' f' || (Nat.eqb p' p && (f' =? f))) D.
  Proof.
    intros s A D p f q delta' HD Hp Hf HAf [C1 C2] HE. destruct HD as [H1 H2]. split; [|exact H2].
    intros p' c Hp' Hc. cbn [sol]. unfold upd. destruct (Nat.eqb_spec p' p) as [->|Hne].
    - destruct (dims_ok p (Hown _ Hp)) as (Hx & Hy & Hm).
      destruct (H1 p c Hp Hc) as (v & E & V). pose proof (qsum_upd A p f (fun f' => corr p f' c) Hf HAf) as QU.
      rewrite Nat.eqb_refl in QU. 
      destruct c as [[i j] mq]. unfold interior in Hc. rewrite Hx, Hy in Hc.
      assert (TT : 1 <= posn f (i, j) <= m) by (clear - Hf Hc; face4 f Hf; cbn [posn fst snd]; lia).
      destruct (Z.eqb_spec (depth f m (i, j)) 0) as [ED|ED].
      + assert (EC : edge_cell d m f (i, j, mq) (posn f (i, j)) mq).
        { split; [|split; [exact TT|lia]]. unfold at3. clear - Hf ED. face4 f Hf; cbn [depth posn inner_cell fst snd] in *; f_equal; f_equal; lia. }
        destruct (C1 _ _ _ EC) as (v' & E' & V'). exists v'. split; [exact E'|]. rewrite QU, V'. unfold val at 1. rewrite E, V.
        assert (X : (corr p f (i, j, mq) == delta p f (posn f (i, j)) mq / val (R p) (AR f (posn f (i, j))))%Q).
        { unfold corr. rewrite ED. reflexivity. }
        rewrite X. rewrite (HE (posn f (i, j)) mq TT ltac:(lia)).
        rewrite (desc_AR s A D p f _ (conj H1 H2) (or_introl Hp) Hf). ring.
      + rewrite C2.
        2:{ intros (t & mq' & E1 & _). destruct (depth_inner m f 1 t Hf) as [DI _]. unfold at3 in E1.
            destruct (inner_cell f m 1 t) as [i' j']. cbn [fst snd] in E1. injection E1 as -> -> _. apply ED. rewrite DI. reflexivity. }
        exists v. split; [exact E|]. rewrite QU, V.
        assert (X : corr p f (i, j, mq) = 0%Q) by (unfold corr; destruct (Z.eqb_spec (depth f m (i, j)) 0); [contradiction|reflexivity]).
        rewrite X. ring.
    - destruct (H1 p' c Hp' Hc) as (v & E & V). exists v. split; [exact E|]. rewrite V.
      apply Qplus_inj_l. apply qsum_ext. intros f' _. rewrite orb_false_r. reflexivity.
  Qed.

  Definition is_same (p : nat) (f : Z) : bool := match nbr F p f with SameSize _ _ => true | _ => false end.
  Definition is_half (p : nat) (f : Z) : bool := match nbr F p f with HalfSize _ _ _ => true | _ => false end.
  Definition is_double (p : nat) (f : Z) : bool := match nbr F p f with DoubleSize => true | _ => false end.
  Definition is_boundary (p : nat) (f : Z) : bool := match nbr F p f with Boundary => true | _ => false end.

  (** what makes the registers read at face f of p those of the start *)
  Definition fresh (D : nat -> Z -> bool) (p : nat) (f : Z) : Prop :=
    D p f = false /\
    match nbr F p f with
    | SameSize n _ => D n (nface K p f) = false
    | HalfSize n _ _ => D (n 0) (nface K p f) = false /\ D (n 1) (nface K p f) = false
    | _ => True
    end.

  Lemma interior_own : forall s A D p, desc s A D -> In p own -> forall c, interior d c -> exists v, sol s p c = Some v.
  Proof. intros s A D p [H1 _] Hp c Hc. destruct (H1 p c Hp Hc) as (v & E & _). now exists v. Qed.

  Lemma same_face : forall s A D p f, desc s A D -> In p own -> 0 <= f < 4 ->
    (is_same p f = true -> A p f = false /\ fresh D p f) ->
    exists s', match nbr F p f with
        | SameSize n t =>
            bind (time_sync_samesize rnd d f (reg s p) (reg s n) t (sol s p)) (fun q =>
            Some (mkState (upd (sol s) p q) (reg s)))
        | _ => Some s
        end = Some s' /\ desc s' (fun p' f' => A p' f' || (Nat.eqb p' p && ((f' =? f) && is_same p f))) D.
  Proof.
    intros s A D p f HD Hp Hf HP. unfold is_same in *. destruct (nbr F p f) as [|n t|n t nm|] eqn:EN;
      try (exists s; split; [reflexivity|]; eapply desc_ext; [exact HD| |reflexivity]; intros; now rewrite !andb_false_r, orb_false_r).
    destruct (HP eq_refl) as [HAf (F1 & F2)]. rewrite EN in F2.
    pose proof HL as (_ & _ & Hb & _ & HLp). destruct (HLp p (Hown _ Hp)) as (_ & HQ & HFc). specialize (HFc f Hf). unfold linked_face in HFc.
    rewrite EN in HFc. destruct HFc as (Hn & (ft & -> & HS) & _).
    destruct (dims_ok p (Hown _ Hp)) as (Hx & Hy & Hm).
    assert (VP : visible p) by now left.
    assert (VN : visible n) by (right; exists p, f; rewrite EN; tauto).
    destruct (samesize_ok rnd Hrnd d m Hx Hy Hm Hb (geo K p) (geo K n) f (nface K p f) (rev K p f) ft (reg s p) (reg s n) (sol s p) HS HQ
                (desc_assigned s A D p HD VP) (desc_assigned s A D n HD VN) (interior_own s A D p HD Hp)) as (q & E & C).
    rewrite E. cbn [bind]. eexists. split; [reflexivity|].
    eapply desc_ext; [eapply (desc_corrected s A D p f q _ HD Hp Hf HAf C)| |reflexivity].
    - intros t mq Ht Hmq. unfold delta. rewrite EN. unfold same_delta. pose proof HS as (_ & _ & Hnf & _).
      rewrite (proj1 (desc_inflow s A D p f t mq HD VP Hf F1)), (proj2 (desc_inflow s A D n _ _ mq HD VN Hnf F2)). reflexivity.
    - intros p' f' _ _. now rewrite andb_true_r.
  Qed.

  Lemma half_face : forall s A D p f, desc s A D -> In p own -> 0 <= f < 4 ->
    (is_half p f = true -> A p f = false /\ fresh D p f) ->
    exists s', match nbr F p f with
        | HalfSize n t nm =>
            loop 0 1 (fun igrid s =>
              bind (time_sync_f2c rnd d (Z.quot f 2) f nm (reg s p) (reg s (n igrid)) (t igrid) (sol s p)) (fun q =>
              Some (mkState (upd (sol s) p q) (reg s)))) s
        | _ => Some s
        end = Some s' /\ desc s' (fun p' f' => A p' f' || (Nat.eqb p' p && ((f' =? f) && is_half p f))) D.
  Proof.
    intros s A D p f HD Hp Hf HP. unfold is_half in *. destruct (nbr F p f) as [|n t|n t nm|] eqn:EN;
      try (exists s; split; [reflexivity|]; eapply desc_ext; [exact HD| |reflexivity]; intros; now rewrite !andb_false_r, orb_false_r).
    destruct (HP eq_refl) as [HAf (F1 & F2)]. rewrite EN in F2. destruct F2 as [F2 F3].
    pose proof HL as (_ & Hev & Hb & _ & HLp). destruct (HLp p (Hown _ Hp)) as (_ & HQ & HFc). specialize (HFc f Hf). unfold linked_face in HFc.
    rewrite EN in HFc. destruct HFc as (-> & HFc).
    destruct (HFc 0 ltac:(lia)) as (N0 & (ft0 & T0 & HS0) & _). destruct (HFc 1 ltac:(lia)) as (N1 & (ft1 & T1 & HS1) & _).
    destruct (dims_ok p (Hown _ Hp)) as (Hx & Hy & Hm).
    assert (VP : visible p) by now left.
    assert (V0 : visible (n 0)) by (right; exists p, f; rewrite EN; tauto).
    assert (V1 : visible (n 1)) by (right; exists p, f; rewrite EN; tauto).
    pose proof HS0 as (_ & _ & _ & Hnf & _).
    destruct (HLp _ N0) as (_ & HQ0 & _). destruct (HLp _ N1) as (_ & HQ1 & _).
    unfold loop. change (Z.to_nat (1 - 0 + 1)) with 2%nat. cbn [loop_n]. change (0 + 1) with 1. rewrite T0, T1.
    destruct (f2c_ok rnd Hrnd d m Hx Hy Hm Hb Hev (geo K p) (geo K (n 0)) f (nface K p f) (rev K p f) (pos_of K p f 0) ft0
      (reg s p) (reg s (n 0)) (sol s p) HS0 HQ0 (desc_assigned s A D p HD VP) (desc_assigned s A D _ HD V0) (interior_own s A D p HD Hp)) as (q0 & E0 & C0).
    rewrite E0. cbn [bind sol reg].
    assert (I0 : forall c, interior d c -> exists v, q0 c = Some v).
    { intros c Hc. destruct C0 as [C1 C2].
      destruct c as [[i j] mq]. pose proof Hc as Hc'. unfold interior in Hc. rewrite Hx, Hy in Hc.
      destruct (Z.eq_dec (depth f m (i, j)) 0) as [ED|ED].
      - assert (EC : edge_cell d m f (i, j, mq) (posn f (i, j)) mq).
        { split; [|split; [|lia]].
          - unfold at3. clear - Hf ED. face4 f Hf; cbn [depth posn inner_cell fst snd] in *; f_equal; f_equal; lia.
          - clear - Hf Hc. face4 f Hf; cbn [posn fst snd]; lia. }
        destruct (C1 _ _ _ EC) as (v & E & _). now exists v.
      - rewrite C2; [now apply (interior_own s A D p HD Hp)|].
        intros (t' & mq' & E1 & _). destruct (depth_inner m f 1 t' Hf) as [DI _]. unfold at3 in E1.
        destruct (inner_cell f m 1 t') as [i' j']. cbn [fst snd] in E1. injection E1 as -> -> _. apply ED. rewrite DI. reflexivity. }
    assert (U : forall q, upd (sol s) p q p = q) by (intros q; unfold upd; now rewrite Nat.eqb_refl).
    rewrite U.
    destruct (f2c_ok rnd Hrnd d m Hx Hy Hm Hb Hev (geo K p) (geo K (n 1)) f (nface K p f) (rev K p f) (pos_of K p f 1) ft1
      (reg s p) (reg s (n 1)) q0 HS1 HQ1 (desc_assigned s A D p HD VP) (desc_assigned s A D _ HD V1) I0) as (q1 & E1 & C1).
    rewrite E1. cbn [bind]. eexists. split; [reflexivity|].
    pose proof (desc_corrected s A D p f q1 _ HD Hp Hf HAf (corrected_trans _ _ _ _ _ _ _ _ _ C0 C1)) as DC.
    assert (DC' : desc (mkState (upd (sol s) p q1) (reg s)) (fun p' f' => A p' f' || (Nat.eqb p' p && (f' =? f))) D).
    { apply DC. intros t' mq Ht Hmq. unfold delta. rewrite EN. unfold half_delta.
      rewrite (proj1 (desc_inflow s A D p f t' mq HD VP Hf F1)),
        !(proj2 (desc_inflow s A D (n 0) _ _ mq HD V0 Hnf F2)), !(proj2 (desc_inflow s A D (n 1) _ _ mq HD V1 Hnf F3)). reflexivity. }
    destruct DC' as [G1 G2]. cbn [sol reg] in G1, G2.
    eapply (desc_ext _ (fun p' f' => A p' f' || (Nat.eqb p' p && (f' =? f)))).
    - split; [|exact G2]. intros p' c Hp' Hc. cbn [sol]. specialize (G1 p' c Hp' Hc). unfold upd in *.
      destruct (Nat.eqb p' p); exact G1.
    - intros p' f' _ _. now rewrite andb_true_r.
    - reflexivity.
  Qed.

  (* ---------------------------------------------------------------- loops *)

  Lemma loop_faces : forall (g : Z -> state -> option state) (kind : Z -> bool) p D,
    (forall f s A, 0 <= f < 4 -> desc s A D -> (kind f = true -> A p f = false) ->
       exists s', g f s = Some s' /\ desc s' (fun p' f' => A p' f' || (Nat.eqb p' p && ((f' =? f) && kind f))) D) ->
    forall s A, desc s A D -> (forall f, 0 <= f < 4 -> kind f = true -> A p f = false) ->
    exists s', loop 0 3 g s = Some s' /\ desc s' (fun p' f' => A p' f' || (Nat.eqb p' p && kind f')) D.
  Proof.
    intros g kind p D HG s A HD HK.
    destruct (loop_inv (fun k s => desc s (fun p' f' => A p' f' || (Nat.eqb p' p && ((f' <? k) && kind f'))) D) g 0 3 s ltac:(lia)) as (s' & E & H).
    - intros k s1 Hk H1. destruct (HG k s1 _ ltac:(lia) H1) as (s2 & E2 & H2).
      + intros Hkk. cbn beta. rewrite (HK k ltac:(lia) Hkk), Z.ltb_irrefl. cbn [andb orb]. apply andb_false_r.
      + exists s2. split; [exact E2|]. eapply desc_ext; [exact H2| |reflexivity]. intros p' f' _ Hf'. cbn beta.
        destruct (A p' f'); [reflexivity|]. cbn [orb]. destruct (Nat.eqb p' p); [|reflexivity]. cbn [andb].
        destruct (Z.ltb_spec f' k), (Z.ltb_spec f' (k + 1)), (Z.eqb_spec f' k); try lia; subst; cbn [andb orb]; rewrite ?orb_false_r; reflexivity.
    - eapply desc_ext; [exact HD| |reflexivity]. intros p' f' _ Hf'. destruct (Z.ltb_spec f' 0); [lia|]. cbn [andb]. now rewrite andb_false_r, orb_false_r.
    - exists s'. split; [exact E|]. eapply desc_ext; [exact H| |reflexivity]. intros p' f' _ Hf'. cbn beta. destruct (Z.ltb_spec f' (3 + 1)); [|lia]. reflexivity.
  Qed.

  Definition mem (l : list nat) (p : nat) : bool := existsb (Nat.eqb p) l.
  Lemma mem_in : forall l p, mem l p = true <-> In p l.
  Proof.
    intros l p. unfold mem. rewrite existsb_exists. split.
    - intros (x & Hx & E). apply Nat.eqb_eq in E. now subst.
    - intros H. exists p. split; [exact H|apply Nat.eqb_refl].
  Qed.

  Lemma patches_A : forall (cb : nat -> state -> option state) (kind : nat -> Z -> bool) D l,
    (forall p s A, In p l -> desc s A D -> (forall f, 0 <= f < 4 -> kind p f = true -> A p f = false) ->
       exists s', cb p s = Some s' /\ desc s' (fun p' f' => A p' f' || (Nat.eqb p' p && kind p f')) D) ->
    NoDup l -> forall s A, desc s A D -> (forall p f, In p l -> 0 <= f < 4 -> kind p f = true -> A p f = false) ->
    exists s', for_all l cb s = Some s' /\ desc s' (fun p f => A p f || (mem l p && kind p f)) D.
  Proof.
    intros cb kind D l. induction l as [|p l IH]; intros HC ND s A HD HK.
    - exists s. split; [reflexivity|]. eapply desc_ext; [exact HD| |reflexivity]. intros. cbn. now rewrite orb_false_r.
    - apply NoDup_cons_iff in ND. destruct ND as [N1 N2].
      destruct (HC p s A (or_introl eq_refl) HD (fun f => HK p f (or_introl eq_refl))) as (s1 & E1 & H1).
      cbn [for_all]. rewrite E1. cbn [bind].
      destruct (IH (fun p' s A Hp' => HC p' s A (or_intror Hp')) N2 s1 _ H1) as (s2 & E2 & H2).
      { intros p' f Hp' Hf Hk. cbn beta. rewrite (HK p' f (or_intror Hp') Hf Hk). destruct (Nat.eqb_spec p' p); [subst; contradiction|reflexivity]. }
      exists s2. split; [exact E2|]. eapply desc_ext; [exact H2| |reflexivity]. intros p' f _ _. cbn beta. cbn [mem existsb].
      fold (mem l p'). destruct (Nat.eqb_spec p' p) as [->|]; cbn [orb andb]; [|now rewrite orb_false_r].
      destruct (A p f), (kind p f), (mem l p); reflexivity.
  Qed.

  Lemma patches_D : forall (cb : nat -> state -> option state) (kind : nat -> Z -> bool) A l,
    (forall p s D, In p l -> desc s A D ->
       exists s', cb p s = Some s' /\ desc s' A (fun p' f' => D p' f' || (Nat.eqb p' p && kind p f'))) ->
    forall s D, desc s A D ->
    exists s', for_all l cb s = Some s' /\ desc s' A (fun p f => D p f || (mem l p && kind p f)).
  Proof.
    intros cb kind A l. induction l as [|p l IH]; intros HC s D HD.
    - exists s. split; [reflexivity|]. eapply desc_ext; [exact HD|reflexivity|]. intros. cbn. now rewrite orb_false_r.
    - destruct (HC p s D (or_introl eq_refl) HD) as (s1 & E1 & H1).
      cbn [for_all]. rewrite E1. cbn [bind].
      destruct (IH (fun p' s A Hp' => HC p' s A (or_intror Hp')) s1 _ H1) as (s2 & E2 & H2).
      exists s2. split; [exact E2|]. eapply desc_ext; [exact H2|reflexivity|]. intros p' f _ _. cbn beta. cbn [mem existsb].
      fold (mem l p'). destruct (Nat.eqb_spec p' p) as [->|]; cbn [orb andb]; [|now rewrite orb_false_r].
      destruct (D p f), (kind p f), (mem l p); reflexivity.
  Qed.

  (* ---------------------------------------------------------------- reset *)

  Lemma wr_reg : forall c, in_reg d c = true -> forall r, wrr d r c 0%Q = Some (fun c' => if cell_eqb c' c then Some 0%Q else r c').
  Proof. intros c Hc r. unfold wrr. now rewrite Hc. Qed.

  Lemma w0_zero : forall s0 c, in_reg d c = true ->
    writes none s0 (fun r => wrr d r c 0%Q) (fun c' => c' = c) zeros.
  Proof.
    intros s0 c Hc s _. rewrite (wr_reg c Hc). eexists. split; [reflexivity|]. cbn beta. unfold zeros. split; [|split].
    - intros c' ->. now rewrite cell_eqb_refl.
    - intros c' Hne. destruct (cell_eqb_spec c' c); [contradiction|reflexivity].
    - intros c'. destruct (cell_eqb_spec c' c); auto.
  Qed.

  Lemma clear_ok : forall k r, mx d = m -> my d = m -> 0 <= k < 4 -> exists r', clear_face d k r = Some r' /\
    forall c, r' c = if accum d c && (face_of c =? k) then Some 0%Q else r c.
  Proof.
    intros k r Hx Hy Hk.
    assert (W : writes none r (clear_face d k)
      (fun c => exists mq, 1 <= mq <= meqn d /\ exists t, 1 <= t <= m /\
         ((c = WIN k t mq \/ c = WOUT k t mq) \/ (c = EF k t mq 0 \/ c = EF k t mq 1))) zeros).
    { unfold clear_face. rewrite Hx, Hy.
      face4 k Hk; [change (Z.quot 0 2 =? 0) with true | change (Z.quot 1 2 =? 0) with true | change (Z.quot 2 2 =? 0) with false | change (Z.quot 3 2 =? 0) with false];
      cbv iota zeta; (eapply writes_weaken; [apply writes_loop0; intros mq Hmq; apply writes_loop0; intros t Ht;
        apply w0_seq; apply w0_seq; apply w0_zero;
        first [now apply (in_EF d m Hx Hy); lia | unfold FM, FP, GM, GP; apply (in_wave d m Hx Hy); lia] | intros c [] |]);
      intros c; cbn [WIN WOUT]; split;
      (intros (mq & Hmq & t & Ht & H); exists mq; (split; [exact Hmq|]); exists t; (split; [exact Ht|])); change (2 - 2) with 0 in *; change (3 - 2) with 1 in *; tauto. }
    destruct (W r ltac:(intros c [])) as (r' & E & A & B & _). exists r'. split; [exact E|].
    intros c. destruct (accum d c && (face_of c =? k)) eqn:EC.
    - rewrite A; [reflexivity|]. apply andb_true_iff in EC. destruct EC as [E1 E2]. apply Z.eqb_eq in E2.
      unfold accum in E1. apply andb_true_iff in E1. destruct E1 as [E1 E3].
      destruct c as [[a t] mq]. apply in_reg_iff in E1. cbn [fst] in E3. rewrite E3 in E1. apply Z.ltb_lt in E3.
      exists mq. split; [lia|]. exists t. rewrite Hx, Hy in E1. split; [destruct (along_y a); lia|].
      assert (Ea : a = 0 \/ a = 1 \/ a = 2 \/ a = 3 \/ a = 4 \/ a = 5 \/ a = 6 \/ a = 7 \/ a = 8 \/ a = 9 \/ a = 10 \/ a = 11 \/ a = 12 \/ a = 13 \/ a = 14 \/ a = 15) by lia.
      clear - Ea E2. repeat (destruct Ea as [Ea|Ea]); subst a; cbn in E2; subst k; cbn; auto.
    - rewrite B; [reflexivity|]. intros (mq & Hmq & t & Ht & H).
      destruct (face_of_regs k t mq Hk) as (G1 & G2 & G3 & G4).
      assert (X : face_of c = k /\ in_reg d c = true /\ fst (fst c) <? 16 = true).
      { destruct H as [[-> | ->]|[-> | ->]]; (split; [assumption|]).
        - split; [now apply (in_WIN d m Hx Hy)|]. clear - Hk. face4 k Hk; reflexivity.
        - split; [now apply (in_WOUT d m Hx Hy)|]. clear - Hk. face4 k Hk; reflexivity.
        - split; [apply (in_EF d m Hx Hy); lia|]. clear - Hk. face4 k Hk; reflexivity.
        - split; [apply (in_EF d m Hx Hy); lia|]. clear - Hk. face4 k Hk; reflexivity. }
      destruct X as (X1 & X2 & X3). unfold accum in EC. rewrite X1, X2, X3, Z.eqb_refl in EC. discriminate.
  Qed.

  Definition resets (coarse_level : Z) (mode : reset_mode) (p : nat) (k : Z) : bool :=
    match mode with
    | RESET_F2C => (is_half p k && (lev F p =? coarse_level)) || (is_double p k && (lev F p =? coarse_level + 1))
    | RESET_SAMESIZE => is_same p k && (lev F p =? coarse_level)
    | RESET_PHYS => is_boundary p k
    end.

  Lemma reset_ok : forall cl mode p s A D, In p own -> desc s A D ->
    exists s', time_sync_reset d Fo p cl mode s = Some s' /\
      desc s' A (fun p' f' => D p' f' || (Nat.eqb p' p && resets cl mode p f')).
  Proof.
    intros cl mode p s A D Hp HD. destruct (dims_ok p (Hown _ Hp)) as (Hx & Hy & _).
    assert (L : exists r', loop 0 3 (fun k r => if resets cl mode p k then clear_face d k r else Some r) (reg s p) = Some r' /\
      forall c, r' c = if accum d c && ((0 <=? face_of c) && (face_of c <? 4) && resets cl mode p (face_of c)) then Some 0%Q else reg s p c).
    { destruct (loop_inv (fun k r => forall c, r c = if accum d c && ((0 <=? face_of c) && (face_of c <? k) && resets cl mode p (face_of c)) then Some 0%Q else reg s p c)
         (fun k r => if resets cl mode p k then clear_face d k r else Some r) 0 3 (reg s p) ltac:(lia)) as (r' & E & H).
      - intros k r Hk Hr. destruct (resets cl mode p k) eqn:ER.
        + destruct (clear_ok k r Hx Hy ltac:(lia)) as (r' & E & H). exists r'. split; [exact E|]. intros c. rewrite H, Hr.
          destruct (accum d c); cbn [andb]; [|reflexivity].
          destruct (Z.eqb_spec (face_of c) k) as [->|Hne].
          * rewrite ER. destruct (Z.leb_spec 0 k), (Z.ltb_spec k (k + 1)); try lia. reflexivity.
          * destruct (Z.ltb_spec (face_of c) k), (Z.ltb_spec (face_of c) (k + 1)); try lia; reflexivity.
        + exists r. split; [reflexivity|]. intros c. rewrite Hr. destruct (accum d c); cbn [andb]; [|reflexivity].
          destruct (Z.eq_dec (face_of c) k) as [->|Hne].
          * rewrite ER, !andb_false_r. reflexivity.
          * destruct (Z.ltb_spec (face_of c) k), (Z.ltb_spec (face_of c) (k + 1)); try lia; reflexivity.
      - intros c. destruct (Z.leb_spec 0 (face_of c)), (Z.ltb_spec (face_of c) 0); try lia; cbn [andb]; rewrite ?andb_false_r; reflexivity.
      - exists r'. split; [exact E|]. exact H. }
    destruct L as (r' & E & H).
    assert (E' : time_sync_reset d Fo p cl mode s = Some (mkState (sol s) (upd (reg s) p r'))).
    { unfold time_sync_reset. cbn [lev nbr Fo].
      replace (loop 0 3 _ (reg s p)) with (Some r'); [reflexivity|]. rewrite <- E. apply loop_same. intros k r. unfold resets, is_half, is_double, is_same, is_boundary.
      destruct mode; destruct (nbr F p k); cbn [andb orb]; rewrite ?orb_false_r; reflexivity. }
    rewrite E'. eexists. split; [reflexivity|]. destruct HD as [H1 H2]. split; [exact H1|].
    intros p' c Hp'. cbn [reg]. unfold upd. destruct (Nat.eqb_spec p' p) as [->|Hne].
    - rewrite H, (H2 p c Hp'). cbn [andb]. destruct (accum d c) eqn:EA; cbn [andb]; [|reflexivity].
      assert (B : (0 <=? face_of c) && (face_of c <? 4) = true).
      { clear - EA. unfold accum in EA. apply andb_true_iff in EA. destruct EA as [E1 E2]. destruct c as [[a j] mq]. apply in_reg_iff in E1. cbn [fst] in E2. apply Z.ltb_lt in E2.
        apply andb_true_iff. rewrite Z.leb_le, Z.ltb_lt. unfold face_of.
        destruct (Z.ltb_spec a 4); [pose proof (Z.mod_pos_bound a 2 ltac:(lia)); lia|].
        destruct (Z.ltb_spec a 8); [pose proof (Z.mod_pos_bound a 2 ltac:(lia)); lia|].
        split; [apply Z.div_pos; lia|apply Z.div_lt_upper_bound; lia]. }
      rewrite B. cbn [andb]. destruct (D p (face_of c)), (resets cl mode p (face_of c)); reflexivity.
    - rewrite (H2 p' c Hp'). now rewrite orb_false_r.
  Qed.

  Lemma reset_patches : forall cl mode l s A D, incl l own -> desc s A D ->
    exists s', for_all l (fun p => time_sync_reset d Fo p cl mode) s = Some s' /\
      desc s' A (fun p f => D p f || (mem l p && resets cl mode p f)).
  Proof.
    intros cl mode l s A D Hl HD.
    apply (patches_D (fun p => time_sync_reset d Fo p cl mode) (resets cl mode) A l); [|exact HD].
    intros p s1 D1 Hp H1. apply reset_ok; [now apply Hl|exact H1].
  Qed.

  Definition onlev (level : Z) (p : nat) : bool := mem own p && (lev F p =? level).
  Lemma mem_level : forall level p, mem (filter (fun p => lev F p =? level) own) p = onlev level p.
  Proof.
    intros level p. apply eq_true_iff_eq. unfold onlev. rewrite andb_true_iff, !mem_in, filter_In. tauto.
  Qed.
  Lemma level_incl : forall level, incl (filter (fun p => lev F p =? level) own) own.
  Proof. intros level p Hp. apply filter_In in Hp. tauto. Qed.

  Lemma same_level : forall level s A D, desc s A D ->
    (forall p f, In p own -> lev F p = level -> 0 <= f < 4 -> is_same p f = true -> A p f = false /\ fresh D p f) ->
    exists s', iterate_level Fo level (cb_samesize rnd d Fo) s = Some s' /\
      desc s' (fun p f => A p f || (onlev level p && is_same p f)) D.
  Proof.
    intros level s A D HD HF. unfold iterate_level. cbn [patches lev Fo].
    destruct (patches_A (cb_samesize rnd d Fo) is_same D (filter (fun p => lev F p =? level) own)) with (s := s) (A := A) as (s' & E & H).
    - intros p s1 A1 Hp H1 HK. apply filter_In in Hp. destruct Hp as [Hp1 Hp2]. apply Z.eqb_eq in Hp2.
      apply (loop_faces _ (is_same p) p D); [|exact H1|exact HK].
      intros f s2 A2 Hf H2 HK2. apply (same_face s2 A2 D p f H2 Hp1 Hf).
      intros Hs. split; [now apply HK2|]. now apply (HF p f Hp1 Hp2 Hf Hs).
    - apply NoDup_filter, Hnd.
    - exact HD.
    - intros p f Hp Hf Hs. apply filter_In in Hp. destruct Hp as [Hp1 Hp2]. apply Z.eqb_eq in Hp2. now apply (HF p f Hp1 Hp2 Hf Hs).
    - exists s'. split; [exact E|]. eapply desc_ext; [exact H| |reflexivity]. intros p f _ _. cbn beta. now rewrite mem_level.
  Qed.

  Lemma half_level : forall level s A D, desc s A D ->
    (forall p f, In p own -> lev F p = level -> 0 <= f < 4 -> is_half p f = true -> A p f = false /\ fresh D p f) ->
    exists s', iterate_level Fo level (cb_f2c rnd d Fo) s = Some s' /\
      desc s' (fun p f => A p f || (onlev level p && is_half p f)) D.
  Proof.
    intros level s A D HD HF. unfold iterate_level. cbn [patches lev Fo].
    destruct (patches_A (cb_f2c rnd d Fo) is_half D (filter (fun p => lev F p =? level) own)) with (s := s) (A := A) as (s' & E & H).
    - intros p s1 A1 Hp H1 HK. apply filter_In in Hp. destruct Hp as [Hp1 Hp2]. apply Z.eqb_eq in Hp2.
      apply (loop_faces _ (is_half p) p D); [|exact H1|exact HK].
      intros f s2 A2 Hf H2 HK2. apply (half_face s2 A2 D p f H2 Hp1 Hf).
      intros Hs. split; [now apply HK2|]. now apply (HF p f Hp1 Hp2 Hf Hs).
    - apply NoDup_filter, Hnd.
    - exact HD.
    - intros p f Hp Hf Hs. apply filter_In in Hp. destruct Hp as [Hp1 Hp2]. apply Z.eqb_eq in Hp2. now apply (HF p f Hp1 Hp2 Hf Hs).
    - exists s'. split; [exact E|]. eapply desc_ext; [exact H| |reflexivity]. intros p f _ _. cbn beta. now rewrite mem_level.
  Qed.

  Lemma reset_level_ok : forall level mode s A D, desc s A D ->
    exists s', reset_level d Fo level mode s = Some s' /\
      desc s' A (fun p f => D p f || (mem own p &&
        match mode with
        | RESET_F2C => (is_half p f && (lev F p =? level)) || (is_double p f && (lev F p =? level + 1))
        | RESET_SAMESIZE => is_same p f && (lev F p =? level)
        | RESET_PHYS => is_boundary p f && (lev F p =? level)
        end)).
  Proof.
    intros level mode s A D HD. unfold reset_level, seq, iterate_level. cbn [patches lev Fo].
    destruct (reset_patches level mode _ s A D (level_incl level) HD) as (s1 & E1 & H1). rewrite E1. cbn [bind].
    assert (X : forall D', (forall p f, D' p f = D p f || (onlev level p && resets level mode p f)) -> desc s1 A D').
    { intros D' HD'. eapply desc_ext; [exact H1|reflexivity|]. intros p f _ _. now rewrite HD', mem_level. }
    destruct mode.
    - destruct (reset_patches level RESET_F2C _ s1 A _ (level_incl (level + 1)) H1) as (s2 & E2 & H2). exists s2. split; [exact E2|].
      eapply desc_ext; [exact H2|reflexivity|]. intros p f _ _. cbn beta. rewrite !mem_level. unfold onlev, resets.
      destruct (D p f), (mem own p); try reflexivity.
      destruct (Z.eqb_spec (lev F p) level), (Z.eqb_spec (lev F p) (level + 1)); try lia; destruct (is_half p f), (is_double p f); reflexivity.
    - exists s1. split; [reflexivity|]. apply X. intros p f. unfold onlev, resets. destruct (D p f), (mem own p), (is_same p f), (lev F p =? level); reflexivity.
    - exists s1. split; [reflexivity|]. apply X. intros p f. unfold onlev, resets. destruct (D p f), (mem own p), (is_boundary p f), (lev F p =? level); reflexivity.
  Qed.

  (* ---------------------------------------------------------------- all levels *)

  Variable maxlevel : Z.

  Definition corrected_from (L : Z) (p : nat) (f : Z) : bool :=
    mem own p && (L <=? lev F p) &&
    match nbr F p f with SameSize _ _ => lev F p <=? maxlevel | HalfSize _ _ _ => lev F p <? maxlevel | _ => false end.
  Definition cleared_from (L LB : Z) (p : nat) (f : Z) : bool :=
    mem own p && (lev F p <=? maxlevel) &&
    match nbr F p f with
    | SameSize _ _ => L <=? lev F p
    | HalfSize _ _ _ => (L <=? lev F p) && (lev F p <? maxlevel)
    | DoubleSize => L <? lev F p
    | Boundary => LB <=? lev F p
    end.

  Ltac zb := repeat match goal with
    | |- context [?a <=? ?b] => destruct (Z.leb_spec a b)
    | |- context [?a <? ?b] => destruct (Z.ltb_spec a b)
    | |- context [?a =? ?b] => destruct (Z.eqb_spec a b)
    end; try (exfalso; lia); try reflexivity.

  Lemma level_of_same : forall p f n t, In p own -> 0 <= f < 4 -> nbr F p f = SameSize n t ->
    lev F n = lev F p /\ exists t', nbr F n (nface K p f) = SameSize p t'.
  Proof.
    intros p f n t Hp Hf EN. destruct HL as (_ & _ & _ & _ & H). destruct (H p (Hown _ Hp)) as (L1 & _ & HF). specialize (HF f Hf).
    unfold linked_face in HF. rewrite EN in HF. destruct HF as (Hn & (ft & _ & (LV & _)) & HB & _).
    destruct (H n Hn) as (L2 & _). split; [rewrite L1, L2; now symmetry|exact HB].
  Qed.
  Lemma level_of_half : forall p f n t nm i, In p own -> 0 <= f < 4 -> 0 <= i <= 1 -> nbr F p f = HalfSize n t nm ->
    lev F (n i) = lev F p + 1 /\ nbr F (n i) (nface K p f) = DoubleSize.
  Proof.
    intros p f n t nm i Hp Hf Hi EN. destruct HL as (_ & _ & _ & _ & H). destruct (H p (Hown _ Hp)) as (L1 & _ & HF). specialize (HF f Hf).
    unfold linked_face in HF. rewrite EN in HF. destruct HF as (_ & HF). destruct (HF i Hi) as (Hn & (ft & _ & (LV & _)) & HB & _).
    destruct (H (n i) Hn) as (L2 & _). split; [rewrite L1, L2; exact LV|exact HB].
  Qed.

  Lemma level_ok : forall level s, level <= maxlevel ->
    desc s (corrected_from (level + 1)) (cleared_from (level + 1) (maxlevel + 1)) ->
    exists s', seq (iterate_level Fo level (cb_samesize rnd d Fo)) (seq (reset_level d Fo level RESET_SAMESIZE)
         (if level <? maxlevel then
            seq (iterate_level Fo level (cb_f2c rnd d Fo)) (reset_level d Fo level RESET_F2C)
          else fun s => Some s)) s = Some s' /\ desc s' (corrected_from level) (cleared_from level (maxlevel + 1)).
  Proof.
    intros level s Hle HD. unfold seq at 1.
    destruct (same_level level s _ _ HD) as (s1 & E1 & H1).
    { intros p f Hp Hlev Hf Hs. unfold is_same in Hs. destruct (nbr F p f) as [|n t|n t nm|] eqn:EN; try discriminate.
      destruct (level_of_same p f n t Hp Hf EN) as (LN & t' & EN').
      unfold fresh, corrected_from, cleared_from. rewrite EN, EN', LN. zb. rewrite ?andb_false_r. cbn [andb]. auto. }
    rewrite E1. cbn [bind]. unfold seq at 1.
    destruct (reset_level_ok level RESET_SAMESIZE s1 _ _ H1) as (s2 & E2 & H2). rewrite E2. cbn [bind].
    destruct (Z.ltb_spec level maxlevel) as [Hlt|Hge].
    - unfold seq.
      destruct (half_level level s2 _ _ H2) as (s3 & E3 & H3).
      { intros p f Hp Hlev Hf Hs. unfold is_half in Hs. destruct (nbr F p f) as [|n t|n t nm|] eqn:EN; try discriminate.
        destruct (level_of_half p f n t nm 0 Hp Hf ltac:(lia) EN) as (LN0 & EN0).
        destruct (level_of_half p f n t nm 1 Hp Hf ltac:(lia) EN) as (LN1 & EN1).
        unfold fresh, corrected_from, cleared_from, is_same. rewrite EN, EN0, EN1, LN0, LN1. zb; rewrite ?andb_false_r; cbn [andb orb]; auto. }
      rewrite E3. cbn [bind]. destruct (reset_level_ok level RESET_F2C s3 _ _ H3) as (s4 & E4 & H4). exists s4. split; [exact E4|].
      eapply desc_ext; [exact H4| |].
      + intros p f Hp Hf. unfold corrected_from, onlev, is_same, is_half. destruct (mem own p); [|reflexivity].
        destruct (nbr F p f); zb.
      + intros p f Hp Hf. unfold cleared_from, is_same, is_half, is_double. destruct (mem own p); [|reflexivity].
        destruct (nbr F p f); zb.
    - exists s2. split; [reflexivity|]. eapply desc_ext; [exact H2| |].
      + intros p f Hp Hf. unfold corrected_from, onlev, is_same. destruct (mem own p); [|reflexivity]. destruct (nbr F p f); zb.
      + intros p f Hp Hf. unfold cleared_from, is_same. destruct (mem own p); [|reflexivity]. destruct (nbr F p f); zb.
  Qed.

  Theorem correct_ok : forall minlevel s, minlevel <= maxlevel ->
    (forall p, In p own -> sol s p = sol S p) -> (forall p, visible p -> reg s p = R p) ->
    exists s', correct_coarse_cells rnd d Fo minlevel maxlevel s = Some s' /\
      desc s' (corrected_from minlevel) (cleared_from minlevel minlevel).
  Proof.
    intros minlevel s Hmin Hsol Hreg. unfold correct_coarse_cells, seq at 1.
    assert (H0 : desc s (corrected_from (maxlevel - 0 + 1)) (cleared_from (maxlevel - 0 + 1) (maxlevel + 1))).
    { split.
      - intros p c Hp Hc. rewrite (Hsol p Hp). destruct (proj2 (HA p (Hown _ Hp)) c Hc) as (v & E). exists v. split; [exact E|].
        unfold val. rewrite E. rewrite (qsum_ext 0 3 _ (fun _ => 0%Q)); [rewrite qsum4; ring|].
        intros f Hf. unfold corrected_from. destruct (nbr F p f); zb; rewrite ?andb_false_r; reflexivity.
      - intros p c Hp. rewrite (Hreg p Hp).
        replace (cleared_from (maxlevel - 0 + 1) (maxlevel + 1) p (face_of c)) with false; [now rewrite andb_false_r|].
        unfold cleared_from. destruct (nbr F p (face_of c)); zb; now rewrite ?andb_false_r. }
    destruct (loop_inv (fun i s => desc s (corrected_from (maxlevel - i + 1)) (cleared_from (maxlevel - i + 1) (maxlevel + 1)))
      (fun i => (fun level => seq (iterate_level Fo level (cb_samesize rnd d Fo)) (seq (reset_level d Fo level RESET_SAMESIZE)
         (if level <? maxlevel then
            seq (iterate_level Fo level (cb_f2c rnd d Fo)) (reset_level d Fo level RESET_F2C)
          else fun s => Some s))) (maxlevel - i)) 0 (maxlevel - minlevel) s ltac:(lia)) as (s1 & E1 & H1); [|exact H0|].
    { intros i s1 Hi H1. destruct (level_ok (maxlevel - i) s1 ltac:(lia) H1) as (s2 & E2 & H2). exists s2. split; [exact E2|].
      replace (maxlevel - (i + 1) + 1) with (maxlevel - i) by lia. exact H2. }
    rewrite E1. cbn [bind].
    destruct (loop_inv (fun i s => desc s (corrected_from minlevel) (cleared_from minlevel (maxlevel - i + 1)))
      (fun i => reset_level d Fo (maxlevel - i) RESET_PHYS) 0 (maxlevel - minlevel) s1 ltac:(lia)) as (s2 & E2 & H2).
    - intros i s2 Hi H2. destruct (reset_level_ok (maxlevel - i) RESET_PHYS s2 _ _ H2) as (s3 & E3 & H3). exists s3. split; [exact E3|].
      eapply desc_ext; [exact H3|reflexivity|]. intros p f _ _. unfold cleared_from, is_boundary. destruct (mem own p); [|reflexivity].
      destruct (nbr F p f); zb.
    - eapply desc_ext; [exact H1| |].
      + intros p f _ _. replace (maxlevel - (maxlevel - minlevel + 1) + 1) with minlevel by lia. reflexivity.
      + intros p f _ _. replace (maxlevel - (maxlevel - minlevel + 1) + 1) with minlevel by lia. replace (maxlevel - 0 + 1) with (maxlevel + 1) by lia. reflexivity.
    - exists s2. split; [exact E2|]. replace (maxlevel - (maxlevel - minlevel + 1) + 1) with minlevel in H2 by lia. exact H2.
  Qed.
End Forest.
