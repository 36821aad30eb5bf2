(** Memory and pointers: every live object is held by exactly one slot. *)
From Coq Require Import ZArith List Bool Lia.
From Verif Require Import Model_Face Model_Iter Spec_Iter Model_Regrid.
Import ListNotations.
Open Scope Z_scope.

Section Store.
  Variable V : Type.
  Variable T : Type.
  Variable dec : forall x y : T, {x = y} + {x <> y}.
  Variable K : T -> Prop.

  Definition look (m : mem V) (s : T -> option nat) (t : T) : option (obj V) :=
    match s t with Some id => m_heap V m id | None => None end.
  Definition good (s : T -> option nat) (m : mem V) : Prop :=
    (forall t id, K t -> s t = Some id -> m_heap V m id <> None /\ (id < m_next V m)%nat) /\
    (forall t t' id, K t -> K t' -> s t = Some id -> s t' = Some id -> t = t') /\
    (forall id, m_heap V m id <> None -> exists t, K t /\ s t = Some id).
  Definition rep (s : T -> option nat) (m : mem V) (a : T -> option (obj V)) : Prop :=
    good s m /\ forall t, K t -> a t = look m s t.

  Lemma look_some m s t o : look m s t = Some o -> exists id, s t = Some id /\ m_heap V m id = Some o.
  Proof. unfold look. destruct (s t) as [id|]; [|discriminate]. intros H. exists id. auto. Qed.
  Lemma rep_some s m a t o : rep s m a -> K t -> a t = Some o -> exists id, s t = Some id /\ m_heap V m id = Some o.
  Proof. intros (_ & R) H E. rewrite (R t H) in E. apply look_some, E. Qed.
  Lemma rep_none s m a t : rep s m a -> K t -> a t = None -> s t = None.
  Proof.
    intros ((G & _) & R) H E. rewrite (R t H) in E. unfold look in E. destruct (s t) as [id|] eqn:S; [|reflexivity]. exfalso. apply (G t id H S). exact E.
  Qed.
  Lemma rep_ext s s' m a a' : rep s m a -> (forall t, K t -> s' t = s t) -> (forall t, K t -> a' t = a t) -> rep s' m a'.
  Proof.
    intros ((G1 & G2 & G3) & R) E1 E2. split; [split; [|split]|].
    - intros t id H S. rewrite (E1 t H) in S. apply (G1 t id H S).
    - intros t t' id H H' S S'. rewrite (E1 t H) in S. rewrite (E1 t' H') in S'. apply (G2 t t' id H H' S S').
    - intros id L. destruct (G3 id L) as (t & H & S). exists t. split; [exact H|]. rewrite (E1 t H). exact S.
    - intros t H. rewrite (E2 t H), (R t H). unfold look. rewrite (E1 t H). reflexivity.
  Qed.

  (** handing an object over *)
  Lemma rep_move s m a s' a' t t' o : rep s m a -> K t -> K t' -> t <> t' -> a t = Some o -> a t' = None ->
    s' t = None -> s' t' = s t -> (forall x, K x -> x <> t -> x <> t' -> s' x = s x) ->
    a' t = None -> a' t' = Some o -> (forall x, K x -> x <> t -> x <> t' -> a' x = a x) ->
    rep s' m a'.
  Proof.
    intros R I1 I2 N A1 A2 S1 S2 S3 B1 B2 B3.
    destruct (rep_some _ _ _ _ _ R I1 A1) as (id & E1 & H1). pose proof (rep_none _ _ _ _ R I2 A2) as E2. destruct R as ((G1 & G2 & G3) & R).
    rewrite E1 in S2.
    assert (INV : forall x i, K x -> s' x = Some i -> (x = t' /\ i = id) \/ (x <> t /\ x <> t' /\ s x = Some i)).
    { intros x i H S. destruct (dec x t) as [-> |D1]; [congruence|]. destruct (dec x t') as [-> |D2]; [left; split; [reflexivity|congruence]|]. right. rewrite (S3 x H D1 D2) in S. auto. }
    split; [split; [|split]|].
    - intros x i H S. destruct (INV x i H S) as [(-> & ->)|(_ & _ & S')]; [apply (G1 t id I1 E1)|apply (G1 x i H S')].
    - intros x y i H H' S S'. destruct (INV x i H S) as [(-> & ->)|(D1 & D2 & X)], (INV y _ H' S') as [(-> & Q)|(D1' & D2' & Y)].
      + reflexivity.
      + exfalso. apply D1'. apply (G2 y t id H' I1 Y E1).
      + exfalso. apply D1. rewrite Q in X. apply (G2 x t id H I1 X E1).
      + apply (G2 x y i H H' X Y).
    - intros i L. destruct (G3 i L) as (x & H & S). destruct (dec x t) as [-> |D1].
      + exists t'. split; [exact I2|congruence].
      + exists x. split; [exact H|]. destruct (dec x t') as [-> |D2]; [congruence|]. rewrite (S3 x H D1 D2). exact S.
    - intros x H. unfold look. destruct (dec x t) as [-> |D1]; [rewrite S1, B1; reflexivity|]. destruct (dec x t') as [-> |D2].
      + rewrite S2, B2. symmetry. exact H1.
      + rewrite (S3 x H D1 D2), (B3 x H D1 D2), (R x H). reflexivity.
  Qed.

  (** a new object *)
  Lemma rep_alloc s m a s' m' a' t o : rep s m a -> K t -> a t = None ->
    (forall i, m_heap V m' i = upd_heap V (m_heap V m) (m_next V m) (Some o) i) -> m_next V m' = S (m_next V m) ->
    s' t = Some (m_next V m) -> (forall x, K x -> x <> t -> s' x = s x) ->
    a' t = Some o -> (forall x, K x -> x <> t -> a' x = a x) ->
    rep s' m' a'.
  Proof.
    intros R I1 A1 M1 M2 S1 S2 B1 B2. pose proof (rep_none _ _ _ _ R I1 A1) as E1. destruct R as ((G1 & G2 & G3) & R).
    assert (FR : forall x i, K x -> s x = Some i -> (i <> m_next V m) /\ Nat.eqb i (m_next V m) = false).
    { intros x i H S. destruct (G1 x i H S) as (_ & L). split; [lia|]. apply Nat.eqb_neq. lia. }
    split; [split; [|split]|].
    - intros x i H S. rewrite M1, M2. unfold upd_heap. destruct (dec x t) as [-> |D].
      + assert (i = m_next V m) as -> by congruence. rewrite Nat.eqb_refl. split; [discriminate|lia].
      + rewrite (S2 x H D) in S. destruct (FR x i H S) as (_ & ->). destruct (G1 x i H S). split; [assumption|lia].
    - intros x y i H H' S S'. destruct (dec x t) as [-> |D1], (dec y t) as [-> |D2]; [reflexivity| | |].
      + exfalso. rewrite (S2 y H' D2) in S'. destruct (FR y i H' S') as (X & _). congruence.
      + exfalso. rewrite (S2 x H D1) in S. destruct (FR x i H S) as (X & _). congruence.
      + rewrite (S2 x H D1) in S. rewrite (S2 y H' D2) in S'. apply (G2 x y i H H' S S').
    - intros i L. rewrite M1 in L. unfold upd_heap in L. destruct (Nat.eqb i (m_next V m)) eqn:E.
      + apply Nat.eqb_eq in E. subst i. exists t. auto.
      + destruct (G3 i L) as (x & H & S). exists x. split; [exact H|]. destruct (dec x t) as [-> |D]; [congruence|]. rewrite (S2 x H D). exact S.
    - intros x H. unfold look. destruct (dec x t) as [-> |D].
      + rewrite S1, B1, M1. unfold upd_heap. rewrite Nat.eqb_refl. reflexivity.
      + rewrite (S2 x H D), (B2 x H D), (R x H). unfold look. destruct (s x) as [i|] eqn:E; [|reflexivity]. rewrite M1. unfold upd_heap. destruct (FR x i H E) as (_ & ->). reflexivity.
  Qed.

  (** freeing an object *)
  Lemma rep_free s m a s' m' a' t id o : rep s m a -> K t -> a t = Some o -> s t = Some id ->
    (forall i, m_heap V m' i = upd_heap V (m_heap V m) id None i) -> m_next V m' = m_next V m ->
    s' t = None -> (forall x, K x -> x <> t -> s' x = s x) ->
    a' t = None -> (forall x, K x -> x <> t -> a' x = a x) ->
    rep s' m' a'.
  Proof.
    intros R I1 A1 E1 M1 M2 S1 S2 B1 B2. destruct R as ((G1 & G2 & G3) & R).
    assert (OT : forall x i, K x -> x <> t -> s x = Some i -> Nat.eqb i id = false).
    { intros x i H D S. apply Nat.eqb_neq. intros ->. apply D. apply (G2 x t id H I1 S E1). }
    split; [split; [|split]|].
    - intros x i H S. rewrite M1, M2. unfold upd_heap. destruct (dec x t) as [-> |D]; [congruence|]. rewrite (S2 x H D) in S. rewrite (OT x i H D S). apply (G1 x i H S).
    - intros x y i H H' S S'. destruct (dec x t) as [-> |D1]; [congruence|]. destruct (dec y t) as [-> |D2]; [congruence|].
      rewrite (S2 x H D1) in S. rewrite (S2 y H' D2) in S'. apply (G2 x y i H H' S S').
    - intros i L. rewrite M1 in L. unfold upd_heap in L. destruct (Nat.eqb i id) eqn:E; [contradiction|]. apply Nat.eqb_neq in E.
      destruct (G3 i L) as (x & H & S). exists x. split; [exact H|]. destruct (dec x t) as [-> |D]; [congruence|]. rewrite (S2 x H D). exact S.
    - intros x H. unfold look. destruct (dec x t) as [-> |D]; [rewrite S1, B1; reflexivity|].
      rewrite (S2 x H D), (B2 x H D), (R x H). unfold look. destruct (s x) as [i|] eqn:E; [|reflexivity]. rewrite M1. unfold upd_heap. rewrite (OT x i H D E). reflexivity.
  Qed.

  (** changing an object *)
  Lemma rep_write s m a m' a' t id o o' : rep s m a -> K t -> a t = Some o -> s t = Some id ->
    (forall i, m_heap V m' i = upd_heap V (m_heap V m) id (Some o') i) -> m_next V m' = m_next V m ->
    a' t = Some o' -> (forall x, K x -> x <> t -> a' x = a x) ->
    rep s m' a'.
  Proof.
    intros R I1 A1 E1 M1 M2 B1 B2. destruct R as ((G1 & G2 & G3) & R).
    assert (LV : forall i, m_heap V m' i <> None <-> m_heap V m i <> None).
    { intros i. rewrite M1. unfold upd_heap. destruct (Nat.eqb i id) eqn:E; [|tauto]. apply Nat.eqb_eq in E. subst i. split; [|intros _; discriminate]. intros _. apply (G1 t id I1 E1). }
    split; [split; [|split]|].
    - intros x i H S. rewrite M2, LV. apply (G1 x i H S).
    - exact G2.
    - intros i L. apply LV in L. apply (G3 i L).
    - intros x H. unfold look. destruct (dec x t) as [-> |D]; [rewrite E1, B1, M1; unfold upd_heap; rewrite Nat.eqb_refl; reflexivity|].
      rewrite (B2 x H D), (R x H). unfold look. destruct (s x) as [i|] eqn:E; [|reflexivity]. rewrite M1. unfold upd_heap.
      destruct (Nat.eqb i id) eqn:Q; [|reflexivity]. apply Nat.eqb_eq in Q. subst i. exfalso. apply D. apply (G2 x t id H I1 E E1).
  Qed.
End Store.
