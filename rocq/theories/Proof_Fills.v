(** Loops that assign elements of arrays.  [view s x] is element [x] of state [s]. *)
From Coq Require Import ZArith Lia.
From Verif Require Import Model_Grid.
Open Scope Z_scope.

Section Fills.
  Context {S X V : Type}.
  Variable view : S -> X -> V.
  (** elements that are read but not assigned, with the values they have *)
  Variable K : X -> Prop.
  Variable s0 : S.
  (** final values *)
  Variable T : X -> V.

  Definition kept (s : S) : Prop := forall x, K x -> view s x = view s0 x.
  (** [f] succeeds; it sets the elements in W to T and leaves the others *)
  Definition fills (f : S -> option S) (W : X -> Prop) : Prop :=
    forall s, kept s -> exists s', f s = Some s' /\ kept s' /\ (forall x, W x -> view s' x = T x) /\
      (forall x, ~ W x -> view s' x = view s x) /\ (forall x, view s' x = T x \/ view s' x = view s x).

  Lemma fills_iff : forall f W W', fills f W -> (forall x, W x <-> W' x) -> fills f W'.
  Proof.
    intros f W W' H E s Hs. destruct (H s Hs) as (s' & F & A & B & C & D). exists s'. split; [exact F|]. split; [exact A|]. split; [|split; [|exact D]].
    - intros x Hx. apply B, E, Hx.
    - intros x Hx. apply C. intros Hw. apply Hx, E, Hw.
  Qed.
  Lemma fills_skip : fills Some (fun _ => False).
  Proof. intros s Hs. exists s. split; [reflexivity|]. split; [exact Hs|]. split; [intros x []|]. split; [reflexivity|]. intros x. right. reflexivity. Qed.
  Lemma fills_loop_n : forall f W n lo, (forall k, lo <= k < lo + Z.of_nat n -> fills (f k) (W k)) ->
    fills (loop_n n lo f) (fun x => exists k, lo <= k < lo + Z.of_nat n /\ W k x).
  Proof.
    intros f W n. induction n as [|n IH]; intros lo H s Hs.
    - exists s. cbn [loop_n]. split; [reflexivity|]. split; [exact Hs|]. split; [intros x (k & Hk & _); lia|]. split; [reflexivity|]. intros x. right. reflexivity.
    - cbn [loop_n]. destruct (H lo ltac:(lia) s Hs) as (s1 & F1 & A1 & B1 & C1 & D1). rewrite F1. cbn [bind].
      destruct (IH (lo + 1) ltac:(intros k Hk; apply H; lia) s1 A1) as (s2 & F2 & A2 & B2 & C2 & D2). exists s2. split; [exact F2|]. split; [exact A2|].
      split; [|split].
      + intros x (k & Hk & HW). destruct (Z.eq_dec k lo) as [->|N].
        * destruct (D2 x) as [E|E]; [exact E|]. rewrite E. apply B1, HW.
        * apply B2. exists k. split; [lia|exact HW].
      + intros x N. rewrite C2, C1; [reflexivity| |].
        * intros HW. apply N. exists lo. split; [lia|exact HW].
        * intros (k & Hk & HW). apply N. exists k. split; [lia|exact HW].
      + intros x. destruct (D2 x) as [E|E]; [left; exact E|]. rewrite E. apply D1.
  Qed.
  Lemma fills_loop : forall f W lo hi, (forall k, lo <= k <= hi -> fills (f k) (W k)) ->
    fills (loop lo hi f) (fun x => exists k, lo <= k <= hi /\ W k x).
  Proof.
    intros f W lo hi H. unfold loop. destruct (Z_le_dec lo hi) as [L|L].
    - eapply fills_iff; [apply fills_loop_n; intros k Hk; apply H; lia|]. intros x. split; intros (k & Hk & HW); exists k; (split; [lia|exact HW]).
    - replace (Z.to_nat (hi - lo + 1)) with O by lia. eapply fills_iff; [exact fills_skip|]. intros x. split; [intros []|intros (k & Hk & _); lia].
  Qed.
End Fills.
