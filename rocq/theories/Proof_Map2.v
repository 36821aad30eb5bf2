(** Five blocks: the square and the disk. *)
From Coq Require Import ZArith Reals List Bool Lra Lia.
From Verif Require Import Model_Map Spec_Map Proof_Map1.
Import ListNotations.
Open Scope R_scope.

Lemma blocks5 : forall b, (0 <= b <= 4)%Z -> b = 0%Z \/ b = 1%Z \/ b = 2%Z \/ b = 3%Z \/ b = 4%Z.
Proof. lia. Qed.
Ltac block5 H := let X := fresh in pose proof (blocks5 _ H) as X; destruct X as [->|[->|[->|[->| ->]]]].

(** the four outer blocks are one sector of the plane, turned *)
Definition five (core : R -> R -> R * R) (sector : R -> R -> R * R) (b : Z) (xc yc : R) : option point :=
  match b with
  | 2%Z => let '(u, v) := core xc yc in Some (u, v, 0)
  | 0%Z => let '(u, v) := sector xc (1 - yc) in Some (u, - v, 0)
  | 1%Z => let '(u, v) := sector yc (1 - xc) in Some (- v, u, 0)
  | 3%Z => let '(u, v) := sector yc xc in Some (v, u, 0)
  | 4%Z => let '(u, v) := sector xc yc in Some (u, v, 0)
  | _ => None
  end.
Lemma five_some : forall core sector b x y p, five core sector b x y = Some p -> (0 <= b <= 4)%Z.
Proof.
  intros core sector b x y p E. unfold five in E. destruct b as [|b|b]; [lia| |discriminate]. do 3 (destruct b; try discriminate; try lia).
Qed.
Lemma sq_sym : forall x y, square x y -> square y x /\ square x (1 - y) /\ square y (1 - x).
Proof. intros x y [A B]. unfold square. lra. Qed.
Lemma in_sym : forall x y, inside x y -> inside y x /\ inside x (1 - y) /\ inside y (1 - x).
Proof. intros x y [A B]. unfold inside. lra. Qed.
Lemma in_sq : forall x y, inside x y -> square x y.
Proof. intros x y [A B]. unfold square. lra. Qed.

Section Five.
Variables (core sector : R -> R -> R * R) (h : R).
Hypothesis Hh : 0 < h.
Hypothesis core_def : forall x y, core x y = ((2 * x - 1) * h, (2 * y - 1) * h).
Hypothesis sector_in : forall x y u v, square x y -> sector x y = (u, v) -> h <= v /\ - v <= u <= v.
Hypothesis sector_inside : forall x y u v, inside x y -> sector x y = (u, v) -> h < v /\ - v < u < v.
Hypothesis sector_inj : forall x y x' y', inside x y -> square x' y' -> sector x y = sector x' y' -> x = x' /\ y = y'.
Lemma five_one : one_to_one (five core sector).
Proof.
  intros b x y b' x' y' p I S E E'. pose proof (five_some _ _ _ _ _ _ E) as B. pose proof (five_some _ _ _ _ _ _ E') as B'.
  destruct (in_sym _ _ I) as (I1 & I2 & I3). destruct (sq_sym _ _ S) as (S1 & S2 & S3).
  assert (C : forall b x y p, five core sector b x y = Some p -> square x y -> inside x y -> (b = 2%Z -> let '(x, y, _) := p in - h < x < h /\ - h < y < h)) .
  { intros c u v q Eq _ [U V] ->. cbn [five] in Eq. rewrite core_def in Eq. injection Eq as <-. split; split; nra. }
  assert (D : forall x y u v, square x y -> core x y = (u, v) -> - h <= u <= h /\ - h <= v <= h).
  { intros u v a c [U V] Eq. rewrite core_def in Eq. injection Eq as <- <-. split; split; nra. }
  unfold five in E, E'.
  block5 B; block5 B';
  match goal with
  | H : (let '(_, _) := ?s in _) = Some p, H' : (let '(_, _) := ?s' in _) = Some p |- _ =>
      destruct s as [u v] eqn:E1; injection H as <-; destruct s' as [u' v'] eqn:E2; injection H' as X1 X2
  end;
  repeat match goal with
  | H : sector ?a ?c = _, I : inside ?a ?c |- _ => let K := fresh "K" in let K2 := fresh "K" in pose proof (sector_inside _ _ _ _ I H) as K; pose proof (sector_in _ _ _ _ (in_sq _ _ I) H) as K2; revert H
  | H : sector ?a ?c = _, I : square ?a ?c |- _ => let K := fresh "K" in pose proof (sector_in _ _ _ _ I H) as K; revert H
  end; intros;
  try match goal with
  | H : core x y = _ |- _ => pose proof (C 2%Z x y (u, v, 0)) as Kc; unfold five in Kc; rewrite H in Kc; specialize (Kc eq_refl (in_sq _ _ I) I eq_refl); cbv beta iota in Kc
  end;
  try match goal with
  | H : core x' y' = _ |- _ => pose proof (D _ _ _ _ S H) as Kd
  end;
  try (exfalso; lra);
  (split; [reflexivity|]);
  first
  [ match goal with H1 : core x y = _, H2 : core x' y' = _ |- _ => rewrite core_def in H1, H2; injection H1 as <- <-; injection H2 as <- <-; split; nra end
  | match goal with H1 : sector ?a ?c = (?u1, ?v1), H2 : sector ?a' ?c' = (?u2, ?v2) |- _ =>
      let G := fresh in assert (G : a = a' /\ c = c') by (apply sector_inj; [assumption|assumption|rewrite H1, H2; f_equal; lra]); destruct G; split; lra end ].
Qed.
End Five.
