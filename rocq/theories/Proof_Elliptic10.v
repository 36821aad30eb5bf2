(** Given boundary values and the operators together. *)
From Coq Require Import ZArith QArith List Lia Lqa Bool Qfield.
From Verif Require Import Base_Float Model_Face Model_Grid Spec_Grid Proof_Grid Proof_Grid2 Proof_Tag Proof_Diag Model_Elliptic Spec_Elliptic Spec_Elliptic2
  Proof_Elliptic1 Proof_Elliptic2 Proof_Elliptic3 Proof_Elliptic4 Proof_Elliptic5 Proof_Elliptic7.
Import ListNotations.
Open Scope Z_scope.

Section Bv.
  Variable p : problem.
  Hypothesis Hp : match p with VarPoisson _ => False | _ => True end.
  Variable d : dims.
  Hypothesis HU : usable d.
  Variable pi : pinfo.
  Hypothesis Hx : ~ (sx pi == 0)%Q.
  Hypothesis Hy : ~ (sy pi == 0)%Q.
  Variable beta : arr.
  Hypothesis HR : ready p d beta.
  Variable xl yl t : Q.
  Variable intersects : Z -> bool.
  Hypothesis HI : forall s, 0 <= s < 4 -> intersects s = negb (has_nbr pi s).
  Variable bctype : Z -> Z.
  Variable g : Z -> Q -> Q -> Q -> Q.
  Hypothesis Hg : respects g.
  Hypothesis Hc : forall s, 0 <= s < 4 -> intersects s = true -> bctype s = bc_code (cond_of p s).
  Let G := given d xl yl (sx pi) (sy pi) t g.
  Let psh := push d (sx pi) (sy pi) (cond_of p) G.

  Lemma ghost_given : forall U s k, 0 <= s < 4 -> 1 <= k <= side_len d s ->
    (intersects s = true -> meets d (sx pi) (sy pi) s (cond_of p s) (G s) (field U 1%Z)) ->
    (on (field U 1%Z) (ghost_at d s k) ==
     on (field (closing d (fun s => negb (has_nbr pi s)) (closer p) U) 1%Z) (ghost_at d s k) +
     (if intersects s then ghost_shift (spacing (sx pi) (sy pi) s) (cond_of p s) (G s k) else 0))%Q.
  Proof.
    intros U s k Hs Hk M. rewrite closing_ghost by assumption. rewrite <- (HI s Hs). destruct (intersects s) eqn:N; [|ring].
    specialize (M eq_refl k Hk). set (x := on (field U 1) (ghost_at d s k)) in *. set (y := on (field U 1) (inside_at d s k)) in *.
    pose proof (spacing_nz pi Hx Hy s) as Nz. unfold bc_at, ghost_shift, closer, cond_of in *.
    assert (V : ((x + y) / 2 == G s k)%Q -> (x == - y + 2 * G s k)%Q).
    { intros E. rewrite <- E. field. }
    destruct p as [|B|c l]; [now apply V|contradiction|]. unfold heat_sign, codes. destruct (c s); cbn [bc_code].
    - change (inject_Z (2 * 1 - 3)) with (-1)%Q. rewrite (V M). ring.
    - change (inject_Z (2 * 2 - 3)) with 1%Q. rewrite <- M. field. exact Nz.
  Qed.

  Lemma left_given : forall U i j, 1 <= i <= mx d -> 1 <= j <= my d ->
    (forall s, 0 <= s < 4 -> intersects s = true -> meets d (sx pi) (sy pi) s (cond_of p s) (G s) (field U 1%Z)) ->
    (left_side p (sx pi) (sy pi) (field U 1%Z) i j ==
     ell pi (coef p) (extra p) (closing d (fun s => negb (has_nbr pi s)) (closer p) U) 1%Z i j +
     qsum 0 3 (fun s => if intersects s then psh s i j else 0))%Q.
  Proof.
    intros U i j Hi Hj M. unfold qsum. change (Z.to_nat (3 - 0 + 1)) with 4%nat. cbn [qsum_n]. change (0 + 1)%Z with 1%Z. change (1 + 1)%Z with 2%Z. change (2 + 1)%Z with 3%Z.
    set (W := closing d (fun s => negb (has_nbr pi s)) (closer p) U).
    assert (IN : forall i j, 1 <= i <= mx d -> 1 <= j <= my d -> W i j 1%Z = U i j 1%Z) by (intros; unfold W; now rewrite closing_inside).
    assert (GW : forall s k, 0 <= s < 4 -> 1 <= k <= side_len d s -> (on (field U 1%Z) (ghost_at d s k) == on (field W 1%Z) (ghost_at d s k) +
      (if intersects s then ghost_shift (spacing (sx pi) (sy pi) s) (cond_of p s) (G s k) else 0))%Q).
    { intros s k Hs Hk. apply ghost_given; auto. }
    assert (G0 := GW 0 j ltac:(lia) Hj). assert (G1 := GW 1 j ltac:(lia) Hj). assert (G2 := GW 2 i ltac:(lia) Hi). assert (G3 := GW 3 i ltac:(lia) Hi).
    unfold ghost_at, on, field in G0, G1, G2, G3. cbn [Z.eqb Z.ltb Z.compare Pos.compare Pos.compare_cont Pos.eqb fst snd] in G0, G1, G2, G3.
    assert (D0 : (U (i - 1)%Z j 1%Z == W (i - 1)%Z j 1%Z + sx pi * sx pi * (if intersects 0%Z then psh 0 i j else 0))%Q).
    { unfold psh, push, at_side, edge_no, spacing in *. cbn [Z.eqb Z.ltb Z.compare Pos.compare Pos.compare_cont Pos.eqb] in *. destruct (Z.eqb_spec i 1) as [->|].
      - change (1 - 1)%Z with 0%Z. rewrite G0. destruct (intersects 0); [field; auto|ring].
      - rewrite (IN (i - 1)%Z j ltac:(lia) Hj). destruct (intersects 0); ring. }
    assert (D1 : (U (i + 1)%Z j 1%Z == W (i + 1)%Z j 1%Z + sx pi * sx pi * (if intersects 1%Z then psh 1 i j else 0))%Q).
    { unfold psh, push, at_side, edge_no, spacing in *. cbn [Z.eqb Z.ltb Z.compare Pos.compare Pos.compare_cont Pos.eqb] in *. destruct (Z.eqb_spec i (mx d)) as [->|].
      - rewrite G1. destruct (intersects 1); [field; auto|ring].
      - rewrite (IN (i + 1)%Z j ltac:(lia) Hj). destruct (intersects 1); ring. }
    assert (D2 : (U i (j - 1)%Z 1%Z == W i (j - 1)%Z 1%Z + sy pi * sy pi * (if intersects 2%Z then psh 2 i j else 0))%Q).
    { unfold psh, push, at_side, edge_no, spacing in *. cbn [Z.eqb Z.ltb Z.compare Pos.compare Pos.compare_cont Pos.eqb] in *. destruct (Z.eqb_spec j 1) as [->|].
      - change (1 - 1)%Z with 0%Z. rewrite G2. destruct (intersects 2); [field; auto|ring].
      - rewrite (IN i (j - 1)%Z Hi ltac:(lia)). destruct (intersects 2); ring. }
    assert (D3 : (U i (j + 1)%Z 1%Z == W i (j + 1)%Z 1%Z + sy pi * sy pi * (if intersects 3%Z then psh 3 i j else 0))%Q).
    { unfold psh, push, at_side, edge_no, spacing in *. cbn [Z.eqb Z.ltb Z.compare Pos.compare Pos.compare_cont Pos.eqb] in *. destruct (Z.eqb_spec j (my d)) as [->|].
      - rewrite G3. destruct (intersects 3); [field; auto|ring].
      - rewrite (IN i (j + 1)%Z Hi ltac:(lia)). destruct (intersects 3); ring. }
    rewrite left_side_ell by assumption. unfold ell. unfold divg, field.
    assert (C : coef p = fun _ _ => 1%Q) by (destruct p; [reflexivity|contradiction|reflexivity]). rewrite C. cbn beta.
    rewrite D0, D1, D2, D3, (IN i j Hi Hj). unfold mean2.
    generalize (if intersects 0 then psh 0 i j else 0%Q) (if intersects 1 then psh 1 i j else 0%Q) (if intersects 2 then psh 2 i j else 0%Q) (if intersects 3 then psh 3 i j else 0%Q).
    intros e0 e1 e2 e3. field. auto.
  Qed.

  Hypothesis HL : forall s f, 0 <= s -> s < f < 4 -> intersects s = true -> intersects f = true -> forall k, 1 <= k <= side_len d s -> (G s k == 0)%Q.

  Lemma push_zero : forall s i j, 0 <= s < 4 -> 1 <= i <= mx d -> 1 <= j <= my d -> (forall k, 1 <= k <= side_len d s -> (G s k == 0)%Q) -> (psh s i j == 0)%Q.
  Proof.
    intros s i j Hs Hi Hj Z0. unfold psh, push. destruct (at_side d s i j); [|reflexivity].
    assert (E : (G s (edge_no s i j) == 0)%Q).
    { apply Z0. unfold edge_no, side_len. destruct (s <? 2); lia. }
    rewrite (ghost_shift_ext _ _ _ _ E). pose proof (spacing_nz pi Hx Hy s). unfold ghost_shift. destruct (cond_of p s); field; assumption.
  Qed.

  Lemma used_once : forall i j, 1 <= i <= mx d -> 1 <= j <= my d ->
    (qsum 0 3 (fun s => if intersects s then later intersects s * psh s i j else 0) == qsum 0 3 (fun s => if intersects s then psh s i j else 0))%Q.
  Proof.
    intros i j Hi Hj. apply qsum_ext. intros s Hs. destruct (intersects s) eqn:N; [|reflexivity].
    assert (C : (exists f, s < f < 4 /\ intersects f = true) \/ forall f, s < f < 4 -> intersects f = false).
    { assert (K : forall f, s < f < 4 -> f = 1 \/ f = 2 \/ f = 3) by lia.
      destruct (Z_lt_ge_dec s 1), (Z_lt_ge_dec s 2), (Z_lt_ge_dec s 3); try lia;
      destruct (intersects 1) eqn:N1, (intersects 2) eqn:N2, (intersects 3) eqn:N3;
      first [left; exists 3; split; [lia|exact N3]|left; exists 2; split; [lia|exact N2]|left; exists 1; split; [lia|exact N1]
            |right; intros f Hf; destruct (K f Hf) as [->|[->| ->]]; first [assumption|lia]]. }
    destruct C as [(f & Hf & Nf)|C].
    - rewrite (push_zero s i j); [ring|lia|exact Hi|exact Hj|]. intros k Hk. apply (HL s f); auto; lia.
    - assert (L : (later intersects s == 1)%Q); [|rewrite L; ring]. unfold later.
      rewrite (qsum_single s 3 s); [rewrite N; reflexivity|lia|]. intros f Hf Hn. rewrite C by lia. reflexivity.
  Qed.

  Theorem boundary_ok : forall u f rhs U F, holds_with d (has_nbr pi) u U -> holds d rhs F ->
    (forall s, 0 <= s < 4 -> intersects s = true -> meets d (sx pi) (sy pi) s (cond_of p s) (G s) (field U 1%Z)) ->
    exists u' x r, apply_of p d pi beta u f = Some (u', x) /\ apply_bc d xl yl (sx pi) (sy pi) t intersects bctype g rhs = Some r /\
      forall i j, 1 <= i <= mx d -> 1 <= j <= my d -> exists vx vr, x (i, j, 1) = Some vx /\ r (i, j, 1) = Some vr /\
        (vx - vr == left_side p (sx pi) (sy pi) (field U 1%Z) i j - F i j 1%Z)%Q.
  Proof.
    intros u f rhs U F Hu HF M.
    destruct (run_ok d HU pi (coef p) (extra p) (stencil p d pi beta) (stencil_ok p d HU pi Hx Hy beta HR) (closer p) u f U Hu) as (u' & x & Ex & (X1 & _) & _).
    destruct (apply_bc_ok d HU xl yl (sx pi) (sy pi) t Hx Hy intersects bctype g Hg (cond_of p) Hc rhs F HF) as (r & Er & R1 & _).
    exists u', x, r. rewrite apply_run by exact HR. split; [exact Ex|]. split; [exact Er|]. intros i j Hi Hj.
    assert (I1 : interior d (i, j, 1)) by (destruct HU as (_ & _ & _ & U4); unfold interior; lia).
    destruct (X1 i j 1 I1) as (vx & Vx & Qx). destruct (R1 i j Hi Hj) as (vr & Vr & Qr). exists vx, vr. split; [exact Vx|]. split; [exact Vr|].
    rewrite Qx, Qr, (taken_total d xl yl (sx pi) (sy pi) t Hx Hy intersects g (cond_of p) i j Hi Hj).
    fold G. fold psh. rewrite (used_once i j Hi Hj), (left_given U i j Hi Hj M). ring.
  Qed.
End Bv.
