(** C65: given boundary values. *)
From Coq Require Import ZArith QArith List Lia Lqa Bool.
From Verif Require Import Base_Float Model_Face Model_Grid Spec_Grid Model_Elliptic Spec_Elliptic Spec_Elliptic2
  Proof_Elliptic4 Proof_Elliptic5 Proof_Elliptic7 Proof_Elliptic10.
Import ListNotations.
Open Scope Z_scope.

(** What the routine for boundary values does to the right hand side: the term of each physical side is taken off once
    for that side and once more for every later physical side; other fields and other cells keep their values. *)
Theorem C65_boundary_effect : forall d xl yl hx hy t intersects bctype g cond rhs F,
  usable d -> ~ (hx == 0)%Q -> ~ (hy == 0)%Q -> respects g ->
  (forall f, 0 <= f < 4 -> intersects f = true -> bctype f = bc_code (cond f)) -> holds d rhs F ->
  exists r, apply_bc d xl yl hx hy t intersects bctype g rhs = Some r /\
    (forall i j, 1 <= i <= mx d -> 1 <= j <= my d -> at_cell r (i, j, 1)
       (F i j 1%Z - qsum 0 3 (fun s => if intersects s then later intersects s * push d hx hy cond (given d xl yl hx hy t g) s i j else 0))%Q) /\
    (forall i j m, ~ (1 <= i <= mx d /\ 1 <= j <= my d /\ m = 1) -> r (i, j, m) = rhs (i, j, m)).
Proof.
  intros d xl yl hx hy t intersects bctype g cond rhs F HU Hx Hy Hg Hc HF.
  destruct (apply_bc_ok d HU xl yl hx hy t Hx Hy intersects bctype g Hg cond Hc rhs F HF) as (r & E & A & B). exists r. split; [exact E|]. split.
  - intros i j Hi Hj. destruct (A i j Hi Hj) as (v & Ev & V). exists v. split; [exact Ev|]. rewrite V.
    rewrite (taken_total d xl yl hx hy t Hx Hy intersects g cond i j Hi Hj). reflexivity.
  - intros i j m H. now apply B.
Qed.
Print Assumptions C65_boundary_effect.

(** If the patch has one physical side, or if the values are zero on all but the last, then the right hand side is the
    right one: the residual of the operator is that of data that meet the given conditions. *)
Theorem C65_boundary_values : forall p d pi beta xl yl t intersects bctype g u f rhs U F,
  usable d -> ~ (sx pi == 0)%Q -> ~ (sy pi == 0)%Q -> match p with VarPoisson _ => False | _ => True end -> ready p d beta ->
  (forall s, 0 <= s < 4 -> intersects s = negb (has_nbr pi s)) -> respects g ->
  (forall s, 0 <= s < 4 -> intersects s = true -> bctype s = bc_code (cond_of p s)) ->
  (forall s f, 0 <= s -> s < f < 4 -> intersects s = true -> intersects f = true ->
     forall k, 1 <= k <= side_len d s -> (given d xl yl (sx pi) (sy pi) t g s k == 0)%Q) ->
  holds_with d (has_nbr pi) u U -> holds d rhs F ->
  (forall s, 0 <= s < 4 -> intersects s = true ->
     meets d (sx pi) (sy pi) s (cond_of p s) (given d xl yl (sx pi) (sy pi) t g s) (field U 1)) ->
  exists u' x r, apply_of p d pi beta u f = Some (u', x) /\
    apply_bc d xl yl (sx pi) (sy pi) t intersects bctype g rhs = Some r /\
    forall i j, 1 <= i <= mx d -> 1 <= j <= my d -> exists vx vr, x (i, j, 1) = Some vx /\ r (i, j, 1) = Some vr /\
      (vx - vr == left_side p (sx pi) (sy pi) (field U 1) i j - F i j 1%Z)%Q.
Proof.
  intros p d pi beta xl yl t intersects bctype g u f rhs U F HU Hx Hy Hp HR HI Hg Hc HL Hu HF M.
  exact (boundary_ok p Hp d HU pi Hx Hy beta HR xl yl t intersects HI bctype g Hg Hc HL u f rhs U F Hu HF M).
Qed.
Print Assumptions C65_boundary_values.

(* ------------------------------------------------------------------ *)
(** Data and boundary values that are 1 everywhere, right hand side 0. *)
Definition one : data := fun i j m => 1%Q.
Definition one_arr : arr := fun _ => Some 1%Q.
Definition zero_arr : arr := fun _ => Some 0%Q.
Definition one_g : Z -> Q -> Q -> Q -> Q := fun _ _ _ _ => 1%Q.
Definition b_d (m : Z) : dims := mkDims 2 2 1 m.
Definition b_pi (phys : Z -> bool) : pinfo := mkPinfo (fun s => negb (phys s)) 1 1.
(** the residual that is left in a cell *)
Definition left_over (p : problem) (d : dims) (beta : arr) (phys : Z -> bool) (bctype : Z -> Z) (c : cell) : option Q :=
  match apply_of p d (b_pi phys) beta one_arr zero_arr, apply_bc d 0 0 1 1 0 phys bctype one_g zero_arr with
  | Some (_, x), Some r => match x c, r c with Some a, Some b => Some (Qred (a - b)) | _, _ => None end
  | _, _ => None
  end.
Definition left_only (s : Z) : bool := s =? 0.
Definition left_bottom (s : Z) : bool := (s =? 0) || (s =? 2).

Lemma one_held : forall d S, holds_with d S one_arr one /\ holds d zero_arr (fun _ _ _ => 0%Q).
Proof. intros d S. split; [split; [intros i j m _|intros f k m _ _ _ _]; reflexivity|intros i j m _; reflexivity]. Qed.
Lemma one_meets : forall d s, meets d 1 1 s Value (given d 0 0 1 1 0 one_g s) (field one 1).
Proof. intros d s k Hk. reflexivity. Qed.

(** One side: nothing is left over. *)
Example C65_boundary_instance : (forall c, In c [(1, 1, 1); (2, 1, 1); (1, 2, 1); (2, 2, 1)] -> left_over Poisson (b_d 1) zero_arr left_only (fun _ => 1) c = Some 0%Q) /\
  (forall s f, 0 <= s -> s < f < 4 -> left_only s = true -> left_only f = true -> False).
Proof.
  split.
  - intros c [<-|[<-|[<-|[<-|[]]]]]; vm_compute; reflexivity.
  - unfold left_only. intros s f H1 H2 H3 H4. apply Z.eqb_eq in H3, H4. lia.
Qed.

(** Two sides, as in a corner of the domain: the data solve the problem, but their residual is not zero, because the
    values of the first side are taken off twice. *)
Theorem C65_two_sides_refuted : exists p d phys bctype,
  usable d /\ (forall s, 0 <= s < 4 -> phys s = true -> bctype s = bc_code (cond_of p s)) /\
  holds_with d (has_nbr (b_pi phys)) one_arr one /\ holds d zero_arr (fun _ _ _ => 0%Q) /\
  (forall s, meets d 1 1 s (cond_of p s) (given d 0 0 1 1 0 one_g s) (field one 1)) /\
  (forall i j, left_side p 1 1 (field one 1) i j == 0)%Q /\
  left_over p d zero_arr phys bctype (1, 1, 1) = Some 2%Q.
Proof.
  exists Poisson, (b_d 1), left_bottom, (fun _ => 1). split; [unfold usable; cbn; lia|]. split; [reflexivity|].
  split; [apply one_held|]. split; [apply (one_held _ (fun _ => true))|]. split; [apply one_meets|]. split; [intros i j; reflexivity|vm_compute; reflexivity].
Qed.
Print Assumptions C65_two_sides_refuted.

(** Only the first field: with two fields the second one keeps its right hand side. *)
Theorem C65_fields_refuted : exists p d phys bctype,
  usable d /\ (forall s, 0 <= s < 4 -> phys s = true -> bctype s = bc_code (cond_of p s)) /\
  holds_with d (has_nbr (b_pi phys)) one_arr one /\ holds d zero_arr (fun _ _ _ => 0%Q) /\
  (forall s m, meets d 1 1 s (cond_of p s) (given d 0 0 1 1 0 one_g s) (field one m)) /\
  (forall i j m, left_side p 1 1 (field one m) i j == 0)%Q /\
  left_over p d zero_arr phys bctype (1, 1, 1) = Some 0%Q /\ left_over p d zero_arr phys bctype (1, 1, 2) = Some (-2)%Q.
Proof.
  exists Poisson, (b_d 2), left_only, (fun _ => 1). split; [unfold usable; cbn; lia|]. split; [reflexivity|].
  split; [apply one_held|]. split; [apply (one_held _ (fun _ => true))|]. split; [intros s m; apply one_meets|]. split; [intros i j m; reflexivity|].
  split; vm_compute; reflexivity.
Qed.
Print Assumptions C65_fields_refuted.

(** A coefficient other than 1: the term of the boundary values is not multiplied by it. *)
Theorem C65_coefficient_refuted : exists B d beta phys bctype,
  usable d /\ ready (VarPoisson B) d beta /\ (forall s, 0 <= s < 4 -> phys s = true -> bctype s = 1) /\
  holds_with d (has_nbr (b_pi phys)) one_arr one /\ holds d zero_arr (fun _ _ _ => 0%Q) /\
  (forall s, meets d 1 1 s Value (given d 0 0 1 1 0 one_g s) (field one 1)) /\
  (forall i j, left_side (VarPoisson B) 1 1 (field one 1) i j == 0)%Q /\
  left_over (VarPoisson B) d beta phys bctype (1, 1, 1) = Some (-4)%Q.
Proof.
  exists (fun _ _ => 3%Q), (b_d 1), (fun _ => Some 3%Q), left_only, (fun _ => 1). split; [unfold usable; cbn; lia|].
  split; [split; [intros i j m _|intros f k m _ _ _ _]; reflexivity|]. split; [reflexivity|].
  split; [apply one_held|]. split; [apply (one_held _ (fun _ => true))|]. split; [intros s; apply one_meets|]. split; [intros i j; vm_compute; reflexivity|vm_compute; reflexivity].
Qed.
Print Assumptions C65_coefficient_refuted.

(** Slopes: the operators for Poisson problems take every side as one where the value is given, whatever the options say.
    Constant data meet the condition of slope zero and solve the problem; their residual is not zero. *)
Theorem C65_slope_refuted : exists p d pi u,
  (p = Poisson \/ p = VarPoisson (fun _ _ => 1%Q)) /\ usable d /\ ready p d one_arr /\ holds_with d (has_nbr pi) u one /\
  (forall s, meets d (sx pi) (sy pi) s Slope zero (field one 1)) /\ (forall i j, left_side p (sx pi) (sy pi) (field one 1) i j == 0)%Q /\
  exists u' f', apply_of p d pi one_arr u zero_arr = Some (u', f') /\ at_cell f' (1, 1, 1) (-2).
Proof.
  exists Poisson, (b_d 1), (b_pi left_only), one_arr. split; [now left|]. split; [unfold usable; cbn; lia|]. split; [exact I|].
  split; [apply one_held|]. split.
  - intros s k Hk. unfold bc_at, spacing, on, field, one, zero. cbn [sx sy b_pi]. destruct (s <? 2); reflexivity.
  - split; [intros i j; reflexivity|].
    destruct (apply_of Poisson (b_d 1) (b_pi left_only) one_arr one_arr zero_arr) as [[u' f']|] eqn:E; [|vm_compute in E; discriminate E].
    exists u', f'. split; [reflexivity|].
    assert (A : option_map (fun '(u, f) => option_map Qred (f (1, 1, 1))) (apply_of Poisson (b_d 1) (b_pi left_only) one_arr one_arr zero_arr) = Some (Some (-2)%Q)) by (vm_compute; reflexivity).
    rewrite E in A. cbn [option_map] in A. destruct (f' (1, 1, 1)) as [x|] eqn:Ex; [|discriminate A]. exists x. split; [exact Ex|].
    cbn [option_map] in A. assert (R : Qred x = (-2)%Q) by congruence. rewrite <- (Qred_correct x), R. reflexivity.
Qed.
Print Assumptions C65_slope_refuted.
