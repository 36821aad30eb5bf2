(** C65: the elliptic operators on a patch. *)
From Coq Require Import ZArith QArith List Lia Lqa Bool.
From Verif Require Import Base_Float Model_Face Model_Grid Spec_Grid Model_Elliptic Spec_Elliptic Spec_Elliptic2 Proof_Elliptic2 Proof_Elliptic7.
Import ListNotations.
Open Scope Z_scope.

(** The operator gives the left hand side of the equations for the data that the array holds in the patch and next to
    neighbors, continued across the physical sides by the boundary conditions with the value zero.  Only ghost cells at
    physical sides of the argument change. *)
Theorem C65_apply : forall p d pi beta u f U,
  usable d -> ~ (sx pi == 0)%Q -> ~ (sy pi == 0)%Q -> ready p d beta -> holds_with d (has_nbr pi) u U ->
  (forall s m, 0 <= s < 4 -> has_nbr pi s = false -> 1 <= m <= meqn d ->
     meets d (sx pi) (sy pi) s (cond_of p s) zero (field U m)) ->
  exists u' f', apply_of p d pi beta u f = Some (u', f') /\
    becomes d f f' (fun i j m => left_side p (sx pi) (sy pi) (field U m) i j) /\
    (forall c, ~ beyond_side d (fun s => negb (has_nbr pi s)) c -> u' c = u c).
Proof. intros p d pi beta u f U HU Hx Hy HR. apply (apply_ok p d HU pi Hx Hy beta HR u f U). Qed.
Print Assumptions C65_apply.

(** The operator of the patch problem does the same with the value zero at the sides with neighbors also; it reads no
    ghost cell. *)
Theorem C65_apply_internal : forall p d pi beta u f U,
  usable d -> ~ (sx pi == 0)%Q -> ~ (sy pi == 0)%Q -> ready p d beta -> holds d u U ->
  (forall s m, 0 <= s < 4 -> 1 <= m <= meqn d ->
     meets d (sx pi) (sy pi) s (if has_nbr pi s then Value else cond_of p s) zero (field U m)) ->
  exists u' f', internal_of p d pi beta u f = Some (u', f') /\
    becomes d f f' (fun i j m => left_side p (sx pi) (sy pi) (field U m) i j) /\
    (forall c, ~ beyond_side d (fun _ => true) c -> u' c = u c).
Proof. intros p d pi beta u f U HU Hx Hy HR. apply (internal_ok p d HU pi Hx Hy beta HR u f U). Qed.
Print Assumptions C65_apply_internal.

(** The patch problem is equivalent to the equations of the patch: with the modified right hand side z, the operator of
    the patch problem leaves the residual y - z that the operator leaves with the right hand side F. *)
Theorem C65_patch_problem : forall p d pi beta u f U F fx fy,
  usable d -> ~ (sx pi == 0)%Q -> ~ (sy pi == 0)%Q -> ready p d beta -> holds_with d (has_nbr pi) u U -> holds d f F ->
  exists ux x uy y z, apply_of p d pi beta u fx = Some (ux, x) /\ internal_of p d pi beta u fy = Some (uy, y) /\
    modify_of p d pi beta u f = Some z /\ (forall c, ~ interior d c -> z c = f c) /\
    forall i j m, interior d (i, j, m) -> exists vx vy vz,
      x (i, j, m) = Some vx /\ y (i, j, m) = Some vy /\ z (i, j, m) = Some vz /\ (vy - vz == vx - F i j m)%Q.
Proof. intros p d pi beta u f U F fx fy HU Hx Hy HR. apply (residual_ok p d HU pi Hx Hy beta HR u f U F fx fy). Qed.
Print Assumptions C65_patch_problem.

(** A patch of 2 by 3 cells with a neighbor on the right; the slope is given on the left and the value above and below. *)
Definition e_d : dims := mkDims 2 3 1 1.
Definition e_pi : pinfo := mkPinfo (fun s => s =? 1) (1 # 2) (1 # 3).
Definition e_cond (s : Z) : condition := if s =? 0 then Slope else Value.
Definition e_V (i j : Z) : Q := inject_Z (i * i + 2 * j).
Definition e_U : data := fun i j m =>
  if i =? 0 then e_V 1 j else if j =? 0 then (- e_V i 1)%Q else if j =? 4 then (- e_V i 3)%Q else e_V i j.
Definition e_u : arr := fun '(i, j, m) => if (1 <=? i) && (1 <=? j) && (j <=? 3) then Some (e_U i j m) else None.
Definition e_heat : problem := Heat e_cond (-2).
Example C65_apply_instance :
  usable e_d /\ ready e_heat e_d (fun _ => None) /\ holds_with e_d (has_nbr e_pi) e_u e_U /\
  (forall s m, 0 <= s < 4 -> has_nbr e_pi s = false -> 1 <= m <= 1 -> meets e_d (1 # 2) (1 # 3) s (cond_of e_heat s) zero (field e_U m)) /\
  exists u' f', apply_of e_heat e_d e_pi (fun _ => None) e_u (fun _ => None) = Some (u', f') /\ at_cell f' (1, 1, 1) (-30) /\ u' (0, 2, 1) = Some 5%Q.
Proof.
  split; [unfold usable; cbn; lia|]. split; [cbn; discriminate|]. split; [|split].
  - split.
    + intros i j m (Hi & Hj & _). unfold e_u. replace (1 <=? i) with true by (symmetry; apply Z.leb_le; cbn in *; lia).
      replace (1 <=? j) with true by (symmetry; apply Z.leb_le; cbn in *; lia). replace (j <=? 3) with true by (symmetry; apply Z.leb_le; cbn in *; lia). reflexivity.
    + intros f k m Hf Hn Hk _. apply Z.eqb_eq in Hn. subst f. cbn in Hk. unfold ghost_at, e_u, on, field. cbn [Z.eqb Pos.eqb mx e_d fst snd].
      change (1 <=? 2 + 1) with true. replace (1 <=? k) with true by (symmetry; apply Z.leb_le; lia). replace (k <=? 3) with true by (symmetry; apply Z.leb_le; lia). reflexivity.
  - intros s m Hs Hn Hm k Hk. cbn in Hk.
    assert (s = 0 \/ s = 2 \/ s = 3) as [->|[->| ->]] by (cbn in Hn; apply Z.eqb_neq in Hn; lia);
      [assert (k = 1 \/ k = 2 \/ k = 3) as [->|[->| ->]] by (cbn in Hk; lia)|assert (k = 1 \/ k = 2) as [->| ->] by (cbn in Hk; lia)|assert (k = 1 \/ k = 2) as [->| ->] by (cbn in Hk; lia)];
      vm_compute; reflexivity.
  - destruct (apply_of e_heat e_d e_pi (fun _ => None) e_u (fun _ => None)) as [[u' f']|] eqn:E; [|vm_compute in E; discriminate E].
    exists u', f'. split; [reflexivity|].
    assert (A : option_map (fun '(u, f) => (u (0, 2, 1), match f (1, 1, 1) with Some x => Qeq_bool x (-30) | None => false end))
      (apply_of e_heat e_d e_pi (fun _ => None) e_u (fun _ => None)) = Some (Some 5%Q, true)) by (vm_compute; reflexivity).
    rewrite E in A. cbn [option_map] in A. destruct (f' (1, 1, 1)) as [x|] eqn:Ex; [|discriminate A].
    split; [exists x; split; [exact Ex|]; apply Qeq_bool_iff; congruence|congruence].
Qed.
