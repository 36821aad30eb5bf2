(** C65: the elliptic operators on a mesh of patches. *)
From Coq Require Import ZArith QArith List Lia Lqa Bool.
From Verif Require Import Base_Float Model_Face Model_Grid Spec_Grid Model_Elliptic Spec_Elliptic Spec_Elliptic2 Proof_Elliptic8.
Import ListNotations.
Open Scope Z_scope.

(** Patch by patch, the operator is the left hand side of the equations on the whole mesh: the patches do not show. *)
Theorem C65_mesh : forall p d P R hx hy beta U,
  usable d -> (0 < hx)%Q -> (0 < hy)%Q -> (forall a b, in_mesh P R a b -> ready (problem_part d a b p) d (beta a b)) ->
  homogeneous p d P R hx hy U -> yields p d P R hx hy beta U (fun I J m => left_side p hx hy (field U m) I J).
Proof. intros p d P R hx hy beta U HU Hx Hy HR. apply (mesh_ok p d HU P R hx hy Hx Hy beta HR). Qed.
Print Assumptions C65_mesh.

(** It is symmetric. *)
Theorem C65_symmetric : forall p d P R hx hy beta U V F G m,
  usable d -> 1 <= P -> 1 <= R -> (0 < hx)%Q -> (0 < hy)%Q ->
  (forall a b, in_mesh P R a b -> ready (problem_part d a b p) d (beta a b)) ->
  homogeneous p d P R hx hy U -> homogeneous p d P R hx hy V ->
  yields p d P R hx hy beta U F -> yields p d P R hx hy beta V G -> 1 <= m <= meqn d ->
  (qsum 1 (P * mx d) (fun I => qsum 1 (R * my d) (fun J => V I J m * F I J m)) ==
   qsum 1 (P * mx d) (fun I => qsum 1 (R * my d) (fun J => U I J m * G I J m)))%Q.
Proof. intros p d P R hx hy beta U V F G m HU HP HRr Hx Hy HR. apply (mesh_symmetric p d HU P R hx hy Hx Hy beta HR HP HRr). Qed.
Print Assumptions C65_symmetric.

(** The equations have at most one solution. *)
Theorem C65_unique : forall p d P R hx hy beta U V F G m,
  usable d -> 1 <= P -> 1 <= R -> (0 < hx)%Q -> (0 < hy)%Q -> well_posed (whole d P R) p ->
  (forall a b, in_mesh P R a b -> ready (problem_part d a b p) d (beta a b)) ->
  homogeneous p d P R hx hy U -> homogeneous p d P R hx hy V ->
  yields p d P R hx hy beta U F -> yields p d P R hx hy beta V G -> 1 <= m <= meqn d ->
  (forall I J, 1 <= I <= P * mx d -> 1 <= J <= R * my d -> (F I J m == G I J m)%Q) ->
  forall I J, 1 <= I <= P * mx d -> 1 <= J <= R * my d -> (U I J m == V I J m)%Q.
Proof. intros p d P R hx hy beta U V F G m HU HP HRr Hx Hy WP HR. now apply (mesh_unique p d HU P R hx hy Hx Hy beta HR HP HRr). Qed.
Print Assumptions C65_unique.

(** With no flux through any side of the mesh, a step of the heat equation multiplies the total by lambda. *)
Theorem C65_insulated : forall cond lambda d P R hx hy beta U F m,
  usable d -> 1 <= P -> 1 <= R -> (0 < hx)%Q -> (0 < hy)%Q -> (lambda <= 0)%Q ->
  (forall s, 0 <= s < 4 -> cond s = Slope) ->
  homogeneous (Heat cond lambda) d P R hx hy U -> yields (Heat cond lambda) d P R hx hy beta U F -> 1 <= m <= meqn d ->
  (qsum 1 (P * mx d) (fun I => qsum 1 (R * my d) (fun J => F I J m)) ==
   lambda * qsum 1 (P * mx d) (fun I => qsum 1 (R * my d) (fun J => U I J m)))%Q.
Proof.
  intros cond lambda d P R hx hy beta U F m HU HP HRr Hx Hy Hl HS.
  apply (mesh_total (Heat cond lambda) d HU P R hx hy Hx Hy beta (fun a b _ => Hl) HP HRr U F m HS).
Qed.
Print Assumptions C65_insulated.

(** Two by one patches of 1 by 2 cells, that is 2 by 2 cells; coefficient 1 in the lower and 2 in the upper cells. *)
Definition m_d : dims := mkDims 1 2 1 1.
Definition m_B (i j : Z) : Q := if j <=? 1 then 1%Q else 2%Q.
Definition m_p : problem := VarPoisson m_B.
Definition m_in (x y : Q) (i j : Z) : Q := (inject_Z i * x + inject_Z j * y)%Q.
Definition m_data (x y : Q) : data := fun i j m =>
  if i =? 0 then (- m_in x y 1 j)%Q else if i =? 3 then (- m_in x y 2 j)%Q
  else if j =? 0 then (- m_in x y i 1)%Q else if j =? 3 then (- m_in x y i 2)%Q else m_in x y i j.
Definition m_beta (a b : Z) : arr := fun '(i, j, m) => Some (m_B (a + i) (b * 2 + j)).
Example C65_mesh_instance :
  usable m_d /\ well_posed (whole m_d 2 1) m_p /\ (forall a b, in_mesh 2 1 a b -> ready (problem_part m_d a b m_p) m_d (m_beta a b)) /\
  homogeneous m_p m_d 2 1 1 1 (m_data 1 0) /\ homogeneous m_p m_d 2 1 1 1 (m_data 0 1) /\
  (left_side m_p 1 1 (field (m_data 1 0) 1) 2 1 == -9)%Q.
Proof.
  split; [unfold usable; cbn; lia|]. split; [intros i j _; unfold m_B; destruct (j <=? 1); reflexivity|]. split; [|split; [|split; [|vm_compute; reflexivity]]].
  - intros a b _. cbn [problem_part ready m_p]. split; [|intros f k m _ _ _ _; unfold m_beta, on, field; destruct (ghost_at (bd m_d) f k); cbn [mx my m_d fst snd]; rewrite Z.mul_1_r; reflexivity].
    intros i j m _. unfold m_beta. cbn [mx my m_d]. rewrite Z.mul_1_r. reflexivity.
  - intros s m Hs _ k Hk. assert (s = 0 \/ s = 1 \/ s = 2 \/ s = 3) as [->|[->|[->| ->]]] by lia;
      (assert (k = 1 \/ k = 2) as [->| ->] by (cbn in Hk; lia)); vm_compute; reflexivity.
  - intros s m Hs _ k Hk. assert (s = 0 \/ s = 1 \/ s = 2 \/ s = 3) as [->|[->|[->| ->]]] by lia;
      (assert (k = 1 \/ k = 2) as [->| ->] by (cbn in Hk; lia)); vm_compute; reflexivity.
Qed.
(** and an insulated one *)
Definition m_flat : data := fun i j m => inject_Z (if i <=? 1 then 3 else 5).
Example C65_insulated_instance : homogeneous (Heat (fun _ => Slope) (-1)) m_d 2 1 1 1 m_flat /\
  (left_side (Heat (fun _ => Slope) (-1)) 1 1 (field m_flat 1) 1 1 == -1)%Q /\ (left_side (Heat (fun _ => Slope) (-1)) 1 1 (field m_flat 1) 2 1 == -7)%Q.
Proof.
  split; [|split; vm_compute; reflexivity].
  intros s m Hs _ k Hk. assert (s = 0 \/ s = 1 \/ s = 2 \/ s = 3) as [->|[->|[->| ->]]] by lia;
    (assert (k = 1 \/ k = 2) as [->| ->] by (cbn in Hk; lia)); vm_compute; reflexivity.
Qed.
