(** What the callbacks for clawpatches write. *)
From Coq Require Import ZArith List Bool Lia.
From Verif Require Import Base_Mem Model_Mesh Proof_Mesh Model_Vtk Spec_Vtk Proof_Vtk1 Proof_Vtk2 Proof_Vtk3.
Import ListNotations.
Open Scope Z_scope.

Lemma slice_is : forall l w i x, len x = w -> (forall t, 0 <= t < w -> zget l (i * w + t) = zget x t) -> slice l w i = Some x.
Proof. intros l w i x L H. unfold slice. rewrite <- L. apply mapM_known. rewrite L. exact H. Qed.
Lemma mapM_get : forall {A} (l : list (option A)) m i x, mapM (fun x => x) l = Some m -> zget l i = Some x -> exists v, x = Some v /\ zget m i = Some v.
Proof.
  intros A. induction l as [|a l IH]; intros m i x H G; [apply zget_dom in G; cbn in G; lia|]. cbn [mapM] in H. destruct a as [v|]; [|discriminate]. cbn [bind] in H.
  destruct (mapM (fun x => x) l) as [m'|] eqn:E; [|discriminate]. cbn [bind] in H. injection H as <-. rewrite zget_cons in G. rewrite zget_cons. destruct (i =? 0); [|exact (IH m' _ _ eq_refl G)].
  injection G as <-. now exists v.
Qed.
Lemma mapM_len : forall {A} (l : list (option A)) m, mapM (fun x => x) l = Some m -> length m = length l.
Proof.
  intros A. induction l as [|a l IH]; intros m H; [injection H as <-; reflexivity|]. cbn [mapM] in H. destruct a as [v|]; [|discriminate]. cbn [bind] in H.
  destruct (mapM (fun x => x) l) as [m'|] eqn:E; [|discriminate]. cbn [bind] in H. injection H as <-. cbn [length]. now rewrite (IH m' eq_refl).
Qed.

Section Callbacks.
  Variable R : Type.
  Variable zero : R.
  Variable place : R -> Z -> R -> R.
  Variable double : R -> list Z.
  Variable float : R -> list Z.
  Variable c2m : Z -> R -> R -> R -> R * R * R.
  Hypothesis D8 : forall x, len (double x) = 8.
  Hypothesis F4 : forall x, len (float x) = 4.
  Variable p : clawpatch R.
  Let d := c_grid R p.
  Hypothesis G : 1 <= mx d /\ 1 <= my d /\ 1 <= mz d /\ 1 <= meqn d.
  Variable manifold : bool.
  Variable b : Z.

  Definition three (x : R * R * R) : list Z := let '(u, v, w) := x in double u ++ double v ++ double w.
  Lemma three_len : forall x, len (three x) = 24.
  Proof. intros [[u v] w]. unfold three. rewrite !app_length, !Nat2Z.inj_add, !D8. reflexivity. Qed.
  Lemma three_get : forall x a t, 0 <= a < 3 -> 0 <= t < 8 -> zget (three x) (8 * a + t) = zget (double (coordinate x a)) t.
  Proof.
    intros [[u v] w] a t Ha Ht. unfold three, coordinate. destruct (Z.eqb_spec a 0) as [->|N0]; [|destruct (Z.eqb_spec a 1) as [->|N1]].
    - rewrite zget_app1 by (rewrite D8; lia). f_equal.
    - rewrite zget_app2 by (rewrite D8; lia). rewrite zget_app1 by (rewrite !D8; lia). f_equal. rewrite D8. lia.
    - assert (a = 2) by lia. subst a. rewrite zget_app2 by (rewrite D8; lia). rewrite zget_app2 by (rewrite !D8; lia). f_equal. rewrite !D8. lia.
  Qed.
  Lemma coordinates_loops : output_coordinates R zero place double c2m manifold b p =
    loops Z (fun i j k => three (corner_position zero place c2m manifold b p i j k)) (mx d + 1) (my d + 1) (if cube d then mz d + 1 else 1).
  Proof. reflexivity. Qed.
  Lemma nz_pos : 1 <= (if cube d then mz d + 1 else 1). Proof. destruct (cube d); lia. Qed.
  Lemma coordinates_len : len (output_coordinates R zero place double c2m manifold b p) = 24 * points d.
  Proof. rewrite coordinates_loops. pose proof nz_pos. rewrite (loops_len Z _ 24); [unfold points; ring|intros; apply three_len|lia]. Qed.
  Lemma coordinates_get : forall i j k a, 0 <= i <= mx d -> 0 <= j <= my d -> 0 <= k < (if cube d then mz d + 1 else 1) -> 0 <= a < 3 ->
    slice (output_coordinates R zero place double c2m manifold b p) 8 (3 * point_index d i j k + a) = Some (double (coordinate (corner_position zero place c2m manifold b p i j k) a)).
  Proof.
    intros i j k a Hi Hj Hk Ha. apply slice_is; [apply D8|]. intros t Ht. rewrite coordinates_loops, <- three_get by lia.
    replace ((3 * point_index d i j k + a) * 8 + t) with (24 * (i + (mx d + 1) * (j + (my d + 1) * k)) + (8 * a + t)) by (unfold point_index; ring).
    rewrite (loops_get Z (fun i j k => three (corner_position zero place c2m manifold b p i j k)) 24); [reflexivity|intros; apply three_len|lia..].
  Qed.

  (** q is defined in the cells of the patch *)
  Hypothesis Q : forall i j k m, in_grid d i j k -> 0 <= m < meqn d -> exists v, q R p (q_index d (mbc R p) i j k m) = Some v.
  Lemma FE : forall {A} (f g : Z -> list A) lo hi, (forall x, lo <= x < hi -> f x = g x) -> flat_map f (zrange lo hi) = flat_map g (zrange lo hi).
  Proof. intros A f g lo hi H. rewrite !flat_map_concat_map. f_equal. apply map_ext_in. intros x Hx. apply Proof_Mesh.in_range in Hx. now apply H. Qed.
  Definition qs (i j k : Z) : list (option R) := map (fun m => q R p (q_index d (mbc R p) i j k m)) (zrange 0 (meqn d)).
  Lemma qs_len : forall i j k, len (qs i j k) = meqn d.
  Proof. intros. unfold qs. rewrite map_length, range_len; lia. Qed.
  Lemma layers_pos : 1 <= layers d. Proof. unfold layers. destruct (cube d); lia. Qed.
  Lemma values_loops : exists l, output_values R float p = Some (flat_map float l) /\ mapM (fun x => x) (loops (option R) qs (mx d) (my d) (layers d)) = Some l.
  Proof.
    destruct (mapM_some (fun x : option R => x) (loops (option R) qs (mx d) (my d) (layers d))) as (l & E).
    { intros x Hx. unfold loops in Hx. apply in_flat_map in Hx. destruct Hx as (k & Hk & Hx). apply in_flat_map in Hx. destruct Hx as (j & Hj & Hx). apply in_flat_map in Hx. destruct Hx as (i & Hi & Hx).
      apply in_map_iff in Hx. destruct Hx as (m & <- & Hm). apply Proof_Mesh.in_range in Hk, Hj, Hi, Hm. apply Q; [repeat split|]; lia. }
    exists l. split; [|exact E]. unfold output_values. fold d.
    replace (flat_map _ (zrange 0 (layers d))) with (loops (option R) qs (mx d) (my d) (layers d)); [now rewrite E|].
    unfold loops, qs. apply FE. intros k Hk. apply FE. intros j Hj. apply FE. intros i Hi. apply map_ext. intros m. f_equal. unfold q_index. destruct (cube d); ring.
  Qed.
  Lemma values_len : exists l, output_values R float p = Some l /\ len l = 4 * meqn d * cells d.
  Proof.
    destruct values_loops as (l & E & M). exists (flat_map float l). split; [exact E|]. rewrite (flat_list_len float 4) by (intros; apply F4). apply mapM_len in M. rewrite M. pose proof layers_pos.
    rewrite (loops_len (option R) qs (meqn d)); [unfold cells; ring|intros; apply qs_len|lia].
  Qed.
  Lemma values_get : forall l i j k m, output_values R float p = Some l -> in_grid d i j k -> 0 <= m < meqn d ->
    exists v, q R p (q_index d (mbc R p) i j k m) = Some v /\ slice l 4 (meqn d * cell_index d i j k + m) = Some (float v).
  Proof.
    intros l i j k m E (Hi & Hj & Hk) Hm. destruct values_loops as (l' & E' & M). rewrite E in E'. injection E' as ->.
    assert (X : zget (loops (option R) qs (mx d) (my d) (layers d)) (meqn d * cell_index d i j k + m) = Some (q R p (q_index d (mbc R p) i j k m))).
    { unfold cell_index. rewrite (loops_get (option R) qs (meqn d)); [|intros; apply qs_len|lia..]. unfold qs. rewrite zget_map, zget_range by lia. reflexivity. }
    destruct (mapM_get _ _ _ _ M X) as (v & Y & V). exists v. split; [exact Y|]. exact (slice_flat float 4 l' _ v F4 V).
  Qed.
End Callbacks.
