(** C63: instances of the theorems about extruded patches. *)
From Coq Require Import ZArith QArith List Lia.
From Verif Require Import Base_Float Model_Face Model_Grid Spec_Grid Model_Corner Model_Extruded Spec_Extruded Prop_Grid Prop_Corner
  Prop_Extruded Prop_Extruded2 Prop_Extruded3.
Import ListNotations.
Open Scope Z_scope.

(** 4 by 4 columns, two layers *)
Definition e4 : dims3 := mkDims3 d4 2.
Definition edata (g : Z) : data3 := fun i j k mq => inject_Z (1000 * g + 100 * k + 10 * i + j).
Definition nothing3 : arr3 := fun _ => None.
Definition vdata : volumes := fun i _ k => inject_Z (i + k).
Definition vfull (v : volumes) : vol_t := fun c => let '(i, j, k) := c in Some (v i j k).
Lemma e_holds : forall f, holds3 e4 (full3 f) f. Proof. intros f i j k mq _ _. reflexivity. Qed.
Lemma e_sides : forall f, holds_sides e4 (full3 f) f. Proof. intros f i j k mq _ _ _. reflexivity. Qed.
Lemma v_holds : forall v, vol_holds e4 (vfull v) v. Proof. intros v i j k _ _ _. reflexivity. Qed.

Example C63_instance_copy :
  (exists q', copy_face3 (fun x => x) e4 nothing3 (full3 (edata 7)) 1 (mkT ip22 op22 (expand_face_transform_2d 1 6)) = Some q' /\
     q' (6, 1, 2, 1) = Some (edata 7 4 2 2 1)) /\
  (exists q', copy_corner3 (fun x => x) e4 nothing3 (full3 (edata 7)) 3 (on_boundary (quad 2 1 0)) = Some q' /\
     q' (5, 6, 2, 1) = Some (edata 7 3 1 2 1)).
Proof.
  split.
  - destruct (C63_copy_face (fun x => x) rounding_id e4 4 ip22 op22 1 2 true _ (full3 (edata 7)) (edata 7) nothing3
      same22 d4_square ltac:(cbn; lia) ltac:(cbn; lia) (e_holds (edata 7))) as (q' & E & A & _).
    exists q'. split; [exact E|]. exact (A 2 1 2 1 ltac:(cbn; lia) ltac:(lia) ltac:(cbn; lia) ltac:(cbn; lia)).
  - destruct boundary_touches as (T & _).
    destruct (C63_copy_corner (fun x => x) rounding_id e4 4 1 2 true true (quad 2 3 1) (quad 2 1 0) _ (full3 (edata 7)) (edata 7) nothing3
      T eq_refl ltac:(repeat split; cbn; lia) ltac:(cbn; lia) ltac:(cbn; lia) (e_holds (edata 7))) as (q' & E & A & _).
    exists q'. split; [exact E|]. exact (A 1 2 2 1 ltac:(cbn; lia) ltac:(cbn; lia) ltac:(cbn; lia) ltac:(cbn; lia)).
Qed.

Example C63_instance_average_face : exists q',
  average_face3 (fun x => x) e4 nothing3 (full3 (edata 0)) (vfull vdata) (1 / 2) 1 2 true (mkT ip22 (op23 0) (expand_face_transform_2d 1 6)) = Some q' /\
  at_cell3 q' (5, 1, 2, 1) ((6 * 241 + 6 * 242 + 5 * 231 + 5 * 232) / 22)%Q.
Proof.
  destruct (C63_average_face (fun x => x) rounding_id e4 4 ip22 (op23 0) 1 2 true 0 _ true (full3 (edata 0)) (edata 0) (vfull vdata) vdata nothing3
    (op23_half 0 ltac:(lia)) ltac:(repeat split; cbn; lia) ltac:(now exists 2) ltac:(cbn; lia) ltac:(cbn; lia) ltac:(cbn; lia)
    (e_holds (edata 0)) (fun _ => v_holds vdata)) as (q' & E & A & _).
  exists q'. split; [exact E|].
  destruct (A 1 1 2 1 ltac:(cbn; lia) ltac:(lia) ltac:(cbn; lia) ltac:(cbn; lia) ltac:(unfold in_half; cbn; lia)) as (v & Ev & Hv).
  exists v. split; [exact Ev|]. rewrite Hv. reflexivity.
Qed.

Example C63_instance_average_corner : exists q',
  average_corner3 (fun x => x) e4 nothing3 (full3 (edata 0)) (vfull vdata) 2 false 0 (meeting (quad 2 3 3)) = Some q' /\
  at_cell3 q' (-1, 0, 2, 1) ((223 + 224 + 213 + 214) / 4)%Q.
Proof.
  eexists. split; [vm_compute; reflexivity|]. eexists. split; [vm_compute; reflexivity|]. reflexivity.
Qed.

Example C63_instance_interpolate_face : exists q',
  interpolate_face3 (fun x => x) e4 (full3 (edata 0)) nothing3 (1 / 2) 1 2 (mkT ip22 (op23 1) (expand_face_transform_2d 1 6)) = Some q' /\
  at_cell3 q' (4, 0, 2, 1) (200 + 40 + 3 + (10 # 4) - (1 # 4))%Q.
Proof.
  destruct (C63_interpolate_face (fun x => x) rounding_id e4 4 1 2 true 1 ip22 (op23 1) _ (full3 (edata 0)) (edata 0) nothing3
    (op23_half 1 ltac:(lia)) ltac:(repeat split; cbn; lia) ltac:(cbn; lia) ltac:(cbn; lia) (e_sides (edata 0))) as (q' & E & A & _).
  exists q'. split; [exact E|].
  destruct (A 1 1 2 1 ltac:(cbn; lia) ltac:(lia) ltac:(cbn; lia) ltac:(cbn; lia)) as (v & Ev & Hv).
  exists v. split; [exact Ev|]. rewrite Hv. reflexivity.
Qed.

Example C63_instance_average2coarse : exists q',
  average2coarse3 e4 (fun g => full3 (edata g)) (fun _ => vfull vdata) true nothing3 = Some q' /\
  at_cell3 q' (3, 2, 2, 1) ((3 * 1213 + 3 * 1214 + 4 * 1223 + 4 * 1224) / 14)%Q.
Proof.
  destruct (C63_average2coarse e4 d4_even eq_refl ltac:(cbn; lia) ltac:(cbn; lia) true (fun g => full3 (edata g)) edata (fun _ => vfull vdata) (fun _ => vdata) nothing3
    (fun g _ => e_holds (edata g)) (fun _ g _ => v_holds vdata)) as (q' & E & A & _).
  exists q'. split; [exact E|]. destruct (A 1 3 2 2 1) as (v & Ev & Hv); [unfold covers; vm_compute; intuition discriminate|cbn; lia|cbn; lia|].
  exists v. split; [exact Ev|]. rewrite Hv. reflexivity.
Qed.

Example C63_instance_interpolate2fine : exists q' f',
  interpolate2fine3 e4 (full3 (edata 0)) (vfull (fun _ _ _ => 4%Q)) (vfull (fun _ _ _ => 1%Q)) 3 true nothing3 = Some q' /\ holds3 e4 q' f' /\
  covers (flat e4) 3 4 3.
Proof.
  destruct (C63_interpolate2fine e4 3 d4_even ltac:(cbn; lia) ltac:(cbn; lia) ltac:(lia) true (full3 (edata 0)) (edata 0)
    (vfull (fun _ _ _ => 4%Q)) (fun _ _ _ => 4%Q) (vfull (fun _ _ _ => 1%Q)) (fun _ _ _ => 1%Q) nothing3 (e_sides (edata 0))
    (v_holds _) (v_holds _)) as (q' & f' & E & H & _); [intros i j k _ _ _ X; discriminate X|].
  exists q', f'. split; [exact E|]. split; [exact H|]. unfold covers. vm_compute. intuition discriminate.
Qed.
