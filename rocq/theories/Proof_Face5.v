(** Two dimensional face numbers: face_swap, expand, ghost layers. *)
From Coq Require Import ZArith QArith Qpower Lia Lqa List Bool Setoid Morphisms Qfield Permutation.
From Verif Require Import Base_Float Model_Face Spec_Face Proof_Face Proof_Face1 Proof_Face2 Proof_Face3 Proof_Face4.
Import ListNotations.
Open Scope Z_scope.

Lemma face_swap_ok : forall d f nf o, 0 <= f < num_faces d -> 0 <= nf < num_faces d -> 0 <= o ->
  face_swap d f (o * num_faces d + nf) = (nf, o * num_faces d + f).
Proof.
  intros d f nf o Hf Hn Ho. unfold face_swap.
  assert (Hp : 0 < num_faces d) by (destruct d; cbn; lia).
  assert (Q : Z.quot (o * num_faces d + nf) (num_faces d) = o).
  { rewrite Z.quot_div_nonneg by nia. rewrite Z.div_add_l by lia. rewrite Z.div_small; lia. }
  assert (R : Z.rem (o * num_faces d + nf) (num_faces d) = nf).
  { rewrite Z.rem_mod_nonneg by nia. rewrite Z.add_comm, Z.mod_add by lia. apply Z.mod_small; lia. }
  rewrite Q, R. f_equal. lia.
Qed.

Lemma face_swap_involutive : forall d f rf, 0 <= f < num_faces d -> 0 <= rf ->
  (let '(f1, rf1) := face_swap d f rf in face_swap d f1 rf1) = (f, rf).
Proof.
  intros d f rf Hf Hr.
  assert (Hp : 0 < num_faces d) by (destruct d; cbn; lia).
  pose proof (Z.div_mod rf (num_faces d) ltac:(lia)) as E.
  pose proof (Z.mod_pos_bound rf (num_faces d) Hp).
  assert (0 <= rf / num_faces d) by (apply Z.div_pos; lia).
  rewrite E at 1. rewrite (Z.mul_comm (num_faces d)).
  rewrite face_swap_ok by lia. rewrite face_swap_ok by lia. f_equal. lia.
Qed.

Ltac face4 f H := let E := fresh in
  assert (E : f = 0 \/ f = 1 \/ f = 2 \/ f = 3) by lia; destruct E as [->|[->|[->| ->]]].

Lemma expand_describes : forall f nf (o : bool), 0 <= f < 4 -> 0 <= nf < 4 ->
  describes D2 (glue2d f nf o) (expand_face_transform_2d f (b2z o * 4 + nf)).
Proof.
  intros f nf o Hf Hn. 
  face4 f Hf; face4 nf Hn; destruct o; (split; [|reflexivity]);
  do 5 eexists; (split; [reflexivity|]); (split; [reflexivity|]); (split; [reflexivity|]); cbv; auto.
Qed.

Lemma glue2d_inv : forall f nf o, glue_inv (glue2d f nf o) = glue2d nf f o.
Proof. reflexivity. Qed.

Section Ghost.
  Variable rnd : Q -> Q.
  Hypothesis Hrnd : rounding rnd.

  Lemma ghost_layer_ok : forall ip op f nf (o : bool) m dep t i j i' j',
    quadrant D2 ip -> quadrant D2 op -> level ip = level op ->
    0 <= f < 4 -> 0 <= nf < 4 ->
    touches_face f ip -> touches_face nf op ->
    (along nf op == if o then 1 - along f ip - width ip else along f ip)%Q ->
    1 <= m < 2 ^ 30 -> 2 ^ level ip * m <= 2 ^ 49 ->
    1 <= dep <= m -> 1 <= t <= m ->
    ghost_cell f m dep t = (i, j) ->
    inner_cell nf m dep (if o then m + 1 - t else t) = (i', j') ->
    transform_face rnd D2 ip op (expand_face_transform_2d f (b2z o * 4 + nf)) m m 0 1 i j 0
      = Some (i', j', 0).
  Proof.
    intros ip op f nf o m dep t i j i' j' Hi Ho Hl Hf Hn T1 T2 AL Hm HR Hd Ht Gc Ic.
    assert (Hlev : 0 <= level ip) by (destruct Hi as (? & _); lia).
    pose proof (pow2_pos (level ip) Hlev) as PP.
    apply (transform_face_rel rnd Hrnd D2 ip op (glue2d f nf o)); try assumption; try lia; try discriminate.
    - apply expand_describes; assumption.
    - split.
      + face4 f Hf; face4 nf Hn; reflexivity.
      + intros ma tb rev [E|[]]. injection E as <- <- <-. face4 f Hf; face4 nf Hn; reflexivity.
    - split; [split; lia|]. split; [split; lia|discriminate].
    - unfold in_int, int_min, int_max. face4 f Hf; (cbv beta iota delta [ghost_cell] in Gc; apply pair_equal_spec in Gc; destruct Gc as [<- <-]); lia.
    - unfold in_int, int_min, int_max. face4 f Hf; (cbv beta iota delta [ghost_cell] in Gc; apply pair_equal_spec in Gc; destruct Gc as [<- <-]); lia.
    - unfold in_int, int_min, int_max. destruct o; face4 nf Hn; (cbv beta iota delta [inner_cell] in Ic; apply pair_equal_spec in Ic; destruct Ic as [<- <-]); lia.
    - unfold in_int, int_min, int_max. destruct o; face4 nf Hn; (cbv beta iota delta [inner_cell] in Ic; apply pair_equal_spec in Ic; destruct Ic as [<- <-]); lia.
    - unfold touches_face, width in *. rewrite <- Hl in T2.
      split; [|intros ma tb rev [E|[]]; injection E as <- <- <-];
      destruct o; face4 f Hf; face4 nf Hn;
        (cbv beta iota delta [ghost_cell] in Gc; apply pair_equal_spec in Gc; destruct Gc as [Gi Gj]);
        (cbv beta iota delta [inner_cell] in Ic; apply pair_equal_spec in Ic; destruct Ic as [Fi Fj]);
        cbn [along across] in T1, T2, AL;
        unfold beyond, glue2d, face2d, index_point, pt; cbn -[inject_Z index_coord Qminus];
        unfold index_coord; rewrite <- Hl, <- ?Gi, <- ?Gj, <- ?Fi, <- ?Fj, ?T1, ?T2, ?AL; injs;
        change (inject_Z 1) with 1%Q; field; split; apply inject_Z_nz; lia.
  Qed.
End Ghost.
