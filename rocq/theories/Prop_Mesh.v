(** C05, C28: neighbor queries on local patches and on ghosts. *)
From Coq Require Import ZArith List Bool Lia.
From Verif Require Import Model_Face Model_Mesh Spec_Mesh Proof_Mesh Proof_Mesh2.
Import ListNotations.
Open Scope Z_scope.

(** C05: the face query of a process for patch k of block b answers with what lies across that face:
    relation, owner, block, patch number or ghost index, face with orientation, and touched sub-face *)
Theorem C05_face_neighbors : forall d w p dom b k f, world_ok d w -> 0 <= p < procs w -> represents d w p dom ->
  0 <= b < nblocks w -> 0 <= k < count w p b -> 0 <= f < num_faces d ->
  exists a, face_neighbors d dom b k f = Some a /\ right_face d w p (p, before w p b + k) f a.
Proof. intros d w p dom b k f W P R. exact (face_ok d w W p P dom R b k f). Qed.
Print Assumptions C05_face_neighbors.

(** two processes, or a patch and its neighbor, never confuse neighbors: an answer determines the patch *)
Theorem C05_answer_determines : forall d w p x y q i, world_ok d w -> 0 <= p < procs w ->
  is_patch w x -> is_patch w y -> block_of w x = block_of w y -> finds w p x q i -> finds w p y q i -> x = y.
Proof.
  intros d w p x y q i W P Hx Hy EB (E1 & O1 & G1) (E2 & O2 & G2). subst q.
  destruct (Z.eq_dec (fst x) p) as [C|C].
  - specialize (O1 C). specialize (O2 ltac:(lia)). destruct x, y. cbn [fst snd] in *. f_equal; [lia|]. rewrite EB in O1. lia.
  - specialize (G1 C). specialize (G2 ltac:(lia)). congruence.
Qed.
Print Assumptions C05_answer_determines.

(** whether the outward normals align: the parities of our face and the neighbor's face differ *)
Theorem C05_normal_match : forall d w p dom b k f, world_ok d w -> 0 <= p < procs w -> represents d w p dom ->
  0 <= b < nblocks w -> 0 <= k < count w p b -> 0 <= f < num_faces d ->
  normal_match d dom b k f =
  Some (let far := match face_of w (p, before w p b + k) f with Edge => f | Same _ rf | Finer _ rf | Coarser _ _ rf => rf end in
        if Z.even (f + far) then 0 else 1).
Proof. intros d w p dom b k f W P R Hb Hk Hf. exact (normal_ok d w W p P dom R b k f Hb Hk Hf). Qed.
Print Assumptions C05_normal_match.

Theorem C05_boundary_type : forall d w p dom b k, world_ok d w -> 0 <= p < procs w -> represents d w p dom ->
  0 <= b < nblocks w -> 0 <= k < count w p b ->
  exists l any, boundary_type d dom b k = Some (l, any) /\ Z.of_nat (length l) = num_faces d /\
    (forall f, 0 <= f < num_faces d ->
       (face_of w (p, before w p b + k) f = Edge -> zget l f = Some 1) /\
       (face_of w (p, before w p b + k) f <> Edge -> zget l f = Some 0)) /\
    (any = true <-> exists f, 0 <= f < num_faces d /\ face_of w (p, before w p b + k) f = Edge).
Proof. intros d w p dom b k W P R Hb Hk. exact (boundary_ok d w W p P dom R b k Hb Hk). Qed.
Print Assumptions C05_boundary_type.

Theorem C05_corner_neighbors : forall d w p dom b k c, world_ok d w -> 0 <= p < procs w -> represents d w p dom ->
  0 <= b < nblocks w -> 0 <= k < count w p b -> 0 <= c < num_corners d ->
  exists a, corner_neighbors d dom b k c = Some a /\ right_corner d w p (p, before w p b + k) c a.
Proof. intros d w p dom b k c W P R. exact (corner_ok d w W p P dom R b k c). Qed.
Print Assumptions C05_corner_neighbors.

(** C28: when all processes take part, the exchange completes and every query on a ghost answers with
    what the ghost's owner sees, restricted to the patches that are ghosts here too *)
Theorem C28_indirect : forall d w (doms : Z -> domain), world_ok d w ->
  (forall p, 0 <= p < procs w -> represents d w p (doms p) /\ exchange_ok w p (doms p)) ->
  (forall p, 0 <= p < procs w -> exists sent, indirect_begin d (doms p) = Some sent) /\
  forall sent, (forall p, 0 <= p < procs w -> indirect_begin d (doms p) = Some (sent p)) ->
  forall r received, 0 <= r < procs w -> delivered w doms sent r received ->
  exists data, indirect_end d (doms r) received = Some data /\
    forall i x, zget (layer w r) i = Some x ->
      (forall f, 0 <= f < num_faces d ->
         exists a, indirect_face_neighbors d (doms r) data i f = Some a /\ right_indirect_face d w r x f a) /\
      (forall c, 0 <= c < num_corners d ->
         exists a, indirect_corner_neighbor d (doms r) data i c = Some a /\ right_indirect_corner d w r x c a).
Proof.
  intros d w doms W RE. split.
  - intros p Hp. destruct (RE p Hp) as [R X]. eexists. exact (begin_ok d w W p Hp (doms p) R X).
  - intros sent HS r received Hr HD. destruct (RE r Hr) as [R X].
    exists (map (final_patch d w r) (layer w r)). split.
    + apply end_ok; try assumption. intros i [p n] Ei.
      destruct (zget_in _ _ _ _ Ei) as [Hin _].
      pose proof W as (_ & _ & _ & _ & _ & _ & _ & HL & _). destruct (HL r (p, n) Hr Hin) as [(Hp & _) _]. cbn [fst] in Hp.
      destruct (RE p Hp) as [Rp Xp]. specialize (HS p Hp). rewrite (begin_ok d w W p Hp (doms p) Rp Xp) in HS. injection HS as HS.
      destruct (HD i p n Ei) as (j & Ej & ->). rewrite <- HS, zget_map, Ej. reflexivity.
    + intros i x Ei. split; intros.
      * apply face_answer_ok; assumption.
      * apply corner_answer_ok; assumption.
Qed.
Print Assumptions C28_indirect.

(** data can be delivered whenever every ghost is among its owner's exchange patches *)
Theorem C28_deliverable : forall d w (doms : Z -> domain) sent r, world_ok d w -> 0 <= r < procs w ->
  (forall p, 0 <= p < procs w -> exchange_ok w p (doms p)) -> exists received, delivered w doms sent r received.
Proof.
  intros d w doms sent r W Hr X.
  pose (find := fun (n : Z) => fix find (l : list Z) (j : Z) : Z := match l with [] => j | m :: l => if m =? n then j else find l (j + 1) end).
  assert (forall n l j, 0 <= j -> In n l -> exists k, find n l j = j + k /\ zget l k = Some n) as F.
  { intros n. induction l as [|m l IH]; intros j Hj Hin; [destruct Hin|]. change (find n (m :: l) j) with (if m =? n then j else find n l (j + 1)).
    destruct (Z.eqb_spec m n) as [->|N]; [exists 0; split; [lia|reflexivity]|].
    destruct Hin as [E|Hin]; [congruence|]. destruct (IH (j + 1) ltac:(lia) Hin) as (k & E1 & E2).
    exists (k + 1). split; [lia|]. unfold zget in *. destruct (Z.ltb_spec k 0); [discriminate|]. destruct (Z.ltb_spec (k + 1) 0); [lia|].
    replace (Z.to_nat (k + 1)) with (S (Z.to_nat k)) by lia. exact E2. }
  exists (fun i => match zget (layer w r) i with Some (p, n) => zget (sent p) (find n (mirrors (doms p)) 0) | None => None end).
  intros i p n Ei. destruct (zget_in _ _ _ _ Ei) as [Hin _].
  pose proof W as (_ & _ & _ & _ & _ & _ & _ & HL & _). destruct (HL r (p, n) Hr Hin) as [(Hp & _) _]. cbn [fst] in Hp.
  destruct (X p Hp) as [_ XI]. destruct (F n (mirrors (doms p)) 0 ltac:(lia) (XI r n Hr Hin)) as (k & E1 & E2).
  exists k. split; [exact E2|]. rewrite Ei. rewrite E1. reflexivity.
Qed.
Print Assumptions C28_deliverable.

(* ------------------------------------------------------------- an instance *)

(** one block; three patches of level 1 and, in the upper right, four of level 2:
    A B on process 0, C D on process 1, E F G on process 2 *)
Definition A := (0, 0). Definition B := (0, 1). Definition C := (1, 0). Definition D := (1, 1).
Definition E := (2, 0). Definition F := (2, 1). Definition G := (2, 2).

Definition w3 : world := mkWorld 3 1
  (fun p _ => match p with 0 => 2 | 1 => 2 | 2 => 3 | _ => 0 end)
  (fun _ => 0)
  (fun x => match x with (0, _) => 1 | (1, 0) => 1 | _ => 2 end)
  (fun x f => match x, f with
    | (0, 0), 1 => Same B 0 | (0, 0), 3 => Same C 2
    | (0, 1), 0 => Same A 1 | (0, 1), 3 => Finer [D; E] 2
    | (1, 0), 1 => Finer [D; F] 0 | (1, 0), 2 => Same A 3
    | (1, 1), 0 => Coarser C 0 1 | (1, 1), 1 => Same E 0 | (1, 1), 2 => Coarser B 0 3 | (1, 1), 3 => Same F 2
    | (2, 0), 0 => Same D 1 | (2, 0), 2 => Coarser B 1 3 | (2, 0), 3 => Same G 2
    | (2, 1), 0 => Coarser C 1 1 | (2, 1), 1 => Same G 0 | (2, 1), 2 => Same D 3
    | (2, 2), 0 => Same F 1 | (2, 2), 2 => Same E 3
    | _, _ => Edge end)
  (fun x c => match x, c with
    | (0, 0), 3 => Inside D | (0, 1), 2 => Inside C | (1, 0), 1 => Inside B | (1, 1), 0 => Inside A | (1, 1), 3 => Inside G
    | (2, 0), 2 => Outside F 1 | (2, 1), 1 => Outside E 2 | (2, 2), 0 => Inside D
    | (2, 2), 3 => Many [(A, 0); (B, 1)]
    | _, _ => NoCorner end)
  (fun p => match p with 0 => [C; D; E] | 1 => [A; B; E; F; G] | 2 => [B; C; D] | _ => [] end).

Definition position (p : Z) (x : patch) : Z :=
  if fst x =? p then snd x else total w3 p + match lookup (map (fun y => 10 * fst y + snd y) (layer w3 p)) (10 * fst x + snd x) 0 with Some i => i | None => 0 end.
Definition entries {T} (p k : Z) (f : Z -> Z -> T) : list T := flat_map (fun n => map (f n) (zrange 0 k)) (zrange 0 (total w3 p)).
Definition dom3 (p : Z) : domain :=
  let n := total w3 p in
  let g := Z.of_nat (length (layer w3 p)) in
  mkDom p 3 g (match p with 0 => 2 | 1 => 2 | _ => 3 end)
    [mkB 0 0 n [true; true; true; true] (map (fun k => level_of w3 (p, k)) (zrange 0 n)) (zrange 0 n)] 0 0
    (mkMesh n g (map (fun k => block_of w3 (p, k)) (zrange 0 n)) (map fst (layer w3 p))
      (entries p 4 (fun n f => match face_of w3 (p, n) f with Edge => n | Same x _ | Coarser x _ _ => position p x | Finer _ _ => 4 * n + f end))
      (entries p 4 (fun n f => match face_of w3 (p, n) f with Edge => f | Same _ rf => rf | Finer _ rf => rf - 8 | Coarser _ s rf => 8 * (s + 1) + rf end))
      (entries p 4 (fun n f => match face_of w3 (p, n) f with Finer xs _ => map (position p) xs | _ => [] end))
      (entries p 4 (fun k c => match corner_of w3 (p, k) c with NoCorner => -1 | Inside x => position p x | Outside x _ => n + g + position p x | Many _ => n + g + 8 end))
      10 [0; 1; 2; 3; 4; 5; 6; 7; 8; 10] (zrange 0 8)
      (map (fun q => match p, q with 2, 0 => 2 | 2, 1 => 1 | _, _ => 0 end) (zrange 0 8))
      (map (fun x => mkG (block_of w3 x) (snd x) (level_of w3 x)) (layer w3 p))
      (match p with 0 => [0; 0; 2; 3] | 1 => [0; 2; 2; 5] | _ => [0; 1; 3; 3] end)).

Ltac cases H := let T := fresh in pose proof H as T; rewrite <- in_range in T; vm_compute in T;
  repeat (destruct T as [<-|T]; [|]); try (destruct T).

Lemma w3_patch : forall x, is_patch w3 x -> In x [A; B; C; D; E; F; G].
Proof.
  intros [p n] (H1 & _ & H3). cbn [fst snd procs w3 block_of] in *.
  cases H1; match type of H3 with before _ ?p _ <= _ < _ => change (before w3 p 0) with 0 in H3 end;
  match type of H3 with context [count w3 ?p 0] => let v := eval vm_compute in (count w3 p 0) in change (count w3 p 0) with v in H3 end; cbn [Z.add] in H3;
  cases H3; cbn [In]; unfold A, B, C, D, E, F, G; tauto.
Qed.

Lemma w3_is : forall x, In x [A; B; C; D; E; F; G] -> is_patch w3 x.
Proof. intros x H. cbn [In] in H. repeat (destruct H as [<-|H]; [vm_compute; repeat split; congruence|]). all: contradiction. Qed.

Lemma w3_ok : world_ok D2 w3.
Proof.
  unfold world_ok. split; [vm_compute; congruence|]. split; [vm_compute; congruence|].
  split; [intros p b Hp Hb; cases Hp; vm_compute; congruence|].
  split; [intros p Hp; cases Hp; vm_compute; reflexivity|].
  split; [intros p b k Hp Hb Hk; cases Hb; reflexivity|].
  split.
  { intros x f Hx Hf. apply w3_patch in Hx. cbn [In] in Hx. unfold across_ok.
    assert (forall xs, (forall y, In y xs -> In y [A; B; C; D; E; F; G]) -> forall y, In y xs -> is_patch w3 y) as I3 by (intros; apply w3_is; auto).
    repeat (destruct Hx as [<-|Hx]; [cases Hf; cbn [face_of w3 A B C D E F G];
      first [exact Logic.I
            |split; [apply w3_is; cbn [In]; tauto|]; split; [vm_compute; split; congruence|]; first [vm_compute; split; congruence|intros [E1 E2]; discriminate]
            |split; [reflexivity|]; split; [vm_compute; split; congruence|]; split; [apply I3; intros y Hy; cbn [In] in *; tauto|reflexivity] ]|]).
    all: contradiction. }
  split.
  { intros x c Hx Hc. apply w3_patch in Hx. cbn [In] in Hx. unfold diagonal_ok.
    repeat (destruct Hx as [<-|Hx]; [cases Hc; cbn [corner_of w3 A B C D E F G];
      first [exact Logic.I|vm_compute; lia|split; [apply w3_is; cbn [In]; tauto|vm_compute; repeat split; congruence]]|]).
    all: contradiction. }
  split.
  { intros p x Hp Hx. cases Hp; cbn [layer w3 In] in Hx;
    repeat (destruct Hx as [<-|Hx]; [split; [apply w3_is; cbn [In]; tauto|vm_compute; congruence]|]); contradiction. }
  { intros p i j x y Hp Hij Hi Hj. destruct (zget_in _ _ _ _ Hi) as [_ Bi]. destruct (zget_in _ _ _ _ Hj) as [_ Bj].
    cases Hp; cases Bi; cases Bj; try lia; cbv in Hi, Hj; injection Hi as <-; injection Hj as <-; cbn [fst snd]; lia. }
Qed.

Lemma number3 : forall p x, 0 <= p < 3 -> In x [A; B; C; D; E; F; G] -> fst x = p \/ In x (layer w3 p) -> number w3 p x (position p x).
Proof.
  intros p x Hp Hx HL. cases Hp; cbn [In] in Hx;
  repeat (destruct Hx as [<-|Hx]; [
    first [ left; split; reflexivity
          | exfalso; cbn in HL; unfold A, B, C, D, E, F, G in HL; intuition congruence
          | right; split; [vm_compute; congruence|];
            match goal with |- exists i, zget ?l i = Some ?x /\ _ =>
              let i := eval vm_compute in (match lookup (map (fun y => 10 * fst y + snd y) l) (10 * fst x + snd x) 0 with Some i => i | None => 0 end) in exists i; split; reflexivity end ]|]);
  contradiction.
Qed.

Lemma dom3_ok : forall p, 0 <= p < procs w3 -> represents D2 w3 p (dom3 p) /\ exchange_ok w3 p (dom3 p).
Proof.
  intros p Hp. change (procs w3) with 3 in Hp. split.
  - unfold represents. split; [reflexivity|]. split; [reflexivity|]. split; [reflexivity|]. split; [reflexivity|]. split; [reflexivity|]. split; [reflexivity|].
    split.
    { intros b Hb. cases Hb. eexists. split; [reflexivity|]. cbn [b_num b_before b_offset b_boundary b_levels b_exchange].
      split; [cases Hp; reflexivity|]. split; [reflexivity|]. split; [intros _; cbn; lia|].
      split; [intros f k Hf _ _; cases Hf; reflexivity|].
      split; [intros k Hk; cases Hp; vm_compute count in Hk; cases Hk; reflexivity|].
      intros k Hk. apply in_range in Hk. cases Hp; exact Hk. }
    split. { intros n Hn. cases Hp; cases Hn; reflexivity. }
    split. { intros i x Hi. destruct (zget_in _ _ _ _ Hi) as [_ Bi]. cases Hp; cases Bi; cbv in Hi; injection Hi as <-; split; reflexivity. }
    split.
    { intros n f Hn Hf. unfold face_entry.
      assert (forall q x, 0 <= q < 3 -> In x [A; B; C; D; E; F; G] -> fst x = q \/ In x (layer w3 q) -> forall id, id = position q x -> number w3 q x id) as N3
        by (intros; subst; apply number3; assumption).
      cases Hp; cases Hn; cases Hf; (eexists; eexists; split; [reflexivity|]; split; [reflexivity|]); cbn [face_of w3];
      first [ split; reflexivity
            | split; [apply N3; [lia|cbn; tauto|cbn; tauto|reflexivity]|reflexivity]
            | split; [reflexivity|]; eexists; split; [reflexivity|];
              apply Forall2_cons; [apply N3; [lia|cbn; tauto|cbn; tauto|reflexivity]|];
              apply Forall2_cons; [apply N3; [lia|cbn; tauto|cbn; tauto|reflexivity]|]; apply Forall2_nil ]. }
    split.
    { intros n c Hn Hc. unfold corner_entry.
      cases Hp; cases Hn; cases Hc; (eexists; split; [reflexivity|]); cbn [corner_of w3];
      first [ reflexivity
            | apply (number3 0); [lia|cbn; tauto|cbn; tauto] | apply (number3 1); [lia|cbn; tauto|cbn; tauto] | apply (number3 2); [lia|cbn; tauto|cbn; tauto]
            | exists 0, 0, 0; repeat split; try reflexivity; try (vm_compute; congruence); left; split; reflexivity
            | exists 1, 1, 1; repeat split; try reflexivity; try (vm_compute; congruence); left; split; reflexivity
            | exists 8, 8; repeat split; try reflexivity; vm_compute; congruence ]. }
    exists (fun q => match zget (proc_offsets (dmesh (dom3 p))) q with Some o => o | None => 0 end).
    split; [cases Hp; reflexivity|]. split; [cases Hp; reflexivity|].
    split; [intros q Hq; cases Hp; cases Hq; vm_compute; congruence|].
    split; [cases Hp; reflexivity|].
    intros i x Hi. destruct (zget_in _ _ _ _ Hi) as [_ Bi]. cases Hp; cases Bi; cbv in Hi; injection Hi as <-; vm_compute; split; congruence.
  - split; [cases Hp; reflexivity|].
    intros r n Hr Hin. change (procs w3) with 3 in Hr. cases Hp; cases Hr; cbn [layer w3 In] in Hin; unfold A, B, C, D, E, F, G in Hin;
    repeat (destruct Hin as [Hin|Hin]; [first [discriminate Hin|injection Hin as <-; vm_compute; tauto]|]); contradiction.
Qed.

(** process 0 asks about B's upper face (two finer patches of two other processes) and D about its left face *)
Example C05_instance :
  face_neighbors D2 (dom3 0) 0 1 3 = Some (mkFA HALFSIZE [1; 2] 0 [1; 2] 2) /\
  face_neighbors D2 (dom3 1) 0 1 0 = Some (mkFA DOUBLESIZE [1; 0] 0 [0; -1] 1) /\
  corner_neighbors D2 (dom3 0) 0 0 3 = Some (mkCA HALFSIZE (Some 1) 0 (Some 1) 0) /\
  corner_neighbors D2 (dom3 2) 0 0 2 = Some (mkCA SAMESIZE (Some 2) 0 (Some 1) 1) /\
  corner_neighbors D2 (dom3 2) 0 2 3 = Some (mkCA BOUNDARY None 0 None (-1)).
Proof. vm_compute. repeat split. Qed.

(** process 2 knows B, C, D: C's right face has D (known) and F (its own patch) *)
Example C28_instance :
  bind (indirect_begin D2 (dom3 0)) (fun s0 => bind (indirect_begin D2 (dom3 1)) (fun s1 =>
  bind (indirect_end D2 (dom3 2) (fun i => match i with 0 => zget s0 1 | _ => zget s1 (i - 1) end)) (fun data =>
  Some (indirect_face_neighbors D2 (dom3 2) data 0 3, indirect_face_neighbors D2 (dom3 2) data 1 1,
        indirect_face_neighbors D2 (dom3 2) data 2 2, indirect_corner_neighbor D2 (dom3 2) data 0 2)))) =
  Some (Some (mkFA HALFSIZE [1; -1] 0 [2; -1] 2), Some (mkFA BOUNDARY [-1; -1] 0 [-1; -1] 0),
        Some (mkFA DOUBLESIZE [0; 0] 0 [0; -1] 3), Some (mkCA SAMESIZE (Some 1) 0 (Some 1) 1)).
Proof. vm_compute. reflexivity. Qed.
