(** C79: the initial state of GeoClaw. *)
From Coq Require Import ZArith QArith Qround Qminmax List Bool Lia Lqa.
From Verif Require Import Model_Topo Model_Qinit Spec_Topo Spec_Qinit Proof_Topo Proof_Topo2 Proof_Topo3 Prop_Topo Proof_Qinit.
Import ListNotations.
Open Scope Q_scope.

(** Without a perturbation, and in every cell beyond the perturbation file, the water is at rest
    with its surface at sea level, and land is dry; whatever the array held. *)
Theorem C79_rest : forall qt f sea p aux q i j r,
  valid f -> cell_of p i j r -> element p 1 i j ->
  ((qt <= 0)%Z \/ ~ meets r f) ->
  (aux i j <= sea -> qinit qt f sea p aux q 1%Z i j + aux i j == sea) /\
  (sea <= aux i j -> qinit qt f sea p aux q 1%Z i j == 0) /\
  forall m, m <> 1%Z -> element p m i j -> qinit qt f sea p aux q m i j == 0.
Proof.
  intros qt f sea p aux q i j r V C E H.
  assert (X : forall m, element p m i j -> qinit qt f sea p aux q m i j = flat_state sea (aux i j) m).
  { intros m Hm. rewrite (qinit_element qt f sea p aux q m i j Hm). destruct (Z.ltb_spec 0 qt) as [L|L]; [|reflexivity].
    destruct H as [H|H]; [lia|]. rewrite (proj2 (perturb_eq qt f sea (aux i j) (icell p i j) (flat_state sea (aux i j)) V)); [reflexivity|].
    intros M. apply H. now apply (meets_eq f (icell p i j) r (icell_cell p i j r C)). }
  rewrite (X 1%Z E). destruct (flat_depth sea (aux i j)) as [F1 F2]. split; [exact F1|]. split; [exact F2|].
  intros m Hm Em. rewrite (X m Em). unfold flat_state. destruct (Z.eqb_spec m 1); [contradiction|reflexivity].
Qed.
Print Assumptions C79_rest.

(** A perturbation of type 1, 2 or 3 adds the average of its data, over the part of the cell
    that the file covers, to depth, x or y momentum of the cells with bottom at or below sea level. *)
Theorem C79_added : forall k f sea p aux q i j r,
  (1 <= k <= 3)%Z -> valid f -> cell_of p i j r -> proper r -> meets r f -> element p k i j ->
  exists v, average_on f r v /\
    (aux i j <= sea -> qinit k f sea p aux q k i j == qinit 0 f sea p aux q k i j + v) /\
    (sea < aux i j -> qinit k f sea p aux q k i j == qinit 0 f sea p aux q k i j) /\
    forall m, m <> k -> element p m i j -> qinit k f sea p aux q m i j == qinit 0 f sea p aux q m i j.
Proof.
  intros k f sea p aux q i j r Hk V C [Px Py] M E. pose proof (icell_cell p i j r C) as RE.
  assert (M' : meets (icell p i j) f) by (apply (meets_eq f r); [now apply rect_eq_sym|assumption]).
  assert (P' : proper (icell p i j)) by (destruct RE as (E1 & E2 & E3 & E4); split; lra).
  exists (dq f (icell p i j)). split; [apply (average_eq f (icell p i j)); [assumption|now apply dq_average]|].
  assert (X : forall m, element p m i j -> qinit k f sea p aux q m i j =
     (if Qle_bool (aux i j) sea then (fun m => if (m =? k)%Z then flat_state sea (aux i j) k + dq f (icell p i j) else flat_state sea (aux i j) m) else flat_state sea (aux i j)) m).
  { intros m Hm. rewrite (qinit_element k f sea p aux q m i j Hm). destruct (Z.ltb_spec 0 k); [|lia].
    rewrite (proj1 (perturb_eq k f sea (aux i j) (icell p i j) (flat_state sea (aux i j)) V) M').
    destruct (Z.ltb_spec k 4); [reflexivity|lia]. }
  assert (Y : forall m, element p m i j -> qinit 0 f sea p aux q m i j = flat_state sea (aux i j) m)
    by (intros m Hm; now rewrite (qinit_element 0 f sea p aux q m i j Hm)).
  rewrite (X k E), (Y k E). qcase (aux i j) sea; rewrite ?Z.eqb_refl.
  - split; [reflexivity|]. split; [intros; lra|]. intros m Hm Em. rewrite (X m Em), (Y m Em).
    destruct (Z.eqb_spec m k); [contradiction|reflexivity].
  - split; [intros; lra|]. split; [reflexivity|]. intros m Hm Em. now rewrite (X m Em), (Y m Em).
Qed.
Print Assumptions C79_added.

(** Type 4 sets the surface to the average of its data where that is above the bottom; the rest
    of the file's region is dry. *)
Theorem C79_surface : forall f sea p aux q i j r,
  valid f -> cell_of p i j r -> proper r -> meets r f -> element p 1 i j ->
  exists v, average_on f r v /\
    (aux i j <= v -> qinit 4 f sea p aux q 1%Z i j + aux i j == v) /\
    (v <= aux i j -> qinit 4 f sea p aux q 1%Z i j == 0) /\
    forall m, m <> 1%Z -> element p m i j -> qinit 4 f sea p aux q m i j == 0.
Proof.
  intros f sea p aux q i j r V C [Px Py] M E. pose proof (icell_cell p i j r C) as RE.
  assert (M' : meets (icell p i j) f) by (apply (meets_eq f r); [now apply rect_eq_sym|assumption]).
  assert (P' : proper (icell p i j)) by (destruct RE as (E1 & E2 & E3 & E4); split; lra).
  exists (dq f (icell p i j)). split; [apply (average_eq f (icell p i j)); [assumption|now apply dq_average]|].
  assert (X : forall m, element p m i j -> qinit 4 f sea p aux q m i j = if (m =? 1)%Z then Qmax (dq f (icell p i j) - aux i j) 0 else flat_state sea (aux i j) m).
  { intros m Hm. rewrite (qinit_element 4 f sea p aux q m i j Hm). change (0 <? 4)%Z with true. cbv iota.
    rewrite (proj1 (perturb_eq 4 f sea (aux i j) (icell p i j) (flat_state sea (aux i j)) V) M'). reflexivity. }
  rewrite (X 1%Z E). change (1 =? 1)%Z with true. cbv iota. split; [|split].
  - intros. rewrite Q.max_l by lra. ring.
  - intros. rewrite Q.max_r by lra. reflexivity.
  - intros m Hm Em. rewrite (X m Em). unfold flat_state. destruct (Z.eqb_spec m 1); [contradiction|reflexivity].
Qed.
Print Assumptions C79_surface.

(** Depths are not negative, except with type 1. *)
Theorem C79_depth : forall qt f sea p aux q i j, qt <> 1%Z -> valid f -> element p 1 i j ->
  0 <= qinit qt f sea p aux q 1%Z i j.
Proof.
  intros qt f sea p aux q i j Hq V E. rewrite (qinit_element qt f sea p aux q 1 i j E).
  assert (F : 0 <= flat_state sea (aux i j) 1) by (unfold flat_state; apply Q.le_max_l).
  destruct (Z.ltb_spec 0 qt); [|exact F]. unfold perturb.
  destruct (_ && _); [|exact F]. destruct (Z.ltb_spec qt 4).
  - destruct (Qle_bool (aux i j) sea); [|exact F]. destruct (Z.eqb_spec 1 qt); [lia|exact F].
  - destruct (Z.eqb_spec qt 4); [|exact F]. change (1 =? 1)%Z with true. cbv iota. apply Q.le_max_r.
Qed.
Print Assumptions C79_depth.

(** Nothing outside the array is changed. *)
Theorem C79_untouched : forall qt f sea p aux q m i j, ~ element p m i j -> qinit qt f sea p aux q m i j = q m i j.
Proof.
  intros qt f sea p aux q m i j N. unfold qinit. destruct (_ && _)%Z eqn:X; [|reflexivity].
  exfalso. apply N. unfold element. rewrite !andb_true_iff, !Z.leb_le in X. lia.
Qed.
Print Assumptions C79_untouched.

Definition one : ipatch := mkIpatch 2 2 2 3 0 0 1 1.

(** Refuted: "the depth is never negative": a trough deeper than the water. *)
Theorem C79_negative_refuted : exists f sea p aux q i j,
  valid f /\ element p 1 i j /\ aux i j < sea /\ qinit 1 f sea p aux q 1%Z i j < 0.
Proof.
  exists (flat 0 0 2 2 2 2 (-3)), 0, one, (fun _ _ => -1), (fun _ _ _ => 0), 1%Z, 1%Z.
  split; [unfold valid; cbn; repeat split; lia|]. split; [unfold element; cbn; lia|]. split; [reflexivity|vm_compute; reflexivity].
Qed.
Print Assumptions C79_negative_refuted.

(** Refuted: "a dry cell has no momentum": a bottom exactly at sea level. *)
Theorem C79_dry_refuted : exists f sea p aux q i j,
  valid f /\ element p 2 i j /\ qinit 2 f sea p aux q 1%Z i j == 0 /\ qinit 2 f sea p aux q 2%Z i j == 5.
Proof.
  exists (flat 0 0 2 2 2 2 5), 0, one, (fun _ _ => 0), (fun _ _ _ => 0), 1%Z, 1%Z.
  split; [unfold valid; cbn; repeat split; lia|]. split; [unfold element; cbn; lia|]. split; vm_compute; reflexivity.
Qed.
Print Assumptions C79_dry_refuted.

(** Refuted: "the water added to a cell is the integral of the perturbation over it": where the
    file covers half of the cell, twice as much is added. *)
Theorem C79_volume_refuted : exists f sea p aux q i j xs ys,
  valid f /\ element p 1 i j /\ aux i j < sea /\ fine [f] (icell p i j) xs ys /\
  ~ (qinit 1 f sea p aux q 1%Z i j - qinit 0 f sea p aux q 1%Z i j) * (i_dx p * i_dy p) ==
    riemann xs ys (over (icell p i j) (fun x y => if inside (extent f) x y then height f x y else 0)).
Proof.
  set (f := flat (1 # 2) 0 1 1 3 3 1).
  destruct (fine_exists [f] (icell one 1 1)) as (xs & ys & F).
  exists f, 0, one, (fun _ _ => -10), (fun _ _ _ => 0), 1%Z, 1%Z, xs, ys.
  assert (V : valid f) by (unfold valid; cbn; repeat split; lia).
  split; [exact V|]. split; [unfold element; cbn; lia|]. split; [reflexivity|]. split; [exact F|].
  rewrite <- (topointegral_clip f (icell one 1 1) xs ys V eq_refl F).
  vm_compute. discriminate.
Qed.
Print Assumptions C79_volume_refuted.

(** Instance: a hump over a sloping bottom. *)
Example C79_instance :
  let f := flat (1 # 2) 0 1 1 3 3 2 in let b := fun i _ : Z => inject_Z (i - 2) in
  valid f /\ cell_of one 1 1 (mkRect 0 1 0 1) /\ proper (mkRect 0 1 0 1) /\ meets (mkRect 0 1 0 1) f /\ element one 1 1 1 /\
  ~ meets (mkRect (-1) 0 0 1) f /\ cell_of one 0 1 (mkRect (-1) 0 0 1) /\
  qinit 1 f 0 one b (fun _ _ _ => 9) 1%Z 1%Z 1%Z == 3 /\ qinit 1 f 0 one b (fun _ _ _ => 9) 1%Z 0%Z 1%Z == 2 /\
  qinit 1 f 0 one b (fun _ _ _ => 9) 1%Z 4%Z 1%Z == 0 /\ qinit 4 f 0 one b (fun _ _ _ => 9) 1%Z 3%Z 1%Z == 1 /\
  qinit 3 f 0 one b (fun _ _ _ => 9) 3%Z 2%Z 1%Z == 2.
Proof.
  cbv zeta. split; [unfold valid; cbn; repeat split; lia|]. split; [repeat split; reflexivity|]. split; [split; reflexivity|].
  split; [repeat split; reflexivity|]. split; [unfold element; cbn; lia|].
  split; [intros (M & _); vm_compute in M; discriminate|]. split; [repeat split; reflexivity|].
  repeat split; vm_compute; reflexivity.
Qed.
