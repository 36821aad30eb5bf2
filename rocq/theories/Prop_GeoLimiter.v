(** C81: GeoClaw's wave limiter. *)
From Coq Require Import ZArith QArith Qminmax Qabs List Bool Lia Lqa.
From Verif Require Import Model_GeoLimiter Spec_GeoLimiter Proof_GeoLimiter.
Import ListNotations.
Open Scope Q_scope.

(** Each wave is multiplied by the limiter function of the ratio between the projection of its upwind neighbour and
    itself; both are the waves that were passed in, although the neighbours are overwritten by the same sweep. *)
Theorem C81_values : forall nan meqn mwaves mx s mthlim w m mw i,
  (0 <= mx)%Z -> (1 <= mw <= mwaves)%Z -> (1 <= i <= mx + 1)%Z -> (1 <= m <= meqn)%Z -> mthlim mw <> 0%Z ->
  ~ inner meqn w mw i i == 0 ->
  limiter nan meqn mwaves mx s mthlim w m mw i ==
    phi (mthlim mw) (inner meqn w mw (upwind (s mw i) i) i / inner meqn w mw i i) * w m mw i.
Proof.
  intros nan meqn mwaves mx s mthlim w m mw i Hx Hw Hi Hm HL HN. rewrite limiter_eq by lia.
  replace (_ && _ && _ && _ && _ && _ && _) with true.
  2:{ symmetry. rewrite !andb_true_iff, negb_true_iff, !Z.leb_le, Z.eqb_neq. lia. }
  unfold limval. destruct (Qeq_bool (inner meqn w mw i i) 0) eqn:E; [apply Qeq_bool_iff in E; contradiction|].
  apply Qmult_comp; [|reflexivity]. unfold factor, upwind.
  destruct (Qle_bool (s mw i) 0) eqn:S; cbn [negb]; destruct (Qlt_le_dec 0 (s mw i)) as [L|L].
  - apply Qle_bool_iff in S. lra.
  - apply philim_phi; [exact HN|]. now rewrite inner_comm.
  - now apply philim_phi.
  - apply Qle_bool_iff in L. congruence.
Qed.
Print Assumptions C81_values.

(** Zero waves, families without a limiter, and everything beyond the interfaces 1 .. mx+1 stay as they are. *)
Theorem C81_untouched : forall nan meqn mwaves mx s mthlim w m mw i, (0 <= mx)%Z ->
  mthlim mw = 0%Z \/ inner meqn w mw i i == 0 \/ ~ (1 <= i <= mx + 1)%Z \/ ~ (1 <= m <= meqn)%Z \/ ~ (1 <= mw <= mwaves)%Z ->
  limiter nan meqn mwaves mx s mthlim w m mw i = w m mw i.
Proof.
  intros nan meqn mwaves mx s mthlim w m mw i Hx H. rewrite limiter_eq by lia.
  destruct (_ && _ && _ && _ && _ && _ && _) eqn:G; [|reflexivity].
  rewrite !andb_true_iff, negb_true_iff, !Z.leb_le, Z.eqb_neq in G.
  destruct H as [H|[H|H]]; [lia| |lia]. unfold limval. apply Qeq_bool_iff in H. now rewrite H.
Qed.
Print Assumptions C81_untouched.

(** All limiters but Beam-Warming satisfy the conditions for total variation not to increase: no correction at an
    extremum, at most twice the wave and at most twice its neighbour; the second order correction on uniform data; and
    the same result whichever of the two waves is called the neighbour. *)
Theorem C81_tvd : forall meth r, meth <> 5%Z ->
  (r <= 0 -> phi meth r == 0) /\ 0 <= phi meth r <= 2 /\ (0 <= r -> phi meth r <= 2 * r) /\ phi meth 1 == 1 /\
  (0 < r -> phi meth r == r * phi meth (/ r)).
Proof.
  intros meth r N. assert (E5 : (meth =? 5)%Z = false) by now apply Z.eqb_neq.
  assert (P : 0 < r -> 0 < / r) by (intros; now apply Qinv_lt_0_compat).
  assert (I : 0 < r -> r * / r == 1) by (intros; field; lra).
  unfold phi. rewrite E5.
  destruct (meth =? 2)%Z; [|destruct (meth =? 3)%Z; [|destruct (meth =? 4)%Z]].
  - set (t := / r) in *. clearbody t. split; [|split; [|split; [|split]]]; try (repeat destruct (Qlt_le_dec _ _); lra).
    intros Hr. specialize (P Hr). specialize (I Hr).
    repeat destruct (Qlt_le_dec _ _); try lra; nra.
  - destruct (Qlt_le_dec 0 r) as [L|L].
    + assert (V : 2 * r / (1 + r) * (1 + r) == 2 * r) by (field; lra). set (v := 2 * r / (1 + r)) in *.
      split; [lra|]. split; [split; nra|]. split; [intros; nra|]. split; [reflexivity|].
      intros _. specialize (P L). destruct (Qlt_le_dec 0 (/ r)); [|lra]. unfold v. field; repeat split; lra.
    + split; [reflexivity|]. split; [lra|]. split; [lra|]. split; [reflexivity|lra].
  - assert (C : forall x, (1 + x) / 2 == (1 # 2) * (1 + x)) by (intros; field).
    pose proof (C r) as C1. pose proof (C (/ r)) as C2. set (u := (1 + r) / 2) in *. set (t := / r) in *. set (u' := (1 + t) / 2) in *. clearbody u' t u. clear C.
    split; [|split; [|split; [|split]]]; try (repeat destruct (Qlt_le_dec _ _); lra); [reflexivity|].
    intros Hr. specialize (P Hr). specialize (I Hr).
    repeat destruct (Qlt_le_dec _ _); try lra; try nra; rewrite ?C1, ?C2; nra.
  - set (t := / r) in *. clearbody t. split; [|split; [|split; [|split]]]; try (repeat destruct (Qlt_le_dec _ _); lra).
    intros Hr. specialize (P Hr). specialize (I Hr).
    repeat destruct (Qlt_le_dec _ _); try lra; nra.
Qed.
Print Assumptions C81_tvd.

(** Waves that do not change from interface to interface are not limited. *)
Theorem C81_uniform : forall nan meqn mwaves mx s mthlim w m mw i,
  (0 <= mx)%Z -> (1 <= mw <= mwaves)%Z -> (1 <= i <= mx + 1)%Z -> (1 <= m <= meqn)%Z ->
  (forall m, (1 <= m <= meqn)%Z -> w m mw (upwind (s mw i) i) = w m mw i) ->
  limiter nan meqn mwaves mx s mthlim w m mw i == w m mw i.
Proof.
  intros nan meqn mwaves mx s mthlim w m mw i Hx Hw Hi Hm HU.
  destruct (Z.eq_dec (mthlim mw) 0) as [E|N]; [rewrite C81_untouched by (try lia; now left); reflexivity|].
  destruct (Qeq_dec (inner meqn w mw i i) 0) as [E|N']; [rewrite C81_untouched by (try lia; right; now left); reflexivity|].
  rewrite C81_values by assumption.
  assert (X : inner meqn w mw (upwind (s mw i) i) i = inner meqn w mw i i)
    by (apply total_ext; intros k Hk; rewrite HU by lia; reflexivity).
  rewrite X. assert (R : inner meqn w mw i i / inner meqn w mw i i == 1) by (field; assumption).
  rewrite (phi_eq _ _ _ R). destruct (Z.eq_dec (mthlim mw) 5) as [->|N5]; [cbn; ring|].
  rewrite (proj1 (proj2 (proj2 (proj2 (C81_tvd (mthlim mw) 1 N5))))). ring.
Qed.
Print Assumptions C81_uniform.

(** A sweep in the other direction gives the mirror image, for waves that move. *)
Theorem C81_mirror : forall nan meqn mwaves mx s mthlim w m mw i,
  (0 <= mx)%Z -> (1 <= mw <= mwaves)%Z -> (1 <= i <= mx + 1)%Z -> (1 <= m <= meqn)%Z -> ~ s mw i == 0 ->
  limiter nan meqn mwaves mx (fun mw i => - s mw (mx + 2 - i)%Z) mthlim (fun m mw i => w m mw (mx + 2 - i)%Z) m mw (mx + 2 - i)%Z ==
  limiter nan meqn mwaves mx s mthlim w m mw i.
Proof.
  intros nan meqn mwaves mx s mthlim w m mw i Hx Hw Hi Hm HS.
  set (w' := fun m mw i => w m mw (mx + 2 - i)%Z). set (i' := (mx + 2 - i)%Z).
  assert (W : w' m mw i' = w m mw i) by (unfold w', i'; f_equal; lia).
  assert (IN : forall a b, inner meqn w' mw a b = inner meqn w mw (mx + 2 - a) (mx + 2 - b)) by reflexivity.
  assert (II : inner meqn w' mw i' i' = inner meqn w mw i i) by (rewrite IN; unfold i'; f_equal; lia).
  destruct (Z.eq_dec (mthlim mw) 0) as [E|N]; [rewrite !C81_untouched by (try lia; now left); now rewrite W|].
  destruct (Qeq_dec (inner meqn w mw i i) 0) as [E|N'].
  { rewrite (C81_untouched nan meqn mwaves mx s) by (try lia; right; now left).
    rewrite C81_untouched; [now rewrite W|lia|right; left; now rewrite II]. }
  rewrite (C81_values nan meqn mwaves mx s) by assumption. rewrite C81_values by (try assumption; try (unfold i'; lia); now rewrite II).
  rewrite W, II. replace (mx + 2 - i')%Z with i by (unfold i'; lia).
  replace (inner meqn w' mw (upwind (- s mw i) i') i') with (inner meqn w mw (upwind (s mw i) i) i); [reflexivity|].
  rewrite IN. unfold upwind, i'. destruct (Qlt_le_dec 0 (s mw i)), (Qlt_le_dec 0 (- s mw i)); try lra; f_equal; lia.
Qed.
Print Assumptions C81_mirror.

(** Refuted: "limited waves point the way they did": Beam-Warming (5) turns a wave next to an opposite one. *)
Theorem C81_beam_warming_refuted : exists nan meqn mwaves mx s mthlim w m mw i,
  (1 <= mw <= mwaves /\ 1 <= i <= mx + 1 /\ 1 <= m <= meqn)%Z /\ mthlim mw = 5%Z /\ w m mw i == 1 /\
  limiter nan meqn mwaves mx s mthlim w m mw i == -7.
Proof.
  exists 0, 1%Z, 1%Z, 1%Z, (fun _ _ => 1), (fun _ => 5%Z), (fun _ _ i => if (i =? 0)%Z then -7 else 1), 1%Z, 1%Z, 1%Z.
  split; [lia|]. split; [reflexivity|]. split; [reflexivity|]. vm_compute. reflexivity.
Qed.
Print Assumptions C81_beam_warming_refuted.

(** Refuted: "the mirror image of the data gives the mirror image of the result": a standing wave is compared with the
    wave on its right in both. *)
Theorem C81_mirror_refuted : exists nan meqn mwaves mx s mthlim w m mw i,
  (1 <= mw <= mwaves /\ 1 <= i <= mx + 1 /\ 1 <= m <= meqn)%Z /\ mthlim mw = 1%Z /\ s mw i == 0 /\
  ~ limiter nan meqn mwaves mx (fun mw i => - s mw (mx + 2 - i)%Z) mthlim (fun m mw i => w m mw (mx + 2 - i)%Z) m mw (mx + 2 - i)%Z ==
    limiter nan meqn mwaves mx s mthlim w m mw i.
Proof.
  exists 0, 1%Z, 1%Z, 1%Z, (fun _ _ => 0), (fun _ => 1%Z), (fun _ _ i => if (i =? 0)%Z then -7 else 1), 1%Z, 1%Z, 1%Z.
  split; [lia|]. split; [reflexivity|]. split; [reflexivity|]. vm_compute. discriminate.
Qed.
Print Assumptions C81_mirror_refuted.

(** Instance: two equations, two families with different limiters and directions. *)
Definition ex_w : waves := fun m mw i => inject_Z (m * i + mw).
Example C81_instance :
  ~ inner 2 ex_w 1 2 2 == 0 /\ ~ inner 2 ex_w 2 2 2 == 0 /\
  let l := limiter 0 2 2 3 (fun mw _ => if (mw =? 1)%Z then 1 else -1) (fun mw => if (mw =? 1)%Z then 1%Z else 4%Z) ex_w in
  l 1%Z 1%Z 2%Z == 63 # 34 /\ l 2%Z 2%Z 2%Z == 90 # 13 /\ l 1%Z 1%Z 0%Z = ex_w 1%Z 1%Z 0%Z.
Proof. split; [vm_compute; discriminate|]. split; [vm_compute; discriminate|]. repeat split; vm_compute; reflexivity. Qed.
