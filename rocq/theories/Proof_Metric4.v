(** Face normals, tangents and edge lengths. *)
From Coq Require Import ZArith Reals List Bool Lia Lra.
From Verif Require Import Model_Map Model_Grid Spec_Map Model_Metric Spec_Metric Proof_Metric1 Proof_Metric2.
Import ListNotations.
Open Scope R_scope.

Lemma pt_eq : forall a b c x y z : R, a = x -> b = y -> c = z -> (a, b, c) = (x, y, z).
Proof. intros. subst. reflexivity. Qed.
Ltac coords := repeat match goal with v : point |- _ => destruct v as [[? ?] ?] | v : (R * R * R)%type |- _ => destruct v as [[? ?] ?] end;
  unfold cross, dot, add, sub, scale, zero in *.
Lemma dot_add_l : forall u v w, dot (add u v) w = dot u w + dot v w. Proof. intros. coords. ring. Qed.
Lemma dot_sub_l : forall u v w, dot (sub u v) w = dot u w - dot v w. Proof. intros. coords. ring. Qed.
Lemma dot_scale_l : forall s u w, dot (scale s u) w = s * dot u w. Proof. intros. coords. ring. Qed.
Lemma dot_comm : forall u v, dot u v = dot v u. Proof. intros. coords. ring. Qed.
Lemma dot_self : forall u, 0 <= dot u u. Proof. intros u. coords. nra. Qed.
Lemma dot_zero : forall u, dot u u = 0 -> u = zero.
Proof. intros u H. coords. apply pt_eq; nra. Qed.
Lemma lagrange : forall e t, dot e e * dot t t - dot t e * dot t e = dot (cross e t) (cross e t).
Proof. intros. coords. ring. Qed.
Lemma scale_one : forall v, scale 1 v = v. Proof. intros. coords. apply pt_eq; ring. Qed.
Lemma scale_scale : forall a b v, scale a (scale b v) = scale (a * b) v. Proof. intros. coords. apply pt_eq; ring. Qed.
Lemma scale_combine : forall s a b u v, scale s (add (scale a u) (scale b v)) = add (scale (s * a) u) (scale (s * b) v).
Proof. intros. coords. apply pt_eq; ring. Qed.
Lemma norm_unit : forall v, norm v = 1 <-> dot v v = 1.
Proof.
  intros v. unfold norm. pose proof (dot_self v) as P. split; intros H.
  - rewrite <- (sqrt_sqrt (dot v v) P), H. ring.
  - rewrite H. apply sqrt_1.
Qed.
Lemma norm_pos : forall v, dot v v <> 0 -> 0 < norm v.
Proof. intros v H. unfold norm. apply sqrt_lt_R0. pose proof (dot_self v). lra. Qed.
Lemma norm_sq : forall v, norm v * norm v = dot v v.
Proof. intros v. apply sqrt_sqrt, dot_self. Qed.

Lemma over_some : forall v s, s <> 0 -> over v s = Some (scale (/ s) v).
Proof. intros v s H. unfold over. destruct (Req_EM_T s 0) as [E|_]; [contradiction|]. coords. apply f_equal, pt_eq; field; exact H. Qed.
Lemma over_none : forall v, over v 0 = None.
Proof. intros v. unfold over. destruct (Req_EM_T 0 0) as [_|N]; [reflexivity|]. contradiction N; reflexivity. Qed.

Section Normal.
  Variable e t : point.
  Definition wv : point := add (scale (dot e e) t) (scale (- dot t e) e).
  Lemma get_normal_wv : get_normal e t = over wv (norm wv).
  Proof. unfold get_normal. cbv zeta. rewrite plus_add, !times_scale, !inner_dot. rewrite Rminus_0_l. reflexivity. Qed.
  Lemma wv_e : dot wv e = 0. Proof. unfold wv. rewrite dot_add_l, !dot_scale_l. ring. Qed.
  Lemma wv_t : dot wv t = dot (cross e t) (cross e t). Proof. unfold wv. rewrite dot_add_l, !dot_scale_l, <- lagrange, (dot_comm e t). ring. Qed.
  Lemma wv_wv : dot wv wv = dot e e * dot (cross e t) (cross e t).
  Proof. unfold wv at 1. rewrite dot_add_l, !dot_scale_l, (dot_comm t wv), (dot_comm e wv), wv_e, wv_t. ring. Qed.
  Lemma normal_parallel : parallel e t -> get_normal e t = None.
  Proof. intros H. rewrite get_normal_wv. unfold norm. rewrite wv_wv, H. unfold zero, dot. replace (_ * (0 * 0 + 0 * 0 + 0 * 0)) with 0 by ring. rewrite sqrt_0. apply over_none. Qed.
  Hypothesis NP : ~ parallel e t.
  Lemma ct_pos : 0 < dot (cross e t) (cross e t).
  Proof. pose proof (dot_self (cross e t)) as P. destruct (Req_dec (dot (cross e t) (cross e t)) 0) as [E|E]; [|lra]. exfalso. apply NP. apply dot_zero. exact E. Qed.
  Lemma ee_pos : 0 < dot e e.
  Proof.
    pose proof (dot_self e) as P. destruct (Req_dec (dot e e) 0) as [E|E]; [|lra]. exfalso. apply NP. rewrite (dot_zero _ E). unfold parallel. destruct t as [[x y] z]. unfold cross, zero. apply pt_eq; ring.
  Qed.
  Lemma wv_pos : 0 < norm wv.
  Proof. apply norm_pos. rewrite wv_wv. pose proof ct_pos. pose proof ee_pos. nra. Qed.
  Lemma normal_ok : exists n, get_normal e t = Some n /\ face_normal e t n.
  Proof.
    pose proof wv_pos as P. rewrite get_normal_wv, over_some by lra. eexists. split; [reflexivity|]. assert (I : 0 < / norm wv) by (apply Rinv_0_lt_compat; exact P). repeat split.
    - rewrite norm_scale by lra. field. lra.
    - rewrite dot_scale_l, wv_e. ring.
    - rewrite dot_scale_l, wv_t. apply Rmult_lt_0_compat; [exact I|apply ct_pos].
    - exists (/ norm wv * dot e e), (/ norm wv * - dot t e). unfold wv at 2. apply scale_combine.
  Qed.
  Lemma normal_unique : forall n, face_normal e t n -> get_normal e t = Some n.
  Proof.
    intros n (N1 & N2 & N3 & a & b & EN). pose proof ee_pos as PE. pose proof ct_pos as PC. pose proof wv_pos as PW.
    set (c := a / dot e e). assert (E : n = scale c wv).
    { assert (B : b = - (a * dot t e) / dot e e).
      { rewrite EN, dot_add_l, !dot_scale_l in N2. apply Rmult_eq_reg_r with (dot e e); [|lra]. field_simplify; [|lra]. lra. }
      rewrite EN, B. unfold c, wv. rewrite scale_combine. f_equal; f_equal; field; lra. }
    assert (C : 0 < c). { rewrite E, dot_scale_l, wv_t in N3. nra. }
    assert (L : c * norm wv = 1). { rewrite E, norm_scale in N1 by lra. exact N1. }
    rewrite get_normal_wv, over_some by lra. rewrite E. f_equal. f_equal. apply Rmult_eq_reg_r with (norm wv); [|lra]. rewrite L. field. lra.
  Qed.
End Normal.

Section Faces.
  Variable M : R -> R -> point.
  Variable p : mpatch.
  Variable xp xd : grid point.
  Hypothesis HP : forall i j, cell_index p i j -> xp (i, j) = Some (centre M p i j).
  Hypothesis HD : forall i j, node_index p i j -> xd (i, j) = Some (node M p i j).

  Lemma xnormals_ok : forall a0, exists a, compute_xnormals p xp xd a0 = Some a /\ forall i j, x_face p i j ->
    a (i, j) = Some (get_normal (sub (node M p i (j + 1)) (node M p i j)) (sub (centre M p i j) (centre M p (i - 1) j))).
  Proof.
    intros a0. unfold compute_xnormals.
    run_fill (fun (s : grid (option point)) j i => s (i, j)) (fun j i => Some (get_normal (sub (node M p i (j + 1)) (node M p i j)) (sub (centre M p i j) (centre M p (i - 1) j)))) (fun _ _ : Z => false) a V.
    - intros j i a Hj Hi. rewrite !get_p, !get_d by (unfold cell_index, node_index; lia). rewrite !HP, !HD by (unfold cell_index, node_index; lia). cbn [bind]. cbv zeta.
      rewrite put_ok by (apply in_d_ok; unfold node_index; lia). eexists. split; [reflexivity|]. intros x y. cbv beta. rewrite same_pair, !minus_sub, (andb_comm (y =? i)%Z). cbn [negb]. rewrite andb_true_r. reflexivity.
    - exists a. split; [reflexivity|]. intros i j H. unfold x_face in H. rewrite V.
      destruct (Z.leb_spec (- pmbc p) j), (Z.leb_spec j (pmy p + pmbc p + 1)), (Z.leb_spec (1 - pmbc p) i), (Z.leb_spec i (pmx p + pmbc p + 1)); try lia. reflexivity.
  Qed.
  Lemma ynormals_ok : forall a0, exists a, compute_ynormals p xp xd a0 = Some a /\ forall i j, y_face p i j ->
    a (i, j) = Some (get_normal (sub (node M p (i + 1) j) (node M p i j)) (sub (centre M p i j) (centre M p i (j - 1)))).
  Proof.
    intros a0. unfold compute_ynormals.
    run_fill (fun (s : grid (option point)) j i => s (i, j)) (fun j i => Some (get_normal (sub (node M p (i + 1) j) (node M p i j)) (sub (centre M p i j) (centre M p i (j - 1))))) (fun _ _ : Z => false) a V.
    - intros j i a Hj Hi. rewrite !get_p, !get_d by (unfold cell_index, node_index; lia). rewrite !HP, !HD by (unfold cell_index, node_index; lia). cbn [bind]. cbv zeta.
      rewrite put_ok by (apply in_d_ok; unfold node_index; lia). eexists. split; [reflexivity|]. intros x y. cbv beta. rewrite same_pair, !minus_sub, (andb_comm (y =? i)%Z). cbn [negb]. rewrite andb_true_r. reflexivity.
    - exists a. split; [reflexivity|]. intros i j H. unfold y_face in H. rewrite V.
      destruct (Z.leb_spec (1 - pmbc p) j), (Z.leb_spec j (pmy p + pmbc p + 1)), (Z.leb_spec (- pmbc p) i), (Z.leb_spec i (pmx p + pmbc p + 1)); try lia. reflexivity.
  Qed.

  Definition tview (s : grid point * grid R) (j i : Z) : option point * option R := (fst s (i, j), snd s (i, j)).
  Lemma xtangents_ok : forall s0, exists s, compute_xtangents p xd s0 = Some s /\ forall i j, node_index p i j -> (j <= pmy p + pmbc p + 1)%Z ->
    fst s (i, j) = Some (sub (node M p i (j + 1)) (node M p i j)) /\ snd s (i, j) = Some (norm (sub (node M p i (j + 1)) (node M p i j))).
  Proof.
    intros s0. unfold compute_xtangents.
    run_fill tview (fun j i => (Some (sub (node M p i (j + 1)) (node M p i j)), Some (norm (sub (node M p i (j + 1)) (node M p i j))))) (fun _ _ : Z => false) a V.
    - intros j i a Hj Hi. rewrite !get_d by (unfold node_index; lia). rewrite !HD by (unfold node_index; lia). cbn [bind]. cbv zeta.
      rewrite !put_ok by (apply in_d_ok; unfold node_index; lia). cbn [bind]. eexists. split; [reflexivity|]. intros x y. unfold tview. cbn [fst snd]. rewrite same_pair, !minus_sub, !inner_dot, (andb_comm (y =? i)%Z). cbn [negb]. rewrite andb_true_r.
      destruct ((x =? j)%Z && (y =? i)%Z); reflexivity.
    - exists a. split; [reflexivity|]. intros i j H J. unfold node_index in H. specialize (V j i).
      destruct (Z.leb_spec (- pmbc p) j), (Z.leb_spec j (pmy p + pmbc p + 1)), (Z.leb_spec (- pmbc p) i), (Z.leb_spec i (pmx p + pmbc p + 2)); try lia. cbn [andb negb] in V. unfold tview in V. injection V as V1 V2. split; assumption.
  Qed.
  Lemma ytangents_ok : forall s0, exists s, compute_ytangents p xd s0 = Some s /\ forall i j, node_index p i j -> (i <= pmx p + pmbc p + 1)%Z ->
    fst s (i, j) = Some (sub (node M p (i + 1) j) (node M p i j)) /\ snd s (i, j) = Some (norm (sub (node M p (i + 1) j) (node M p i j))).
  Proof.
    intros s0. unfold compute_ytangents.
    run_fill tview (fun j i => (Some (sub (node M p (i + 1) j) (node M p i j)), Some (norm (sub (node M p (i + 1) j) (node M p i j))))) (fun _ _ : Z => false) a V.
    - intros j i a Hj Hi. rewrite !get_d by (unfold node_index; lia). rewrite !HD by (unfold node_index; lia). cbn [bind]. cbv zeta.
      rewrite !put_ok by (apply in_d_ok; unfold node_index; lia). cbn [bind]. eexists. split; [reflexivity|]. intros x y. unfold tview. cbn [fst snd]. rewrite same_pair, !minus_sub, !inner_dot, (andb_comm (y =? i)%Z). cbn [negb]. rewrite andb_true_r.
      destruct ((x =? j)%Z && (y =? i)%Z); reflexivity.
    - exists a. split; [reflexivity|]. intros i j H I. unfold node_index in H. specialize (V j i).
      destruct (Z.leb_spec (- pmbc p) j), (Z.leb_spec j (pmy p + pmbc p + 2)), (Z.leb_spec (- pmbc p) i), (Z.leb_spec i (pmx p + pmbc p + 1)); try lia. cbn [andb negb] in V. unfold tview in V. injection V as V1 V2. split; assumption.
  Qed.
End Faces.
