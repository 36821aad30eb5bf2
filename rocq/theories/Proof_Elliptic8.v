(** The operators on a mesh: symmetry, uniqueness, total. *)
From Coq Require Import ZArith QArith List Lia Lqa Bool Qfield.
From Verif Require Import Base_Float Model_Face Model_Grid Spec_Grid Proof_Grid Proof_Grid2 Proof_Tag Proof_Diag Proof_Sync Model_Elliptic Spec_Elliptic Spec_Elliptic2
  Proof_Elliptic1 Proof_Elliptic2 Proof_Elliptic3 Proof_Elliptic6 Proof_Elliptic7.
Import ListNotations.
Open Scope Z_scope.

(** symmetry of one row *)
Definition ends_ok (n : Z) (c0 c1 : condition) (U : Z -> Q) : Prop :=
  match c0 with Value => (U 0%Z == - U 1%Z)%Q | Slope => (U 0%Z == U 1%Z)%Q end /\
  match c1 with Value => (U (n + 1)%Z == - U n)%Q | Slope => (U (n + 1)%Z == U n)%Q end.
Lemma row_sym : forall n w U V c0 c1, 1 <= n -> ends_ok n c0 c1 U -> ends_ok n c0 c1 V ->
  (qsum 1 n (fun i => V i * (flux w U i - flux w U (i - 1)%Z)) == qsum 1 n (fun i => U i * (flux w V i - flux w V (i - 1)%Z)))%Q.
Proof.
  intros n w U V c0 c1 Hn (U0 & U1) (V0 & V1). rewrite (by_parts V (flux w U) n Hn), (by_parts U (flux w V) n Hn).
  rewrite (qsum_ext 1 (n - 1) (fun i => flux w U i * (V (i + 1)%Z - V i))%Q (fun i => flux w V i * (U (i + 1)%Z - U i))%Q).
  - assert (E1 : (V n * flux w U n == U n * flux w V n)%Q) by (unfold flux; destruct c1; rewrite U1, V1; ring).
    assert (E0 : (V 1%Z * flux w U 0%Z == U 1%Z * flux w V 0%Z)%Q) by (unfold flux; change (0 + 1) with 1; destruct c0; rewrite U0, V0; ring).
    rewrite E1, E0. reflexivity.
  - intros i Hi. unfold flux. ring.
Qed.
Lemma row_total : forall n w U, 1 <= n -> ends_ok n Slope Slope U -> (qsum 1 n (fun i => flux w U i - flux w U (i - 1)%Z) == 0)%Q.
Proof.
  intros n w U Hn (U0 & U1). rewrite (qsum_ext 1 n _ (fun i => 1 * (flux w U i - flux w U (i - 1)%Z))%Q) by (intros; ring).
  rewrite (by_parts (fun _ => 1%Q) (flux w U) n Hn).
  rewrite (qsum_ext 1 (n - 1) _ (fun i => 0 * 0)%Q) by (intros; ring). rewrite (qsum_scale 1 (n - 1) 0 (fun _ => 0%Q)).
  unfold flux. change (0 + 1) with 1. rewrite U0, U1. ring.
Qed.

Section Plane.
  Variable d : dims.
  Hypothesis Hmx : 1 <= mx d.
  Hypothesis Hmy : 1 <= my d.
  Variable hx hy l : Q.
  Hypothesis Hhx : (0 < hx)%Q.
  Hypothesis Hhy : (0 < hy)%Q.
  Variable B : Z -> Z -> Q.
  Variable cond : Z -> condition.

  Lemma meets_rows : forall U j, 1 <= j <= my d -> (forall f, 0 <= f < 4 -> meets d hx hy f (cond f) zero U) ->
    ends_ok (mx d) (cond 0) (cond 1) (fun i => U i j).
  Proof.
    intros U j Hj HC. assert (E0 := HC 0 ltac:(lia) j Hj). assert (E1 := HC 1 ltac:(lia) j Hj).
    unfold spacing, ghost_at, inside_at, on, zero in E0, E1. cbn [Z.eqb Z.ltb Z.compare Pos.compare Pos.compare_cont Pos.eqb fst snd] in E0, E1.
    apply (end_cond hx _ _ _ Hhx) in E0. apply (end_cond hx _ _ _ Hhx) in E1. now split.
  Qed.
  Lemma meets_cols : forall U i, 1 <= i <= mx d -> (forall f, 0 <= f < 4 -> meets d hx hy f (cond f) zero U) ->
    ends_ok (my d) (cond 2) (cond 3) (fun j => U i j).
  Proof.
    intros U i Hi HC. assert (E0 := HC 2 ltac:(lia) i Hi). assert (E1 := HC 3 ltac:(lia) i Hi).
    unfold spacing, ghost_at, inside_at, on, zero in E0, E1. cbn [Z.eqb Z.ltb Z.compare Pos.compare Pos.compare_cont Pos.eqb fst snd] in E0, E1.
    apply (end_cond hy _ _ _ Hhy) in E0. apply (end_cond hy _ _ _ Hhy) in E1. now split.
  Qed.

  (** the sum of V times the operator on U, by rows and columns *)
  Lemma weak_form : forall U V,
    (qsum 1 (mx d) (fun i => qsum 1 (my d) (fun j => V i j * (divg hx hy B U i j + l * U i j))) ==
     / (hx * hx) * qsum 1 (my d) (fun j => qsum 1 (mx d) (fun i => V i j * (flux (wx B j) (fun i => U i j) i - flux (wx B j) (fun i => U i j) (i - 1)%Z))) +
     / (hy * hy) * qsum 1 (mx d) (fun i => qsum 1 (my d) (fun j => V i j * (flux (wy B i) (fun j => U i j) j - flux (wy B i) (fun j => U i j) (j - 1)%Z))) +
     l * qsum 1 (mx d) (fun i => qsum 1 (my d) (fun j => V i j * U i j)))%Q.
  Proof.
    intros U V.
    rewrite (qsum_swap 1 (my d) 1 (mx d) (fun j i => V i j * (flux (wx B j) (fun i => U i j) i - flux (wx B j) (fun i => U i j) (i - 1)%Z))%Q).
    rewrite <- !qsum_scale, <- !qsum_add. apply qsum_ext. intros i Hi. rewrite <- !qsum_scale, <- !qsum_add. apply qsum_ext. intros j Hj.
    unfold flux, wx, wy, divg. replace (i - 1 + 1)%Z with i by lia. replace (j - 1 + 1)%Z with j by lia. unfold mean2. field. split; lra.
  Qed.

  Lemma plane_sym : forall U V,
    (forall f, 0 <= f < 4 -> meets d hx hy f (cond f) zero U) -> (forall f, 0 <= f < 4 -> meets d hx hy f (cond f) zero V) ->
    (qsum 1 (mx d) (fun i => qsum 1 (my d) (fun j => V i j * (divg hx hy B U i j + l * U i j))) ==
     qsum 1 (mx d) (fun i => qsum 1 (my d) (fun j => U i j * (divg hx hy B V i j + l * V i j))))%Q.
  Proof.
    intros U V HU HV. rewrite (weak_form U V), (weak_form V U).
    rewrite (qsum_ext 1 (my d) _ (fun j => qsum 1 (mx d) (fun i => U i j * (flux (wx B j) (fun i => V i j) i - flux (wx B j) (fun i => V i j) (i - 1)%Z)))%Q
      (fun j Hj => row_sym (mx d) (wx B j) (fun i => U i j) (fun i => V i j) (cond 0) (cond 1) Hmx (meets_rows U j Hj HU) (meets_rows V j Hj HV))).
    rewrite (qsum_ext 1 (mx d) _ (fun i => qsum 1 (my d) (fun j => U i j * (flux (wy B i) (fun j => V i j) j - flux (wy B i) (fun j => V i j) (j - 1)%Z)))%Q
      (fun i Hi => row_sym (my d) (wy B i) (fun j => U i j) (fun j => V i j) (cond 2) (cond 3) Hmy (meets_cols U i Hi HU) (meets_cols V i Hi HV))).
    rewrite (qsum_ext 1 (mx d) (fun i => qsum 1 (my d) (fun j => V i j * U i j)%Q) (fun i => qsum 1 (my d) (fun j => U i j * V i j)%Q)); [reflexivity|].
    intros i Hi. apply qsum_ext. intros j Hj. ring.
  Qed.

  Lemma plane_total : forall U, (forall f, 0 <= f < 4 -> cond f = Slope) -> (forall f, 0 <= f < 4 -> meets d hx hy f (cond f) zero U) ->
    (qsum 1 (mx d) (fun i => qsum 1 (my d) (fun j => divg hx hy B U i j + l * U i j)) == l * qsum 1 (mx d) (fun i => qsum 1 (my d) (fun j => U i j)))%Q.
  Proof.
    intros U HS HU.
    rewrite (qsum_ext 1 (mx d) _ (fun i => qsum 1 (my d) (fun j => 1 * (divg hx hy B U i j + l * U i j)))%Q)
      by (intros i Hi; apply qsum_ext; intros j Hj; ring).
    rewrite (weak_form U (fun _ _ => 1%Q)).
    rewrite (qsum_ext 1 (my d) _ (fun _ => 0 * 0)%Q).
    2:{ intros j Hj. rewrite (qsum_ext 1 (mx d) _ (fun i => flux (wx B j) (fun i => U i j) i - flux (wx B j) (fun i => U i j) (i - 1)%Z)%Q) by (intros; ring).
        pose proof (meets_rows U j Hj HU) as M. rewrite (HS 0), (HS 1) in M by lia. rewrite (row_total _ _ _ Hmx M). ring. }
    rewrite (qsum_scale 1 (my d) 0 (fun _ => 0%Q)).
    rewrite (qsum_ext 1 (mx d) (fun i => qsum 1 (my d) (fun j => 1 * (flux (wy B i) (fun j => U i j) j - flux (wy B i) (fun j => U i j) (j - 1)%Z)))%Q (fun _ => 0 * 0)%Q).
    2:{ intros i Hi. rewrite (qsum_ext 1 (my d) _ (fun j => flux (wy B i) (fun j => U i j) j - flux (wy B i) (fun j => U i j) (j - 1)%Z)%Q) by (intros; ring).
        pose proof (meets_cols U i Hi HU) as M. rewrite (HS 2), (HS 3) in M by lia. rewrite (row_total _ _ _ Hmy M). ring. }
    rewrite (qsum_scale 1 (mx d) 0 (fun _ => 0%Q)).
    rewrite (qsum_ext 1 (mx d) (fun i => qsum 1 (my d) (fun j => 1 * U i j)%Q) (fun i => qsum 1 (my d) (fun j => U i j)%Q)).
    - ring.
    - intros i Hi. apply qsum_ext. intros j Hj. ring.
  Qed.
End Plane.

(** a mesh of patches *)
Section Mesh.
  Variable p : problem.
  Variable d : dims.
  Hypothesis HU : usable d.
  Variable P R : Z.
  Variable hx hy : Q.
  Hypothesis Hx : (0 < hx)%Q.
  Hypothesis Hy : (0 < hy)%Q.
  Variable beta : Z -> Z -> arr.
  Hypothesis HR : forall a b, in_mesh P R a b -> ready (problem_part d a b p) d (beta a b).

  Local Notation info := (Spec_Elliptic2.info P R hx hy).
  Local Notation yields := (Spec_Elliptic2.yields p d P R hx hy beta).
  Local Notation homogeneous := (Spec_Elliptic2.homogeneous p d P R hx hy).

  Lemma part_left : forall a b U m i j,
    left_side (problem_part d a b p) hx hy (field (part d a b U) m) i j = left_side p hx hy (field U m) (a * mx d + i) (b * my d + j).
  Proof.
    intros a b U m i j. destruct p; cbn [left_side problem_part]; unfold lap, divg, field, part; rewrite ?Z.add_assoc, ?Z.add_sub_assoc; reflexivity.
  Qed.

  Lemma part_meets : forall U m a b s, 1 <= m <= meqn d -> in_mesh P R a b -> homogeneous U -> 0 <= s < 4 -> mesh_nbr P R a b s = false ->
    meets d hx hy s (cond_of (problem_part d a b p) s) zero (field (part d a b U) m).
  Proof.
    intros U m a b s Hm (Ha & Hb) H Hs N. destruct HU as (U1 & U2 & _).
    replace (cond_of (problem_part d a b p) s) with (cond_of p s) by (destruct p; reflexivity).
    intros k Hk. pose proof (H s m Hs Hm) as M. unfold meets, side_len in *. unfold mesh_nbr in N. unfold ghost_at, inside_at, on, field, part, whole, zero in *.
    four_sides s; cbn [mx my] in M.
    - apply Z.ltb_ge in N. assert (a = 0) by lia. subst a. apply (M (b * my d + k)). nia.
    - apply Z.ltb_ge in N. assert (a = P - 1) by lia. subst a.
      replace ((P - 1) * mx d + (mx d + 1)) with (P * mx d + 1) by lia. replace ((P - 1) * mx d + mx d) with (P * mx d) by lia. apply (M (b * my d + k)). nia.
    - apply Z.ltb_ge in N. assert (b = 0) by lia. subst b. apply (M (a * mx d + k)). nia.
    - apply Z.ltb_ge in N. assert (b = R - 1) by lia. subst b.
      replace ((R - 1) * my d + (my d + 1)) with (R * my d + 1) by lia. replace ((R - 1) * my d + my d) with (R * my d) by lia. apply (M (a * mx d + k)). nia.
  Qed.

  Theorem mesh_ok : forall U, homogeneous U -> yields U (fun I J m => left_side p hx hy (field U m) I J).
  Proof.
    intros U H a b u f Hab Hu.
    assert (Nx : ~ (hx == 0)%Q) by lra. assert (Ny : ~ (hy == 0)%Q) by lra.
    destruct (apply_ok (problem_part d a b p) d HU (info a b) Nx Ny (beta a b) (HR a b Hab) u f (part d a b U) Hu) as (u' & f' & E & (B1 & _) & _).
    - intros s m Hs N Hm. cbn [has_nbr Spec_Elliptic2.info sx sy] in *. now apply part_meets.
    - exists u', f'. split.
      + rewrite <- E. destruct p; reflexivity.
      + intros i j m I. destruct (B1 i j m I) as (v & Ev & V). exists v. split; [exact Ev|]. cbn [sx sy Spec_Elliptic2.info] in V. rewrite V, part_left. reflexivity.
  Qed.

  Lemma locate : forall n N I, 1 <= n -> 1 <= I <= N * n -> exists a i, 0 <= a < N /\ 1 <= i <= n /\ I = a * n + i.
  Proof.
    intros n N I Hn HI. exists ((I - 1) / n), ((I - 1) mod n + 1).
    pose proof (Z.div_mod (I - 1) n ltac:(lia)). pose proof (Z.mod_pos_bound (I - 1) n ltac:(lia)).
    assert (0 <= (I - 1) / n) by (apply Z.div_pos; lia). assert ((I - 1) / n < N) by (apply Z.div_lt_upper_bound; lia). lia.
  Qed.

  Lemma yields_value : forall U F I J m, homogeneous U -> yields U F -> 1 <= I <= P * mx d -> 1 <= J <= R * my d -> 1 <= m <= meqn d ->
    (F I J m == left_side p hx hy (field U m) I J)%Q.
  Proof.
    intros U F I J m HO HY HI HJ Hm. destruct HU as (U1 & U2 & U3 & U4).
    destruct (locate (mx d) P I U1 HI) as (a & i & Ha & Hi & ->). destruct (locate (my d) R J U2 HJ) as (b & j & Hb & Hj & ->).
    set (u := fun c : cell => let '(i, j, m) := c in Some (part d a b U i j m)).
    assert (Hu : holds_with d (mesh_nbr P R a b) u (part d a b U)).
    { split; [intros i' j' m' _; reflexivity|]. intros f k m' _ _ _ _. unfold u, on, field. destruct (ghost_at d f k) as [i' j']. reflexivity. }
    destruct (HY a b u u (conj Ha Hb) Hu) as (u1 & f1 & E1 & V1). destruct (mesh_ok U HO a b u u (conj Ha Hb) Hu) as (u2 & f2 & E2 & V2).
    rewrite E1 in E2. assert (f1 = f2) by congruence. subst f2.
    assert (IN : interior d (i, j, m)) by (unfold interior; lia).
    destruct (V1 i j m IN) as (v & Ev & Q1). destruct (V2 i j m IN) as (v' & Ev' & Q2). rewrite Ev in Ev'. assert (v = v') by congruence. subst v'.
    unfold part in Q1, Q2. rewrite <- Q1, <- Q2. reflexivity.
  Qed.

  Hypothesis HP : 1 <= P.
  Hypothesis HRr : 1 <= R.

  Lemma whole_pos : 1 <= mx (whole d P R) /\ 1 <= my (whole d P R).
  Proof. destruct HU as (U1 & U2 & _). unfold whole. cbn [mx my]. nia. Qed.

  Theorem mesh_symmetric : forall U V F G m, homogeneous U -> homogeneous V -> yields U F -> yields V G -> 1 <= m <= meqn d ->
    (qsum 1 (P * mx d) (fun I => qsum 1 (R * my d) (fun J => V I J m * F I J m)) ==
     qsum 1 (P * mx d) (fun I => qsum 1 (R * my d) (fun J => U I J m * G I J m)))%Q.
  Proof.
    intros U V F G m HOU HOV HF HG Hm. assert (Nx : ~ (hx == 0)%Q) by lra. assert (Ny : ~ (hy == 0)%Q) by lra.
    destruct whole_pos as (W1 & W2).
    pose proof (plane_sym (whole d P R) W1 W2 hx hy (extra p) Hx Hy (coef p) (cond_of p) (field U m) (field V m) (fun s Hs => HOU s m Hs Hm) (fun s Hs => HOV s m Hs Hm)) as S.
    cbn [mx my whole] in S.
    rewrite (qsum_ext 1 (P * mx d) (fun I => qsum 1 (R * my d) (fun J => V I J m * F I J m)%Q)
      (fun i => qsum 1 (R * my d) (fun j => field V m i j * (divg hx hy (coef p) (field U m) i j + extra p * field U m i j))%Q)).
    2:{ intros I HI. apply qsum_ext. intros J HJ. rewrite (yields_value U F I J m), left_side_ell by assumption. reflexivity. }
    rewrite S. apply qsum_ext. intros I HI. apply qsum_ext. intros J HJ. rewrite (yields_value V G I J m), left_side_ell by assumption. reflexivity.
  Qed.

  Theorem mesh_total : forall U F m, (forall f, 0 <= f < 4 -> cond_of p f = Slope) -> homogeneous U -> yields U F -> 1 <= m <= meqn d ->
    (qsum 1 (P * mx d) (fun I => qsum 1 (R * my d) (fun J => F I J m)) ==
     extra p * qsum 1 (P * mx d) (fun I => qsum 1 (R * my d) (fun J => U I J m)))%Q.
  Proof.
    intros U F m HS HO HF Hm. assert (Nx : ~ (hx == 0)%Q) by lra. assert (Ny : ~ (hy == 0)%Q) by lra.
    destruct whole_pos as (W1 & W2).
    pose proof (plane_total (whole d P R) W1 W2 hx hy (extra p) Hx Hy (coef p) (cond_of p) (field U m) HS (fun s Hs => HO s m Hs Hm)) as T.
    cbn [mx my whole] in T. change (fun I => qsum 1 (R * my d) (fun J => U I J m)) with (fun I => qsum 1 (R * my d) (fun J => field U m I J)). rewrite <- T.
    apply qsum_ext. intros I HI. apply qsum_ext. intros J HJ. rewrite (yields_value U F I J m), left_side_ell by assumption. reflexivity.
  Qed.

  Theorem mesh_unique : forall U V F G m, well_posed (whole d P R) p -> homogeneous U -> homogeneous V -> yields U F -> yields V G -> 1 <= m <= meqn d ->
    (forall I J, 1 <= I <= P * mx d -> 1 <= J <= R * my d -> (F I J m == G I J m)%Q) ->
    forall I J, 1 <= I <= P * mx d -> 1 <= J <= R * my d -> (U I J m == V I J m)%Q.
  Proof.
    intros U V F G m WP HOU HOV HF HG Hm E. assert (Nx : ~ (hx == 0)%Q) by lra. assert (Ny : ~ (hy == 0)%Q) by lra.
    destruct whole_pos as (W1 & W2).
    assert (Z0 : forall i j, 1 <= i <= mx (whole d P R) -> 1 <= j <= my (whole d P R) -> (U i j m - V i j m == 0)%Q).
    { apply (plane_zero (whole d P R) W1 W2 hx hy (extra p) Hx Hy) with (B := coef p) (U := fun i j => (U i j m - V i j m)%Q) (cond := cond_of p).
      - destruct p; cbn [extra well_posed] in *; try lra; apply WP.
      - destruct p; cbn [coef well_posed] in *; intros; try lra. now apply WP.
      - intros f Hf k Hk. pose proof (HOU f m Hf Hm k Hk) as A. pose proof (HOV f m Hf Hm k Hk) as B. unfold on, field, zero, bc_at in *.
        assert (Ns : ~ (spacing hx hy f == 0)%Q) by (unfold spacing; destruct (f <? 2); assumption).
        destruct (cond_of p f).
        + match type of A with (?x == _)%Q => match type of B with (?y == _)%Q => transitivity (x - y)%Q; [field|rewrite A, B; reflexivity] end end.
        + match type of A with (?x == _)%Q => match type of B with (?y == _)%Q => transitivity (x - y)%Q; [field; exact Ns|rewrite A, B; reflexivity] end end.
      - intros i j Hi Hj. cbn [mx my whole] in Hi, Hj.
        pose proof (E i j Hi Hj) as X. rewrite (yields_value U F i j m), (yields_value V G i j m), !left_side_ell in X by assumption.
        unfold field in X.
        assert (L : (divg hx hy (coef p) (fun i j => U i j m - V i j m)%Q i j ==
          divg hx hy (coef p) (fun i j => U i j m) i j - divg hx hy (coef p) (fun i j => V i j m) i j)%Q) by (unfold divg, mean2; field; auto).
        rewrite L. lra.
      - destruct p; cbn [cond_of well_posed extra] in *; [right; exists 0; split; [lia|reflexivity]|right; exists 0; split; [lia|reflexivity]|apply WP]. }
    intros I J HI HJ. pose proof (Z0 I J HI HJ). lra.
  Qed.
End Mesh.
