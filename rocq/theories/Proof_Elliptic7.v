(** The three problems at once, on a patch and on a mesh. *)
From Coq Require Import ZArith QArith List Lia Lqa Bool Qfield.
From Verif Require Import Base_Float Model_Face Model_Grid Spec_Grid Proof_Grid Proof_Grid2 Proof_Tag Proof_Diag Proof_Sync Model_Elliptic Spec_Elliptic Spec_Elliptic2
  Proof_Elliptic1 Proof_Elliptic2 Proof_Elliptic3 Proof_Elliptic6.
Import ListNotations.
Open Scope Z_scope.

Definition coef (p : problem) : Z -> Z -> Q := match p with VarPoisson B => B | _ => fun _ _ => 1%Q end.
Definition extra (p : problem) : Q := match p with Heat _ l => l | _ => 0%Q end.
Definition closer (p : problem) : Z -> Q -> Q := fun s =>
  match p with Heat c _ => fun x => (heat_sign (codes c) s * x)%Q | _ => Qopp end.

Lemma left_side_ell : forall p hx hy U i j, ~ (hx == 0)%Q -> ~ (hy == 0)%Q ->
  (left_side p hx hy U i j == divg hx hy (coef p) U i j + extra p * U i j)%Q.
Proof.
  intros p hx hy U i j Hx Hy. destruct p; cbn [left_side coef extra].
  - rewrite lap_divg by assumption. ring.
  - ring.
  - rewrite lap_divg by assumption. reflexivity.
Qed.

Section P.
  Variable p : problem.
  Variable d : dims.
  Hypothesis HU : usable d.
  Variable pi : pinfo.
  Hypothesis Hx : ~ (sx pi == 0)%Q.
  Hypothesis Hy : ~ (sy pi == 0)%Q.
  Variable beta : arr.
  Hypothesis HR : ready p d beta.

  Lemma beta_layer : match p with VarPoisson B =>
    forall i j, (0 <= i <= mx d + 1 /\ 1 <= j <= my d) \/ (1 <= i <= mx d /\ 0 <= j <= my d + 1) -> beta (i, j, 1) = Some (B i j) | _ => True end.
  Proof.
    destruct p as [|B|]; try exact I. destruct HR as (R1 & R2). intros i j H.
    assert (C : forall f k, 0 <= f < 4 -> 1 <= k <= side_len d f -> beta (ghost_at d f k, 1) = Some (on B (ghost_at d f k))).
    { intros f k Hf Hk. apply (R2 f k 1 Hf eq_refl Hk). cbn [meqn bd]. lia. }
    destruct H as [[Hi Hj]|[Hi Hj]].
    - destruct (Z.eq_dec i 0) as [->|]; [apply (C 0 j ltac:(lia) Hj)|].
      destruct (Z.eq_dec i (mx d + 1)) as [->|]; [apply (C 1 j ltac:(lia) Hj)|].
      apply (R1 i j 1). unfold interior. cbn [mx my meqn bd]. lia.
    - destruct (Z.eq_dec j 0) as [->|]; [apply (C 2 i ltac:(lia) Hi)|].
      destruct (Z.eq_dec j (my d + 1)) as [->|]; [apply (C 3 i ltac:(lia) Hi)|].
      apply (R1 i j 1). unfold interior. cbn [mx my meqn bd]. lia.
  Qed.

  Definition stencil (u : arr) (i j m : Z) : option Q :=
    match p with
    | Poisson => laplacian d pi u i j m
    | VarPoisson _ => divgrad d pi beta u i j m
    | Heat _ l => bind (rd d u (vw i j m)) (fun uij => bind (laplacian d pi u i j m) (fun lap => Some (lap + l * uij)%Q))
    end.
  Lemma stencil_ok : forall u U i j m, layer_holds d u U -> interior d (i, j, m) ->
    exists v, stencil u (i - 1) (j - 1) (m - 1) = Some v /\ (v == ell pi (coef p) (extra p) U m i j)%Q.
  Proof.
    intros u U i j m L I. pose proof beta_layer as BL. unfold stencil, ell. destruct p as [|B|c l]; cbn [coef extra].
    - destruct (laplacian_ok d HU pi u U i j m Hx Hy L I) as (v & E & V). exists v. split; [exact E|]. rewrite V, lap_divg by assumption. ring.
    - destruct (divgrad_ok d HU pi beta u (fun i j _ => B i j) U i j m Hx Hy BL L I) as (v & E & V). exists v. split; [exact E|]. rewrite V. change (field (fun i j _ => B i j) 1) with B. ring.
    - destruct (laplacian_ok d HU pi u U i j m Hx Hy L I) as (v & E & V).
      assert (R : exists w, rd d u (vw (i - 1) (j - 1) (m - 1)) = Some w /\ (w == U i j m)%Q).
      { unfold vw. replace (i - 1 + 1) with i by lia. replace (j - 1 + 1) with j by lia. replace (m - 1 + 1) with m by lia.
        unfold interior in I. apply (layer_rd d HU); [exact L|lia|lia]. }
      destruct R as (w & Ew & Vw). rewrite Ew. cbn [bind]. rewrite E. cbn [bind]. eexists. split; [reflexivity|].
      rewrite V, Vw, lap_divg by assumption. reflexivity.
  Qed.

  Lemma apply_run : forall u f, apply_of p d pi beta u f = run d pi stencil (closer p) u f.
  Proof.
    intros u f. unfold apply_of, run, stencil, closer. destruct p as [|B|c l]; try reflexivity.
    unfold heat_apply. cbn [ready] in HR. replace (Qle_bool l 0) with true by (symmetry; now apply Qle_bool_iff). reflexivity.
  Qed.
  Lemma internal_run : forall u f, internal_of p d pi beta u f = run_internal d pi stencil (closer p) u f.
  Proof.
    intros u f. unfold run_internal.
    transitivity (bind (fill_sides d (has_nbr pi) (fun _ => Qopp) u) (fun u => apply_of p d pi beta u f)); [destruct p; reflexivity|].
    destruct (fill_sides d (has_nbr pi) (fun _ => Qopp) u); [|reflexivity]. cbn [bind]. apply apply_run.
  Qed.

  (** the ghost cells of data that meet the conditions *)
  Lemma closer_ok : forall s h x y, 0 <= s < 4 -> ~ (h == 0)%Q -> bc_at h (cond_of p s) 0 x y -> (closer p s y == x)%Q.
  Proof.
    intros s h x y Hs Hh H. unfold closer, cond_of, bc_at in *.
    assert (V : ((x + y) / 2 == 0)%Q -> (- y == x)%Q).
    { intros E. assert (X : (x + y == 2 * ((x + y) / 2))%Q) by field. rewrite E in X. lra. }
    destruct p as [|B|c l]; try (now apply V). unfold heat_sign, codes. destruct (c s); cbn [bc_code].
    - change (inject_Z (2 * 1 - 3)) with (-1)%Q. rewrite <- (V H). ring.
    - change (inject_Z (2 * 2 - 3)) with 1%Q. assert (X : (x - y == h * ((x - y) / h))%Q) by (field; exact Hh). rewrite H in X. lra.
  Qed.
  Lemma opp_ok : forall h x y, bc_at h Value 0 x y -> (- y == x)%Q.
  Proof.
    intros h x y E. unfold bc_at in E. assert (X : (x + y == 2 * ((x + y) / 2))%Q) by field. rewrite E in X. lra.
  Qed.
  Lemma spacing_nz : forall s, ~ (spacing (sx pi) (sy pi) s == 0)%Q.
  Proof. intros s. unfold spacing. destruct (s <? 2); assumption. Qed.

  Lemma ell_same : forall U V m i j, same_layer d U V m -> interior d (i, j, m) ->
    (ell pi (coef p) (extra p) U m i j == ell pi (coef p) (extra p) V m i j)%Q.
  Proof.
    intros U V m i j S (Hi & Hj & Hm). unfold ell. rewrite (same_divg d _ _ _ U V m i j S Hi Hj). destruct S as (S1 & _). rewrite (S1 i j Hi Hj). reflexivity.
  Qed.

  Lemma inside_range : forall s k, 0 <= s < 4 -> 1 <= k <= side_len d s ->
    1 <= fst (inside_at d s k) <= mx d /\ 1 <= snd (inside_at d s k) <= my d.
  Proof. intros s k Hs Hk. destruct HU as (U1 & U2 & _). unfold side_len in Hk. unfold inside_at. four_sides s; lia. Qed.

  (** data closed by the rules, data that meet them *)
  Lemma closed_physical : forall U m, 1 <= m <= meqn d ->
    (forall s, 0 <= s < 4 -> has_nbr pi s = false -> meets d (sx pi) (sy pi) s (cond_of p s) zero (field U m)) ->
    same_layer d (closing d (fun s => negb (has_nbr pi s)) (closer p) U) U m.
  Proof.
    intros U m Hm H. split.
    - intros i j Hi Hj. rewrite closing_inside by assumption. reflexivity.
    - intros s k Hs Hk. rewrite closing_ghost by assumption. destruct (has_nbr pi s) eqn:N; cbn [negb]; [reflexivity|].
      apply (closer_ok s (spacing (sx pi) (sy pi) s)); [exact Hs|apply spacing_nz|]. apply (H s Hs N k Hk).
  Qed.
  Lemma closed_all : forall U m, 1 <= m <= meqn d ->
    (forall s, 0 <= s < 4 -> meets d (sx pi) (sy pi) s (if has_nbr pi s then Value else cond_of p s) zero (field U m)) ->
    same_layer d (closing d (fun _ => true) (fun s => if has_nbr pi s then Qopp else closer p s) U) U m.
  Proof.
    intros U m Hm H. split.
    - intros i j Hi Hj. rewrite closing_inside by assumption. reflexivity.
    - intros s k Hs Hk. rewrite closing_ghost by assumption. pose proof (H s Hs k Hk) as X. destruct (has_nbr pi s) eqn:N.
      + apply (opp_ok _ _ _ X).
      + apply (closer_ok s (spacing (sx pi) (sy pi) s)); [exact Hs|apply spacing_nz|exact X].
  Qed.

  Theorem apply_ok : forall u f U, holds_with d (has_nbr pi) u U ->
    (forall s m, 0 <= s < 4 -> has_nbr pi s = false -> 1 <= m <= meqn d ->
       meets d (sx pi) (sy pi) s (cond_of p s) zero (field U m)) ->
    exists u' f', apply_of p d pi beta u f = Some (u', f') /\
      becomes d f f' (fun i j m => left_side p (sx pi) (sy pi) (field U m) i j) /\
      (forall c, ~ beyond_side d (fun s => negb (has_nbr pi s)) c -> u' c = u c).
  Proof.
    intros u f U H M. rewrite apply_run.
    destruct (run_ok d HU pi (coef p) (extra p) stencil stencil_ok (closer p) u f U H) as (u' & f' & E & (B1 & B2) & C).
    exists u', f'. split; [exact E|]. split; [|exact C]. split; [|exact B2]. intros i j m I. destruct (B1 i j m I) as (v & Ev & V).
    exists v. split; [exact Ev|]. rewrite V, left_side_ell by assumption. apply (ell_same _ U m i j); [|exact I].
    unfold interior in I. apply closed_physical; [lia|]. intros s Hs N. apply M; [exact Hs|exact N|lia].
  Qed.

  Theorem internal_ok : forall u f U, holds d u U ->
    (forall s m, 0 <= s < 4 -> 1 <= m <= meqn d ->
       meets d (sx pi) (sy pi) s (if has_nbr pi s then Value else cond_of p s) zero (field U m)) ->
    exists u' f', internal_of p d pi beta u f = Some (u', f') /\
      becomes d f f' (fun i j m => left_side p (sx pi) (sy pi) (field U m) i j) /\
      (forall c, ~ beyond_side d (fun _ => true) c -> u' c = u c).
  Proof.
    intros u f U H M. rewrite internal_run.
    destruct (run_internal_ok d HU pi (coef p) (extra p) stencil stencil_ok (closer p) u f U H) as (u' & f' & E & (B1 & B2) & C).
    exists u', f'. split; [exact E|]. split; [|exact C]. split; [|exact B2]. intros i j m I. destruct (B1 i j m I) as (v & Ev & V).
    exists v. split; [exact Ev|]. rewrite V, left_side_ell by assumption. apply (ell_same _ U m i j); [|exact I].
    unfold interior in I. apply closed_all; [lia|]. intros s Hs. apply M; [exact Hs|lia].
  Qed.

  Lemma gets_ext : forall U bf bf' i j m, (forall s k, 0 <= s < 4 -> 1 <= k <= side_len d s -> (bf s k == bf' s k)%Q) -> interior d (i, j, m) ->
    (gets d pi U bf i j m == gets d pi U bf' i j m)%Q.
  Proof.
    intros U bf bf' i j m H (Hi & Hj & _). unfold gets, term.
    assert (E0 := H 0 j ltac:(lia) Hj). assert (E1 := H 1 j ltac:(lia) Hj). assert (E2 := H 2 i ltac:(lia) Hi). assert (E3 := H 3 i ltac:(lia) Hi).
    destruct (i =? 1), (i =? mx d), (j =? 1), (j =? my d), (has_nbr pi 0), (has_nbr pi 1), (has_nbr pi 2), (has_nbr pi 3); rewrite ?E0, ?E1, ?E2, ?E3; reflexivity.
  Qed.

  (** the coefficient as the routines write it *)
  Definition coef_at (s k : Z) : Q :=
    match p with
    | VarPoisson B =>
        if s =? 0 then ((B 1%Z k + B 0%Z k) / 2)%Q else if s =? 1 then ((B (mx d + 1)%Z k + B (mx d) k) / 2)%Q
        else if s =? 2 then ((B k 1%Z + B k 0%Z) / 2)%Q else ((B k (my d + 1)%Z + B k (my d)) / 2)%Q
    | _ => 1%Q
    end.
  Lemma coef_at_mean : forall s k, 0 <= s < 4 -> (coef_at s k == face_mean d (coef p) s k)%Q.
  Proof.
    intros s k Hs. unfold coef_at, face_mean, coef, ghost_at, inside_at, on, mean2. destruct p as [|B|c l]; [reflexivity| |reflexivity].
    four_sides s; field.
  Qed.

  Lemma modify_of_ok : forall u f U F, holds_with d (has_nbr pi) u U -> holds d f F ->
    exists r, modify_of p d pi beta u f = Some r /\ becomes d f r (fun i j m => F i j m + gets d pi U (face_mean d (coef p)) i j m)%Q.
  Proof.
    intros u f U F Hu HF. pose proof beta_layer as BL.
    assert (K : exists r, modify_of p d pi beta u f = Some r /\ becomes d f r (fun i j m => F i j m + gets d pi U coef_at i j m)%Q).
    { unfold modify_of, coef_at.
      assert (BR : forall i j, (0 <= i <= mx d + 1 /\ 1 <= j <= my d) \/ (1 <= i <= mx d /\ 0 <= j <= my d + 1) ->
        match p with VarPoisson B => forall i' j', i' = i - 1 -> j' = j - 1 -> b_at d beta i' j' = Some (B i j) | _ => True end).
      { intros i j H. destruct HU as (U1 & U2 & U3 & U4). destruct p as [|B|]; try exact I. intros i' j' -> ->. unfold b_at, rd, vw.
        replace (i - 1 + 1) with i by lia. replace (j - 1 + 1) with j by lia. change (0 + 1) with 1.
        assert (IN : in_q (bd d) (i, j, 1) = true) by (apply in_q_iff; cbn [mx my mbc meqn bd]; lia). rewrite IN. now apply BL. }
      destruct HU as (U1 & U2 & U3 & U4). destruct p as [|B|c l].
      1, 3: now apply (modify_ok d HU pi u U Hu).
      apply (modify_ok d HU pi u U Hu); [| | | |exact HF]; intros k _ Hk; unfold half; cbn [Z.eqb Pos.eqb].
      - rewrite (BR 1 k ltac:(lia) 0 (k - 1)), (BR 0 k ltac:(lia) (0 - 1) (k - 1)) by lia. reflexivity.
      - rewrite (BR (mx d + 1) k ltac:(lia) (mx d) (k - 1)), (BR (mx d) k ltac:(lia) (mx d - 1) (k - 1)) by lia. reflexivity.
      - rewrite (BR k 1 ltac:(lia) (k - 1) 0), (BR k 0 ltac:(lia) (k - 1) (0 - 1)) by lia. reflexivity.
      - rewrite (BR k (my d + 1) ltac:(lia) (k - 1) (my d)), (BR k (my d) ltac:(lia) (k - 1) (my d - 1)) by lia. reflexivity. }
    destruct K as (r & E & (B1 & B2)). exists r. split; [exact E|]. split; [|exact B2]. intros i j m I. destruct (B1 i j m I) as (v & Ev & V).
    exists v. split; [exact Ev|]. rewrite V, (gets_ext U coef_at (face_mean d (coef p)) i j m); [reflexivity| |exact I].
    intros s k Hs _. now apply coef_at_mean.
  Qed.

  (** the patch problem with the moved right hand side has the same residual *)
  Theorem residual_ok : forall u f U F fx fy, holds_with d (has_nbr pi) u U -> holds d f F ->
    exists ux x uy y z, apply_of p d pi beta u fx = Some (ux, x) /\ internal_of p d pi beta u fy = Some (uy, y) /\
      modify_of p d pi beta u f = Some z /\ (forall c, ~ interior d c -> z c = f c) /\
      forall i j m, interior d (i, j, m) -> exists vx vy vz,
        x (i, j, m) = Some vx /\ y (i, j, m) = Some vy /\ z (i, j, m) = Some vz /\ (vy - vz == vx - F i j m)%Q.
  Proof.
    intros u f U F fx fy Hu HF.
    destruct (run_ok d HU pi (coef p) (extra p) stencil stencil_ok (closer p) u fx U Hu) as (ux & x & Ex & (X1 & _) & _).
    destruct (run_internal_ok d HU pi (coef p) (extra p) stencil stencil_ok (closer p) u fy U (proj1 Hu)) as (uy & y & Ey & (Y1 & _) & _).
    destruct (modify_of_ok u f U F Hu HF) as (z & Ez & (Z1 & Z2)).
    exists ux, x, uy, y, z. rewrite apply_run, internal_run. split; [exact Ex|]. split; [exact Ey|]. split; [exact Ez|]. split; [exact Z2|].
    intros i j m I. destruct (X1 i j m I) as (vx & Vx & Qx). destruct (Y1 i j m I) as (vy & Vy & Qy). destruct (Z1 i j m I) as (vz & Vz & Qz).
    exists vx, vy, vz. split; [exact Vx|]. split; [exact Vy|]. split; [exact Vz|].
    rewrite Qx, Qy, Qz, (residual d HU pi Hx Hy (coef p) (extra p) U (closer p) i j m I). ring.
  Qed.
End P.
