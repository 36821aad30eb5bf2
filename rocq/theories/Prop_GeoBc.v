(** C80: GeoClaw's boundary conditions. *)
From Coq Require Import ZArith QArith List Lia Bool Lqa.
From Verif Require Import Base_Float Model_Face Model_Mesh Model_Grid Model_Fill Spec_Grid Proof_Grid Model_Bc Spec_Bc Proof_Bc Model_GeoBc Spec_GeoBc Proof_GeoBc.
Import ListNotations.
Open Scope Z_scope.

Definition faces_of (l : list bool) (f : Z) : bool := nth (Z.to_nat f) l false.

(** Every element of q, and the bathymetry (component meqn + 1), gets the value prescribed by the boundary conditions;
    nothing is accessed outside of the arrays and nothing outside is changed. *)
Theorem C80_values : forall d mthbc faces w,
  0 <= mbc d -> mbc d <= mx d -> mbc d <= my d -> 3 <= meqn d -> none_missing mthbc (faces_of faces) ->
  exists w', geo_bc2 d mthbc faces w = Some w' /\
    (forall i j m, cell_in d i j -> 1 <= m <= meqn d + 1 ->
       w' (i, j, m) = bc_value d (geo_side mthbc (faces_of faces)) w i j m) /\
    (forall i j m, ~ (cell_in d i j /\ 1 <= m <= meqn d + 1) -> w' (i, j, m) = w (i, j, m)).
Proof.
  intros d k faces w Hb Hx Hy Hm HN.
  destruct (geo_ok d Hb Hx Hy Hm (geo_side k (faces_of faces)) (fun f => if nth (Z.to_nat f) faces false then k f else -1) w) as (w' & E & A).
  - intros f Hf. specialize (HN f Hf). unfold geo_side. unfold faces_of in *. destruct (nth (Z.to_nat f) faces false); [|cbn [gcode]; lia].
    specialize (HN eq_refl). destruct (Z.eqb_spec (k f) 1); [assumption|]. destruct (Z.eqb_spec (k f) 3); [assumption|]. cbn [gcode]. lia.
  - exists w'. split; [exact E|]. split.
    + intros i j m [Hi Hj] Hm'. rewrite A. rewrite (four_sides (both d) Hb Hx Hy); [reflexivity|]. apply in_q_iff. cbn [both mx my mbc meqn]. lia.
    + intros i j m N. rewrite A. apply outside_same. destruct (in_q (both d) (i, j, m)) eqn:X; [|reflexivity].
      exfalso. apply N. apply in_q_iff in X. cbn [both mx my mbc meqn] in X. unfold cell_in. lia.
Qed.
Print Assumptions C80_values.

Lemma image_in : forall d a b n t, mbc d <= n -> 1 - mbc d <= t <= n + mbc d -> 1 - mbc d <= image a b n t <= n + mbc d /\
    image a b n (image a b n t) = image a b n t /\ mirrored a b n (image a b n t) = false.
Proof.
  intros d a b n t Hn Ht. unfold image, mirrored.
  destruct (Z.ltb_spec t 1); [|destruct (Z.ltb_spec n t)].
  all: destruct a, b; cbn [andb orb]; repeat rewrite andb_false_r; cbn [orb];
      repeat match goal with |- context [?x <? ?y] => destruct (Z.ltb_spec x y) end; cbn [andb orb]; first [exfalso; lia|split; [lia|split; [lia|reflexivity]]].
Qed.

(** Water at rest stays at rest: if it is at rest in the cells of the patch and in the ghost cells that other patches
    provide, then it is at rest, with the same surface, in every ghost cell, corners included. *)
Theorem C80_rest : forall d mthbc faces w w' eta,
  0 <= mbc d -> mbc d <= mx d -> mbc d <= my d -> 3 <= meqn d -> none_missing mthbc (faces_of faces) ->
  geo_bc2 d mthbc faces w = Some w' ->
  let s := geo_side mthbc (faces_of faces) in
  (forall i j, cell_in d i j -> (i < 1 -> s 0 = Continues) -> (mx d < i -> s 1 = Continues) ->
     (j < 1 -> s 2 = Continues) -> (my d < j -> s 3 = Continues) ->
     at_rest eta (w (i, j, meqn d + 1)) (w (i, j, 1)) (w (i, j, 2)) (w (i, j, 3))) ->
  forall i j, cell_in d i j -> at_rest eta (w' (i, j, meqn d + 1)) (w' (i, j, 1)) (w' (i, j, 2)) (w' (i, j, 3)).
Proof.
  intros d k faces w w' eta Hb Hx Hy Hm HN E s HR i j HC.
  destruct (C80_values d k faces w Hb Hx Hy Hm HN) as (w1 & E1 & A & _). rewrite E in E1. assert (w' = w1) by congruence. subst w1. clear E1.
  rewrite !A by (try assumption; lia). fold s. unfold bc_value.
  assert (X : forall a b n t, mbc d <= n -> 1 - mbc d <= t <= n + mbc d ->
    1 - mbc d <= image a b n t <= n + mbc d /\ (image a b n t < 1 -> a = Continues) /\ (n < image a b n t -> b = Continues)).
  { clear - Hb. intros a b n t Hn Ht. unfold image.
    destruct (Z.ltb_spec t 1); [|destruct (Z.ltb_spec n t)]; destruct a, b; repeat split; try lia; try reflexivity. }
  destruct HC as [Hi Hj].
  destruct (X (s 0) (s 1) (mx d) i Hx Hi) as (I1 & I2 & I3). destruct (X (s 2) (s 3) (my d) j Hy Hj) as (J1 & J2 & J3).
  set (i' := image (s 0) (s 1) (mx d) i) in *. set (j' := image (s 2) (s 3) (my d) j) in *.
  destruct (HR i' j' (conj I1 J1) I2 I3 J2 J3) as (b & h & u & v & -> & -> & -> & -> & U & V & H).
  destruct (Z.eqb_spec (meqn d + 1) 2); [lia|]. destruct (Z.eqb_spec (meqn d + 1) 3); [lia|].
  cbn [Z.eqb Pos.eqb option_map]. rewrite !andb_false_r, !andb_true_r. cbn [orb]. rewrite orb_false_r.
  destruct (mirrored (s 0) (s 1) (mx d) i), (mirrored (s 2) (s 3) (my d) j).
  - exists b, h, (- u)%Q, (- v)%Q. repeat split; try assumption; lra.
  - exists b, h, (- u)%Q, v. repeat split; try assumption; lra.
  - exists b, h, u, (- v)%Q. repeat split; try assumption; lra.
  - exists b, h, u, v. repeat split; try assumption; lra.
Qed.
Print Assumptions C80_rest.

(** Bathymetry and depth of a ghost cell come from one and the same cell, so that no step in the surface appears. *)
Theorem C80_same_cell : forall d mthbc faces w w',
  0 <= mbc d -> mbc d <= mx d -> mbc d <= my d -> 3 <= meqn d -> none_missing mthbc (faces_of faces) ->
  geo_bc2 d mthbc faces w = Some w' ->
  forall i j, cell_in d i j -> exists i' j', cell_in d i' j' /\
    (1 <= i <= mx d -> i' = i) /\ (1 <= j <= my d -> j' = j) /\
    w' (i, j, meqn d + 1) = w (i', j', meqn d + 1) /\ w' (i, j, 1) = w (i', j', 1).
Proof.
  intros d k faces w w' Hb Hx Hy Hm HN E i j [Hi Hj].
  destruct (C80_values d k faces w Hb Hx Hy Hm HN) as (w1 & E1 & A & _). rewrite E in E1. assert (w' = w1) by congruence. subst w1. clear E1.
  set (s := geo_side k (faces_of faces)) in *.
  exists (image (s 0) (s 1) (mx d) i), (image (s 2) (s 3) (my d) j).
  split; [split; apply image_in; assumption|].
  split; [intros; unfold image; destruct (Z.ltb_spec i 1), (Z.ltb_spec (mx d) i); lia|].
  split; [intros; unfold image; destruct (Z.ltb_spec j 1), (Z.ltb_spec (my d) j); lia|].
  rewrite !A by (unfold cell_in; lia). unfold bc_value.
  destruct (Z.eqb_spec (meqn d + 1) 2); [lia|]. destruct (Z.eqb_spec (meqn d + 1) 3); [lia|].
  cbn [Z.eqb Pos.eqb]. rewrite !andb_false_r. split; reflexivity.
Qed.
Print Assumptions C80_same_cell.

(** The conditions may be applied again; nothing changes. *)
Theorem C80_again : forall d mthbc faces w w',
  0 <= mbc d -> mbc d <= mx d -> mbc d <= my d -> 3 <= meqn d -> none_missing mthbc (faces_of faces) ->
  geo_bc2 d mthbc faces w = Some w' ->
  exists w'', geo_bc2 d mthbc faces w' = Some w'' /\ forall c, w'' c = w' c.
Proof.
  intros d k faces w w' Hb Hx Hy Hm HN E.
  destruct (C80_values d k faces w Hb Hx Hy Hm HN) as (w1 & E1 & A & B). rewrite E in E1. assert (w' = w1) by congruence. subst w1. clear E1.
  destruct (C80_values d k faces w' Hb Hx Hy Hm HN) as (w2 & E2 & A2 & B2).
  exists w2. split; [exact E2|]. intros [[i j] m]. destruct (in_q (both d) (i, j, m)) eqn:Hin.
  - apply in_q_iff in Hin. cbn [both mx my mbc meqn] in Hin. destruct Hin as (Hi & Hj & Hm').
    set (s := geo_side k (faces_of faces)) in *.
    destruct (image_in d (s 0) (s 1) (mx d) i Hx Hi) as (I1 & I2 & I3). destruct (image_in d (s 2) (s 3) (my d) j Hy Hj) as (J1 & J2 & J3).
    rewrite A2 by (unfold cell_in; lia). unfold bc_value at 1. cbn zeta.
    rewrite !A by (unfold cell_in; lia). unfold bc_value. rewrite !I2, !J2, !I3, !J3. cbn [andb orb]. reflexivity.
  - apply B2. intros [[Hi Hj] Hm']. assert (in_q (both d) (i, j, m) = true) by (apply in_q_iff; cbn [both mx my mbc meqn]; lia). congruence.
Qed.
Print Assumptions C80_again.

(** The run stops exactly when a side on the boundary has been left to the user. *)
Theorem C80_stop : forall d mthbc faces w,
  0 <= mbc d -> mbc d <= mx d -> mbc d <= my d -> 3 <= meqn d ->
  (geo_bc2 d mthbc faces w = None <-> exists f, 0 <= f < 4 /\ faces_of faces f = true /\ mthbc f = 0).
Proof.
  intros d k faces w Hb Hx Hy Hm. split.
  - intros E.
    assert (DEC : forall f, 0 <= f < 4 -> (faces_of faces f = true /\ k f = 0) \/ (faces_of faces f = true -> k f <> 0)).
    { intros f Hf. destruct (faces_of faces f); [|right; discriminate]. destruct (Z.eq_dec (k f) 0); [left|right]; auto. }
    destruct (DEC 0 ltac:(lia)) as [X0|N0]; [exists 0; split; [lia|exact X0]|].
    destruct (DEC 1 ltac:(lia)) as [X1|N1]; [exists 1; split; [lia|exact X1]|].
    destruct (DEC 2 ltac:(lia)) as [X2|N2]; [exists 2; split; [lia|exact X2]|].
    destruct (DEC 3 ltac:(lia)) as [X3|N3]; [exists 3; split; [lia|exact X3]|].
    exfalso. destruct (C80_values d k faces w Hb Hx Hy Hm) as (w1 & E1 & _); [|congruence].
    intros f Hf. assert (C : f = 0 \/ f = 1 \/ f = 2 \/ f = 3) by lia. destruct C as [->|[->|[->| ->]]]; assumption.
  - intros (f & Hf & F & K). unfold geo_bc2, geo_bc2_fort. unfold faces_of in F.
    assert (C : f = 0 \/ f = 1 \/ f = 2 \/ f = 3) by lia.
    destruct C as [->|[->|[->| ->]]]; rewrite F, K.
    + reflexivity.
    + destruct (geo_left d _ w); reflexivity.
    + destruct (geo_left d _ w) as [a|]; [|reflexivity]. cbn [bind]. destruct (geo_right d _ a); reflexivity.
    + destruct (geo_left d _ w) as [a|]; [|reflexivity]. cbn [bind]. destruct (geo_right d _ a) as [b|]; [|reflexivity]. cbn [bind]. destruct (geo_bottom d _ b); reflexivity.
Qed.
Print Assumptions C80_stop.

(** Refuted: "every side on the boundary of the domain gets boundary values": a periodic side (2) of a domain that the
    mesh does not connect there is left as it is, without an error. *)
Theorem C80_periodic_refuted : exists d mthbc faces w w' i j m,
  0 <= mbc d <= mx d /\ mbc d <= my d /\ 3 <= meqn d /\ none_missing mthbc (faces_of faces) /\
  (forall i j m, 1 <= i <= mx d -> 1 <= j <= my d -> w (i, j, m) = Some 1%Q) /\
  faces_of faces 0 = true /\ mthbc 0 = 2 /\
  geo_bc2 d mthbc faces w = Some w' /\ cell_in d i j /\ i < 1 /\ 1 <= m <= meqn d /\ w' (i, j, m) = None.
Proof.
  set (d := mkDims 2 2 2 3).
  set (w := fun c : cell => let '(i, j, m) := c in if (1 <=? i) && (i <=? 2) && (1 <=? j) && (j <=? 2) then Some 1%Q else None).
  destruct (C80_values d (fun _ => 2) [true; false; false; false] w) as (w' & E & A & _); try (cbn; lia); [intros f Hf F; lia|].
  exists d, (fun _ => 2), [true; false; false; false], w, w', 0, 1, 1.
  split; [cbn; lia|]. split; [cbn; lia|]. split; [cbn; lia|]. split; [intros f Hf F; lia|].
  split; [intros i j m Hi Hj; unfold w; cbn [d mx my] in Hi, Hj;
    destruct (Z.leb_spec 1 i), (Z.leb_spec i 2), (Z.leb_spec 1 j), (Z.leb_spec j 2); try lia; reflexivity|].
  split; [reflexivity|]. split; [reflexivity|]. split; [exact E|]. split; [unfold cell_in; cbn; lia|]. split; [lia|]. split; [cbn; lia|].
  rewrite A by (unfold cell_in; cbn; lia). reflexivity.
Qed.
Print Assumptions C80_periodic_refuted.

(** Instance: a lake with a wall on the left and an open top, sloping bottom. *)
Definition lake : arr := fun c => let '(i, j, m) := c in
  if m =? 4 then Some (inject_Z (i + j - 9)) else if m =? 1 then Some (inject_Z (9 - i - j)) else Some 0%Q.
Definition opts (f : Z) : Z := if f =? 0 then 3 else 1.
Example C80_instance :
  let d := mkDims 3 2 2 3 in let faces := [true; false; false; true] in
  0 <= mbc d /\ mbc d <= mx d /\ mbc d <= my d /\ 3 <= meqn d /\ none_missing opts (faces_of faces) /\
  (forall i j, cell_in d i j -> at_rest 0 (lake (i, j, meqn d + 1)) (lake (i, j, 1)) (lake (i, j, 2)) (lake (i, j, 3))) /\
  match geo_bc2 d opts faces lake with
  | Some w' => w' (-1, 4, 4) = lake (2, 2, 4) /\ w' (-1, 4, 1) = lake (2, 2, 1) /\ w' (0, 1, 2) = Some (- 0)%Q
  | None => False
  end.
Proof.
  cbv zeta. cbn [mbc mx my meqn]. split; [lia|]. split; [lia|]. split; [lia|]. split; [lia|].
  split; [intros f Hf _; unfold opts; destruct (f =? 0); lia|]. split.
  - intros i j _. unfold lake, at_rest. cbn [Z.eqb Pos.eqb Z.add Pos.add Pos.succ].
    exists (inject_Z (i + j - 9)), (inject_Z (9 - i - j)), 0%Q, 0%Q. repeat split; try reflexivity. left.
    rewrite <- inject_Z_plus. replace (9 - i - j + (i + j - 9)) with 0 by lia. reflexivity.
  - vm_compute. repeat split.
Qed.
