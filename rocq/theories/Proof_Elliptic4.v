(** Given boundary values: the right hand side. *)
From Coq Require Import ZArith QArith List Lia Lqa Bool Qfield.
From Verif Require Import Base_Float Model_Face Model_Grid Spec_Grid Proof_Grid Proof_Grid2 Proof_Tag Proof_Diag Model_Elliptic Spec_Elliptic
  Proof_Elliptic1 Proof_Elliptic2 Proof_Elliptic3.
Import ListNotations.
Open Scope Z_scope.

Lemma ghost_shift_ext : forall h c x y, (x == y)%Q -> (ghost_shift h c x == ghost_shift h c y)%Q.
Proof. intros h c x y E. unfold ghost_shift. destruct c; rewrite E; reflexivity. Qed.

Section Bc.
  Variable d : dims.
  Hypothesis HU : usable d.
  Variable xl yl hx hy t : Q.
  Hypothesis Hhx : ~ (hx == 0)%Q.
  Hypothesis Hhy : ~ (hy == 0)%Q.
  Variable intersects : Z -> bool.
  Variable bctype : Z -> Z.
  Variable g_bc : Z -> Q -> Q -> Q -> Q.
  Hypothesis Hg : respects g_bc.
  Variable cond : Z -> condition.
  Hypothesis Hc : forall f, 0 <= f < 4 -> intersects f = true -> bctype f = bc_code (cond f).

  Definition gv (f k : Z) : Q := ghost_shift (spacing hx hy f) (cond f) (given d xl yl hx hy t g_bc f k).

  Lemma usable1 : usable (d1 d).
  Proof. destruct HU as (U1 & U2 & U3 & U4). unfold usable, d1. cbn [mx my mbc meqn]. lia. Qed.

  (** q before face f is treated *)
  Definition qbefore (f : Z) : data := fun i j m =>
    if (i =? 0) && (0 <? f) && intersects 0 then gv 0 j else
    if (i =? mx d + 1) && (1 <? f) && intersects 1 then gv 1 j else
    if (j =? 0) && (2 <? f) && intersects 2 then gv 2 i else
    if (j =? my d + 1) && (3 <? f) && intersects 3 then gv 3 i else 0%Q.

  Definition dd (f : Z) : Q := match cond f with Value => (1 / 2 + 0 / spacing hx hy f)%Q | Slope => (0 / 2 + 1 / spacing hx hy f)%Q end.
  Lemma dd_ok : forall f x, 0 <= f < 4 -> ~ (dd f == 0)%Q /\ (x / dd f == ghost_shift (spacing hx hy f) (cond f) x)%Q.
  Proof.
    intros f x Hf. assert (Hs : ~ (spacing hx hy f == 0)%Q) by (unfold spacing; destruct (f <? 2); assumption).
    unfold dd, ghost_shift. destruct (cond f).
    - split; [|field; assumption]. intros X. assert (E : (1 / 2 + 0 / spacing hx hy f == 1 # 2)%Q) by (field; assumption). rewrite E in X. discriminate X.
    - assert (E : (0 / 2 + 1 / spacing hx hy f == / spacing hx hy f)%Q) by (field; assumption). split.
      + intros X. rewrite E in X. apply Hs. rewrite <- (Qinv_involutive (spacing hx hy f)), X. reflexivity.
      + rewrite E. field. assumption.
  Qed.

  Lemma ghosts_ok : forall f q, 0 <= f < 4 -> layer_holds (d1 d) q (qbefore f) -> intersects f = true ->
    exists q', bc_ghosts d xl yl hx hy t g_bc f (dd f) q = Some q' /\ layer_holds (d1 d) q' (qbefore (f + 1)).
  Proof.
    intros f q Hf L Hi. destruct HU as (U1 & U2 & U3 & U4).
    set (V := fun c : cell => let '(i, j, m) := c in Some (g_bc f t
      (if f <? 2 then xl + inject_Z ((if f =? 0 then 1 else mx d + 1)%Z - 1) * hx else xl + (inject_Z i - (1 # 2)) * hx)
      (if f <? 2 then yl + (inject_Z j - (1 # 2)) * hy else yl + inject_Z ((if f =? 2 then 1 else my d + 1)%Z - 1) * hy) / dd f)%Q).
    assert (K : writes none q (bc_ghosts d xl yl hx hy t g_bc f (dd f)) (fun c => exists k, 1 <= k <= side_len d f /\ c = (ghost_at d f k, 1)) V).
    { unfold bc_ghosts, side_len, ghost_at. unfold V.
      four_sides f.
      - apply (writes_loop0 q (fun k c => c = (0, k, 1))). intros k Hk. apply writes_cell; [apply in_q_iff; cbn [d1 mx my mbc meqn]; lia|reflexivity].
      - apply (writes_loop0 q (fun k c => c = (mx d + 1, k, 1))). intros k Hk. apply writes_cell; [apply in_q_iff; cbn [d1 mx my mbc meqn]; lia|reflexivity].
      - apply (writes_loop0 q (fun k c => c = (k, 0, 1))). intros k Hk. apply writes_cell; [apply in_q_iff; cbn [d1 mx my mbc meqn]; lia|reflexivity].
      - apply (writes_loop0 q (fun k c => c = (k, my d + 1, 1))). intros k Hk. apply writes_cell; [apply in_q_iff; cbn [d1 mx my mbc meqn]; lia|reflexivity]. }
    destruct (K q ltac:(intros c [])) as (q' & E & A & B & _). exists q'. split; [exact E|].
    assert (EG : forall k, 1 <= k <= side_len d f -> at_cell q' (ghost_at d f k, 1) (gv f k)).
    { intros k Hk. unfold at_cell. rewrite A by (exists k; auto). unfold V, gv, given.
      assert (Hx2 : (xl + inject_Z (mx d + 1 - 1) * hx == xl + inject_Z (mx d) * hx)%Q) by (replace (mx d + 1 - 1) with (mx d) by lia; reflexivity).
      assert (Hy2 : (yl + inject_Z (my d + 1 - 1) * hy == yl + inject_Z (my d) * hy)%Q) by (replace (my d + 1 - 1) with (my d) by lia; reflexivity).
      assert (Hx1 : (xl + inject_Z (1 - 1) * hx == xl)%Q) by (change (inject_Z (1 - 1)) with 0%Q; ring).
      assert (Hy1 : (yl + inject_Z (1 - 1) * hy == yl)%Q) by (change (inject_Z (1 - 1)) with 0%Q; ring).
      unfold ghost_at, edge_mid.
      four_sides f; (eexists; split; [reflexivity|]); rewrite (proj2 (dd_ok _ _ Hf)); apply ghost_shift_ext; apply Hg; cbn [fst snd];
        first [exact Hx1|exact Hx2|exact Hy1|exact Hy2|reflexivity]. }
    assert (EO : forall c, (forall k, 1 <= k <= side_len d f -> c <> (ghost_at d f k, 1)) -> q' c = q c).
    { intros c Hn. apply B. intros (k & Hk & X). exact (Hn k Hk X). }
    intros i j m Hm Hij. cbn [d1 mx my mbc meqn] in Hm, Hij. assert (m = 1) by lia. subst m.
    destruct (L i j 1 ltac:(cbn [d1 meqn]; lia) Hij) as (v & Ev & Qv).
    (* is (i, j) beyond side f? *)
    assert (D : (exists k, 1 <= k <= side_len d f /\ (i, j) = ghost_at d f k) \/
                (forall k, 1 <= k <= side_len d f -> (i, j) <> ghost_at d f k)).
    { unfold side_len, ghost_at. four_sides f.
      - destruct (Z.eq_dec i 0) as [->|]; [destruct (Z_le_gt_dec 1 j), (Z_le_gt_dec j (my d))|]; try (left; exists j; split; [lia|reflexivity]); right; intros k Hk X; apply pair_equal_spec in X; lia.
      - destruct (Z.eq_dec i (mx d + 1)) as [->|]; [destruct (Z_le_gt_dec 1 j), (Z_le_gt_dec j (my d))|]; try (left; exists j; split; [lia|reflexivity]); right; intros k Hk X; apply pair_equal_spec in X; lia.
      - destruct (Z.eq_dec j 0) as [->|]; [destruct (Z_le_gt_dec 1 i), (Z_le_gt_dec i (mx d))|]; try (left; exists i; split; [lia|reflexivity]); right; intros k Hk X; apply pair_equal_spec in X; lia.
      - destruct (Z.eq_dec j (my d + 1)) as [->|]; [destruct (Z_le_gt_dec 1 i), (Z_le_gt_dec i (mx d))|]; try (left; exists i; split; [lia|reflexivity]); right; intros k Hk X; apply pair_equal_spec in X; lia. }
    destruct D as [(k & Hk & X)|Hn].
    - rewrite X. destruct (EG k Hk) as (w & Ew & Qw). exists w. split; [exact Ew|]. rewrite Qw.
      clear - X Hk Hi Hf U1 U2. unfold qbefore. unfold side_len, ghost_at in *. four_sides f; apply pair_equal_spec in X; destruct X as [-> ->];
        rewrite Hi; repeat match goal with |- context [?a =? ?b] => destruct (Z.eqb_spec a b); try lia end;
        cbn [andb Z.ltb Z.compare Pos.compare Pos.compare_cont Z.add Pos.add Pos.succ]; reflexivity.
    - exists v. rewrite EO by (intros k Hk Y; apply (Hn k Hk); congruence). split; [exact Ev|]. rewrite Qv.
      assert (NF : forall k, 1 <= k <= side_len d f -> (i, j) <> ghost_at d f k) by exact Hn.
      clear - NF Hij Hf U1 U2. unfold qbefore. unfold side_len, ghost_at in *. four_sides f.
      + assert (i <> 0) by (intros ->; apply (NF j); [lia|reflexivity]).
        destruct (Z.eqb_spec i 0); [lia|]. cbn [andb Z.ltb Z.compare Pos.compare Pos.compare_cont Z.add Pos.add Pos.succ]. reflexivity.
      + assert (i <> mx d + 1) by (intros ->; apply (NF j); [lia|reflexivity]).
        destruct (Z.eqb_spec i (mx d + 1)); [lia|]. cbn [andb Z.ltb Z.compare Pos.compare Pos.compare_cont Z.add Pos.add Pos.succ]. reflexivity.
      + assert (j <> 0 \/ i < 1 \/ mx d < i) as [|[|]].
        { destruct (Z.eq_dec j 0) as [->|]; [|lia]. destruct (Z_le_gt_dec 1 i), (Z_le_gt_dec i (mx d)); try lia. exfalso. apply (NF i); [lia|reflexivity]. }
        * destruct (Z.eqb_spec j 0); [lia|]. cbn [andb Z.ltb Z.compare Pos.compare Pos.compare_cont Z.add Pos.add Pos.succ]. reflexivity.
        * destruct (Z.eqb_spec j 0); [lia|]. cbn [andb Z.ltb Z.compare Pos.compare Pos.compare_cont Z.add Pos.add Pos.succ]. reflexivity.
        * destruct (Z.eqb_spec j 0); [lia|]. cbn [andb Z.ltb Z.compare Pos.compare Pos.compare_cont Z.add Pos.add Pos.succ]. reflexivity.
      + assert (j <> my d + 1) by (intros ->; apply (NF i); [lia|reflexivity]).
        destruct (Z.eqb_spec j (my d + 1)); [lia|]. cbn [andb Z.ltb Z.compare Pos.compare Pos.compare_cont Z.add Pos.add Pos.succ]. reflexivity.
  Qed.

  (** nothing is filled: the data do not change *)
  Lemma qbefore_skip : forall f i j m, 0 <= f < 4 -> intersects f = false -> qbefore (f + 1) i j m = qbefore f i j m.
  Proof.
    intros f i j m Hf Hi. unfold qbefore.
    four_sides f; rewrite Hi; rewrite ?andb_false_r; cbn [andb Z.ltb Z.compare Pos.compare Pos.compare_cont Z.add Pos.add Pos.succ];
      rewrite ?andb_false_r, ?andb_true_r; reflexivity.
  Qed.

  (** cells of the first field *)
  Definition first (c : cell) : Prop := let '(i, j, m) := c in 1 <= i <= mx d /\ 1 <= j <= my d /\ m = 1.

  Lemma subtract_ok : forall q (D : data) r (F : data), layer_holds (d1 d) q D ->
    (forall i j, 1 <= i <= mx d -> 1 <= j <= my d -> at_cell r (i, j, 1) (F i j 1)) ->
    exists r', bc_subtract d hx hy q r = Some r' /\
      (forall i j, 1 <= i <= mx d -> 1 <= j <= my d -> at_cell r' (i, j, 1) (F i j 1%Z - lap hx hy (field D 1%Z) i j)%Q) /\
      (forall c, ~ first c -> r' c = r c).
  Proof.
    intros q D r F L HF. destruct HU as (U1 & U2 & U3 & U4).
    set (V := fun c : cell => let '(i, j, m) := c in
      match rd (d1 d) q (i - 1, j, 1), rd (d1 d) q (i, j, 1), rd (d1 d) q (i + 1, j, 1), rd (d1 d) q (i, j - 1, 1), rd (d1 d) q (i, j + 1, 1), r (i, j, 1) with
      | Some qw, Some qc, Some qe, Some qs, Some qn, Some v =>
        Some (v - ((qw - 2 * qc + qe) / (hx * hx) + (qs - 2 * qc + qn) / (hy * hy)))%Q
      | _, _, _, _, _, _ => None end).
    assert (RD : forall i j, (0 <= i <= mx d + 1 /\ 1 <= j <= my d) \/ (1 <= i <= mx d /\ 0 <= j <= my d + 1) ->
      exists v, rd (d1 d) q (i, j, 1) = Some v /\ (v == D i j 1%Z)%Q).
    { intros i j H. apply (layer_rd (d1 d) usable1 q D i j 1 L); cbn [d1 mx my mbc meqn]; [lia|exact H]. }
    assert (K : writes (fun c => exists i, 1 <= i <= mx d /\ exists j, 1 <= j <= my d /\ c = (i, j, 1)) r (bc_subtract d hx hy q)
      (fun c => exists i, 1 <= i <= mx d /\ exists j, 1 <= j <= my d /\ c = (i, j, 1)) V).
    { unfold bc_subtract.
      apply (writes_loop (fun i c => exists j, 1 <= j <= my d /\ c = (i, j, 1)) r (fun i c => exists j, 1 <= j <= my d /\ c = (i, j, 1)) V).
      - intros i Hi. match goal with |- writes _ _ (loop _ _ ?body) _ _ => 
          apply (writes_loop (fun j c => c = (i, j, 1)) r (fun j c => c = (i, j, 1)) V body) end.
        + intros j Hj s Hs.
          destruct (RD (i - 1) j ltac:(lia)) as (vw' & Ew & _). destruct (RD i j ltac:(lia)) as (vc & Ec & _).
          destruct (RD (i + 1) j ltac:(lia)) as (ve & Ee & _). destruct (RD i (j - 1) ltac:(lia)) as (vs & Es & _).
          destruct (RD i (j + 1) ltac:(lia)) as (vn & En & _). destruct (HF i j Hi Hj) as (v & Ev & _).
          rewrite Ew, Ec, Ee, Es, En. cbn [bind].
          assert (IN : in_q d (i, j, 1) = true) by (apply in_q_iff; lia).
          unfold rd at 1. rewrite IN, (Hs _ eq_refl), Ev. cbn [bind].
          refine (writes_cell (fun _ => False) r d (i, j, 1) _ IN V _ s (fun c X => match X with end)).
          unfold V. rewrite Ew, Ec, Ee, Es, En, Ev. reflexivity.
        + intros j j' c Hj Hl Hj' -> X. apply pair_equal_spec in X. destruct X as [X _]. apply pair_equal_spec in X. lia.
      - intros i i' c Hi Hl Hi' (j & Hj & ->) (j' & Hj' & X). apply pair_equal_spec in X. destruct X as [X _]. apply pair_equal_spec in X. lia. }
    destruct (K r ltac:(reflexivity)) as (r' & E & A & B & _). exists r'. split; [exact E|]. split.
    - intros i j Hi Hj. unfold at_cell. rewrite A by (exists i; split; [exact Hi|]; exists j; auto). unfold V.
      destruct (RD (i - 1) j ltac:(lia)) as (vw' & -> & Qw). destruct (RD i j ltac:(lia)) as (vc & -> & Qc).
      destruct (RD (i + 1) j ltac:(lia)) as (ve & -> & Qe). destruct (RD i (j - 1) ltac:(lia)) as (vs & -> & Qs).
      destruct (RD i (j + 1) ltac:(lia)) as (vn & -> & Qn). destruct (HF i j Hi Hj) as (v & -> & Qv).
      eexists. split; [reflexivity|]. unfold lap, field. rewrite Qw, Qc, Qe, Qs, Qn, Qv. field. auto.
    - intros c Hn. apply B. intros (i & Hi & j & Hj & ->). apply Hn. unfold first. lia.
  Qed.

  Definition taken (f i j : Z) : Q := if intersects f then lap hx hy (field (qbefore (f + 1)) 1%Z) i j else 0%Q.

  Lemma apply_bc_ok : forall r (F : data), holds d r F ->
    exists r', apply_bc d xl yl hx hy t intersects bctype g_bc r = Some r' /\
      (forall i j, 1 <= i <= mx d -> 1 <= j <= my d -> at_cell r' (i, j, 1) (F i j 1%Z - qsum 0 3 (fun f => taken f i j))%Q) /\
      (forall c, ~ first c -> r' c = r c).
  Proof.
    intros r F HF. destruct HU as (U1 & U2 & U3 & U4). unfold apply_bc.
    destruct (loop_ok (arr * arr * ab) 0 3 (bc_face d xl yl hx hy t intersects bctype g_bc)
      (fun f '(q, rhs, c) => layer_holds (d1 d) q (qbefore f) /\
         (forall i j, 1 <= i <= mx d -> 1 <= j <= my d -> at_cell rhs (i, j, 1) (F i j 1%Z - qsum 0 (f - 1)%Z (fun f => taken f i j))%Q) /\
         (forall c, ~ first c -> rhs c = r c)) ltac:(lia)) with (s := (q_zero, r, @None (Q * Q) : ab)) as (((q', r'), c') & E & A & B & C).
    - intros f [[q rhs] c] Hf (L & R1 & R2). unfold bc_face.
      assert (TK : forall i j, (qsum 0 (f + 1 - 1)%Z (fun f => taken f i j) == qsum 0 (f - 1)%Z (fun f => taken f i j) + taken f i j)%Q).
      { intros i j. replace (f + 1 - 1) with f by lia. apply (qsum_last 0 f (fun f => taken f i j)). lia. }
      destruct (intersects f) eqn:Hi.
      + cbv zeta. rewrite (Hc f ltac:(lia) Hi).
        assert (S : set_ab (bc_code (cond f)) c = Some (match cond f with Value => (1%Q, 0%Q) | Slope => (0%Q, 1%Q) end)) by (destruct (cond f); reflexivity).
        rewrite S. cbn [bind].
        assert (DD : (let '(a, b) := match cond f with Value => (1%Q, 0%Q) | Slope => (0%Q, 1%Q) end in (a / 2 + b / (if f <? 2 then hx else hy))%Q) = dd f).
        { unfold dd, spacing. destruct (cond f); reflexivity. }
        destruct (match cond f with Value => (1%Q, 0%Q) | Slope => (0%Q, 1%Q) end) as [a b] eqn:Eab. rewrite DD.
        destruct (Qeq_bool (dd f) 0) eqn:Z0; [apply Qeq_bool_iff in Z0; destruct (dd_ok f 0%Q ltac:(lia)) as (N & _); contradiction|].
        destruct (ghosts_ok f q ltac:(lia) L Hi) as (q1 & E1 & L1). rewrite E1. cbn [bind].
        destruct (subtract_ok q1 (qbefore (f + 1)) rhs (fun i j _ => F i j 1%Z - qsum 0 (f - 1)%Z (fun f => taken f i j))%Q L1 R1) as (r1 & E2 & S1 & S2).
        rewrite E2. cbn [bind]. eexists. split; [reflexivity|]. cbv beta iota. split; [exact L1|]. split.
        * intros i j H1 H2. destruct (S1 i j H1 H2) as (v & Ev & Qv). exists v. split; [exact Ev|]. rewrite Qv, TK. assert (TF : taken f i j = lap hx hy (field (qbefore (f + 1)) 1%Z) i j) by (unfold taken; now rewrite Hi). rewrite TF. ring.
        * intros x Hx. rewrite S2 by exact Hx. now apply R2.
      + eexists. split; [reflexivity|]. cbv beta iota. split; [|split; [|exact R2]].
        * intros i j m Hm Hij. destruct (L i j m Hm Hij) as (v & Ev & Qv). exists v. split; [exact Ev|].
          rewrite qbefore_skip by (assumption || lia). exact Qv.
        * intros i j H1 H2. destruct (R1 i j H1 H2) as (v & Ev & Qv). exists v. split; [exact Ev|]. rewrite Qv, TK. assert (TF : taken f i j = 0%Q) by (unfold taken; now rewrite Hi). rewrite TF. ring.
    - split; [|split].
      + intros i j m Hm Hij. exists 0%Q. split; [reflexivity|]. unfold qbefore. cbn [Z.ltb Z.compare]. rewrite !andb_false_r. cbn [andb]. reflexivity.
      + intros i j H1 H2. exists (F i j 1). split; [apply HF; unfold interior; lia|]. rewrite qsum_empty. ring.
      + reflexivity.
    - change (3 + 1) with 4 in A, B. cbn beta iota in A. exists r'. split; [exact (f_equal (fun o : option (arr * arr * ab) => bind o (fun '(_, rhs, _) => Some rhs)) E)|]. cbv beta iota in B. split; [exact B|exact C].
  Qed.
End Bc.
