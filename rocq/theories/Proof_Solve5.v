(** The ghost update on all processes. *)
From Coq Require Import ZArith QArith List Bool Lia.
From Verif Require Import Base_Float Model_Face Spec_Face Model_Mesh Proof_Mesh Spec_Mesh Model_Fill Model_FillExec Spec_Fill Proof_Fill1 Proof_Fill5 Proof_Fill8 Proof_Fill10 Prop_Fill Model_Solve Spec_Solve Proof_Solve1 Proof_Solve2 Proof_Solve3 Proof_Solve4.
From Verif Require Model_Grid Spec_Grid Prop_Grid Spec_Bc Model_Bc Prop_Bc Model_Corner Spec_Corner Prop_Corner Model_Ghost Spec_Ghost Prop_Ghost Model_Step Prop_Step.
Import ListNotations.
Open Scope Z_scope.

Section Update.
  Variable w : world.
  Variable geo : geometry.
  Variable L : layout.
  Variable U : setup.
  Variables dx dy : Q.
  Variable X : field.
  Variable views : Z -> view.
  Hypothesis FOREST : forest_ok w geo.
  Hypothesis MACHINE : machine_ok w geo (rq L) views.
  Hypothesis LAID : laid_out w geo L.
  Hypothesis SETUP : setup_ok w L U dx dy X.
  Variable u : field.
  Notation d := (Model_Ghost.g_d (s_opts U)).
  Notation m := (Model_Grid.mx (Model_Ghost.g_d (s_opts U))).
  Notation mbc := (Model_Grid.mbc (Model_Ghost.g_d (s_opts U))).
  Notation rq := (rq L).
  Notation value := (value_at L m (s_mthbc U) u).
  Notation is_value := (is_value w geo rq).
  Notation wide := (Spec_Ghost.width_sent (s_opts U)).
  Notation right := (right L U u).
  Notation conf := (conf w geo L U u).
  Notation sizes := (sizes w L U dx dy X SETUP).
  Notation in_q_spec := (in_q_spec w L U dx dy X SETUP).

  Lemma level_all : forall x, is_patch w x -> level_of w x = lvl L.
  Proof. intros x Hx. destruct LAID as (_ & _ & _ & H). apply (H x Hx). Qed.

  Lemma op_sim : forall r s D o l, right_call w geo rq r o -> assigns w (place geo) r o = Some l -> conf r s D -> exists D', do_op w U r D o = Some D' /\ conf r (run l s) D'.
  Proof.
    intros r s D o l RC E C.
    assert (NF : forall x f ys rf, is_patch w x -> 0 <= f < 4 -> face_of w x f <> Finer ys rf).
    { intros x f ys rf Hx Hf EF. destruct LAID as (_ & _ & _ & H). destruct (H x Hx) as (_ & _ & _ & HF & _). destruct (HF f Hf) as (_ & K). cbv zeta in K.
      destruct (exists_at L _); [destruct K as (y & _ & E' & _)|]; congruence. }
    assert (NC : forall x c y c', is_patch w x -> 0 <= c < 4 -> physical_corner w x c = false -> diag w x c = Some (y, c') -> ~ level_of w x < level_of w y).
    { intros x c y c' Hx Hc P DG. destruct (corner_exists w geo L LAID x c Hx Hc P) as (y' & Hy & DG' & _). rewrite DG in DG'. inversion DG'; subst. rewrite !level_all by assumption. lia. }
    destruct o.
    all: try solve [exact (copy_face_sim w geo L U dx dy X LAID SETUP u r s D _ _ _ _ _ l RC E C)].
    all: try solve [exact (copy_corner_sim w geo L U dx dy X LAID SETUP u r s D _ _ _ _ _ _ _ _ l RC E C)].
    all: try solve [exact (physical_sim w geo L U dx dy X LAID SETUP u r s D _ _ _ _ _ l RC E C)].
    all: try solve [destruct RC as (p & ys & y & rf & _ & _ & Hp & Hf & EF & _); destruct (NF _ _ _ _ Hp Hf EF)].
    all: try solve [destruct RC as (p & y & c' & _ & _ & Hp & Hc & P & DG & LV & _); destruct (NC _ _ _ _ Hp Hc P DG LV)].
    all: destruct RC.
  Qed.

  Lemma ops_sim : forall r ops l s D, Forall (right_call w geo rq r) ops -> compile w (place geo) r ops = Some l -> conf r s D ->
    exists D', do_ops w U r ops D = Some D' /\ conf r (run l s) D'.
  Proof.
    intros r. induction ops as [|o ops IH]; intros l s D F E C.
    - injection E as <-. exists D. split; [reflexivity|exact C].
    - inversion F as [|? ? F1 F2]; subst. unfold compile in E. cbn [mapM] in E. destruct (assigns w (place geo) r o) as [l1|] eqn:E1; cbn [bind] in E; [|discriminate].
      destruct (mapM (assigns w (place geo) r) ops) as [l2|] eqn:E2; cbn [bind] in E; [|discriminate]. injection E as <-. cbn [concat].
      destruct (op_sim r s D o l1 F1 E1 C) as (D1 & O1 & C1).
      destruct (IH (concat l2) (run l1 s) D1 F2 ltac:(unfold compile; rewrite E2; reflexivity) C1) as (D2 & O2 & C2).
      exists D2. cbn [do_ops]. rewrite O1. cbn [bind]. split; [exact O2|]. rewrite run_app. exact C2.
  Qed.

  Lemma stage_sim : forall r res K s D, fills w geo rq r res K -> conf r s D ->
    exists s' D', bind res (fun ops => exec w (place geo) r ops s) = Some s' /\ bind res (fun ops => do_ops w U r ops D) = Some D' /\ conf r s' D'.
  Proof.
    intros r res K s D (ops & l & -> & E & _ & _ & RC) C. destruct (ops_sim r ops l s D RC E C) as (D' & O & C'). exists (run l s), D'. cbn [bind]. split; [|split; assumption].
    unfold exec. rewrite E. reflexivity.
  Qed.

  Lemma before_fills : forall r, 0 <= r < procs w -> exists K, fills w geo rq r (before_send (views r) (lvl L) (lvl L) false) K.
  Proof.
    intros r RANK. pose proof (proj1 (proj2 MACHINE r RANK)) as VIEW. unfold before_send. cbv zeta. eexists.
    apply fills_andthen; [apply (avg_pass w geo rq r (views r) FOREST RANK VIEW false GHOST_ONLY)|]. apply fills_andthen; [apply (copy_pass w geo rq r (views r) FOREST RANK VIEW false GHOST_ONLY)|].
    apply (phys_any w geo rq r (views r) FOREST RANK VIEW).
  Qed.
  Lemma while_fills : forall async r, 0 <= r < procs w -> exists K, fills w geo rq r (while_sending (views r) async (lvl L) (lvl L) false) K.
  Proof.
    intros async r RANK. pose proof (proj1 (proj2 MACHINE r RANK)) as VIEW. unfold while_sending. cbv zeta. destruct async; cbn [negb].
    - eexists. apply fills_andthen; [apply (avg_pass w geo rq r (views r) FOREST RANK VIEW false INTERIOR_ONLY)|]. apply fills_andthen; [apply (copy_pass w geo rq r (views r) FOREST RANK VIEW false INTERIOR_ONLY)|].
      apply fills_andthen; [apply (phys_any w geo rq r (views r) FOREST RANK VIEW)|]. apply fills_andthen; [apply (int_pass w geo rq r (views r) FOREST RANK VIEW false INTERIOR_ONLY)|]. apply (phys_any w geo rq r (views r) FOREST RANK VIEW).
    - exists (fun _ _ => False). apply fills_nil. intros x g [].
  Qed.
  Lemma after_fills : forall async r, 0 <= r < procs w -> exists K, fills w geo rq r (after_receive (views r) async (lvl L) (lvl L) false) K.
  Proof.
    intros async r RANK. pose proof (proj1 (proj2 MACHINE r RANK)) as VIEW. unfold after_receive. cbv zeta. eexists.
    apply fills_andthen; [apply (ghost_pass w geo rq r (views r) FOREST RANK VIEW)|]. apply fills_andthen; [apply (avg_pass w geo rq r (views r) FOREST RANK VIEW true)|]. apply fills_andthen; [apply (copy_pass w geo rq r (views r) FOREST RANK VIEW true)|].
    apply fills_andthen; [apply (phys_any w geo rq r (views r) FOREST RANK VIEW)|]. apply fills_andthen; [apply (int_pass w geo rq r (views r) FOREST RANK VIEW true)|]. apply (phys_any w geo rq r (views r) FOREST RANK VIEW).
  Qed.

  (** ** Messages *)
  Lemma near_out : forall i j k, Model_Grid.in_q d (i, j, k) = true -> ~ (1 <= i <= m /\ 1 <= j <= m) -> Spec_Ghost.near d wide i j.
  Proof. intros i j k HI N. rewrite in_q_spec in HI. pose proof sizes as (SY & S1 & S2 & S3 & S4). unfold Spec_Ghost.near. rewrite SY. lia. Qed.

  Lemma flagged : forall r x, 0 <= r < procs w -> In x (layer w r) -> is_patch w x /\ fst x <> r /\ 0 <= fst x < procs w /\ v_on_boundary (views (fst x)) (block_of w x) (snd x - before w (fst x) (block_of w x)) = true.
  Proof.
    intros r x Hr HL. pose proof FOREST as ((_ & _ & _ & _ & _ & _ & _ & LA & _) & _). destruct (LA r x Hr HL) as [Hx N]. split; [exact Hx|]. split; [exact N|].
    pose proof Hx as (P & B & C). split; [exact P|]. destruct (proj2 MACHINE (fst x) P) as [(_ & _ & _ & _ & _ & FL) _]. apply FL; [exact B|lia|]. left. exists r. split; [exact Hr|].
    replace (fst x, before w (fst x) (block_of w x) + (snd x - before w (fst x) (block_of w x))) with x; [exact HL|]. destruct x as [a b]. cbn [fst snd]. f_equal. lia.
  Qed.

  Lemma unpack_data : forall (a b : Model_Grid.arr) old, exists buf q, pack U b old = Some buf /\ unpack_one U a buf = Some q /\
    (forall i j k, Model_Grid.in_q d (i, j, k) = true -> Spec_Ghost.near d wide i j -> q (i, j, k) = b (i, j, k)) /\
    (forall i j k, Model_Grid.in_q d (i, j, k) = true -> ~ Spec_Ghost.near d wide i j -> q (i, j, k) = a (i, j, k)).
  Proof.
    intros a b old. destruct SETUP as (_ & _ & LE & EX & _).
    destruct (Prop_Ghost.C17_roundtrip (s_opts U) (memory_of b) (memory_of a) old LE EX) as (b' & m2 & P & R & V1 & V2). exists b', (fun c => m2 (Model_Ghost.LQ c)).
    unfold pack, unpack_one. rewrite P, R. cbn [bind]. split; [reflexivity|]. split; [reflexivity|]. split; intros i j k HI N; rewrite in_q_spec in HI.
    - rewrite V1; [reflexivity|]. split; [exact N|lia].
    - rewrite V2; [reflexivity|]. intros [N' _]. contradiction.
  Qed.

  Lemma unpack_all : forall r old sent l D, 0 <= r < procs w -> (forall x, In x l -> In x (layer w r)) -> (forall x, is_patch w x -> assigned U (D x false)) ->
    (forall x, is_patch w x -> assigned U (sent (fst x) x false)) ->
    exists D', unpack_ghosts w views U (lvl L) (lvl L) false old sent l D = Some D' /\ (forall x, is_patch w x -> assigned U (D' x false)) /\
      (forall y, ~ In y l -> D' y false = D y false) /\
      (forall y, In y l -> forall i j k, Model_Grid.in_q d (i, j, k) = true -> Spec_Ghost.near d wide i j -> D' y false (i, j, k) = sent (fst y) y false (i, j, k)).
  Proof.
    intros r old sent l D Hr. revert D. induction l as [|x l IH]; intros D HL HA HS.
    - exists D. cbn [unpack_ghosts]. split; [reflexivity|]. split; [exact HA|]. split; [reflexivity|]. intros y [].
    - destruct (flagged r x Hr (HL x (or_introl eq_refl))) as (Hx & Nx & Px & Bx). pose proof (level_all x Hx) as LX.
      destruct (unpack_data (D x false) (sent (fst x) x false) (old x)) as (b & q & PK & UN & V1 & V2).
      assert (E : unpack_ghost w views U (lvl L) (lvl L) false old sent D x = Some (put D x false q)).
      { unfold unpack_ghost. rewrite LX, Bx. cbn [andb]. destruct (Z.leb_spec (lvl L - 1) (lvl L)); [|lia]. rewrite Z.leb_refl. cbn [andb]. rewrite PK. cbn [bind]. unfold store. rewrite UN. reflexivity. }
      assert (HA' : forall y, is_patch w y -> assigned U (put D x false q y false)).
      { intros y Hy. destruct (patch_eqb_spec y x) as [->|N]; [rewrite put_same|rewrite put_other by exact N; apply HA, Hy].
        intros [[i j] k] HI. assert (Spec_Ghost.near d wide i j \/ ~ Spec_Ghost.near d wide i j) as [N|N] by (unfold Spec_Ghost.near; lia).
        - rewrite (V1 i j k HI N). apply HS; assumption.
        - rewrite (V2 i j k HI N). apply HA; assumption. }
      destruct (IH (put D x false q) (fun y Hy => HL y (or_intror Hy)) HA' HS) as (D' & E' & A' & O' & S').
      exists D'. cbn [unpack_ghosts]. rewrite E. cbn [bind]. split; [exact E'|]. split; [exact A'|]. split.
      + intros y N. rewrite O' by (intros H; apply N; right; exact H). apply put_other. intros ->. apply N. left. reflexivity.
      + intros y Hy i j k HI NR. destruct (in_dec (fun a b => reflect_dec _ _ (patch_eqb_spec a b)) y l) as [Q|Q]; [apply S'; assumption|].
        rewrite O' by exact Q. destruct Hy as [<-|Hy]; [|contradiction]. rewrite put_same. apply V1; assumption.
  Qed.

  Lemma unpack_sim : forall r old buffer ss sent s D, 0 <= r < procs w -> conf r s D -> (forall q, 0 <= q < procs w -> conf q (ss q) (sent q)) ->
    exists D', unpack_ghosts w views U (lvl L) (lvl L) false old sent (layer w r) D = Some D' /\ conf r (unpack w views (lvl L) (lvl L) false buffer ss r s) D'.
  Proof.
    intros r old buffer ss sent s D Hr [C1 C2] CS.
    destruct (unpack_all r old sent (layer w r) D Hr (fun x H => H) C2) as (D' & E & A' & O' & S'); [intros x Hx; apply CS; [apply Hx|exact Hx]|].
    exists D'. split; [exact E|]. split; [|exact A'].
    intros x g Hx V. unfold unpack in V.
    destruct (existsb (patch_eqb x) (layer w r)) eqn:EX.
    - assert (In x (layer w r)) as HI by (apply existsb_exists in EX; destruct EX as (y & Hy & EQ); destruct (patch_eqb_spec x y); [subst; exact Hy|discriminate]).
      destruct (flagged r x Hr HI) as (_ & Nx & Px & Bx). rewrite (level_all x Hx), Bx in V. destruct (Z.leb_spec (lvl L - 1) (lvl L)); [|lia]. rewrite Z.leb_refl in V. cbn [andb eqb] in V.
      destruct (CS (fst x) Px) as [CS1 _]. intros i j k HQ HC HN.
      assert (Spec_Ghost.near d wide i j) as NR.
      { destruct g as [|f h|c]; [apply HN; [reflexivity|exact Nx]| |]; apply (near_out i j k HQ); intros [Hi Hj].
        - destruct HC as [HC _]. inversion V as [|? ? k' l vs RU F2 EV]; subst. cbn [Spec_Fill.rule] in RU. destruct (negb ((0 <=? f) && (f <? 4))) eqn:Q; [discriminate|]. apply not4 in Q.
          clear - Q HC Hi Hj. four f; cbn [next] in HC; lia.
        - destruct HC as [HC _]. destruct (Z.odd c); lia. }
      rewrite (S' x HI i j k HQ NR). apply (CS1 x g Hx V); [exact HQ|exact HC|]. intros _ N. congruence.
    - cbn [andb] in V. rewrite O'; [apply C1; assumption|]. intros HI. assert (existsb (patch_eqb x) (layer w r) = true); [|congruence].
      apply existsb_exists. exists x. split; [exact HI|]. destruct (patch_eqb_spec x x); congruence.
  Qed.

  (** ** The update *)
  Definition sym_start (r : Z) : state := fun k => match k with (x, t, RInt) => if fst x =? r then Interior x t else Old 0 | _ => Old 1 end.
  Lemma start_conf : forall r D, (forall x, is_patch w x -> assigned U (D x false)) -> (forall x, is_patch w x -> fst x = r -> right r x RInt (D x false)) -> conf r (sym_start r) D.
  Proof.
    intros r D HA HR. split; [|exact HA]. intros x g Hx V. destruct g as [|f h|c]; cbn [sym_start] in V.
    - destruct (Z.eqb_spec (fst x) r) as [E|E]; [apply HR; assumption|]. inversion V.
    - inversion V.
    - inversion V.
  Qed.

  Lemma everywhere_some : forall f G, (forall q, 0 <= q < procs w -> exists D, f q = Some D) ->
    everywhere w f G = Some (fun q => match f q with Some D => D | None => G q end).
  Proof.
    intros f G H. unfold everywhere. assert (forallb (fun q => match f q with Some _ => true | None => false end) (zrange 0 (procs w)) = true) as ->; [|reflexivity].
    apply forallb_forall. intros q Hq. apply Proof_Mesh.in_range in Hq. destruct (H q Hq) as (D & ->). reflexivity.
  Qed.

  Theorem update_data : forall async old G,
    (forall r, 0 <= r < procs w -> (forall x, is_patch w x -> assigned U (G r x false)) /\ (forall x, is_patch w x -> fst x = r -> right r x RInt (G r x false))) ->
    exists G', fill_update w views U async (lvl L) (lvl L) false old G = Some G' /\
      forall r, 0 <= r < procs w -> (forall x, is_patch w x -> assigned U (G' r x false)) /\
        (forall x, is_patch w x -> fst x = r -> forall i j k, Model_Grid.in_q d (i, j, k) = true -> G' r x false (i, j, k) = Some (value x i j k)).
  Proof.
    intros async old G HG.
    assert (B : forall q, 0 <= q < procs w -> exists s D, first_stage w (place geo) views (lvl L) (lvl L) false sym_start q = Some s /\
      bind (before_send (views q) (lvl L) (lvl L) false) (fun ops => do_ops w U q ops (G q)) = Some D /\ conf q s D).
    { intros q Hq. destruct (before_fills q Hq) as (K & F). destruct (HG q Hq) as [H1 H2]. exact (stage_sim q _ K (sym_start q) (G q) F (start_conf q (G q) H1 H2)). }
    unfold fill_update. rewrite everywhere_some by (intros q Hq; destruct (B q Hq) as (s & D & _ & E & _); exists D; exact E). cbn [bind].
    set (sent := fun q => match bind (before_send (views q) (lvl L) (lvl L) false) (fun ops => do_ops w U q ops (G q)) with Some D => D | None => G q end).
    set (ss := fun q => match first_stage w (place geo) views (lvl L) (lvl L) false sym_start q with Some s => s | None => sym_start q end).
    assert (CS : forall q, 0 <= q < procs w -> conf q (ss q) (sent q)).
    { intros q Hq. destruct (B q Hq) as (s & D & E1 & E2 & C). unfold ss, sent. rewrite E1, E2. exact C. }
    assert (M : forall r, 0 <= r < procs w -> exists s D, later_stages w (place geo) views async (lvl L) (lvl L) false (fun _ _ => Old 0) ss r = Some s /\
      bind (while_sending (views r) async (lvl L) (lvl L) false) (fun ops => bind (do_ops w U r ops (sent r)) (fun D => bind (unpack_ghosts w views U (lvl L) (lvl L) false (old r) sent (layer w r) D) (fun D =>
        bind (after_receive (views r) async (lvl L) (lvl L) false) (fun ops => do_ops w U r ops D)))) = Some D /\ conf r s D).
    { intros r Hr. destruct (while_fills async r Hr) as (K & F). destruct (stage_sim r _ K (ss r) (sent r) F (CS r Hr)) as (s2 & D2 & E1 & E2 & C2).
      destruct (unpack_sim r (old r) (fun _ _ => Old 0) ss sent s2 D2 Hr C2 CS) as (D3 & E3 & C3).
      destruct (after_fills async r Hr) as (K' & F'). destruct (stage_sim r _ K' _ D3 F' C3) as (s4 & D4 & E4 & E5 & C4).
      exists s4, D4. unfold later_stages. destruct (while_sending (views r) async (lvl L) (lvl L) false) as [ops|]; cbn [bind] in *; [|discriminate].
      rewrite E1, E2. cbn [bind]. rewrite E3. cbn [bind]. split; [exact E4|]. split; [exact E5|exact C4]. }
    rewrite everywhere_some by (intros q Hq; destruct (M q Hq) as (s & D & _ & E & _); exists D; exact E). eexists. split; [reflexivity|].
    intros r Hr. cbv beta. destruct (M r Hr) as (s & D & E1 & E2 & C). fold (sent r). rewrite E2. pose proof C as [C1 C2]. split; [exact C2|].
    assert (RS : right_state w geo rq r s).
    { destruct (update_ok w geo rq views FOREST MACHINE (fun _ _ => Old 0) sym_start) with (async := async) (r := r) as (s' & E & R); [|exact Hr|].
      - intros q Hq x Hx Ex _. unfold sym_start. rewrite buf_false, Ex, Z.eqb_refl. reflexivity.
      - unfold ghost_update in E. cbv zeta in E.
        assert (forallb (fun q => match first_stage w (place geo) views (minlevel rq) (maxlevel rq) (interp rq) sym_start q with Some _ => true | None => false end) (zrange 0 (procs w)) = true) as FB.
        { apply forallb_forall. intros q Hq. apply Proof_Mesh.in_range in Hq. destruct (B q Hq) as (s0 & D0 & E0 & _). change (minlevel rq) with (lvl L). change (maxlevel rq) with (lvl L). change (interp rq) with false. rewrite E0. reflexivity. }
        rewrite FB in E. cbn [check] in E. change (minlevel rq) with (lvl L) in E. change (maxlevel rq) with (lvl L) in E. change (interp rq) with false in E. fold ss in E. rewrite E1 in E. injection E as ->. exact R. }
    intros x Hx Ex i j k HQ.
    assert (LO : lowest rq = lvl L) by reflexivity.
    destruct (C46_values_exist w geo rq FOREST x Hx) as (VI & VF & VC).
    - unfold Spec_Fill.in_range. rewrite LO, (level_all x Hx). cbn. lia.
    - intros f q sub rf Hf EF. destruct LAID as (_ & _ & _ & H). destruct (H x Hx) as (_ & _ & _ & HF & _). destruct (HF f Hf) as (_ & K). cbv zeta in K.
      destruct (exists_at L _); [destruct K as (y & _ & E' & _)|]; congruence.
    - intros c y c' Hc DG. pose proof FOREST as ((_ & _ & _ & _ & _ & _ & DO & _) & _). specialize (DO x c Hx Hc). unfold diagonal_ok in DO. unfold diag in DG.
      destruct (corner_of w x c); try discriminate; inversion DG; subst; rewrite LO, (level_all y) by apply DO; lia.
    - assert (forall g, cell_in m g i j -> (exists v, is_value x g v) -> D x false (i, j, k) = Some (value x i j k)) as FIN.
      { intros g HC (v & V). assert (s (x, false, g) = v) as EV.
        { apply (RS x g v Hx Ex); [|exact V]. unfold Spec_Fill.in_range. rewrite LO, (level_all x Hx). cbn. lia. }
        apply (C1 x g Hx); [rewrite EV; exact V|exact HQ|exact HC|]. intros _ N. congruence. }
      destruct (in_some_region m i j) as (g & HC & HR). apply (FIN g HC). destruct g as [|f h|c]; [exact VI|apply VF; exact HR|]. apply VC; [exact HR|].
      destruct (physical_corner w x c) eqn:P; [left; reflexivity|]. right. right. destruct (corner_exists w geo L LAID x c Hx HR P) as (y & _ & -> & _). discriminate.
  Qed.
End Update.
