(** Regions of a patch as cells; the calls that copy from neighbors. *)
From Coq Require Import ZArith QArith List Bool Lia.
From Verif Require Import Base_Float Model_Face Spec_Face Model_Mesh Spec_Mesh Model_Fill Model_FillExec Spec_Fill Proof_Fill1 Model_Solve Spec_Solve Proof_Solve1 Proof_Solve2.
From Verif Require Model_Grid Spec_Grid Prop_Grid Spec_Bc Prop_Bc Model_Corner Spec_Corner Prop_Corner Model_Ghost Spec_Ghost Model_Step Prop_Step.
Import ListNotations.
Open Scope Z_scope.

Ltac four f := assert (f = 0 \/ f = 1 \/ f = 2 \/ f = 3) as [-> | [-> | [-> | ->]]] by lia.

(** ** Cells of a region; m cells in each direction *)
Definition next (m f i j : Z) : Prop :=
  match f with 0 => i < 1 /\ 1 <= j <= m | 1 => m < i /\ 1 <= j <= m | 2 => 1 <= i <= m /\ j < 1 | _ => 1 <= i <= m /\ m < j end.
Definition half (m f : Z) (h : bool) (i j : Z) : Prop :=
  let t := if f <? 2 then j else i in if h then m < 2 * t else 2 * t <= m.
Definition diagonal (m c i j : Z) : Prop := (if Z.odd c then m < i else i < 1) /\ (if c / 2 =? 1 then m < j else j < 1).
Definition cell_in (m : Z) (g : region) (i j : Z) : Prop :=
  match g with RInt => 1 <= i <= m /\ 1 <= j <= m | RFace f h => next m f i j /\ half m f h i j | RCorner c => diagonal m c i j end.

Lemma in_some_region : forall m i j, exists g, cell_in m g i j /\
  match g with RInt => True | RFace f _ => 0 <= f < 4 | RCorner c => 0 <= c < 4 end.
Proof.
  intros m i j.
  assert (HF : forall f, 0 <= f < 4 -> next m f i j -> exists g, cell_in m g i j /\ match g with RInt => True | RFace f _ => 0 <= f < 4 | RCorner c => 0 <= c < 4 end).
  { intros f Hf N. exists (RFace f (m <? 2 * (if f <? 2 then j else i))). split; [|exact Hf]. split; [exact N|]. unfold half. cbv zeta.
    destruct (Z.ltb_spec m (2 * (if f <? 2 then j else i))); lia. }
  destruct (Z_lt_dec i 1), (Z_lt_dec m i); [| | |];
  (destruct (Z_lt_dec j 1); [|destruct (Z_lt_dec m j)]).
  1,4: exists (RCorner 0); cbn; split; [unfold diagonal; cbn; lia|lia].
  1,3: exists (RCorner 2); cbn; split; [unfold diagonal; cbn; lia|lia].
  1,2: apply (HF 0); cbn; lia.
  - exists (RCorner 1); split; [unfold cell_in, diagonal; cbn; lia|lia].
  - exists (RCorner 3); split; [unfold cell_in, diagonal; cbn; lia|lia].
  - apply (HF 1); cbn; lia.
  - apply (HF 2); cbn; lia.
  - apply (HF 3); cbn; lia.
  - exists RInt. cbn. split; [lia|exact Logic.I].
Qed.

Lemma next_cell : forall m b f i j, 0 <= f < 4 -> 1 - b <= i <= m + b -> 1 - b <= j <= m + b -> next m f i j ->
  exists dep t, 1 <= dep <= b /\ 1 <= t <= m /\ i = fst (ghost_cell f m dep t) /\ j = snd (ghost_cell f m dep t).
Proof.
  intros m b f i j Hf Hi Hj N. four f; cbn [ghost_cell fst snd next] in N |- *.
  - exists (1 - i), j. lia.
  - exists (i - m), j. lia.
  - exists (1 - j), i. lia.
  - exists (j - m), i. lia.
Qed.
Lemma cell_next : forall m f dep t, 0 <= f < 4 -> 1 <= dep -> 1 <= t <= m -> next m f (fst (ghost_cell f m dep t)) (snd (ghost_cell f m dep t)).
Proof. intros m f dep t Hf Hd Ht. four f; cbn [ghost_cell fst snd next]; lia. Qed.
Lemma diagonal_cell : forall m b f c i j, 0 <= c < 4 -> f = cfx c \/ f = cfy c -> 1 - b <= i <= m + b -> 1 - b <= j <= m + b -> diagonal m c i j ->
  exists p t, 1 <= p <= b /\ 1 <= t <= b /\ let g := ghost_cell f m p (Spec_Corner.past (up f c) m t) in i = fst g /\ j = snd g.
Proof.
  intros m b f c i j Hc Hf Hi Hj N.
  exists (if f <? 2 then (if Z.odd c then i - m else 1 - i) else (if c / 2 =? 1 then j - m else 1 - j)).
  exists (if f <? 2 then (if c / 2 =? 1 then j - m else 1 - j) else (if Z.odd c then i - m else 1 - i)).
  four c; (destruct Hf as [-> | ->]); unfold diagonal in N;
    repeat match goal with |- context [up ?f ?c] => let e := eval compute in (up f c) in change (up f c) with e end;
    repeat match goal with |- context [cfx ?c] => let e := eval compute in (cfx c) in change (cfx c) with e | |- context [cfy ?c] => let e := eval compute in (cfy c) in change (cfy c) with e end;
    repeat match goal with |- context [?a / 2 =? 1] => let e := eval compute in (a / 2 =? 1) in change (a / 2 =? 1) with e | H : context [?a / 2 =? 1] |- _ => let e := eval compute in (a / 2 =? 1) in change (a / 2 =? 1) with e in H end;
    repeat match goal with |- context [?a <? 2] => let e := eval compute in (a <? 2) in change (a <? 2) with e end;
    cbn [Z.odd ghost_cell Spec_Corner.past fst snd] in N |- *; cbv zeta; cbn [fst snd]; repeat split; lia.
Qed.
Lemma cell_diagonal : forall m f c p t, 0 <= c < 4 -> f = cfx c \/ f = cfy c -> 1 <= p -> 1 <= t ->
  let g := ghost_cell f m p (Spec_Corner.past (up f c) m t) in diagonal m c (fst g) (snd g).
Proof. intros m f c p t Hc Hf Hp Ht. cbv zeta. four c; (destruct Hf as [-> | ->]); unfold diagonal;
    repeat match goal with |- context [up ?f ?c] => let e := eval compute in (up f c) in change (up f c) with e end;
    repeat match goal with |- context [cfx ?c] => let e := eval compute in (cfx c) in change (cfx c) with e | |- context [cfy ?c] => let e := eval compute in (cfy c) in change (cfy c) with e end;
    repeat match goal with |- context [?a / 2 =? 1] => let e := eval compute in (a / 2 =? 1) in change (a / 2 =? 1) with e end;
    cbn [Z.odd ghost_cell Spec_Corner.past fst snd]; lia. Qed.

Section Calls.
  Variable w : world.
  Variable geo : geometry.
  Variable L : layout.
  Variable U : setup.
  Variables dx dy : Q.
  Variable X : field.
  Hypothesis LAID : laid_out w geo L.
  Hypothesis SETUP : setup_ok w L U dx dy X.
  Variable u : field.
  Notation d := (Model_Ghost.g_d (s_opts U)).
  Notation m := (Model_Grid.mx (Model_Ghost.g_d (s_opts U))).
  Notation mbc := (Model_Grid.mbc (Model_Ghost.g_d (s_opts U))).
  Definition rq : request := mkReq (lvl L) (lvl L) false.
  Notation value := (value_at L m (s_mthbc U) u).
  Notation is_value := (is_value w geo rq).
  Notation wide := (Spec_Ghost.width_sent (s_opts U)).

  Lemma sizes : Model_Grid.my d = m /\ 1 <= m /\ 1 <= mbc /\ 2 * mbc <= m /\ mbc <= wide.
  Proof.
    destruct SETUP as (_ & (_ & S1 & S2 & _) & (H1 & _ & H2 & _ & H3 & _) & _). unfold Spec_Ghost.width_sent in *. repeat split; try assumption; try lia; nia.
  Qed.
  Lemma in_q_spec : forall i j k, Model_Grid.in_q d (i, j, k) = true <-> 1 - mbc <= i <= m + mbc /\ 1 - mbc <= j <= m + mbc /\ 1 <= k <= Model_Grid.meqn d.
  Proof. intros i j k. unfold Model_Grid.in_q. rewrite !andb_true_iff, !Z.leb_le. destruct sizes as (-> & _). lia. Qed.
  Lemma buf_false : forall x, buf w rq x = false. Proof. reflexivity. Qed.
  Lemma geom : forall x, is_patch w x -> right_quadrant L x (s_geom U x).
  Proof. intros x Hx. destruct SETUP as (_ & _ & _ & _ & _ & _ & H). apply (H x Hx). Qed.

  (** the cells of a region have the values of the single grid; of patches of other processes only those near the boundary *)
  Definition right (r : Z) (x : patch) (g : region) (a : Model_Grid.arr) : Prop :=
    forall i j k, Model_Grid.in_q d (i, j, k) = true -> cell_in m g i j -> (g = RInt -> fst x <> r -> Spec_Ghost.near d wide i j) ->
      a (i, j, k) = Some (value x i j k).
  Definition assigned (a : Model_Grid.arr) : Prop := forall c, Model_Grid.in_q d c = true -> a c <> None.
  Definition conf (r : Z) (s : state) (D : dstate) : Prop :=
    (forall x g, is_patch w x -> is_value x g (s (x, false, g)) -> right r x g (D x false)) /\
    (forall x, is_patch w x -> assigned (D x false)).

  Definition contents (a : Model_Grid.arr) (i j k : Z) : Q := match a (i, j, k) with Some v => v | None => 0%Q end.
  Lemma contents_hold : forall a, assigned a -> Spec_Grid.holds d a (contents a).
  Proof.
    intros a H i j k (Hi & Hj & Hk). unfold contents. specialize (H (i, j, k)). destruct (a (i, j, k)); [reflexivity|]. elim H; [|reflexivity].
    apply in_q_spec. pose proof sizes as (E & S1 & S2 & _). rewrite E in Hj. lia.
  Qed.

  Lemma put_same : forall D x a, put D x false a x false = a.
  Proof. intros D x a. unfold put. destruct (patch_eqb_spec x x); [reflexivity|congruence]. Qed.
  Lemma put_other : forall D x a y, y <> x -> put D x false a y false = D y false.
  Proof. intros D x a y N. unfold put. destruct (patch_eqb_spec y x); [contradiction|reflexivity]. Qed.

  (** one patch changes *)
  Lemma conf_put : forall r s s' D p a, conf r s D -> is_patch w p -> assigned a ->
    (forall x g, x <> p -> s' (x, false, g) = s (x, false, g)) ->
    (forall g, is_value p g (s' (p, false, g)) -> right r p g a) ->
    conf r s' (put D p false a).
  Proof.
    intros r s s' D p a [C1 C2] Hp HA HO HS. split.
    - intros x g Hx V. destruct (patch_eqb_spec x p) as [->|N]; [rewrite put_same; apply HS, V|].
      rewrite put_other by exact N. apply C1; [exact Hx|]. rewrite <- HO by exact N. exact V.
    - intros x Hx. destruct (patch_eqb_spec x p) as [->|N]; [rewrite put_same; exact HA|rewrite put_other by exact N; apply C2, Hx].
  Qed.

  Lemma value_args : forall x g k vs, is_value x g (App k vs) -> exists l, rule w geo rq x g = Some (k, l) /\ Forall2 (fun a v => is_value (fst a) (snd a) v) l vs.
  Proof. intros x g k vs V. inversion V; subst. exists l. split; assumption. Qed.

  (** ** Copying across a face *)
  Lemma run_copy : forall (K : bool -> routine) p q f s,
    (forall x g, x <> p -> run (map (fun h => mkA (p, false, RFace f h) (K h) [(q, false, RInt)]) [false; true]) s (x, false, g) = s (x, false, g)) /\
    (forall g, run (map (fun h => mkA (p, false, RFace f h) (K h) [(q, false, RInt)]) [false; true]) s (p, false, g) =
       match g with RFace f' h => if f =? f' then App (K h) [s (q, false, RInt)] else s (p, false, g) | _ => s (p, false, g) end).
  Proof.
    intros K p q f s. split.
    - intros x g N. rewrite run_other; [reflexivity|]. cbn. intros [E|[E|[]]]; congruence.
    - intros g. unfold run. cbn [map fold_left]. unfold step. cbn [target with_routine sources map].
      assert (E : forall y g1 f h, region_eqb (RFace f h) g1 = false -> key_eqb (p, false, RFace f h) (y, false, g1) = false).
      { intros y g1 f0 h E. unfold key_eqb. cbn [fst snd]. rewrite E. apply andb_false_r. }
      assert (E2 : forall g1, key_eqb (p, false, g1) (p, false, g1) = true) by (intros g1; destruct (key_eqb_spec (p, false, g1) (p, false, g1)); congruence).
      rewrite (E q RInt f false) by reflexivity. destruct g as [|f' h|c]; [rewrite !E by reflexivity; reflexivity| |rewrite !E by reflexivity; reflexivity].
      destruct (Z.eqb_spec f f') as [->|N].
      + destruct h; [rewrite E2; reflexivity|]. rewrite E by (cbn; rewrite Z.eqb_refl; reflexivity). rewrite E2. reflexivity.
      + rewrite !E by (cbn; destruct (Z.eqb_spec f f'); [contradiction|reflexivity]). reflexivity.
  Qed.

  Lemma edge_no : forall x f y rf, is_patch w x -> 0 <= f < 4 -> face_of w x f = Same y rf ->
    is_patch w y /\ rf = Spec_Grid.other_side f /\ pos L y = wrapped L (beside L (pos L x) (step_of f)) /\ bface geo x f = at_block_face L x f.
  Proof.
    intros x f y rf Hx Hf E. destruct LAID as (_ & _ & _ & H). destruct (H x Hx) as (_ & _ & _ & HF & _). destruct (HF f Hf) as (B & K). cbv zeta in K.
    destruct (exists_at L _); [|congruence]. destruct K as (z & Hz & E' & P). rewrite E in E'. inversion E'; subst. repeat split; assumption || exact (proj1 Hz) || apply Hz.
  Qed.

  Lemma inner_near : forall f dep t, 0 <= f < 4 -> 1 <= dep <= mbc -> 1 <= t <= m -> let c := inner_cell f m dep t in
    (1 <= fst c <= m /\ 1 <= snd c <= m) /\ Spec_Ghost.near d wide (fst c) (snd c).
  Proof.
    intros f dep t Hf Hd Ht. cbv zeta. unfold Spec_Ghost.near. destruct sizes as (-> & S1 & S2 & S3 & S4). four f; cbn [inner_cell fst snd]; lia.
  Qed.
  Lemma near_int : forall r x a i j k, right r x RInt a -> 1 <= i <= m -> 1 <= j <= m -> 1 <= k <= Model_Grid.meqn d -> Spec_Ghost.near d wide i j -> a (i, j, k) = Some (value x i j k).
  Proof.
    intros r x a i j k H Hi Hj Hk N. apply H; [apply in_q_spec; pose proof sizes; lia|split; assumption|]. intros _ _. exact N.
  Qed.

  Lemma copy_face_sim : forall r s D px pq f ti t l, right_call w geo rq r (CopyFace px pq f ti t) -> assigns w (place geo) r (CopyFace px pq f ti t) = Some l -> conf r s D ->
    exists D', do_op w U r D (CopyFace px pq f ti t) = Some D' /\ conf r (run l s) D'.
  Proof.
    intros r s D px pq f ti t l RC E C. destruct RC as (p & y & rf & G1 & G2 & Hp & Hf & EF & -> & ->).
    destruct (edge_no p f y rf Hp Hf EF) as (Hy & -> & PY & BF). rewrite buf_false in *.
    cbn [assigns] in E. destruct (args_ok _ px pq); cbn [check] in E; [|discriminate]. unfold with_patches in E. rewrite G1 in E. cbn [bind] in E. rewrite G2 in E. cbn [bind] in E. injection E as <-.
    cbn [do_op]. unfold with_patches. rewrite G1. cbn [bind]. rewrite G2. cbn [bind]. unfold data_of. cbn [face_data t_this t_nbr t_trans t_block_iface t_icorner t_block_corner]. rewrite G1. cbn [bind]. rewrite G2. cbn [bind].
    unfold face_trans. rewrite BF.
    assert (FT : ftrans_of (if at_block_face L p f then Inter f (Spec_Grid.other_side f) else Intra) = Some (trans_of f (at_block_face L p f))) by (destruct (at_block_face L p f); reflexivity).
    rewrite FT. cbn [bind]. unfold fill_ghost. rewrite orb_true_r. cbn [Model_Corner.face_data].
    pose proof (face_ok w geo L LAID p y f _ _ Hf PY (geom p Hp) (geom y Hy)) as SS. pose proof (geom p Hp) as (LV & _).
    destruct SETUP as (RN & SQ & _). pose proof sizes as (SY & S1 & S2 & S3 & S4). pose proof C as [C1 C2].
    destruct (Prop_Grid.C22_copy_face _ RN d m _ _ _ _ _ _ (D y false) (contents (D y false)) (D p false) SS ltac:(rewrite LV; exact SQ) ltac:(lia) (contents_hold _ (C2 y Hy))) as (q' & EQ & V1 & V2).
    rewrite EQ. cbn [store bind]. eexists. split; [reflexivity|].
    destruct (run_copy (KCopyFace f (t_trans (face_data (if at_block_face L p f then Inter f (Spec_Grid.other_side f) else Intra) px pq))) p y f s) as [R1 R2].
    assert (V3 : forall i j k, Model_Grid.in_q d (i, j, k) = true -> ~ next m f i j -> q' (i, j, k) = D p false (i, j, k)).
    { intros i j k _ N. apply V2. intros dep t mq Hd Ht _ E. apply N. unfold Spec_Grid.at3 in E. injection E as -> -> _. apply cell_next; lia. }
    apply (conf_put r s _ D p q' C Hp).
    - intros [[i j] k] HI. pose proof HI as HI'. apply in_q_spec in HI'. destruct HI' as (Hi & Hj & Hk).
      assert (next m f i j \/ ~ next m f i j) as [N|N] by (clear - Hf; four f; cbn [next]; lia).
      + destruct (next_cell m mbc f i j Hf Hi Hj N) as (dep & t & Hd & Ht & -> & ->). specialize (V1 dep t k Hd Ht Hk). cbv zeta in V1. unfold Spec_Grid.at3 in V1. rewrite V1. discriminate.
      + rewrite V3 by assumption. apply C2; assumption.
    - exact R1.
    - intros g V. rewrite R2 in V.
      assert (UN : (forall i j, cell_in m g i j -> ~ next m f i j) -> is_value p g (s (p, false, g)) -> right r p g q').
      { intros N V' i j k HI HC HN. rewrite V3; [apply (C1 p g Hp V'); assumption|exact HI|apply N, HC]. }
      destruct g as [|f' h|c].
      + apply UN; [|exact V]. intros i j [Hi Hj]. clear - Hf Hi Hj. four f; cbn [next]; lia.
      + destruct (Z.eqb_spec f f') as [<-|N].
        * apply value_args in V. destruct V as (l & RU & F2). cbn [Spec_Fill.rule] in RU.
          replace (negb ((0 <=? f) && (f <? 4))) with false in RU by (destruct (Z.leb_spec 0 f), (Z.ltb_spec f 4); try lia; reflexivity). rewrite EF in RU. assert (l = [(y, RInt)]) as -> by (inversion RU; reflexivity).
          inversion F2 as [|? ? ? ? VY _]; subst. cbn [fst snd] in VY.
          intros i j k HI [HN _] _. apply in_q_spec in HI. destruct HI as (Hi & Hj & Hk).
          destruct (next_cell m mbc f i j Hf Hi Hj HN) as (dep & t & Hd & Ht & -> & ->). specialize (V1 dep t k Hd Ht Hk). cbv zeta in V1. unfold Spec_Grid.at3 in V1. rewrite V1.
          cbn [Spec_Grid.flip]. destruct (inner_near (Spec_Grid.other_side f) dep t ltac:(clear - Hf; four f; cbn; lia) Hd Ht) as ((B1 & B2) & B3). cbv zeta in B1, B2, B3.
          unfold contents. rewrite (near_int r y _ _ _ k (C1 y RInt Hy VY) B1 B2 Hk B3). f_equal.
          rewrite (value_around w geo L LAID m S1 _ u p y _ _ _ _ k PY). destruct (face_cells f m dep t Hf) as [<- <-]. reflexivity.
        * apply UN; [|exact V]. inversion V as [|? ? k l vs RU F2 EV]; subst. cbn [Spec_Fill.rule] in RU.
          destruct (Z.leb_spec 0 f') as [Q1|Q1]; [|discriminate]. destruct (Z.ltb_spec f' 4) as [Q2|Q2]; [|discriminate].
          intros i j [HN _]. clear - HN Hf Q1 Q2 N S1. four f; four f'; try lia; cbn [next] in *; lia.
      + apply UN; [|exact V]. intros i j [Hi Hj]. clear - Hf Hi Hj S1. four f; cbn [next]; destruct (Z.odd c), (c / 2 =? 1); lia.
  Qed.
End Calls.
