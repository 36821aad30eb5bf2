(** The operators on a patch: what they compute, and the right hand side of a patch problem. *)
From Coq Require Import ZArith QArith List Lia Lqa Bool Qfield.
From Verif Require Import Base_Float Model_Face Model_Grid Spec_Grid Proof_Grid Proof_Grid2 Proof_Tag Proof_Diag Model_Elliptic Spec_Elliptic
  Proof_Elliptic1.
Import ListNotations.
Open Scope Z_scope.

Ltac four_sides f := assert (f = 0 \/ f = 1 \/ f = 2 \/ f = 3) as [->|[->|[->| ->]]] by lia;
  cbn [Z.eqb Z.ltb Z.compare Pos.compare Pos.compare_cont Pos.eqb fst snd] in *.

Lemma lap_divg : forall hx hy U i j, ~ (hx == 0)%Q -> ~ (hy == 0)%Q -> (lap hx hy U i j == divg hx hy (fun _ _ => 1%Q) U i j)%Q.
Proof. intros. unfold lap, divg, mean2. field. auto. Qed.

Section Ops.
  Variable d : dims.
  Hypothesis HU : usable d.

  (** the ghost cells beyond some sides replaced by a function of the cells they touch *)
  Definition closing (wh : Z -> bool) (g : Z -> Q -> Q) (U : data) : data := fun i j m =>
    if (i =? 0) && wh 0 then g 0 (U 1 j m) else
    if (i =? mx d + 1) && wh 1 then g 1 (U (mx d) j m) else
    if (j =? 0) && wh 2 then g 2 (U i 1 m) else
    if (j =? my d + 1) && wh 3 then g 3 (U i (my d) m) else U i j m.

  Lemma closing_inside : forall wh g U i j m, 1 <= i <= mx d -> 1 <= j <= my d -> closing wh g U i j m = U i j m.
  Proof.
    intros. unfold closing.
    repeat match goal with |- context [?a =? ?b] => destruct (Z.eqb_spec a b); try lia end. reflexivity.
  Qed.

  Lemma closing_ghost : forall wh g U f k m, 0 <= f < 4 -> 1 <= k <= side_len d f ->
    on (field (closing wh g U) m) (ghost_at d f k) =
    if wh f then g f (on (field U m) (inside_at d f k)) else on (field U m) (ghost_at d f k).
  Proof.
    intros wh g U f k m Hf Hk. destruct HU as (U1 & U2 & _). unfold side_len in Hk. unfold ghost_at, inside_at.
    four_sides f; unfold closing, on, field; cbn [fst snd];
      repeat match goal with |- context [?a =? ?b] => destruct (Z.eqb_spec a b); try lia end; cbn [andb];
      match goal with |- context [wh ?n] => destruct (wh n); reflexivity end.
  Qed.

  (** filling some sides when the others are filled already *)
  Lemma fill_layer : forall wh g u U, holds d u U ->
    (forall f k m, 0 <= f < 4 -> wh f = false -> 1 <= k <= side_len d f -> 1 <= m <= meqn d ->
       at_cell u (ghost_at d f k, m) (on (field U m) (ghost_at d f k))) ->
    exists u', fill_sides d wh g u = Some u' /\ layer_holds d u' (closing wh g U) /\ holds d u' U /\
      (forall f k m, 0 <= f < 4 -> wh f = true -> 1 <= k <= side_len d f -> 1 <= m <= meqn d ->
         u' (ghost_at d f k, m) = Some (g f (on (field U m) (inside_at d f k)))) /\
      (forall c, ~ beyond_side d wh c -> u' c = u c).
  Proof.
    intros wh g u U H1 H2. destruct (fill_sides_writes d HU wh g u U H1) as (u' & E & A & B).
    assert (HI : holds d u' U).
    { intros i j m I. rewrite B; [now apply H1|]. intros (f & k & m' & Hf & _ & Hk & Hm & X).
      destruct (ghost_in d HU f k m' Hf Hk Hm) as (_ & _ & _ & N). rewrite <- X in N. contradiction. }
    exists u'. split; [exact E|]. split; [|split; [exact HI|split; [exact A|exact B]]].
    apply layer_from.
    - intros i j m I. exists (U i j m). split; [now apply HI|]. destruct I as (Hi & Hj & Hm). now rewrite closing_inside by assumption.
    - intros f k m Hf Hk Hm. rewrite closing_ghost by assumption. destruct (wh f) eqn:W.
      + eexists. split; [now apply A|reflexivity].
      + destruct (H2 f k m Hf W Hk Hm) as (v & Ev & Qv). exists v. split; [|exact Qv]. rewrite B; [exact Ev|].
        intros (f' & k' & m' & Hf' & W' & Hk' & Hm' & X).
        destruct (back_ghost d HU f k m Hf Hk) as (_ & S1). destruct (back_ghost d HU f' k' m' Hf' Hk') as (_ & S2).
        rewrite <- X, S1 in S2. congruence.
  Qed.

  (** the same, then the other sides *)
  Lemma fill_both : forall wh g g' u U, holds d u U ->
    exists u1 u', fill_sides d wh g u = Some u1 /\ fill_sides d (fun s => negb (wh s)) g' u1 = Some u' /\
      layer_holds d u' (closing (fun _ => true) (fun s => if wh s then g s else g' s) U) /\
      (forall c, ~ beyond_side d (fun _ => true) c -> u' c = u c).
  Proof.
    intros wh g g' u U H1. destruct (fill_sides_writes d HU wh g u U H1) as (u1 & E1 & A1 & B1).
    assert (HI : holds d u1 (closing wh g U)).
    { intros i j m I. rewrite B1.
      - rewrite closing_inside by (unfold interior in I; lia). now apply H1.
      - intros (f & k & m' & Hf & _ & Hk & Hm & X). destruct (ghost_in d HU f k m' Hf Hk Hm) as (_ & _ & _ & N). rewrite <- X in N. contradiction. }
    destruct (fill_layer (fun s => negb (wh s)) g' u1 (closing wh g U) HI) as (u' & E2 & L & _ & _ & B2).
    { intros f k m Hf W Hk Hm. apply negb_false_iff in W. rewrite closing_ghost by assumption. rewrite W.
      eexists. split; [now apply A1|reflexivity]. }
    exists u1, u'. split; [exact E1|]. split; [exact E2|]. split.
    - apply layer_from.
      + intros i j m I. unfold interior in I. destruct (L i j m ltac:(lia) ltac:(lia)) as (v & Ev & Qv). exists v. split; [exact Ev|].
        rewrite Qv. rewrite !closing_inside by lia. reflexivity.
      + intros f k m Hf Hk Hm.
        assert (Lf : at_cell u' (ghost_at d f k, m) (on (field (closing (fun s => negb (wh s)) g' (closing wh g U)) m) (ghost_at d f k))).
        { destruct HU as (U1 & U2 & _). unfold side_len in Hk. unfold ghost_at. unfold on, field. four_sides f; apply L; lia. }
        destruct Lf as (v & Ev & Qv). exists v. split; [exact Ev|]. rewrite Qv. rewrite !closing_ghost by assumption.
        destruct (wh f); cbn [negb]; [reflexivity|]. unfold on, field.
        assert (IN : 1 <= fst (inside_at d f k) <= mx d /\ 1 <= snd (inside_at d f k) <= my d).
        { destruct HU as (U1 & U2 & _). unfold side_len in Hk. unfold inside_at. four_sides f; lia. }
        rewrite closing_inside by apply IN. reflexivity.
    - intros c Hc. rewrite B2, B1; [reflexivity| |]; intros (f & k & m & Hf & _ & Hk & Hm & ->); apply Hc; exists f, k, m; repeat split; try assumption; lia.
  Qed.

  (** equal operators for equal data *)
  Lemma divg_ext : forall hx hy B U V i j,
    (U i j == V i j)%Q -> (U (i + 1)%Z j == V (i + 1)%Z j)%Q -> (U (i - 1)%Z j == V (i - 1)%Z j)%Q ->
    (U i (j + 1)%Z == V i (j + 1)%Z)%Q -> (U i (j - 1)%Z == V i (j - 1)%Z)%Q -> (divg hx hy B U i j == divg hx hy B V i j)%Q.
  Proof. intros hx hy B U V i j E0 E1 E2 E3 E4. unfold divg. rewrite E0, E1, E2, E3, E4. reflexivity. Qed.

  (** data that agree in the cells and beyond the sides *)
  Definition same_layer (U V : data) (m : Z) : Prop :=
    (forall i j, 1 <= i <= mx d -> 1 <= j <= my d -> (U i j m == V i j m)%Q) /\
    (forall f k, 0 <= f < 4 -> 1 <= k <= side_len d f -> (on (field U m) (ghost_at d f k) == on (field V m) (ghost_at d f k))%Q).

  Lemma same_divg : forall hx hy B U V m i j, same_layer U V m -> 1 <= i <= mx d -> 1 <= j <= my d ->
    (divg hx hy B (field U m) i j == divg hx hy B (field V m) i j)%Q.
  Proof.
    intros hx hy B U V m i j (S1 & S2) Hi Hj.
    pose proof (fun k => S2 0 k ltac:(lia)) as G0. pose proof (fun k => S2 1 k ltac:(lia)) as G1.
    pose proof (fun k => S2 2 k ltac:(lia)) as G2. pose proof (fun k => S2 3 k ltac:(lia)) as G3.
    unfold side_len, ghost_at, on, field in *. cbn [Z.eqb Z.ltb Z.compare Pos.compare Pos.compare_cont Pos.eqb fst snd] in *.
    apply divg_ext.
    - now apply S1.
    - destruct (Z.eq_dec i (mx d)) as [->|]; [now apply G1|apply S1; lia].
    - destruct (Z.eq_dec i 1) as [->|]; [now apply G0|apply S1; lia].
    - destruct (Z.eq_dec j (my d)) as [->|]; [now apply G3|apply S1; lia].
    - destruct (Z.eq_dec j 1) as [->|]; [now apply G2|apply S1; lia].
  Qed.

  Section Coef.
    Variable pi : pinfo.
    Hypothesis Hx : ~ (sx pi == 0)%Q.
    Hypothesis Hy : ~ (sy pi == 0)%Q.

    (** a stencil that computes the operator with coefficient B, plus l times the value *)
    Variable B : Z -> Z -> Q.
    Variable l : Q.
    Definition ell (U : data) (m i j : Z) : Q := (divg (sx pi) (sy pi) B (field U m) i j + l * U i j m)%Q.
    Variable st : arr -> Z -> Z -> Z -> option Q.
    Hypothesis Hst : forall u U i j m, layer_holds d u U -> interior d (i, j, m) ->
      exists v, st u (i - 1) (j - 1) (m - 1) = Some v /\ (v == ell U m i j)%Q.

    Definition run (g : Z -> Q -> Q) (u f : arr) : option (arr * arr) :=
      bind (fill_sides d (fun side => negb (has_nbr pi side)) g u) (fun u => bind (each_cell d (st u) f) (fun f => Some (u, f))).
    Definition run_internal (g : Z -> Q -> Q) (u f : arr) : option (arr * arr) :=
      bind (fill_sides d (has_nbr pi) (fun _ => Qopp) u) (fun u => run g u f).

    Lemma stencil_all : forall u U f, layer_holds d u U ->
      exists f', each_cell d (st u) f = Some f' /\ becomes d f f' (fun i j m => ell U m i j).
    Proof.
      intros u U f L.
      set (F := fun i j m => match st u (i - 1) (j - 1) (m - 1) with Some v => v | None => 0%Q end).
      destruct (each_cell_writes d HU (st u) F f) as (f' & E & A & C).
      { intros i j m I. destruct (Hst u U i j m L I) as (v & Ev & _). unfold F. rewrite Ev. reflexivity. }
      exists f'. split; [exact E|]. split; [|exact C]. intros i j m I. exists (F i j m). split; [now apply A|].
      destruct (Hst u U i j m L I) as (v & Ev & Qv). unfold F. now rewrite Ev.
    Qed.

    Lemma run_ok : forall g u f U, holds_with d (has_nbr pi) u U ->
      exists u' f', run g u f = Some (u', f') /\
        becomes d f f' (fun i j m => ell (closing (fun s => negb (has_nbr pi s)) g U) m i j) /\
        (forall c, ~ beyond_side d (fun s => negb (has_nbr pi s)) c -> u' c = u c).
    Proof.
      intros g u f U (H1 & H2). unfold run.
      destruct (fill_layer (fun s => negb (has_nbr pi s)) g u U H1) as (u' & E & L & _ & _ & C).
      { intros s k m Hs W Hk Hm. apply negb_false_iff in W. eexists. split; [now apply H2|reflexivity]. }
      rewrite E. cbn [bind]. destruct (stencil_all u' _ f L) as (f' & Ef & Hf). rewrite Ef. cbn [bind]. exists u', f'. auto.
    Qed.

    Lemma run_internal_ok : forall g u f U, holds d u U ->
      exists u' f', run_internal g u f = Some (u', f') /\
        becomes d f f' (fun i j m => ell (closing (fun _ => true) (fun s => if has_nbr pi s then Qopp else g s) U) m i j) /\
        (forall c, ~ beyond_side d (fun _ => true) c -> u' c = u c).
    Proof.
      intros g u f U H1. unfold run_internal, run.
      destruct (fill_both (has_nbr pi) (fun _ => Qopp) g u U H1) as (u1 & u' & E1 & E2 & L & C). rewrite E1. cbn [bind]. rewrite E2. cbn [bind].
      destruct (stencil_all u' _ f L) as (f' & Ef & Hf). rewrite Ef. cbn [bind]. exists u', f'. auto.
    Qed.
  End Coef.
End Ops.
