(** The whole update. *)
From Coq Require Import ZArith List Bool Lia.
From Verif Require Import Model_Face Model_Mesh Proof_Mesh Spec_Mesh Prop_Mesh Model_Fill Model_FillExec Spec_Fill Proof_Fill1 Proof_Fill2 Proof_Fill3 Proof_Fill4 Proof_Fill5 Proof_Fill6 Proof_Fill7 Proof_Fill8 Proof_Fill9.
Import ListNotations.
Open Scope Z_scope.

Section Machine.
  Variable w : world.
  Variable geo : geometry.
  Variable rq : request.
  Variable views : Z -> view.
  Hypothesis FOREST : forest_ok w geo.
  Hypothesis MACHINE : machine_ok w geo rq views.
  Notation buf := (buf w rq).
  Notation rule := (rule w geo rq).
  Notation settled := (settled w geo rq).
  Notation in_range := (Spec_Fill.in_range w rq).
  Notation own := (own w).
  Notation is_value := (is_value w geo rq).

  Definition right_state (r : Z) (s : state) : Prop := forall x g v, is_patch w x -> fst x = r -> in_range x -> is_value x g v -> s (x, buf x, g) = v.

  Lemma after_ok : forall async r s3, 0 <= r < procs w -> int_good w geo rq r s3 -> ghosts_partly w geo rq r s3 -> (async = true -> inner w geo rq views r s3) ->
    exists s6, bind (after_receive (views r) async (minlevel rq) (maxlevel rq) (interp rq)) (fun ops => exec w (place geo) r ops s3) = Some s6 /\ right_state r s6.
  Proof.
    intros async r s3 RANK INT PARTLY INNER. pose proof (proj1 (proj2 MACHINE r RANK)) as VIEW.
    unfold after_receive. cbv zeta. set (m := if async then GHOST_ONLY else ALL).
    pose proof (ghost_pass w geo rq r (views r) FOREST RANK VIEW) as Fg. pose proof (avg_pass w geo rq r (views r) FOREST RANK VIEW true m) as Fa. pose proof (copy_pass w geo rq r (views r) FOREST RANK VIEW true m) as Fb.
    pose proof (phys_pass w geo rq r (views r) FOREST RANK VIEW (maxlevel rq) m) as Fc. pose proof (int_pass w geo rq r (views r) FOREST RANK VIEW true m) as Fd.
    pose proof (phys_pass w geo rq r (views r) FOREST RANK VIEW (maxlevel rq) ALL) as Fe. pose proof (phys_shape w geo r rq (views r) FOREST RANK VIEW) as SH.
    set (G := face_neighbor_ghost _ _ _) in *. set (A := average_fine2coarse _ _ _ _ _ _) in *. set (B := copy_samelevel _ _ _ _ _ _) in *. set (C := fill_physical _ _ _ _ m) in *.
    set (D := interpolate_coarse2fine _ _ _ _ _ _) in *. set (E := fill_physical _ _ _ _ ALL) in *. clearbody G A B C D E.
    destruct (fills_exec w geo rq r _ _ s3 (fills_andthen w geo rq r _ _ _ _ Fg (fills_andthen w geo rq r _ _ _ _ Fa (fills_andthen w geo rq r _ _ _ _ Fb Fc)))) as (l1 & E1 & F1 & T1).
    destruct (fills_exec w geo rq r _ _ (run l1 s3) Fd) as (l2 & E2 & F2 & T2).
    destruct Fe as (oe & l3 & Ee & Ce & F3 & T3 & _). destruct SH as (oe' & L & Ee' & CL & HL). rewrite Ee in Ee'. injection Ee' as <-. rewrite Ce in CL. injection CL as ->.
    set (l3 := concat _) in *. exists (run l3 (run l2 (run l1 s3))). split.
    { destruct (fills_some _ _ _ _ _ _ Fg) as [og Eg]. destruct (fills_some _ _ _ _ _ _ Fa) as [oa Ea]. destruct (fills_some _ _ _ _ _ _ Fb) as [ob Eb]. destruct (fills_some _ _ _ _ _ _ Fc) as [oc Ec].
      destruct (fills_some _ _ _ _ _ _ Fd) as [od Ed]. subst. unfold andthen in *. cbn [bind] in *.
      replace (og ++ oa ++ ob ++ oc ++ od ++ oe) with ((og ++ oa ++ ob ++ oc) ++ od ++ oe) by (rewrite <- !app_assoc; reflexivity).
      rewrite exec_app, E1. cbn [bind]. rewrite exec_app, E2. cbn [bind]. unfold exec. rewrite Ce. reflexivity. }
    assert (forall x g k l, own r x -> in_range x -> rule x g = Some (k, l) -> ~ exempt w x g -> settled (run l3 (run l2 (run l1 s3))) (x, g)) as MAIN.
    { intros x g k l. apply (Proof_Fill9.E1 w geo rq views FOREST MACHINE r RANK async s3 INT PARTLY INNER l1 F1 T1 l2 F2 T2 l3 F3 T3). }
    assert (int_good w geo rq r (run l3 (run l2 (run l1 s3)))) as INT6 by (repeat (apply int_keep; [assumption|]); assumption).
    clearbody m. intros x g vv Hx Ex R V.
    assert (forall g' v', is_value x g' v' -> ~ exempt w x g' -> run l3 (run l2 (run l1 s3)) (x, buf x, g') = v') as NE.
    { intros g' v' V' NX. eapply (value_unique w geo rq); [|exact V']. inversion V' as [|? ? k l vs RU _]; subst.
      - apply (settled_value w geo rq _ (x, RInt)). apply INT6; [exact Hx|left; reflexivity|exact R].
      - apply (settled_value w geo rq _ (x, g')). eapply MAIN; [split; [exact Hx|reflexivity]|exact R|exact RU|exact NX]. }
    destruct g as [|f h|c]; [apply NE; [exact V|intros []]|apply NE; [exact V|intros []]|].
    destruct (physical_corner w x c) eqn:P; [|apply NE; [exact V|cbn [exempt]; congruence]].
    inversion V as [|? ? k l vs RU FV]; subst. assert (0 <= c < 4) as Hc.
    { cbn [Spec_Fill.rule] in RU. destruct (Z.leb_spec 0 c), (Z.ltb_spec c 4); try discriminate. lia. }
    destruct (plists_corners w x (buf x) L (run l2 (run l1 s3)) (or_introl (HL x (buf x) (conj (conj Hx eq_refl) (conj R eq_refl)))) c Hc) as [Y N]. cbv beta in Y, N. fold l3 in Y, N.
    cbn [Spec_Fill.rule] in RU. rewrite range_dec in RU by assumption. unfold physical_corner in P.
    destruct (edge w x (cfy c)) eqn:EY; [|destruct (edge w x (cfx c)) eqn:EX; [|discriminate]]; inversion RU; subst; inversion FV as [|? ? ? ? V1 V2]; subst; inversion V2; subst; cbn [fst snd] in V1.
    - rewrite (Y eq_refl). rewrite (NE _ _ V1) by (intros []). reflexivity.
    - rewrite (N eq_refl eq_refl). rewrite (NE _ _ V1) by (intros []). reflexivity.
  Qed.

  Variable buffer : patch -> region -> val.
  Variable start : Z -> state.
  Hypothesis START : forall r, 0 <= r < procs w -> has_solution w rq r (start r).

  Lemma first_ok : forall r, 0 <= r < procs w -> exists s, first_stage w (place geo) views (minlevel rq) (maxlevel rq) (interp rq) start r = Some s /\ partly w geo rq views r s.
  Proof.
    intros r RANK. apply (before_ok w geo rq views FOREST MACHINE r RANK). intros y [Hy E] R. apply S_interior. apply (START r RANK y Hy E R).
  Qed.
  Lemma update_ok : forall async r, 0 <= r < procs w -> exists s, ghost_update w (place geo) views async (minlevel rq) (maxlevel rq) (interp rq) buffer start r = Some s /\ right_state r s.
  Proof.
    intros async r RANK. unfold ghost_update. cbv zeta.
    set (first := first_stage w (place geo) views (minlevel rq) (maxlevel rq) (interp rq) start).
    assert (forallb (fun q => match first q with Some _ => true | None => false end) (zrange 0 (procs w)) = true) as ->.
    { apply forallb_forall. intros q Hq. apply Proof_Mesh.in_range in Hq. destruct (first_ok q Hq) as (s & E & _). unfold first. rewrite E. reflexivity. }
    cbn [check]. set (sent := fun q : Z => match first q with Some s => s | None => start q end).
    assert (forall q, 0 <= q < procs w -> partly w geo rq views q (sent q)) as SENT.
    { intros q Hq. destruct (first_ok q Hq) as (s & E & P). unfold sent, first. rewrite E. exact P. }
    clearbody sent. unfold later_stages.
    assert (exists s2, bind (while_sending (views r) async (minlevel rq) (maxlevel rq) (interp rq)) (fun ops => exec w (place geo) r ops (sent r)) = Some s2 /\
      own_good w geo rq r s2 /\ (async = true -> inner w geo rq views r s2)) as (s2 & E2 & G2 & I2).
    { destruct async.
      - destruct (while_ok w geo rq views FOREST MACHINE r RANK (sent r) (proj1 (SENT r RANK))) as (s2 & E & G & I'). exists s2. auto.
      - exists (sent r). split; [reflexivity|]. split; [apply (SENT r RANK)|discriminate]. }
    destruct (while_sending (views r) async (minlevel rq) (maxlevel rq) (interp rq)) as [ops|]; cbn [bind] in *; [|discriminate]. rewrite E2. cbn [bind].
    apply after_ok; [exact RANK| | |].
    - apply unpack_int; assumption.
    - apply unpack_partly; assumption.
    - intros A. apply unpack_inner; auto.
  Qed.
End Machine.
