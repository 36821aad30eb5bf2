(** The update on all processes: from the exchange to the end. *)
From Coq Require Import ZArith List Bool Lia.
From Verif Require Import Model_Face Model_Mesh Proof_Mesh Spec_Mesh Prop_Mesh Model_Fill Model_FillExec Spec_Fill Proof_Fill1 Proof_Fill2 Proof_Fill3 Proof_Fill4 Proof_Fill5 Proof_Fill6.
Import ListNotations.
Open Scope Z_scope.

Section Machine.
  Variable w : world.
  Variable geo : geometry.
  Variable rq : request.
  Variable views : Z -> view.
  Hypothesis FOREST : forest_ok w geo.
  Hypothesis MACHINE : machine_ok w geo rq views.
  Notation buf := (buf w rq).
  Notation rule := (rule w geo rq).
  Notation follows := (follows w geo rq).
  Notation settled := (settled w geo rq).
  Notation source := (source w geo rq).
  Notation in_range := (Spec_Fill.in_range w rq).
  Notation own := (own w).
  Notation hanging_regions := (hanging_regions w geo).

  Variable buffer : patch -> region -> val.
  Variable sent : Z -> state.
  Hypothesis SENT : forall r, 0 <= r < procs w -> partly w geo rq views r (sent r).

  Section Process.
    Variable r : Z.
    Hypothesis RANK : 0 <= r < procs w.
    Notation v := (views r).
    Let VIEW : view_ok w geo r v := proj1 (proj2 MACHINE r RANK).
    Let GHOSTS : ghosts_ok w geo rq r := proj2 (proj2 MACHINE r RANK).
    Notation flagged := (flagged w r v).
    Notation sel := (sel w r v).
    Notation unpack := (unpack w views (minlevel rq) (maxlevel rq) (interp rq) buffer sent r).

    Lemma layer_ok : forall x, In x (layer w r) -> is_patch w x /\ fst x <> r.
    Proof. intros x H. destruct (WORLD _ _ FOREST) as (_ & _ & _ & _ & _ & _ & _ & L & _). apply (L r x RANK H). Qed.

    Lemma unpack_own : forall s x t g, fst x = r -> unpack s (x, t, g) = s (x, t, g).
    Proof.
      intros s x t g E. unfold Model_FillExec.unpack. destruct (existsb (patch_eqb x) (layer w r)) eqn:EX; [|reflexivity].
      apply existsb_exists in EX. destruct EX as (y & Hy & Ey). destruct (patch_eqb_spec x y); [subst y|discriminate]. destruct (layer_ok x Hy). contradiction.
    Qed.
    Lemma unpack_ghost : forall s x g, In x (layer w r) -> in_range x -> unpack s (x, buf x, g) = sent (fst x) (x, buf x, g) /\
      Proof_Fill5.flagged w (fst x) (views (fst x)) x = true.
    Proof.
      intros s x g H [L1 L2]. destruct (layer_ok x H) as [Hx N]. assert (0 <= fst x < procs w) as Hp by apply Hx.
      assert (Proof_Fill5.flagged w (fst x) (views (fst x)) x = true) as FL by (apply (flag_layer w geo rq views FOREST MACHINE (fst x) Hp x r); [split; auto|exact RANK|exact H]).
      split; [|exact FL]. unfold Model_FillExec.unpack.
      assert (existsb (patch_eqb x) (layer w r) = true) as -> by (apply existsb_exists; exists x; split; [exact H|destruct (patch_eqb_spec x x); congruence]).
      assert ((minlevel rq - 1 <=? level_of w x) = true) as -> by (apply Z.leb_le; unfold lowest in L1; destruct (interp rq); lia).
      change (interp rq && (level_of w x =? minlevel rq - 1)) with (buf x). rewrite eqb_reflx. cbn [andb].
      change (if interp rq then minlevel rq - 1 else minlevel rq) with (lowest rq).
      assert ((lowest rq <=? level_of w x) = true) as -> by (apply Z.leb_le; exact L1). assert ((level_of w x <=? maxlevel rq) = true) as -> by (apply Z.leb_le; exact L2).
      unfold Proof_Fill5.flagged in FL. rewrite FL. reflexivity.
    Qed.

    Definition int_good (s : state) : Prop := forall y, is_patch w y -> knows w r y -> in_range y -> settled s (y, RInt).
    Lemma int_keep : forall l s, Forall follows l -> int_good s -> int_good (run l s).
    Proof. intros l s F G y O K L. apply run_settled; [exact F|apply G; assumption|auto]. Qed.

    Lemma unpack_int : forall s, own_good w geo rq r s -> int_good (unpack s).
    Proof.
      intros s G y Hy [E|H] R; apply S_interior.
      - rewrite unpack_own by exact E. specialize (G y (conj Hy E) R). inversion G; subst; [assumption|discriminate].
      - destruct (unpack_ghost s y RInt H R) as [-> _]. destruct (layer_ok y H) as [_ N]. destruct (SENT (fst y) ltac:(apply Hy)) as [G' _].
        specialize (G' y (conj Hy eq_refl) R). inversion G'; subst; [assumption|discriminate].
    Qed.
    (** transfer of a region whose sources are right *)
    Lemma transfer : forall s s' x g k l, rule x g = Some (k, l) -> Forall (settled s') l -> settled s (x, g) -> s' (x, buf x, g) = s (x, buf x, g) -> settled s' (x, g).
    Proof. intros s s' x g k l R F S E. eapply settled_of_value; [exact R|exact F|]. rewrite E. apply (settled_value w geo rq s (x, g) S). Qed.

    (** ghost faces filled by their owner from its own patches *)
    Definition ghosts_partly (s : state) : Prop := forall q f h y, In q (layer w r) -> in_range q -> 0 <= f < 4 -> source q f h y -> fst y = fst q -> knows w r y ->
      (edge w q f = true -> level_of w q < maxlevel rq) -> settled s (q, RFace f h).
    Lemma unpack_partly : forall s, own_good w geo rq r s -> ghosts_partly (unpack s).
    Proof.
      intros s G q f h y H R Hf Sr Ey Ky Ee. destruct (layer_ok q H) as [Hq N]. destruct (unpack_ghost s q (RFace f h) H R) as [E FL].
      destruct (SENT (fst q) ltac:(apply Hq)) as [_ P]. specialize (P q f h y (conj Hq eq_refl) R FL Hf Sr Ey Ee).
      destruct (source_range w geo rq views FOREST MACHINE q f h y Hq R Hf Sr) as [Hy Ry]. destruct Sr as (k & RU).
      eapply transfer; [exact RU| |exact P|exact E]. apply Forall_cons; [|apply Forall_nil]. apply (unpack_int s G y Hy Ky Ry).
    Qed.
    Lemma unpack_inner : forall s, own_good w geo rq r s -> inner w geo rq views r s -> inner w geo rq views r (unpack s).
    Proof.
      intros s G (I1 & I2 & I3 & I4). pose proof (unpack_int s G) as U.
      assert (forall x f h y, own r x -> in_range x -> flagged x = false -> 0 <= f < 4 -> source x f h y -> (edge w x f = true -> level_of w x < maxlevel rq) -> settled (unpack s) (x, RFace f h)) as B1.
      { intros x f h y O R FL Hf Sr Ee. pose proof (inner_own w geo rq views FOREST MACHINE r RANK x f h y O FL Hf Sr) as Ey.
        destruct (source_range w geo rq views FOREST MACHINE x f h y (proj1 O) R Hf Sr) as [Hy Ry]. pose proof (I1 x f h y O R FL Hf Sr Ee) as S. destruct Sr as (k & RU).
        eapply transfer; [exact RU| |exact S|apply unpack_own; apply O]. apply Forall_cons; [|apply Forall_nil]. apply U; [exact Hy|left; exact Ey|exact Ry]. }
      split; [exact B1|]. split; [|split].
      - intros x c y c' O R FL Hc P Ed L. destruct (diag_level w geo FOREST x c y c' (proj1 O) Hc Ed) as [Hy _].
        assert (fst y = r) as Ey by (destruct (Z.eq_dec (fst y) r) as [|N]; [assumption|rewrite (flag_corner w geo rq views FOREST MACHINE r RANK x c y c' O Hc N Ed) in FL; discriminate]).
        assert (exists k, rule x (RCorner c) = Some (k, [(y, RInt)])) as (k & RU).
        { rewrite (corner_rule w geo rq FOREST x c y c' (proj1 O) Hc P Ed). destruct (level_of w y =? level_of w x) eqn:EL; [eauto|]. apply Z.eqb_neq in EL.
          destruct (Z.ltb_spec (level_of w x) (level_of w y)); [eauto|lia]. }
        eapply transfer; [exact RU| |exact (I2 x c y c' O R FL Hc P Ed L)|apply unpack_own; apply O]. apply Forall_cons; [|apply Forall_nil].
        apply U; [exact Hy|left; exact Ey|split; [destruct R; lia|apply (top w geo rq views MACHINE); exact Hy]].
      - intros x f q sub rf z g O R Oq FL Hf Ef HR. pose proof (I3 x f q sub rf z g O R Oq FL Hf Ef HR) as S.
        destruct (interp_rule w geo rq FOREST x f q sub rf z g (proj1 O) Hf Ef (proj1 R) HR) as (-> & NX & k & RU).
        destruct (coarser_ok w geo FOREST x f q sub rf (proj1 O) Hf Ef) as (Hq & Hf' & LX & _).
        destruct (reads_sources w geo rq FOREST x f q sub rf (proj1 O) Hf Ef) as ((y1 & S1) & (y2 & S2) & (y3 & S3)). pose proof (top w geo rq views MACHINE x (proj1 O)) as TX.
        eapply transfer; [exact RU| |exact S|apply unpack_own; apply O].
        unfold reads. repeat (apply Forall_cons; [|]); try apply Forall_nil; [apply U; [exact Hq|left; apply Oq|exact R]|eapply B1; try eassumption; intros; lia..|].
        eapply B1; try eassumption; [apply endface_range; assumption|]. intros; lia.
      - intros x c y c' O R Oy FL Hc P Ed L. pose proof (I4 x c y c' O R Oy FL Hc P Ed L) as S. pose proof (top w geo rq views MACHINE x (proj1 O)) as TX.
        destruct (csym w geo FOREST x c (proj1 O) Hc P y c' Ed) as (Hc' & _).
        destruct (corner_rule_coarse w geo rq FOREST x c y c' (proj1 O) Hc P Ed L (proj1 R)) as (k & RU). destruct (corner_sources w geo rq FOREST x c y c' (proj1 O) Hc P Ed L) as ((y1 & S1) & (y2 & S2)).
        eapply transfer; [exact RU| |exact S|apply unpack_own; apply O].
        repeat (apply Forall_cons; [|]); try apply Forall_nil; [apply U; [apply Oy|left; apply Oy|exact R]| |]; eapply B1; try eassumption; try (intros; lia); [apply cfx_range|apply cfy_range; assumption].
    Qed.
  End Process.
End Machine.
