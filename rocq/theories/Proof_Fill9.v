(** The update on all processes: after the exchange, and the conclusion. *)
From Coq Require Import ZArith List Bool Lia.
From Verif Require Import Model_Face Model_Mesh Proof_Mesh Spec_Mesh Prop_Mesh Model_Fill Model_FillExec Spec_Fill Proof_Fill1 Proof_Fill2 Proof_Fill3 Proof_Fill4 Proof_Fill5 Proof_Fill6 Proof_Fill7 Proof_Fill8.
Import ListNotations.
Open Scope Z_scope.

Section Machine.
  Variable w : world.
  Variable geo : geometry.
  Variable rq : request.
  Variable views : Z -> view.
  Hypothesis FOREST : forest_ok w geo.
  Hypothesis MACHINE : machine_ok w geo rq views.
  Notation buf := (buf w rq).
  Notation rule := (rule w geo rq).
  Notation follows := (follows w geo rq).
  Notation settled := (settled w geo rq).
  Notation source := (source w geo rq).
  Notation in_range := (Spec_Fill.in_range w rq).
  Notation own := (own w).
  Notation hanging_regions := (hanging_regions w geo).
  Notation top := (top w geo rq views MACHINE).

  Section Process.
    Variable r : Z.
    Hypothesis RANK : 0 <= r < procs w.
    Notation v := (views r).
    Let VIEW : view_ok w geo r v := proj1 (proj2 MACHINE r RANK).
    Let GHOSTS : ghosts_ok w geo rq r := proj2 (proj2 MACHINE r RANK).
    Notation flagged := (flagged w r v).
    Notation sel := (sel w r v).

    Section After.
      Variable async : bool.
      Notation m := (if async then GHOST_ONLY else ALL).
      Lemma selected : forall x, flagged x = true -> sel m x = true.
      Proof. intros x H. destruct async; cbn; auto. Qed.
      Lemma selected_or : forall x, sel m x = true \/ (async = true /\ flagged x = false).
      Proof. intros x. destruct async; cbn; destruct (flagged x); auto. Qed.

      Variable s3 : state.
      Hypothesis INT : int_good w geo rq r s3.
      Hypothesis PARTLY : ghosts_partly w geo rq r s3.
      Hypothesis INNER : async = true -> inner w geo rq views r s3.

      Lemma source_known : forall x f h y, own r x -> 0 <= f < 4 -> source x f h y -> knows w r y.
      Proof.
        intros x f h y O Hf Sr. destruct (source_nb w geo rq FOREST x f h y (proj1 O) Hf Sr) as [E|H].
        - rewrite (edge_source w geo rq FOREST x f h y (proj1 O) Hf Sr E). left. apply O.
        - destruct GHOSTS as (G1 & _). apply (G1 x f y (proj1 O) (proj2 O) Hf H).
      Qed.
      Lemma known_layer : forall y, knows w r y -> fst y <> r -> In y (layer w r).
      Proof. intros y [E|H] N; [contradiction|exact H]. Qed.

      Variable l1 : list assign.
      Hypothesis F1 : Forall follows l1.
      Hypothesis T1 : forall x g, Kghost w geo rq r x g \/ Kavg w geo rq r v true m x g \/ Kcopy w rq r v true m x g \/ Kphys w rq r v (maxlevel rq) m x g -> In (x, buf x, g) (map target l1).
      Notation s4 := (run l1 s3).

      Lemma C1 : forall x f h y, own r x -> in_range x -> 0 <= f < 4 -> source x f h y -> (edge w x f = true -> level_of w x < maxlevel rq) -> settled s4 (x, RFace f h).
      Proof.
        intros x f h y O R Hf Sr Ee. destruct (source_range w geo rq views FOREST MACHINE x f h y (proj1 O) R Hf Sr) as [Hy Ry].
        pose proof (source_known x f h y O Hf Sr) as Ky. eapply (base_settled w geo rq); [exact F1|exact Sr|apply INT; assumption|].
        destruct (selected_or x) as [S|(A & FL)].
        - left. apply T1. right. apply (base_targeted w geo rq views FOREST MACHINE r true m (maxlevel rq) x f h y O R S Hf Sr); [auto|]. intros; apply top; apply O.
        - right. destruct (INNER A) as (I1 & _). apply (I1 x f h y); assumption.
      Qed.
      Lemma C2 : forall x c y c', own r x -> in_range x -> 0 <= c < 4 -> physical_corner w x c = false -> diag w x c = Some (y, c') -> level_of w x <= level_of w y -> settled s4 (x, RCorner c).
      Proof.
        intros x c y c' O R Hc P Ed L. destruct (diag_level w geo FOREST x c y c' (proj1 O) Hc Ed) as [Hy _].
        apply (corner_settled w geo rq FOREST l1 s3 x c y c' (proj1 O) Hc P Ed L F1).
        - apply INT; [exact Hy| |split; [destruct R; lia|apply top; exact Hy]]. destruct GHOSTS as (_ & G2 & _). apply (G2 x c y c' (proj1 O) (proj2 O) Hc Ed).
        - destruct (selected_or x) as [S|(A & FL)].
          + left. apply T1. right. destruct (corner_targeted w geo rq views FOREST MACHINE r true m x c y c' O R S Hc P Ed L) as [K|K]; auto.
          + right. destruct (INNER A) as (_ & I2 & _). apply (I2 x c y c'); assumption.
      Qed.
      Lemma C3 : forall q f h y, In q (layer w r) -> in_range q -> 0 <= f < 4 -> source q f h y -> knows w r y -> (edge w q f = true -> level_of w q < maxlevel rq) -> settled s4 (q, RFace f h).
      Proof.
        intros q f h y Hl R Hf Sr Ky Ee. destruct (layer_ok w geo FOREST r RANK q Hl) as [Hq Nq].
        destruct (source_range w geo rq views FOREST MACHINE q f h y Hq R Hf Sr) as [Hy Ry].
        eapply (base_settled w geo rq); [exact F1|exact Sr|apply INT; assumption|].
        destruct (Z.eq_dec (fst y) (fst q)) as [E|N]; [right; apply (PARTLY q f h y); assumption|left; apply T1].
        destruct (Z.eq_dec (fst y) r) as [E|N'].
        - destruct (source_cases w geo rq FOREST q f h y Hq Hf Sr) as [(_ & ->)|[(rf & Ef)|(ys & rf & k & Ef & Hk & ->)]]; [contradiction| |].
          + pose proof (sym _ _ FOREST _ _ Hq Hf) as Sy. unfold face_symmetric in Sy. rewrite Ef in Sy. destruct Sy as (Ef' & L & _).
            pose proof (acrossok _ _ FOREST _ _ Hq Hf) as A. unfold across_ok in A. rewrite Ef in A. destruct A as (_ & Hr & _). change (num_orientations D2) with 8 in Hr.
            assert (0 <= rf mod 4 < 4) as Hf' by (apply Z.mod_pos_bound; lia).
            right; right; left. exists y. destruct Ry as [R1 R2]. split; [split; assumption|]. split; [exact R1|]. split; [exact R2|]. split.
            * apply selected. apply (flag_face w geo rq views FOREST MACHINE r RANK y (rf mod 4) q); [split; assumption|exact Hf'|exact Nq|]. rewrite Ef'. reflexivity.
            * left. exists (rf mod 4), q, (back f rf). split; [exact Hf'|]. split; [exact Ef'|]. right. split; [exact Nq|]. split; [reflexivity|]. exists h.
              f_equal. symmetry. apply back_mod; assumption.
          + destruct (finer_facts w geo FOREST _ _ _ _ _ _ Hq Hf Ef Hk) as (_ & _ & Hr & Ef' & L & _).
            assert (0 <= rf mod 4 < 4) as Hf' by (apply Z.mod_pos_bound; lia).
            right; left. exists y. split; [split; assumption|]. split; [|split; [apply Ry|]].
            * apply selected. apply (flag_face w geo rq views FOREST MACHINE r RANK y (rf mod 4) q); [split; assumption|exact Hf'|exact Nq|]. rewrite Ef'. reflexivity.
            * right; right. split; [destruct R; lia|]. split; [reflexivity|]. exists (rf mod 4), q, k, (back f rf). split; [exact Hf'|]. split; [exact Ef'|]. split; [exact Nq|]. split; [reflexivity|].
              rewrite back_mod by assumption. reflexivity.
        - left. split; [exact Hl|]. split; [apply R|]. exists f, h, y. split; [exact Hf|]. split; [reflexivity|]. split; [exact Sr|].
          split; [|split; [exact N|apply known_layer; assumption]]. destruct (edge w q f) eqn:E; [|reflexivity]. rewrite (edge_source w geo rq FOREST q f h y Hq Hf Sr E) in N. congruence.
      Qed.
      (** own or ghost *)
      Lemma C4 : forall q f h y, is_patch w q -> knows w r q -> in_range q -> 0 <= f < 4 -> source q f h y -> knows w r y -> level_of w q < maxlevel rq -> settled s4 (q, RFace f h).
      Proof.
        intros q f h y Hq [E|H] R Hf Sr Ky L; [apply (C1 q f h y)|apply (C3 q f h y)]; try assumption; auto. split; assumption.
      Qed.

      Variable l2 : list assign.
      Hypothesis F2 : Forall follows l2.
      Hypothesis T2 : forall x g, Kint w geo rq r v true m x g -> In (x, buf x, g) (map target l2).
      Notation s5 := (run l2 s4).
      Lemma INT4 : int_good w geo rq r s4. Proof. apply int_keep; assumption. Qed.

      Lemma D1 : forall x f q sub rf z g, own r x -> 0 <= f < 4 -> face_of w x f = Coarser q sub rf -> lowest rq <= level_of w q -> hanging_regions x f z g -> settled s5 (z, g).
      Proof.
        intros x f q sub rf z g O Hf Ef L HR. destruct (interp_rule w geo rq FOREST x f q sub rf z g (proj1 O) Hf Ef L HR) as (EZ & NX & k & RU).
        destruct (coarser_ok w geo FOREST x f q sub rf (proj1 O) Hf Ef) as (Hq & Hf' & LX & (ys & Eq & Es) & Hrf).
        destruct (reads_sources w geo rq FOREST x f q sub rf (proj1 O) Hf Ef) as ((y1 & S1) & (y2 & S2) & (y3 & S3)). pose proof (top x (proj1 O)) as TX.
        assert (in_range q) as Rq by (split; lia).
        destruct GHOSTS as (G1 & _ & G3 & _). assert (knows w r q) as Kq by (apply (G1 x f q (proj1 O) (proj2 O) Hf); rewrite Ef; reflexivity).
        specialize (G3 x f q sub rf (proj1 O) (proj2 O) Hf Ef). cbv zeta in G3.
        eapply (run_target w geo rq); [exact F2|exact RU|exact NX| |].
        - unfold reads. repeat (apply Forall_cons; [|]); try apply Forall_nil; [apply INT4; assumption| | |].
          + apply (C4 q (rf mod 4) false y1); try assumption; [apply G3; auto|lia].
          + apply (C4 q (rf mod 4) true y2); try assumption; [apply G3; auto|lia].
          + apply (C4 q _ _ y3); try assumption; [apply endface_range; assumption|apply G3; auto|lia].
        - destruct (Z.eq_dec (fst q) r) as [E|N].
          + destruct (selected_or q) as [S|(A & FL)].
            * left. apply T2. exists q. split; [split; assumption|]. split; [exact S|]. split; [apply Rq|]. left. split; [exact L|].
              exists (rf mod 4), ys, (back f rf), x. split; [exact Hf'|]. split; [exact Eq|]. split; [eapply zget_in; exact Es|]. split; [apply O|]. split; [exact TX|].
              rewrite back_mod by assumption. exact HR.
            * right. apply run_settled; [exact F1| |exact NX]. destruct (INNER A) as (_ & _ & I3 & _). apply (I3 x f q sub rf); try assumption. split; assumption.
          + left. apply T2. exists x. split; [exact O|]. split; [apply selected; apply (flag_face w geo rq views FOREST MACHINE r RANK x f q O Hf N); rewrite Ef; reflexivity|].
            split; [exact TX|]. right; right; left. split; [lia|]. split; [reflexivity|]. exists f, q, sub, rf. auto.
      Qed.
      Lemma D2' : forall x c y c', own r x -> 0 <= c < 4 -> physical_corner w x c = false -> diag w x c = Some (y, c') -> level_of w y < level_of w x -> lowest rq <= level_of w y -> settled s5 (x, RCorner c).
      Proof.
        intros x c y c' O Hc P Ed L L'. assert (~ exempt w x (RCorner c)) as NX by (cbn [exempt]; congruence).
        destruct (csym w geo FOREST x c (proj1 O) Hc P y c' Ed) as (Hc' & P' & Ed' & _). destruct (diag_level w geo FOREST x c y c' (proj1 O) Hc Ed) as [Hy LD]. pose proof (top x (proj1 O)) as TX.
        assert (in_range y) as Ry by (split; lia).
        destruct (corner_rule_coarse w geo rq FOREST x c y c' (proj1 O) Hc P Ed L L') as (k & RU). destruct (corner_sources w geo rq FOREST x c y c' (proj1 O) Hc P Ed L) as ((y1 & S1) & (y2 & S2)).
        destruct GHOSTS as (_ & G2 & _ & G4). pose proof (G2 x c y c' (proj1 O) (proj2 O) Hc Ed) as Ky. specialize (G4 x c y c' (proj1 O) (proj2 O) Hc P Ed L).
        eapply (run_target w geo rq); [exact F2|exact RU|exact NX| |].
        - repeat (apply Forall_cons; [|]); try apply Forall_nil; [apply INT4; assumption| |].
          + apply (C4 y (cfx c') (nearx c') y1); try assumption; [apply cfx_range|apply G4; auto|lia].
          + apply (C4 y (cfy c') (neary c') y2); try assumption; [apply cfy_range; assumption|apply G4; auto|lia].
        - destruct (Z.eq_dec (fst y) r) as [E|N].
          + destruct (selected_or y) as [S|(A & FL)].
            * left. apply T2. exists y. split; [split; assumption|]. split; [exact S|]. split; [apply Ry|]. right; left. split; [exact L'|].
              exists c', x, c. split; [exact Hc'|]. split; [exact P'|]. split; [exact Ed'|]. split; [exact L|]. split; [exact TX|]. split; [apply O|]. auto.
            * right. apply run_settled; [exact F1| |exact NX]. destruct (INNER A) as (_ & _ & _ & I4). apply (I4 x c y c'); try assumption. split; assumption.
          + left. apply T2. exists x. split; [exact O|]. split; [apply selected; apply (flag_corner w geo rq views FOREST MACHINE r RANK x c y c' O Hc N Ed)|].
            split; [exact TX|]. right; right; right. split; [lia|]. split; [reflexivity|]. exists c, y, c'. auto 10.
      Qed.

      Variable l3 : list assign.
      Hypothesis F3 : Forall follows l3.
      Hypothesis T3 : forall x g, Kphys w rq r v (maxlevel rq) ALL x g -> In (x, buf x, g) (map target l3).
      Notation s6 := (run l3 s5).
      Lemma INT5 : int_good w geo rq r s5. Proof. apply int_keep; [assumption|apply INT4]. Qed.

      Lemma E1 : forall x g k l, own r x -> in_range x -> rule x g = Some (k, l) -> ~ exempt w x g -> settled s6 (x, g).
      Proof.
        intros x g k l O R RU NX. destruct g as [|f h|c]; [discriminate| |].
        - assert (0 <= f < 4) as Hf.
          { cbn [Spec_Fill.rule] in RU. destruct (Z.leb_spec 0 f), (Z.ltb_spec f 4); try discriminate. lia. }
          destruct (face_of w x f) as [|y rf|ys rf|q sub rf] eqn:Ef.
          + assert (edge w x f = true) as Ee by (unfold edge; rewrite Ef; reflexivity).
            eapply (base_settled w geo rq); [exact F3| |apply (INT5 x (proj1 O)); [left; apply O|exact R]|].
            * exists k. rewrite RU. cbn [Spec_Fill.rule] in RU. rewrite range_dec, Ef in RU by assumption. inversion RU. reflexivity.
            * left. apply T3. split; [exact O|]. split; [reflexivity|]. split; [exact R|]. exists f, h. auto.
          + destruct (source_exists w geo rq FOREST x f h (proj1 O) Hf) as (z & Sr); [unfold not_coarser; rewrite Ef; exact Logic.I|].
            apply run_settled; [exact F3| |exact NX]. apply run_settled; [exact F2| |exact NX]. apply (C1 x f h z O R Hf Sr). intros E. unfold edge in E. rewrite Ef in E. discriminate.
          + destruct (source_exists w geo rq FOREST x f h (proj1 O) Hf) as (z & Sr); [unfold not_coarser; rewrite Ef; exact Logic.I|].
            apply run_settled; [exact F3| |exact NX]. apply run_settled; [exact F2| |exact NX]. apply (C1 x f h z O R Hf Sr). intros E. unfold edge in E. rewrite Ef in E. discriminate.
          + apply run_settled; [exact F3| |exact NX]. apply (D1 x f q sub rf x (RFace f h) O Hf Ef).
            * cbn [Spec_Fill.rule] in RU. rewrite range_dec, Ef in RU by assumption. unfold face_interp in RU. rewrite Ef in RU. destruct (Z.ltb_spec (level_of w q) (lowest rq)); [discriminate|assumption].
            * split; [reflexivity|]. left. exists h. reflexivity.
        - assert (0 <= c < 4) as Hc.
          { cbn [Spec_Fill.rule] in RU. destruct (Z.leb_spec 0 c), (Z.ltb_spec c 4); try discriminate. lia. }
          cbn [exempt] in NX. assert (physical_corner w x c = false) as P by (destruct (physical_corner w x c); congruence).
          assert (~ exempt w x (RCorner c)) as NX' by (cbn [exempt]; congruence).
          apply run_settled; [exact F3| |exact NX']. pose proof RU as RU'. cbn [Spec_Fill.rule] in RU. rewrite range_dec in RU by assumption.
          pose proof P as P'. unfold physical_corner in P'. apply orb_false_elim in P'. destruct P' as [P1 P2]. rewrite P1, P2 in RU.
          destruct (hanging_face w geo x c) as [f|] eqn:HF.
          + unfold hanging_face in HF. apply find_some in HF. destruct HF as [Hf HC]. apply Proof_Mesh.in_range in Hf. destruct (hanging_corner w geo x f) as [c0|] eqn:HC'; [|discriminate].
            apply Z.eqb_eq in HC. subst c0. unfold face_interp in RU. destruct (face_of w x f) as [| | |q sub rf] eqn:Ef; try discriminate.
            cbv zeta in RU. destruct (Z.ltb_spec (level_of w q) (lowest rq)); [discriminate|]. apply (D1 x f q sub rf x (RCorner c) O Hf Ef); [assumption|].
            split; [reflexivity|]. right. exists c. auto.
          + destruct (diag w x c) as [[y c']|] eqn:Ed; [|discriminate]. destruct (Z_le_gt_dec (level_of w x) (level_of w y)).
            * apply run_settled; [exact F2| |exact NX']. apply (C2 x c y c'); assumption.
            * apply (D2' x c y c' O Hc P Ed); [lia|]. destruct (Z.eqb_spec (level_of w y) (level_of w x)); [lia|]. destruct (Z.ltb_spec (level_of w x) (level_of w y)); [lia|].
              destruct (Z.ltb_spec (level_of w y) (lowest rq)); [discriminate|assumption].
      Qed.
    End After.
  End Process.
End Machine.
