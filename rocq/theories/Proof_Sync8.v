(** Processes and histories. *)
From Coq Require Import ZArith QArith List Lia Lqa Bool Qfield.
From Verif Require Import Base_Float Model_Face Spec_Face Proof_Face5 Model_Grid Spec_Grid Proof_Grid Proof_Grid2 Proof_Grid4 Proof_Grid5
  Model_Sync Spec_Sync Proof_Sync Proof_Sync2 Proof_Sync3 Proof_Sync4 Proof_Sync5 Proof_Sync6 Proof_Sync7.
Import ListNotations.
Open Scope Z_scope.

Section Global.
  Variable rnd : Q -> Q.
  Hypothesis Hrnd : rounding rnd.
  Variable d : dims.
  Variable m : Z.
  Variable F : forest.
  Variable K : links.
  Variable all : list nat.
  Hypothesis HL : linked d m F K all.
  Variable kappa : nat -> areas.

  Lemma process_ok : forall S own s lo hi, state_ok d m all kappa S -> NoDup own -> incl own all -> sees F own s S -> lo <= hi ->
    exists s', correct_coarse_cells rnd d (mkForest own (lev F) (nbr F)) lo hi s = Some s' /\
      desc d m F K S own s' (corrected_from F own hi lo) (cleared_from F own hi lo lo).
  Proof.
    intros S own s lo hi HS ND HI [V1 V2] Hle.
    apply (correct_ok rnd Hrnd d m F K all HL S (HA d m all kappa S HS) own HI ND hi lo s Hle).
    - intros p Hp. now apply V1.
    - intros p [Hp|(p' & f & Hp' & Hf & Hn)]; [now apply V1|]. apply (V2 p' p Hp'). exists f. split; [exact Hf|exact Hn].
  Qed.

  Lemma desc_indep : forall S own s lo hi p, In p own -> incl own all -> 
    desc d m F K S own s (corrected_from F own hi lo) (cleared_from F own hi lo lo) ->
    (forall c, interior d c -> exists v, sol s p c = Some v /\
       (v == val (sol S p) c + qsum 0 3 (fun f => if corrected_from F all hi lo p f then corr m F K S p f c else 0))%Q) /\
    (forall c, reg s p c = if accum d c && cleared_from F all hi lo lo p (face_of c) then Some 0%Q else reg S p c).
  Proof.
    intros S own s lo hi p Hp HI [H1 H2].
    assert (E1 : forall f, corrected_from F own hi lo p f = corrected_from F all hi lo p f).
    { intros f. unfold corrected_from. rewrite (proj2 (mem_in own p) Hp), (proj2 (mem_in all p) (HI _ Hp)). reflexivity. }
    assert (E2 : forall f, cleared_from F own hi lo lo p f = cleared_from F all hi lo lo p f).
    { intros f. unfold cleared_from. rewrite (proj2 (mem_in own p) Hp), (proj2 (mem_in all p) (HI _ Hp)). reflexivity. }
    split.
    - intros c Hc. destruct (H1 p c Hp Hc) as (v & E & V). exists v. split; [exact E|]. rewrite V. apply Qplus_inj_l.
      apply qsum_ext. intros f _. now rewrite E1.
    - intros c. rewrite (H2 p c (or_introl Hp)), E2. reflexivity.
  Qed.

  Lemma sync_desc : forall procs lo hi S S', state_ok d m all kappa S -> distributed all procs -> lo <= hi ->
    parallel_sync d F rnd procs lo hi S S' ->
    desc d m F K S all S' (corrected_from F all hi lo) (cleared_from F all hi lo lo).
  Proof.
    intros procs lo hi S S' HS [HP1 HP2] Hle (view & res & HR & HG).
    assert (G : forall p, In p all ->
      (forall c, interior d c -> exists v, sol S' p c = Some v /\
       (v == val (sol S p) c + qsum 0 3 (fun f => if corrected_from F all hi lo p f then corr m F K S p f c else 0))%Q) /\
      (forall c, reg S' p c = if accum d c && cleared_from F all hi lo lo p (face_of c) then Some 0%Q else reg S p c)).
    { intros p Hp. destruct (HP2 p Hp) as (own & Ho & Hpo). destruct (HP1 own Ho) as [ND HI]. destruct (HR own Ho) as [HV HE].
      destruct (process_ok S own (view own) lo hi HS ND HI HV Hle) as (s' & E & HD). rewrite HE in E. injection E as <-.
      destruct (HG own p Ho Hpo) as [-> ->]. exact (desc_indep S own (res own) lo hi p Hpo HI HD). }
    split.
    - intros p c Hp Hc. now apply G.
    - intros p c Hp. apply G. exact (visible_all d m F K all HL all (incl_refl all) p Hp).
  Qed.

  Lemma delta_correction : forall S p f t mq, In p all -> 0 <= f < 4 -> 1 <= t <= m ->
    (delta m F K S p f t mq == correction m F K S p f t mq)%Q.
  Proof.
    intros S p f t mq Hp Hf Ht. unfold delta, correction, neighbor_inflow. destruct (nbr F p f) as [|n u|n u nm|]; try reflexivity.
    pose proof HL as (_ & [h Eh] & _). assert (E2 : m / 2 = h) by (rewrite Eh, Z.mul_comm, Z.div_mul; lia).
    unfold half_delta, pos_of, in_halfb. rewrite E2.
    destruct (second_first K p f); [change (1 - 0) with 1; change (1 - 1) with 0|];
    destruct (Z.leb_spec (0 * h + 1) t), (Z.leb_spec t ((0 + 1) * h)), (Z.leb_spec (1 * h + 1) t), (Z.leb_spec t ((1 + 1) * h)); try lia; cbn [andb];
    rewrite ?Z.mul_0_l, ?Z.mul_1_l;
    repeat match goal with |- context [2 * t - 1 - ?x] => replace (2 * t - 1 - x) with (2 * t - x - 1) by lia end;
    change (1 - 1) with 0; change (1 - 0) with 1; rewrite ?Z.mul_0_l, ?Z.mul_1_l; ring.
  Qed.

  Lemma synced_cleared : forall lo hi p f, In p all -> cleared_from F all hi lo lo p f = synced F lo hi p f.
  Proof.
    intros lo hi p f Hp. unfold cleared_from, synced. rewrite (proj2 (mem_in all p) Hp). cbn [andb]. destruct (nbr F p f); reflexivity.
  Qed.
  Lemma synced_corrected : forall lo hi p f, In p all ->
    corrected_from F all hi lo p f = synced F lo hi p f && (is_same F p f || is_half F p f).
  Proof.
    intros lo hi p f Hp. unfold corrected_from, synced, is_same, is_half. rewrite (proj2 (mem_in all p) Hp). cbn [andb].
    destruct (nbr F p f); rewrite ?andb_false_r, ?andb_true_r; cbn [orb]; rewrite ?andb_false_r, ?andb_true_r; try reflexivity.
    - apply andb_comm.
    - destruct (Z.leb_spec lo (lev F p)), (Z.leb_spec (lev F p) hi), (Z.ltb_spec (lev F p) hi); try lia; reflexivity.
  Qed.

  Lemma piece_depth : forall f i j, 0 <= f < 4 -> piece m f i j = if depth f m (i, j) =? 0 then Some (posn f (i, j)) else None.
  Proof.
    intros f i j Hf. face4 f Hf; cbn [piece depth posn fst snd];
      match goal with |- context [?a =? ?b] => destruct (Z.eqb_spec a b) end;
      match goal with |- context [?a =? 0] => destruct (Z.eqb_spec a 0) end; try lia; reflexivity.
  Qed.

  Lemma sync_cells : forall procs lo hi S S', state_ok d m all kappa S -> distributed all procs -> lo <= hi ->
    parallel_sync d F rnd procs lo hi S S' ->
    forall p i j mq, In p all -> interior d (i, j, mq) ->
    exists v, sol S' p (i, j, mq) = Some v /\
      (v == val (sol S p) (i, j, mq) + qsum 0 3 (fun f =>
         match piece m f i j with
         | Some t => if synced F lo hi p f then correction m F K S p f t mq / kappa p i j else 0
         | None => 0
         end))%Q.
  Proof.
    intros procs lo hi S S' HS HP Hle HSy p i j mq Hp Hi. destruct (sync_desc procs lo hi S S' HS HP Hle HSy) as [H1 _].
    destruct (H1 p (i, j, mq) Hp Hi) as (v & E & V). exists v. split; [exact E|]. rewrite V. apply Qplus_inj_l. apply qsum_ext. intros f Hf.
    assert (Ef : 0 <= f < 4) by lia. rewrite (piece_depth f i j Ef), (synced_corrected lo hi p f Hp). unfold corr.
    destruct (dims_all d m F K all HL p Hp) as (Hx & Hy & Hm). unfold interior in Hi. rewrite Hx, Hy in Hi.
    destruct (Z.eqb_spec (depth f m (i, j)) 0) as [ED|ED]; [|destruct (_ && _); reflexivity].
    assert (TT : 1 <= posn f (i, j) <= m) by (clear - Ef Hi; face4 f Ef; cbn [posn fst snd]; lia).
    destruct (synced F lo hi p f); cbn [andb]; [|reflexivity].
    assert (EI : inner_cell f m 1 (posn f (i, j)) = (i, j)).
    { clear - Ef ED. face4 f Ef; cbn [depth posn inner_cell fst snd] in *; f_equal; lia. }
    destruct (HS p Hp) as ((_ & _ & HK) & _). specialize (HK f (posn f (i, j)) Ef TT). rewrite EI in HK. destruct HK as [K1 K2].
    pose proof (delta_correction S p f _ mq Hp Ef TT) as HDC.
    destruct (is_same F p f || is_half F p f) eqn:Ek.
    - rewrite HDC, K1. reflexivity.
    - unfold is_same, is_half in Ek. unfold correction. destruct (nbr F p f); cbn [orb] in Ek; try discriminate Ek; field; exact K2.
  Qed.

  Lemma event_ok : forall S S' b, state_ok d m all kappa S -> event rnd d F all kappa S S' b ->
    state_ok d m all kappa S' /\
    forall mq, 1 <= mq <= meqn d ->
      (total_mass d all kappa S' mq - total_entered d all S' mq == total_mass d all kappa S mq - total_entered d all S mq + b mq)%Q.
  Proof.
    intros S S' b HS HE. destruct HE as [p Hp HAd HO|HR HI|procs lo hi HP Hle HSy].
    - destruct HAd as (rp & maux & mcapa & aux & fp & fm & gp & gm & dt & dx & dy & G & Hdx & Hdy & HF & Hsp & Hcl & Hlen & Hcap & Fq & Ffp & Ffm & Fgp & Fgm & E).
      pose proof (dims_all d m F K all HL p Hp) as (Hx & Hy & Hm). pose proof HL as (ND & _ & Hb & _ & _).
      destruct (HS p Hp) as ((HA1 & HC1 & HK1) & HI1).
      assert (HH : step_hyps d rp maux G (sol S p) aux dx dy fp fm gp gm mcapa (kappa p)).
      { unfold step_hyps. split; [lia|]. split; [lia|]. repeat (split; [assumption|]). assumption. }
      pose proof (step_balance d rp maux G (sol S p) aux dt dx dy fp fm gp gm mcapa (kappa p) (reg S p) _ _ HH HA1 Hlen E) as (B1 & B2).
      destruct (step_ok d rp maux G (sol S p) aux dt dx dy fp fm gp gm mcapa (kappa p) (reg S p) HH HA1 Hlen) as (q1 & r1 & E1 & A1 & O1 & I1 & _).
      unfold step in E1. rewrite E in E1. injection E1 as <- <-.
      split.
      + intros p' Hp'. destruct (Nat.eq_dec p' p) as [->|Hne].
        * split; [split; [exact A1|split; [now apply B1|]]|exact I1].
          intros f t Hf Ht. specialize (HK1 f t Hf Ht). destruct (inner_cell f m 1 t). unfold val in *. rewrite O1; [exact HK1|]. unfold AR. cbn [fst]. lia.
        * destruct (HO p' Hne) as [-> ->]. now apply HS.
      + intros mq Hmq. unfold total_mass, total_entered.
        assert (LS : forall g h : nat -> Q, (forall p', p' <> p -> (h p' == g p')%Q) -> (lsum all h == lsum all g + (h p - g p))%Q).
        { intros g h Hgh. clear - ND Hp Hgh. induction all as [|x l IH]; [destruct Hp|]. apply NoDup_cons_iff in ND. destruct ND as [N1 N2].
          change (h x + lsum l h == g x + lsum l g + (h p - g p))%Q. destruct Hp as [->|Hp].
          - rewrite (lsum_ext l h g); [ring|]. intros y Hy. apply Hgh. intros ->. contradiction.
          - rewrite (IH Hp N2). rewrite (Hgh x); [ring|]. intros ->. contradiction. }
        rewrite (LS (fun p => mass d (kappa p) (sol S p) mq) (fun p => mass d (kappa p) (sol S' p) mq)).
        2:{ intros p' Hne. destruct (HO p' Hne) as [-> _]. reflexivity. }
        rewrite (LS (fun p => entered d (reg S p) mq) (fun p => entered d (reg S' p) mq)).
        2:{ intros p' Hne. destruct (HO p' Hne) as [_ ->]. reflexivity. }
        specialize (B2 mq Hmq). rewrite B2. ring.
    - split.
      + intros p Hp. destruct (HS p Hp) as (H1 & H2). rewrite HR. split; [exact H1|]. intros c Hc. rewrite HI by exact Hc. now apply H2.
      + intros mq Hmq. unfold total_mass, total_entered.
        rewrite (lsum_ext all (fun p => mass d (kappa p) (sol S' p) mq) (fun p => mass d (kappa p) (sol S p) mq)).
        * rewrite (lsum_ext all (fun p => entered d (reg S' p) mq) (fun p => entered d (reg S p) mq)); [ring|]. intros p _. now rewrite HR.
        * intros p _. apply total_ext. intros i j Hi Hj. unfold val. rewrite HI by (unfold interior; lia). reflexivity.
    - pose proof (sync_desc procs lo hi S S' HS HP Hle HSy) as HD.
      split; [exact (state_ok_after d m F K all HL kappa S HS lo hi S' HD)|].
      intros mq Hmq. exact (balance d m F K all HL kappa S HS lo hi S' HD mq Hmq).
  Qed.

  Lemma history_ok : forall S S' B, state_ok d m all kappa S -> history rnd d F all kappa S S' B ->
    state_ok d m all kappa S' /\
    forall mq, 1 <= mq <= meqn d ->
      (total_mass d all kappa S' mq - total_entered d all S' mq == total_mass d all kappa S mq - total_entered d all S mq + B mq)%Q.
  Proof.
    intros S S' B HS HH. induction HH as [|S1 S2 B b HH IH HE].
    - split; [exact HS|]. intros mq _. ring.
    - destruct IH as [I1 I2]. destruct (event_ok S1 S2 b I1 HE) as [J1 J2]. split; [exact J1|].
      intros mq Hmq. rewrite (J2 mq Hmq), (I2 mq Hmq). ring.
  Qed.

  Lemma no_entered : forall s mq, 1 <= mq <= meqn d -> (forall p, In p all -> no_records d m (reg s p)) -> (total_entered d all s mq == 0)%Q.
  Proof.
    intros s mq Hmq H. apply lsum_zero. intros p Hp. destruct (dims_all d m F K all HL p Hp) as (Hx & Hy & Hm).
    apply qsum_zero. intros f Hf. apply qsum_zero. intros t Ht. rewrite (face_len_m d m Hx Hy) in Ht. apply (H p Hp); [lia|exact Ht|exact Hmq].
  Qed.
End Global.
