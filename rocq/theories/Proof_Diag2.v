(** Diagnostics of all processes, again and again. *)
From Coq Require Import ZArith QArith Qminmax Qabs List Lia Lqa Bool Permutation.
From Verif Require Import Base_Float Model_Face Model_Grid Spec_Grid Proof_Grid Proof_Grid2 Model_Diag Spec_Diag Proof_Diag.
Import ListNotations.
Open Scope Z_scope.

Lemma for_m_ind : forall {A} (P : Z -> A -> Prop) n (f : Z -> A -> A) a, 0 <= n -> P 0 a ->
  (forall k a, 0 <= k < n -> P k a -> P (k + 1) (f k a)) -> P n (for_m n f a).
Proof.
  intros A P n f a Hn H0 HS. unfold for_m.
  assert (G : forall l k a, P (Z.of_nat k) a -> Z.of_nat (k + l) <= n -> P (Z.of_nat (k + l)) (fold_left (fun a m => f (Z.of_nat m) a) (seq k l) a)).
  { induction l as [|l IH]; intros k x Hx Hk; cbn [seq fold_left].
    - now rewrite Nat.add_0_r.
    - replace (k + S l)%nat with (S k + l)%nat in * by lia. apply IH; [|exact Hk].
      replace (Z.of_nat (S k)) with (Z.of_nat k + 1) by lia. apply HS; [lia|exact Hx]. }
  specialize (G (Z.to_nat n) 0%nat a H0). cbn [Nat.add] in G. rewrite Z2Nat.id in G by exact Hn. apply G. lia.
Qed.

Lemma all_some_map : forall {A B} (f : A -> option B) (R : A -> B -> Prop) l, (forall x, In x l -> exists y, f x = Some y /\ R x y) ->
  exists ys, all_some (map f l) = Some ys /\ Forall2 R l ys.
Proof.
  intros A B f R l. induction l as [|x l IH]; intros H; cbn [map all_some].
  - exists []. split; [reflexivity|constructor].
  - destruct (H x (or_introl eq_refl)) as (y & Ey & Ry). destruct IH as (ys & Es & Rs); [intros z Hz; apply H; now right|].
    rewrite Ey. cbn [bind]. rewrite Es. cbn [bind]. exists (y :: ys). split; [reflexivity|]. now constructor.
Qed.
Lemma Forall2_nth : forall {A B} (R : A -> B -> Prop) l l', Forall2 R l l' -> forall k x, nth_error l k = Some x ->
  exists y, nth_error l' k = Some y /\ R x y.
Proof.
  intros A B R l l' H. induction H as [|a b l l' Hab H IH]; intros [|k] x E; cbn [nth_error] in *; try discriminate.
  - injection E as <-. eauto.
  - now apply IH.
Qed.
Lemma Forall2_len' : forall {A B} (R : A -> B -> Prop) l l', Forall2 R l l' -> length l = length l'.
Proof. intros A B R l l' H. induction H; cbn [length]; congruence. Qed.
Lemma zs_nth : forall n k, 0 <= k < n -> nth_error (zs n) (Z.to_nat k) = Some k.
Proof.
  intros n k H. unfold zs. rewrite nth_error_map, (nth_error_nth' _ 0%nat) by (rewrite seq_length; lia).
  rewrite seq_nth by lia. cbn [option_map]. f_equal. lia.
Qed.
Lemma zs_length : forall n, length (zs n) = Z.to_nat n. Proof. intros. unfold zs. now rewrite map_length, seq_length. Qed.
Lemma zs_in : forall n k, In k (zs n) -> 0 <= k < n.
Proof. intros n k H. unfold zs in H. apply in_map_iff in H. destruct H as (x & <- & Hx). apply in_seq in Hx. lia. Qed.

Section Diag.
  Variable d : dims.
  Variable map_used compute_error conservation_check : bool.
  Variable patch_error : option (pdata -> arr).
  Variable K : pdata -> areas.
  Variable F E : pdata -> data.
  Hypothesis Hx : 0 <= mx d.
  Hypothesis Hy : 0 <= my d.
  Hypothesis Hb : 0 <= mbc d.
  Hypothesis Hm : 0 <= meqn d.
  Notation pok := (patch_ok d map_used K F E compute_error patch_error).
  Notation size := (size_of d map_used K).
  Notation mass_of := (mass_of d map_used K F).
  Notation err1 := (err1_of d map_used K E).
  Notation err2 := (err2_of d map_used K E).

  (** an accumulator that has seen the patches l *)
  Definition has (l : list pdata) (a : accum) : Prop :=
    (acc_area a == over l size)%Q /\
    (conservation_check = true -> forall k, 0 <= k < meqn d -> (c_kahan a k == 0)%Q /\ (mass a k == over l (mass_of (k + 1)))%Q) /\
    (compute_error = true -> forall m, 1 <= m <= meqn d ->
       (local_error a (fidx d m 1) == over l (err1 m))%Q /\ (local_error a (fidx d m 2) == over l (err2 m))%Q /\
       largest d E l m (local_error a (fidx d m 3))).
  Definition clean (a : accum) : Prop :=
    (acc_area a == 0)%Q /\ (forall k, 0 <= k < meqn d -> (c_kahan a k == 0)%Q /\ (mass a k == 0)%Q) /\
    (forall k, 0 <= k < 3 * meqn d -> (local_error a k == 0)%Q).

  Lemma fidx_range : forall m k, 1 <= m <= meqn d -> 1 <= k <= 3 -> 0 <= fidx d m k < 3 * meqn d.
  Proof. intros m k H1 H2. unfold fidx. assert (k = 1 \/ k = 2 \/ k = 3) by lia. intuition subst; lia. Qed.

  Lemma clean_has : forall a, clean a -> has [] a.
  Proof.
    intros a (H1 & H2 & H3). split; [exact H1|]. split; [intros _; exact H2|]. intros _ m Hq.
    rewrite !H3 by (apply fidx_range; lia). split; [reflexivity|]. split; [reflexivity|]. split; [intros p i j []|].
    left. apply H3. apply fidx_range; lia.
  Qed.
  Lemma initialize_clean : clean diag_initialize.
  Proof. split; [reflexivity|]. split; [intros; split; reflexivity|reflexivity]. Qed.

  Lemma reset_clean : forall a, clean (diag_reset d a) /\ mass0 (diag_reset d a) = mass0 a.
  Proof.
    intros a. unfold diag_reset.
    match goal with |- context [for_m (meqn d) ?f a] => set (g := f) end.
    assert (G := for_m_ind (fun n x => mass0 x = mass0 a /\ (forall k, 0 <= k < n -> (c_kahan x k == 0)%Q /\ (mass x k == 0)%Q /\
      (local_error x k == 0)%Q /\ (local_error x (meqn d + k)%Z == 0)%Q /\ (local_error x (2 * meqn d + k)%Z == 0)%Q)) (meqn d) g a Hm).
    destruct G as [G0 G].
    - split; [reflexivity|]. intros k Hk. lia.
    - intros k x Hk (I0 & HI). unfold g. cbn [mass0 c_kahan mass local_error]. split; [exact I0|]. intros j Hj.
      destruct (Z.eq_dec j k) as [->|Hne].
      + rewrite !upd1_same. unfold upd1.
        repeat match goal with |- context [?x =? ?y] => destruct (Z.eqb_spec x y); try lia end; repeat split; reflexivity.
      + destruct (HI j ltac:(lia)) as (A1 & A2 & A3 & A4 & A5). unfold upd1.
        repeat match goal with |- context [?x =? ?y] => destruct (Z.eqb_spec x y); try lia end; repeat split; try reflexivity; assumption.
    - cbn [mass0]. split; [|exact G0]. split; [reflexivity|]. cbn [c_kahan mass local_error]. split.
      + intros k Hk. destruct (G k Hk) as (A1 & A2 & _). now split.
      + intros k Hk. destruct (Z_lt_le_dec k (meqn d)); [apply G; lia|]. destruct (Z_lt_le_dec k (2 * meqn d)).
        * replace k with (meqn d + (k - meqn d)) by lia. apply G. lia.
        * replace k with (2 * meqn d + (k - 2 * meqn d)) by lia. apply G. lia.
  Qed.

  Lemma largest_more : forall l p m v0 v, largest d E l m v0 ->
    lub (fun x => exists i j, 1 <= i <= mx d /\ 1 <= j <= my d /\ x = Qabs (E p i j m)) v0 v -> largest d E (l ++ [p]) m v.
  Proof.
    intros l p m v0 v (A1 & A2) (B1 & B2 & B3). split.
    - intros p' i j Hin Hi Hj. apply in_app_or in Hin. destruct Hin as [Hin|[<-|[]]].
      + specialize (A1 p' i j Hin Hi Hj). lra.
      + apply B2. exists i, j. auto.
    - destruct B3 as [B3|(x & (i & j & Hi & Hj & ->) & B3)].
      + destruct A2 as [A2|(p' & i & j & Hin & Hi & Hj & A2)]; [left; lra|right]. exists p', i, j.
        split; [apply in_or_app; now left|]. split; [exact Hi|]. split; [exact Hj|lra].
      + right. exists p, i, j. split; [apply in_or_app; right; now left|]. auto.
  Qed.

  Lemma cb_ok : forall l a p, has l a -> pok p -> exists a', cb_compute_diagnostics d map_used compute_error conservation_check patch_error p a = Some a' /\
    has (l ++ [p]) a' /\ mass0 a' = mass0 a.
  Proof.
    intros l a p (H1 & H2 & H3) Hp. unfold cb_compute_diagnostics.
    destruct (area_ok d map_used compute_error patch_error K F E Hx Hy Hb p Hp) as (v & Ev & V). rewrite Ev. cbn [bind]. cbv zeta.
    set (a1 := mkAcc (local_error a) (mass a) (mass0 a) (c_kahan a) (acc_area a + v)%Q).
    assert (S1 : (acc_area a1 == over (l ++ [p]) size)%Q). { unfold a1. cbn [acc_area]. rewrite over_app, over_one, H1, V. reflexivity. }
    assert (S2 : exists a2, (if compute_error then error_default d map_used patch_error p a1 else Some a1) = Some a2 /\
      mass a2 = mass a /\ mass0 a2 = mass0 a /\ c_kahan a2 = c_kahan a /\ acc_area a2 = acc_area a1 /\
      (compute_error = true -> forall m, 1 <= m <= meqn d ->
       (local_error a2 (fidx d m 1) == over (l ++ [p]) (err1 m))%Q /\ (local_error a2 (fidx d m 2) == over (l ++ [p]) (err2 m))%Q /\
       largest d E (l ++ [p]) m (local_error a2 (fidx d m 3)))).
    { pose proof (norm_ok d map_used compute_error patch_error K F E Hx Hy Hb Hm p Hp) as NO.
      destruct compute_error; [|exists a1; repeat split; try reflexivity; discriminate].
      destruct (NO eq_refl) as (f & Ef & Hf). destruct (Hf (local_error a1)) as (e & Ee & He).
      unfold error_default. rewrite Ef, Ee. cbn [bind]. eexists. split; [reflexivity|]. cbn [mass mass0 c_kahan acc_area local_error].
      do 4 (split; [reflexivity|]). intros _ m Hq. destruct (H3 eq_refl m Hq) as (L1 & L2 & L3). destruct (He m Hq) as (X1 & X2 & X3).
      unfold a1 in X1, X2, X3. cbn [local_error] in X1, X2, X3. rewrite !over_app, !over_one.
      split; [now rewrite X1, L1|]. split; [now rewrite X2, L2|]. eapply largest_more; eassumption. }
    destruct S2 as (a2 & E2 & M2 & M02 & C2 & A2 & L2). rewrite E2. cbn [bind].
    pose proof (cons_ok d map_used compute_error patch_error K F E Hx Hy Hb Hm p Hp) as CO.
    destruct conservation_check eqn:CC.
    - unfold cons_default. destruct (CO (mass a2) (c_kahan a2)) as (m' & c' & Ec & Hc).
      { intros k Hk. rewrite C2. now apply H2. }
      rewrite Ec. cbn [bind]. eexists. split; [reflexivity|]. split; [|exact M02]. split; [cbn [acc_area]; now rewrite A2|]. split.
      + intros _ k Hk. cbn [mass c_kahan]. destruct (Hc k Hk) as [X1 X2]. split; [exact X1|]. rewrite X2, M2, over_app, over_one.
        destruct (H2 eq_refl k Hk) as [_ ->]. reflexivity.
      + exact L2.
    - exists a2. split; [reflexivity|]. split; [|exact M02]. split; [now rewrite A2|]. split; [congruence|exact L2].
  Qed.

  Lemma iterate_ok : forall ps l a, has l a -> (forall p, In p ps -> pok p) ->
    exists a', iterate_patches d map_used compute_error conservation_check patch_error ps a = Some a' /\ has (l ++ ps) a' /\ mass0 a' = mass0 a.
  Proof.
    induction ps as [|p ps IH]; intros l a Ha Hp; cbn [iterate_patches].
    - exists a. split; [reflexivity|]. rewrite app_nil_r. split; [exact Ha|reflexivity].
    - destruct (cb_ok l a p Ha (Hp p (or_introl eq_refl))) as (a1 & E1 & H1 & M1). rewrite E1. cbn [bind].
      destruct (IH (l ++ [p]) a1 H1) as (a' & E' & H' & M'); [intros q Hq; apply Hp; now right|].
      exists a'. split; [exact E'|]. rewrite <- app_assoc in H'. split; [exact H'|congruence].
  Qed.
  Lemma compute_ok : forall ps a, clean a -> (forall p, In p ps -> pok p) ->
    exists a', diag_compute d map_used compute_error conservation_check patch_error ps a = Some a' /\
      (compute_error || conservation_check = true -> has ps a') /\ mass0 a' = mass0 a.
  Proof.
    intros ps a Ha Hp. unfold diag_compute. destruct (compute_error || conservation_check).
    - destruct (iterate_ok ps [] a (clean_has a Ha) Hp) as (a' & E' & H' & M'). exists a'. auto.
    - exists a. split; [reflexivity|]. split; [discriminate|reflexivity].
  Qed.

  Lemma over_concat : forall forest accs (g : accum -> Q) f, Forall2 (fun ps a => (g a == over ps f)%Q) forest accs ->
    (global_sum (map g accs) == over (concat forest) f)%Q.
  Proof.
    intros forest accs g f H. induction H as [|ps a forest accs Ha H IH]; [reflexivity|].
    cbn [map concat]. unfold global_sum. cbn [fold_right]. fold (global_sum (map g accs)). rewrite over_app, Ha, IH. reflexivity.
  Qed.
  Lemma max_spec : forall l x, (forall y, In y (x :: l) -> (y <= fold_left Qmax l x)%Q) /\ exists y, In y (x :: l) /\ (fold_left Qmax l x == y)%Q.
  Proof.
    induction l as [|z l IH]; intros x; cbn [fold_left].
    - split; [intros y [<-|[]]; lra|]. exists x. split; [now left|reflexivity].
    - destruct (IH (Qmax x z)) as [A (y & Hin & By)]. split.
      + intros w Hw. assert (T := A (Qmax x z) (or_introl eq_refl)). pose proof (Q.le_max_l x z). pose proof (Q.le_max_r x z).
        destruct Hw as [<-|[<-|Hw]]; [lra|lra|apply A; now right].
      + destruct Hin as [<-|Hin]; [|exists y; split; [right; now right|exact By]].
        destruct (Q.max_spec x z) as [[_ M]|[_ M]]; [exists z|exists x]; (split; [cbn [In]; tauto|rewrite By; exact M]).
  Qed.
  Lemma max_concat : forall forest accs (g : accum -> Q) m, accs <> [] -> Forall2 (fun ps a => largest d E ps m (g a)) forest accs ->
    exists v, global_maximum (map g accs) = Some v /\ largest d E (concat forest) m v.
  Proof.
    intros forest accs g m Hn H. destruct accs as [|a accs]; [contradiction|]. cbn [map global_maximum]. eexists. split; [reflexivity|].
    destruct (max_spec (map g accs) (g a)) as [U (y & Hyin & Ey)]. set (v := fold_left Qmax (map g accs) (g a)) in *.
    change (g a :: map g accs) with (map g (a :: accs)) in *. clearbody v.
    assert (G : forall fs l, Forall2 (fun ps a => largest d E ps m (g a)) fs l ->
      (forall x, In x l -> (g x <= v)%Q) -> forall p i j, In p (concat fs) -> 1 <= i <= mx d -> 1 <= j <= my d -> (Qabs (E p i j m) <= v)%Q).
    { intros fs l HF HU p i j Hin Hi Hj. apply in_concat in Hin. destruct Hin as (ps & Hps & Hin). apply In_nth_error in Hps. destruct Hps as (k & Hk).
      destruct (Forall2_nth _ _ _ HF k ps Hk) as (x & Ex & L1 & _). specialize (L1 p i j Hin Hi Hj). apply nth_error_In in Ex. specialize (HU x Ex). lra. }
    split.
    - intros p i j. apply (G forest (a :: accs) H). intros x Hx'. apply U. now apply in_map.
    - apply in_map_iff in Hyin. destruct Hyin as (x & <- & Hx'). clear G U Hn. revert H Hx'. generalize (a :: accs). intros l HF Hin. clear a accs.
      induction HF as [|ps b fs l HL HF IH]; [destruct Hin|]. destruct Hin as [->|Hin].
      + destruct HL as [_ [HL|(p & i & j & Hp & Hi & Hj & HL)]]; [left; lra|right]. exists p, i, j.
        split; [cbn [concat]; apply in_or_app; now left|]. split; [exact Hi|]. split; [exact Hj|lra].
      + destruct (IH Hin) as [Hv|(p & i & j & Hp & R)]; [now left|right]. exists p, i, j. split; [cbn [concat]; apply in_or_app; now right|exact R].
  Qed.

  Definition state_ok (P : nat) (M : Z -> Q) (l : list accum) : Prop :=
    length l = P /\ forall a, In a l -> clean a /\ forall k, 0 <= k < meqn d -> (mass0 a k == M k)%Q.
  Definition totals (forest : list (list pdata)) (k : Z) : Q := over (concat forest) (mass_of (k + 1)).

  Definition right_sums_to (M : Z -> Q) (l : list pdata) (r : report) : Prop :=
    length (sums r) = Z.to_nat (meqn d) /\
    forall m, 1 <= m <= meqn d -> exists s diff, nth_error (sums r) (Z.to_nat (m - 1)) = Some (s, diff) /\
      (s == over l (mass_of m))%Q /\ (diff == Qabs (over l (mass_of m) - M (m - 1)%Z))%Q.

  Lemma gather_ok : forall P M (flag : bool) forest l, (0 < P)%nat -> state_ok P M l -> length forest = P ->
    (forall ps p, In ps forest -> In p ps -> pok p) ->
    (compute_error = true -> ~ (over (concat forest) size == 0)%Q) ->
    let M' := if flag then totals forest else M in
    exists l' r, diagnostics_gather d map_used compute_error conservation_check patch_error flag forest l = Some (l', r) /\
      (conservation_check = true -> state_ok P M' l' /\ right_sums_to M' (concat forest) r) /\
      (conservation_check = false -> state_ok P M l') /\
      (compute_error = true -> right_norms d map_used K E (concat forest) r).
  Proof.
    intros P M flag forest l HP (HL & HS) HF Hp HA M'. unfold diagnostics_gather.
    destruct (all_some_map (fun '(ps, a) => diag_compute d map_used compute_error conservation_check patch_error ps a)
      (fun x a' => (compute_error || conservation_check = true -> has (fst x) a') /\ mass0 a' = mass0 (snd x)) (combine forest l)) as (l1 & E1 & R1).
    { intros [ps a] Hin. assert (H1 := in_combine_l _ _ _ _ Hin). assert (H2 := in_combine_r _ _ _ _ Hin). cbn [fst snd].
      apply compute_ok; [now apply HS|]. intros p. now apply Hp. }
    rewrite E1. cbn [bind].
    assert (Len1 : length l1 = P). { apply Forall2_len' in R1. rewrite combine_length in R1. lia. }
    assert (HH : compute_error || conservation_check = true -> Forall2 has forest l1).
    { intros C. clear - R1 HF HL C. revert l l1 HL R1. rewrite <- HF. clear HF. induction forest as [|ps forest IH]; intros l l1 HL R1.
      - cbn [combine] in R1. inversion R1. constructor.
      - destruct l as [|a l]; [discriminate HL|]. cbn [combine] in R1. inversion R1 as [|? a' ? l1' [H1 _] R']; subst. constructor; [now apply H1|].
        apply (IH l); [cbn [length] in HL; congruence|exact R']. }
    assert (M0 : forall a, In a l1 -> forall k, 0 <= k < meqn d -> (mass0 a k == M k)%Q).
    { intros a Ha k Hk. apply In_nth_error in Ha. destruct Ha as (n & Hn).
      assert (Hc : exists x, nth_error (combine forest l) n = Some x).
      { destruct (nth_error (combine forest l) n) eqn:N; [eauto|]. apply nth_error_None in N. apply Forall2_len' in R1. rewrite R1 in N.
        apply nth_error_None in N. congruence. }
      destruct Hc as ([ps b] & Hc). destruct (Forall2_nth _ _ _ R1 n _ Hc) as (a' & Ea & _ & Em). rewrite Hn in Ea. injection Ea as <-.
      rewrite Em. cbn [snd]. apply nth_error_In, in_combine_r in Hc. now apply HS. }
    assert (NE : l1 <> []) by (intros ->; cbn [length] in Len1; lia).
    assert (GN : exists ns, gather_norms d compute_error l1 = Some ns /\ (compute_error = true -> forall ms, right_norms d map_used K E (concat forest) (mkRep ns ms))).
    { unfold gather_norms. destruct compute_error eqn:CE; [|exists []; split; [reflexivity|discriminate]].
      specialize (HH eq_refl).
      assert (AT : (global_sum (map acc_area l1) == over (concat forest) size)%Q).
      { apply over_concat. clear - HH. induction HH as [|? ? ? ? H]; constructor; [apply H|assumption]. }
      destruct (Qeq_bool (global_sum (map acc_area l1)) 0) eqn:Z0.
      { apply Qeq_bool_iff in Z0. exfalso. apply (HA eq_refl). now rewrite <- AT. }
      cbv zeta.
      match goal with |- context [all_some (map ?f (zs (meqn d)))] =>
        destruct (all_some_map f (fun k x => exists a b c, x = (a, b, c) /\
          (a == over (concat forest) (err1 (k + 1)) / over (concat forest) size)%Q /\
          (b == over (concat forest) (err2 (k + 1)) / over (concat forest) size)%Q /\ largest d E (concat forest) (k + 1) c) (zs (meqn d))) as (ns & En & Rn) end.
      { intros k Hk. apply zs_in in Hk.
        destruct (max_concat forest l1 (fun a => local_error a (2 * meqn d + k)) (k + 1) NE) as (v & Ev & Lv).
        { assert (I3 : fidx d (k + 1) 3 = 2 * meqn d + k) by (unfold fidx; lia).
          clear - HH Hk CE I3. induction HH as [|? ? ? ? H]; constructor; [|assumption]. destruct H as (_ & _ & H).
          destruct (H CE (k + 1) ltac:(lia)) as (_ & _ & H'). now rewrite I3 in H'. }
        rewrite Ev. cbn [bind]. eexists. split; [reflexivity|]. do 3 eexists. split; [reflexivity|]. rewrite AT. split; [|split; [|exact Lv]].
        - apply Qmult_comp; [|reflexivity]. apply over_concat.
          assert (I1 : fidx d (k + 1) 1 = k) by (unfold fidx; lia).
          clear - HH Hk CE I1. induction HH as [|? ? ? ? H]; constructor; [|assumption]. destruct H as (_ & _ & H).
          destruct (H CE (k + 1) ltac:(lia)) as (H' & _). now rewrite I1 in H'.
        - apply Qmult_comp; [|reflexivity]. apply over_concat.
          assert (I1 : fidx d (k + 1) 2 = meqn d + k) by (unfold fidx; lia).
          clear - HH Hk CE I1. induction HH as [|? ? ? ? H]; constructor; [|assumption]. destruct H as (_ & _ & H).
          destruct (H CE (k + 1) ltac:(lia)) as (_ & H' & _). now rewrite I1 in H'. }
      exists ns. split; [exact En|]. intros _ ms. split; cbn [norms].
      - rewrite <- (Forall2_len' _ _ _ Rn). apply zs_length.
      - intros m Hq. destruct (Forall2_nth _ _ _ Rn _ _ (zs_nth (meqn d) (m - 1) ltac:(lia))) as (x & Ex & a & b & c & -> & X).
        exists a, b, c. replace (m - 1 + 1) with m in X by lia. now split. }
    destruct GN as (ns & En & HN). rewrite En. cbn [bind].
    unfold gather_mass. destruct conservation_check eqn:CC.
    - rewrite orb_true_r in HH. specialize (HH eq_refl).
      assert (TM : forall k, 0 <= k < meqn d -> (global_sum (map (fun a => mass a k) l1) == totals forest k)%Q).
      { intros k Hk. apply over_concat. clear - HH Hk CC. induction HH as [|? ? ? ? H]; constructor; [|assumption]. destruct H as (_ & H & _).
        now apply H. }
      cbv zeta.
      match goal with |- context [map (diag_reset d) ?x] => set (l2 := x) end.
      assert (L2 : length l2 = P /\ forall a, In a l2 -> forall k, 0 <= k < meqn d -> (mass0 a k == M' k)%Q).
      { unfold l2, M'. destruct flag; [|split; [exact Len1|exact M0]]. split; [rewrite map_length; exact Len1|].
        intros a Ha k Hk. apply in_map_iff in Ha. destruct Ha as (b & <- & Hb').
        match goal with |- (mass0 (for_m _ ?g b) k == _)%Q =>
          assert (G := for_m_ind (fun n x => forall k, 0 <= k < n -> (mass0 x k == totals forest k)%Q) (meqn d) g b Hm) end.
        apply G; [intros j Hj; lia| |exact Hk]. clear k Hk. intros k x Hk HI j Hj. cbn [mass0]. destruct (Z.eq_dec j k) as [->|Hne].
        - rewrite upd1_same. now apply TM.
        - rewrite upd1_other by exact Hne. apply HI. lia. }
      destruct L2 as [Len2 H2].
      eexists. eexists. split; [reflexivity|]. split; [intros _; split|split; [discriminate|intros C; now apply HN]].
      + split; [rewrite map_length; exact Len2|]. intros a Ha. apply in_map_iff in Ha. destruct Ha as (b & <- & Hb').
        destruct (reset_clean b) as [R1' R2]. split; [exact R1'|]. rewrite R2. now apply H2.
      + split; cbn [sums].
        * rewrite map_length. apply zs_length.
        * intros m Hq. rewrite nth_error_map, (zs_nth (meqn d) (m - 1)) by lia. cbn [option_map]. do 2 eexists. split; [reflexivity|].
          pose proof (TM (m - 1) ltac:(lia)) as T. unfold totals in T. replace (m - 1 + 1) with m in T by lia. split; [exact T|].
          rewrite T. destruct l2 as [|a l2]; [cbn [length] in Len2; lia|]. rewrite (H2 a (or_introl eq_refl)) by lia. reflexivity.
    - eexists. eexists. split; [reflexivity|]. split; [discriminate|]. split; [|intros C; now apply HN].
      intros _. split; [rewrite map_length; exact Len1|]. intros a Ha. apply in_map_iff in Ha. destruct Ha as (b & <- & Hb').
      destruct (reset_clean b) as [R1' R2]. split; [exact R1'|]. rewrite R2. now apply M0.
  Qed.

  (** the sums that differences refer to *)
  Fixpoint refm (M : Z -> Q) (h : list (bool * list (list pdata))) (k : nat) : Z -> Q :=
    match h with
    | [] => M
    | (flag, forest) :: h => let M' := if flag : bool then totals forest else M in match k with O => M' | S k => refm M' h k end
    end.
  Definition gather_wf (P : nat) (g : bool * list (list pdata)) : Prop :=
    length (snd g) = P /\ (forall ps p, In ps (snd g) -> In p ps -> pok p) /\
    (compute_error = true -> ~ (over (concat (snd g)) size == 0)%Q).

  Lemma gathers_ok : forall P h M l, (0 < P)%nat -> (forall g, In g h -> gather_wf P g) -> state_ok P M l ->
    exists l' rs, gathers d map_used compute_error conservation_check patch_error h l = Some (l', rs) /\ length rs = length h /\
      forall k flag forest, nth_error h k = Some (flag, forest) -> exists r, nth_error rs k = Some r /\
        (compute_error = true -> right_norms d map_used K E (concat forest) r) /\
        (conservation_check = true -> right_sums_to (refm M h k) (concat forest) r).
  Proof.
    intros P h. induction h as [|[flag forest] h IH]; intros M l HP Hw HS; cbn [gathers].
    - exists l, []. split; [reflexivity|]. split; [reflexivity|]. intros [|k] flag forest Hk; discriminate Hk.
    - destruct (Hw (flag, forest) (or_introl eq_refl)) as (W1 & W2 & W3). cbn [snd] in *.
      destruct (gather_ok P M flag forest l HP HS W1 W2 W3) as (l1 & r & E1 & C1 & C2 & N1). rewrite E1. cbn [bind].
      destruct (IH (if conservation_check then (if flag then totals forest else M) else M) l1 HP) as (l' & rs & E' & Len & HR).
      { intros g Hg. apply Hw. now right. }
      { destruct conservation_check; [now apply C1|now apply C2]. }
      rewrite E'. cbn [bind]. exists l', (r :: rs). split; [reflexivity|]. split; [cbn [length]; congruence|].
      intros [|k] fl fo Hk; cbn [nth_error] in Hk |- *.
      + injection Hk as <- <-. exists r. split; [reflexivity|]. split; [exact N1|]. intros C. cbn [refm]. now apply C1.
      + destruct (HR k fl fo Hk) as (r' & Er & X1 & X2). exists r'. split; [exact Er|]. split; [exact X1|]. intros C. cbn [refm].
        specialize (X2 C). now rewrite C in X2.
  Qed.
  Lemma start_ok : forall P, state_ok P (fun _ => 0%Q) (repeat diag_initialize P).
  Proof.
    intros P. split; [apply repeat_length|]. intros a Ha. apply repeat_spec in Ha. subst a. split; [apply initialize_clean|reflexivity].
  Qed.
  Lemma refm_init : forall h M k0 k forest0, nth_error h k0 = Some (true, forest0) -> (k0 <= k < length h)%nat ->
    (forall k' g, (k0 < k' <= k)%nat -> nth_error h k' = Some g -> fst g = false) -> refm M h k = totals forest0.
  Proof.
    induction h as [|[flag forest] h IH]; intros M k0 k forest0 H0 Hk HN; [destruct k0; discriminate H0|].
    destruct k0 as [|k0]; cbn [nth_error] in H0.
    - injection H0 as -> ->. cbn [refm]. destruct k as [|k]; [reflexivity|].
      assert (G : forall h M k, (k < length h)%nat -> (forall k' g, (k' <= k)%nat -> nth_error h k' = Some g -> fst g = false) -> refm M h k = M).
      { clear. induction h as [|[flag forest] h IH]; intros M k Hk HN; [reflexivity|]. cbn [refm].
        assert (X := HN 0%nat (flag, forest) ltac:(lia) eq_refl). cbn [fst] in X. subst flag. destruct k as [|k]; [reflexivity|].
        apply IH; [cbn [length] in Hk; lia|]. intros k' g Hk' Hg. apply (HN (S k') g ltac:(lia) Hg). }
      cbn [length] in Hk. apply G; [lia|]. intros k' g Hk' Hg. apply (HN (S k') g ltac:(lia) Hg).
    - destruct k as [|k]; [lia|]. cbn [refm]. apply (IH _ k0); [exact H0|cbn [length] in Hk; lia|].
      intros k' g Hk' Hg. apply (HN (S k') g ltac:(lia) Hg).
  Qed.
  Lemma refm_perm : forall h1 h2 M k, Forall2 (fun g1 g2 => fst g1 = fst g2 /\ Permutation (concat (snd g1)) (concat (snd g2))) h1 h2 ->
    forall N, (forall j, M j == N j)%Q -> forall j, (refm M h1 k j == refm N h2 k j)%Q.
  Proof.
    intros h1 h2 M k H. revert M k. induction H as [|[f1 o1] [f2 o2] h1 h2 [H1 H2] H IH]; intros M k N HMN j; cbn [refm]; [apply HMN|].
    cbn [fst snd] in *. subst f2.
    assert (X : forall j, ((if f1 then totals o1 else M) j == (if f1 then totals o2 else N) j)%Q).
    { intros i. destruct f1; [|apply HMN]. unfold totals. now apply over_perm. }
    destruct k as [|k]; [apply X|]. now apply IH.
  Qed.
End Diag.
