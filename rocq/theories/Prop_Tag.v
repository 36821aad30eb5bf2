(** C26: tagging. *)
From Coq Require Import ZArith QArith Qminmax Qabs Qfield Lqa List Sorted Lia Bool.
From Verif Require Import Base_Float Model_Face Model_Grid Spec_Grid Model_Tag Spec_Tag Proof_Grid Proof_Ghost Proof_Tag.
Import ListNotations.
Open Scope Z_scope.

(** ** Any test function *)

(** A patch is tagged for refinement exactly if the test holds at some cell of its array,
    visited row by row.  [shows] says what the test gets to see. *)
Theorem C26_refine_iff : forall d t crit q f xl yl, usual d -> usable d t crit -> all_set d q f ->
  exists tag l, fort_tag4refinement d crit (t_block t) (t_dx t) (t_dy t) (t_th t) (t_init t) q xl yl = Some tag /\
  row_major d l /\ (tag = 0 \/ tag = 1) /\
  (tag = 1 <-> holds_somewhere d t crit f xl yl [f 1 1] l).
Proof.
  intros d t crit q f xl yl Hd Hc Hq. destruct (refine_ok d Hd t crit Hc q f xl yl Hq) as (tag & E & H).
  exists tag, (row_order d). split; [exact E|]. split; [apply row_sorted|].
  destruct H as [(-> & H)|(-> & H)]; (split; [lia|]); split; intros X; try assumption; try reflexivity; [discriminate X|contradiction].
Qed.
Print Assumptions C26_refine_iff.

(** A family is tagged for coarsening exactly if the test fails at all cells of all four
    siblings, visited one after the other, column by column. *)
Theorem C26_coarsen_iff : forall d t crit q f xl yl, usual d -> usable d t crit ->
  (forall g, 0 <= g < 4 -> all_set d (q g) (f g)) -> t_init t = 0 ->
  exists tag l, fort_tag4coarsening d crit (t_block t) (t_dx t) (t_dy t) (t_th t) (t_init t) q xl yl = Some tag /\
  col_major d l /\ (tag = 0 \/ tag = 1) /\
  (tag = 1 <-> forall g, (g < 4)%nat ->
     ~ holds_somewhere d t crit (f (Z.of_nat g)) (xl (Z.of_nat g)) (yl (Z.of_nat g)) (before f l g) l).
Proof.
  intros d t crit q f xl yl Hd Hc Hq Hi. destruct (coarsen_ok d Hd t crit Hc q f xl yl Hi Hq) as (tag & E & H).
  exists tag, (col_order d). split; [exact E|]. split; [apply col_sorted|].
  destruct H as [(-> & g & Hg & H)|(-> & H)]; (split; [lia|]); split; intros X; try assumption; try reflexivity; [discriminate X|].
  exfalso. exact (X g Hg H).
Qed.
Print Assumptions C26_coarsen_iff.

Theorem C26_never_coarsen_initially : forall d o blockno init q xl yl dx dy, init <> 0 ->
  tag4coarsening d o blockno init q xl yl dx dy = Some 0.
Proof.
  intros d o blockno init q xl yl dx dy H. unfold tag4coarsening, fort_tag4coarsening.
  destruct (Qgtb (coarsen_threshold o) 0); [|reflexivity]. destruct (Z.eqb_spec init 0); [contradiction|]. reflexivity.
Qed.
Print Assumptions C26_never_coarsen_initially.
Theorem C26_never_coarsen_threshold : forall d o blockno init q xl yl dx dy, (coarsen_threshold o <= 0)%Q ->
  tag4coarsening d o blockno init q xl yl dx dy = Some 0.
Proof.
  intros d o blockno init q xl yl dx dy H. unfold tag4coarsening. apply Qgtb_false in H. now rewrite H.
Qed.
Print Assumptions C26_never_coarsen_threshold.
Theorem C26_always_refine : forall d o blockno init q xl yl dx dy, (refine_threshold o < 0)%Q ->
  tag4refinement d o blockno init q xl yl dx dy = Some 1.
Proof.
  intros d o blockno init q xl yl dx dy H. unfold tag4refinement. apply Qgtb_iff in H. now rewrite H.
Qed.
Print Assumptions C26_always_refine.

(** ** The built-in criteria *)

Definition good_opts (d : dims) (o : topts) (dx dy : Q) : Prop :=
  0 <= criteria o <= 3 /\ 1 <= threshold_variable o <= meqn d /\
  (criteria o = 3 -> map_c2m o = None /\ ~ (dx == 0)%Q /\ ~ (dy == 0)%Q).

Lemma same_some : forall x y v, same_q x y -> x = Some v -> exists w, y = Some w /\ (v == w)%Q.
Proof. intros x y v H ->. destruct y as [w|]; [|destruct H]. exists w. now split. Qed.
Lemma Qgtb_compat : forall x y x' y', (x == x')%Q -> (y == y')%Q -> Qgtb x y = Qgtb x' y'.
Proof. intros x y x' y' H K. apply eq_true_iff_eq. rewrite !Qgtb_iff, H, K. reflexivity. Qed.

Lemma bind_same : forall x y (A : Type) (f g : Q -> option A), same_q x y -> (forall a b, (a == b)%Q -> f a = g b) ->
  bind x f = bind y g.
Proof. intros [a|] [b|] A f g H K; cbn in *; try contradiction; [now apply K|reflexivity]. Qed.
Lemma rdv_same : forall n v w mq, (1 <= mq <= n -> same_q (v mq) (w mq)) -> same_q (rdv n v mq) (rdv n w mq).
Proof.
  intros n v w mq H. unfold rdv. destruct (Z.leb_spec 1 mq), (Z.leb_spec mq n); cbn [andb]; try exact Logic.I. apply H. lia.
Qed.

(** what each criterion says of the arguments it is shown *)
Lemma builtin_shows : forall d o t f xl yl seen c a, good_opts d o (t_dx t) (t_dy t) -> shows d t f xl yl seen c a ->
  exists r, tag_criteria (meqn d) o a = Some r /\
  (0 < r <-> match criteria o with
             | 0 => value_at (threshold_variable o) (t_th t) f c
             | 1 => in_patch d c /\ difference_at (threshold_variable o) (t_th t) f c
             | 2 => exists u v, In u seen /\ In v seen /\ (t_th t < u (threshold_variable o) - v (threshold_variable o))%Q
             | _ => in_patch d c /\ ((t_th t < 0)%Q \/ gradient_at (threshold_variable o) (t_dx t) (t_dy t) (t_th t) f c)
             end).
Proof.
  intros d o t f xl yl seen [i j] a (Hcr & Hv & H3) (A1 & A2 & A3 & A4 & A5 & A6 & A7 & A8 & A9 & A10).
  set (v := threshold_variable o) in *. destruct (A9 v Hv) as ((x & Ex & Hx) & (lo & El & Hlo) & (hi & Eh & Hhi)).
  assert (RD : forall w, rdv (meqn d) w v = w v).
  { intros w. unfold rdv. rewrite (proj2 (Z.leb_le _ _)), (proj2 (Z.leb_le _ _)) by lia. reflexivity. }
  assert (B : forall b : bool, 0 < (if b then 1 else 0) <-> b = true) by (intros []; split; intros; try lia; try reflexivity; discriminate).
  unfold tag_criteria. assert (E : criteria o = 0 \/ criteria o = 1 \/ criteria o = 2 \/ criteria o = 3) by lia.
  destruct E as [E|[E|[E|E]]]; rewrite E.
  - unfold value_exceeds. fold v. rewrite RD, Ex. cbn [bind]. eexists. split; [reflexivity|]. rewrite B, Qgtb_iff.
    unfold value_at. cbn [fst snd]. rewrite A4, Hx. reflexivity.
  - unfold difference_exceeds. fold v. destruct (c_ghost a) eqn:Eg.
    + exists (-1). split; [reflexivity|]. split; [lia|]. intros (Hp & _). apply A8 in Hp. discriminate Hp.
    + pose proof (proj1 A8 eq_refl) as Hp. rewrite !RD.
      destruct (A10 Hp 1 0 v ltac:(lia) ltac:(lia) Hv) as (e & Ee & He). destruct (A10 Hp (-1) 0 v ltac:(lia) ltac:(lia) Hv) as (w & Ew & Hw).
      destruct (A10 Hp 0 1 v ltac:(lia) ltac:(lia) Hv) as (n & En & Hn). destruct (A10 Hp 0 (-1) v ltac:(lia) ltac:(lia) Hv) as (s & Es & Hs).
      rewrite Ee, Ew, En, Es. cbn [bind]. eexists. split; [reflexivity|]. rewrite B, Qgtb_iff, Q.max_lt_iff, A4, He, Hw, Hn, Hs.
      rewrite !Z.add_0_r. change (i + -1) with (i - 1). change (j + -1) with (j - 1). unfold difference_at. tauto.
  - unfold minmax_exceeds. fold v. rewrite !RD, Eh, El. cbn [bind]. eexists. split; [reflexivity|]. rewrite B, Qgtb_iff, A4.
    destruct Hlo as (L1 & vl & L2 & L3), Hhi as (U1 & vh & U2 & U3). split.
    + intros H. exists vh, vl. split; [exact U2|]. split; [exact L2|]. lra.
    + intros (u & w & Hu & Hw & H). specialize (U1 u Hu). specialize (L1 w Hw). lra.
  - unfold gradient_exceeds. fold v. destruct (H3 E) as (Hm & Nx & Ny). destruct (c_ghost a) eqn:Eg.
    + exists (-1). split; [reflexivity|]. split; [lia|]. intros (Hp & _). apply A8 in Hp. discriminate Hp.
    + pose proof (proj1 A8 eq_refl) as Hp. rewrite !RD.
      destruct (A10 Hp 1 0 v ltac:(lia) ltac:(lia) Hv) as (e & Ee & He). destruct (A10 Hp (-1) 0 v ltac:(lia) ltac:(lia) Hv) as (w & Ew & Hw).
      destruct (A10 Hp 0 1 v ltac:(lia) ltac:(lia) Hv) as (n & En & Hn). destruct (A10 Hp 0 (-1) v ltac:(lia) ltac:(lia) Hv) as (s & Es & Hs).
      rewrite Ee, Ew, En, Es. cbn [bind].
      assert (D1 : Qeq_bool (2 * c_dx a) 0 = false).
      { apply not_true_iff_false. rewrite Qeq_bool_iff. intros X. apply Nx. rewrite A2 in X. lra. }
      assert (D2 : Qeq_bool (2 * c_dy a) 0 = false).
      { apply not_true_iff_false. rewrite Qeq_bool_iff. intros X. apply Ny. rewrite A3 in X. lra. }
      rewrite D1, D2. cbn [orb]. rewrite Hm. cbn [bind]. eexists. split; [reflexivity|]. rewrite B. unfold sqrt_gt.
      assert (DG : (dot (((e - w) / (2 * c_dx a))%Q, ((n - s) / (2 * c_dy a))%Q, 0%Q) (((e - w) / (2 * c_dx a))%Q, ((n - s) / (2 * c_dy a))%Q, 0%Q) ==
        ((f (i + 1)%Z j v - f (i - 1)%Z j v) / (2 * t_dx t)) * ((f (i + 1)%Z j v - f (i - 1)%Z j v) / (2 * t_dx t)) +
        ((f i (j + 1)%Z v - f i (j - 1)%Z v) / (2 * t_dy t)) * ((f i (j + 1)%Z v - f i (j - 1)%Z v) / (2 * t_dy t)))%Q).
      { unfold dot. rewrite He, Hw, Hn, Hs, A2, A3. rewrite !Z.add_0_r. change (i + -1) with (i - 1). change (j + -1) with (j - 1). ring. }
      unfold gradient_at. destruct (Qgtb 0 (c_th a)) eqn:Et.
      * apply Qgtb_iff in Et. split; [|reflexivity]. intros _. split; [exact Hp|]. left. rewrite <- A4. exact Et.
      * apply Qgtb_false in Et. rewrite Qgtb_iff, DG, A4. split; [intros H; split; [exact Hp|right; exact H]|].
        intros (_ & [H|H]); [|exact H]. rewrite A4 in Et. lra.
Qed.

Lemma builtin_usable : forall d o t, good_opts d o (t_dx t) (t_dy t) -> usable d t (tag_criteria (meqn d) o).
Proof.
  intros d o t Ho. split.
  - intros a b (A1 & A2 & A3 & A4 & A5 & A6 & A7 & A8 & A9 & A10). destruct Ho as (Hcr & Hv & H3).
    unfold tag_criteria. assert (E : criteria o = 0 \/ criteria o = 1 \/ criteria o = 2 \/ criteria o = 3) by lia.
    destruct E as [E|[E|[E|E]]]; rewrite E.
    + unfold value_exceeds. apply bind_same; [apply rdv_same; intros _; now apply A9|]. intros x y H. now rewrite (Qgtb_compat x _ y _ H A4).
    + unfold difference_exceeds. rewrite <- A8. destruct (c_ghost a) eqn:Eg; [reflexivity|]. specialize (A10 eq_refl).
      apply bind_same; [apply rdv_same; intros; apply A10; lia|]. intros x1 y1 H1.
      apply bind_same; [apply rdv_same; intros; apply A10; lia|]. intros x2 y2 H2.
      apply bind_same; [apply rdv_same; intros; apply A10; lia|]. intros x4 y4 H4.
      apply bind_same; [apply rdv_same; intros; apply A10; lia|]. intros x5 y5 H5.
      rewrite (Qgtb_compat (Qmax (Qabs (x1 - x2)) (Qabs (x4 - x5))) (c_th a) (Qmax (Qabs (y1 - y2)) (Qabs (y4 - y5))) (c_th b)).
      * reflexivity.
      * now rewrite H1, H2, H4, H5.
      * exact A4.
    + unfold minmax_exceeds. apply bind_same; [apply rdv_same; intros _; now apply A9|]. intros x1 y1 H1.
      apply bind_same; [apply rdv_same; intros _; now apply A9|]. intros x2 y2 H2.
      rewrite (Qgtb_compat (x1 - x2) (c_th a) (y1 - y2) (c_th b)); [reflexivity| |exact A4]. now rewrite H1, H2.
    + unfold gradient_exceeds. rewrite <- A8. destruct (c_ghost a) eqn:Eg; [reflexivity|]. specialize (A10 eq_refl).
      destruct (H3 E) as (Hm & Nx & Ny). rewrite Hm.
      apply bind_same; [apply rdv_same; intros; apply A10; lia|]. intros x1 y1 H1.
      apply bind_same; [apply rdv_same; intros; apply A10; lia|]. intros x2 y2 H2.
      apply bind_same; [apply rdv_same; intros; apply A10; lia|]. intros x4 y4 H4.
      apply bind_same; [apply rdv_same; intros; apply A10; lia|]. intros x5 y5 H5.
      assert (D1 : Qeq_bool (2 * c_dx a) 0 = Qeq_bool (2 * c_dx b) 0) by (apply eq_true_iff_eq; rewrite !Qeq_bool_iff, A2; reflexivity).
      assert (D2 : Qeq_bool (2 * c_dy a) 0 = Qeq_bool (2 * c_dy b) 0) by (apply eq_true_iff_eq; rewrite !Qeq_bool_iff, A3; reflexivity).
      rewrite D1, D2. destruct (Qeq_bool (2 * c_dx b) 0 || Qeq_bool (2 * c_dy b) 0); [reflexivity|]. cbn [bind].
      unfold sqrt_gt. rewrite (Qgtb_compat 0 (c_th a) 0 (c_th b)) by (try reflexivity; exact A4).
      destruct (Qgtb 0 (c_th b)); [reflexivity|].
      match goal with |- Some (if Qgtb ?x ?y then _ else _) = Some (if Qgtb ?x' ?y' then _ else _) => rewrite (Qgtb_compat x y x' y') end.
      * reflexivity.
      * unfold dot. now rewrite H1, H2, H4, H5, A2, A3.
      * now rewrite A4.
  - intros f xl yl seen c a H. destruct (builtin_shows d o t f xl yl seen c a Ho H) as (r & E & _). now exists r.
Qed.

(** the built-in criteria may be used with the theorems above *)
Theorem C26_builtin_usable : forall d o t, good_opts d o (t_dx t) (t_dy t) -> usable d t (tag_criteria (meqn d) o).
Proof. exact builtin_usable. Qed.
Print Assumptions C26_builtin_usable.

(** arguments can be shown *)
Lemma extremes : forall mq (v : Z -> Q) l, exists lo hi, least mq (v :: l) lo /\ greatest mq (v :: l) hi.
Proof.
  intros mq v l. induction l as [|w l (lo & hi & (L1 & L2) & (U1 & U2))] using rev_ind.
  - exists (v mq), (v mq). split; (split; [intros u [<-|[]]; apply Qle_refl|exists v; split; [now left|reflexivity]]).
  - exists (Qmin lo (w mq)), (Qmax hi (w mq)). rewrite app_comm_cons. split; [apply least_app|apply greatest_app]; now split.
Qed.
Lemma fin_choice : forall (P : Z -> Q -> Prop) n, (forall k, 1 <= k <= n -> exists x, P k x) ->
  exists v : vec, forall k, 1 <= k <= n -> exists x, v k = Some x /\ P k x.
Proof.
  intros P n H. destruct (Z_lt_le_dec n 0) as [Hn|Hn]; [exists (fun _ => None); intros; lia|].
  revert H. pattern n. apply natlike_ind; [| |exact Hn].
  - intros _. exists (fun _ => None). intros; lia.
  - intros k Hk IH H. destruct IH as (v & Hv); [intros j Hj; apply H; lia|]. destruct (H (Z.succ k) ltac:(lia)) as (x & Hx).
    exists (vset v (Z.succ k) x). intros j Hj. destruct (Z.eq_dec j (Z.succ k)) as [->|N].
    + exists x. split; [apply vset_eq|exact Hx].
    + rewrite vset_ne by exact N. apply Hv. lia.
Qed.
Lemma shows_exists : forall d t f xl yl v l c, exists a, shows d t f xl yl (v :: l) c a.
Proof.
  intros d t f xl yl v l [i j].
  destruct (fin_choice (fun mq x => least mq (v :: l) x) (meqn d)) as (vmin & Hmin).
  { intros k _. destruct (extremes k v l) as (lo & hi & H & _). now exists lo. }
  destruct (fin_choice (fun mq x => greatest mq (v :: l) x) (meqn d)) as (vmax & Hmax).
  { intros k _. destruct (extremes k v l) as (lo & hi & _ & H). now exists hi. }
  exists (mkArgs (t_block t) (fun mq => Some (f i j mq)) vmin vmax (fun ii jj mq => Some (f (i + ii) (j + jj) mq))
    (t_dx t) (t_dy t) (xl + (inject_Z i - (1 # 2)) * t_dx t) (yl + (inject_Z j - (1 # 2)) * t_dy t) (t_th t) (t_init t) (is_ghost d i j)).
  cbn [shows c_block c_dx c_dy c_th c_init c_xc c_yc c_ghost c_qval c_qmin c_qmax c_quad].
  do 4 (split; [reflexivity|]). split; [reflexivity|]. split; [reflexivity|]. split; [reflexivity|]. split; [apply ghost_iff|]. split.
  - intros mq Hm. split; [eexists; split; reflexivity|]. split; [now apply Hmin|now apply Hmax].
  - intros _ ii jj mq _ _ _. eexists. split; reflexivity.
Qed.

Lemma before_cons : forall f l g, exists r, before f l g = f 0 1 1 :: r.
Proof.
  intros f l g. induction g as [|g (r & IH)]; cbn [before]; [now exists []|]. rewrite IH. now eexists.
Qed.

(** the test somewhere in a list of cells, in terms of the data *)
Lemma somewhere_iff : forall d o t f xl yl w r l, good_opts d o (t_dx t) (t_dy t) ->
  (holds_somewhere d t (tag_criteria (meqn d) o) f xl yl (w :: r) l <->
   match criteria o with
   | 0 => exists c, In c l /\ value_at (threshold_variable o) (t_th t) f c
   | 1 => exists c, In c l /\ in_patch d c /\ difference_at (threshold_variable o) (t_th t) f c
   | 2 => l <> [] /\ exists u v, In u ((w :: r) ++ vals f l) /\ In v ((w :: r) ++ vals f l) /\
            (t_th t < u (threshold_variable o) - v (threshold_variable o))%Q
   | _ => exists c, In c l /\ in_patch d c /\ ((t_th t < 0)%Q \/ gradient_at (threshold_variable o) (t_dx t) (t_dy t) (t_th t) f c)
   end).
Proof.
  intros d o t f xl yl w r l Ho.
  assert (AT : forall pre c, holds_at d t (tag_criteria (meqn d) o) f xl yl ((w :: r) ++ vals f (pre ++ [c])) c <->
    match criteria o with
             | 0 => value_at (threshold_variable o) (t_th t) f c
             | 1 => in_patch d c /\ difference_at (threshold_variable o) (t_th t) f c
             | 2 => exists u v, In u ((w :: r) ++ vals f (pre ++ [c])) /\ In v ((w :: r) ++ vals f (pre ++ [c])) /\
                     (t_th t < u (threshold_variable o) - v (threshold_variable o))%Q
             | _ => in_patch d c /\ ((t_th t < 0)%Q \/ gradient_at (threshold_variable o) (t_dx t) (t_dy t) (t_th t) f c)
             end).
  { intros pre c. split.
    - intros (a & k & SH & Ek & Hk). destruct (builtin_shows d o t f xl yl _ c a Ho SH) as (k' & Ek' & H).
      rewrite Ek in Ek'. assert (k = k') by congruence. subst k'. now apply H.
    - intros H. destruct (shows_exists d t f xl yl w (r ++ vals f (pre ++ [c])) c) as (a & SH).
      destruct (builtin_shows d o t f xl yl _ c a Ho SH) as (k & Ek & HH). exists a, k. split; [exact SH|]. split; [exact Ek|]. now apply HH. }
  destruct Ho as (Hcr & _). unfold holds_somewhere.
  assert (E : criteria o = 0 \/ criteria o = 1 \/ criteria o = 2 \/ criteria o = 3) by lia.
  destruct E as [E|[E|[E|E]]]; rewrite E in *.
  - split.
    + intros (pre & c & post & -> & H). exists c. split; [apply in_or_app; right; now left|]. now apply (AT pre).
    + intros (c & Hin & H). apply in_split in Hin. destruct Hin as (pre & post & ->). exists pre, c, post. split; [reflexivity|]. now apply AT.
  - split.
    + intros (pre & c & post & -> & H). exists c. split; [apply in_or_app; right; now left|]. now apply (AT pre).
    + intros (c & Hin & H). apply in_split in Hin. destruct Hin as (pre & post & ->). exists pre, c, post. split; [reflexivity|]. now apply AT.
  - split.
    + intros (pre & c & post & -> & H). split; [destruct pre; discriminate|]. apply AT in H. destruct H as (u & v & Hu & Hv & H).
      assert (INC : forall x, In x ((w :: r) ++ vals f (pre ++ [c])) -> In x ((w :: r) ++ vals f (pre ++ c :: post))).
      { intros x Hx. apply in_app_or in Hx. apply in_or_app. destruct Hx as [Hx|Hx]; [now left|right].
        unfold vals in *. rewrite map_app in *. apply in_app_or in Hx. apply in_or_app.
        destruct Hx as [Hx|Hx]; [now left|right]. destruct Hx as [Hx|[]]. now left. }
      exists u, v. split; [now apply INC|]. split; [now apply INC|exact H].
    + intros (Hl & u & v & Hu & Hv & H). destruct (exists_last Hl) as (pre & c & ->).
      exists pre, c, []. split; [reflexivity|]. apply AT. now exists u, v.
  - split.
    + intros (pre & c & post & -> & H). exists c. split; [apply in_or_app; right; now left|]. now apply (AT pre).
    + intros (c & Hin & H). apply in_split in Hin. destruct Hin as (pre & post & ->). exists pre, c, post. split; [reflexivity|]. now apply AT.
Qed.

(** what "the criterion holds for a patch" means for each value of refinement_criteria *)
Definition patch_criterion (d : dims) (o : topts) (th dx dy : Q) (f : data) : Prop :=
  match criteria o with
  | 0 => exists c, in_array d c /\ value_at (threshold_variable o) th f c
  | 1 => exists c, in_patch d c /\ difference_at (threshold_variable o) th f c
  | 2 => exists c c', in_array d c /\ in_array d c' /\
           (th < f (fst c) (snd c) (threshold_variable o) - f (fst c') (snd c') (threshold_variable o))%Q
  | _ => exists c, in_patch d c /\ gradient_at (threshold_variable o) dx dy th f c
  end.

Lemma in_patch_array : forall d c, usual d -> in_patch d c -> in_array d c.
Proof. intros d c (_ & _ & Hb & _) (H1 & H2). unfold in_array. lia. Qed.

Lemma in_vals : forall (f : data) l v, In v (vals f l) <-> exists c, In c l /\ v = f (fst c) (snd c).
Proof.
  intros f l v. unfold vals. rewrite in_map_iff. split; intros (c & H1 & H2); exists c.
  - split; [exact H2|]. rewrite <- H1. reflexivity.
  - split; [|exact H1]. rewrite H2. reflexivity.
Qed.

(** A patch is tagged for refinement exactly if the criterion holds. *)
Theorem C26_refine_builtin : forall d o blockno init q f xl yl dx dy, usual d -> good_opts d o dx dy -> all_set d q f ->
  (0 <= refine_threshold o)%Q ->
  exists tag, tag4refinement d o blockno init q xl yl dx dy = Some tag /\ (tag = 0 \/ tag = 1) /\
  (tag = 1 <-> patch_criterion d o (refine_threshold o) dx dy f).
Proof.
  intros d o blockno init q f xl yl dx dy Hd Ho Hq Hth. unfold tag4refinement.
  pose proof (proj2 (Qgtb_false 0 (refine_threshold o)) Hth) as Eg. rewrite Eg.
  set (t := mkSet blockno dx dy (refine_threshold o) init).
  destruct (C26_refine_iff d t (tag_criteria (meqn d) o) q f xl yl Hd (builtin_usable d o t Ho) Hq) as (tag & l & E & (_ & _ & HV) & H01 & H).
  exists tag. split; [exact E|]. split; [exact H01|]. rewrite H. clear E H H01.
  rewrite (somewhere_iff d o t f xl yl (f 1 1) [] l Ho). unfold patch_criterion. pose proof Hd as (Hx & Hy & Hb & _).
  destruct Ho as (Hcr & _). assert (E : criteria o = 0 \/ criteria o = 1 \/ criteria o = 2 \/ criteria o = 3) by lia.
  assert (P11 : In (1, 1) l) by (apply HV; unfold in_array; cbn [fst snd]; lia).
  destruct E as [E|[E|[E|E]]]; rewrite E.
  - split; intros (c & H1 & H2); exists c; (split; [now apply HV|exact H2]).
  - split; [intros (c & H1 & H2 & H3)|intros (c & H2 & H3)]; exists c; [now split|]. split; [apply HV; now apply in_patch_array|now split].
  - assert (IN : forall v, In v ([f 1 1] ++ vals f l) <-> exists c, in_array d c /\ v = f (fst c) (snd c)).
    { intros v. cbn [app In]. rewrite in_vals. split.
      - intros [<-|(c & Hc & ->)]; [exists (1, 1)|exists c]; (split; [|reflexivity]); now apply HV.
      - intros (c & Hc & ->). right. exists c. split; [now apply HV|reflexivity]. }
    split.
    + intros (_ & u & v & Hu & Hv & H). apply IN in Hu, Hv. destruct Hu as (c & Hc & ->), Hv as (c' & Hc' & ->). now exists c, c'.
    + intros (c & c' & Hc & Hc' & H). split; [intros X; rewrite X in P11; destruct P11|].
      exists (f (fst c) (snd c)), (f (fst c') (snd c')). split; [apply IN; now exists c|]. split; [apply IN; now exists c'|exact H].
  - split.
    + intros (c & H1 & H2 & [H3|H3]); [exfalso; cbn [t t_th] in H3; lra|]. now exists c.
    + intros (c & H2 & H3). exists c. split; [apply HV; now apply in_patch_array|]. split; [exact H2|now right].
Qed.
Print Assumptions C26_refine_builtin.

(** ... for a family; minimum and maximum run over the family *)
Definition family_criterion (d : dims) (o : topts) (th dx dy : Q) (f : Z -> data) : Prop :=
  if criteria o =? 2 then
    exists g c g' c', 0 <= g < 4 /\ 0 <= g' < 4 /\ in_array d c /\ in_array d c' /\
      (th < f g (fst c) (snd c) (threshold_variable o) - f g' (fst c') (snd c') (threshold_variable o))%Q
  else exists g, 0 <= g < 4 /\ patch_criterion d o th dx dy (f g).

Lemma in_before : forall (f : Z -> data) l g v, In (1, 1) l -> In v (before f l g) ->
  exists g' c, 0 <= g' <= Z.of_nat g /\ In c l /\ v = f g' (fst c) (snd c).
Proof.
  intros f l g v H11. induction g as [|g IH]; cbn [before]; intros Hv.
  - destruct Hv as [<-|[]]. exists 0, (1, 1). split; [lia|]. now split.
  - apply in_app_or in Hv. destruct Hv as [Hv|Hv].
    + destruct (IH Hv) as (g' & c & Hg & Hc & E). exists g', c. split; [lia|]. now split.
    + apply in_vals in Hv. destruct Hv as (c & Hc & E). exists (Z.of_nat g), c. split; [lia|]. now split.
Qed.
Lemma before_has : forall (f : Z -> data) l g g' c, (g' < g)%nat -> In c l -> In (f (Z.of_nat g') (fst c) (snd c)) (before f l g).
Proof.
  intros f l g g' c. induction g as [|g IH]; intros Hg Hc; [lia|]. cbn [before]. apply in_or_app.
  destruct (Nat.eq_dec g' g) as [->|N]; [right; apply in_vals; exists c; now split|left; apply IH; [lia|exact Hc]].
Qed.

(** A family is tagged for coarsening exactly if the criterion fails. *)
Theorem C26_coarsen_builtin : forall d o blockno q f xl yl dx dy, usual d -> good_opts d o dx dy ->
  (forall g, 0 <= g < 4 -> all_set d (q g) (f g)) -> (0 < coarsen_threshold o)%Q ->
  exists tag, tag4coarsening d o blockno 0 q xl yl dx dy = Some tag /\ (tag = 0 \/ tag = 1) /\
  (tag = 1 <-> ~ family_criterion d o (coarsen_threshold o) dx dy f).
Proof.
  intros d o blockno q f xl yl dx dy Hd Ho Hq Hth. unfold tag4coarsening.
  rewrite (proj2 (Qgtb_iff _ _) Hth).
  set (t := mkSet blockno dx dy (coarsen_threshold o) 0).
  destruct (C26_coarsen_iff d t (tag_criteria (meqn d) o) q f xl yl Hd (builtin_usable d o t Ho) Hq eq_refl)
    as (tag & l & E & (_ & _ & HV) & H01 & H).
  cbn [t t_block t_dx t_dy t_th t_init] in E. rewrite E. cbn [bind]. exists tag.
  split; [destruct H01 as [-> | ->]; reflexivity|]. split; [exact H01|]. rewrite H. clear E H H01.
  pose proof Hd as (Hx & Hy & Hb & _).
  assert (P11 : In (1, 1) l) by (apply HV; unfold in_array; cbn [fst snd]; lia).
  assert (SW : forall g, holds_somewhere d t (tag_criteria (meqn d) o) (f (Z.of_nat g)) (xl (Z.of_nat g)) (yl (Z.of_nat g)) (before f l g) l <->
    match criteria o with
   | 0 => exists c, In c l /\ value_at (threshold_variable o) (t_th t) (f (Z.of_nat g)) c
   | 1 => exists c, In c l /\ in_patch d c /\ difference_at (threshold_variable o) (t_th t) (f (Z.of_nat g)) c
   | 2 => l <> [] /\ exists u v, In u (before f l (S g)) /\ In v (before f l (S g)) /\
            (t_th t < u (threshold_variable o) - v (threshold_variable o))%Q
   | _ => exists c, In c l /\ in_patch d c /\ ((t_th t < 0)%Q \/ gradient_at (threshold_variable o) (t_dx t) (t_dy t) (t_th t) (f (Z.of_nat g)) c)
   end).
  { intros g. destruct (before_cons f l g) as (r & Er). cbn [before]. rewrite Er. apply somewhere_iff. exact Ho. }
  destruct Ho as (Hcr & _). assert (E : criteria o = 0 \/ criteria o = 1 \/ criteria o = 2 \/ criteria o = 3) by lia.
  unfold family_criterion, patch_criterion.
  assert (GEN : criteria o <> 2 ->
     (forall g, holds_somewhere d t (tag_criteria (meqn d) o) (f (Z.of_nat g)) (xl (Z.of_nat g)) (yl (Z.of_nat g)) (before f l g) l <->
        patch_criterion d o (coarsen_threshold o) dx dy (f (Z.of_nat g))) ->
     ((forall g, (g < 4)%nat -> ~ holds_somewhere d t (tag_criteria (meqn d) o) (f (Z.of_nat g)) (xl (Z.of_nat g)) (yl (Z.of_nat g)) (before f l g) l) <->
       ~ exists g, 0 <= g < 4 /\ patch_criterion d o (coarsen_threshold o) dx dy (f g))).
  { intros _ HH. split.
    - intros K (g & Hg & P). apply (K (Z.to_nat g)); [lia|]. apply HH. now rewrite Z2Nat.id by lia.
    - intros K g Hg P. apply K. exists (Z.of_nat g). split; [lia|]. now apply HH. }
  unfold patch_criterion in GEN.
  destruct E as [E|[E|[E|E]]]; rewrite E in *; cbn [Z.eqb Pos.eqb].
  - apply GEN; [lia|]. intros g. rewrite SW. split; intros (c & H1 & H2); exists c; (split; [now apply HV|exact H2]).
  - apply GEN; [lia|]. intros g. rewrite SW. split; [intros (c & H1 & H2 & H3)|intros (c & H2 & H3)]; exists c; [now split|].
    split; [apply HV; now apply in_patch_array|now split].
  - split.
    + intros K (g & c & g' & c' & Hg & Hg' & Hc & Hc' & H). apply (K 3%nat ltac:(lia)). apply SW.
      split; [intros X; rewrite X in P11; destruct P11|].
      exists (f g (fst c) (snd c)), (f g' (fst c') (snd c')).
      split; [rewrite <- (Z2Nat.id g) by lia; apply before_has; [lia|now apply HV]|].
      split; [rewrite <- (Z2Nat.id g') by lia; apply before_has; [lia|now apply HV]|exact H].
    + intros K g Hg P. apply SW in P. destruct P as (_ & u & v & Hu & Hv & H).
      assert (LIM : forall w, In w (before f l (S g)) -> exists g0 c0, 0 <= g0 < 4 /\ In c0 l /\ w = f g0 (fst c0) (snd c0)).
      { intros w Hw. cbn [before] in Hw. apply in_app_or in Hw. destruct Hw as [Hw|Hw].
        - apply (in_before f l g w P11) in Hw. destruct Hw as (g0 & c0 & G0 & C0 & W0). exists g0, c0. split; [lia|]. now split.
        - apply in_vals in Hw. destruct Hw as (c0 & C0 & W0). exists (Z.of_nat g), c0. split; [lia|]. now split. }
      destruct (LIM u Hu) as (g1 & c1 & G1 & C1 & ->), (LIM v Hv) as (g2 & c2 & G2 & C2 & ->).
      apply K. exists g1, c1, g2, c2. split; [exact G1|]. split; [exact G2|]. split; [now apply HV|]. split; [now apply HV|exact H].
  - apply GEN; [lia|]. intros g. rewrite SW. split.
    + intros (c & H1 & H2 & [H3|H3]); [exfalso; cbn [t t_th] in H3; lra|]. now exists c.
    + intros (c & H2 & H3). exists c. split; [apply HV; now apply in_patch_array|]. split; [exact H2|now right].
Qed.
Print Assumptions C26_coarsen_builtin.

(** With coarsen_threshold <= refine_threshold, no family tagged for coarsening contains a
    patch tagged for refinement. *)
Theorem C26_no_conflict : forall d o blockno init q f xl yl dx dy, usual d -> good_opts d o dx dy ->
  (forall g, 0 <= g < 4 -> all_set d (q g) (f g)) -> (0 < coarsen_threshold o)%Q -> (coarsen_threshold o <= refine_threshold o)%Q ->
  tag4coarsening d o blockno init q xl yl dx dy = Some 1 ->
  forall g, 0 <= g < 4 -> tag4refinement d o blockno init (q g) (xl g) (yl g) dx dy = Some 0.
Proof.
  intros d o blockno init q f xl yl dx dy Hd Ho Hq Hc Hcr Ht g Hg.
  destruct (Z.eq_dec init 0) as [->|N]; [|rewrite (C26_never_coarsen_initially d o blockno init q xl yl dx dy N) in Ht; discriminate Ht].
  destruct (C26_coarsen_builtin d o blockno q f xl yl dx dy Hd Ho Hq Hc) as (tag & E & _ & H). rewrite Ht in E.
  assert (tag = 1) by congruence. subst tag. pose proof (proj1 H eq_refl) as HN.
  destruct (C26_refine_builtin d o blockno 0 (q g) (f g) (xl g) (yl g) dx dy Hd Ho (Hq g Hg) ltac:(lra)) as (tag & E2 & H01 & H2).
  rewrite E2. destruct H01 as [-> | ->]; [reflexivity|]. exfalso. apply HN. pose proof (proj1 H2 eq_refl) as P.
  unfold family_criterion. unfold patch_criterion in *. destruct Ho as (Hk & _).
  assert (EE : criteria o = 0 \/ criteria o = 1 \/ criteria o = 2 \/ criteria o = 3) by lia.
  destruct EE as [K|[K|[K|K]]]; rewrite K in *; cbn [Z.eqb Pos.eqb].
  - destruct P as (c & P1 & P2). exists g. split; [exact Hg|]. exists c. split; [exact P1|]. unfold value_at in *. lra.
  - destruct P as ([i j] & P1 & P2). exists g. split; [exact Hg|]. exists (i, j). split; [exact P1|]. unfold difference_at in *.
    destruct P2 as [P2|P2]; [left|right]; lra.
  - destruct P as (c & c' & P1 & P2 & P3). exists g, c, g, c'. split; [exact Hg|]. split; [exact Hg|]. split; [exact P1|]. split; [exact P2|]. lra.
  - destruct P as ([i j] & P1 & P2). exists g. split; [exact Hg|]. exists (i, j). split; [exact P1|]. unfold gradient_at in *. nra.
Qed.
Print Assumptions C26_no_conflict.

(** ** Instances *)
Definition d26 : dims := mkDims 3 2 1 2.
Definition set26 (f : data) : arr := fun c => let '(i, j, mq) := c in Some (f i j mq).
Lemma set26_ok : forall f, all_set d26 (set26 f) f.
Proof. intros f i j mq _ _ _. reflexivity. Qed.
Definition o26 (k : Z) : topts := mkTopts k 2 None (1#2) (1#10) None.
Definition bump (i j mq : Z) : Q := if (i =? 2) && (j =? 1) && (mq =? 2) then 1%Q else 0%Q.

Example C26_instance_refine : forall k, 0 <= k <= 3 ->
  good_opts d26 (o26 k) (1#2) (1#2) /\ usual d26 /\
  tag4refinement d26 (o26 k) 0 0 (set26 bump) 0 0 (1#2) (1#2) = Some 1 /\
  tag4refinement d26 (o26 k) 0 0 (set26 (fun _ _ _ => 0%Q)) 0 0 (1#2) (1#2) = Some 0.
Proof.
  intros k Hk. split; [repeat split; cbn; try lia; intros; discriminate|]. split; [repeat split; cbn; lia|].
  assert (k = 0 \/ k = 1 \/ k = 2 \/ k = 3) as [->|[->|[->| ->]]] by lia; split; vm_compute; reflexivity.
Qed.
Example C26_instance_builtin :
  tag4refinement d26 (o26 1) 0 0 (set26 (fun i j mq => inject_Z (i * mq))) 0 0 1 1 = Some 1 /\
  tag4refinement d26 (o26 2) 0 0 (set26 (fun i j mq => (inject_Z j / 10)%Q)) 0 0 1 1 = Some 0 /\
  tag4coarsening d26 (o26 2) 0 0 (fun g => set26 (fun i j mq => (inject_Z g / 100)%Q)) (fun _ => 0%Q) (fun _ => 0%Q) 1 1 = Some 1 /\
  tag4coarsening d26 (o26 2) 0 0 (fun g => set26 (fun i j mq => (inject_Z g / 20)%Q)) (fun _ => 0%Q) (fun _ => 0%Q) 1 1 = Some 0 /\
  tag4coarsening d26 (o26 0) 0 1 (fun g => set26 (fun i j mq => 0%Q)) (fun _ => 0%Q) (fun _ => 0%Q) 1 1 = Some 0.
Proof. repeat split; vm_compute; reflexivity. Qed.
(** a usable test of a user that looks at position and running maximum *)
Example C26_instance_user : usable d26 (mkSet 0 1 1 (1#2) 0)
  (fun a => match c_qmax a 1 with Some x => Some (if Qgtb x (c_xc a) then 1 else -1) | None => None end).
Proof.
  split.
  - intros a b (_ & _ & _ & _ & _ & A6 & _ & _ & A9 & _). destruct (A9 1 ltac:(cbn; lia)) as (_ & _ & H).
    destruct (c_qmax a 1) as [x|], (c_qmax b 1) as [y|]; cbn in H; try contradiction; [|reflexivity].
    now rewrite (Qgtb_compat x (c_xc a) y (c_xc b) H A6).
  - intros f xl yl seen [i j] a (_ & _ & _ & _ & _ & _ & _ & _ & A9 & _). destruct (A9 1 ltac:(cbn; lia)) as (_ & _ & x & E & _).
    rewrite E. now eexists.
Qed.

(** The threshold variable is not checked against the number of equations: with one
    equation and threshold_variable = 2 the test reads outside of its arrays. *)
Theorem C26_threshold_variable_refuted : exists d o, usual d /\ 1 <= threshold_variable o /\
  tag4refinement d o 0 0 (set26 (fun _ _ _ => 0%Q)) 0 0 1 1 = None.
Proof.
  exists (mkDims 3 2 1 1), (o26 0). split; [repeat split; cbn; lia|]. split; [cbn; lia|]. vm_compute. reflexivity.
Qed.
Print Assumptions C26_threshold_variable_refuted.
